(** discovery.py: the coercion graph, uniting of types and [discover]. *)
From Verif Require Import Base Types Lexer Printer Construct Parser Ops Preds Numpy Graph.
Local Open Scope Z_scope.

(** ** The coercion graph, discovery.py:238-261 *)

(** [edges], :239-249: (a, b) implies that b can turn into a *)
Definition coerce_pairs : list (ty * ty) :=
  [ (string_t, int64_t); (string_t, float64_t); (string_t, DateT); (string_t, DateTimeT None);
    (string_t, TimeDeltaT $"us"); (string_t, bool_t); (DateTimeT None, DateT);
    (int64_t, int32_t); (float64_t, int64_t); (string_t, NullT) ].
(** :259-260: grouped by the second component, the values being sets of first components *)
Definition group_step (d : list (ty * list ty)) (e : ty * ty) : list (ty * list ty) :=
  let (a, b) := e in dset py_eq d b (sadd py_eq a (succs py_eq d b)).
Definition coerce_dict0 : list (ty * list ty) := fold_left group_step coerce_pairs [].

(** what Python does not fix: which element [set.pop] takes, and the iteration order of the
    value sets (which have at most two elements: reversed or not) *)
Record sched := { sc_pop : nat -> nat; sc_rev : ty -> bool }.

Section Discovery.
  Variable sc : sched.

  Definition coerce_dict : list (ty * list ty) :=
    map (fun kv => (fst kv, if sc_rev sc (fst kv) then rev (snd kv) else snd kv)) coerce_dict0.
  (** [toposorted], :261 *)
  Definition toposorted : res (list ty) := toposort py_eq (sc_pop sc) coerce_dict.

  (** [toposorted.index(x)] *)
  Fixpoint index_of (l : list ty) (x : ty) : option nat :=
    match l with
    | [] => None
    | y :: r => if py_eq y x then Some O else option_map S (index_of r x)
    end.
  (** [min(common, key=toposorted.index)] *)
  Fixpoint min_by (topo : list ty) (best : ty) (kbest : nat) (l : list ty) : res ty :=
    match l with
    | [] => Ok best
    | x :: r =>
        match index_of topo x with
        | None => Raise ValueErr
        | Some k => if Nat.ltb k kbest then min_by topo x k r else min_by topo best kbest r
        end
    end.
  Definition min_index (topo : list ty) (l : list ty) : res ty :=
    match l with
    | [] => Raise ValueErr
    | x :: r => match index_of topo x with None => Raise ValueErr | Some k => min_by topo x k r end
    end.
  (** [set.intersection(first, *rest)] *)
  Definition intersection (first : list ty) (rest : list (list ty)) : list ty :=
    filter (fun x => forallb (memb py_eq x) rest) first.
  (** [lowest_common_dshape], :264-279; [set.intersection()] without sets is a TypeError *)
  Definition lowest_common (dshapes : list ty) : res ty :=
    let! topo := toposorted in
    let! sets := mapM (descendents py_eq coerce_dict) dshapes in
    match sets with
    | [] => Raise TypeErr
    | s :: rest =>
        let common := intersection s rest in
        match common with
        | [] => Raise ValueErr
        | _ => if existsb (fun c => memb py_eq c topo) common then min_index topo common
               else Raise ValueErr
        end
    end.

  (** ** Uniting types *)

  (** [unpack], :351-363 *)
  Definition unpack (t : ty) : ty := match t with DataShapeT _ [x] => x | _ => t end.
  (** [isnull], :232-233 *)
  Definition isnull (t : ty) : bool := py_eq t NullT || py_eq t (DataShapeT None [NullT]).
  Definition len {A} (l : list A) : Z := Z.of_nat (length l).
  (** [ds.dict.get(name, null)]; only Records have [dict] *)
  Definition dict_get_null (name : str) (t : ty) : res ty :=
    match t with
    | RecordT fs => Ok (match assoc name (rev fs) with Some u => u | None => NullT end)
    | _ => Raise AttributeErr
    end.
  (** [unite_base], :282-308. The condition of the [elif] is a generator, hence always true;
      so [base] is always bound, and datashape objects are truthy ([len] is positive). *)
  Fixpoint unite_baseF (n : nat) (l0 : list ty) : res ty :=
    match n with
    | O => Raise OutOfFuel
    | S n' =>
        let l := map unpack l0 in
        let (good, nulls) := groupby_bool isnull l in
        match good with
        | [] => mul_int (len l) NullT
        | g0 :: _ =>
            let! base :=
              if forallb is_Unit good then lowest_common good
              else match g0 with
                   | RecordT fs =>
                       let! fs' := mapM (fun f : str * ty =>
                         let! col := mapM (dict_get_null (fst f)) good in
                         let! u := unite_baseF n' col in
                         let! s := subshape (IxInt 0) u in
                         Ok (fst f, PTy s)) fs in
                       mk_record no_dsh fs'
                   | _ => Raise AttributeErr
                   end in
            let! base := match nulls with
                         | [] => Ok base
                         | _ :: _ => mk_option no_dsh (PTy base)
                         end in
            mul_int (len l) base
        end
    end.
  Definition unite_base (l : list ty) : res ty := unite_baseF (S (S (lsize l))) l.

  (** [len(set(l)) == 1] *)
  Definition all_same (l : list ty) : bool :=
    match l with [] => false | x :: r => forallb (fun y => py_eq y x) r end.
  (** [unite_identical], :311-318; [None] when it returns None *)
  Definition unite_identical (l : list ty) : res (option ty) :=
    if all_same l then
      match l with
      | x :: _ => let! t := mul_int (len l) x in Ok (Some t)
      | [] => Ok None
      end
    else Ok None.
  (** [unite_merge_dimensions], :321-338 *)
  Definition unite_merge (l : list ty) : res (option ty) :=
    if forallb (fun t => is_DataShape t && is_dimension (ds_head t)) l then
      let dims := map ds_head l in
      let! subs := mapM (subshape (IxInt 0)) l in
      let! base := unite_identical subs in
      match base with
      | None => Ok None
      | Some b =>
          let! s := subshape (IxInt 0) b in
          let! inner := if all_same dims then mul_ty (hd VarT dims) s else mul_ty VarT s in
          let! t := mul_int (len l) inner in Ok (Some t)
      end
    else Ok None.
  (** [Tuple] as the last alternative of [do_one] *)
  Definition tuple_of (l : list ty) : res (option ty) :=
    let! t := mk_tuple no_dsh (map PTy l) in Ok (Some t).
  (** [do_one], :341-348: [None] when the input list itself is returned *)
  Fixpoint do_one (fs : list (list ty -> res (option ty))) (l : list ty) : res (option ty) :=
    match fs with
    | [] => Ok None
    | f :: r => let! x := f l in match x with Some t => Ok (Some t) | None => do_one r l end
    end.
  (** [unite([...]).subshape[0]] for a column, :210-211, 221-222; a list has no [subshape] *)
  Definition column_type (col : list (res ty)) : res ty :=
    let! ts := mapM (fun r => r) col in
    let! u := do_one [unite_identical; (fun l => let! t := unite_base l in Ok (Some t)); unite_merge] ts in
    match u with
    | Some t => subshape (IxInt 0) t
    | None => Raise AttributeErr
    end.
  (** [do_one([unite_identical, unite_merge_dimensions, Tuple])(types)]; Tuple never fails to
      give a datashape *)
  Definition unite_final (ts : list ty) : res ty :=
    let! u := do_one [unite_identical; unite_merge; tuple_of] ts in
    match u with Some t => Ok t | None => Raise NotModelled end.

  (** ** Sorting of keys *)
  Fixpoint insert_key {B} (f : str * B) (l : list (str * B)) : list (str * B) :=
    match l with
    | [] => [f]
    | g :: r => if str_leb (fst f) (fst g) then f :: l else g :: insert_key f r
    end.
  (** a dict in the order of [sorted(d)] *)
  Definition sort_keys {B} (l : list (str * B)) : list (str * B) := fold_right insert_key [] l.
  (** [sorted(set(l))] *)
  Fixpoint insert_str (s : str) (l : list str) : list str :=
    match l with
    | [] => [s]
    | g :: r => if str_eqb s g then l else if str_leb s g then s :: l else g :: insert_str s r
    end.
  Definition sorted_set (l : list str) : list str := fold_right insert_str [] l.

  (** ** Values *)
  Inductive seqkind := KList | KTuple | KSet.       (* set stands for set and frozenset *)
  Inductive mapkind := KDict | KOrdered | KProxy.   (* dict, OrderedDict, mappingproxy *)
  (** Python values given to [discover]. A set carries its iteration order; the keys of a
      mapping are strings, pairwise different. [DArr] is an ndarray with its shape, dtype and
      the results of [is_string_array] on it ([None]) and on its fields. [DOther] is an object
      without a registered [discover] and without [shape] and [dtype]. [DLike] is a NumPy scalar
      (with shape ()), or another object with [shape] and [dtype]: np.number :377-379,
      np.integer :87-89, np.timedelta64 :382-384, and the default :28-67 all return
      [from_numpy(shape, dtype)]. (np.float64 and np.complex128 are also Python floats and
      complexes; both methods give the same type.) *)
  Inductive dval :=
  | DNone | DInt (z : Z) | DBool (b : bool) | DFloat | DComplex | DStr (s : str) | DBytes
  | DDateTime | DDate | DTime | DTimeDelta
  | DArr (shp : list Z) (dt : npdt) (strs : option str -> bool)
  | DLike (shp : list Z) (dt : npdt)
  | DSeq (k : seqkind) (l : list dval)
  | DMap (k : mapkind) (l : list (str * dval))
  | DOther.

  (** Python's own parsers, used on strings *)
  Record strings := {
    so_int : str -> bool;               (* int(s) succeeds *)
    so_float : str -> option (option Z);(* None: float(s) raises ValueError; Some z: its value
                                           when it is an integer *)
    so_time : str -> bool;              (* strptime with one of the formats succeeds *)
    so_alpha : str -> bool;             (* s.isalpha() *)
    so_date : str -> res bool           (* dateutil's parse; whether the time part is zero *)
  }.
  Variable so : strings.

  (** [re.split('\s+', x.strip())]; the empty string gives [''], here the empty list *)
  Fixpoint words (cur : str) (s : str) : list str :=
    match s with
    | [] => match cur with [] => [] | _ => [rev cur] end
    | c :: r => if is_space c
                then match cur with [] => words [] r | _ => rev cur :: words [] r end
                else words (c :: cur) r
    end.
  (** [discover(deltaparse(s))], :148-165 and :382-384; np.timedelta64 takes 64-bit integers *)
  Definition deltaparse (s : str) : res ty :=
    match words [] s with
    | [value; unit] =>
        match so_float so value with
        | Some (Some z) =>
            let! u := normalize_time_unit unit in
            if (- 2 ^ 63 <=? z) && (z <? 2 ^ 63) then from_numpy [] (NTimedelta u 1)
            else Raise OverflowErr
        | _ => Raise ValueErr
        end
    | _ => Raise ValueErr
    end.
  (** [bools], :132-135 *)
  Definition bools : list str := [$"False"; $"false"; $"True"; $"true"].
  (** the [try: return ... except (ValueError, KeyError): pass] of :180-184 *)
  Definition or_else (r : res ty) (k : res ty) : res ty :=
    match r with Raise ValueErr | Raise KeyErr => k | _ => r end.
  (** [discover] on strings, :175-197 *)
  Definition discover_str (s : str) : res ty :=
    match s with
    | [] => Ok NullT
    | _ =>
        or_else (if so_int so s then Ok int64_t else Raise ValueErr)
       (or_else (match so_float so s with Some _ => Ok float64_t | None => Raise ValueErr end)
       (or_else (if mem_str s bools then Ok bool_t else Raise KeyErr)
       (or_else (deltaparse s)
       (or_else (if so_time so s then Ok (TimeT None) else Raise ValueErr)
       (if so_alpha so s || forallb is_space s then Ok string_t
        else match so_date so s with
             | Ok true => Ok DateT
             | Ok false => Ok (DateTimeT None)
             | Raise ValueErr | Raise OverflowErr => Ok string_t
             | Raise e => Raise e
             end)))))
    end.

  (** [discover] on an ndarray, :387-414 *)
  Definition discover_arr (shp : list Z) (dt : npdt) (strs : option str -> bool) : res ty :=
    let! ds := from_numpy shp dt in
    if py_eq (measure ds) object_t && strs None then mk_ds (shape ds ++ [string_t])
    else match isrecord (measure ds), measure ds with
         | true, RecordT fs =>
             if existsb (fun f => py_eq (snd f) object_t) fs then
               let! m := mk_record no_dsh
                 (map (fun f => (fst f, PTy (if py_eq (snd f) object_t && strs (Some (fst f))
                                             then string_t else snd f))) fs) in
               mk_ds (shape ds ++ [m])
             else Ok ds
         | _, _ => Ok ds
         end.

  (** ** [discover] on sequences, :200-229. [own]: the results on the elements; [rows]: the
      results on the elements' elements when the element is a tuple or list; [dicts]: the
      results on the elements' values when the element is a dict. *)
  Fixpoint all_some {B} (l : list (option B)) : option (list B) :=
    match l with
    | [] => Some []
    | Some x :: r => option_map (cons x) (all_some r)
    | None :: _ => None
    end.
  Definition same_lengths {B} (rows : list (list B)) : bool :=
    match rows with [] => false | r :: rs => forallb (fun x => Nat.eqb (length x) (length r)) rs end.
  (** [zip( *rows)] for rows of the same length [m] *)
  Definition transpose {B} (d : B) (m : nat) (rows : list (list B)) : list (list B) :=
    map (fun i => map (fun r => nth i r d) rows) (seq 0 m).
  (** [except AttributeError: pass] *)
  Definition on_attribute_error (r k : res ty) : res ty :=
    match r with Raise AttributeErr => k | _ => r end.
  Definition discover_rows (rows : list (list (res ty))) : res ty :=
    let! types := mapM column_type (transpose (Ok NullT) (length (hd [] rows)) rows) in
    let! t := unite_final types in
    mul_int (len rows) t.
  (** [item.get(key)] then [discover]: a missing key gives None, hence null *)
  Definition get_or_null (key : str) (d : list (str * res ty)) : res ty :=
    match assoc key d with Some r => r | None => Ok NullT end.
  Definition discover_dicts (dicts : list (list (str * res ty))) : res ty :=
    let keys := sorted_set (flat_map (map fst) dicts) in
    let! types := mapM (fun key => column_type (map (get_or_null key) dicts)) keys in
    let! r := mk_record no_dsh (map (fun kt => (fst kt, PTy (snd kt))) (combine keys types)) in
    mul_int (len dicts) r.
  Definition discover_seq (own : list (res ty)) (rows : list (option (list (res ty))))
      (dicts : list (option (list (str * res ty)))) : res ty :=
    match own with
    | [] => mul_ty VarT string_t
    | _ =>
        let fallback := let! types := mapM (fun r => r) own in unite_final types in
        let step2 := match all_some dicts with
                     | Some ds => on_attribute_error (discover_dicts ds) fallback
                     | None => fallback
                     end in
        match all_some rows with
        | Some rs => if same_lengths rs then on_attribute_error (discover_rows rs) step2 else step2
        | None => step2
        end
    end.

  (** [Record((k, discover(v)) for ...)], :366-374 *)
  Definition discover_items (items : list (str * res ty)) : res ty :=
    let! fs := mapM (fun kr : str * res ty => let! t := snd kr in Ok (fst kr, PTy t)) items in
    mk_record no_dsh fs.

  (** [discover], :27-139, 366-415 *)
  Fixpoint discover (v : dval) : res ty :=
    match v with
    | DNone => Ok NullT
    | DInt _ => Ok int64_t
    | DBool _ => Ok bool_t
    | DFloat => Ok float64_t
    | DComplex => Ok complex128_t
    | DStr s => discover_str s
    | DBytes => mk_string None (Some $"A")
    | DDateTime => Ok (DateTimeT None)
    | DDate => Ok DateT
    | DTime => Ok (TimeT None)
    | DTimeDelta => mk_timedelta $"us"
    | DArr shp dt strs => discover_arr shp dt strs
    | DLike shp dt => from_numpy shp dt
    | DSeq _ l =>
        discover_seq (map discover l)
          (map (fun x => match x with
                         | DSeq KList l2 | DSeq KTuple l2 => Some (map discover l2)
                         | _ => None
                         end) l)
          (map (fun x => match x with
                         | DMap KDict d | DMap KOrdered d =>
                             Some (map (fun kv => (fst kv, discover (snd kv))) d)
                         | _ => None
                         end) l)
    | DMap KOrdered d => discover_items (map (fun kv => (fst kv, discover (snd kv))) d)
    | DMap _ d => discover_items (sort_keys (map (fun kv => (fst kv, discover (snd kv))) d))
    | DOther => Raise NotImplErr
    end.
End Discovery.

(** The environment of the parser in which [discover] is the function above: Categorical
    without a type calls [discover] on its tuple of categories, coretypes.py:1110-1112. *)
Definition lit_val (l : pylit) : dval :=
  match l with LInt z => DInt z | LBool b => DBool b | LStr s => DStr s end.
Definition full_env (U : uni) (sc : sched) (so : strings) : env :=
  {| e_uni := U; e_disc := fun lits => discover sc so (DSeq KTuple (map lit_val lits)) |}.
