(** Operations on datashapes: [*], subarray, subshape, Record literals, Record access
    (coretypes.py), cat_dshapes (util), pickling. *)
From Verif Require Import Base Types Lexer Printer Construct Parser.
Local Open Scope Z_scope.

Section Mul.
  Variable dsh : str -> res ty.

  (** [DataShape.__rmul__], coretypes.py:610-613: [DataShape(other, *self)]; [ps] are the
      parameters of the DataShape *)
  Definition datashape_rmul (ps : list ty) (other : parg) : res ty :=
    match other with
    | PInt z => let! f := mk_fixed z in mk_datashape dsh None (PTy f :: map PTy ps)
    | _ => mk_datashape dsh None (other :: map PTy ps)
    end.
  (** [Mono.__mul__], coretypes.py:142-151, on a datashape, an int or another object *)
  Definition mono_mul_nostr (self : ty) (other : parg) : res ty :=
    match other with
    | PInt z => let! f := mk_fixed z in mk_datashape dsh None [PTy self; PTy f]
    | PTy (DataShapeT _ ps) => datashape_rmul ps (PTy self)
    | _ => mk_datashape dsh None [PTy self; other]
    end.
  (** [x.__rmul__(other)]: DataShape :610-613, Mono :153-160 *)
  Definition py_rmul (x : ty) (other : parg) : res ty :=
    match x with
    | DataShapeT _ ps => datashape_rmul ps other
    | _ =>
        match other with
        | PStr s => let! d := dsh s in mono_mul_nostr x (PTy d)
        | PInt z => let! f := mk_fixed z in mk_datashape dsh None [PTy f; PTy x]
        | _ => mk_datashape dsh None [other; PTy x]
        end
    end.
  (** [self * other], coretypes.py:142-151 *)
  Definition mono_mul (self : ty) (other : parg) : res ty :=
    match other with
    | PStr s => let! d := dsh s in py_rmul d (PTy self)
    | _ => mono_mul_nostr self other
    end.
  (** [a * b] where at least one operand is a datashape object: Python tries [a.__mul__],
      and [b.__rmul__] when [a] is an int or a string *)
  Definition py_mul (a b : parg) : res ty :=
    match a, b with
    | PTy t, _ => mono_mul t b
    | _, PTy t => py_rmul t a
    | _, _ => Raise NotModelled
    end.
End Mul.

(** multiplication of datashape objects and ints (no strings involved) *)
Definition mul_ty (a b : ty) : res ty := py_mul no_dsh (PTy a) (PTy b).
Definition mul_int (n : Z) (b : ty) : res ty := py_mul no_dsh (PInt n) (PTy b).

(** ** subarray *)

(** Python slice [l[i:]] *)
Definition slice_from {A} (l : list A) (i : Z) : list A :=
  let n := Z.of_nat (length l) in
  let j := if i <? 0 then Z.max 0 (n + i) else Z.min i n in
  skipn (Z.to_nat j) l.
(** [DataShape.subarray], coretypes.py:592-608 and [Mono.subarray], :131-140 *)
Definition subarray (t : ty) (leading : Z) : res ty :=
  match t with
  | DataShapeT _ ps =>
      let n := Z.of_nat (length ps) in
      if n <=? leading then Raise IndexErr
      else if (leading =? n - 1) || (leading =? -1) then mk_ds [last ps NullT]
      else mk_ds (slice_from ps leading)
  | _ => if 1 <=? leading then Raise IndexErr else Ok t
  end.

(** ** Python sequence indexing *)

(** [l[i]] with an int *)
Definition py_nth {A} (l : list A) (i : Z) : res A :=
  let n := Z.of_nat (length l) in
  let j := if i <? 0 then n + i else i in
  if (j <? 0) || (n <=? j) then Raise IndexErr
  else match nth_error l (Z.to_nat j) with Some x => Ok x | None => Raise IndexErr end.

(** CPython's [slice.indices] (PySlice_AdjustIndices): start, stop, step and length *)
Definition slice_indices (start stop step : option Z) (n : Z) : res (Z * Z * Z) :=
  let st := match step with None => 1 | Some s => s end in
  if st =? 0 then Raise ValueErr
  else
    let lower := if st <? 0 then -1 else 0 in
    let upper := if st <? 0 then n - 1 else n in
    let adj (x : option Z) (dflt : Z) :=
      match x with
      | None => dflt
      | Some v => if v <? 0 then Z.max (v + n) lower else Z.min v upper
      end in
    let a := adj start (if st <? 0 then upper else lower) in
    let b := adj stop (if st <? 0 then lower else upper) in
    Ok (a, b, st).
Definition slice_length (a b st : Z) : Z :=
  if st <? 0 then (if b <? a then (a - b - 1) / (- st) + 1 else 0)
  else (if a <? b then (b - a - 1) / st + 1 else 0).
(** [l[start:stop:step]] *)
Definition py_slice {A} (l : list A) (start stop step : option Z) : res (list A) :=
  let! (a, b, st) := slice_indices start stop step (Z.of_nat (length l)) in
  let k := Z.to_nat (slice_length a b st) in
  mapM (fun i => py_nth l (a + Z.of_nat i * st)) (seq 0 k).

(** [l.index(x)] on strings *)
Fixpoint str_index (x : str) (l : list str) : option nat :=
  match l with
  | [] => None
  | y :: r => if str_eqb y x then Some O else option_map S (str_index x r)
  end.

(** ** [int(ceil(a / b))] on ints: Python's true division is correctly rounded (half to
    even) to binary64, coretypes.py:696. Computed with integers: [a/b] is scaled so that
    the significand has 53 bits (fewer below the smallest normal number). *)

(** round half to even of n/d, n >= 0, d > 0 *)
Definition rne (n d : Z) : Z :=
  let q := n / d in
  let r := n mod d in
  if 2 * r <? d then q
  else if d <? 2 * r then q + 1
  else if Z.even q then q else q + 1.
(** floor(log2(n/d)), n, d > 0 *)
Definition log2_ratio (n d : Z) : Z :=
  let k := Z.log2 n - Z.log2 d in
  let ge := if 0 <=? k then d * 2 ^ k <=? n else d <=? n * 2 ^ (- k) in
  if ge then k else k - 1.
(** significand and exponent of the binary64 nearest to n/d *)
Definition fl_div (n d : Z) : Z * Z :=
  let e := Z.max (log2_ratio n d - 52) (-1074) in
  ((if 0 <=? e then rne n (d * 2 ^ e) else rne (n * 2 ^ (- e)) d), e).
Definition ceil_div_float (a b : Z) : res Z :=
  if b =? 0 then Raise ZeroDivErr
  else if a =? 0 then Ok 0
  else
    let (m, e) := fl_div (Z.abs a) (Z.abs b) in
    let neg := negb (Bool.eqb (a <? 0) (b <? 0)) in
    if (0 <=? e) && (2 ^ 1024 <=? m * 2 ^ e) then Raise OverflowErr
    else if 0 <=? e then Ok ((if neg then -1 else 1) * (m * 2 ^ e))
    else if neg then Ok (- (m / 2 ^ (- e)))
    else Ok ((m + 2 ^ (- e) - 1) / 2 ^ (- e)).

(** ** subshape, coretypes.py:615-710 *)

(** values usable as an index; slices with integer or missing bounds *)
Inductive index :=
| IxInt (z : Z)
| IxStr (s : str)
| IxNone
| IxList (l : list index)
| IxSlice (start stop step : option Z)
| IxTuple (l : list index).

(** [isdimension], predicates.py, on datashape objects *)
Definition is_dimension (t : ty) : bool := is_Fixed t || is_Var t || is_Ellipsis t.

(** [self[0]] *)
Definition ds_head (t : ty) : ty := match t with DataShapeT _ (x :: _) => x | _ => t end.

(** [x or d] for an optional int *)
Definition or_int (x : option Z) (d : Z) : Z :=
  match x with None => d | Some v => if v =? 0 then d else v end.

(** [count] of the slice branch, :673-696; [None] stands for [var] *)
Definition slice_count (d : ty) (start stop step : option Z) : res (option Z) :=
  let c :=
    match d with
    | FixedT n =>
        let a := or_int start 0 in
        let b := or_int stop n in
        let a := if a <? 0 then n + a else a in
        let b := if b <? 0 then n + b else b in
        Some (b - a)
    | _ =>
        let a := or_int start 0 in
        match stop with
        | None => None
        | Some b => if (0 <=? b) && (0 <=? a) then Some (b - a) else None
        end
    end in
  match c, step with
  | Some c, Some s => let! k := ceil_div_float c s in Ok (Some k)
  | _, _ => Ok c
  end.

(** [names.index(i) if isinstance(i, str) else i], :661-663 *)
Definition field_number (fs : list (str * ty)) (i : index) : res index :=
  match i with
  | IxStr s => match str_index s (map fst fs) with
               | Some k => Ok (IxInt (Z.of_nat k))
               | None => Raise ValueErr
               end
  | _ => Ok i
  end.
(** [rec.parameters[0][i]]: a field, or the tuple of the fields of a slice *)
Definition item_at (fs : list (str * ty)) (i : index) : res ((str * ty) + list (str * ty)) :=
  match i with
  | IxInt z => let! f := py_nth fs z in Ok (inl f)
  | IxSlice a b c => let! l := py_slice fs a b c in Ok (inr l)
  | _ => Raise TypeErr
  end.
(** [for name, _ in fields] and [_launder(v) for _, v in fields], :1048-1054, on these items: a
    tuple of fields must have two elements, and its second one is no type *)
Definition unpackable (x : (str * ty) + list (str * ty)) : bool :=
  match x with inl _ => true | inr l => Nat.eqb (length l) 2 end.
Definition as_field (x : (str * ty) + list (str * ty)) : res (str * ty) :=
  match x with inl f => Ok f | inr _ => Raise TypeErr end.
Definition select_fields (fs : list (str * ty)) (l : list index) : res (list (str * ty)) :=
  let! xs := mapM (item_at fs) l in
  if forallb unpackable xs then mapM as_field xs else Raise ValueErr.
(** [Record(fields)] on fields of an existing record *)
Definition sub_record (fs : list (str * ty)) : res ty :=
  mk_record no_dsh (map (fun f => (fst f, PTy (snd f))) fs).

(** indices other than tuples *)
Definition subshape_plain (t : ty) (i : index) : res ty :=
  let d := ds_head t in
  match i with
  | IxInt z =>
      if is_dimension d then subarray t 1
      else match d with
           | RecordT fs => let! f := py_nth fs z in Ok (snd f)
           | _ => Raise TypeErr
           end
  | IxStr s =>
      match d with
      | RecordT fs => match assoc s (rev fs) with Some u => Ok u | None => Raise KeyErr end
      | _ => Raise TypeErr
      end
  | IxList l =>
      match d with
      | RecordT fs =>
          let! l' := mapM (field_number fs) l in
          let! sel := select_fields fs l' in
          let! r := sub_record sel in mk_ds [r]
      | _ => if is_dimension d
             then let! s := subarray t 1 in mul_int (Z.of_nat (length l)) s
             else Raise TypeErr
      end
  | IxSlice a b c =>
      match d with
      | RecordT fs => let! sel := py_slice fs a b c in let! r := sub_record sel in mk_ds [r]
      | _ =>
          let! n := slice_count d a b c in
          let! s := subarray t 1 in
          match n with
          | Some k => mul_int k s
          | None => mul_ty VarT s
          end
      end
  | IxNone | IxTuple _ => Raise TypeErr
  end.

(** [_subshape]; the tuple branch is :698-708 *)
Fixpoint subshape (i : index) (t : ty) {struct i} : res ty :=
  match i with
  | IxTuple l =>
      (fix go (l : list index) (t : ty) {struct l} : res ty :=
         match l with
         | [] => Ok t
         | i0 :: r =>
             match i0 with
             | IxNone => let! s := go r t in mul_int 1 s
             | _ =>
                 match r with
                 | [] => subshape i0 t
                 | _ =>
                     let! sub := subarray t 1 in
                     let! ds := go r sub in
                     let! full := mul_ty (ds_head t) ds in
                     subshape i0 full
                 end
             end
         end) l t
  | _ => subshape_plain t i
  end.

(** ** cat_dshapes, util/__init__.py:59-88 *)

(** [ds[0]] (a Record looks its fields up) *)
Definition seq_head (t : ty) : res ty :=
  match t with
  | DataShapeT _ (x :: _) => Ok x
  | DataShapeT _ [] => Raise IndexErr
  | RecordT _ => Raise KeyErr
  | _ => Ok t
  end.
(** [ds[1:]]: a tuple for a DataShape, a list otherwise *)
Definition seq_tail (t : ty) : bool * list ty :=
  match t with DataShapeT _ ps => (true, tl ps) | _ => (false, []) end.
Definition seq_eqb (a b : bool * list ty) : bool :=
  Bool.eqb (fst a) (fst b) && list_eqb py_eq (snd a) (snd b).
(** [operator.index] on a datashape object *)
Definition py_index (t : ty) : res Z :=
  match t with FixedT n => Ok n | _ => Raise TypeErr end.
Fixpoint cat_loop (inner : bool * list ty) (acc : Z) (l : list ty) : res Z :=
  match l with
  | [] => Ok acc
  | ds :: r =>
      let! h := seq_head ds in
      let! n := py_index h in
      if seq_eqb (seq_tail ds) inner then cat_loop inner (acc + n) r
      else Raise ValueErr
  end.
Definition cat_dshapes (l : list ty) : res ty :=
  match l with
  | [] => Raise ValueErr
  | [d] => Ok d
  | d :: r =>
      let! h := seq_head d in
      let! n := py_index h in
      let! total := cat_loop (seq_tail d) n r in
      let! f := mk_fixed total in
      mk_ds (f :: snd (seq_tail d))
  end.

(** ** Records: fields, names, types, [rec[name]], coretypes.py:1063-1087 *)
Definition rec_names (fs : list (str * ty)) : list str := map fst fs.
Definition rec_types (fs : list (str * ty)) : list ty := map snd fs.
(** [dict(fields)[key]]: the last pair with that key *)
Definition rec_get (fs : list (str * ty)) (key : str) : res ty :=
  match assoc key (rev fs) with Some t => Ok t | None => Raise KeyErr end.

(** ** Record literals, RecordMeta, coretypes.py:949-983 *)
Inductive ritem :=
| RSlice (start stop step : option parg)     (* slice(start, stop, step) *)
| RNotSlice.
Definition unpack_slice (s : ritem) : res (str * parg) :=
  match s with
  | RNotSlice => Raise TypeErr
  | RSlice name type step =>
      match name with
      | None => Raise TypeErr
      | Some (PStr n) =>
          match type, step with
          | None, None => Raise TypeErr
          | _, Some _ => Raise TypeErr
          | Some t, None => Ok (n, t)
          end
      | Some _ => Raise TypeErr
      end
  end.
(** [R[items]]; a single item is wrapped in a tuple *)
Definition record_literal (dsh : str -> res ty) (items : list ritem) : res ty :=
  let! fs := mapM unpack_slice items in mk_record dsh fs.

(** ** Pickling: Mono.__getstate__/__setstate__, coretypes.py:162-170, DataShape :712-715.
    A pickled object is its class together with its state tuple; [k] is the class. *)
Inductive pyv :=
| VNoneV | VIntV (z : Z) | VBoolV (b : bool) | VStrV (s : str)
| VTupV (l : list pyv)
| VObjV (k : nat) (state : list pyv).
Definition v_ostr (o : option str) := match o with None => VNoneV | Some s => VStrV s end.
Definition v_oint (o : option Z) := match o with None => VNoneV | Some s => VIntV s end.
Definition v_lit (l : pylit) :=
  match l with LInt z => VIntV z | LBool b => VBoolV b | LStr s => VStrV s end.
(** [__getstate__] is [parameters], in the order of [__slots__]; components are pickled
    recursively *)
Fixpoint pickle (t : ty) : pyv :=
  VObjV (class_ix t)
    (match t with
     | CType n i a => [VStrV n; VIntV i; VIntV a]
     | NullT | BytesT | DateT | JSONT | VarT => []
     | TimeT z | DateTimeT z => [v_ostr z]
     | TimeDeltaT u => [VStrV u]
     | UnitsT u t' => [VStrV u; pickle t']
     | StringT f e => [v_oint f; VStrV e]
     | DecimalT p s => [VIntV p; VIntV s]
     | FixedT v => [VIntV v]
     | TypeVarT s => [VStrV s]
     | EllipsisT None => [VNoneV]
     | EllipsisT (Some s) => [VObjV 13 [VStrV s]]
     | DataShapeT _ ps => map pickle ps
     | OptionT t' => [pickle t']
     | FunctionT ps => map pickle ps
     | MapT k v => [pickle k; pickle v]
     | RecordT fs => [VTupV (map (fun f => VTupV [VStrV (fst f); pickle (snd f)]) fs)]
     | CategoricalT c t' o => [VTupV (map v_lit c); pickle t'; VBoolV o]
     | TupleT ds => [VTupV (map pickle ds)]
     | TypeSetT ts n => [VTupV (map pickle ts); v_ostr n]
     end).

(** [__setstate__] on a fresh instance of class [k]: the slots are assigned in order *)
Definition u_ostr (v : pyv) : option (option str) :=
  match v with VNoneV => Some None | VStrV s => Some (Some s) | _ => None end.
Definition u_oint (v : pyv) : option (option Z) :=
  match v with VNoneV => Some None | VIntV s => Some (Some s) | _ => None end.
Definition u_lit (v : pyv) : option pylit :=
  match v with
  | VIntV z => Some (LInt z) | VBoolV b => Some (LBool b) | VStrV s => Some (LStr s)
  | _ => None
  end.
Fixpoint sequence {A} (l : list (option A)) : option (list A) :=
  match l with
  | [] => Some []
  | Some x :: r => option_map (cons x) (sequence r)
  | None :: _ => None
  end.
Fixpoint unpickle (v : pyv) : option ty :=
  match v with
  | VObjV k st =>
      match k, st with
      | 0%nat, [VStrV n; VIntV i; VIntV a] => Some (CType n i a)
      | 1%nat, [] => Some NullT
      | 2%nat, [] => Some BytesT
      | 3%nat, [] => Some DateT
      | 4%nat, [] => Some JSONT
      | 5%nat, [] => Some VarT
      | 6%nat, [z] => option_map TimeT (u_ostr z)
      | 7%nat, [z] => option_map DateTimeT (u_ostr z)
      | 8%nat, [VStrV u] => Some (TimeDeltaT u)
      | 9%nat, [VStrV u; t] => option_map (UnitsT u) (unpickle t)
      | 10%nat, [f; VStrV e] => option_map (fun f => StringT f e) (u_oint f)
      | 11%nat, [VIntV p; VIntV s] => Some (DecimalT p s)
      | 12%nat, [VIntV n] => Some (FixedT n)
      | 13%nat, [VStrV s] => Some (TypeVarT s)
      | 14%nat, [VNoneV] => Some (EllipsisT None)
      | 14%nat, [VObjV 13%nat [VStrV s]] => Some (EllipsisT (Some s))
      | 15%nat, _ => option_map (DataShapeT None) (sequence (map unpickle st))
      | 16%nat, [t] => option_map OptionT (unpickle t)
      | 17%nat, _ => option_map FunctionT (sequence (map unpickle st))
      | 18%nat, [k; v] =>
          match unpickle k, unpickle v with Some k, Some v => Some (MapT k v) | _, _ => None end
      | 19%nat, [VTupV fs] =>
          option_map RecordT
            (sequence (map (fun f => match f with
                                     | VTupV [VStrV n; t] => option_map (fun t => (n, t)) (unpickle t)
                                     | _ => None
                                     end) fs))
      | 20%nat, [VTupV c; t; VBoolV o] =>
          match sequence (map u_lit c), unpickle t with
          | Some c, Some t => Some (CategoricalT c t o)
          | _, _ => None
          end
      | 21%nat, [VTupV ds] => option_map TupleT (sequence (map unpickle ds))
      | 22%nat, [VTupV ts; n] =>
          match sequence (map unpickle ts), u_ostr n with
          | Some ts, Some n => Some (TypeSetT ts n)
          | _, _ => None
          end
      | _, _ => None
      end
  | _ => None
  end.
