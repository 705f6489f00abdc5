(** predicates.py, [has]/[collect] of util/__init__.py, error.py, the type registry of
    coretypes.py, and util/testing.py. *)
From Verif Require Import Base Types Lexer Construct Parser Ops.
Local Open Scope Z_scope.

(** ** has, has_var_dim, has_ellipsis: util/__init__.py:113-146 *)

(** [has(typ, ds)]; the parameters of a Mono that are not datashape objects (ints, strings,
    None) contain nothing; the tuple of a Tuple is entered item by item, a Record through
    its types; an Ellipsis has its type variable as parameter *)
Fixpoint has (typ : ty -> bool) (t : ty) : bool :=
  typ t ||
  match t with
  | RecordT fs => existsb (fun f => has typ (snd f)) fs
  | UnitsT _ u | OptionT u | CategoricalT _ u _ => has typ u
  | DataShapeT _ l | FunctionT l | TupleT l | TypeSetT l _ => existsb (has typ) l
  | MapT k v => has typ k || has typ v
  | EllipsisT (Some s) => typ (TypeVarT s)
  | _ => false
  end.
Definition has_var_dim (t : ty) : bool := has (fun u => is_Ellipsis u || is_Var u) t.
Definition has_ellipsis (t : ty) : bool := has is_Ellipsis t.

(** ** collect, util/__init__.py:91-110 *)

(** values met while walking through parameters: datashape objects, tuples, other values *)
Inductive pv := PvTy (t : ty) | PvTup (l : list pv) | PvInt (z : Z) | PvStr (s : str) | PvBool (b : bool) | PvNone.
Definition pv_ostr (o : option str) : pv := match o with None => PvNone | Some s => PvStr s end.
Definition pv_oint (o : option Z) : pv := match o with None => PvNone | Some z => PvInt z end.
Definition pv_lit (l : pylit) : pv :=
  match l with LInt z => PvInt z | LBool b => PvBool b | LStr s => PvStr s end.
(** [expr.parameters], coretypes.py:79-84 (for a Record, [expr.types]) *)
Definition params (t : ty) : list pv :=
  match t with
  | CType n i a => [PvStr n; PvInt i; PvInt a]
  | NullT | BytesT | DateT | JSONT | VarT => []
  | TimeT z | DateTimeT z => [pv_ostr z]
  | TimeDeltaT u => [PvStr u]
  | UnitsT u t' => [PvStr u; PvTy t']
  | StringT f e => [pv_oint f; PvStr e]
  | DecimalT p s => [PvInt p; PvInt s]
  | FixedT v => [PvInt v]
  | TypeVarT s => [PvStr s]
  | EllipsisT None => [PvNone]
  | EllipsisT (Some s) => [PvTy (TypeVarT s)]
  | DataShapeT _ ps | FunctionT ps => map PvTy ps
  | OptionT t' => [PvTy t']
  | MapT k v => [PvTy k; PvTy v]
  | RecordT fs => map (fun f => PvTy (snd f)) fs
  | CategoricalT c t' o => [PvTup (map pv_lit c); PvTy t'; PvBool o]
  | TupleT ds => [PvTup (map PvTy ds)]
  | TypeSetT ts n => [PvTup (map PvTy ts); pv_ostr n]
  end.
(** bound on the nesting depth *)
Fixpoint pvdepth (v : pv) : nat :=
  match v with
  | PvTy (TypeVarT _) => 2
  | PvTy t => 3 * tsize t
  | PvTup l => S (fold_right (fun x n => Nat.max (pvdepth x) n) O l)
  | _ => 1
  end.
(** [list(collect(pred, expr))]. A value that is neither a datashape object nor a tuple and
    fails the predicate makes [collect] return None, which cannot be iterated: TypeError.
    Recursion on fuel, [collect] gives enough (lemma collect_unfold). *)
Fixpoint collectF (n : nat) (pred : pv -> bool) (v : pv) : res (list pv) :=
  match n with
  | O => Raise OutOfFuel
  | S n' =>
      if pred v then Ok [v]
      else match v with
           | PvTy t => let! ls := mapM (collectF n' pred) (params t) in Ok (concat ls)
           | PvTup l => let! ls := mapM (collectF n' pred) l in Ok (concat ls)
           | _ => Raise TypeErr
           end
  end.
Definition collect (pred : pv -> bool) (v : pv) : res (list pv) := collectF (S (pvdepth v)) pred v.

(** ** predicates.py *)

(** [ds[0] if isinstance(ds, DataShape) and len(ds) == 1], :31-32 *)
Definition strip_lone (t : ty) : ty := match t with DataShapeT _ [x] => x | _ => t end.
(** [getattr(ds, 'ty', ds)]: only Option has an attribute [ty] *)
Definition strip_option (t : ty) : ty := match t with OptionT u => u | _ => t end.
Definition is_Categorical t := match t with CategoricalT _ _ _ => true | _ => false end.
(** [isscalar], :19-33, on a datashape object *)
Definition isscalar (t : ty) : bool :=
  let u := strip_option (strip_lone t) in is_Unit u || is_Categorical u.
(** [isrecord], :36-50 *)
Definition isrecord (t : ty) : bool := is_Record (strip_option (strip_lone t)).
(** [isdimension], :53-64, is [Ops.is_dimension] on datashape objects *)
(** [isscalar] on other values; strings are never reached by [collect isscalar]: the only
    non-datashape parameter of a non-scalar object is the None of an Ellipsis *)
Definition isscalar_pv (v : pv) : bool := match v with PvTy t => isscalar t | _ => false end.
Definition isdimension_pv (v : pv) : bool :=
  match v with PvTy t => is_dimension t | PvInt _ | PvBool _ => true | _ => false end.

(** [len(set(l))]: the number of classes of equal elements; an element is added when no
    earlier one equals it *)
Definition pv_eqb (a b : pv) : bool := match a, b with PvTy x, PvTy y => py_eq x y | _, _ => false end.
Fixpoint set_add (x : pv) (l : list pv) : list pv :=
  match l with
  | [] => [x]
  | y :: r => if pv_eqb y x then l else y :: set_add x r
  end.
Definition mkset (l : list pv) : list pv := fold_left (fun s x => set_add x s) l [].
(** [ishomogeneous], :67-79, on a datashape object; the hash/eq contract of [set] is C16 *)
Definition ishomogeneous (t : ty) : res bool :=
  let! d := dshape_ty t in
  let! l := collect isscalar_pv (PvTy d) in
  Ok (Nat.eqb (length (mkset (filter (fun v => negb (isdimension_pv v)) l))) 1).

(** [len(ds)]; DataShape :571-572, Mono :108-109, TypeSet typesets.py:60 *)
Definition py_len (t : ty) : nat :=
  match t with
  | DataShapeT _ ps => length ps
  | TypeSetT ts _ => length (mkset (map PvTy ts))
  | _ => 1
  end.

(** [isfixed], :88-109: Some true / Some false / None. Recursion on fuel. *)
Definition truthy (o : option bool) : bool := match o with Some b => b | None => false end.
(** [all(map(f, l))] stops at the first falsy result *)
Fixpoint all_map {A} (f : A -> res (option bool)) (l : list A) : res bool :=
  match l with
  | [] => Ok true
  | x :: r => let! b := f x in if truthy b then all_map f r else Ok false
  end.
Fixpoint isfixedF (n : nat) (t : ty) : res (option bool) :=
  match n with
  | O => Raise OutOfFuel
  | S n' =>
      let! d := dshape_ty t in
      let! h := seq_head d in
      match h with
      | TypeVarT _ => Ok None
      | VarT => Ok (Some false)
      | RecordT fs => let! b := all_map (fun f => isfixedF n' (snd f)) fs in Ok (Some b)
      | _ => if Nat.ltb 1 (py_len d) then let! s := subarray d 1 in isfixedF n' s
             else Ok (Some true)
      end
  end.
Definition isfixed (t : ty) : res (option bool) := isfixedF (2 * tsize t + 2) t.

(** [istabular], :112-125 *)
Definition istabular (t : ty) : res bool :=
  let! d := dshape_ty t in
  Ok (Nat.eqb (length (shape d)) 1 && isrecord (measure d)).
(** [iscollection], :128-138 *)
Definition iscollection (t : ty) : res bool := let! h := seq_head t in Ok (is_dimension h).

(** [launder], :163-168 *)
Definition plaunder (t : ty) : ty :=
  strip_option (match t with DataShapeT _ _ => measure t | _ => t end).
(** the TypeSets [floating], [boolean], typesets.py:115-117 *)
Definition ct (n : str) (k : Z) : ty := CType n k k.
Definition floating_types : list ty := [ct $"float32" 4; ct $"float64" 8].
Definition boolean_types : list ty := [ct $"bool" 1].
(** [x in typeset] (a set: some member equal to x) *)
Definition in_types (x : ty) (l : list ty) : bool := existsb (fun y => py_eq y x) l.
(** [isreal] :171-182, [isboolean] :185-195, [isdatelike] :198-209 *)
Definition isreal (t : ty) : bool := let d := plaunder t in is_Unit d && in_types d floating_types.
Definition isboolean (t : ty) : bool := in_types (plaunder t) boolean_types.
Definition isdatelike (t : ty) : bool :=
  let d := plaunder t in py_eq d DateT || py_eq d (DateTimeT None).

(** ** error.py:16-32 *)

(** [text.count('\n', 0, pos)] *)
Definition count_nl (s : str) : nat := length (filter (N.eqb 10) s).
(** [text.rfind('\n', 0, pos)] on the prefix: index of the last newline *)
Fixpoint rfind_nl (s : str) : option nat :=
  match s with
  | [] => None
  | c :: r => match rfind_nl r with
              | Some k => Some (S k)
              | None => if N.eqb c 10 then Some O else None
              end
  end.
(** index of the first newline *)
Fixpoint find_nl (s : str) : option nat :=
  match s with
  | [] => None
  | c :: r => if N.eqb c 10 then Some O else option_map S (find_nl r)
  end.
Record syntax_error := { err_lineno : nat; err_line : str; err_col : Z }.
(** DataShapeSyntaxError.__init__: [lineno], [line], [col_offset] *)
Definition mk_syntax_error (pos : nat) (text : str) : syntax_error :=
  let linestart := match rfind_nl (firstn pos text) with None => O | Some k => S k end in
  let lineend := match find_nl (skipn pos text) with None => length text | Some k => (pos + k)%nat end in
  {| err_lineno := S (count_nl (firstn pos text));
     err_line := firstn (lineend - linestart) (skipn linestart text);
     err_col := Z.of_nat pos - Z.of_nat linestart |}.

(** ** The type registry, coretypes.py:36-57 *)

(** [Type._registry]: class objects and type instances; [V] is the type of those objects *)
Section Registry.
  Variable V : Type.
  Definition registry := list (str * V).
  Definition reg_set (k : str) (v : V) (r : registry) : registry := (k, v) :: r.
  (** [Type.register], :47-53 *)
  Definition reg_register (k : str) (v : V) (r : registry) : res registry :=
    match assoc k r with Some _ => Raise TypeErr | None => Ok (reg_set k v r) end.
  (** [Type.lookup_type], :55-57 *)
  Definition reg_lookup (k : str) (r : registry) : res V :=
    match assoc k r with Some v => Ok v | None => Raise KeyErr end.
  (** operations that touch the registry:
      - Type.register(name, v), :47; CType(name, ...), :757-761 registers itself
      - class statements (metaclass Type), :39-44; abstract classes do not register
      - DataShape(..., name=name), :563-566 assigns directly *)
  Inductive reg_op :=
  | OpRegister (k : str) (v : V)
  | OpCType (k : str) (v : V)
  | OpClass (k : str) (v : V) (abstract : bool)
  | OpDataShape (name : option str) (v : V).
  Definition reg_step (o : reg_op) (r : registry) : res registry :=
    match o with
    | OpRegister k v | OpCType k v => reg_register k v r
    | OpClass k v abstract => Ok (if abstract then r else reg_set k v r)
    | OpDataShape name v =>
        Ok (match name with
            | Some ((_ :: _) as k) => reg_set k v r
            | _ => r
            end)
    end.
  (** a history: an operation that raises leaves the registry as it was *)
  Definition reg_run (l : list reg_op) (r : registry) : registry :=
    fold_left (fun r o => match reg_step o r with Ok r' => r' | Raise _ => r end) l r.
End Registry.

(** ** assert_dshape_equal, util/testing.py *)

Record flags := { check_dim : bool; check_tz : bool; check_timedelta_unit : bool;
                  check_str_encoding : bool; check_str_fixlen : bool; check_record_order : bool }.
Definition default_flags : flags :=
  {| check_dim := true; check_tz := true; check_timedelta_unit := true;
     check_str_encoding := true; check_str_fixlen := true; check_record_order := true |}.

Definition passert (b : bool) : res unit := if b then Ok tt else Raise AssertErr.
(** [_base_case], :129-131 *)
Definition base_case (a b : ty) : res unit := passert (py_eq a b).
(** classes with [__slots__], :102-105 *)
Definition is_slotted (t : ty) : bool :=
  match t with NullT | DataShapeT _ _ | FunctionT _ | RecordT _ => false | _ => true end.
(** [type(a) == type(b)] *)
Definition same_class (a b : ty) : bool := Nat.eqb (class_ix a) (class_ix b).
(** [_check_slots], :108-126: on objects of the same class the slots are the parameters *)
Definition check_slots (a b : ty) : res unit :=
  if same_class a b then passert (info_eqb py_eq a b) else base_case a b.
(** [sorted(fields)]; names in a record are distinct, so types are never compared *)
Fixpoint str_leb (a b : str) : bool :=
  match a, b with
  | [], _ => true
  | _ :: _, [] => false
  | x :: a', y :: b' => (x <? y)%N || (N.eqb x y && str_leb a' b')
  end.
Fixpoint insert_field (f : str * ty) (l : list (str * ty)) : list (str * ty) :=
  match l with
  | [] => [f]
  | g :: r => if str_leb (fst f) (fst g) then f :: l else g :: insert_field f r
  end.
Definition sort_fields (l : list (str * ty)) : list (str * ty) := fold_right insert_field [] l.

(** run a check on successive pairs of [zip(l, m)], stopping at the first failure *)
Definition zipM {A B} (f : A -> B -> res unit) : list A -> list B -> res unit :=
  fix go (l : list A) (m : list B) : res unit :=
  match l, m with
  | x :: l', y :: m' => let! _ := f x y in go l' m'
  | _, _ => Ok tt
  end.

(** the multiple dispatch of [assert_dshape_equal]: the most specific of the registered
    signatures; messages are not modelled except where formatting itself raises (:176-180,
    ['%d' % None] raises TypeError). Recursion on fuel. *)
Fixpoint assert_eqF (n : nat) (F : flags) (a b : ty) : res unit :=
  match n with
  | O => Raise OutOfFuel
  | S n' =>
    match a, b with
    | DataShapeT _ _, DataShapeT _ _ =>                                     (* :37-99 *)
        let! _ := if check_dim F then zipM (fun x y => passert (negb (py_ne x y))) (shape a) (shape b)
                  else Ok tt in
        assert_eqF n' F (measure a) (measure b)
    | DateTimeT _, DateTimeT _ | TimeT _, TimeT _ =>                         (* :134-139 *)
        if check_tz F then check_slots a b else Ok tt
    | DateTimeT _, TimeT _ | TimeT _, DateTimeT _ => base_case a b
    | TimeDeltaT _, TimeDeltaT _ =>                                          (* :142-145 *)
        if check_timedelta_unit F then check_slots a b else Ok tt
    | UnitsT u _, UnitsT v _ =>                                              (* :148-158 *)
        (* path is a tuple: path.append raises AttributeError *)
        let! _ := passert (str_eqb u v) in Raise AttributeErr
    | StringT f e, StringT g e' =>                                           (* :161-180 *)
        let! _ := if check_str_encoding F then passert (str_eqb e e') else Ok tt in
        if check_str_fixlen F then
          (if oZ_eqb f g then Ok tt
           else match f, g with
                | Some _, Some _ => Raise AssertErr
                | _, _ => Raise TypeErr
                end)
        else Ok tt
    | OptionT x, OptionT y => assert_eqF n' F x y                            (* :183-188 *)
    | RecordT fs, RecordT gs =>                                              (* :191-221 *)
        let! _ := passert (Nat.eqb (length fs) (length gs)) in
        let srt l := if check_record_order F then l else sort_fields l in
        zipM (fun f g => let! _ := passert (str_eqb (fst f) (fst g)) in
                         assert_eqF n' F (snd f) (snd g)) (srt fs) (srt gs)
    | TupleT l, TupleT m =>                                                  (* :224-240 *)
        let! _ := passert (Nat.eqb (length l) (length m)) in
        zipM (assert_eqF n' F) l m
    | FunctionT l, FunctionT m =>                                            (* :243-263 *)
        let! _ := passert (Nat.eqb (length (removelast l)) (length (removelast m))) in
        let! _ := zipM (assert_eqF n' F) (removelast l) (removelast m) in
        assert_eqF n' F (last l NullT) (last m NullT)
    | _, _ => if is_slotted a && is_slotted b then check_slots a b else base_case a b
    end
  end.
Definition assert_dshape_equal (F : flags) (a b : ty) : res unit := assert_eqF (S (tsize a)) F a b.
