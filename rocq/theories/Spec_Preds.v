(** Specifications for C09, C24, C37-C39, C41-C43. *)
From Verif Require Import Base Types Spec_WF Spec_Ops Preds.
Local Open Scope Z_scope.

(** ** C09: [col] is the offset of [pos] in [line], the [lineno]-th line of [text] *)
Definition NoNewline (s : str) : Prop := ~ In 10%N s.
(** [pre] consists of exactly [k] complete lines *)
Inductive Lines : nat -> str -> Prop :=
| Lines_nil : Lines 0 []
| Lines_cons k l r : NoNewline l -> Lines k r -> Lines (S k) (l ++ 10%N :: r).
Definition LineAt (text : str) (lineno : nat) (line : str) (start : nat) : Prop :=
  exists pre post, text = pre ++ line ++ post /\ length pre = start /\
    Lines (lineno - 1) pre /\ (1 <= lineno)%nat /\ NoNewline line /\
    (post = [] \/ exists r, post = 10%N :: r).

(** ** C24: objects reached through arrays, options, maps, functions and categoricals *)
Inductive Reach (u : ty) : ty -> Prop :=
| R_here : Reach u u
| R_array n ps c : In c ps -> Reach u c -> Reach u (DataShapeT n ps)
| R_function ps c : In c ps -> Reach u c -> Reach u (FunctionT ps)
| R_option c : Reach u c -> Reach u (OptionT c)
| R_key k v : Reach u k -> Reach u (MapT k v)
| R_value k v : Reach u v -> Reach u (MapT k v)
| R_cat l c o : Reach u c -> Reach u (CategoricalT l c o).
Definition IsEllipsis (t : ty) : Prop := exists o, t = EllipsisT o.
(** at most one ellipsis: never two different positions *)
Definition OneEllipsis (ps : list ty) : Prop :=
  forall i j a b, nth_error ps i = Some (EllipsisT a) -> nth_error ps j = Some (EllipsisT b) -> i = j.
(** at most one ellipsis among the components, and none in measure position *)
Definition GoodArray (ps : list ty) : Prop := OneEllipsis ps /\ ~ IsEllipsis (last ps NullT).
(** ... for every array reached from [t] *)
Definition AllGood (t : ty) : Prop := forall n ps, Reach (DataShapeT n ps) t -> GoodArray ps.

(** ** C42: the outermost terms that satisfy a predicate *)
(** direct sub-values: types of a record, parameters of other objects, items of a tuple *)
Definition items (v : pv) : list pv :=
  match v with PvTy t => params t | PvTup l => l | _ => [] end.
Inductive Outer (pred : pv -> bool) : pv -> pv -> Prop :=
| Outer_here v : pred v = true -> Outer pred v v
| Outer_in v c x : pred v = false -> In c (items v) -> Outer pred c x -> Outer pred v x.
(** with their positions, in left-to-right order *)
Inductive At : pv -> list nat -> pv -> Prop :=
| At_here v : At v [] v
| At_in v k c p x : nth_error (items v) k = Some c -> At c p x -> At v (k :: p) x.
(** lexicographic order on positions *)
Inductive LexLt : list nat -> list nat -> Prop :=
| Lex_head i j p q : (i < j)%nat -> LexLt (i :: p) (j :: q)
| Lex_tail i p q : LexLt p q -> LexLt (i :: p) (i :: q).
(** position [p] of [v] holds [x], which satisfies [pred]; nothing above it does *)
Definition OuterAt (pred : pv -> bool) (v : pv) (p : list nat) (x : pv) : Prop :=
  At v p x /\ pred x = true /\
  forall q r y, p = q ++ r -> r <> [] -> At v q y -> pred y = false.
(** the dtypes of a datashape: outermost scalars that are not dimensions *)
Definition Dtype (d x : ty) : Prop := Outer isscalar_pv (PvTy d) (PvTy x) /\ ~ Dim x.

(** [u] is reached without passing through a scalar *)
Inductive Exposed (u : ty) : ty -> Prop :=
| Exp_here : Exposed u u
| Exp_in t c : isscalar t = false -> In c (children t) -> Exposed u c -> Exposed u t.

(** ** C38: arrays and records of fixed, variable or symbolic dimensions over scalars *)
Inductive Plain : ty -> Prop :=
| Plain_leaf t : children t = [] -> (forall o, t <> EllipsisT o) -> (forall n, t <> DataShapeT n []) -> Plain t
| Plain_record fs : (forall t, In t (map snd fs) -> Plain t /\ ~ DimensionClass t) -> Plain (RecordT fs)
| Plain_array n ps : ps <> [] -> (forall p, In p ps -> Plain p /\ ~ IsDataShape p) -> Plain (DataShapeT n ps).
(** neither a variable dimension nor a type variable occurs *)
Definition AllFixed (t : ty) : Prop := forall u, Occurs u t -> u <> VarT /\ forall s, u <> TypeVarT s.

(** what [isfixed] looks at: the components of arrays and the types of record fields, but
    nothing below options, tuples, functions, maps, ... and no array that is the measure of an
    array *)
Inductive Seen (u : ty) : ty -> Prop :=
| Seen_here : Seen u u
| Seen_component n ps c : In c ps -> ~ IsDataShape c -> Seen u c -> Seen u (DataShapeT n ps)
| Seen_field fs f : In f fs -> Seen u (snd f) -> Seen u (RecordT fs).
(** neither a variable dimension nor a type variable is among them *)
Definition SeenFixed (t : ty) : Prop := forall u, Seen u t -> u <> VarT /\ forall s, u <> TypeVarT s.

(** every field type looked at can be passed to [dshape] *)
Definition FieldsOk (t : ty) : Prop :=
  forall fs f, Seen (RecordT fs) t -> In f fs -> ~ DimensionClass (snd f) /\ AllGood (snd f).

(** ** C43 *)
(** the object under an optional single-component DataShape and an optional Option *)
Inductive Inside : ty -> ty -> Prop :=
| In_bare t : ~ Lone t -> (forall u, t <> OptionT u) -> Inside t t
| In_option u : Inside (OptionT u) u
| In_lone n t : (forall u, t <> OptionT u) -> Inside (DataShapeT n [t]) t
| In_lone_option n u : Inside (DataShapeT n [OptionT u]) u.
(** measures with a single value: units (ctypes, dates, strings, decimals, type variables,
    ...) and categoricals *)
Inductive ScalarClass : ty -> Prop :=
| SC_ctype n i a : ScalarClass (CType n i a)
| SC_null : ScalarClass NullT
| SC_bytes : ScalarClass BytesT
| SC_date : ScalarClass DateT
| SC_time z : ScalarClass (TimeT z)
| SC_datetime z : ScalarClass (DateTimeT z)
| SC_timedelta u : ScalarClass (TimeDeltaT u)
| SC_units u t : ScalarClass (UnitsT u t)
| SC_string f e : ScalarClass (StringT f e)
| SC_decimal p s : ScalarClass (DecimalT p s)
| SC_typevar s : ScalarClass (TypeVarT s)
| SC_typeset l n : ScalarClass (TypeSetT l n)
| SC_cat c t o : ScalarClass (CategoricalT c t o)
(* dimensions count as scalars when they stand alone *)
| SC_fixed n : ScalarClass (FixedT n)
| SC_var : ScalarClass VarT.

(** ** C41 *)
(** corresponding arrays in [a] and [b] have the same number of dimensions *)
Inductive SameRank : ty -> ty -> Prop :=
| SR_array n m ds es x y : length ds = length es -> SameRank x y ->
    SameRank (DataShapeT n (ds ++ [x])) (DataShapeT m (es ++ [y]))
| SR_option x y : SameRank x y -> SameRank (OptionT x) (OptionT y)
| SR_record fs gs : Forall2 (fun f g => SameRank (snd f) (snd g)) fs gs -> SameRank (RecordT fs) (RecordT gs)
| SR_tuple l m : Forall2 SameRank l m -> SameRank (TupleT l) (TupleT m)
| SR_function l m : Forall2 SameRank l m -> SameRank (FunctionT l) (FunctionT m)
(* nothing to compare: at least one is none of these classes *)
| SR_leaf x y : (forall n l, x <> DataShapeT n l) -> (forall u, x <> OptionT u) -> (forall l, x <> RecordT l) ->
    (forall l, x <> TupleT l) -> (forall l, x <> FunctionT l) -> SameRank x y
| SR_class x y : class_ix x <> class_ix y -> SameRank x y.
(** no array is the measure of an array *)
Definition FlatArrays (t : ty) : Prop := forall n ps, Occurs (DataShapeT n ps) t -> ~ IsDataShape (last ps NullT).
Definition NoUnits (t : ty) : Prop := forall u x, ~ Occurs (UnitsT u x) t.

(** what [assert_dshape_equal] accepts under the given checks *)
From Coq Require Import Sorting.Permutation.
(** classes with a comparison of their own *)
Definition OwnComparison (t : ty) : Prop :=
  match t with
  | DataShapeT _ _ | TimeT _ | DateTimeT _ | TimeDeltaT _ | UnitsT _ _ | StringT _ _ | OptionT _
  | RecordT _ | TupleT _ | FunctionT _ => True
  | _ => False
  end.
Inductive Accepts (F : flags) : ty -> ty -> Prop :=
(* dimensions are compared as far as both arrays have them *)
| Acc_array n m ds es x y :
    (check_dim F = true -> forall i d e, nth_error ds i = Some d -> nth_error es i = Some e -> py_eq d e = true) ->
    Accepts F x y -> Accepts F (DataShapeT n (ds ++ [x])) (DataShapeT m (es ++ [y]))
| Acc_time z w : (check_tz F = true -> z = w) -> Accepts F (TimeT z) (TimeT w)
| Acc_datetime z w : (check_tz F = true -> z = w) -> Accepts F (DateTimeT z) (DateTimeT w)
| Acc_timedelta u v : (check_timedelta_unit F = true -> u = v) -> Accepts F (TimeDeltaT u) (TimeDeltaT v)
| Acc_string f g e e' : (check_str_encoding F = true -> e = e') -> (check_str_fixlen F = true -> f = g) ->
    Accepts F (StringT f e) (StringT g e')
| Acc_option x y : Accepts F x y -> Accepts F (OptionT x) (OptionT y)
(* the fields of the second record, in the same order or, without check_record_order, in any *)
| Acc_record fs gs hs : Permutation gs hs -> (check_record_order F = true -> hs = gs) ->
    Forall2 (fun f h => fst f = fst h /\ Accepts F (snd f) (snd h)) fs hs -> Accepts F (RecordT fs) (RecordT gs)
| Acc_tuple l m : Forall2 (Accepts F) l m -> Accepts F (TupleT l) (TupleT m)
| Acc_function l m : Forall2 (Accepts F) l m -> Accepts F (FunctionT l) (FunctionT m)
(* everything else must be equal *)
| Acc_equal a b : ~ OwnComparison a \/ class_ix a <> class_ix b -> py_eq a b = true -> Accepts F a b.
