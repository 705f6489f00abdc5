(** Specification of C40: when a value is valid for a schema. *)
From Verif Require Import Base Types Spec_WF User.
Local Open Scope Z_scope.

(** a list or a tuple with the given items *)
Inductive Seq : value -> list value -> Prop :=
| Seq_list l : Seq (VList l) l
| Seq_tuple l : Seq (VTuple l) l.
(** scalars of Python and numpy *)
Inductive BaseValue : value -> Prop :=
| BV_bool b : BaseValue (VBool b)
| BV_int z : BaseValue (VInt z)
| BV_float x : BaseValue (VFloat x)
| BV_str s : BaseValue (VString s)
| BV_date x : BaseValue (VDate x)
| BV_time x : BaseValue (VTime x)
| BV_datetime x : BaseValue (VDateTime x)
| BV_generic x : BaseValue (VGeneric x).

(** [x] is [v] or occurs in it *)
Inductive Inside (x : value) : value -> Prop :=
| Inside_here : Inside x x
| Inside_seq v l y : Seq v l -> In y l -> Inside x y -> Inside x v
| Inside_dict d k y : In (k, y) d -> Inside x y -> Inside x (VDict d).
(** numpy arrays have at least one dimension *)
Definition NoScalarArrays (v : value) : Prop := forall d, Inside (VArray d) v -> exists n ps, d = DataShapeT n ps.

Section Valid.
  Variable np_sub : ty -> value -> res bool.
  Inductive Valid : ty -> value -> Prop :=
  (* scalars *)
  | Valid_ctype n i a v : BaseValue v -> np_sub (CType n i a) v = Ok true -> Valid (CType n i a) v
  | Valid_string f e s : Valid (StringT f e) (VString s)
  | Valid_time z x : Valid (TimeT z) (VTime x)
  | Valid_date x : Valid DateT (VDate x)
  | Valid_date_datetime x : Valid DateT (VDateTime x)
  | Valid_datetime z x : Valid (DateTimeT z) (VDateTime x)
  (* a DataShape without dimensions *)
  | Valid_measure n t v : (forall d, v <> VArray d) -> Valid t v -> Valid (DataShapeT n [t]) v
  (* arrays, elementwise *)
  | Valid_fixed n k rest v items : rest <> [] -> Seq v items -> k = Z.of_nat (length items) ->
      (forall item, In item items -> Valid (DataShapeT None rest) item) ->
      Valid (DataShapeT n (FixedT k :: rest)) v
  | Valid_var n rest v items : rest <> [] -> Seq v items ->
      (forall item, In item items -> Valid (DataShapeT None rest) item) ->
      Valid (DataShapeT n (VarT :: rest)) v
  (* numpy arrays: their own datashape *)
  | Valid_array n ps m qs d : d = DataShapeT m qs -> py_eq d (DataShapeT n ps) = true -> Valid (DataShapeT n ps) (VArray d)
  (* records: dicts by name, sequences by position *)
  | Valid_dict fs d : (forall k t, In (k, t) fs -> exists v, assoc k d = Some v /\ Valid t v) ->
      Valid (RecordT fs) (VDict d)
  | Valid_seq fs v items : Seq v items ->
      (forall i f item, nth_error fs i = Some f -> nth_error items i = Some item -> Valid (snd f) item) ->
      Valid (RecordT fs) v.
End Valid.
