(** Specification of equality of datashapes (C15): the canonical tree of a datashape.
    A node holds the dimensions ([.shape]), the class and plain data of the measure, and
    the datashapes the measure is made of. The DataShape wrapper of a lone measure and the
    registered name leave no trace. *)
From Verif Require Import Base Types Spec_WF.

(** plain data of a category: [True == 1] and [False == 0] in Python *)
Inductive litval := NumVal (z : Z) | StrVal (s : str).
Definition lit_value (l : pylit) : litval :=
  match l with
  | LInt z => NumVal z
  | LBool b => NumVal (if b then 1 else 0)%Z
  | LStr s => StrVal s
  end.

Inductive label :=
| L_ctype (name : str) (itemsize alignment : Z)
| L_null | L_bytes | L_date | L_json | L_var
| L_time (tz : option str) | L_datetime (tz : option str) | L_timedelta (unit : str)
| L_units (unit : str) | L_string (fixlen : option Z) (encoding : str)
| L_decimal (precision scale : Z) | L_fixed (n : Z) | L_typevar (symbol : str)
| L_ellipsis (typevar : option str)
| L_datashape | L_option | L_function | L_map
| L_record (names : list str)
| L_categorical (categories : list litval) (ordered : bool)
| L_tuple | L_typeset (name : option str).
Definition label_of (t : ty) : label :=
  match t with
  | CType n i a => L_ctype n i a
  | NullT => L_null | BytesT => L_bytes | DateT => L_date | JSONT => L_json | VarT => L_var
  | TimeT z => L_time z | DateTimeT z => L_datetime z | TimeDeltaT u => L_timedelta u
  | UnitsT u _ => L_units u | StringT f e => L_string f e | DecimalT p s => L_decimal p s
  | FixedT n => L_fixed n | TypeVarT s => L_typevar s | EllipsisT o => L_ellipsis o
  | DataShapeT _ _ => L_datashape | OptionT _ => L_option | FunctionT _ => L_function
  | MapT _ _ => L_map | RecordT fs => L_record (map fst fs)
  | CategoricalT c _ o => L_categorical (map lit_value c) o
  | TupleT _ => L_tuple | TypeSetT _ n => L_typeset n
  end.

Inductive ctree := Node (dims : list ctree) (l : label) (parts : list ctree).

Inductive Canon : ty -> ctree -> Prop :=
| Canon_intro t dims parts :
    Forall2 Canon (shape t) dims ->
    Forall2 Canon (children (measure t)) parts ->
    Canon t (Node dims (label_of (measure t)) parts).
