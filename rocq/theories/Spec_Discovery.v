(** What discovery is supposed to compute. *)
From Verif Require Import Base Types Printer Construct.
From Coq Require Import Relations Sorting.Sorted.
Local Open Scope Z_scope.

(** "a can turn into b": the documented coercions (comment at discovery.py:238) *)
Inductive CoerceStep : ty -> ty -> Prop :=
| cs_int32_int64 : CoerceStep int32_t int64_t
| cs_int64_float64 : CoerceStep int64_t float64_t
| cs_date_datetime : CoerceStep DateT (DateTimeT None)
| cs_int64_string : CoerceStep int64_t string_t
| cs_float64_string : CoerceStep float64_t string_t
| cs_date_string : CoerceStep DateT string_t
| cs_datetime_string : CoerceStep (DateTimeT None) string_t
| cs_timedelta_string : CoerceStep (TimeDeltaT $"us") string_t
| cs_bool_string : CoerceStep bool_t string_t
| cs_null_string : CoerceStep NullT string_t.
Definition Coerces : ty -> ty -> Prop := clos_refl_trans ty CoerceStep.
(** the scalar types the coercions talk about *)
Definition Known (t : ty) : Prop :=
  In t [int32_t; int64_t; float64_t; DateT; DateTimeT None; TimeDeltaT $"us"; bool_t;
        NullT; string_t].
(** scalar ("unit") classes *)
Inductive Scalar : ty -> Prop :=
| sc_null : Scalar NullT
| sc_date : Scalar DateT
| sc_time z : Scalar (TimeT z)
| sc_datetime z : Scalar (DateTimeT z)
| sc_timedelta u : Scalar (TimeDeltaT u)
| sc_units u t : Scalar (UnitsT u t)
| sc_bytes : Scalar BytesT
| sc_string f e : Scalar (StringT f e)
| sc_decimal p s : Scalar (DecimalT p s)
| sc_ctype n i a : Scalar (CType n i a)
| sc_fixed n : Scalar (FixedT n)
| sc_var : Scalar VarT
| sc_typevar s : Scalar (TypeVarT s)
| sc_typeset l n : Scalar (TypeSetT l n).
(** least upper bound of a list in the coercion order *)
Definition IsLub (l : list ty) (u : ty) : Prop :=
  (forall t, In t l -> Coerces t u) /\
  (forall v, (forall t, In t l -> Coerces t v) -> Coerces u v).

(** least upper bound of a set of types *)
Definition IsLubOf (P : ty -> Prop) (u : ty) : Prop :=
  (forall t, P t -> Coerces t u) /\ (forall v, (forall t, P t -> Coerces t v) -> Coerces u v).

(** the order of strings in Python: lexicographic by code point *)
Inductive StrLt : str -> str -> Prop :=
| StrLt_nil c s : StrLt [] (c :: s)
| StrLt_head a b s t : (a < b)%N -> StrLt (a :: s) (b :: t)
| StrLt_tail a s t : StrLt s t -> StrLt (a :: s) (a :: t).
Definition SortedStrs (l : list str) : Prop := StronglySorted StrLt l.

(** the type of a column of values whose types are [ts]: null when all are null, otherwise the
    least upper bound of the types that are not null, optional when some value is null *)
Definition ColumnType (ts : list ty) (F : ty) : Prop :=
  ((forall t, In t ts -> t = NullT) /\ F = NullT) \/
  exists T, Known T /\ IsLubOf (fun t => In t ts /\ t <> NullT) T /\
    (exists t, In t ts /\ t <> NullT) /\
    ((In NullT ts /\ F = OptionT T) \/ (~ In NullT ts /\ F = T)).
