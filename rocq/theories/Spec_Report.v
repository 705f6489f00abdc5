(** Specification for C56: following a path. *)
From Coq Require Import Sorting.Permutation.
From Verif Require Import Base Types Spec_WF Spec_Ops Preds Spec_Preds Report.
Local Open Scope Z_scope.

(** [x == y] for the values attributes can have *)
Inductive Same : pv -> pv -> Prop :=
| Same_ty a b : py_eq a b = true -> Same (PvTy a) (PvTy b)
| Same_tup l m : Forall2 Same l m -> Same (PvTup l) (PvTup m)
| Same_str s : Same (PvStr s) (PvStr s)
| Same_none : Same PvNone PvNone
| Same_int z : Same (PvInt z) (PvInt z)
| Same_bool b : Same (PvBool b) (PvBool b)
| Same_int_bool (b : bool) : Same (PvInt (if b then 1 else 0)) (PvBool b)
| Same_bool_int (b : bool) : Same (PvBool b) (PvInt (if b then 1 else 0)).

(** the value of the expression [v.step] *)
Inductive Get : pv -> step -> pv -> Prop :=
| Get_shape n ds m i d : nth_error ds i = Some d -> Get (PvTy (DataShapeT n (ds ++ [m]))) (StShape i) (PvTy d)
| Get_measure n ds m : Get (PvTy (DataShapeT n (ds ++ [m]))) (StAttr $"measure") (PvTy m)
| Get_field fs n t : In (n, t) fs -> Get (PvTy (RecordT fs)) (StKey n) (PvTy t)
| Get_arg as_ r i t : nth_error as_ i = Some t -> Get (PvTy (FunctionT (as_ ++ [r]))) (StArg i) (PvTy t)
| Get_restype as_ r : Get (PvTy (FunctionT (as_ ++ [r]))) (StAttr $"restype") (PvTy r)
| Get_index l i x : nth_error l i = Some x -> Get (PvTup l) (StIndex i) x
(* slots *)
| Get_ty t : Get (PvTy (OptionT t)) (StAttr $"ty") (PvTy t)
| Get_dshapes l : Get (PvTy (TupleT l)) (StAttr $"dshapes") (PvTup (map PvTy l))
| Get_name n i a : Get (PvTy (CType n i a)) (StAttr $"name") (PvStr n)
| Get_itemsize n i a : Get (PvTy (CType n i a)) (StAttr $"_itemsize") (PvInt i)
| Get_alignment n i a : Get (PvTy (CType n i a)) (StAttr $"_alignment") (PvInt a)
| Get_time_tz z : Get (PvTy (TimeT z)) (StAttr $"tz") (pv_ostr z)
| Get_datetime_tz z : Get (PvTy (DateTimeT z)) (StAttr $"tz") (pv_ostr z)
| Get_timedelta_unit u : Get (PvTy (TimeDeltaT u)) (StAttr $"unit") (PvStr u)
| Get_units_unit u t : Get (PvTy (UnitsT u t)) (StAttr $"unit") (PvStr u)
| Get_fixlen f e : Get (PvTy (StringT f e)) (StAttr $"fixlen") (pv_oint f)
| Get_encoding f e : Get (PvTy (StringT f e)) (StAttr $"encoding") (PvStr e)
| Get_precision p s : Get (PvTy (DecimalT p s)) (StAttr $"precision") (PvInt p)
| Get_scale p s : Get (PvTy (DecimalT p s)) (StAttr $"scale") (PvInt s)
| Get_val v : Get (PvTy (FixedT v)) (StAttr $"val") (PvInt v)
| Get_symbol s : Get (PvTy (TypeVarT s)) (StAttr $"symbol") (PvStr s)
| Get_no_typevar : Get (PvTy (EllipsisT None)) (StAttr $"typevar") PvNone
| Get_typevar s : Get (PvTy (EllipsisT (Some s))) (StAttr $"typevar") (PvTy (TypeVarT s))
| Get_key k v : Get (PvTy (MapT k v)) (StAttr $"key") (PvTy k)
| Get_value k v : Get (PvTy (MapT k v)) (StAttr $"value") (PvTy v)
| Get_categories c t o : Get (PvTy (CategoricalT c t o)) (StAttr $"categories") (PvTup (map pv_lit c))
| Get_type c t o : Get (PvTy (CategoricalT c t o)) (StAttr $"type") (PvTy t)
| Get_ordered c t o : Get (PvTy (CategoricalT c t o)) (StAttr $"ordered") (PvBool o)
| Get_order l n : Get (PvTy (TypeSetT l n)) (StAttr $"_order") (PvTup (map PvTy l))
| Get_setname l n : Get (PvTy (TypeSetT l n)) (StAttr $"name") (pv_ostr n).
(** the value of [v] followed by all steps of the path *)
Inductive Follow : pv -> list step -> pv -> Prop :=
| Follow_here v : Follow v [] v
| Follow_step v s w p x : Get v s w -> Follow w p x -> Follow v (s :: p) x.

(** ... leads as far as possible: it ends with a dimension or an attribute of an object, or at
    two objects that have no parts in common to compare *)
Definition IsSlot (s : step) : Prop :=
  match s with
  | StShape _ => True
  | StAttr n => n <> $"measure" /\ n <> $"ty" /\ n <> $"dshapes" /\ n <> $"restype"
  | _ => False
  end.
Definition Incomparable (F : flags) (x y : pv) : Prop :=
  match x, y with
  | PvTy (RecordT fs), PvTy (RecordT gs) => 
      if check_record_order F then map fst fs <> map fst gs else ~ Permutation (map fst fs) (map fst gs)
  | PvTy (TupleT l), PvTy (TupleT m) => length l <> length m
  | PvTy (FunctionT l), PvTy (FunctionT m) => length l <> length m
  | PvTy a, PvTy b => class_ix a <> class_ix b
  | _, _ => False
  end.
Definition Deep (F : flags) (p : list step) (x y : pv) : Prop :=
  (exists q s, p = q ++ [s] /\ IsSlot s) \/ Incomparable F x y.
