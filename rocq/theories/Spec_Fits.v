(** Specification for C61: what it means that a datashape describes a value. *)
From Verif Require Import Base Types Lexer Printer Construct Numpy Graph Discovery Spec_WF Spec_Discovery Spec_Found.
Local Open Scope Z_scope.

(** the type of the field [n] of a record; null when there is none *)
Definition FieldOr (fs : list (str * ty)) (n : str) (t : ty) : Prop :=
  In (n, t) fs \/ (~ In n (map fst fs) /\ t = NullT).
(** [Widens t u]: data of type [t] are also data of type [u]. Null turns into an option only;
    the other coercions are the documented ones (Spec_Discovery.v). *)
Inductive Widens : ty -> ty -> Prop :=
| W_refl t : Widens t t
| W_trans t u v : Widens t u -> Widens u v -> Widens t v
| W_coerce t u : CoerceStep t u -> t <> NullT -> Widens t u
| W_null u : Widens NullT (OptionT u)
| W_some u : Widens u (OptionT u)
| W_wrap t : Widens t (DataShapeT None [t])              (* a lone measure *)
| W_unwrap t : Widens (DataShapeT None [t]) t
| W_var k r : r <> [] -> Widens (DataShapeT None (FixedT k :: r)) (DataShapeT None (VarT :: r))
| W_record fs gs (get : str -> ty) :
    (forall n g, In (n, g) gs -> FieldOr fs n (get n)) ->
    (forall n g, In (n, g) gs -> Widens (get n) g) -> Widens (RecordT fs) (RecordT gs).

Section Fits.
  (** [leaf v t]: the type of the leaf [v] on its own *)
  Variable leaf : dval -> ty -> Prop.
  Inductive Fits : ty -> dval -> Prop :=
  | Fits_leaf v t u : IsLeaf v -> leaf v t -> Widens t u -> Fits u v
  (* sequences are arrays: as long as the dimension says, or of any length, each item fits *)
  | Fits_fixed ps k l : ps <> [] -> (forall x, In x l -> Fits (DataShapeT None ps) x) ->
      Fits (DataShapeT None (FixedT (Z.of_nat (length l)) :: ps)) (DSeq k l)
  | Fits_var ps k l : ps <> [] -> (forall x, In x l -> Fits (DataShapeT None ps) x) ->
      Fits (DataShapeT None (VarT :: ps)) (DSeq k l)
  (* or tuples, item by item *)
  | Fits_tuple ds k l : length ds = length l ->
      (forall i t x, nth_error ds i = Some t -> nth_error l i = Some x -> Fits t x) -> Fits (TupleT ds) (DSeq k l)
  (* a dict has the fields of the record; a missing one counts as None *)
  | Fits_record fs k d :
      (forall n t, In (n, t) fs -> Fits t (match assoc n d with Some x => x | None => DNone end)) ->
      Fits (RecordT fs) (DMap k d)
  | Fits_option t v : Fits t v -> Fits (OptionT t) v
  | Fits_one t v : Fits t v -> Fits (DataShapeT None [t]) v.
End Fits.

(** Values without an empty dict (and whose dicts have distinct keys, as in Python) *)
Inductive NoEmptyDict : dval -> Prop :=
| NE_leaf v : IsLeaf v -> NoEmptyDict v
| NE_seq k l : Forall NoEmptyDict l -> NoEmptyDict (DSeq k l)
| NE_map k l : l <> [] -> NoDup (map fst l) -> Forall (fun kv => NoEmptyDict (snd kv)) l -> NoEmptyDict (DMap k l).
