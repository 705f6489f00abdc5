(** Specification for C62: data of a regular form, and the same data given to [validate]. *)
From Verif Require Import Base Types Lexer Printer Construct Numpy Graph Discovery User
  Spec_Ops Spec_Discovery Spec_Found.
Local Open Scope Z_scope.

Section Regular.
  (** [leaf v t]: the type of the leaf [v] on its own *)
  Variable leaf : dval -> ty -> Prop.
  (** [Regular t v]: [v] is made of equally typed, non-empty sequences (to any depth), of tuples
      of values of different types, and of dicts; [t] is what one would write down for it. *)
  Inductive Regular : ty -> dval -> Prop :=
  | R_leaf v t : IsLeaf v -> leaf v t -> (forall n m, t <> DataShapeT n [m]) -> Regular t v
  (* n items of type t: n * t *)
  | R_array t k l : l <> [] -> (forall x, In x l -> Regular t x) ->
      Regular (DataShapeT None (FixedT (Z.of_nat (length l)) :: components t)) (DSeq k l)
  (* items of different types, among them a scalar: a tuple *)
  | R_tuple ts k l : length ts = length l ->
      (forall i t x, nth_error ts i = Some t -> nth_error l i = Some x -> Regular t x) ->
      (exists a b, In a ts /\ In b ts /\ a <> b) ->
      (exists i t x, nth_error ts i = Some t /\ nth_error l i = Some x /\ IsLeaf x /\ forall n ps, t <> DataShapeT n ps) ->
      Regular (TupleT (map (fun t => DataShapeT None (components t)) ts)) (DSeq k l)
  (* a dict: a record with the keys in order (an OrderedDict has to have them in order) *)
  | R_dict fs k d : SortedStrs (map fst fs) -> NoDup (map fst d) ->
      (forall n, In n (map fst fs) <-> In n (map fst d)) -> (k = KOrdered -> map fst d = map fst fs) ->
      (forall n t x, In (n, t) fs -> In (n, x) d -> Regular t x) -> Regular (RecordT fs) (DMap k d).
  (** lists of lists of different lengths: n * var * t *)
  Definition Ragged (t : ty) (l : list dval) : Prop :=
    (exists k1 l1 k2 l2, In (DSeq k1 l1) l /\ In (DSeq k2 l2) l /\ length l1 <> length l2) /\
    forall x, In x l -> exists k l1, x = DSeq k l1 /\ l1 <> [] /\ forall y, In y l1 -> Regular t y.
  (** Data that [validate] accepts: numbers other than complex ones, dates and times, strings that do not
      look like something else, numpy arrays without text columns; in lists and tuples of items
      of one type, and in dicts *)
  Inductive Acceptable : dval -> Prop :=
  | A_int z : Acceptable (DInt z)
  | A_bool b : Acceptable (DBool b)
  | A_float : Acceptable DFloat
  | A_date : Acceptable DDate
  | A_time : Acceptable DTime
  | A_datetime : Acceptable DDateTime
  | A_str s : leaf (DStr s) string_t -> Acceptable (DStr s)
  | A_arr shp dt strs t : leaf (DArr shp dt strs) t -> from_numpy shp dt = Ok t -> Acceptable (DArr shp dt strs)
  | A_seq k l t : k <> KSet -> (forall x, In x l -> Regular t x) -> (forall x, In x l -> Acceptable x) -> Acceptable (DSeq k l)
  | A_map k d : k <> KProxy -> (forall n x, In (n, x) d -> Acceptable x) -> Acceptable (DMap k d).
End Regular.
(** what numpy answers on Python's own scalars: [np.issubdtype(type(value), dtype)] *)
Definition NativeNumpy (np : ty -> value -> res bool) : Prop :=
  (forall t v, exists b, np t v = Ok b) /\
  (forall z, np int64_t (VInt z) = Ok true) /\ (forall x, np float64_t (VFloat x) = Ok true) /\
  (forall b, np bool_t (VBool b) = Ok true) /\
  forall t s, In t [int64_t; float64_t; bool_t] -> np t (VString s) = Ok false.

(** The value as [validate] sees it. Payloads that neither function looks at are dropped. *)
Fixpoint as_value (v : dval) : value :=
  match v with
  | DNone => VNone
  | DInt z => VInt z
  | DBool b => VBool b
  | DFloat => VFloat 0
  | DStr s => VString s
  | DDateTime => VDateTime 0
  | DDate => VDate 0
  | DTime => VTime 0
  | DSeq KList l => VList (map as_value l)
  | DSeq KTuple l => VTuple (map as_value l)
  | DMap KDict d | DMap KOrdered d => VDict (map (fun kv => (fst kv, as_value (snd kv))) d)
  | DArr shp dt _ => match from_numpy shp dt with Ok d => VArray d | Raise _ => VOther 0 end
  | DLike _ _ (* not considered *) | DComplex | DBytes | DTimeDelta | DSeq KSet _ | DMap KProxy _ | DOther => VOther 0
  end.
(** no objects with shape and dtype other than arrays *)
Definition NoLike (v : dval) : Prop := forall shp dt, ~ LeafOf (DLike shp dt) v.
