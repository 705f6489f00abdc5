(** What [discover] may return (C47). *)
From Verif Require Import Base Types Construct Numpy Graph Discovery Spec_WF Spec_Print.
Local Open Scope Z_scope.

(** [NpField n d]: [n] is the name of a field of the dtype [d], at any depth *)
Inductive NpField (n : str) : npdt -> Prop :=
| NpField_here l shp d : In (n, (shp, d)) l -> NpField n (NStruct l)
| NpField_in m l shp d : In (m, (shp, d)) l -> NpField n d -> NpField n (NStruct l)
| NpField_swap d : NpField n d -> NpField n (NSwap d).
(** [KeyOf n v]: [n] is a key of a mapping, or the name of an array field, somewhere in [v] *)
Inductive KeyOf (n : str) : dval -> Prop :=
| KeyOf_here k l x : In (n, x) l -> KeyOf n (DMap k l)
| KeyOf_map k l m x : In (m, x) l -> KeyOf n x -> KeyOf n (DMap k l)
| KeyOf_seq k l x : In x l -> KeyOf n x -> KeyOf n (DSeq k l)
| KeyOf_arr shp dt strs : NpField n dt -> KeyOf n (DArr shp dt strs)
| KeyOf_like shp dt : NpField n dt -> KeyOf n (DLike shp dt).

(** The types that describe data: no type variable, ellipsis, function, map, units, decimal,
    categorical or json; dimensions are lengths or [var] and come before one element type;
    options are not nested and not of arrays. *)
Definition DataDim (t : ty) : Prop := (exists n, 0 <= n /\ t = FixedT n) \/ t = VarT.
Definition DataElem (t : ty) : Prop :=
  match t with
  | CType _ _ _ => In t KnownCTypes
  | NullT | DateT | TimeT None | DateTimeT None => True
  | TimeDeltaT u => CanonicalUnit u
  | StringT _ e => CanonicalEncoding e
  | OptionT u => ~ IsDataShape u /\ forall v, u <> OptionT v
  | RecordT fs => NoDup (map fst fs)
  | TupleT ds => forall d, In d ds -> IsDataShape d
  | _ => False
  end.
Definition DataType (t : ty) : Prop :=
  match t with
  | DataShapeT n ps => n = None /\ exists dims m, ps = dims ++ [m] /\ Forall DataDim dims /\ DataElem m
  | _ => DataElem t \/ DataDim t
  end.
(** exceptions of Python itself: not a syntax error of the parser, not one of the two outcomes
    that exist in this model only *)
Definition real_exn (e : exn) : Prop :=
  match e with SyntaxErr _ _ | OutOfFuel | NotModelled => False | _ => True end.
(** dateutil's parser raises Python's own exceptions *)
Definition dates_ok (so : strings) : Prop :=
  forall s, match so_date so s with Ok _ => True | Raise e => real_exn e end.
(** The outcomes of [discover] on a value: a data type that is not itself a dimension, whose
    field names all are names in the value; or an exception *)
Definition Finds (v : dval) (r : res ty) : Prop :=
  match r with
  | Ok t => WF t /\ ~ DimensionClass t /\ (forall u, Occurs u t -> DataType u) /\
            (forall fs n, Occurs (RecordT fs) t -> In n (map fst fs) -> KeyOf n v)
  | Raise e => real_exn e
  end.

(** C48. Values built by nesting sequences, and mappings with distinct keys, from the leaves
    in [leaf] *)
From Verif Require Import Spec_Discovery.
Definition IsLeaf (v : dval) : Prop := match v with DSeq _ _ | DMap _ _ => False | _ => True end.
Inductive Nested (leaf : dval -> Prop) : dval -> Prop :=
| Nested_leaf v : IsLeaf v -> leaf v -> Nested leaf v
| Nested_seq k l : Forall (Nested leaf) l -> Nested leaf (DSeq k l)
| Nested_map k l : NoDup (map fst l) -> Forall (fun kv => Nested leaf (snd kv)) l -> Nested leaf (DMap k l).
(** [x] is a leaf of the value *)
Inductive LeafOf (x : dval) : dval -> Prop :=
| Leaf_here : IsLeaf x -> LeafOf x x
| Leaf_seq k l y : In y l -> LeafOf x y -> LeafOf x (DSeq k l)
| Leaf_map k l n y : In (n, y) l -> LeafOf x y -> LeafOf x (DMap k l).
(** the leaf has, on its own, a type of the coercion graph: anything but complex numbers, bytes,
    times, and strings that read as times or time differences *)
Definition KnownLeaf (sc : sched) (so : strings) (v : dval) : Prop := exists t, discover sc so v = Ok t /\ Known t.

(** C49. The element type of an array whose dtype describes the elements as [m], when [strs]
    tells which columns hold only strings ([None]: the array itself, [Some n]: the field [n]) *)
Definition text_column (strs : option str -> bool) (c : option str) (t t' : ty) : Prop :=
  (t = object_t /\ strs c = true /\ t' = string_t) \/ ((t = object_t -> strs c = false) /\ t' = t).
Inductive Described (strs : option str -> bool) : ty -> ty -> Prop :=
| Described_record fs gs :
    Forall2 (fun f g => fst g = fst f /\ text_column strs (Some (fst f)) (snd f) (snd g)) fs gs ->
    Described strs (RecordT fs) (RecordT gs)
| Described_scalar m m' : (forall fs, m <> RecordT fs) -> text_column strs None m m' ->
    Described strs m m'.
