(** Specification for C64: what every NumPy dtype becomes as a datashape and what every
    datashape becomes as a NumPy (shape, dtype), independent of the functions of Numpy.v. *)
From Verif Require Import Base Types Lexer Printer Construct Numpy Spec_Time Spec_Numpy.
Local Open Scope Z_scope.

(** ** Scalars: type name, NumPy dtype, type *)
Definition np_scalars : list (str * npdt * ty) :=
  [ ($"bool", NBool, CType $"bool" 1 1);
    ($"int8", NInt B8, CType $"int8" 1 1); ($"int16", NInt B16, CType $"int16" 2 2);
    ($"int32", NInt B32, CType $"int32" 4 4); ($"int64", NInt B64, CType $"int64" 8 8);
    ($"uint8", NUInt B8, CType $"uint8" 1 1); ($"uint16", NUInt B16, CType $"uint16" 2 2);
    ($"uint32", NUInt B32, CType $"uint32" 4 4); ($"uint64", NUInt B64, CType $"uint64" 8 8);
    ($"float16", NFloat F16, CType $"float16" 2 2); ($"float32", NFloat F32, CType $"float32" 4 4);
    ($"float64", NFloat F64, CType $"float64" 8 8);
    ($"complex[float32]", NComplex C64, CType $"complex[float32]" 8 4);
    ($"complex[float64]", NComplex C128, CType $"complex[float64]" 16 8);
    ($"void", NVoid 0, CType $"void" 0 1); ($"object", NObject, CType $"object" 8 8) ].
(** other names a scalar type object may carry *)
Definition np_aliases : list (str * npdt) :=
  [ ($"complex64", NComplex C64); ($"complex128", NComplex C128) ].
Definition day_units : list str := [$"Y"; $"M"; $"W"; $"D"].
Definition Sizes (shp : list Z) : Prop := Forall (fun n => 0 <= n) shp.

(** ** NumPy to datashape *)
Inductive FromDtype : npdt -> ty -> Prop :=
| FD_scalar n d t : In (n, d, t) np_scalars -> FromDtype d t
| FD_bytes n : FromDtype (NBytes n) (StringT (Some n) $"A")
| FD_unicode n : FromDtype (NUnicode n) (StringT (Some n) $"U32")
| FD_date u k : In u day_units -> FromDtype (NDatetime u k) DateT
| FD_datetime u k : ~ In u day_units -> FromDtype (NDatetime u k) (DateTimeT None)
| FD_timedelta u k v : UnitOf u v -> FromDtype (NTimedelta u k) (TimeDeltaT v)
| FD_order d t : FromDtype d t -> FromDtype (NSwap d) t
| FD_no_field : FromDtype (NStruct []) (CType $"void" 0 1)
| FD_struct fs gs : fs <> [] -> NoDup (map fst fs) ->
    Forall2 (fun f g => fst g = fst f /\ Sizes (fst (snd f)) /\
               exists m, FromDtype (snd (snd f)) m /\ snd g = array_of (fst (snd f)) m) fs gs ->
    FromDtype (NStruct fs) (RecordT gs).

(** ** datashape to NumPy *)
Inductive DimSize : ty -> Z -> Prop :=
| DS_fixed n : DimSize (FixedT n) n
| DS_free s : DimSize (TypeVarT s) (-1).
(** fields without a name are numbered *)
Definition FieldNames (given names : list str) : Prop :=
  length names = length given /\
  forall i n, nth_error given i = Some n ->
    nth_error names i = Some (match n with [] => $"f" ++ z2s (Z.of_nat i) | _ => n end).
(** a struct dtype of plain fields *)
Definition struct_of (names : list str) (ds : list npdt) : npdt :=
  NStruct (combine names (map (fun d => ([], d)) ds)).
(** the smallest signed integer with room for [p] decimal digits *)
Definition SmallestInt (p : Z) (s : isz) : Prop :=
  10 ^ p <= 2 ^ (ibits s - 1) /\ forall s', 10 ^ p <= 2 ^ (ibits s' - 1) -> ibits s <= ibits s'.
(** the types NumPy has a missing value for *)
Inductive HasMissing : ty -> Prop :=
| HM_date : HasMissing DateT
| HM_datetime z : HasMissing (DateTimeT z)
| HM_timedelta u : HasMissing (TimeDeltaT u).

(** [AsDtype t d]: [t], a type that is not a DataShape, has dtype [d];
    [AsShaped t shp d]: [to_numpy(t)] is [(shp, d)];
    [Inner t d]: [to_numpy_dtype(t)] is [d], also used for the fields of records and tuples *)
Inductive AsDtype : ty -> npdt -> Prop :=
| AD_scalar n d t i a : In (n, d, t) np_scalars -> AsDtype (CType n i a) d
| AD_alias n d i a : In (n, d) np_aliases -> AsDtype (CType n i a) d
| AD_date : AsDtype DateT (NDatetime $"D" 1)
| AD_datetime z : AsDtype (DateTimeT z) (NDatetime $"us" 1)
| AD_timedelta u : AsDtype (TimeDeltaT u) (NTimedelta u 1)
| AD_missing t d : HasMissing t -> AsDtype t d -> AsDtype (OptionT t) d
| AD_text l e : l = None \/ l = Some 0 -> AsDtype (StringT l e) NObject
| AD_ascii n : 0 < n <= np_maxlen -> AsDtype (StringT (Some n) $"A") (NBytes n)
| AD_unicode n e : 0 < n <= np_maxlen -> e <> $"A" -> AsDtype (StringT (Some n) e) (NUnicode n)
| AD_integer p s : SmallestInt p s -> AsDtype (DecimalT p 0) (NInt s)
| AD_decimal p q : q <> 0 -> AsDtype (DecimalT p q) (NFloat F64)
| AD_map k v d : Inner (MapT k v) d -> AsDtype (MapT k v) d
| AD_record fs names ds : FieldNames (map fst fs) names -> NoDup names ->
    Forall2 (fun f d => Inner (snd f) d) fs ds -> AsDtype (RecordT fs) (struct_of names ds)
| AD_tuple l names ds : FieldNames (map (fun _ => []) l) names ->
    Forall2 Inner l ds -> AsDtype (TupleT l) (struct_of names ds)
with AsShaped : ty -> list Z -> npdt -> Prop :=
| AS_array n dims m shp d : Forall2 DimSize dims shp -> AsDtype m d ->
    AsShaped (DataShapeT n (dims ++ [m])) shp d
| AS_plain t d : AsDtype t d -> AsShaped t [] d
with Inner : ty -> npdt -> Prop :=
| IN_measure t shp d : is_Map (measure t) = false -> AsShaped (measure t) shp d -> Inner t d
| IN_map t k v shp d : measure t = MapT k v -> AsShaped (measure k) shp d -> Inner t d.

(** ** What a dtype keeps when it goes to a datashape and back *)
Inductive Kept : npdt -> npdt -> Prop :=
| K_scalar n d t : In (n, d, t) np_scalars -> Kept d d
| K_bytes n : 0 < n <= np_maxlen -> Kept (NBytes n) (NBytes n)
| K_unicode n : 0 < n <= np_maxlen -> Kept (NUnicode n) (NUnicode n)
| K_no_bytes : Kept (NBytes 0) NObject
| K_no_text : Kept (NUnicode 0) NObject
| K_date u k : In u day_units -> Kept (NDatetime u k) (NDatetime $"D" 1)
| K_datetime u k : ~ In u day_units -> Kept (NDatetime u k) (NDatetime $"us" 1)
| K_timedelta u k v : UnitOf u v -> Kept (NTimedelta u k) (NTimedelta v 1)
| K_order d d' : Kept d d' -> Kept (NSwap d) d'
| K_no_field : Kept (NStruct []) (NVoid 0)
| K_struct fs names ds : fs <> [] -> FieldNames (map fst fs) names -> NoDup names ->
    Forall2 (fun f d => Kept (snd (snd f)) d) fs ds -> Kept (NStruct fs) (struct_of names ds).

(** ** Reasons for refusals *)
(** a name NumPy would give to two fields *)
Definition NameClash (fs : list (str * ty)) : Prop :=
  exists names, FieldNames (map fst fs) names /\ ~ NoDup names.
(** objects whose dtype is left out of the model: scalar types with another name (char, say)
    and string lengths beyond the largest NumPy has *)
Inductive OutOfModel : ty -> Prop :=
| OM_scalar n i a : ~ In n (map (fun x => fst (fst x)) np_scalars ++ map fst np_aliases) -> OutOfModel (CType n i a)
| OM_length n e : n < 0 \/ np_maxlen < n -> OutOfModel (StringT (Some n) e).
(** a dtype occurring in another one *)
Inductive PartOf (d : npdt) : npdt -> Prop :=
| PO_here : PartOf d d
| PO_order x : PartOf d x -> PartOf d (NSwap x)
| PO_field n shp x fs : In (n, (shp, x)) fs -> PartOf d x -> PartOf d (NStruct fs).
(** dtypes without a datashape: long doubles, sized void *)
Inductive NoType : npdt -> Prop :=
| NT_float : NoType (NFloat F128)
| NT_complex : NoType (NComplex C256)
| NT_void n : n <> 0 -> NoType (NVoid n).
(** a dtype without its byte order *)
Inductive Native : npdt -> npdt -> Prop :=
| NA_order x d : Native x d -> Native (NSwap x) d
| NA_plain d : (forall x, d <> NSwap x) -> (forall fs, d <> NStruct fs) -> Native d d.
