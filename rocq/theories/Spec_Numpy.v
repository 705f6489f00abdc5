(** Specification vocabulary for the NumPy conversions, promotion and type sets. *)
From Verif Require Import Base Types Construct Numpy Spec_Time.
Local Open Scope Z_scope.

(** ** Integers in NumPy integer dtypes *)
Definition fits_int (s : isz) (z : Z) : Prop := - 2 ^ (ibits s - 1) <= z <= 2 ^ (ibits s - 1) - 1.
Definition fits_uint (s : isz) (z : Z) : Prop := 0 <= z <= 2 ^ ibits s - 1.
(** integers written with at most [p] decimal digits, with a sign *)
Definition decimal_int (p z : Z) : Prop := Z.abs z < 10 ^ p.

(** ** The exact fragment: dtypes and datashapes that survive the conversion *)
Inductive ExactScalar : npdt -> ty -> Prop :=
| EBool : ExactScalar NBool bool_t
| EI8 : ExactScalar (NInt B8) int8_t
| EI16 : ExactScalar (NInt B16) int16_t
| EI32 : ExactScalar (NInt B32) int32_t
| EI64 : ExactScalar (NInt B64) int64_t
| EU8 : ExactScalar (NUInt B8) uint8_t
| EU16 : ExactScalar (NUInt B16) uint16_t
| EU32 : ExactScalar (NUInt B32) uint32_t
| EU64 : ExactScalar (NUInt B64) uint64_t
| EF16 : ExactScalar (NFloat F16) float16_t
| EF32 : ExactScalar (NFloat F32) float32_t
| EF64 : ExactScalar (NFloat F64) Printer.float64_t
| EC64 : ExactScalar (NComplex C64) complex64_t
| EC128 : ExactScalar (NComplex C128) complex128_t
| EObject : ExactScalar NObject object_t
| EVoid : ExactScalar (NVoid 0) void_t
| EDate : ExactScalar (NDatetime $"D" 1) DateT
| EDateTime : ExactScalar (NDatetime $"us" 1) (DateTimeT None)
| ETimeDelta u : In u time_units -> ExactScalar (NTimedelta u 1) (TimeDeltaT u)
| EBytes n : 0 < n <= np_maxlen -> ExactScalar (NBytes n) (StringT (Some n) $"A")
| EUnicode n : 0 < n <= np_maxlen -> ExactScalar (NUnicode n) (StringT (Some n) $"U32").

(** matching dtype and measure: scalars, and structs/records with the same distinct
    non-empty names and matching components, no sub-arrays *)
Inductive Exact : npdt -> ty -> Prop :=
| ExScalar d t : ExactScalar d t -> Exact d t
| ExStruct names ds ts :
    names <> [] -> NoDup names -> ~ In [] names ->
    length ds = length names -> Forall2 Exact ds ts ->
    Exact (NStruct (combine names (map (fun d => ([], d)) ds))) (RecordT (combine names ts)).

(** an array datashape [n1 * ... * nk * m]; the bare measure when there are no dimensions *)
Definition array_of (shp : list Z) (m : ty) : ty :=
  match shp with [] => m | _ => DataShapeT None (map FixedT shp ++ [m]) end.

(** ** What numeric types can hold
    (type, least and greatest value, fractions?, imaginary part?, significant bits) *)
Record capacity := { cap_lo : Z; cap_hi : Z; cap_frac : bool; cap_imag : bool; cap_bits : Z }.
Definition capacities : list (ty * capacity) :=
  let int b := {| cap_lo := - 2 ^ (b - 1); cap_hi := 2 ^ (b - 1) - 1; cap_frac := false;
                  cap_imag := false; cap_bits := b - 1 |} in
  let uint b := {| cap_lo := 0; cap_hi := 2 ^ b - 1; cap_frac := false; cap_imag := false;
                   cap_bits := b |} in
  (* binary floating point: greatest value (2^p - 1) * 2^e *)
  let flt p e im := {| cap_lo := - ((2 ^ p - 1) * 2 ^ e); cap_hi := (2 ^ p - 1) * 2 ^ e;
                       cap_frac := true; cap_imag := im; cap_bits := p |} in
  [ (bool_t, {| cap_lo := 0; cap_hi := 1; cap_frac := false; cap_imag := false; cap_bits := 1 |});
    (int8_t, int 8); (int16_t, int 16); (int32_t, int 32); (int64_t, int 64);
    (uint8_t, uint 8); (uint16_t, uint 16); (uint32_t, uint 32); (uint64_t, uint 64);
    (float16_t, flt 11 5 false); (float32_t, flt 24 104 false);
    (Printer.float64_t, flt 53 971 false);
    (complex64_t, flt 24 104 true); (complex128_t, flt 53 971 true) ].

(** the scalar types of the claim: those and [object] *)
Definition NumScalar (t : ty) : Prop := t = object_t \/ In t (map fst capacities).

(** [r] can hold the values of [t]: object holds everything; otherwise range, fractions,
    imaginary parts, and the significant bits up to the 53 of the widest float *)
Definition Covers (t r : ty) : Prop :=
  r = object_t \/
  exists c c', In (t, c) capacities /\ In (r, c') capacities
    /\ cap_lo c' <= cap_lo c /\ cap_hi c <= cap_hi c'
    /\ (cap_frac c = true -> cap_frac c' = true)
    /\ (cap_imag c = true -> cap_imag c' = true)
    /\ (cap_bits c <= cap_bits c' \/ cap_bits c' = 53).

(** ** Promotion of texts, dates and time differences *)

(** types whose values NumPy keeps as Python objects *)
Definition ObjectStored (t : ty) : Prop := t = object_t \/ exists e, t = StringT None e.
Definition DateLike (t : ty) : Prop := t = DateT \/ exists z, t = DateTimeT z.
(** the types that can be promoted with those: numbers, texts, dates, time differences *)
Definition AnyScalar (t : ty) : Prop :=
  NumScalar t \/ ObjectStored t \/ DateLike t \/ (exists u, t = TimeDeltaT u) \/
  (exists n e, t = StringT (Some n) e /\ 0 <= n <= np_maxlen).
(** units of time and their length in nanoseconds *)
Definition unit_lengths : list (str * Z) :=
  [ ($"W", 604800000000000); ($"D", 86400000000000); ($"h", 3600000000000);
    ($"m", 60000000000); ($"s", 1000000000); ($"ms", 1000000); ($"us", 1000); ($"ns", 1) ].
(** the units without a fixed length *)
Definition calendar_units : list str := [$"Y"; $"M"].
(** the common type of two scalars that are not both numbers *)
Inductive Joined : ty -> ty -> ty -> Prop :=
| Joined_string : Joined string_t string_t string_t
| Joined_object a b : ObjectStored a -> AnyScalar b -> ~ (a = string_t /\ b = string_t) -> Joined a b object_t
| Joined_object_r a b : AnyScalar a -> ObjectStored b -> ~ (a = string_t /\ b = string_t) -> Joined a b object_t
| Joined_date : Joined DateT DateT DateT
| Joined_datetime a b : DateLike a -> DateLike b -> a <> DateT \/ b <> DateT -> Joined a b (DateTimeT None)
| Joined_same_unit u : In u canonical_units -> Joined (TimeDeltaT u) (TimeDeltaT u) (TimeDeltaT u)
| Joined_units u v w lu lv lw : In (u, lu) unit_lengths -> In (v, lv) unit_lengths -> In (w, lw) unit_lengths ->
    w = u \/ w = v -> (lw | lu) -> (lw | lv) ->
    Joined (TimeDeltaT u) (TimeDeltaT v) (TimeDeltaT w)
| Joined_calendar u v : In u calendar_units -> In v calendar_units -> u <> v ->
    Joined (TimeDeltaT u) (TimeDeltaT v) (TimeDeltaT $"M")
| Joined_ascii n m : 0 < n <= np_maxlen -> 0 < m <= np_maxlen ->
    Joined (StringT (Some n) $"A") (StringT (Some m) $"A") (StringT (Some (Z.max n m)) $"A")
| Joined_text n e m f : 0 < n <= np_maxlen -> 0 < m <= np_maxlen -> ~ (e = $"A" /\ f = $"A") ->
    Joined (StringT (Some n) e) (StringT (Some m) f) (StringT (Some (Z.max n m)) $"U32").
(** time differences without a common unit: one in a calendar unit, the other in another *)
Inductive Unjoined : ty -> ty -> Prop :=
| Unjoined_left u v : In u calendar_units -> In v (map fst unit_lengths) -> Unjoined (TimeDeltaT u) (TimeDeltaT v)
| Unjoined_right u v : In u (map fst unit_lengths) -> In v calendar_units -> Unjoined (TimeDeltaT u) (TimeDeltaT v).

(** ** Families of numeric types *)
Definition families : list (list ty) :=
  [ [bool_t]; [int8_t; int16_t; int32_t; int64_t]; [uint8_t; uint16_t; uint32_t; uint64_t];
    [float32_t; Printer.float64_t]; [complex64_t; complex128_t] ].
Definition size_of (t : ty) : Z := match t with CType _ i _ => i | _ => 0 end.
