(** C26-C29: NumPy conversions, promotion, [maxtype]; [isnumeric] (C43). *)
From Verif Require Import Base Types Lexer Printer Construct Parser Preds Numpy Spec_WF Spec_Numpy Spec_Time
  Proof_Eq Proof_WF Proof_Numpy Proof_Promote Tests_Parser.
Local Open Scope Z_scope.

(** ** C26. Decimals *)
(** When [Decimal(p).to_numpy_dtype()] returns a dtype it is a signed integer dtype holding
    every integer of at most [p] digits, and no smaller integer dtype (and no unsigned one up to
    that size) holds them all; it raises TypeError exactly when no integer dtype does. *)
Theorem C26_integer_decimal : forall p, 1 <= p ->
  (exists s, npmeth (DecimalT p 0) = Ok (NInt s)
     /\ (forall z, decimal_int p z -> fits_int s z)
     /\ (forall s', ibits s' < ibits s -> exists z, decimal_int p z /\ ~ fits_int s' z)
     /\ (forall s', ibits s' <= ibits s -> exists z, decimal_int p z /\ ~ fits_uint s' z))
  \/ (npmeth (DecimalT p 0) = Raise TypeErr
     /\ (forall s, exists z, decimal_int p z /\ ~ fits_int s z)
     /\ (forall s, exists z, decimal_int p z /\ ~ fits_uint s z)).
Proof. exact decimal_spec. Qed.
Print Assumptions C26_integer_decimal.
Theorem C26_scaled_decimal : forall p s, s <> 0 -> npmeth (DecimalT p s) = Ok (NFloat F64).
Proof. exact decimal_scaled. Qed.
Print Assumptions C26_scaled_decimal.
Example C26_ex1 : npmeth (DecimalT 9 0) = Ok (NInt B32) /\ npmeth (DecimalT 10 0) = Ok (NInt B64)
  /\ npmeth (DecimalT 19 0) = Raise TypeErr.
Proof. repeat split. Qed.
Example C26_ex2 : decimal_int 3 (-999) /\ ~ fits_int B8 (-999) /\ fits_int B16 (-999).
Proof. unfold decimal_int, fits_int. cbn. lia. Qed.

(** ** C27. Round trips *)
Theorem C27_numpy_roundtrip : forall shp d t, Exact d t -> Forall (fun z => 0 <= z) shp ->
  from_numpy shp d = Ok (array_of shp t) /\ to_numpy (array_of shp t) = Ok (shp, d).
Proof. exact numpy_roundtrip. Qed.
Print Assumptions C27_numpy_roundtrip.
(** Starting from a datashape: any array over the fragment, with any name, also [DataShape(m)]. *)
Theorem C27_datashape_roundtrip : forall nm shp d t, Exact d t -> Forall (fun z => 0 <= z) shp ->
  to_numpy (DataShapeT nm (map FixedT shp ++ [t])) = Ok (shp, d)
  /\ exists r, from_numpy shp d = Ok r /\ py_eq r (DataShapeT nm (map FixedT shp ++ [t])) = true.
Proof. exact numpy_roundtrip_ds. Qed.
Print Assumptions C27_datashape_roundtrip.
(** Whatever the datashape, the NumPy shape has one entry per dimension: the size of a fixed
    dimension, -1 for a type variable; other dimensions are refused. *)
Theorem C27_shape : forall t shp d, to_numpy t = Ok (shp, d) ->
  Forall2 (fun dim n => dim = FixedT n \/ (exists s, dim = TypeVarT s /\ n = -1))
          (match t with DataShapeT _ ps => removelast ps | _ => [] end) shp.
Proof. exact to_numpy_shape. Qed.
Print Assumptions C27_shape.
Definition C27_dt : npdt :=
  NStruct [($"id", ([], NInt B64)); ($"name", ([], NBytes 10));
           ($"pos", ([], NStruct [($"x", ([], NFloat F32)); ($"when", ([], NDatetime $"us" 1))]))].
Definition C27_ty : ty :=
  RecordT [($"id", int64_t); ($"name", StringT (Some 10) $"A");
           ($"pos", RecordT [($"x", float32_t); ($"when", DateTimeT None)])].
Example C27_exact_example : Exact C27_dt C27_ty.
Proof.
  assert (ND : forall l, nodup_str l = true -> NoDup l) by (intros; now apply nodup_str_NoDup).
  apply (ExStruct [$"id"; $"name"; $"pos"]
           [NInt B64; NBytes 10; NStruct [($"x", ([], NFloat F32)); ($"when", ([], NDatetime $"us" 1))]]
           [int64_t; StringT (Some 10) $"A"; RecordT [($"x", float32_t); ($"when", DateTimeT None)]]).
  - discriminate.
  - apply ND. reflexivity.
  - cbn. intuition discriminate.
  - reflexivity.
  - constructor; [apply ExScalar; constructor|].
    constructor; [apply ExScalar; constructor; unfold np_maxlen; lia|]. constructor; [|constructor].
    apply (ExStruct [$"x"; $"when"] [NFloat F32; NDatetime $"us" 1] [float32_t; DateTimeT None]).
    + discriminate.
    + apply ND. reflexivity.
    + cbn. intuition discriminate.
    + reflexivity.
    + repeat constructor.
Qed.
Example C27_example : from_numpy [3; 4] C27_dt = Ok (DataShapeT None [FixedT 3; FixedT 4; C27_ty])
  /\ to_numpy (DataShapeT None [FixedT 3; FixedT 4; C27_ty]) = Ok ([3; 4], C27_dt).
Proof. split; vm_compute; reflexivity. Qed.
(** Lossy cases: each is a dtype (or datashape) outside the fragment that does not survive. *)
Theorem C27_lossy_refuted :
  (* datetime64[ns] comes back as [us]; byte order, sub-array fields and empty strings are lost *)
  (exists t, from_numpy [] (NDatetime $"ns" 1) = Ok t /\ to_numpy t = Ok ([], NDatetime $"us" 1))
  /\ (exists t, from_numpy [] (NSwap (NInt B32)) = Ok t /\ to_numpy t = Ok ([], NInt B32))
  /\ (exists t, from_numpy [] (NStruct [($"a", ([2], NInt B8))]) = Ok t
        /\ to_numpy t = Ok ([], NStruct [($"a", ([], NInt B8))]))
  /\ (exists t, from_numpy [] (NBytes 0) = Ok t /\ to_numpy t = Ok ([], NObject))
  (* string -> object; fixed strings of other encodings become UTF-32; tuples become records *)
  /\ (to_numpy string_t = Ok ([], NObject) /\ from_numpy [] NObject = Ok object_t
        /\ py_eq object_t string_t = false)
  /\ (to_numpy (StringT (Some 5) $"U8") = Ok ([], NUnicode 5)
        /\ from_numpy [] (NUnicode 5) = Ok (StringT (Some 5) $"U32"))
  /\ (to_numpy (TupleT [DataShapeT None [int8_t]]) = Ok ([], NStruct [($"f0", ([], NInt B8))])
        /\ from_numpy [] (NStruct [($"f0", ([], NInt B8))]) = Ok (RecordT [($"f0", int8_t)]))
  (* the shape of an array-valued field is dropped *)
  /\ to_numpy (RecordT [($"a", DataShapeT None [FixedT 3; int8_t])])
       = Ok ([], NStruct [($"a", ([], NInt B8))]).
Proof.
  repeat apply conj;
    match goal with
    | |- exists _, _ => eexists; apply conj; [vm_compute; reflexivity|vm_compute; reflexivity]
    | |- _ => vm_compute; reflexivity
    end.
Qed.
Print Assumptions C27_lossy_refuted.

(** ** C28. Promotion *)
(** For every pair of boolean/integer/float/complex/object scalar types: symmetric, closed,
    covers both operands, minimal with that property; Options as documented. *)
Theorem C28_promote_scalars : forall a b, NumScalar a -> NumScalar b ->
  exists r, NumScalar r
    /\ promote a b true = Ok r /\ promote a b false = Ok r
    /\ promote b a true = Ok r
    /\ promote (OptionT a) b true = Ok (OptionT r)
    /\ promote a (OptionT b) true = Ok (OptionT r)
    /\ promote (OptionT a) (OptionT b) true = Ok (OptionT r)
    /\ promote (OptionT a) b false = Ok r /\ promote a (OptionT b) false = Ok r
    /\ Covers a r /\ Covers b r
    /\ (forall s, NumScalar s -> Covers a s -> Covers b s -> Covers s r -> s = r).
Proof. exact promote_scalars. Qed.
Print Assumptions C28_promote_scalars.
(** For every datashape: *)
Theorem C28_idempotent : forall a po, promote a a po = Ok a.
Proof. exact promote_idem. Qed.
Print Assumptions C28_idempotent.
Theorem C28_symmetric : forall a b po r, WF a -> WF b -> NoTypeSet a -> NoTypeSet b ->
  promote a b po = Ok r -> exists r', promote b a po = Ok r' /\ py_eq r r' = true.
Proof. exact promote_sym. Qed.
Print Assumptions C28_symmetric.
Theorem C28_option_iff : forall a b r, is_DataShape a = false -> is_DataShape b = false ->
  promote a b true = Ok r -> is_Option r = is_Option a || is_Option b.
Proof. exact promote_option. Qed.
Print Assumptions C28_option_iff.
(** unless the operands are equal, [promote_option=False] never gives an Option *)
Theorem C28_no_option : forall a b r, py_eq a b = false -> promote a b false = Ok r -> is_Option r = false.
Proof. intros a b r H1 H2. exact (promote_neq a b false r H1 H2). Qed.
Print Assumptions C28_no_option.
(** texts, dates and time differences: a text or object with anything is an object (a text with a
    text stays one), two texts of fixed length give the longer of them (ASCII when both are, U32
    otherwise), dates with dates give the wider of date and datetime, time differences the
    finer unit; an option on either side makes the result an option, unless switched off *)
Theorem C28_joined : forall a b r (oa ob : bool), Joined a b r -> (oa = ob -> py_eq a b = false) ->
  promote (if oa then OptionT a else a) (if ob then OptionT b else b) true = Ok (if oa || ob then OptionT r else r) /\
  promote (if oa then OptionT a else a) (if ob then OptionT b else b) false = Ok r.
Proof. exact promote_joined. Qed.
Print Assumptions C28_joined.
(** time differences, one in years or months and one in another unit, cannot be promoted (NumPy's
    TypeError); all others can *)
Theorem C28_unjoined : forall a b (oa ob po : bool), Unjoined a b ->
  promote (if oa then OptionT a else a) (if ob then OptionT b else b) po = Raise TypeErr.
Proof. exact promote_unjoined. Qed.
Print Assumptions C28_unjoined.
Theorem C28_units : forall u v po, In u canonical_units -> In v canonical_units ->
  (exists w, Joined (TimeDeltaT u) (TimeDeltaT v) (TimeDeltaT w) /\ promote (TimeDeltaT u) (TimeDeltaT v) po = Ok (TimeDeltaT w)) \/
  (Unjoined (TimeDeltaT u) (TimeDeltaT v) /\ promote (TimeDeltaT u) (TimeDeltaT v) po = Raise TypeErr).
Proof. exact promote_units. Qed.
Print Assumptions C28_units.
(** the common type of two dates with the same time zone has none; of two texts in the same
    encoding (other than UTF-8) is an object *)
Theorem C28_attributes_refuted :
  promote (OptionT (DateTimeT (Some $"UTC"))) (DateTimeT (Some $"UTC")) true = Ok (OptionT (DateTimeT None)) /\
  promote (OptionT (StringT None $"A")) (StringT None $"A") true = Ok (OptionT object_t).
Proof. split; vm_compute; reflexivity. Qed.
Print Assumptions C28_attributes_refuted.
Theorem C28_associative_refuted : exists a b c ab bc r r',
  NumScalar a /\ NumScalar b /\ NumScalar c
  /\ promote a b true = Ok ab /\ promote ab c true = Ok r
  /\ promote b c true = Ok bc /\ promote a bc true = Ok r' /\ py_eq r r' = false.
Proof.
  exists int8_t, uint8_t, float16_t, int16_t, float16_t, float32_t, float16_t.
  repeat apply conj; try (vm_compute; reflexivity); right; cbn [map fst capacities In]; tauto.
Qed.
Print Assumptions C28_associative_refuted.
(** an array-wrapped option is not recognised as an option *)
Example C28_dshape_option : exists t, dshape E0 $"?int32" = Ok t /\ promote t int64_t true = Raise TypeErr.
Proof. eexists. split; [vm_compute; reflexivity|vm_compute; reflexivity]. Qed.
Example C28_joined_nonvacuous :
  Joined (TimeDeltaT $"D") (TimeDeltaT $"ms") (TimeDeltaT $"ms") /\ Joined DateT (DateTimeT (Some $"UTC")) (DateTimeT None) /\
  Joined (StringT None $"A") (StringT (Some 5) $"U8") object_t /\ Joined DateT string_t object_t /\
  promote (OptionT (TimeDeltaT $"D")) (TimeDeltaT $"ms") true = Ok (OptionT (TimeDeltaT $"ms")).
Proof.
  split; [|split; [|split; [|split; [|vm_compute; reflexivity]]]].
  - apply (Joined_units _ _ _ 86400000000000 1000000 1000000); try (vm_compute; tauto).
    + exists 86400000; reflexivity.
    + exists 1; reflexivity.
  - apply Joined_datetime; [left; reflexivity|right; eauto|right; discriminate].
  - apply Joined_object; [right; eauto| |intros [_ H]; discriminate].
    right; right; right; right. do 2 eexists. split; [reflexivity|]. unfold np_maxlen; lia.
  - apply Joined_object_r; [right; right; left; left; reflexivity|right; eexists; reflexivity|intros [H _]; discriminate].
Qed.
Example C28_joined_texts :
  Joined (StringT (Some 5) $"A") (StringT (Some 7) $"U8") (StringT (Some 7) $"U32") /\
  Joined (StringT (Some 5) $"A") (StringT (Some 3) $"A") (StringT (Some 5) $"A") /\
  promote (StringT (Some 5) $"A") (OptionT (StringT (Some 3) $"A")) true = Ok (OptionT (StringT (Some 5) $"A")).
Proof.
  split; [|split; [|vm_compute; reflexivity]].
  - change 7 with (Z.max 5 7) at 2. apply Joined_text; unfold np_maxlen; try lia. intros [_ H]. discriminate.
  - change 5 with (Z.max 5 3) at 2. apply Joined_ascii; unfold np_maxlen; lia.
Qed.
Example C28_unjoined_nonvacuous :
  Unjoined (TimeDeltaT $"D") (TimeDeltaT $"M") /\ Joined (TimeDeltaT $"Y") (TimeDeltaT $"M") (TimeDeltaT $"M") /\
  promote (TimeDeltaT $"D") (OptionT (TimeDeltaT $"M")) true = Raise TypeErr.
Proof.
  split; [|split; [|vm_compute; reflexivity]].
  - apply Unjoined_right; vm_compute; tauto.
  - apply Joined_calendar; try (vm_compute; tauto). discriminate.
Qed.
Example C28_example : promote (OptionT int64_t) uint64_t true = Ok (OptionT float64_t)
  /\ promote int16_t complex64_t true = Ok complex64_t
  /\ promote (OptionT string_t) string_t true = Ok (OptionT string_t).
Proof. repeat apply conj; vm_compute; reflexivity. Qed.

(** ** C29. maxtype
    [measure ds] is [m] or, when [opt], [Option(m)]. *)
Theorem C29_widest : forall ds (opt : bool) m fam,
  measure ds = (if opt then OptionT m else m) -> In fam families -> In m fam ->
  exists w, maxtype ds = Ok (if opt then OptionT w else w) /\ In w fam
    /\ forall x, In x fam -> size_of x <= size_of w.
Proof. exact max_widest. Qed.
Print Assumptions C29_widest.
Theorem C29_decimal_timedelta : forall ds (opt : bool) m, measure ds = (if opt then OptionT m else m) ->
  ((exists p s, m = DecimalT p s) \/ (exists u, m = TimeDeltaT u)) ->
  maxtype ds = Ok (if opt then OptionT m else m).
Proof. exact max_decimal. Qed.
Print Assumptions C29_decimal_timedelta.
Theorem C29_idempotent : forall ds r, WF ds -> maxtype ds = Ok r -> maxtype r = Ok r.
Proof. exact max_idem. Qed.
Print Assumptions C29_idempotent.
(** Everything else raises TypeError, records and type sets excepted. *)
Theorem C29_rejects : forall ds (opt : bool) m, WF ds -> measure ds = (if opt then OptionT m else m) ->
  (opt = false -> is_Option m = false) ->
  ~ In m (concat families) -> (forall p s, m <> DecimalT p s) -> (forall u, m <> TimeDeltaT u) ->
  (forall fs, m <> RecordT fs) -> (forall l n, m <> TypeSetT l n) ->
  maxtype ds = Raise TypeErr.
Proof.
  intros ds opt m W H Ho Hf H1 H2 H3 H4. apply (max_reject ds opt m); auto; clear - H1 H2 H3 H4;
    destruct m; try reflexivity; exfalso;
    [eapply H2|eapply H1|eapply H3|eapply H4]; reflexivity.
Qed.
Print Assumptions C29_rejects.
(** a record raises KeyError, not TypeError: the fallback of matches_typeset iterates it *)
Theorem C29_records_refuted : forall ds (opt : bool) fs,
  measure ds = (if opt then OptionT (RecordT fs) else RecordT fs) -> maxtype ds = Raise KeyErr.
Proof. exact max_record. Qed.
Print Assumptions C29_records_refuted.
Example C29_float16 : maxtype float16_t = Raise TypeErr /\ ~ In float16_t (concat families).
Proof. split; [vm_compute; reflexivity|]. cbn. intuition discriminate. Qed.
Example C29_example : maxtype (DataShapeT None [FixedT 3; OptionT int8_t]) = Ok (OptionT int64_t)
  /\ maxtype bool_t = Ok bool_t /\ maxtype complex64_t = Ok complex128_t
  /\ maxtype (OptionT (DecimalT 11 2)) = Ok (OptionT (DecimalT 11 2)) /\ maxtype string_t = Raise TypeErr.
Proof. repeat apply conj; vm_compute; reflexivity. Qed.
(** [matches_typeset(floating, real)] is False although every floating type is real; its
    fallback compares position by position *)
Example C29_matches_positional : matches_typeset (TypeSetT floating_l (Some $"floating")) real_l = Ok false
  /\ matches_typeset (TypeSetT integral_l (Some $"integral")) real_l = Ok true.
Proof. split; vm_compute; reflexivity. Qed.

(** ** C43. isnumeric *)
Theorem C43_isnumeric : forall ds (opt : bool) m,
  measure ds = (if opt then OptionT m else m) -> (opt = false -> is_Option m = false) ->
  (isnumeric ds = Ok true <->
   (exists n i a, m = CType n i a /\
      In n [$"int8"; $"int16"; $"int32"; $"int64"; $"uint8"; $"uint16"; $"uint32"; $"uint64";
            $"float16"; $"float32"; $"float64"; $"complex64"; $"complex128";
            $"complex[float32]"; $"complex[float64]"])
   \/ (exists p s, m = DecimalT p s /\ (s <> 0 \/ p <= 18))
   \/ (exists u, m = TimeDeltaT u)).
Proof. exact isnumeric_spec. Qed.
Print Assumptions C43_isnumeric.
Example C43_isnumeric_ex : isnumeric (DataShapeT None [FixedT 3; OptionT float64_t]) = Ok true
  /\ isnumeric string_t = Ok false /\ isnumeric (DecimalT 19 0) = Ok false.
Proof. repeat apply conj; vm_compute; reflexivity. Qed.
