(** C64: the NumPy conversions, exactly, for every dtype and every datashape. *)
From Verif Require Import Base Types Lexer Printer Construct Preds Numpy Spec_WF Spec_Time Spec_Numpy Spec_NpConv
  Proof_WF Proof_NpConv Proof_NpConv2 Proof_NpConv3.
Local Open Scope Z_scope.

(** [from_numpy(shape, dtype)] *)
Theorem C64_from_numpy : forall shp d t,
  from_numpy shp d = Ok t <-> exists m, FromDtype d m /\ Sizes shp /\ t = array_of shp m.
Proof. exact from_numpy_spec. Qed.
Print Assumptions C64_from_numpy.
(** it raises NotImplementedError only for dtypes with a part NumPy has and datashape has not;
    otherwise (unknown time units, repeated names, negative sizes) ValueError or IndexError *)
Theorem C64_from_numpy_refuses : forall shp d e, from_numpy shp d = Raise e ->
  e = ValueErr \/ e = IndexErr \/ (e = NotImplErr /\ exists x, PartOf x d /\ NoType x).
Proof. exact from_numpy_refusal. Qed.
Print Assumptions C64_from_numpy_refuses.
(** [CType.from_numpy_dtype(dtype)] on scalar dtypes *)
Theorem C64_from_dtype : forall d x t, Native d x ->
  (ctype_from_numpy_dtype d = Ok t <-> (x = NBytes 0 /\ t = BytesT) \/ (x <> NBytes 0 /\ FromDtype x t)).
Proof. exact ctype_from_spec. Qed.
Print Assumptions C64_from_dtype.

(** [to_numpy(ds)], [to_numpy_dtype(ds)], [t.to_numpy_dtype()] *)
Theorem C64_to_numpy : forall t shp d, to_numpy t = Ok (shp, d) <-> AsShaped t shp d.
Proof. exact to_numpy_spec. Qed.
Print Assumptions C64_to_numpy.
Theorem C64_to_numpy_dtype : forall t d, to_numpy_dtype t = Ok d <-> Inner t d.
Proof. exact to_numpy_dtype_spec. Qed.
Print Assumptions C64_to_numpy_dtype.
Theorem C64_method : forall t d, npmeth t = Ok d <-> AsDtype t d.
Proof. exact meth_spec. Qed.
Print Assumptions C64_method.
(** refusals are TypeErrors, except for records two of whose fields get the same NumPy name *)
Theorem C64_to_numpy_refuses : forall t e, to_numpy t = Raise e \/ to_numpy_dtype t = Raise e ->
  e = TypeErr \/ (e = ValueErr /\ exists fs, Occurs (RecordT fs) t /\ NameClash fs)
  \/ (e = NotModelled /\ exists u, Occurs u t /\ OutOfModel u).
Proof. intros t e [H|H]; [exact (to_numpy_refusal t e H)|exact (to_numpy_dtype_refusal t e H)]. Qed.
Print Assumptions C64_to_numpy_refuses.

(** There and back: exactly what is kept of a dtype. *)
Theorem C64_dtype_and_back : forall shp d t, from_numpy shp d = Ok t ->
  forall shp' d', to_numpy t = Ok (shp', d') <-> shp' = shp /\ Kept d d'.
Proof. exact dtype_roundtrip. Qed.
Print Assumptions C64_dtype_and_back.
(** A dtype that a datashape was converted to survives (no sizes left open, no empty records). *)
Theorem C64_stable : forall t shp d, WF t -> ~ Occurs (RecordT []) t -> ~ Occurs (TupleT []) t ->
  to_numpy t = Ok (shp, d) -> Sizes shp ->
  exists t', from_numpy shp d = Ok t' /\ to_numpy t' = Ok (shp, d).
Proof. exact stable. Qed.
Print Assumptions C64_stable.
(** without fields it does not: an empty record comes back as void *)
Theorem C64_empty_record_refuted : exists t, to_numpy (RecordT []) = Ok ([], NStruct [])
  /\ from_numpy [] (NStruct []) = Ok t /\ to_numpy t = Ok ([], NVoid 0).
Proof. exists void_t. repeat apply conj; vm_compute; reflexivity. Qed.
Print Assumptions C64_empty_record_refuted.

(** ** Cases *)
Definition C64_dt : npdt :=
  NStruct [($"when", ([2; 3], NSwap (NDatetime $"ns" 25))); ($"d", ([], NDatetime $"W" 1));
           ($"n", ([], NUnicode 0))].
Definition C64_ty : ty :=
  RecordT [($"when", DataShapeT None [FixedT 2; FixedT 3; DateTimeT None]); ($"d", DateT);
           ($"n", StringT (Some 0) $"U32")].
Example C64_case_from : from_numpy [4] C64_dt = Ok (DataShapeT None [FixedT 4; C64_ty]).
Proof. vm_compute. reflexivity. Qed.
Example C64_case_back : to_numpy (DataShapeT None [FixedT 4; C64_ty]) =
  Ok ([4], NStruct [($"when", ([], NDatetime $"us" 1)); ($"d", ([], NDatetime $"D" 1)); ($"n", ([], NObject))]).
Proof. vm_compute. reflexivity. Qed.
(** an unnamed field, a map (its keys count), an open size *)
Example C64_case_to : to_numpy (DataShapeT None [TypeVarT $"N";
     RecordT [([], DecimalT 5 0); ($"b", MapT (StringT (Some 7) $"A") int8_t);
              ($"t", TupleT [DataShapeT None [OptionT DateT]])]]) =
  Ok ([-1], NStruct [($"f0", ([], NInt B32)); ($"b", ([], NBytes 7));
                     ($"t", ([], NStruct [($"f0", ([], NDatetime $"D" 1))]))]).
Proof. vm_compute. reflexivity. Qed.
Example C64_case_refused : to_numpy (DataShapeT None [VarT; int8_t]) = Raise TypeErr
  /\ to_numpy (RecordT [([], int8_t); ($"f0", int8_t)]) = Raise ValueErr
  /\ to_numpy (OptionT int8_t) = Raise TypeErr
  /\ from_numpy [] (NTimedelta $"generic" 1) = Raise ValueErr
  /\ from_numpy [] (NStruct [($"a", ([], NFloat F128))]) = Raise NotImplErr
  /\ from_numpy [-1] NBool = Raise ValueErr.
Proof. repeat apply conj; vm_compute; reflexivity. Qed.
Example C64_case_wf : WF (DataShapeT None [FixedT 4; C64_ty]) /\ ~ Occurs (RecordT []) (DataShapeT None [FixedT 4; C64_ty])
  /\ ~ Occurs (TupleT []) (DataShapeT None [FixedT 4; C64_ty]).
Proof.
  split; [apply wf_WF; vm_compute; reflexivity|].
  assert (G : forall u, Occurs u (DataShapeT None [FixedT 4; C64_ty]) -> u <> RecordT [] /\ u <> TupleT []).
  { intros u H. repeat match goal with
      | K : Occurs _ _ |- _ => inversion K; subst; clear K; [split; discriminate|]
      | K : In _ (children _) |- _ => cbn [children In map snd C64_ty] in K
      | K : _ \/ _ |- _ => destruct K as [<-|K]
      | K : False |- _ => destruct K
      end. }
  split; intro H; apply G in H; destruct H; congruence.
Qed.
