(** C60: item size and alignment of scalar types; argument and result types of functions. *)
From Verif Require Import Base Types Lexer Printer Construct Parser Ops Preds Numpy Graph Discovery Attrs
  Spec_WF Spec_Numpy Spec_Print Spec_Found Spec_Attrs Proof_WF Proof_Parser Proof_Discovery6 Proof_Reads Proof_Attrs
  Tests_Parser Tests_Discovery.
Local Open Scope Z_scope.

(** Exactly the native scalar types and options of them have an item size; reading it from
    anything else raises AttributeError. *)
Theorem C60_itemsize : forall t,
  (forall n, py_itemsize t = Ok n <-> exists name a, Optional (CType name n a) t) /\
  (py_itemsize t = Raise AttributeErr <-> forall name n a, ~ Optional (CType name n a) t).
Proof.
  intro t. split; [intro n; apply itemsize_iff|]. split.
  - intros H name n a O. assert (E : py_itemsize t = Ok n) by (apply itemsize_iff; eauto). congruence.
  - intro H. destruct (itemsize_raises t) as [[n E]|E]; auto. apply itemsize_iff in E as (nm & a & O). destruct (H _ _ _ O).
Qed.
Print Assumptions C60_itemsize.
(** Whatever text a datashape was parsed from, every item size (and alignment) in it is the one
    of the NumPy dtype that the type converts to. *)
Theorem C60_as_numpy : forall U sc so s t u n, dates_ok so -> dshape (full_env U sc so) s = Ok t -> Occurs u t ->
  py_itemsize u = Ok n ->
  exists c d, Optional c u /\ npmeth c = Ok d /\ n = StoreBytes d /\ py_alignment c = Ok (StoreAlign d).
Proof. exact parsed_storage. Qed.
Print Assumptions C60_as_numpy.
(** Conversely a type made from a NumPy dtype has that dtype's item size and alignment, or none. *)
Theorem C60_from_numpy : forall d t, from_numpy [] d = Ok t ->
  (py_itemsize t = Ok (StoreBytes d) /\ py_alignment t = Ok (StoreAlign d)) \/
  (py_itemsize t = Raise AttributeErr /\ py_alignment t = Raise AttributeErr).
Proof.
  intros d t H. unfold from_numpy in H. destruct (np_measure d) as [m|] eqn:E; cbn in H; [|discriminate]. injection H as <-.
  exact (numpy_sized d m E).
Qed.
Print Assumptions C60_from_numpy.
(** A function type splits into its argument types and its result type. *)
Theorem C60_function : forall E s t ps, disc_ok E -> dshape E s = Ok t -> Occurs (FunctionT ps) t ->
  exists args ret, py_argtypes (FunctionT ps) = Ok args /\ py_restype (FunctionT ps) = Ok ret /\ ps = args ++ [ret].
Proof.
  intros E s t ps HE H O. destruct (dshape_outcome E s HE) as [[u [H1 (_ & W & _)]]|[[p [m [H1 _]]]|[e [H1 _]]]]; try congruence.
  assert (u = t) by congruence. subst u.
  pose proof (W _ O) as I. cbn in I. exists (removelast ps), (last ps NullT).
  split; [reflexivity|]. split; [destruct ps; [contradiction|reflexivity]|]. apply app_removelast_last. exact I.
Qed.
Print Assumptions C60_function.

(** *** cases *)
Example C60_numpy_case : exists t, dshape (full_env U0 sc0 so0) $"3 * {a: ?complex[float64], b: (int8, float16) -> object}" = Ok t /\
  Occurs (OptionT complex128_t) t /\ py_itemsize (OptionT complex128_t) = Ok 16 /\
  Occurs (FunctionT [DataShapeT None [int8_t]; DataShapeT None [float16_t]; DataShapeT None [object_t]]) t.
Proof.
  eexists. split; [vm_compute; reflexivity|]. split; [|split; [reflexivity|]].
  - eapply Occurs_in; [right; left; reflexivity|]. eapply Occurs_in; [left; reflexivity|]. constructor.
  - eapply Occurs_in; [right; left; reflexivity|]. eapply Occurs_in; [right; left; reflexivity|]. constructor.
Qed.
Example C60_from_case : from_numpy [] (NSwap (NComplex C64)) = Ok complex64_t /\ py_itemsize complex64_t = Ok 8 /\
  py_alignment complex64_t = Ok 4 /\ py_itemsize (StringT (Some 3) $"A") = Raise AttributeErr.
Proof. repeat split. Qed.
