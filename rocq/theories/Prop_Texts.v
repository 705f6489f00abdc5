(** C69: the predicates read texts. *)
From Verif Require Import Base Types Lexer Printer Construct Parser Ops Preds Numpy User Objects Texts
  Spec_WF Spec_Eq Spec_Ops Spec_Preds Proof_Parser Proof_Preds Proof_Preds2 Prop_Parser Prop_Preds Prop_Numpy Tests_Parser.
Local Open Scope Z_scope.

Ltac by_text H := unfold isscalar_any, isrecord_any, istabular_any, iscollection_any, isreal_any, isboolean_any, isdatelike_any,
  isfixed_any, ishomogeneous_any, isnumeric_any, dshape_any; try rewrite H; cbn [bind].

(** a text that [dshape] rejects is rejected by every predicate, with the same exception *)
Theorem C69_rejected : forall E s e, dshape E s = Raise e ->
  isscalar_any E (AStr s) = Raise e /\ isrecord_any E (AStr s) = Raise e /\ istabular_any E (AStr s) = Raise e /\
  iscollection_any E (AStr s) = Raise e /\ isnumeric_any E (AStr s) = Raise e /\ isreal_any E (AStr s) = Raise e /\
  isboolean_any E (AStr s) = Raise e /\ isdatelike_any E (AStr s) = Raise e /\ isfixed_any E (AStr s) = Raise e /\
  ishomogeneous_any E (AStr s) = Raise e.
Proof. intros E s e H. by_text H. repeat split. Qed.
Print Assumptions C69_rejected.

(** on any other text seven predicates always answer, and the answer says what the text says *)
Theorem C69_answers : forall E s n ps, disc_ok E -> dshape E s = Ok (DataShapeT n ps) ->
  (exists b, isscalar_any E (AStr s) = Ok b /\
     (b = true <-> exists m, ps = [m] /\ ((ScalarClass m) \/ exists u, m = OptionT u /\ ScalarClass u))) /\
  (exists b, isrecord_any E (AStr s) = Ok b /\
     (b = true <-> exists fs, ps = [RecordT fs] \/ ps = [OptionT (RecordT fs)])) /\
  (exists b, istabular_any E (AStr s) = Ok b /\
     (b = true <-> exists d fs, ps = [d; RecordT fs] \/ ps = [d; OptionT (RecordT fs)])) /\
  (exists b, iscollection_any E (AStr s) = Ok b /\
     (b = true <-> exists d r, ps = d :: r /\ Dim d)) /\
  (exists b, isreal_any E (AStr s) = Ok b /\
     (b = true <-> exists m ds, (ps = ds ++ [m] \/ ps = ds ++ [OptionT m]) /\ (m = CType $"float32" 4 4 \/ m = CType $"float64" 8 8))) /\
  (exists b, isboolean_any E (AStr s) = Ok b /\
     (b = true <-> exists m ds, (ps = ds ++ [m] \/ ps = ds ++ [OptionT m]) /\ m = CType $"bool" 1 1)) /\
  (exists b, isdatelike_any E (AStr s) = Ok b /\
     (b = true <-> exists m ds, (ps = ds ++ [m] \/ ps = ds ++ [OptionT m]) /\ (m = DateT \/ m = DateTimeT None))).
Proof.
  intros E s n ps HE H. destruct (C07_parse_wf _ _ _ HE H) as [_ [HW HN]]. by_text H.
  assert (NE : ps <> []) by (intros ->; eapply WF_nonempty; eauto).
  assert (LK : forall (P : ty -> Prop) f, (forall m, Looked (DataShapeT n ps) m -> f = true <-> P m) -> (forall u, ~ P (OptionT u)) ->
     exists b, @Ok bool f = Ok b /\ (b = true <-> exists m ds, (ps = ds ++ [m] \/ ps = ds ++ [OptionT m]) /\ P m)).
  { intros P f Hf HP. exists f. split; auto. destruct (exists_last NE) as [ds [m Em]]. split.
    - intro F. destruct (C43_looked _ HW) as [k [Hk _]]. specialize (Hf _ Hk). apply Hf in F.
      inversion Hk; subst.
      + exists (last (ds ++ [m]) NullT), ds. rewrite last_last in *. auto.
      + rewrite last_last in *. subst. eauto.
      + destruct H0. red; eauto.
    - intros [k [es [Ek HPk]]]. apply (Hf k); auto. destruct Ek as [Ek|Ek]; rewrite Ek.
      + apply LK_array; [destruct es; discriminate|apply last_last|intros u ->; eapply HP; eauto].
      + apply LK_array_option. apply last_last. }
  repeat apply conj.
  - eexists. split; [reflexivity|]. rewrite C43_isscalar. split.
    + intros [u [HI HS]]. inversion HI; subst; eauto 6.
      * exfalso. inversion HS.
    + intros [m [-> [X|[u [-> X]]]]]; [|exists u; split; auto; constructor].
      exists m. split; auto. constructor. intros u ->. inversion X.
  - eexists. split; [reflexivity|]. rewrite C43_isrecord. split.
    + intros [fs HI]. inversion HI; subst; eauto.
    + intros [fs [-> | ->]]; exists fs; constructor; discriminate.
  - destruct (C43_istabular n ps) as [X [b Y]]. rewrite Y in *. exists b. split; auto. split.
    + intros ->. destruct X as [X _]. destruct (X eq_refl) as [d [m [fs [-> HI]]]]. exists d, fs.
      inversion HI; subst; auto.
      * exfalso. destruct (HW (DataShapeT n [d; DataShapeT n0 [RecordT fs]])) as [? [? [EE _]]]; [constructor|].
        apply (Proof_WF.wf_WF) in HW. cbn in HW. destruct (may_be_dim d); cbn in HW; try discriminate; rewrite ?andb_false_r in HW; discriminate.
      * exfalso. apply (Proof_WF.wf_WF) in HW. cbn in HW. destruct (may_be_dim d); cbn in HW; try discriminate; rewrite ?andb_false_r in HW; discriminate.
    + intros [d [fs [-> | ->]]]; destruct X as [_ X]; cut (@Ok bool b = Ok true); try (intro Q; injection Q; auto; fail); apply X.
      * exists d, (RecordT fs), fs. split; auto. apply In_bare; [|discriminate]. intros [? [? L]]; discriminate.
      * exists d, (OptionT (RecordT fs)), fs. split; auto. constructor.
  - destruct ps as [|p r]; [contradiction|]. destruct (C43_iscollection n p r) as [b [Y X]]. exists b. split; auto. rewrite X. split.
    + intro D. eauto.
    + intros [d [r' [Er D]]]. injection Er as -> ->. auto.
  - apply (LK (fun m => m = CType $"float32" 4 4 \/ m = CType $"float64" 8 8)); [intros; apply C43_isreal; auto|].
    intros u [X|X]; discriminate.
  - apply (LK (fun m => m = CType $"bool" 1 1)); [intros; apply C43_isboolean; auto|]. intros u X; discriminate.
  - apply (LK (fun m => m = DateT \/ m = DateTimeT None)); [intros; apply C43_isdatelike; auto|]. intros u [X|X]; discriminate.
Qed.
Print Assumptions C69_answers.

(** the empty text, blanks around, comments: read like any text *)
Example C69_nonvacuous : exists ps, dshape E0 $"var * ?{a: int32} " = Ok (DataShapeT None ps) /\
  istabular_any E0 (AStr $"var * ?{a: int32} ") = Ok true /\ isscalar_any E0 (AStr $"var * ?{a: int32} ") = Ok false /\
  isrecord_any E0 (AStr $"var * ?{a: int32} ") = Ok false /\ iscollection_any E0 (AStr $"var * ?{a: int32} ") = Ok true /\
  isreal_any E0 (AStr $"3 * ?real") = Ok true /\ isnumeric_any E0 (AStr $"int32") = Ok true /\
  isnumeric_any E0 (AStr $"3 * ?real") = Ok true.
Proof. eexists. split; [vm_compute; reflexivity|]. vm_compute. repeat split. Qed.

(** [isnumeric] answers on every text whose measure has no structure: exactly the numbers, the
    small decimals and the time differences are numeric *)
Theorem C69_isnumeric : forall E s n ds m (opt : bool), disc_ok E ->
  dshape E s = Ok (DataShapeT n (ds ++ [if opt then OptionT m else m])) -> (opt = false -> is_Option m = false) ->
  isnumeric_any E (AStr s) = Ok true <->
    (exists k i a, m = CType k i a /\ In k [$"int8"; $"int16"; $"int32"; $"int64"; $"uint8"; $"uint16"; $"uint32";
      $"uint64"; $"float16"; $"float32"; $"float64"; $"complex64"; $"complex128"; $"complex[float32]"; $"complex[float64]"])
    \/ (exists p q, m = DecimalT p q /\ (q <> 0 \/ p <= 18)) \/ (exists u, m = TimeDeltaT u).
Proof.
  intros E s n ds m opt HE H HO. by_text H. apply Prop_Numpy.C43_isnumeric with (opt := opt); auto.
  cbn [measure]. rewrite last_last. reflexivity.
Qed.
Print Assumptions C69_isnumeric.

(** [isfixed]: None for an unknown dimension, True and False as in C38 *)
Theorem C69_isfixed : forall E s t o, disc_ok E -> dshape E s = Ok t -> isfixed_any E (AStr s) = Ok o ->
  (o = Some true <-> SeenFixed t).
Proof.
  intros E s t o HE H HF. revert HF. by_text H. destruct (C07_parse_wf _ _ _ HE H) as [_ [HW _]].
  apply (proj1 (C38_isfixed t HW)).
Qed.
Print Assumptions C69_isfixed.

(** a text and the datashape it stands for give the same answer, whatever the predicate *)
Theorem C69_text_or_object : forall E s t, disc_ok E -> dshape E s = Ok t ->
  isscalar_any E (AStr s) = isscalar_any E (ATy t) /\ isrecord_any E (AStr s) = isrecord_any E (ATy t) /\
  istabular_any E (AStr s) = istabular_any E (ATy t) /\ iscollection_any E (AStr s) = iscollection_any E (ATy t) /\
  isnumeric_any E (AStr s) = isnumeric_any E (ATy t) /\ isreal_any E (AStr s) = isreal_any E (ATy t) /\
  isboolean_any E (AStr s) = isboolean_any E (ATy t) /\ isdatelike_any E (AStr s) = isdatelike_any E (ATy t) /\
  isfixed_any E (AStr s) = isfixed_any E (ATy t) /\ ishomogeneous_any E (AStr s) = ishomogeneous_any E (ATy t).
Proof.
  intros E s t HE H. destruct (C07_parse_wf _ _ _ HE H) as [[n [ps ->]] _]. by_text H. cbn [dshape_ty bind]. repeat split.
Qed.
Print Assumptions C69_text_or_object.

(** [isfixed] and [isnumeric] can raise on texts that [dshape] accepts *)
Theorem C69_raises_refuted :
  (exists t, dshape E0 $"struct[['a'], [5]]" = Ok t) /\ isfixed_any E0 (AStr $"struct[['a'], [5]]") = Raise TypeErr /\
  (exists t, dshape E0 $"... * int32" = Ok t) /\ ishomogeneous_any E0 (AStr $"... * int32") = Raise TypeErr /\
  (exists t, dshape E0 $"{'': int32, f0: int32}" = Ok t) /\ isnumeric_any E0 (AStr $"{'': int32, f0: int32}") = Raise ValueErr.
Proof. repeat split; try (eexists; vm_compute; reflexivity); vm_compute; reflexivity. Qed.

(** a list of components is a collection exactly when the datashape made of them is *)
Theorem C69_list : forall E l t, (forall s r, l <> PStr s :: r) -> (forall u, In (PTy u) l -> WF u /\ forall n o, u <> DataShapeT n [EllipsisT o]) ->
  dshape_list E l = Ok t -> iscollection_any E (AList l) = iscollection t /\
  istabular_any E (AList l) = istabular t /\ isfixed_any E (AList l) = isfixed t /\ ishomogeneous_any E (AList l) = ishomogeneous t.
Proof.
  intros E l t NS HW H. split; [|by_text H; repeat split].
  destruct l as [|x r]; [discriminate|]. unfold dshape_list in H.
  assert (exists p ps, launder (fun s => dshape E s) x = Ok p /\ t = DataShapeT None (p :: ps)) as [p [ps [Hp ->]]].
  { revert H. unfold mk_datashape. destruct x as [z|s|u|]; try (destruct (NS s r); reflexivity); try discriminate.
    all: cbn [mapM]; match goal with |- context[launder ?d ?y] => destruct (launder d y) as [p|] eqn:Hp end; cbn [bind]; try discriminate;
      destruct (mapM _ r) as [ps|]; cbn [bind]; try discriminate; unfold check_datashape;
      destruct (negb _); try discriminate; destruct (forallb _ _); cbn [bind]; try discriminate;
      destruct (validate _); cbn [bind]; try discriminate; intro Q; injection Q as <-; eauto. }
  cbn [iscollection_any iscollection seq_head bind]. destruct x as [z|s|u|]; try (destruct (NS s r); reflexivity); try discriminate.
  - cbn in Hp. unfold mk_fixed in Hp. destruct (z <? 0); [discriminate|]. injection Hp as <-. reflexivity.
  - cbn in Hp. injection Hp as <-. cbn [parg_dimension].
    destruct (HW u (or_introl eq_refl)) as [Hu NE]. destruct u; try reflexivity.
    match goal with |- context[DataShapeT _ ?l] => destruct l as [|y [|]]; try reflexivity end. cbn [launder_ty].
    destruct (is_dimension y) eqn:D; auto. exfalso.
    destruct (Hu _ (Occurs_here _)) as [ds [m [EE [H1 _]]]]. destruct ds as [|? [|]]; try discriminate. injection EE as <-.
    destruct y; try discriminate; try (apply H1; constructor). eapply NE; reflexivity.
Qed.
Print Assumptions C69_list.
Example C69_list_nonvacuous : exists t, dshape_list E0 [PInt 3; PTy VarT; PStr $"{a: int32}"] = Ok t /\
  iscollection_any E0 (AList [PInt 3; PTy VarT; PStr $"{a: int32}"]) = Ok true.
Proof. eexists. split; vm_compute; reflexivity. Qed.
