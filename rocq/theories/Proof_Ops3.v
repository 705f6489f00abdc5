(** Converse of [subshape_select]: what [subshape] accepts (C22). *)
From Verif Require Import Base Types Construct Ops Spec_WF Spec_Ops Proof_WF Proof_Eq Proof_Canon Proof_Slice Proof_Ops Proof_Ops2.
Local Open Scope Z_scope.

Lemma py_nth_inv {A} (l : list A) z x : py_nth l z = Ok x ->
  - Z.of_nat (length l) <= z < Z.of_nat (length l) /\
  nth_error l (Z.to_nat (if z <? 0 then Z.of_nat (length l) + z else z)) = Some x.
Proof.
  unfold py_nth. cbv zeta.
  destruct ((_ <? 0) || (_ <=? _)) eqn:E; [discriminate|]. apply orb_false_iff in E as [E1 E2].
  destruct (nth_error _ _) eqn:F; [|discriminate]. intro X; injection X as <-. split; auto.
  apply Z.ltb_ge in E1. apply Z.leb_gt in E2. destruct (Z.ltb_spec z 0); lia.
Qed.
Lemma py_nth_out {A} (l : list A) z : ~ (- Z.of_nat (length l) <= z < Z.of_nat (length l)) -> py_nth l z = Raise IndexErr.
Proof.
  intro H. unfold py_nth. cbv zeta.
  destruct ((_ <? 0) || (_ <=? _)) eqn:E; [reflexivity|]. apply orb_false_iff in E as [E1 E2].
  apply Z.ltb_ge in E1. apply Z.leb_gt in E2. destruct (Z.ltb_spec z 0); lia.
Qed.
Lemma field_inv fs i j f : field_number fs i = Ok j -> field_at fs j = Ok f -> FieldAt fs i f.
Proof.
  destruct i; cbn [field_number]; try (intro H; injection H as <-; cbn [field_at]; try discriminate).
  - intro H. apply py_nth_inv in H. exact H.
  - destruct (str_index s (map fst fs)) as [k|] eqn:E; [|discriminate]. intro H; injection H as <-.
    cbn [field_at]. intro H. apply py_nth_inv in H as [_ H].
    destruct (Z.ltb_spec (Z.of_nat k) 0); [lia|]. rewrite Nat2Z.id in H. apply str_index_spec in E.
    rewrite nth_error_map, H in E. injection E as E. split; auto. eapply nth_error_In; eauto.
Qed.
Lemma fields_inv fs l : forall js sel, mapM (field_number fs) l = Ok js -> mapM (field_at fs) js = Ok sel ->
  Forall2 (FieldAt fs) l sel.
Proof.
  intros js sel H1 H2. apply mapM_Ok_Forall2 in H1, H2. revert sel H2.
  induction H1 as [|i j l js H H1 IH]; intros sel H2; inversion H2; subst; constructor; auto. eapply field_inv; eauto.
Qed.
Lemma sub_record_inv fs sel r : Inv (RecordT fs) -> (forall f, In f sel -> In f fs) -> sub_record sel = Ok r ->
  NoDup (map fst sel) /\ r = RecordT sel.
Proof.
  intros HI HS H. assert (N : NoDup (map fst sel)).
  { unfold sub_record, mk_record in H. destruct (mapM _ _); [|discriminate]. cbn [bind] in H.
    destruct (nodup_str _) eqn:E; [|discriminate]. apply nodup_str_NoDup in E. rewrite map_map in E. exact E. }
  split; auto. rewrite (sub_record_ok fs) in H by auto. congruence.
Qed.
Lemma record_list_inv n fs l r : Inv (RecordT fs) -> subshape (IxList l) (DataShapeT n [RecordT fs]) = Ok r ->
  exists sel, Forall2 (FieldAt fs) l sel /\ NoDup (map fst sel) /\ r = DataShapeT None [RecordT sel].
Proof.
  intros HI H. cbn [subshape] in H. unfold subshape_plain in H. cbn [ds_head] in H.
  destruct (mapM (field_number fs) l) as [js|] eqn:E1; [|discriminate]. cbn [bind] in H.
  destruct (select_fields fs js) as [sel|] eqn:E2; [|discriminate]. cbn [bind] in H. apply select_inv in E2.
  pose proof (fields_inv _ _ _ _ E1 E2) as HF.
  assert (HS : forall f, In f sel -> In f fs).
  { intros f Hf. clear -HF Hf. induction HF; [contradiction|]. destruct Hf as [<-|Hf]; auto. eapply FieldAt_In; eauto. }
  destruct (sub_record sel) as [u|] eqn:E3; [|discriminate]. cbn [bind] in H.
  apply (sub_record_inv fs) in E3 as [N ->]; auto. exists sel. split; auto. split; auto.
  rewrite mk_ds_ok in H; [congruence|]. exists [], (RecordT sel). split; [reflexivity|]. split; [intro X; inversion X|]. split; [intros ? []|].
  intros x [<-|[]] [? [? E]]; discriminate.
Qed.
Lemma record_field_inv n fs i r : Inv (RecordT fs) -> (forall l, i <> IxList l) -> (forall a b c, i <> IxSlice a b c) -> (forall l, i <> IxTuple l) ->
  subshape i (DataShapeT n [RecordT fs]) = Ok r -> exists f, FieldAt fs i f /\ r = snd f.
Proof.
  intros [N HL] H1 H2 H3 H. destruct i; try discriminate; try (exfalso; congruence); cbn [subshape] in H; unfold subshape_plain in H; cbn in H.
  - destruct (py_nth fs z) as [f|] eqn:E; [|discriminate]. injection H as <-. exists f. split; auto. apply py_nth_inv; auto.
  - rewrite assoc_rev_NoDup in H by auto. destruct (assoc s fs) as [u|] eqn:E; [|discriminate]. injection H as <-.
    exists (s, u). split; auto. split; auto. apply assoc_In; auto.
Qed.
(** a non-tuple, non-slice index on a leading component that is no record *)
Lemma dim_inv n d ps i r : (forall fs, d <> RecordT fs) -> (forall a b c, i <> IxSlice a b c) -> (forall l, i <> IxTuple l) ->
  subshape i (DataShapeT n (d :: ps)) = Ok r -> Dim d /\ (ps <> []) /\ exists out, DimStep d i out.
Proof.
  intros HR H1 H2 H.
  assert (A : is_dimension d = true /\ (exists s, subarray (DataShapeT n (d :: ps)) 1 = Ok s) /\ i <> IxNone /\ forall s, i <> IxStr s).
  { destruct i; try (exfalso; congruence); cbn [subshape] in H; unfold subshape_plain in H; cbn [ds_head] in H.
    - destruct (is_dimension d) eqn:E; [repeat split; eauto; discriminate|]. destruct d; try discriminate. exfalso; eapply HR; eauto.
    - destruct d; try discriminate. exfalso; eapply HR; eauto.
    - discriminate.
    - destruct (is_dimension d) eqn:E.
      + split; auto. split; [|split; discriminate]. destruct (subarray (DataShapeT n (d :: ps)) 1) eqn:F; [eauto|].
        destruct d; try (exfalso; eapply HR; reflexivity); try discriminate E; cbn in H, F; rewrite ?F in H; discriminate H.
      + destruct d; try discriminate. exfalso; eapply HR; eauto. }
  destruct A as [A [[s B] [C F]]]. apply is_dimension_Dim in A. split; auto. split.
  - intros ->. cbn in B. discriminate.
  - destruct i; try (exfalso; congruence).
    + eexists; constructor; auto.
    + eexists; constructor; auto.
Qed.

Lemma go_inv : forall ixs ps n r, Forall PlainIx ixs -> okps ps ->
  (forall x, In x ps -> Inv x) -> (forall fs f, In (RecordT fs) ps -> In f fs -> Inv (snd f) /\ ~ DimensionClass (snd f)) ->
  go_sub ixs (DataShapeT n ps) = Ok r -> Select ps ixs (components r) /\ subresult r (components r).
Proof.
  induction ixs as [|i ixs IH]; intros ps n r HP HO HI HR H.
  - cbn in H. injection H as <-. split; [constructor; apply okps_nonnil; auto|]. right; split; [eauto|auto].
  - inversion HP as [|? ? [P1 P2] HP']; subst.
    assert (HRi : forall fs f, In (RecordT fs) ps -> In f fs -> Inv (snd f)) by (intros; eapply HR; eauto).
    assert (S : i = IxNone \/ i <> IxNone) by (destruct i; auto; right; discriminate). destruct S as [->|Hnn].
    { cbn [go_sub] in H. fold go_sub in H. destruct (go_sub ixs _) as [r'|] eqn:E; [|discriminate]. cbn [bind] in H.
      destruct (IH ps n r' HP' HO HI HR E) as [HS HQ].
      rewrite (subresult_mul_int 1 r' (components r')) in H by (auto; lia). injection H as <-. cbn [components].
      split; [constructor; auto|]. right; split; [eauto|]. apply okps_dim; [apply (subresult_comp _ _ HQ)|constructor]. }
    assert (E : go_sub (i :: ixs) (DataShapeT n ps) =
      match ixs with [] => subshape i (DataShapeT n ps)
      | _ => let! sub := subarray (DataShapeT n ps) 1 in let! ds := go_sub ixs sub in
             let! full := mul_ty (ds_head (DataShapeT n ps)) ds in subshape i full end)
      by (destruct i; auto; congruence).
    rewrite E in H. clear E. pose proof (okps_nonnil _ HO) as HN0. destruct ps as [|d ps]; [contradiction|].
    assert (D : (exists fs, d = RecordT fs) \/ forall fs, d <> RecordT fs) by (destruct d; eauto; right; discriminate).
    destruct D as [[fs ->]|D].
    { (* a record is the last component *)
      assert (ps = []).
      { destruct HO as [dims [m [E [_ [E2 _]]]]]. destruct dims as [|x dims]; [injection E as _ ->; reflexivity|].
        injection E as <- ->. exfalso. apply (E2 (RecordT fs)); [left; auto|constructor]. }
      subst ps. destruct ixs as [|i2 ixs]; [|cbn in H; discriminate].
      assert (L : (exists l, i = IxList l) \/ forall l, i <> IxList l) by (destruct i; eauto; right; discriminate).
      pose proof (HI (RecordT fs) (or_introl eq_refl)) as HInv.
      destruct L as [[l ->]|L].
      - apply record_list_inv in H as [sel [H1 [H2 ->]]]; auto. cbn [components]. split; [constructor; auto|].
        right; split; [eauto|]. exists [], (RecordT sel). split; [reflexivity|]. split; [intro X; inversion X|]. split; [intros ? []|].
        intros x [<-|[]] [? [? E]]; discriminate.
      - apply record_field_inv in H as [f [H1 ->]]; auto. pose proof (FieldAt_In _ _ _ H1) as HIn.
        destruct (HR fs f (or_introl eq_refl) HIn) as [X1 X2]. split; [constructor; auto|].
        left. split; auto. split; auto. split; auto. apply HInv. apply in_map; auto. }
    destruct ixs as [|i2 ixs].
    + destruct (dim_inv _ _ _ _ _ D P1 P2 H) as [HD [Hne [out HS]]].
      assert (HO' : okps ps) by (eapply okps_tail; eauto).
      destruct (dimstep_sub n d i out ps HS HO') as [E1 E2]. rewrite E1 in H. injection H as <-. cbn [components].
      split; [|right; split; eauto]. inversion HS; subst; try (exfalso; eapply P1; eauto; fail); constructor; auto; constructor; auto.
    + assert (HO' : ps <> [] -> okps ps) by (intro; eapply okps_tail; eauto).
      assert (Hne : ps <> []).
      { intros ->. cbn in H. discriminate. }
      assert (SA : exists s, subarray (DataShapeT n (d :: ps)) 1 = Ok s /\ s = DataShapeT None ps).
      { rewrite subarray_ok; [eexists; split; reflexivity|auto|]. destruct ps; [contradiction|]. cbn [length]. lia. }
      destruct SA as [s [SA ->]]. rewrite SA in H. cbn [bind] in H.
      destruct (go_sub (i2 :: ixs) (DataShapeT None ps)) as [r'|] eqn:E; [|discriminate]. cbn [bind] in H.
      destruct (IH ps None r' HP' (HO' Hne)) as [HS HQ]; auto.
      { intros x Hx; apply HI; right; auto. }
      { intros fs f Hf; eapply HR; right; eauto. }
      cbn [ds_head] in H. destruct (mul_ty d r') as [full|] eqn:EM; [|discriminate]. cbn [bind] in H.
      destruct (subresult_comp _ _ HQ) as [_ HOq].
      assert (ND : ~ MeasureClass d /\ ~ Lone d).
      { destruct HO as [dims [m [E0 [_ [E2 E3]]]]]. split; [|apply E3; left; reflexivity].
        destruct dims as [|x dims]; [injection E0 as _ ->; contradiction|]. injection E0 as <- ->. apply E2. left; auto. }
      assert (EM' : mul_ty d r' = Ok (DataShapeT None (d :: components r'))).
      { destruct HQ as [[_ [H1 [H2 H3]]]|[[m ->] HQ]]; [apply mul_ok|apply mul_ds]; tauto. }
      rewrite EM' in EM. injection EM as <-.
      destruct (dim_inv _ _ _ _ _ D P1 P2 H) as [HD [_ [out HSt]]].
      destruct (dimstep_sub None d i out (components r') HSt HOq) as [E1 E2]. rewrite E1 in H. injection H as <-. cbn [components].
      split; [|right; split; eauto]. inversion HSt; subst; try (exfalso; eapply P1; eauto; fail); constructor; auto.
Qed.

Theorem subshape_select_inv n ps ixs r : WF (DataShapeT n ps) -> Forall PlainIx ixs ->
  (forall fs f, In (RecordT fs) ps -> In f fs -> ~ DimensionClass (snd f)) ->
  subshape (IxTuple ixs) (DataShapeT n ps) = Ok r -> Select ps ixs (components r).
Proof.
  intros W HP HD H. rewrite subshape_tuple in H. eapply go_inv in H as [H _]; eauto.
  - apply (W _ (Occurs_here _)).
  - intros x Hx. apply W. eapply Occurs_in; [|constructor]. exact Hx.
  - intros fs f Hfs Hf. split; eauto. apply W. eapply Occurs_in; [exact Hfs|]. eapply Occurs_in; [|constructor].
    cbn [children]. apply in_map; auto.
Qed.
Lemma record_Inv n fs : WF (DataShapeT n [RecordT fs]) -> Inv (RecordT fs).
Proof. intro W. apply W. eapply Occurs_in; [|constructor]. left; reflexivity. Qed.
Theorem record_field_exact n fs i r : WF (DataShapeT n [RecordT fs]) -> (exists z, i = IxInt z) \/ (exists s, i = IxStr s) ->
  (subshape i (DataShapeT n [RecordT fs]) = Ok r <-> exists f, FieldAt fs i f /\ r = snd f).
Proof.
  intros W Hi. pose proof (record_Inv _ _ W) as HI. split.
  - apply record_field_inv; auto; destruct Hi as [[? ->]|[? ->]]; discriminate.
  - intros [f [HF ->]]. destruct HI as [N _]. destruct Hi as [[z ->]|[s ->]]; cbn [subshape]; unfold subshape_plain; cbn.
    + destruct (FieldAt_select fs (IxInt z) f N HF) as [j [E1 E2]]. injection E1 as <-. cbn in E2. rewrite E2. reflexivity.
    + destruct HF as [H <-]. rewrite assoc_rev_NoDup by auto.
      rewrite (assoc_NoDup (fst f) fs (snd f)); auto. destruct f; auto.
Qed.
Theorem record_fields_exact n fs l r : WF (DataShapeT n [RecordT fs]) ->
  (subshape (IxList l) (DataShapeT n [RecordT fs]) = Ok r <->
   exists sel, Forall2 (FieldAt fs) l sel /\ NoDup (map fst sel) /\ r = DataShapeT None [RecordT sel]).
Proof.
  intros W. pose proof (record_Inv _ _ W) as HI. split.
  - apply record_list_inv; auto.
  - intros [sel [H1 [H2 ->]]]. 
    assert (HS : forall f, In f sel -> In f fs).
    { intros f Hf. clear -H1 Hf. induction H1; [contradiction|]. destruct Hf as [<-|Hf]; auto. eapply FieldAt_In; eauto. }
    cbn [subshape]. unfold subshape_plain. cbn [ds_head].
    assert (EX : exists js, Forall2 (fun i j => field_number fs i = Ok j) l js /\ Forall2 (fun j f => field_at fs j = Ok f) js sel).
    { pose proof HI as [HNf _]. clear -H1 HNf. induction H1 as [|i f l sel H HF [js [IH1 IH2]]]; [exists []; split; constructor|].
      destruct (FieldAt_select fs i f HNf H) as [j [E1 E2]]. exists (j :: js). split; constructor; auto. }
    destruct EX as [js [E1 E2]]. apply mapM_Ok_Forall2 in E1, E2. rewrite E1. cbn [bind]. rewrite (select_ok _ _ _ E2). cbn [bind].
    rewrite (sub_record_ok fs sel) by auto. cbn [bind]. apply mk_ds_ok; auto.
    exists [], (RecordT sel). split; [reflexivity|]. split; [intro X; inversion X|]. split; [intros ? []|].
    intros x [<-|[]] [? [? E]]; discriminate.
Qed.
Theorem record_missing n fs : WF (DataShapeT n [RecordT fs]) ->
  (forall s, ~ In s (map fst fs) -> subshape (IxStr s) (DataShapeT n [RecordT fs]) = Raise KeyErr) /\
  (forall z, ~ (- Z.of_nat (length fs) <= z < Z.of_nat (length fs)) ->
     subshape (IxInt z) (DataShapeT n [RecordT fs]) = Raise IndexErr).
Proof.
  intro W. pose proof (record_Inv _ _ W) as [N _]. split.
  - intros s H. cbn. rewrite assoc_rev_NoDup by auto. apply assoc_None in H. now rewrite H.
  - intros z H. cbn. rewrite py_nth_out by auto. reflexivity.
Qed.
