(** Proofs for C61, part 2: uniting of types. *)
From Verif Require Import Base Types Lexer Printer Construct Parser Ops Preds Numpy Graph Discovery
  Spec_WF Spec_Preds Spec_Eq Spec_Ops Spec_Print Spec_Discovery Spec_Found Spec_Fits
  Proof_WF Proof_Eq Proof_Canon Proof_Ops Proof_Preds Proof_Preds3 Proof_Coerce Proof_Discovery Proof_Discovery2 Proof_Discovery4
  Proof_Discovery5 Proof_Discovery6 Proof_Discovery7 Proof_Discovery8 Proof_Fits.
From Coq Require Import Relations.
Local Open Scope Z_scope.

Definition getf (fs : list (str * ty)) (n : str) : ty := match assoc n (rev fs) with Some u => u | None => NullT end.
Lemma getf_FieldOr fs n : FieldOr fs n (getf fs n).
Proof.
  unfold getf, FieldOr. destruct (assoc n (rev fs)) as [u|] eqn:E.
  - left. apply Proof_Ops.assoc_In in E. now apply in_rev.
  - right. split; auto. apply Proof_Ops.assoc_None in E. intro H. apply E. rewrite map_rev. now rewrite <- in_rev.
Qed.
Lemma getf_In fs n t : NoDup (map fst fs) -> In (n, t) fs -> getf fs n = t.
Proof.
  intros N H. unfold getf. replace (assoc n (rev fs)) with (Some t); auto. symmetry. apply Proof_Discovery2.assoc_In.
  - rewrite map_rev. now apply NoDup_rev.
  - now rewrite <- in_rev.
Qed.
(** the relation between the type of one value and the type of the column *)
Inductive U : ty -> ty -> Prop :=
| U_refl t : U t t
| U_unpack t F : U t F -> U (DataShapeT None [t]) F
| U_coerce t F : Known t -> t <> NullT -> Coerces t F -> U t F
| U_null F : U NullT (OptionT F)
| U_some t F : U t F -> U t (OptionT F)
| U_record fs gs : (forall n g, In (n, g) gs -> U (getf fs n) g) -> U (RecordT fs) (RecordT gs).
(** records with fields, at any depth *)
Inductive NER (t : ty) : Prop :=
| NER_intro : (forall fs, unpack t = RecordT fs -> fs <> [] /\ forall n u, In (n, u) fs -> NER u) -> NER t.

Lemma Coerces_Widens t u : Coerces t u -> t <> NullT -> Widens t u /\ u <> NullT.
Proof.
  intro H. apply clos_rt_rt1n in H. induction H as [t|t x u H _ IH]; [split; [constructor|auto]|]. intro N.
  assert (X : x <> NullT) by (inversion H; discriminate). destruct (IH X) as [I1 I2]. split; auto.
  eapply W_trans; [apply W_coerce; eauto|exact I1].
Qed.
Lemma U_Widens t F : U t F -> Widens t F.
Proof.
  induction 1 as [t|t F _ IH|t F _ HN H|F|t F _ IH|fs gs H IH].
  - constructor.
  - eapply W_trans; [apply W_unwrap|exact IH].
  - exact (proj1 (Coerces_Widens _ _ H HN)).
  - apply W_null.
  - eapply W_trans; [exact IH|apply W_some].
  - apply W_record with (get := getf fs); auto. intros. apply getf_FieldOr.
Qed.

Lemma DM_unpack t : DM t -> unpack t = t.
Proof. intro H. destruct (DM_facts _ _ t H) as [E _]. destruct t; try reflexivity; discriminate. Qed.
Lemma D_unpack_cases t : D t -> (unpack t = t \/ t = DataShapeT None [unpack t]) /\ (DM (unpack t) \/ exists d e r, t = DataShapeT None (d :: e :: r)).
Proof.
  intros [H|[ps [-> [dims [m [-> [H1 H2]]]]]]].
  - rewrite (DM_unpack t H). auto.
  - destruct dims as [|d dims]; [cbn; auto|]. split; [left; destruct dims; reflexivity|]. right.
    destruct dims as [|d' dims]; cbn; eauto.
Qed.
Lemma U_up t F : D t -> U (unpack t) F -> U t F.
Proof. intros H X. destruct (D_unpack_cases t H) as [[E|E] _]; [congruence|]. rewrite E. now constructor. Qed.
Lemma isnull_D t : D t -> isnull (unpack t) = true -> unpack t = NullT.
Proof.
  intros H E. assert (HU : D (unpack t)) by (apply D_unpack; auto).
  assert (C : components (unpack t) = [NullT]).
  { apply orb_true_iff in E as [E|E]; apply D_eq in E; auto.
    - left. apply DM_null; auto.
    - right. exists [NullT]. split; auto. apply DA_single, DM_null; auto. }
  destruct (D_unpack_cases t H) as [_ [X|(d & e & r & ->)]].
  - destruct (DM_facts _ _ _ X) as [Y _]. destruct (unpack t); try discriminate; cbn in C; congruence.
  - cbn in C. discriminate.
Qed.
Lemma mapM_dict_get name l r : mapM (dict_get_null name) l = Ok r ->
  Forall2 (fun t u => exists fs, t = RecordT fs /\ u = getf fs name) l r.
Proof.
  revert r. induction l as [|x l IH]; intros r H; [injection H as <-; constructor|]. rewrite mapM_cons in H.
  destruct (dict_get_null name x) as [u|] eqn:E; [|discriminate]. cbn [bind] in H.
  destruct (mapM _ l) as [us|] eqn:E2; [|discriminate]. injection H as <-. constructor; auto.
  destruct x; try discriminate. injection E as <-. eauto.
Qed.
Lemma Known_all l : Forall Known l \/ ~ Forall Known l.
Proof.
  induction l as [|x l [IH|IH]]; [left; constructor| |right; intro H; apply IH; now inversion H].
  destruct (Known_dec x); [left; now constructor|right; intro H0; apply H; now inversion H0].
Qed.
Lemma sub0_eq n F : 0 <= n -> DM F -> subshape (IxInt 0) (DataShapeT None [FixedT n; F]) = Ok (DataShapeT None [F]).
Proof.
  intros Hn HF. cbn [subshape]. unfold subshape_plain. cbn [ds_head]. change (is_dimension (FixedT n)) with true. cbv iota.
  apply sub1; [eapply DA_okps, DA_single; eauto|constructor].
Qed.
Lemma NER_getf fs n : NER (RecordT fs) -> NER (getf fs n).
Proof.
  intros [H]. destruct (H fs eq_refl) as [_ X]. destruct (getf_FieldOr fs n) as [Y|[_ ->]]; [eauto|].
  constructor. intros gs E. discriminate.
Qed.
Lemma D_getf fs n : D (RecordT fs) -> D (getf fs n).
Proof.
  intros [H|[ps [E _]]]; [|discriminate]. destruct (getf_FieldOr fs n) as [Y|[_ ->]]; [|left; apply DM_null; auto].
  apply Dl_D. eapply record_field_D; eauto.
Qed.
Section Sched.
Variable sc : sched.
Lemma mul_DM n F : 0 <= n -> DM F -> mul_int n F = Ok (DataShapeT None [FixedT n; F]).
Proof.
  intros Hn H. rewrite (mul_int_D AnyN AnyT n F) by (auto; left; auto). do 2 f_equal.
  destruct (DM_facts _ _ F H) as [E _]. destruct F; try reflexivity; discriminate.
Qed.
Lemma unite_U n : forall l r, Forall D l -> Forall NER l -> unite_baseF sc n l = Ok r ->
  exists F, DM F /\ NER F /\ r = DataShapeT None [FixedT (len l); F] /\ forall t, In t l -> U t F.
Proof.
  induction n as [|n IH]; intros l r HD HN H; [discriminate|]. cbn [unite_baseF] in H. unfold groupby_bool in H.
  assert (HL : forall x : Z, len (map unpack l) = len l) by (intro; unfold len; now rewrite map_length).
  set (l' := map unpack l) in *.
  set (good := filter (fun x => negb (isnull x)) l') in *. set (nulls := filter isnull l') in *.
  assert (HD' : Forall D l') by (apply Forall_map; eapply Forall_impl; [|exact HD]; apply D_unpack).
  assert (HN' : forall t, In t l' -> forall fs, t = RecordT fs -> fs <> [] /\ forall n u, In (n, u) fs -> NER u).
  { intros t Ht fs ->. apply in_map_iff in Ht as [t0 [E Ht]]. rewrite Forall_forall in HN. destruct (HN t0 Ht) as [X]. auto. }
  assert (CL : forall t, In t l -> (unpack t = NullT /\ In (unpack t) nulls) \/ In (unpack t) good).
  { intros t Ht. assert (Hu : In (unpack t) l') by (apply in_map; auto). destruct (isnull (unpack t)) eqn:E.
    - left. split; [apply isnull_D; auto; rewrite Forall_forall in HD; auto|apply filter_In; auto].
    - right. apply filter_In. rewrite E. auto. }
  assert (HG : forall t, In t good -> In t l') by (intros t Ht; apply filter_In in Ht; tauto).
  assert (UG : forall F, (forall t, In t good -> U t F) -> (nulls = [] \/ exists G, F = OptionT G) -> forall t, In t l -> U t F).
  { intros F H1 H2 t Ht. rewrite Forall_forall in HD. apply U_up; auto. destruct (CL t Ht) as [[-> X]|X]; [|auto].
    destruct H2 as [H2|[G ->]]; [rewrite H2 in X; destruct X|apply U_null]. }
  destruct good as [|g0 gr] eqn:EG.
  { rewrite HL in H by exact 0. rewrite mul_DM in H by (unfold len; try lia; apply DM_null; auto). injection H as <-. exists NullT.
    split; [apply DM_null; auto|]. split; [constructor; intros; discriminate|]. split; auto. intros t Ht.
    rewrite Forall_forall in HD. apply U_up; auto.
    destruct (CL t Ht) as [[-> X]|[]]. constructor. }
  match type of H with bind ?b _ = _ => destruct b as [base|] eqn:EB; [|discriminate] end. cbn [bind] in H.
  assert (HB : DM base /\ NER base /\ (forall u, base <> OptionT u) /\ forall t, In t (g0 :: gr) -> U t base).
  { assert (NN : forall t, In t (g0 :: gr) -> t <> NullT).
    { intros t Ht ->. rewrite <- EG in Ht. unfold good in Ht. apply filter_In in Ht as [_ Ht]. discriminate. }
    destruct (forallb is_Unit (g0 :: gr)) eqn:HU.
    - destruct (Known_all (g0 :: gr)) as [K|K].
      + destruct (lowest_common_lub sc (g0 :: gr) ltac:(discriminate) K) as [u [E [HK [L1 _]]]]. rewrite E in EB. injection EB as <-.
        destruct (Known_DM AnyN AnyT KK u HK) as [K1 K2]. split; [auto|]. split; [|split; auto].
        * constructor. intros fs Ef. rewrite DM_unpack in Ef by auto. subst u. unfold Known in HK. cbn [In] in HK. intuition discriminate.
        * intros t Ht. apply U_coerce; auto. rewrite Forall_forall in K. auto.
      + rewrite lowest_common_unknown in EB; [discriminate| |auto]. apply Forall_forall. intros t Ht. apply Scalar_is_Unit.
        rewrite forallb_forall in HU. auto.
    - clear HU. destruct g0; try discriminate. rename fields into fs.
      destruct (HN' (RecordT fs) (HG _ (or_introl eq_refl)) fs eq_refl) as [NE NF].
      match type of EB with bind (mapM ?f fs) _ = _ => set (G := f) in * end.
      destruct (mapM G fs) as [fs'|] eqn:EM; [|discriminate]. cbn [bind] in EB.
      assert (AR : forall t, In t (RecordT fs :: gr) -> exists gs, t = RecordT gs).
      { destruct fs as [|f0 fr]; [congruence|]. rewrite mapM_cons in EM. unfold G at 1 in EM.
        destruct (mapM (dict_get_null (fst f0)) (RecordT (f0 :: fr) :: gr)) as [col|] eqn:EC; [|discriminate].
        apply mapM_dict_get in EC. intros t Ht. clear -EC Ht. induction EC as [|x y l m [gs [-> _]] _ IH]; [destruct Ht|].
        destruct Ht as [<-|Ht]; eauto. }
      apply mapM_Ok_Forall2 in EM.
      assert (COL : Forall2 (fun f g : str * parg => True) fs' fs') by (clear; induction fs'; constructor; auto).
      assert (FD : forall f f', G f = Ok f' -> exists F, DM F /\ NER F /\ f' = (fst f, PTy (DataShapeT None [F])) /\
                     forall gs, In (RecordT gs) (RecordT fs :: gr) -> U (getf gs (fst f)) F).
      { intros f f' E. unfold G in E. destruct (mapM (dict_get_null (fst f)) (RecordT fs :: gr)) as [col|] eqn:EC; [|discriminate].
        cbn [bind] in E. destruct (unite_baseF sc n col) as [u|] eqn:EU; [|discriminate]. cbn [bind] in E.
        apply mapM_dict_get in EC.
        assert (IC : forall u, In u col -> exists gs, In (RecordT gs) (RecordT fs :: gr) /\ u = getf gs (fst f)).
        { intros c Hc. clear -EC Hc. induction EC as [|x y l m [gs [-> ->]] _ IH]; [destruct Hc|].
          destruct Hc as [<-|Hc]; [exists gs; split; auto; left; auto|]. destruct (IH Hc) as [hs [X Y]]. exists hs. split; auto. right; auto. }
        assert (IC2 : forall gs, In (RecordT gs) (RecordT fs :: gr) -> In (getf gs (fst f)) col).
        { intros gs Hg. clear -EC Hg. induction EC as [|x y l m [hs [-> ->]] _ IH]; [destruct Hg|].
          destruct Hg as [E|Hg]; [injection E as ->; left; auto|right; auto]. }
        destruct (IH col u) as [F [F1 [F2 [F3 F4]]]]; auto.
        - apply Forall_forall. intros c Hc. destruct (IC c Hc) as [gs [X ->]]. apply D_getf. rewrite Forall_forall in HD'. auto.
        - apply Forall_forall. intros c Hc. destruct (IC c Hc) as [gs [X ->]]. apply NER_getf. constructor. intros hs Eh. injection Eh as <-.
          apply (HN' (RecordT gs)); auto.
        - subst u. rewrite sub0_eq in E by (auto; unfold len; lia). injection E as <-. exists F. split; auto. }
      apply mk_record_names in EB as [gs [-> [EN [ND FG]]]].
      assert (HF : forall m g, In (m, g) gs -> DM g /\ NER g /\ forall hs, In (RecordT hs) (RecordT fs :: gr) -> U (getf hs m) g).
      { clear -EM FD FG. clearbody G. revert FD. generalize (RecordT fs :: gr) as rs. intros rs FD. revert gs FG. induction EM as [|f f' l l' Ef _ IH]; intros gs FG m g Hg; inversion FG as [|? g' ? gs' [X1 X2] X3]; subst; [destruct Hg|].
        destruct Hg as [Eg|Hg]; [|eapply IH; eauto]. destruct (FD f f' Ef) as [F [Y1 [Y2 [-> Y3]]]]. subst g'. cbn in X1, X2.
        injection X2 as X2. subst m g. auto. }
      assert (NG : map fst gs = map fst fs).
      { rewrite EN. clear -EM FD. clearbody G. revert FD. generalize (RecordT fs :: gr) as rs. intros rs FD. induction EM as [|f f' l l' Ef _ IH]; auto. destruct (FD f f' Ef) as [F [_ [_ [-> _]]]]. cbn. f_equal; auto. }
      split; [|split; [|split]].
      + constructor; [rewrite EN; exact ND|apply Forall_forall; auto|]. intros m g Hg. left. exact (proj1 (HF m g Hg)).
      + constructor. intros hs Eh. injection Eh as <-. split; [intros ->; destruct fs; [congruence|discriminate]|]. intros m u Hu. exact (proj1 (proj2 (HF m u Hu))).
      + intros u Eu; discriminate.
      + intros t Ht. destruct (AR t Ht) as [hs ->]. apply U_record. intros m g Hg. destruct (HF m g Hg) as [_ [_ X]]. exact (X hs Ht). }
  destruct HB as [B1 [B2 [B3 B4]]].
  destruct nulls as [|nl nr].
  - cbn [bind] in H. rewrite HL in H by exact 0. rewrite mul_DM in H by (auto; unfold len; lia). injection H as <-.
    exists base. split; [exact B1|]. split; [exact B2|]. split; [reflexivity|]. apply UG; [exact B4|left; reflexivity].
  - unfold mk_option in H. cbn [launder bind] in H. rewrite notLone_launder in H by (eapply DM_notLone; eauto).
    assert (DO : DM (OptionT base)) by (apply DM_option; auto). cbn [bind] in H.
    rewrite HL in H by exact 0. rewrite mul_DM in H by (auto; unfold len; lia). injection H as <-.
    exists (OptionT base). split; [exact DO|]. split; [constructor; intros fs E; discriminate|]. split; [reflexivity|]. apply UG; [|right; eauto]. intros t Ht. apply U_some. auto.
Qed.
End Sched.
