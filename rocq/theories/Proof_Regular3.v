(** Proofs for C62, part 3: [validate]. *)
From Verif Require Import Base Types Lexer Printer Construct Parser Ops Preds Numpy Graph Discovery User
  Spec_WF Spec_Preds Spec_Eq Spec_Ops Spec_Print Spec_User Spec_Discovery Spec_Found Spec_Fits Spec_Regular
  Proof_WF Proof_Eq Proof_Canon Proof_Ops Proof_Preds Proof_Preds3 Proof_User Proof_Coerce Proof_Discovery Proof_Discovery2 Proof_Discovery4
  Proof_Discovery5 Proof_Discovery6 Proof_Discovery7 Proof_Discovery8 Proof_Fits Proof_Fits2 Proof_Fits3 Proof_Fits4 Proof_Regular Proof_Regular2.
From Coq Require Import Permutation.
Local Open Scope Z_scope.

Lemma arr_ds shp dt strs n ps t : from_numpy shp dt = Ok (DataShapeT n ps) -> discover_arr shp dt strs = Ok t ->
  exists d q, t = DataShapeT None (d :: q) /\ q <> [].
Proof.
  intros E H. unfold discover_arr in H. rewrite E in H. cbn [bind] in H.
  destruct (from_numpy_NER shp dt _ E) as (Dd & Nd & m & Dm & Nm & Hds).
  destruct Hds as [Hds|(dims & NE & Hds)]; [destruct (DM_facts _ _ m Dm) as [X _]; subst m; discriminate|]. injection Hds as -> ->.
  assert (S1 : shape (DataShapeT None (dims ++ [m])) = dims) by (cbn [shape]; apply removelast_last).
  assert (R1 : exists d q, DataShapeT None (dims ++ [m]) = DataShapeT None (d :: q) /\ q <> []).
  { destruct dims as [|d dims]; [congruence|]. exists d, (dims ++ [m]). split; auto. destruct dims; discriminate. }
  assert (R2 : forall m', mk_ds (dims ++ [m']) = Ok t -> exists d q, t = DataShapeT None (d :: q) /\ q <> []).
  { intros m' E2. destruct dims as [|d dims]; [congruence|]. apply mk_datashape_shape in E2 as [-> _].
    cbn [map app]. eexists. eexists. split; [reflexivity|]. destruct dims; discriminate. }
  rewrite S1 in H. destruct (_ && _); [eauto|]. destruct (isrecord _); [|injection H as <-; auto].
  destruct (measure _); try (injection H as <-; auto; fail). destruct (existsb _ _); [|injection H as <-; auto].
  destruct (mk_record _ _) as [r|]; [|discriminate]. cbn [bind] in H. eauto.
Qed.

Section Main.
Variables (sc : sched) (so : strings).
Hypothesis Hso : dates_ok so.
Notation disc := (discover sc so).
Notation leafd := (fun x u => disc x = Ok u).
Notation Regular := (Regular leafd).
Notation Acceptable := (Acceptable leafd).
Variable np : ty -> User.value -> res bool.
Hypothesis HN : NativeNumpy np.
Notation Valid := (Valid np).

Lemma leaf_valid v t : IsLeaf v -> disc v = Ok t -> NoLike v -> NoScalarArrays (as_value v) -> (Valid t (as_value v) <-> Acceptable v).
Proof.
  destruct HN as (_ & NI & NF & NB & NS). intros HL HD HK HA.
  destruct v; cbn [IsLeaf] in HL; try contradiction; cbn [discover as_value] in *.
  - injection HD as <-. split; intro H; inversion H.
  - injection HD as <-. split; intro H; [constructor|]. unfold int64_t. constructor; [constructor|apply NI].
  - injection HD as <-. split; intro H; [constructor|]. unfold bool_t. constructor; [constructor|apply NB].
  - injection HD as <-. split; intro H; [constructor|]. unfold float64_t. constructor; [constructor|apply NF].
  - injection HD as <-. split; intro H; inversion H; subst. match goal with H : BaseValue _ |- _ => inversion H end.
  - split.
    + intro H. apply A_str. cbn [discover]. destruct (str_kind so s t HD) as [K|[K|K]]; [|destruct t; try contradiction; inversion H|congruence].
      exfalso. specialize (NS t s K). destruct H; try congruence; try discriminate; cbn [In] in K; repeat (destruct K as [K|K]; [discriminate|]); contradiction.
    + intro H. inversion H as [| | | | | |s' E| | |]; subst. cbn [discover] in E. rewrite E in HD. injection HD as <-. constructor.
  - split; intro H; [|inversion H]. exfalso. cbn in HD. injection HD as <-. inversion H.
  - injection HD as <-. split; intro H; constructor.
  - injection HD as <-. split; intro H; constructor.
  - injection HD as <-. split; intro H; constructor.
  - split; intro H; [|inversion H]. exfalso. cbn in HD. injection HD as <-. inversion H.
  - destruct (from_numpy shp dt) as [d|] eqn:E.
    2:{ split; intro H; [|inversion H; congruence]. exfalso. unfold discover_arr in HD. rewrite E in HD. discriminate. }
    destruct (HA d (Inside_here _)) as (n & ps & ->). pose proof (arr_ds _ _ _ _ _ _ E HD) as (d1 & q & -> & NQ). split.
    + intro H. apply A_arr with (t := DataShapeT n ps); [|exact E]. cbn [discover]. rewrite HD. f_equal.
      assert (D1 : D (DataShapeT None (d1 :: q))) by (apply (disc_D sc so Hso (DArr shp dt strs)); exact HD).
      assert (D2 : D (DataShapeT n ps)) by exact (proj1 (from_numpy_NER _ _ _ E)).
      assert (P : py_eq (DataShapeT n ps) (DataShapeT None (d1 :: q)) = true).
      { inversion H as [| | | | | |? ? ? X| | |? ? ? ? ? _ X| |]; subst; auto; try (exfalso; eapply X; reflexivity);
          match goal with HS : Seq (VArray _) _ |- _ => inversion HS end. }
      apply (D_eq _ _ D2 D1) in P. cbn [components] in P. subst ps. destruct D2 as [X|[? [X _]]]; [|congruence].
      destruct (DM_facts _ _ _ X) as [Y _]. discriminate.
    + intro H. inversion H as [| | | | | | |? ? ? t E1 E2| |]; subst. rewrite E in E2. injection E2 as <-. cbn [discover] in E1. rewrite HD in E1. injection E1 as <- <-.
      eapply Valid_array; [reflexivity|]. apply py_eq_refl.
  - exfalso. apply (HK shp dt). constructor. exact I.
  - discriminate.
Qed.
Lemma wrap_valid t v : Regular t v -> NoScalarArrays (as_value v) -> (Valid (wrapc t) (as_value v) <-> Valid t (as_value v)).
Proof.
  intros HR HA. destruct (regular_exact sc so Hso t v HR) as (HD & Dt & _). destruct Dt as [Dt|(dims & m & _ & -> & _)]; [|reflexivity].
  unfold wrapc. rewrite components_DM by auto.
  assert (NA : forall d, as_value v <> VArray d).
  { intros d E. destruct v; try discriminate; try (destruct k; discriminate). cbn [as_value discover] in *.
    destruct (from_numpy shp dt) as [d0|] eqn:EN; [|discriminate]. injection E as ->. destruct (HA d (Inside_here _)) as (n & ps & ->).
    pose proof (arr_ds _ _ _ _ _ _ EN HD) as (d1 & q & -> & _). destruct (DM_facts _ _ _ Dt) as [Y _]. discriminate. }
  split; intro H; [|now apply Valid_measure]. remember (as_value v) as w eqn:Ew. clear Ew HR HD HA. remember (DataShapeT None [t]) as T eqn:ET. destruct H; try discriminate.
  - injection ET as _ ->. assumption.
  - injection ET as _ _ ->. congruence.
  - injection ET as _ _ ->. congruence.
  - exfalso. eapply NA. reflexivity.
Qed.
Lemma regular_valid t v : Regular t v -> NoLike v -> NoScalarArrays (as_value v) -> (Valid t (as_value v) <-> Acceptable v).
Proof.
  induction 1 as [v t HL HD HNL|t k l NE HI IH|ts k l EL HI IH (a & b & Ha & Hb & Hab) _|fs k d HS ND HK HO HI IH]; intros NL HA.
  - now apply leaf_valid.
  - assert (NT : components t <> []).
    { destruct l as [|x l]; [congruence|]. destruct (regular_exact sc so Hso t x (HI x (or_introl eq_refl))) as (_ & Dt & _). apply comps_nonnil. now apply Dl_D. }
    assert (SUB : k <> KSet -> forall x, In x l -> (Valid (wrapc t) (as_value x) <-> Acceptable x)).
    { intros Hk x Hx. assert (HAx : NoScalarArrays (as_value x)).
      { intros e He. apply HA. assert (S : Seq (as_value (DSeq k l)) (map as_value l)) by (destruct k; [constructor|constructor|congruence]).
        eapply Inside_seq; [exact S|apply in_map; exact Hx|exact He]. }
      rewrite wrap_valid by auto. apply IH; auto. intros shp dt X. apply (NL shp dt). eapply Leaf_seq; eauto. }
    split.
    + intro H.
      assert (X : k <> KSet /\ exists items, Seq (as_value (DSeq k l)) items /\ forall item, In item items -> Valid (DataShapeT None (components t)) item).
      { remember (as_value (DSeq k l)) as w eqn:Ew. remember (DataShapeT None (FixedT (Z.of_nat (length l)) :: components t)) as T eqn:ET.
        destruct H; try discriminate.
        - injection ET as _ _ X. congruence.
        - injection ET as _ _ ->. split; [|eauto]. intros ->. subst v. cbn in H0. inversion H0.
        - exfalso. destruct k; cbn in Ew; discriminate. }
      destruct X as (Hk & items & S & HV). apply A_seq with (t := t); auto. intros x Hx. apply SUB; auto. apply HV.
      assert (E : items = map as_value l) by (destruct k; cbn in S; inversion S; auto). rewrite E. now apply in_map.
    + intro H. inversion H as [| | | | | | | |? ? t' Hk HR HQ|]; subst.
      assert (S : Seq (as_value (DSeq k l)) (map as_value l)) by (destruct k; [constructor|constructor|congruence]).
      eapply Valid_fixed; [exact NT|exact S|rewrite map_length; reflexivity|]. intros item Hi. apply in_map_iff in Hi as [x [<- Hx]]. apply SUB; auto.
  - split; intro H; [inversion H; subst|].
    exfalso. inversion H as [| | | | | | | |? ? t' Hk HR HQ|]; subst. apply Hab.
    assert (X : forall u, In u ts -> u = t').
    { intros u Hu. apply In_nth_error in Hu as [i Hi]. destruct (nth_error l i) as [x|] eqn:Ex.
      - destruct (regular_exact sc so Hso u x (HI i u x Hi Ex)) as (E1 & _). destruct (regular_exact sc so Hso t' x) as (E2 & _); [apply HR; eapply nth_error_In; eauto|]. congruence.
      - exfalso. apply nth_error_None in Ex. rewrite <- EL in Ex. apply nth_error_None in Ex. congruence. }
    rewrite (X a), (X b); auto.
  - assert (SUB : k <> KProxy -> forall n u x, In (n, u) fs -> In (n, x) d -> (Valid u (as_value x) <-> Acceptable x)).
    { intros Hk n u x Hu Hx. apply IH with (n := n); auto.
      - intros shp dt X. apply (NL shp dt). eapply Leaf_map; eauto.
      - intros e He. apply HA. destruct k; [| |congruence]; (cbn [as_value]; eapply Inside_dict; [|exact He]; apply in_map_iff; exists (n, x); split; [reflexivity|auto]). }
    assert (AS : forall n, assoc n (map (fun kv => (fst kv, as_value (snd kv))) d) = option_map as_value (assoc n d)).
    { intro n. clear. induction d as [|[m x] d IH]; auto. cbn [map assoc fst snd]. destruct (str_eqb n m); auto. }
    assert (AI : forall n x, assoc n d = Some x <-> In (n, x) d) by (intros; apply Proof_Discovery2.assoc_In; auto).
    split.
    + intro H.
      assert (X : k <> KProxy /\ forall n u, In (n, u) fs -> exists w, assoc n (map (fun kv => (fst kv, as_value (snd kv))) d) = Some w /\ Valid u w).
      { inversion H as [| | | | | | | | | |? dd HF E1 E2|? ? items S _]; subst; [|destruct k; inversion S].
        destruct k; cbn [as_value] in E2; try discriminate; injection E2 as ->; (split; [discriminate|auto]). }
      destruct X as (Hk & HV). apply A_map; auto. intros n x Hx. pose proof (in_map fst _ _ Hx) as Hn. apply HK in Hn. apply in_map_iff in Hn as [[n' u] [En Hu]]. cbn in En. subst n'.
      apply (SUB Hk n u x Hu Hx). destruct (HV n u Hu) as (w & Ew & Hw). rewrite AS in Ew. apply AI in Hx. rewrite Hx in Ew. injection Ew as <-. exact Hw.
    + intro H. inversion H as [| | | | | | | | |? ? Hk HQ]; subst.
      assert (V : Valid (RecordT fs) (VDict (map (fun kv => (fst kv, as_value (snd kv))) d))); [|destruct k; [exact V|exact V|congruence]].
      apply Valid_dict. intros n u Hu. rewrite AS. pose proof (in_map fst _ _ Hu) as Hn. apply HK in Hn. apply in_map_iff in Hn as [[n' x] [En Hx]]. cbn in En. subst n'.
      exists (as_value x). pose proof Hx as Hx'. apply AI in Hx'. rewrite Hx'. split; auto. apply (SUB Hk n u x Hu Hx). eauto.
Qed.
Lemma D_noell t : D t -> forall o, ~ Occurs (EllipsisT o) t.
Proof.
  assert (DMn : forall n t, (tsize t < n)%nat -> D t -> forall o, ~ Occurs (EllipsisT o) t).
  { induction n as [|n IH]; intros t' Hn HD o HO; [lia|].
    assert (DAn : forall ps, (lsize ps < n)%nat -> DA ps -> forall x, In x ps -> ~ Occurs (EllipsisT o) x).
    { intros ps Hs (dims & m & -> & F1 & F2) x Hx. apply in_app_iff in Hx as [Hx|[<-|[]]].
      - rewrite Forall_forall in F1. destruct (F1 x Hx); intro X; inversion X; subst; contradiction.
      - apply IH; [|left; exact F2]. pose proof (lsize_In m (dims ++ [m]) ltac:(apply in_app_iff; right; left; auto)). lia. }
    destruct HD as [HD|[ps [-> HD]]].
    - inversion HO as [E|c ? Hc HO']; subst; [inversion HD; subst; match goal with H : In _ KnownCTypes |- _ => apply known_CType in H as (? & ? & ? & ?); discriminate end|].
      destruct HD; cbn [children] in Hc; try contradiction.
      + apply known_CType in H as (? & ? & ? & ->). contradiction.
      + destruct Hc as [<-|[]]. revert HO'. apply IH; [cbn in Hn; lia|left; auto].
      + apply in_map_iff in Hc as [[m u] [<- Hu]]. cbn in HO'. revert HO'. apply IH; [rewrite tsize_Record in Hn; apply fsize_In in Hu; cbn in Hu; lia|]. apply Dl_D. match goal with H : forall n t, In (n, t) _ -> _ |- _ => exact (H _ _ Hu) end.
      + revert HO'. apply IH; [rewrite tsize_Tuple in Hn; apply lsize_In in Hc; lia|]. destruct (H c Hc) as (dims & m & -> & F1 & F2). right. eexists. split; [reflexivity|]. exists dims, m; auto.
    - inversion HO as [E|c ? Hc HO']; subst. revert HO'. eapply DAn; [|exact HD|exact Hc]. rewrite tsize_DataShape in Hn. lia. }
  intros H. eapply DMn; eauto.
Qed.
Theorem regular_validate t v : Regular t v -> NoLike v -> NoScalarArrays (as_value v) ->
  exists b, validate_value np t (as_value v) = Ok b /\ (b = true <-> Acceptable v).
Proof.
  intros HR HL HA. destruct (regular_exact sc so Hso t v HR) as (_ & Dt & _). apply Dl_D in Dt.
  destruct (valid_spec np (proj1 HN) (S (tsize t)) t (as_value v)) as (b & Hb & HB); auto.
  - eapply D_WF; eauto.
  - intros o. apply D_noell; auto.
  - exists b. split; auto. rewrite HB. now apply regular_valid.
Qed.
Theorem ragged_validate k t l : Ragged leafd t l -> NoLike (DSeq k l) -> NoScalarArrays (as_value (DSeq k l)) ->
  exists b, validate_value np (DataShapeT None (FixedT (Z.of_nat (length l)) :: VarT :: components t)) (as_value (DSeq k l)) = Ok b /\
    (b = true <-> k <> KSet /\ forall x, In x l -> Acceptable x).
Proof.
  intros HR NL HA. pose proof (ragged_exact sc so Hso k t l HR) as HD. pose proof (disc_D sc so Hso _ _ HD) as DD.
  destruct (valid_spec np (proj1 HN) (S (tsize (DataShapeT None (FixedT (Z.of_nat (length l)) :: VarT :: components t)))) (DataShapeT None (FixedT (Z.of_nat (length l)) :: VarT :: components t)) (as_value (DSeq k l))) as (b & Hb & HB); auto.
  - eapply D_WF; eauto.
  - intros o. apply D_noell; auto.
  - exists b. split; auto. rewrite HB. destruct HR as [_ HR].
    assert (SUB : k <> KSet -> forall x, In x l -> (Valid (DataShapeT None (VarT :: components t)) (as_value x) <-> Acceptable x)).
    { intros Hk x Hx. destruct (HR x Hx) as (k' & q & -> & NQ & HQ).
      assert (RQ : Regular (DataShapeT None (FixedT (Z.of_nat (length q)) :: components t)) (DSeq k' q)) by now apply R_array.
      assert (S : Seq (as_value (DSeq k l)) (map as_value l)) by (destruct k; [constructor|constructor|congruence]).
      assert (HAx : NoScalarArrays (as_value (DSeq k' q))).
      { intros e He. apply HA. eapply Inside_seq; [exact S|apply in_map; exact Hx|exact He]. }
      rewrite <- (regular_valid _ _ RQ); [|intros shp dt X; apply (NL shp dt); eapply Leaf_seq; eauto|exact HAx].
      assert (NT : components t <> []).
      { destruct q as [|y q]; [congruence|]. destruct (regular_exact sc so Hso t y (HQ y (or_introl eq_refl))) as (_ & Dt & _). apply comps_nonnil. now apply Dl_D. }
      assert (G : forall d, (d = VarT \/ d = FixedT (Z.of_nat (length q))) -> (Valid (DataShapeT None (d :: components t)) (as_value (DSeq k' q)) <->
                   exists items, Seq (as_value (DSeq k' q)) items /\ forall item, In item items -> Valid (DataShapeT None (components t)) item)).
      { intros d Hd. split.
        - intro H. remember (as_value (DSeq k' q)) as w eqn:Ew. remember (DataShapeT None (d :: components t)) as T eqn:ET.
          destruct H; try discriminate.
          + injection ET as _ _ X. congruence.
          + injection ET as _ _ ->. eauto.
          + injection ET as _ _ ->. eauto.
          + exfalso. destruct k'; cbn in Ew; discriminate.
        - intros (items & S' & HV). assert (E : items = map as_value q) by (destruct k'; cbn in S'; inversion S'; auto). subst items.
          destruct Hd as [->| ->]; [eapply Valid_var; eauto|eapply Valid_fixed; eauto]. now rewrite map_length. }
      rewrite !G by auto. reflexivity. }
    split.
    + intro H.
      assert (X : k <> KSet /\ exists items, Seq (as_value (DSeq k l)) items /\ forall item, In item items -> Valid (DataShapeT None (VarT :: components t)) item).
      { remember (as_value (DSeq k l)) as w eqn:Ew. remember (DataShapeT None (FixedT (Z.of_nat (length l)) :: VarT :: components t)) as T eqn:ET.
        destruct H; try discriminate.
        - injection ET as _ _ ->. split; [|eauto]. intros ->. subst v. cbn in H0. inversion H0.
        - exfalso. destruct k; cbn in Ew; discriminate. }
      destruct X as (Hk & items & S & HV). split; auto. intros x Hx. apply SUB; auto. apply HV.
      assert (E : items = map as_value l) by (destruct k; cbn in S; inversion S; auto). rewrite E. now apply in_map.
    + intros [Hk HQ]. assert (S : Seq (as_value (DSeq k l)) (map as_value l)) by (destruct k; [constructor|constructor|congruence]).
      eapply Valid_fixed; [discriminate|exact S|rewrite map_length; reflexivity|]. intros item Hi. apply in_map_iff in Hi as [x [<- Hx]]. apply SUB; auto.
Qed.
End Main.
