(** [discover] never fails on tame values (C48). *)
From Verif Require Import Base Types Lexer Printer Construct Parser Ops Preds Numpy Graph Discovery
  Spec_Eq Spec_WF Spec_Graph Spec_Ops Spec_Discovery Spec_Dicts Spec_Found Spec_Print Proof_WF Proof_Eq Proof_Parser Proof_Ops Proof_Graph
  Proof_Coerce Proof_Discovery Proof_Discovery2 Proof_Discovery4 Proof_Discovery6.
Local Open Scope Z_scope.

Section Err.
(** the errors that may occur *)
Variable Er : exn -> Prop.
Definition att {A} (Q : A -> Prop) (r : res A) : Prop := match r with Ok a => Q a | Raise e => e = AttributeErr \/ Er e end.
Definition tot {A} (Q : A -> Prop) (r : res A) : Prop := match r with Ok a => Q a | Raise e => Er e end.
Lemma ok_tot {A} (Q : A -> Prop) r : (exists a, r = Ok a /\ Q a) -> tot Q r.
Proof. intros [a [-> H]]. exact H. Qed.
Lemma tot_att {A} (Q : A -> Prop) r : tot Q r -> att Q r.
Proof. destruct r; simpl; auto. Qed.
Lemma tot_bind {A B} (Q : A -> Prop) (Q' : B -> Prop) x f : tot Q x -> (forall a, Q a -> tot Q' (f a)) -> tot Q' (bind x f).
Proof. destruct x; simpl; auto. Qed.
Lemma att_bind {A B} (Q : A -> Prop) (Q' : B -> Prop) x f : att Q x -> (forall a, Q a -> att Q' (f a)) -> att Q' (bind x f).
Proof. destruct x; simpl; auto. Qed.
Lemma tot_mono {A} (Q Q' : A -> Prop) x : (forall a, Q a -> Q' a) -> tot Q x -> tot Q' x.
Proof. destruct x; simpl; auto. Qed.
Lemma tot_mapM {A B} (Q : B -> Prop) (f : A -> res B) l : (forall a, In a l -> tot Q (f a)) -> tot (Forall Q) (mapM f l).
Proof.
  induction l as [|a l IH]; intro H; [constructor|]. rewrite mapM_cons. eapply tot_bind; [apply H; left; auto|].
  intros b Hb. eapply tot_bind; [apply IH; intros; apply H; right; auto|]. intros bs Hbs. constructor; auto.
Qed.
Lemma att_mapM {A B} (Q : B -> Prop) (f : A -> res B) l : (forall a, In a l -> att Q (f a)) -> att (Forall Q) (mapM f l).
Proof.
  induction l as [|a l IH]; intro H; [constructor|]. rewrite mapM_cons. eapply att_bind; [apply H; left; auto|].
  intros b Hb. eapply att_bind; [apply IH; intros; apply H; right; auto|]. intros bs Hbs. constructor; auto.
Qed.
Lemma mapM_ok {A B} (f : A -> res B) l : (forall a, In a l -> exists b, f a = Ok b) -> exists r, mapM f l = Ok r.
Proof.
  induction l as [|a l IH]; intro H; [exists []; reflexivity|]. destruct (H a (or_introl eq_refl)) as [b E].
  destruct IH as [r Er']; [intros; apply H; right; auto|]. exists (b :: r). rewrite mapM_cons, E, Er'. reflexivity.
Qed.
Lemma mapM_fst {A} (f : A -> res (str * parg)) (g : A -> str) l r : (forall a b, f a = Ok b -> fst b = g a) ->
  mapM f l = Ok r -> map fst r = map g l.
Proof.
  intro Hf. revert r. induction l as [|a l IH]; intros r H; [injection H as <-; reflexivity|].
  rewrite mapM_cons in H. destruct (f a) as [b|] eqn:Ea; [|discriminate]. cbn [bind] in H.
  destruct (mapM f l) as [bs|]; [|discriminate]. injection H as <-. simpl. f_equal; auto.
Qed.

Section Tot.
(** the scalar types that may occur: if not only those of the coercion graph, ValueError may *)
Variable LF : ty -> Prop.
Hypothesis KK : forall t, Known t -> LF t.
Hypothesis HEr : Er ValueErr \/ forall t, LF t -> Known t.
Notation PN := (fun _ : str => True).
Notation D := (D PN LF). Notation DM := (DM PN LF). Notation DA := (DA PN LF).
(** an array with a length in front *)
Definition Arr (t : ty) : Prop := exists n qs, t = DataShapeT None (FixedT n :: qs) /\ DA qs.
Lemma Arr_D t : D t -> forall n qs, t = DataShapeT None (FixedT n :: qs) -> Arr t.
Proof.
  intros [H|[ps [-> H]]] n qs E; [subst; exfalso; eapply DM_not_ds; eauto|]. injection E as ->.
  exists n, qs. split; auto. destruct (DA_split _ _ _ H) as [[m [E Hm]]|[d [qs' [E [_ Hq]]]]].
  - injection E as <- ->. apply DM_facts in Hm as [_ [Hm _]]. exfalso; apply Hm; constructor.
  - injection E as _ ->. auto.
Qed.
Lemma mul_int_tot n t : D t -> 0 <= n -> tot (fun u => D u /\ Arr u) (mul_int n t).
Proof.
  intros H Hn. pose proof (mul_int_okR PN LF n t H Hn) as X. pose proof (mul_int_D PN LF n t H Hn) as Y.
  rewrite Y in *. cbn [tot okR] in *. split; auto. eapply Arr_D; eauto.
Qed.
Lemma mul_ty_tot d t : DDim d -> D t -> tot D (mul_ty d t).
Proof.
  intros Hd H. pose proof (mul_ty_okR PN LF d t Hd H) as X.
  assert (E : exists u, mul_ty d t = Ok u).
  { pose proof (DDim_Dim d Hd) as HD. destruct H as [H|[ps [-> H]]].
    - destruct (DM_facts _ _ t H) as [_ [H1 [H2 _]]]. eexists. apply mul_ok; auto;
      [apply Dim_notMeasure|apply Dim_notLone|eapply DM_notLone]; eauto.
    - eexists. apply mul_ds; [eapply DA_okps; eauto|apply Dim_notMeasure; auto|apply Dim_notLone; auto]. }
  destruct E as [u E]. rewrite E in *. exact X.
Qed.
Lemma sub0_tot d qs : DDim d -> DA qs -> tot D (subshape (IxInt 0) (DataShapeT None (d :: qs))).
Proof.
  intros Hd Hq. cbn [subshape]. unfold subshape_plain. cbn [ds_head].
  replace (is_dimension d) with true by (symmetry; apply is_dimension_Dim; apply DDim_Dim; auto).
  rewrite sub1; [apply D_ds; auto|eapply DA_okps; eauto|apply DDim_Dim; auto].
Qed.
Lemma sub0_Arr t : D t -> Arr t -> tot D (subshape (IxInt 0) t).
Proof.
  intros H [n [qs [-> Hq]]]. apply sub0_tot; auto. destruct H as [H|[ps [E H]]]; [exfalso; eapply DM_not_ds; eauto|].
  injection E as <-. destruct (DA_split _ _ _ H) as [[m [E Hm]]|[d [qs' [E [Hd _]]]]].
  - injection E as <- ->. apply DM_facts in Hm as [_ [Hm _]]. exfalso; apply Hm; constructor.
  - injection E as <- _. auto.
Qed.
Lemma mk_record_tot (fs : list (str * parg)) : Forall (fun f => exists t, snd f = PTy t /\ D t) fs -> NoDup (map fst fs) ->
  tot (fun r => DM r /\ forall u, r <> OptionT u) (mk_record no_dsh fs).
Proof.
  intros H N. assert (X : okR (fun r => DM r /\ forall u, r <> OptionT u) (mk_record no_dsh fs)).
  { apply mk_record_okR. eapply Forall_impl; [|exact H]. auto. }
  unfold mk_record in *.
  assert (E : exists ts, mapM (fun f => launder no_dsh (snd f)) fs = Ok ts).
  { clear X N. induction H as [|f fs [t [E H]] _ [ts E1]]; [exists []; auto|].
    exists (launder_ty t :: ts). rewrite mapM_cons, E, E1. reflexivity. }
  destruct E as [ts E]. rewrite E in *. cbn [bind] in *. apply nodup_str_NoDup in N. rewrite N in *. exact X.
Qed.
Lemma tuple_of_tot l : Forall D l -> tot (fun o => exists t, o = Some t /\ D t) (tuple_of l).
Proof.
  intro H. unfold tuple_of. pose proof (mk_tuple_okR PN LF l H) as X.
  assert (E : exists t, mk_tuple no_dsh (map PTy l) = Ok t).
  { unfold mk_tuple.
    assert (E : exists ds, mapM (tuple_item no_dsh) (map PTy l) = Ok ds).
    { apply mapM_ok. intros x Hx. apply in_map_iff in Hx as [t [<- Ht]].
      rewrite Forall_forall in H. destruct (H t Ht) as [Hm|[ps [-> Hp]]]; [|eexists; reflexivity].
      cbn [tuple_item]. destruct (DM_facts _ _ t Hm) as [-> _]. change [PTy t] with (map PTy [t]).
      rewrite mk_datashape_ok; [eexists; reflexivity|]. apply (DA_okps PN LF), DA_single; auto. }
    destruct E as [ds ->]. eexists; reflexivity. }
  destruct E as [t E]. rewrite E in *. cbn. exists t. split; auto. left; auto.
Qed.
Definition oS (o : option ty) : Prop := match o with Some t => D t /\ Arr t | None => True end.
Lemma unite_identical_tot l : Forall D l -> tot oS (unite_identical l).
Proof.
  intro H. unfold unite_identical. destruct (all_same l); [|exact I]. destruct l as [|x l]; [exact I|].
  inversion H; subst. eapply tot_bind; [apply mul_int_tot; [eauto|apply len_nonneg]|]. auto.
Qed.
Lemma unite_merge_tot l : Forall D l -> tot oS (unite_merge l).
Proof.
  intro H. unfold unite_merge. destruct (forallb _ l) eqn:E; [|exact I].
  rewrite forallb_forall in E. rewrite Forall_forall in H.
  eapply tot_bind.
  { apply (tot_mapM D). intros a Ha. specialize (H a Ha). specialize (E a Ha). apply andb_true_iff in E as [E1 E2].
    pose proof (ds_head_DDim PN LF a H E1 E2) as Hd.
    destruct H as [H|[ps [-> H]]]; [apply DM_facts in H as [H _]; congruence|].
    destruct (DA_split _ _ _ H) as [[m [-> Hm]]|[d [qs [-> [Hd' Hq]]]]]; [|apply sub0_tot; auto].
    cbn in Hd. apply DM_facts in Hm as [_ [Hm _]]. exfalso. apply Hm. destruct Hd; constructor. }
  intros subs Hs. eapply tot_bind; [apply unite_identical_tot; auto|]. intros [b|] Hb; [|exact I].
  eapply tot_bind; [apply sub0_Arr; apply Hb|]. intros s HS. eapply tot_bind with (Q := D).
  - destruct (all_same _); apply mul_ty_tot; auto; [|constructor].
    destruct l as [|x l]; [constructor|]. cbn [map hd]. specialize (E x (or_introl eq_refl)). apply andb_true_iff in E as [E1 E2].
    eapply ds_head_DDim; eauto. apply H; left; auto.
  - intros inner Hi. eapply tot_bind; [apply mul_int_tot; [eauto|apply len_nonneg]|]. auto.
Qed.
Lemma unite_final_tot l : Forall D l -> tot D (unite_final l).
Proof.
  intro H. unfold unite_final. cbn [do_one].
  pose proof (unite_identical_tot l H) as H1. destruct (unite_identical l) as [[t|]|]; [apply H1| |exact H1]. cbn [bind].
  pose proof (unite_merge_tot l H) as H2. destruct (unite_merge l) as [[t|]|]; [apply H2| |exact H2]. cbn [bind].
  pose proof (tuple_of_tot l H) as H3. destruct (tuple_of l) as [o|]; [|exact H3]. destruct H3 as [t [-> H3]]. exact H3.
Qed.
Lemma dict_get_att name t : D t -> att D (dict_get_null name t).
Proof.
  intros H. pose proof (dict_get_okR PN LF KK name t H) as X. destruct t; try exact X; left; reflexivity.
Qed.

Section Sched.
Variable sc : sched.
Lemma lowest_tot l : l <> [] -> Forall D l -> forallb is_Unit l = true ->
  tot (fun t => DM t /\ forall u, t <> OptionT u) (lowest_common sc l).
Proof.
  intros Hne HD HU. destruct HEr as [HV|HK].
  { assert (X : Forall Known l \/ ~ Forall Known l).
    { clear. induction l as [|x l [IH|IH]]; [left; constructor| |right; intro H; apply IH; now inversion H].
      destruct (Known_dec x); [left; now constructor|right; intro H0; apply H; now inversion H0]. }
    destruct X as [K|K].
    - destruct (lowest_common_lub sc l Hne K) as [u [-> [HK _]]]. apply (Known_DM PN LF KK); auto.
    - rewrite lowest_common_unknown; [exact HV| |auto]. apply Forall_forall. intros t Ht. apply Scalar_is_Unit.
      rewrite forallb_forall in HU. auto. }
  assert (K : Forall Known l).
  { apply Forall_forall. intros t Ht. rewrite Forall_forall in HD. rewrite forallb_forall in HU. specialize (HD t Ht). specialize (HU t Ht).
    destruct HD as [HD|[ps [-> _]]]; [|discriminate]. destruct HD; auto; discriminate. }
  destruct (lowest_common_lub sc l Hne K) as [u [E [HK2 _]]]. rewrite E. apply (Known_DM PN LF KK); auto.
Qed.
Lemma unite_baseF_att n : forall l, (lsize l < n)%nat -> Forall D l -> att (fun t => D t /\ Arr t) (unite_baseF sc n l).
Proof.
  induction n as [|n IH]; intros l Hn Hl; [lia|]. cbn [unite_baseF]. unfold groupby_bool.
  assert (HU : Forall D (map unpack l)) by (apply Forall_map; eapply Forall_impl; [|exact Hl]; apply D_unpack).
  set (l' := map unpack l) in *.
  assert (HG : Forall D (filter (fun x => negb (isnull x)) l')).
  { apply Forall_forall. intros x Hx. apply filter_In in Hx as [Hx _]. rewrite Forall_forall in HU. auto. }
  assert (SG : (lsize (filter (fun x => negb (isnull x)) l') <= n)%nat).
  { pose proof (lsize_filter (fun x => negb (isnull x)) l'). pose proof (lsize_unpack l). unfold l' in *. lia. }
  destruct (filter (fun x => negb (isnull x)) l') as [|g0 gr] eqn:Eg.
  { apply tot_att, mul_int_tot; [left; apply DM_null; auto|apply len_nonneg]. }
  eapply att_bind with (Q := fun t => DM t /\ forall u, t <> OptionT u).
  - destruct (forallb is_Unit (g0 :: gr)) eqn:HUn; [apply tot_att, lowest_tot; [intro X; discriminate X|exact HG|exact HUn]|].
    destruct g0; try (left; reflexivity). rename fields into fs.
    assert (DR : DM (RecordT fs)) by (destruct (Forall_inv HG) as [X|[ps [X _]]]; [exact X|discriminate]).
    assert (NF : NoDup (map fst fs)).
    { destruct (DM_facts _ _ _ DR) as [_ [_ [X _]]]. apply X. }
    match goal with |- att _ (bind (mapM ?f fs) _) => set (F := f) end.
    assert (HF : att (Forall (fun f : str * parg => exists t, snd f = PTy t /\ D t)) (mapM F fs)).
    { apply att_mapM. intros [fname ft] Hf. unfold F. cbn [fst].
      eapply att_bind with (Q := fun col => Forall D col /\ (lsize col < n)%nat).
      + pose proof (att_mapM D (dict_get_null fname) (RecordT fs :: gr)) as X.
        rewrite mapM_cons in *. pose proof (get_null_size_in fname fs fname) as S1.
        pose proof (mapM_get_size fname gr) as S2.
        assert (Hff : In fname (map fst fs)) by (apply in_map_iff; exists (fname, ft); auto).
        specialize (S1 Hff eq_refl). rewrite Forall_forall in HG.
        specialize (X (fun a Ha => dict_get_att fname a (HG a Ha))).
        destruct (dict_get_null fname (RecordT fs)) as [u|] eqn:Eu; [|exact X]. cbn [bind] in *.
        destruct (mapM (dict_get_null fname) gr) as [us|]; [|exact X]. cbn [bind att] in *. split; auto.
        change (lsize (RecordT fs :: gr)) with (tsize (RecordT fs) + lsize gr)%nat in SG.
        change (lsize (u :: us)) with (tsize u + lsize us)%nat. lia.
      + intros col [C1 C2]. eapply att_bind; [apply IH; auto|]. intros u [Hu Ha]. eapply att_bind; [apply tot_att, sub0_Arr; eauto|].
        intros s Hs. cbn. eauto. }
    assert (HN : forall r, mapM F fs = Ok r -> map fst r = map fst fs).
    { intros r. apply mapM_fst. intros a b. unfold F. cbn beta. clear F HF. destruct (mapM (dict_get_null (fst a)) (RecordT fs :: gr)); cbn [bind]; [|intro X; discriminate X].
      destruct (unite_baseF _ _ _); cbn [bind]; [|intro X; discriminate X]. destruct (subshape _ _); cbn [bind]; [|intro X; discriminate X].
      intro X; injection X as <-. reflexivity. }
    destruct (mapM F fs) as [r|]; [|exact HF]. cbn [bind att] in *. apply tot_att, mk_record_tot; auto.
    rewrite (HN r eq_refl). auto.
  - intros base [HB1 HB2]. eapply att_bind with (Q := DM).
    + destruct (filter isnull l'); [exact HB1|].
      unfold mk_option. cbn. rewrite notLone_launder by (eapply DM_notLone; eauto). apply DM_option; auto.
    + intros b Hb. apply tot_att, mul_int_tot; [left; auto|apply len_nonneg].
Qed.
Lemma unite_base_att l : Forall D l -> att (fun t => D t /\ Arr t) (unite_base sc l).
Proof. intro H. apply unite_baseF_att; auto. Qed.
Lemma mapM_id (col : list (res ty)) : Forall (tot D) col -> tot (Forall D) (mapM (fun r => r) col).
Proof. intro H. apply tot_mapM. rewrite Forall_forall in H. auto. Qed.
Lemma column_att col : Forall (tot D) col -> att D (column_type sc col).
Proof.
  intro H. unfold column_type. eapply att_bind; [apply tot_att, mapM_id; exact H|]. intros ts Hts. cbn [do_one].
  pose proof (unite_identical_tot ts Hts) as H1. destruct (unite_identical ts) as [[t|]|]; [|cbn [bind]|right; exact H1].
  { cbn [bind]. apply tot_att, sub0_Arr; apply H1. }
  pose proof (unite_base_att ts Hts) as H2. destruct (unite_base sc ts) as [t|e]; [|exact H2]. cbn [bind].
  apply tot_att, sub0_Arr; apply H2.
Qed.
Lemma rows_att rows : Forall (Forall (tot D)) rows -> att D (discover_rows sc rows).
Proof.
  intro H. unfold discover_rows. eapply att_bind.
  - apply att_mapM. intros c Hc. apply column_att. apply Forall_forall. intros x Hx.
    destruct (transpose_In _ _ _ _ _ Hc Hx) as [->|[r [Hr Hx']]]; [left; apply DM_null; auto|].
    rewrite Forall_forall in H. specialize (H r Hr). rewrite Forall_forall in H. auto.
  - intros ts Hts. eapply att_bind; [apply tot_att, unite_final_tot; exact Hts|]. intros t Ht.
    eapply tot_att, tot_mono; [|apply mul_int_tot; [exact Ht|apply len_nonneg]]. intros a [Ha _]; exact Ha.
Qed.
Lemma map_fst_combine (keys : list str) (ts : list ty) : length ts = length keys ->
  map fst (map (fun kt : str * ty => (fst kt, PTy (snd kt))) (combine keys ts)) = keys.
Proof.
  intro E. rewrite map_map. cbn [fst]. revert ts E. induction keys as [|k keys IH]; intros [|t ts] E; simpl in *; try discriminate; auto.
  f_equal. auto.
Qed.
Lemma mapM_length {A B} (f : A -> res B) l r : mapM f l = Ok r -> length r = length l.
Proof.
  revert r. induction l as [|a l IH]; intros r H; [injection H as <-; reflexivity|]. rewrite mapM_cons in H.
  destruct (f a); [|discriminate]. cbn [bind] in H. destruct (mapM f l); [|discriminate]. injection H as <-. simpl. f_equal; auto.
Qed.
Definition tots (kr : str * res ty) : Prop := tot D (snd kr).
Lemma dicts_att ds : Forall (Forall tots) ds -> att D (discover_dicts sc ds).
Proof.
  intro H. unfold discover_dicts. set (keys := sorted_set _).
  assert (NK : NoDup keys) by (apply Proof_Discovery2.Sorted_NoDup, sorted_set_Sorted).
  match goal with |- att _ (bind (mapM ?f keys) _) => set (F := f) end.
  assert (HF : att (Forall D) (mapM F keys)).
  { apply att_mapM. intros key _. apply column_att. apply Forall_map. eapply Forall_impl; [|exact H].
    intros d Hd. unfold get_or_null. destruct (assoc key d) as [r|] eqn:E; [|left; apply DM_null; auto].
    apply Proof_Ops.assoc_In in E. rewrite Forall_forall in Hd. apply (Hd _ E). }
  destruct (mapM F keys) as [ts|] eqn:E; [|exact HF]. cbn [bind att] in *. apply mapM_length in E.
  eapply att_bind; [apply tot_att, mk_record_tot|].
  - apply Forall_forall. intros f Hf. apply in_map_iff in Hf as [[k t] [<- Hf]]. apply in_combine_r in Hf.
    rewrite Forall_forall in HF. cbn. eauto.
  - rewrite map_fst_combine; auto.
  - intros r [Hr _]. eapply tot_att, tot_mono; [|apply mul_int_tot; [left; exact Hr|apply len_nonneg]]. intros a [Ha _]; exact Ha.
Qed.
Lemma on_att_tot r k : att D r -> tot D k -> tot D (on_attribute_error r k).
Proof. destruct r as [t|e]; auto. cbn [att]. intros [-> |H] Hk; [exact Hk|]. destruct e; auto. Qed.
Lemma seq_tot own rows dicts : Forall (tot D) own ->
  (forall r, In (Some r) rows -> Forall (tot D) r) -> (forall d, In (Some d) dicts -> Forall tots d) ->
  tot D (discover_seq sc own rows dicts).
Proof.
  intros H1 H2 H3. unfold discover_seq. destruct own as [|x own].
  { apply mul_ty_tot; [constructor|]. left. apply DM_string_t; auto. }
  set (fb := let! types := mapM (fun r => r) (x :: own) in unite_final types).
  assert (HF : tot D fb).
  { eapply tot_bind; [apply mapM_id; exact H1|]. intros ts Hts. apply unite_final_tot; auto. }
  clearbody fb.
  assert (HS : tot D match all_some dicts with Some ds => on_attribute_error (discover_dicts sc ds) fb | None => fb end).
  { destruct (all_some dicts) as [ds|] eqn:E; auto. apply on_att_tot; auto. apply dicts_att.
    apply Forall_forall. intros d Hd. apply H3. eapply all_some_In; eauto. }
  destruct (all_some rows) as [rs|] eqn:E; auto. destruct (same_lengths rs); auto. apply on_att_tot; auto.
  apply rows_att. apply Forall_forall. intros r Hr. apply H2. eapply all_some_In; eauto.
Qed.
Lemma items_tot l : Forall tots l -> NoDup (map fst l) -> tot D (discover_items l).
Proof.
  intros H N. unfold discover_items. match goal with |- tot _ (bind (mapM ?f l) _) => set (F := f) end.
  assert (HF : tot (Forall (fun f : str * parg => exists t, snd f = PTy t /\ D t)) (mapM F l)).
  { apply tot_mapM. intros kr Hk. rewrite Forall_forall in H. eapply tot_bind; [apply (H kr Hk)|].
    intros t Ht. cbn. eauto. }
  assert (HN : forall r, mapM F l = Ok r -> map fst r = map fst l).
  { intros r. apply mapM_fst. intros a b. unfold F. cbn beta. destruct (snd a); cbn [bind]; [|intro X; discriminate X]. intro X; injection X as <-. reflexivity. }
  destruct (mapM F l) as [r|]; [|exact HF]. cbn [bind tot] in *. eapply tot_mono; [|apply mk_record_tot; auto].
  - intros a [Ha _]. left; auto.
  - rewrite (HN r eq_refl). auto.
Qed.

Variable so : strings.
Notation disc := (discover sc so).
Definition leafok (v : dval) : Prop := tot D (disc v).
Notation Tm := (Nested leafok).
Definition PT (v : dval) : Prop := Tm v -> tot D (disc v).
Definition QT (v : dval) : Prop := PT v /\
  match v with DSeq _ l => Forall PT l | DMap _ d => Forall (fun kv => PT (snd kv)) d | _ => True end.
Lemma Tame_seq_inv k l : Tm (DSeq k l) -> Forall Tm l.
Proof. intro H. inversion H as [? X| |]; subst; [contradiction|auto]. Qed.
Lemma Tame_map_inv k l : Tm (DMap k l) -> NoDup (map fst l) /\ Forall (fun kv => Tm (snd kv)) l.
Proof. intro H. inversion H as [? X| |]; subst; [contradiction|auto]. Qed.
Lemma seq_totD l : Forall Tm l -> Forall PT l -> Forall (tot D) (map disc l).
Proof.
  intros HT H. rewrite Forall_forall in H, HT. apply Forall_map, Forall_forall. intros x Hx. apply H; auto.
Qed.
Lemma items_totD d : Forall (fun kv => Tm (snd kv)) d -> Forall (fun kv => PT (snd kv)) d ->
  Forall tots (map (fun kv => (fst kv, disc (snd kv))) d).
Proof.
  intros HT H. rewrite Forall_forall in H, HT. apply Forall_map, Forall_forall. intros x Hx. apply (H x Hx), (HT x Hx).
Qed.
Theorem discover_QT : forall v, QT v.
Proof.
  apply dval_ind'.
  - intros v Hv. split; [|destruct v; auto; contradiction]. intro HT. inversion HT as [? _ X| |]; subst; try contradiction.
    exact X.
  - intros k l HQ. assert (HP : Forall PT l) by (eapply Forall_impl; [|exact HQ]; intros ? [? _]; auto).
    split; [|exact HP]. intro HT. apply Tame_seq_inv in HT. cbn [discover]. rewrite Forall_forall in HQ. apply seq_tot.
    + apply seq_totD; auto.
    + intros r Hr. apply in_map_iff in Hr as [x [E Hx]]. specialize (HQ x Hx) as [_ HQ].
      assert (HTx : Tm x) by (rewrite Forall_forall in HT; auto).
      destruct x; try discriminate. apply Tame_seq_inv in HTx.
      destruct k0; try discriminate; injection E as <-; apply seq_totD; auto.
    + intros d Hd. apply in_map_iff in Hd as [x [E Hx]]. specialize (HQ x Hx) as [_ HQ].
      assert (HTx : Tm x) by (rewrite Forall_forall in HT; auto).
      destruct x; try discriminate. apply Tame_map_inv in HTx as [_ HTx].
      destruct k0; try discriminate; injection E as <-; apply items_totD; auto.
  - intros k l HQ. assert (HP : Forall (fun kv => PT (snd kv)) l) by (eapply Forall_impl; [|exact HQ]; intros ? [? _]; auto).
    split; [|exact HP]. intro HT. apply Tame_map_inv in HT as [HN HT]. cbn [discover].
    pose proof (items_totD l HT HP) as HI.
    assert (N : NoDup (map fst (map (fun kv => (fst kv, disc (snd kv))) l))) by (rewrite map_map; exact HN).
    destruct k; apply items_tot; auto; try apply Forall_sort_keys; auto;
      apply Proof_Discovery2.Sorted_NoDup, sort_keys_Sorted; auto.
Qed.
Theorem discover_tot v : Tm v -> tot D (disc v).
Proof. exact (proj1 (discover_QT v)). Qed.
End Sched.
End Tot.
End Err.

Lemma Nested_mono (P Q : dval -> Prop) : (forall v, IsLeaf v -> P v -> Q v) -> forall v, Nested P v -> Nested Q v.
Proof.
  intros H. apply (dval_ind' (fun v => Nested P v -> Nested Q v)).
  - intros v Hv HT. inversion HT; subst; try contradiction. apply Nested_leaf; auto.
  - intros k l IH HT. inversion HT as [? X| ? ? HL|]; subst; [contradiction|]. apply Nested_seq.
    rewrite Forall_forall in *. auto.
  - intros k l IH HT. inversion HT as [? X| |? ? HN HL]; subst; [contradiction|]. apply Nested_map; auto.
    rewrite Forall_forall in *. auto.
Qed.
Lemma Nested_leaves (P : dval -> Prop) : forall v, Nested P v -> Nested (fun x => P x /\ LeafOf x v) v.
Proof.
  apply (dval_ind' (fun v => Nested P v -> Nested (fun x => P x /\ LeafOf x v) v)).
  - intros v Hv HT. inversion HT as [? X Y| |]; subst; try contradiction. apply Nested_leaf; auto. split; auto. constructor; auto.
  - intros k l IH HT. inversion HT as [? X| ? ? HL|]; subst; [contradiction|]. apply Nested_seq.
    rewrite Forall_forall in *. intros x Hx. eapply Nested_mono; [|apply IH; auto]. intros y _ [Hy1 Hy2]. split; auto. econstructor; eauto.
  - intros k l IH HT. inversion HT as [? X| |? ? HN HL]; subst; [contradiction|]. apply Nested_map; auto.
    rewrite Forall_forall in *. intros [n x] Hx. eapply Nested_mono; [|apply (IH _ Hx (HL _ Hx))]. intros y _ [Hy1 Hy2]. split; auto. eapply Leaf_map; eauto.
Qed.
Lemma Nested_Leaf (P : dval -> Prop) v x : Nested P v -> LeafOf x v -> P x.
Proof.
  intros HN HL. induction HL as [HL|k l y Hin HL IH|k l n y Hin HL IH].
  - inversion HN; subst; auto; contradiction.
  - apply IH. inversion HN as [? X| ? ? HF|]; subst; [contradiction|]. rewrite Forall_forall in HF; auto.
  - apply IH. inversion HN as [? X| |? ? _ HF]; subst; [contradiction|]. rewrite Forall_forall in HF. apply (HF _ Hin).
Qed.

(** no errors when every leaf is in the coercion graph *)
Theorem discover_total sc so v : Nested (KnownLeaf sc so) v -> exists t, discover sc so v = Ok t.
Proof.
  intro H.
  assert (X : tot (fun _ => False) (D (fun _ => True) Known) (discover sc so v)).
  { apply discover_tot; [auto|right; auto|]. eapply Nested_mono; [|exact H]. intros x _ [t [E K]]. unfold leafok. rewrite E.
    left. apply DM_known; auto. }
  destruct (discover sc so v) as [t|]; [eauto|contradiction].
Qed.
(** otherwise only ValueError and what the leaves raise on their own *)
Theorem discover_errors sc so v e : dates_ok so -> Nested (fun _ => True) v -> discover sc so v = Raise e ->
  e = ValueErr \/ exists x, LeafOf x v /\ discover sc so x = Raise e.
Proof.
  intros HS H E.
  assert (X : tot (fun e => e = ValueErr \/ exists x, LeafOf x v /\ discover sc so x = Raise e) (D (fun _ => True) (fun _ => True)) (discover sc so v)).
  { apply discover_tot; [auto|left; auto|]. eapply Nested_mono; [|apply Nested_leaves; exact H]. intros x Hx [_ HL]. unfold leafok.
    pose proof (atom_okR (fun _ => True) (fun _ => True) (fun _ _ => I) (fun _ => I) sc so HS x Hx (fun _ _ => I)) as Y. destruct (discover sc so x) as [t|e'] eqn:Ex; [exact Y|]. right. exists x. auto. }
  rewrite E in X. exact X.
Qed.
Lemma Nested_dec (P : dval -> Prop) : (forall v, IsLeaf v -> P v \/ ~ P v) -> forall v, Nested (fun _ => True) v ->
  Nested P v \/ exists x, LeafOf x v /\ ~ P x.
Proof.
  intro HD. apply (dval_ind' (fun v => Nested (fun _ => True) v -> Nested P v \/ exists x, LeafOf x v /\ ~ P x)).
  - intros v Hv _. destruct (HD v Hv) as [H|H]; [left; apply Nested_leaf; auto|right; exists v; split; auto; constructor; auto].
  - intros k l IH HT. inversion HT as [? X| ? ? HL|]; subst; [contradiction|]. clear HT.
    assert (X : Forall (Nested P) l \/ exists x y, In y l /\ LeafOf x y /\ ~ P x).
    { induction l as [|y l IHl]; [left; constructor|]. inversion IH as [|? ? I1 I2]; inversion HL as [|? ? H1 H2]; subst.
      destruct (I1 H1) as [Y|[x [Y1 Y2]]]; [|right; exists x, y; simpl; auto].
      destruct (IHl I2 H2) as [Z|[x [y' [Z1 [Z2 Z3]]]]]; [left; constructor; auto|right; exists x, y'; simpl; auto]. }
    destruct X as [X|[x [y [X1 [X2 X3]]]]]; [left; apply Nested_seq; auto|right; exists x; split; auto; eapply Leaf_seq; eauto].
  - intros k l IH HT. inversion HT as [? X| |? ? HN HL]; subst; [contradiction|]. clear HT.
    assert (X : Forall (fun kv => Nested P (snd kv)) l \/ exists x n y, In (n, y) l /\ LeafOf x y /\ ~ P x).
    { clear HN. induction l as [|[n y] l IHl]; [left; constructor|]. inversion IH as [|? ? I1 I2]; inversion HL as [|? ? H1 H2]; subst.
      destruct (I1 H1) as [Y|[x [Y1 Y2]]]; [|right; exists x, n, y; simpl; auto].
      destruct (IHl I2 H2) as [Z|[x [n' [y' [Z1 [Z2 Z3]]]]]]; [left; constructor; auto|right; exists x, n', y'; simpl; auto]. }
    destruct X as [X|[x [n [y [X1 [X2 X3]]]]]]; [left; apply Nested_map; auto|right; exists x; split; auto; eapply Leaf_map; eauto].
Qed.
Theorem discover_cause sc so v e : dates_ok so -> Nested (fun _ => True) v -> discover sc so v = Raise e ->
  (exists x, LeafOf x v /\ discover sc so x = Raise e) \/
  (e = ValueErr /\ exists x t, LeafOf x v /\ discover sc so x = Ok t /\ ~ Known t) .
Proof.
  intros HS HN E. destruct (discover_errors sc so v e HS HN E) as [-> |H]; [|auto].
  assert (DR : forall P : dval -> Prop, (forall v, IsLeaf v -> P v \/ ~ P v) -> ~ Nested P v -> exists x, LeafOf x v /\ ~ P x).
  { intros P HP HX. destruct (Nested_dec P HP v HN) as [H|H]; [contradiction|auto]. }
  destruct (Nested_dec (fun x => match discover sc so x with Ok t => Known t | Raise e => e <> ValueErr end)
    (fun x _ => match discover sc so x as r return (match r with Ok t => Known t | Raise e => e <> ValueErr end) \/ ~ (match r with Ok t => Known t | Raise e => e <> ValueErr end) with
      | Ok t => Known_dec t | Raise ee => ltac:(destruct ee; first [left; discriminate|right; intro X; apply X; reflexivity]) end) v HN) as [H|[x [H1 H2]]].
  - exfalso.
    assert (X : tot (fun e => e <> ValueErr) (D (fun _ => True) Known) (discover sc so v)).
    { apply discover_tot; [auto|right; auto|]. eapply Nested_mono; [|exact H]. intros x _ Hx. unfold leafok. cbn beta in Hx.
      destruct (discover sc so x) as [t|e']; [|exact Hx]. left. apply DM_known; auto. }
    rewrite E in X. apply X; reflexivity.
  - destruct (discover sc so x) as [t|e'] eqn:Ex.
    + right. split; auto. exists x, t. auto.
    + left. exists x. split; auto. rewrite Ex. destruct e'; try (exfalso; apply H2; discriminate). reflexivity.
Qed.
(** the leaves that fail on their own *)
Lemma leaf_errors sc so v e : IsLeaf v -> discover sc so v = Raise e ->
  match v with
  | DStr s => e = IndexErr \/ e = OverflowErr \/ so_date so s = Raise e
  | DArr _ _ _ | DLike _ _ => True
  | DOther => e = NotImplErr
  | _ => False
  end.
Proof.
  intros HL H. destruct v; try contradiction; cbn [discover] in H; auto; try discriminate.
  - unfold discover_str in H. destruct s as [|c s]; [discriminate|].
    destruct (so_int so (c :: s)); cbn [or_else] in H; [discriminate|]. destruct (so_float so (c :: s)); cbn [or_else] in H; [discriminate|].
    destruct (mem_str _ _); cbn [or_else] in H; [discriminate|].
    assert (X : match deltaparse so (c :: s) with Raise e => e = ValueErr \/ e = IndexErr \/ e = OverflowErr | Ok _ => True end).
    { unfold deltaparse. destruct (words [] (c :: s)) as [|a [|u [|]]]; auto. destruct (so_float so a) as [[z|]|]; auto.
      pose proof (Proof_Time.normalize_errors u) as N.
      destruct (normalize_time_unit u) as [u'|]; cbn [bind]; [|tauto].
      destruct (_ && _); [|auto]. 
      assert (Y : exists t, from_numpy [] (NTimedelta u' 1) = Ok t). 
      { unfold Spec_Time.canonical_units in N. repeat (destruct N as [<-|N]; [eexists; vm_compute; reflexivity|]). contradiction. }
      destruct Y as [t ->]. exact I. }
    destruct (deltaparse so (c :: s)) as [t|e1]; [discriminate|].
    destruct X as [-> |[-> | ->]]; cbn [or_else] in H; try (left; congruence); try (right; left; congruence).
    destruct (so_time so (c :: s)); cbn [or_else] in H; [discriminate|]; destruct (_ || _); [discriminate|];
      destruct (so_date so (c :: s)) as [[]|e1]; try discriminate; right; right; destruct e1; congruence.
  - congruence.
Qed.
