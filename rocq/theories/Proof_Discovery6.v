(** What [discover] returns is well-formed and concrete, and its recursion terminates (C47). *)
From Verif Require Import Base Types Lexer Printer Construct Parser Ops Preds Numpy Graph Discovery
  Spec_Eq Spec_WF Spec_Graph Spec_Ops Spec_Discovery Spec_Dicts Spec_Found Spec_Print Proof_WF Proof_Eq Proof_Parser Proof_Ops Proof_Graph
  Proof_Coerce Proof_Discovery Proof_Discovery2 Proof_Discovery4 Proof_Time.
Local Open Scope Z_scope.

(** ** outcomes *)
Definition okR {A} (Q : A -> Prop) (r : res A) : Prop :=
  match r with Ok a => Q a | Raise e => real_exn e end.
Lemma okR_bind {A B} (Q : A -> Prop) (Q' : B -> Prop) x f : okR Q x -> (forall a, Q a -> okR Q' (f a)) -> okR Q' (bind x f).
Proof. destruct x; simpl; auto. Qed.
Lemma okR_mono {A} (Q Q' : A -> Prop) x : (forall a, Q a -> Q' a) -> okR Q x -> okR Q' x.
Proof. destruct x; simpl; auto. Qed.
Lemma okR_mapM {A B} (Q : B -> Prop) (f : A -> res B) l : (forall a, In a l -> okR Q (f a)) -> okR (Forall Q) (mapM f l).
Proof.
  induction l as [|a l IH]; intro H; [constructor|]. rewrite mapM_cons. eapply okR_bind; [apply H; left; auto|].
  intros b Hb. eapply okR_bind; [apply IH; intros; apply H; right; auto|]. intros bs Hbs. constructor; auto.
Qed.

(** ** the types found *)
Inductive DDim : ty -> Prop := DD_fixed n : 0 <= n -> DDim (FixedT n) | DD_var : DDim VarT.
Section Names.
(** [PN]: the allowed field names; [LF]: the allowed scalar types *)
Variable PN : str -> Prop.
Variable LF : ty -> Prop.
Hypothesis HLF : forall t, Known t -> LF t.
Inductive DM : ty -> Prop :=
| DL_ctype c : In c KnownCTypes -> LF c -> DM c
| DL_null : LF NullT -> DM NullT
| DL_date : LF DateT -> DM DateT
| DL_time : LF (TimeT None) -> DM (TimeT None)
| DL_datetime : LF (DateTimeT None) -> DM (DateTimeT None)
| DL_timedelta u : CanonicalUnit u -> LF (TimeDeltaT u) -> DM (TimeDeltaT u)
| DL_string f e : CanonicalEncoding e -> LF (StringT f e) -> DM (StringT f e)
| DM_option t : DM t -> (forall u, t <> OptionT u) -> DM (OptionT t)
| DM_record fs : NoDup (map fst fs) -> Forall PN (map fst fs) ->
    (forall n t, In (n, t) fs -> DM t \/ exists dims m, dims <> [] /\ t = DataShapeT None (dims ++ [m]) /\ Forall DDim dims /\ DM m) ->
    DM (RecordT fs)
| DM_tuple ds :
    (forall t, In t ds -> exists dims m, t = DataShapeT None (dims ++ [m]) /\ Forall DDim dims /\ DM m) -> DM (TupleT ds).
Definition DA (ps : list ty) : Prop := exists dims m, ps = dims ++ [m] /\ Forall DDim dims /\ DM m.
Definition D (t : ty) : Prop := DM t \/ exists ps, t = DataShapeT None ps /\ DA ps.
Definition Dl (t : ty) : Prop := DM t \/ exists dims m, dims <> [] /\ t = DataShapeT None (dims ++ [m]) /\ Forall DDim dims /\ DM m.
Lemma Dl_D t : Dl t -> D t.
Proof. intros [H|[dims [m [_ [-> H]]]]]; [left; auto|right]. eexists; split; [reflexivity|]. exists dims, m. tauto. Qed.

Lemma DM_known t : Known t -> DM t.
Proof.
  intro H. pose proof (HLF t H) as L. unfold Known in H.
  repeat (destruct H as [<-|H]; [first [apply DL_null; exact L|apply DL_date; exact L|apply DL_datetime; exact L
    |apply DL_timedelta; [unfold CanonicalUnit; simpl; tauto|exact L]|apply DL_string; [unfold CanonicalEncoding; simpl; tauto|exact L]
    |apply DL_ctype; [simpl; tauto|exact L]]|]). contradiction.
Qed.
Lemma DM_null : DM NullT.
Proof. apply DM_known. unfold Known. simpl; tauto. Qed.
Lemma DM_string_t : DM string_t.
Proof. apply DM_known. unfold Known. simpl; tauto. Qed.
Lemma known_cases c (P : ty -> Prop) : In c KnownCTypes -> (forall n i a, P (CType n i a)) -> P c.
Proof. intros H HP. unfold KnownCTypes in H. repeat (destruct H as [<-|H]; [apply HP|]). contradiction. Qed.
Lemma known_CType c : In c KnownCTypes -> exists n i a, c = CType n i a.
Proof. intro H. apply (known_cases c (fun c => exists n i a, c = CType n i a) H). eauto. Qed.
Lemma DM_not_ds n l : ~ DM (DataShapeT n l).
Proof.
  intro H. inversion H as [c Hc Hl| | | | | | | | | ]; subst. apply known_CType in Hc as [? [? [? E]]]. discriminate.
Qed.
Lemma DM_facts m : DM m -> is_DataShape m = false /\ ~ DimensionClass m /\ Inv m /\ is_dimension m = false.
Proof.
  intros H; destruct H as [c Hc Hl|
     | | | |u Hu Hl|f e He Hl|t Ht Ho|fs N NP Hf|ds Hd].
  - apply (known_cases c (fun c => is_DataShape c = false /\ ~ DimensionClass c /\ Inv c /\ is_dimension c = false) Hc).
    intros. split; [reflexivity|]. split; [intro X; inversion X|]. split; [exact I|reflexivity].
  - split; [reflexivity|]. split; [intro X; inversion X|]. split; [exact I|reflexivity].
  - split; [reflexivity|]. split; [intro X; inversion X|]. split; [exact I|reflexivity].
  - split; [reflexivity|]. split; [intro X; inversion X|]. split; [exact I|reflexivity].
  - split; [reflexivity|]. split; [intro X; inversion X|]. split; [exact I|reflexivity].
  - split; [reflexivity|]. split; [intro X; inversion X|]. split; [exact Hu|reflexivity].
  - split; [reflexivity|]. split; [intro X; inversion X|]. split; [exact He|reflexivity].
  - split; [reflexivity|]. split; [intro X; inversion X|]. split; [|reflexivity].
    intros [n [x ->]]. exact (DM_not_ds _ _ Ht).
  - split; [reflexivity|]. split; [intro X; inversion X|]. split; [|reflexivity]. split; auto.
    intros x Hx [n [y ->]]. apply in_map_iff in Hx as [[a b] [E Hx]]. simpl in E. subst b.
    destruct (Hf _ _ Hx) as [H|[dims [m [Hne [E _]]]]].
    + exact (DM_not_ds _ _ H).
    + injection E as _ E. destruct dims as [|d [|? ?]]; [congruence|discriminate|discriminate].
  - split; [reflexivity|]. split; [intro X; inversion X|]. split; [|reflexivity].
    intros t Ht. destruct (Hd t Ht) as [dims [m [-> _]]]. eexists; eexists; reflexivity.
Qed.
Lemma DM_notLone m : DM m -> ~ Lone m.
Proof. intros H [n [x ->]]. apply DM_facts in H as [H _]. discriminate. Qed.
Lemma DDim_Dim d : DDim d -> Dim d.
Proof. intros []; constructor. Qed.
Lemma DA_okps ps : DA ps -> okps ps.
Proof.
  intros [dims [m [-> [H1 H2]]]]. exists dims, m. split; [reflexivity|]. rewrite Forall_forall in H1.
  split; [apply (DM_facts m H2)|]. split; [intros d Hd; apply Dim_notMeasure, DDim_Dim; auto|].
  intros x Hx. apply in_app_iff in Hx as [Hx|[<-|[]]]; [apply Dim_notLone, DDim_Dim; auto|apply DM_notLone; auto].
Qed.
Lemma D_facts t : D t -> Inv t /\ ~ DimensionClass t.
Proof.
  intros [H|[ps [-> H]]]; [destruct (DM_facts t H) as [_ [H1 [H2 _]]]; auto|].
  split; [exact (DA_okps _ H)|intro X; inversion X].
Qed.
Lemma DA_single m : DM m -> DA [m].
Proof. intro H. exists [], m. split; auto. Qed.
Lemma DA_components t : D t -> DA (components t).
Proof.
  intros [H|[ps [-> H]]]; [|exact H]. destruct (DM_facts t H) as [E _].
  destruct t; try discriminate; apply DA_single; auto.
Qed.
Lemma DA_cons d ps : DDim d -> DA ps -> DA (d :: ps).
Proof. intros Hd [dims [m [-> [H1 H2]]]]. exists (d :: dims), m. split; auto. Qed.
Lemma D_ds ps : DA ps -> D (DataShapeT None ps).
Proof. intro H. right; eauto. Qed.
Lemma D_launder t : D t -> Dl (launder_ty t).
Proof.
  intros [H|[ps [-> [dims [m [-> [H1 H2]]]]]]].
  - left. rewrite notLone_launder; auto. apply DM_notLone; auto.
  - destruct dims as [|d dims]; [left; exact H2|]. right. exists (d :: dims), m.
    replace (launder_ty (DataShapeT None ((d :: dims) ++ [m]))) with (DataShapeT None ((d :: dims) ++ [m]))
      by (destruct dims; reflexivity).
    split; [discriminate|]. auto.
Qed.

Lemma mul_int_D n t : D t -> 0 <= n -> mul_int n t = Ok (DataShapeT None (FixedT n :: components t)).
Proof. intros H Hn. destruct (D_facts t H). apply mul_int_ok; auto. Qed.
Lemma mul_int_okR n t : D t -> 0 <= n -> okR D (mul_int n t).
Proof. intros H Hn. rewrite mul_int_D by auto. apply D_ds. apply DA_cons; [constructor; auto|apply DA_components; auto]. Qed.
Lemma mul_ty_okR d t : DDim d -> D t -> okR D (mul_ty d t).
Proof.
  intros Hd H. assert (E : mul_ty d t = Ok (DataShapeT None (d :: components t))).
  { pose proof (DDim_Dim d Hd) as HD. destruct H as [H|[ps [-> H]]].
    - destruct (DM_facts t H) as [_ [H1 [H2 _]]]. apply mul_ok; auto;
      [apply Dim_notMeasure|apply Dim_notLone|apply DM_notLone]; auto.
    - apply mul_ds; [apply DA_okps; auto|apply Dim_notMeasure; auto|apply Dim_notLone; auto]. }
  rewrite E. apply D_ds. apply DA_cons; auto. apply DA_components; auto.
Qed.
Lemma DA_split ps : DA ps -> (exists m, ps = [m] /\ DM m) \/ (exists d qs, ps = d :: qs /\ DDim d /\ DA qs).
Proof.
  intros [dims [m [-> [H1 H2]]]]. destruct dims as [|d dims]; [left; exists m; auto|right].
  exists d, (dims ++ [m]). split; [reflexivity|]. split; [apply (Forall_inv H1)|].
  exists dims, m. split; [reflexivity|]. split; [apply (Forall_inv_tail H1)|auto].
Qed.
Lemma record_field_D fs n t : DM (RecordT fs) -> In (n, t) fs -> Dl t.
Proof.
  intros H Hin. inversion H as [c Hc Hl| | | | | | | |fs' N NP Hf| ]; subst.
  - apply known_CType in Hc as [? [? [? E]]]. discriminate.
  - apply (Hf n t Hin).
Qed.
Lemma record_names fs n : DM (RecordT fs) -> In n (map fst fs) -> PN n.
Proof.
  intros H Hin. inversion H as [c Hc Hl| | | | | | | |fs' N NP Hf| ]; subst.
  - apply known_CType in Hc as [? [? [? E]]]. discriminate.
  - rewrite Forall_forall in NP. auto.
Qed.
Lemma py_nth_okR {A} (l : list A) z : okR (fun x => In x l) (py_nth l z).
Proof.
  unfold py_nth. cbv zeta. destruct (_ || _); [exact I|]. destruct (nth_error _ _) eqn:E; [|exact I].
  simpl. eapply nth_error_In; eauto.
Qed.
Lemma subshape0_measure m t : DM m -> ds_head t = m -> okR D (subshape (IxInt 0) t).
Proof.
  intros H E. cbn [subshape]. unfold subshape_plain. rewrite E. destruct (DM_facts m H) as [_ [_ [_ ->]]].
  destruct m; try exact I. eapply okR_bind; [apply py_nth_okR|]. intros [n u] Hin. simpl. apply Dl_D. eapply record_field_D; eauto.
Qed.
Lemma subshape0_okR t : D t -> okR D (subshape (IxInt 0) t).
Proof.
  intros [H|[ps [-> H]]].
  - destruct (DM_facts t H) as [E _]. eapply subshape0_measure; eauto. destruct t; try reflexivity; discriminate.
  - destruct (DA_split ps H) as [[m [-> Hm]]|[d [qs [-> [Hd Hq]]]]].
    + eapply subshape0_measure; eauto.
    + cbn [subshape]. unfold subshape_plain. cbn [ds_head].
      replace (is_dimension d) with true by (symmetry; apply is_dimension_Dim; apply DDim_Dim; auto).
      rewrite sub1; [apply D_ds; auto|apply DA_okps; auto|apply DDim_Dim; auto].
Qed.

Lemma mk_record_okR (fs : list (str * parg)) : Forall (fun f => PN (fst f) /\ exists t, snd f = PTy t /\ D t) fs ->
  okR (fun r => DM r /\ forall u, r <> OptionT u) (mk_record no_dsh fs).
Proof.
  intro H. unfold mk_record.
  assert (E : exists ts, mapM (fun f => launder no_dsh (snd f)) fs = Ok ts /\ Forall Dl ts /\ length ts = length fs).
  { induction H as [|f fs [_ [t [E H]]] _ [ts [E1 [E2 E3]]]]; [exists []; split; auto|].
    exists (launder_ty t :: ts). rewrite mapM_cons, E, E1. cbn [launder bind]. split; auto. split; [|simpl; auto].
    constructor; auto. apply D_launder; auto. }
  destruct E as [ts [-> [E2 E3]]]. cbn [bind]. destruct (nodup_str _) eqn:N; [|exact I]. cbn [okR].
  assert (X : map fst (combine (map fst fs) ts) = map fst fs).
  { clear -E3. rewrite <- (map_length fst fs) in E3. revert ts E3. induction (map fst fs) as [|a l IH]; intros [|t ts] E; simpl in *; auto; try discriminate.
    f_equal. apply IH. lia. }
  split; [|discriminate]. apply nodup_str_NoDup in N. apply DM_record.
  - rewrite X; auto.
  - rewrite X. apply Forall_map. eapply Forall_impl; [|exact H]. intros a [Ha _]; exact Ha.
  - intros n t Hin. apply in_combine_r in Hin. rewrite Forall_forall in E2. apply E2; auto.
Qed.
Lemma mk_option_okR t : DM t -> (forall u, t <> OptionT u) -> okR DM (mk_option no_dsh (PTy t)).
Proof.
  intros H Ho. unfold mk_option. cbn. rewrite notLone_launder by (apply DM_notLone; auto). apply DM_option; auto.
Qed.
Lemma mk_tuple_okR l : Forall D l -> okR DM (mk_tuple no_dsh (map PTy l)).
Proof.
  intro H. unfold mk_tuple. eapply okR_bind with (Q := Forall (fun t => exists ps, t = DataShapeT None ps /\ DA ps)).
  - apply okR_mapM. intros x Hx. apply in_map_iff in Hx as [t [<- Ht]]. rewrite Forall_forall in H. destruct (H t Ht) as [Hm|[ps [-> Hp]]].
    + cbn [tuple_item]. destruct (DM_facts t Hm) as [-> _]. change [PTy t] with (map PTy [t]).
      rewrite mk_datashape_ok by (apply DA_okps, DA_single; auto). eexists; split; [reflexivity|]. apply DA_single; auto.
    + cbn. eauto.
  - intros ds Hds. cbn. apply DM_tuple. intros t Ht. rewrite Forall_forall in Hds. destruct (Hds t Ht) as [ps [-> [dims [m [-> X]]]]].
    exists dims, m. auto.
Qed.

(** ** uniting *)
Lemma Known_DM t : Known t -> DM t /\ forall u, t <> OptionT u.
Proof.
  intro H. split; [apply DM_known; exact H|unfold Known in H; intros u ->; repeat (destruct H as [H|H]; [discriminate|]); contradiction].
Qed.
Section Unite.
  Variable sc : sched.
  Lemma lowest_common_okR l : l <> [] -> forallb is_Unit l = true ->
    okR (fun t => DM t /\ forall u, t <> OptionT u) (lowest_common sc l).
  Proof.
    intros Hne HU.
    assert (X : Forall Known l \/ ~ Forall Known l).
    { clear. induction l as [|x l [IH|IH]]; [left; constructor| |right; intro H; apply IH; now inversion H].
      destruct (Known_dec x); [left; now constructor|right; intro H0; apply H; now inversion H0]. }
    destruct X as [K|K].
    - destruct (lowest_common_lub sc l Hne K) as [u [-> [HK _]]]. apply Known_DM; auto.
    - rewrite lowest_common_unknown; [exact I| |auto]. apply Forall_forall. intros t Ht. apply Scalar_is_Unit.
      rewrite forallb_forall in HU. auto.
  Qed.
  Lemma D_unpack t : D t -> D (unpack t).
  Proof.
    intro H. change unpack with launder_ty. apply Dl_D, D_launder; auto.
  Qed.
  Lemma unpack_size t : (tsize (unpack t) <= tsize t)%nat.
  Proof.
    destruct t; auto. destruct parameters as [|x [|y l]]; auto. cbn [unpack]. rewrite tsize_DataShape. simpl. lia.
  Qed.
  Lemma len_nonneg {A} (l : list A) : 0 <= len l.
  Proof. unfold len. lia. Qed.
  Lemma lsize_unpack l : (lsize (map unpack l) <= lsize l)%nat.
  Proof. induction l as [|x l IH]; simpl; auto. pose proof (unpack_size x). lia. Qed.
  Lemma lsize_filter (p : ty -> bool) l : (lsize (filter p l) <= lsize l)%nat.
  Proof. induction l as [|x l IH]; simpl; auto. destruct (p x); simpl; lia. Qed.
  Lemma get_null_size name t : match dict_get_null name t with Ok u => (tsize u <= tsize t)%nat | Raise _ => True end.
  Proof.
    destruct t; cbn [dict_get_null]; try exact I. destruct (assoc name (rev fields)) as [u|] eqn:E.
    - apply Proof_Ops.assoc_In in E. apply in_rev in E. apply fsize_In in E. cbn [snd] in E. rewrite tsize_Record. lia.
    - rewrite tsize_Record. change (tsize NullT) with 1%nat. lia.
  Qed.
  Lemma get_null_size_in name fs n : In n (map fst fs) -> name = n ->
    match dict_get_null name (RecordT fs) with Ok u => (tsize u < tsize (RecordT fs))%nat | Raise _ => True end.
  Proof.
    intros Hin ->. cbn [dict_get_null]. destruct (assoc n (rev fs)) as [u|] eqn:E.
    - apply Proof_Ops.assoc_In in E. apply in_rev in E. apply fsize_In in E. cbn [snd] in E. rewrite tsize_Record. lia.
    - apply Proof_Ops.assoc_None in E. exfalso. apply E. rewrite map_rev. rewrite <- in_rev. auto.
  Qed.
  Lemma mapM_get_size name l : match mapM (dict_get_null name) l with Ok us => (lsize us <= lsize l)%nat | Raise _ => True end.
  Proof.
    induction l as [|x l IH]; [simpl; auto|]. rewrite mapM_cons. pose proof (get_null_size name x) as H.
    destruct (dict_get_null name x); [|exact I]. cbn [bind]. destruct (mapM _ l); [|exact I]. cbn [bind]. simpl. lia.
  Qed.
  Lemma dict_get_okR name t : D t -> okR D (dict_get_null name t).
  Proof.
    intros H. destruct t; try exact I. simpl. destruct (assoc name (rev fields)) as [u|] eqn:E.
    - apply Proof_Ops.assoc_In in E. apply in_rev in E. destruct H as [H|[ps [X _]]]; [|discriminate].
      apply Dl_D. eapply record_field_D; eauto.
    - left; apply DM_null.
  Qed.
  Lemma unite_baseF_okR n : forall l, (lsize l < n)%nat -> Forall D l -> okR D (unite_baseF sc n l).
  Proof.
    induction n as [|n IH]; intros l Hn Hl; [lia|]. cbn [unite_baseF]. unfold groupby_bool.
    assert (HU : Forall D (map unpack l)) by (apply Forall_map; eapply Forall_impl; [|exact Hl]; apply D_unpack).
    set (l' := map unpack l) in *.
    assert (HG : Forall D (filter (fun x => negb (isnull x)) l')).
    { apply Forall_forall. intros x Hx. apply filter_In in Hx as [Hx _]. rewrite Forall_forall in HU. auto. }
    assert (SG : (lsize (filter (fun x => negb (isnull x)) l') <= n)%nat).
    { pose proof (lsize_filter (fun x => negb (isnull x)) l'). pose proof (lsize_unpack l). unfold l' in *. lia. }
    destruct (filter (fun x => negb (isnull x)) l') as [|g0 gr] eqn:Eg.
    { apply mul_int_okR; [left; apply DM_null|apply len_nonneg]. }
    eapply okR_bind with (Q := fun t => DM t /\ forall u, t <> OptionT u).
    - destruct (forallb is_Unit (g0 :: gr)) eqn:HUn; [apply lowest_common_okR; auto; discriminate|].
      destruct g0; try exact I. rename fields into fs.
      eapply okR_bind with (Q := Forall (fun f : str * parg => PN (fst f) /\ exists t, snd f = PTy t /\ D t)); [|apply mk_record_okR].
      apply okR_mapM. intros [fname ft] Hf. cbn [fst].
      eapply okR_bind with (Q := fun col => Forall D col /\ (lsize col < n)%nat).
      + pose proof (okR_mapM D (dict_get_null fname) (RecordT fs :: gr)) as X.
        rewrite mapM_cons in *. pose proof (get_null_size_in fname fs fname) as S1.
        pose proof (mapM_get_size fname gr) as S2.
        assert (Hff : In fname (map fst fs)) by (apply in_map_iff; exists (fname, ft); auto).
        specialize (S1 Hff eq_refl).
        rewrite Forall_forall in HG.
        specialize (X (fun a Ha => dict_get_okR fname a (HG a Ha))).
        destruct (dict_get_null fname (RecordT fs)) as [u|] eqn:Eu; [|exact X]. cbn [bind] in *.
        destruct (mapM (dict_get_null fname) gr) as [us|]; [|exact X]. cbn [bind okR] in *. split; auto.
        change (lsize (RecordT fs :: gr)) with (tsize (RecordT fs) + lsize gr)%nat in SG.
        change (lsize (u :: us)) with (tsize u + lsize us)%nat. lia.
      + intros col [C1 C2]. eapply okR_bind; [apply IH; auto|]. intros u Hu. eapply okR_bind; [apply subshape0_okR; auto|].
        intros s Hs. cbn. split; [|eauto]. apply (record_names fs); [|apply in_map_iff; exists (fname, ft); auto].
        destruct (Forall_inv HG) as [X|[ps [X _]]]; [exact X|discriminate].
    - intros base [HB1 HB2]. eapply okR_bind with (Q := DM).
      + destruct (filter isnull l'); [exact HB1|]. apply mk_option_okR; auto.
      + intros b Hb. apply mul_int_okR; [left; auto|apply len_nonneg].
  Qed.
  Lemma unite_base_okR l : Forall D l -> okR D (unite_base sc l).
  Proof. intro H. apply unite_baseF_okR; auto. Qed.

  Definition oD (o : option ty) : Prop := match o with Some t => D t | None => True end.
  Lemma unite_identical_okR l : Forall D l -> okR oD (unite_identical l).
  Proof.
    intro H. unfold unite_identical. destruct (all_same l); [|exact I]. destruct l as [|x l]; [exact I|].
    inversion H; subst. eapply okR_bind; [apply mul_int_okR; [eauto|apply len_nonneg]|]. auto.
  Qed.
  Lemma ds_head_DDim t : D t -> is_DataShape t = true -> is_dimension (ds_head t) = true -> DDim (ds_head t).
  Proof.
    intros [H|[ps [-> H]]] H1 H2; [destruct (DM_facts t H); congruence|].
    destruct (DA_split ps H) as [[m [-> Hm]]|[d [qs [-> [Hd _]]]]]; auto.
    cbn in H2. destruct (DM_facts m Hm) as [_ [_ [_ X]]]. cbn [ds_head] in *. unfold is_dimension in *. congruence.
  Qed.
  Lemma unite_merge_okR l : Forall D l -> okR oD (unite_merge l).
  Proof.
    intro H. unfold unite_merge. destruct (forallb _ l) eqn:E; [|exact I].
    rewrite forallb_forall in E. rewrite Forall_forall in H.
    eapply okR_bind; [apply okR_mapM; intros a Ha; apply subshape0_okR; auto|]. intros subs Hs.
    eapply okR_bind; [apply unite_identical_okR; auto|]. intros [b|] Hb; [|exact I].
    eapply okR_bind; [apply subshape0_okR; exact Hb|]. intros s HS. eapply okR_bind with (Q := D).
    - destruct (all_same _); apply mul_ty_okR; auto; [|constructor].
      destruct l as [|x l]; [constructor|]. cbn [map hd]. specialize (E x (or_introl eq_refl)). apply andb_true_iff in E as [E1 E2].
      apply ds_head_DDim; auto. apply H; left; auto.
    - intros inner Hi. eapply okR_bind; [apply mul_int_okR; [eauto|apply len_nonneg]|]. auto.
  Qed.
  Lemma tuple_of_okR l : Forall D l -> okR oD (tuple_of l).
  Proof. intro H. unfold tuple_of. eapply okR_bind; [apply mk_tuple_okR; auto|]. intros t Ht. left; auto. Qed.
  Lemma do_one_okR fs l : (forall f, In f fs -> okR oD (f l)) -> okR oD (do_one fs l).
  Proof.
    induction fs as [|f fs IH]; intro H; [exact I|]. cbn [do_one]. eapply okR_bind; [apply H; left; auto|].
    intros [t|] Ht; [exact Ht|]. apply IH. intros; apply H; right; auto.
  Qed.
  Lemma column_okR col : Forall (okR D) col -> okR D (column_type sc col).
  Proof.
    intro H. unfold column_type. eapply okR_bind; [apply okR_mapM; rewrite Forall_forall in H; auto|].
    intros ts Hts. eapply okR_bind.
    - apply do_one_okR. intros f [<-|[<-|[<-|[]]]]; [apply unite_identical_okR; auto| |apply unite_merge_okR; auto].
      eapply okR_bind; [apply unite_base_okR; auto|auto].
    - intros [t|] Ht; [apply subshape0_okR; exact Ht|exact I].
  Qed.
  Lemma unite_final_okR l : Forall D l -> okR D (unite_final l).
  Proof.
    intro H. unfold unite_final. cbn [do_one].
    pose proof (unite_identical_okR l H) as H1. destruct (unite_identical l) as [[t|]|]; [exact H1| |exact H1]. cbn [bind].
    pose proof (unite_merge_okR l H) as H2. destruct (unite_merge l) as [[t|]|]; [exact H2| |exact H2]. cbn [bind].
    unfold tuple_of. pose proof (mk_tuple_okR l H) as H3. destruct (mk_tuple no_dsh (map PTy l)); [left; exact H3|exact H3].
  Qed.
  Lemma transpose_In {B} (d : B) m rows c x : In c (transpose d m rows) -> In x c -> x = d \/ exists r, In r rows /\ In x r.
  Proof.
    unfold transpose. intros Hc Hx. apply in_map_iff in Hc as [i [<- _]]. apply in_map_iff in Hx as [r [<- Hr]].
    destruct (nth_in_or_default i r d) as [H|H]; [right; eauto|left; auto].
  Qed.
  Lemma discover_rows_okR rows : Forall (Forall (okR D)) rows -> okR D (discover_rows sc rows).
  Proof.
    intro H. unfold discover_rows. eapply okR_bind.
    - apply okR_mapM. intros c Hc. apply column_okR. apply Forall_forall. intros x Hx.
      destruct (transpose_In _ _ _ _ _ Hc Hx) as [->|[r [Hr Hx']]]; [left; apply DM_null|].
      rewrite Forall_forall in H. specialize (H r Hr). rewrite Forall_forall in H. auto.
    - intros ts Hts. eapply okR_bind; [apply unite_final_okR; exact Hts|]. intros t Ht. apply mul_int_okR; [auto|apply len_nonneg].
  Qed.
  Definition okitem (kr : str * res ty) : Prop := PN (fst kr) /\ okR D (snd kr).
  Lemma get_or_null_okR key d : Forall okitem d -> okR D (get_or_null key d).
  Proof.
    intro H. unfold get_or_null. destruct (assoc key d) as [r|] eqn:E; [|left; apply DM_null].
    apply Proof_Ops.assoc_In in E. rewrite Forall_forall in H. apply (proj2 (H _ E)).
  Qed.
  Lemma discover_dicts_okR ds : Forall (Forall okitem) ds -> okR D (discover_dicts sc ds).
  Proof.
    intro H. unfold discover_dicts. eapply okR_bind.
    - apply okR_mapM. intros key _. apply column_okR. apply Forall_map. eapply Forall_impl; [|exact H].
      intros d Hd. apply get_or_null_okR; auto.
    - intros ts Hts. eapply okR_bind; [apply mk_record_okR|].
      + apply Forall_forall. intros f Hf. apply in_map_iff in Hf as [[k t] [<- Hf]]. cbn. split.
        * apply in_combine_l in Hf. rewrite sorted_set_In in Hf. apply in_flat_map in Hf as [d [Hd Hk]].
          rewrite Forall_forall in H. specialize (H d Hd). rewrite Forall_forall in H.
          apply in_map_iff in Hk as [kr [<- Hk]]. apply (H kr Hk).
        * apply in_combine_r in Hf. rewrite Forall_forall in Hts. eauto.
      + intros r [Hr _]. apply mul_int_okR; [left; auto|apply len_nonneg].
  Qed.
  Lemma on_attr_okR r k : okR D r -> okR D k -> okR D (on_attribute_error r k).
  Proof. destruct r as [t|e]; auto. destruct e; auto. Qed.
  Lemma all_some_In {B} (l : list (option B)) l' : all_some l = Some l' -> forall x, In x l' -> In (Some x) l.
  Proof.
    revert l'. induction l as [|[x|] l IH]; intros l' E; simpl in E; try discriminate.
    - injection E as <-. intros y [].
    - destruct (all_some l) as [m|]; [|discriminate]. injection E as <-. intros y [<-|Hy]; [left; auto|right; eapply IH; eauto].
  Qed.
  Lemma discover_seq_okR own rows dicts : Forall (okR D) own ->
    (forall r, In (Some r) rows -> Forall (okR D) r) -> (forall d, In (Some d) dicts -> Forall okitem d) ->
    okR D (discover_seq sc own rows dicts).
  Proof.
    intros H1 H2 H3. unfold discover_seq. destruct own as [|x own].
    { apply mul_ty_okR; [constructor|]. left. apply DM_string_t. }
    set (fb := let! types := mapM (fun r => r) (x :: own) in unite_final types).
    assert (HF : okR D fb).
    { eapply okR_bind; [apply okR_mapM; rewrite Forall_forall in H1; exact H1|]. intros ts Hts. apply unite_final_okR; auto. }
    clearbody fb.
    assert (HS : okR D match all_some dicts with Some ds => on_attribute_error (discover_dicts sc ds) fb | None => fb end).
    { destruct (all_some dicts) as [ds|] eqn:E; auto. apply on_attr_okR; auto. apply discover_dicts_okR.
      apply Forall_forall. intros d Hd. apply H3. eapply all_some_In; eauto. }
    destruct (all_some rows) as [rs|] eqn:E; auto. destruct (same_lengths rs); auto. apply on_attr_okR; auto.
    apply discover_rows_okR. apply Forall_forall. intros r Hr. apply H2. eapply all_some_In; eauto.
  Qed.
  Lemma discover_items_okR l : Forall okitem l -> okR D (discover_items l).
  Proof.
    intro H. unfold discover_items. eapply okR_bind.
    - apply okR_mapM. intros kr Hk. rewrite Forall_forall in H. destruct (H kr Hk) as [H1 H2]. eapply okR_bind; [exact H2|].
      intros t Ht. instantiate (1 := fun f => PN (fst f) /\ exists t, snd f = PTy t /\ D t). cbn. eauto.
    - intros fs Hfs. eapply okR_mono; [|apply mk_record_okR; exact Hfs]. intros r [Hr _]. left; auto.
  Qed.
End Unite.

(** ** arrays and strings: all scalars are allowed *)
Hypothesis HLA : forall t, LF t.
Lemma DM_ctype c : In c KnownCTypes -> DM c. Proof. intro H; apply DL_ctype; auto. Qed.
Lemma DM_date : DM DateT. Proof. apply DL_date; auto. Qed.
Lemma DM_time : DM (TimeT None). Proof. apply DL_time; auto. Qed.
Lemma DM_datetime : DM (DateTimeT None). Proof. apply DL_datetime; auto. Qed.
Lemma DM_timedelta u : CanonicalUnit u -> DM (TimeDeltaT u). Proof. intro; apply DL_timedelta; auto. Qed.
Lemma DM_string f e : CanonicalEncoding e -> DM (StringT f e). Proof. intro; apply DL_string; auto. Qed.
Section NpInd.
  Variable P : npdt -> Prop.
  Hypothesis Hatom : forall d, match d with NSwap _ | NStruct _ => False | _ => True end -> P d.
  Hypothesis Hswap : forall d, P d -> P (NSwap d).
  Hypothesis Hstruct : forall l, Forall (fun f : str * (list Z * npdt) => P (snd (snd f))) l -> P (NStruct l).
  Fixpoint npdt_ind' (d : npdt) : P d :=
    match d with
    | NSwap d' => Hswap d' (npdt_ind' d')
    | NStruct l => Hstruct l ((fix go (l : list (str * (list Z * npdt))) : Forall (fun f => P (snd (snd f))) l :=
        match l with
        | [] => Forall_nil _
        | x :: r => @Forall_cons _ (fun f : str * (list Z * npdt) => P (snd (snd f))) x r (npdt_ind' (snd (snd x))) (go r)
        end) l)
    | d => Hatom d I
    end.
End NpInd.
Lemma mk_string_okR f e : okR DM (mk_string f e).
Proof.
  unfold mk_string. set (e' := match e with None | Some [] => $"U8" | Some e => e end).
  destruct (assoc e' string_encodings) as [c|] eqn:Ea; [|exact I].
  apply DM_string. apply Proof_Ops.assoc_In in Ea. apply (in_map snd) in Ea.
  unfold string_encodings in Ea. cbn [map snd] in Ea. unfold CanonicalEncoding. simpl in *. intuition.
Qed.
Lemma mk_timedelta_okR s : okR DM (mk_timedelta s).
Proof.
  unfold mk_timedelta. pose proof (normalize_errors s) as H. destruct (normalize_time_unit s) as [u|e]; cbn [bind okR].
  - apply DM_timedelta. exact H.
  - destruct H; subst; exact I.
Qed.
Lemma registry_DM n t : assoc n type_registry = Some t -> n <> $"char" -> n <> $"bytes" -> DM t.
Proof.
  intros H H1 H2. apply Proof_Ops.assoc_In in H. unfold type_registry in H.
  repeat (destruct H as [H|H]; [injection H as <- <-; try congruence;
    first [apply DM_null|apply DM_date|apply DM_time|apply DM_datetime
      |apply DM_timedelta; unfold CanonicalUnit; simpl; tauto|apply DM_string; unfold CanonicalEncoding; simpl; tauto
      |apply DM_ctype; simpl; tauto]|]).
  contradiction.
Qed.
Lemma ctype_from_okR d : match d with NSwap _ | NBytes _ => False | _ => True end -> okR DM (ctype_from_numpy_dtype d).
Proof.
  intro Hd. assert (N : np_name d <> $"char" /\ np_name d <> $"bytes").
  { destruct d; try contradiction; try (split; discriminate); destruct s; split; discriminate. }
  assert (E : ctype_from_numpy_dtype d = match assoc (np_name d) type_registry with Some t => Ok t | None =>
      match d with
      | NDatetime u _ => if mem_str u [$"D"; $"Y"; $"M"; $"W"] then Ok DateT else Ok (DateTimeT None)
      | NTimedelta u _ => mk_timedelta u
      | NUnicode n => mk_string (Some n) (Some $"U32")
      | NBytes n => mk_string (Some n) (Some $"ascii")
      | NSwap d' => ctype_from_numpy_dtype d'
      | _ => Raise NotImplErr
      end end) by (destruct d; reflexivity).
  rewrite E. destruct (assoc _ _) as [t|] eqn:Ea; [eapply registry_DM; [exact Ea| |]; tauto|].
  destruct d; try contradiction; try exact I.
  - apply mk_string_okR.
  - destruct (mem_str _ _); [apply DM_date|apply DM_datetime].
  - apply mk_timedelta_okR.
Qed.
Lemma np_array_okR shp m : DM m -> okR D (np_array shp m).
Proof.
  intro H. unfold np_array. destruct shp as [|z shp]; [left; auto|].
  eapply okR_bind with (Q := Forall DDim).
  - apply okR_mapM. intros x _. unfold mk_fixed. destruct (Z.ltb_spec x 0); [exact I|constructor; auto].
  - intros dims Hd. assert (HA : DA (dims ++ [m])) by (exists dims, m; auto). rewrite mk_ds_ok by (apply DA_okps; auto).
    apply D_ds; auto.
Qed.
Lemma np_measure_okR d : (forall n, NpField n d -> PN n) -> okR DM (np_measure d).
Proof.
  induction d as [d Hd|d IH|l IH] using npdt_ind'.
  - intros _. destruct d; try contradiction; try (apply ctype_from_okR; exact I); apply mk_string_okR.
  - intro H. apply IH. intros n Hn. apply H. now constructor.
  - intro HN. destruct l as [|f l]; [apply ctype_from_okR; exact I|]. cbn [np_measure].
    eapply okR_bind with (Q := Forall (fun f : str * parg => PN (fst f) /\ exists t, snd f = PTy t /\ D t)).
    + apply okR_mapM. intros [n [shp b]] Hin. rewrite Forall_forall in IH. specialize (IH _ Hin). cbn [snd] in IH.
      eapply okR_bind; [apply IH; intros; apply HN; eapply NpField_in; eauto|]. intros m Hm.
      eapply okR_bind; [apply np_array_okR; exact Hm|]. intros t Ht. cbn. split; [|eauto].
      apply HN. eapply NpField_here; eauto.
    + intros fs Hfs. eapply okR_mono; [|apply mk_record_okR; exact Hfs]. intros a [H _]; exact H.
Qed.
Lemma from_numpy_okR shp d : (forall n, NpField n d -> PN n) -> okR D (from_numpy shp d).
Proof. intro HN. unfold from_numpy. eapply okR_bind; [apply np_measure_okR; auto|]. intros. apply np_array_okR; auto. Qed.
Lemma D_measure t : D t -> DM (measure t) /\ forall m, DM m -> DA (shape t ++ [m]) \/ exists u, t = OptionT u.
Proof.
  intros [H|[ps [-> [dims [m [-> [H1 H2]]]]]]].
  - destruct (DM_facts t H) as [E _]. destruct t; try discriminate; (split; [exact H|]);
      intros m Hm; try (left; apply DA_single; exact Hm). right; eauto.
  - cbn [measure shape]. rewrite last_last, removelast_last. split; auto. intros m' Hm'. left. exists dims, m'. auto.
Qed.
Lemma np_measure_not_option d t : np_measure d = Ok t -> forall u, t <> OptionT u.
Proof.
  assert (M : forall r : res ty, (forall t, r = Ok t -> forall u, t <> OptionT u) -> r = Ok t -> forall u, t <> OptionT u) by (intros; auto).
  assert (MS : forall f e t, mk_string f e = Ok t -> forall u, t <> OptionT u).
  { intros f e t'. unfold mk_string. destruct (assoc _ _); [|discriminate]. intro X; injection X as <-. discriminate. }
  assert (C : forall d, match d with NSwap _ | NBytes _ => False | _ => True end -> forall t, ctype_from_numpy_dtype d = Ok t -> forall u, t <> OptionT u).
  { intros d' Hd' t' E. 
    assert (R : forall n t, assoc n type_registry = Some t -> forall u, t <> OptionT u).
    { intros n t0 H u ->. apply Proof_Ops.assoc_In in H. unfold type_registry in H. repeat (destruct H as [H|H]; [discriminate|]). contradiction. }
    assert (T : forall s t, mk_timedelta s = Ok t -> forall u, t <> OptionT u).
    { intros s t0. unfold mk_timedelta. destruct (normalize_time_unit s); [|discriminate]. intro X; injection X as <-. discriminate. }
    destruct d'; try contradiction; cbn [ctype_from_numpy_dtype] in E;
    (destruct (assoc _ _) as [t0|] eqn:Ea; [injection E as <-; eapply R; eauto|]); try discriminate; eauto.
    destruct (mem_str _ _); injection E as <-; discriminate. }
  induction d as [d Hd|d IH|l _] using npdt_ind'.
  - destruct d; try contradiction; try (apply C; exact I); cbn [np_measure]; eauto.
  - exact IH.
  - destruct l as [|f l]; [apply C; exact I|]. cbn [np_measure]. destruct (mapM _ _); [|discriminate]. cbn [bind].
    unfold mk_record. destruct (mapM _ a); [|discriminate]. cbn [bind]. destruct (nodup_str _); [|discriminate].
    intro X; injection X as <-. discriminate.
Qed.
Lemma from_numpy_not_option shp d t : from_numpy shp d = Ok t -> forall u, t <> OptionT u.
Proof.
  unfold from_numpy. destruct (np_measure d) as [m|] eqn:E; [|discriminate]. cbn [bind]. unfold np_array.
  destruct shp; [intro X; injection X as <-; eapply np_measure_not_option; eauto|].
  destruct (mapM _ _); [|discriminate]. cbn [bind]. pose proof (mk_ds_good (fun _ _ => True) (a ++ [m])) as _.
  unfold mk_ds, mk_datashape. destruct (map PTy (a ++ [m])) as [|[] [|]]; try discriminate; cbn [bind];
  (destruct (mapM _ _); [|discriminate]); cbn [bind]; unfold check_datashape;
  (destruct (negb _); [discriminate|]); (destruct (forallb _ _); [|discriminate]); intro X; injection X as <-; discriminate.
Qed.
Lemma mk_ds_D ps : DA ps -> okR D (mk_ds ps).
Proof. intro H. rewrite mk_ds_ok by (apply DA_okps; auto). apply D_ds; auto. Qed.
Lemma discover_arr_okR shp dt strs : (forall n, NpField n dt -> PN n) -> okR D (discover_arr shp dt strs).
Proof.
  intro HN. unfold discover_arr. pose proof (from_numpy_okR shp dt HN) as H. pose proof (from_numpy_not_option shp dt) as HO.
  destruct (from_numpy shp dt) as [ds|]; [|exact H]. cbn [bind okR] in *. specialize (HO ds eq_refl).
  destruct (D_measure ds H) as [HM HS].
  assert (SD : DM string_t) by (apply DM_string; unfold CanonicalEncoding; simpl; tauto).
  assert (HS' : forall m, DM m -> okR D (mk_ds (shape ds ++ [m]))).
  { intros m Hm. destruct (HS m Hm) as [X|[u X]]; [apply mk_ds_D; auto|exfalso; eapply HO; eauto]. }
  destruct (py_eq (measure ds) object_t && strs None); [apply HS'; auto|].
  destruct (isrecord (measure ds)); [|exact H]. destruct (measure ds) as [| | | | | | | | | | | | | | | | | | | | | |]; try exact H.
  destruct (existsb _ _); [|exact H]. eapply okR_bind; [apply mk_record_okR|intros m [Hm _]; apply HS'; auto].
  apply Forall_forall. intros f Hf. apply in_map_iff in Hf as [[n u] [<- Hf]]. cbn. split; [eapply record_names; eauto; apply in_map_iff; exists (n, u); auto|].
  eexists. split; [reflexivity|].
  destruct (_ && _); [left; auto|]. apply Dl_D. eapply record_field_D; eauto.
Qed.

(** ** strings and the whole *)
Lemma or_else_okR r k : okR D r -> okR D k -> okR D (or_else r k).
Proof. destruct r as [t|e]; auto. destruct e; auto. Qed.
Section All.
  Variables (sc : sched) (so : strings).
  (* dateutil raises Python's own exceptions *)
  Hypothesis Hso : forall s, match so_date so s with Ok _ => True | Raise e => real_exn e end.
  Lemma deltaparse_okR s : okR D (deltaparse so s).
  Proof.
    unfold deltaparse. destruct (words [] s) as [|v [|u [|? ?]]]; try exact I. destruct (so_float so v) as [[z|]|]; try exact I.
    eapply okR_bind with (Q := fun _ => True).
    - pose proof (normalize_errors u) as H. destruct (normalize_time_unit u); [exact I|]. destruct H; subst; exact I.
    - intros c _. destruct (_ && _); [apply from_numpy_okR; intros n X; inversion X|exact I].
  Qed.
  Lemma known_D c : In c KnownCTypes -> D c.
  Proof. left. now apply DM_ctype. Qed.
  Lemma string_D : D string_t.
  Proof. left. apply DM_string. unfold CanonicalEncoding. simpl; tauto. Qed.
  Lemma discover_str_okR s : okR D (discover_str so s).
  Proof.
    unfold discover_str. destruct s as [|c s]; [left; apply DM_null|].
    apply or_else_okR; [destruct (so_int _ _); [apply known_D; simpl; tauto|exact I]|].
    apply or_else_okR; [destruct (so_float _ _); [apply known_D; simpl; tauto|exact I]|].
    apply or_else_okR; [destruct (mem_str _ _); [apply known_D; simpl; tauto|exact I]|].
    apply or_else_okR; [apply deltaparse_okR|].
    apply or_else_okR; [destruct (so_time _ _); [left; apply DM_time|exact I]|].
    destruct (_ || _); [apply string_D|]. specialize (Hso (c :: s)).
    destruct (so_date so (c :: s)) as [[]|e]; [left; apply DM_date|left; apply DM_datetime|].
    destruct e; try exact Hso; apply string_D.
  Qed.
  Notation disc := (discover sc so).
  Lemma atom_okR v : match v with DSeq _ _ | DMap _ _ => False | _ => True end -> (forall n, KeyOf n v -> PN n) -> okR D (disc v).
  Proof.
    intros Hv HN. destruct v; try contradiction; cbn [discover]; try exact I.
      + left; apply DM_null.
      + apply known_D; simpl; tauto.
      + apply known_D; simpl; tauto.
      + apply known_D; simpl; tauto.
      + apply known_D; simpl; tauto.
      + apply discover_str_okR.
      + eapply okR_mono; [|apply mk_string_okR]. left; auto.
      + left; apply DM_datetime.
      + left; apply DM_date.
      + left; apply DM_time.
      + eapply okR_mono; [|apply mk_timedelta_okR]. left; auto.
      + apply discover_arr_okR. intros n Hn. apply HN. now constructor.
      + apply from_numpy_okR. intros n Hn. apply HN. now constructor.
  Qed.
End All.
End Names.

(** ** the whole, by induction on the value. [NV]: the allowed values *)
Section Values.
  Variables (PN : str -> Prop) (LF : ty -> Prop) (sc : sched) (so : strings) (NV : dval -> Prop).
  Hypothesis HLF : forall t, Known t -> LF t.
  Notation disc := (discover sc so).
  Notation D := (D PN LF).
  Notation okitem := (okitem PN LF).
  Hypothesis NV_seq : forall k l x, NV (DSeq k l) -> In x l -> NV x.
  Hypothesis NV_map : forall k l n x, NV (DMap k l) -> In (n, x) l -> PN n /\ NV x.
  Hypothesis NV_atom : forall v, match v with DSeq _ _ | DMap _ _ => False | _ => True end -> NV v -> okR D (disc v).
  Definition PD (v : dval) : Prop := NV v -> okR D (disc v).
  Definition QD (v : dval) : Prop := PD v /\
    match v with DSeq _ l => Forall PD l | DMap _ d => Forall (fun kv => PD (snd kv)) d | _ => True end.
  Lemma Forall_sort_keys {B} (Q : str * B -> Prop) l : Forall Q l -> Forall Q (sort_keys l).
  Proof.
    induction 1 as [|x l Hx _ IH]; [constructor|]. cbn [sort_keys fold_right]. fold (sort_keys l).
    revert IH. generalize (sort_keys l). induction l0 as [|y r IHr]; intro H; cbn [insert_key]; [auto|].
    destruct (str_leb _ _); [auto|]. constructor; [apply (Forall_inv H)|apply IHr, (Forall_inv_tail H)].
  Qed.
  Lemma seq_okD k l : NV (DSeq k l) -> Forall PD l -> Forall (okR D) (map disc l).
  Proof.
    intros HN H. rewrite Forall_forall in H. apply Forall_map, Forall_forall. intros x Hx. apply H; auto. eapply NV_seq; eauto.
  Qed.
  Lemma items_okitem k d : NV (DMap k d) -> Forall (fun kv => PD (snd kv)) d -> Forall okitem (map (fun kv => (fst kv, disc (snd kv))) d).
  Proof.
    intros HN H. rewrite Forall_forall in H. apply Forall_map, Forall_forall. intros [m x] Hx. split.
    - eapply NV_map; eauto.
    - apply (H _ Hx). eapply NV_map; eauto.
  Qed.
  Theorem discover_QD : forall v, QD v.
  Proof.
    apply dval_ind'.
    - intros v Hv. split; [|destruct v; auto; contradiction]. intro HN. apply NV_atom; auto.
    - intros k l HQ. assert (HP : Forall PD l) by (eapply Forall_impl; [|exact HQ]; intros ? [? _]; auto).
      split; [|exact HP]. intro HN. cbn [discover]. rewrite Forall_forall in HQ. apply (discover_seq_okR PN LF HLF).
      + eapply seq_okD; eauto.
      + intros r Hr. apply in_map_iff in Hr as [x [E Hx]]. specialize (HQ x Hx) as [_ HQ].
        assert (HNx : NV x) by (eapply NV_seq; eauto).
        destruct x; try discriminate. destruct k0; try discriminate; injection E as <-; eapply seq_okD; eauto.
      + intros d Hd. apply in_map_iff in Hd as [x [E Hx]]. specialize (HQ x Hx) as [_ HQ].
        assert (HNx : NV x) by (eapply NV_seq; eauto).
        destruct x; try discriminate. destruct k0; try discriminate; injection E as <-; eapply items_okitem; eauto.
    - intros k l HQ. assert (HP : Forall (fun kv => PD (snd kv)) l) by (eapply Forall_impl; [|exact HQ]; intros ? [? _]; auto).
      split; [|exact HP]. intro HN. cbn [discover]. pose proof (items_okitem k l HN HP) as HI.
      destruct k; apply (discover_items_okR PN LF); auto; apply Forall_sort_keys; auto.
  Qed.
  Theorem discover_okR v : NV v -> okR D (disc v).
  Proof. apply discover_QD. Qed.
End Values.
