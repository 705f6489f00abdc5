(** Proofs for C64, continued: refusals. *)
From Verif Require Import Base Types Lexer Printer Construct Preds Numpy Spec_WF Spec_Time Spec_Numpy Spec_NpConv
  Proof_Eq Proof_WF Proof_Numpy Proof_Time Proof_Constr Proof_Attrs Proof_NpConv Proof_NpConv2.
Local Open Scope Z_scope.

Lemma mapM_raise {A B} (f : A -> res B) l e : mapM f l = Raise e -> exists x, In x l /\ f x = Raise e.
Proof.
  induction l as [|x l IH]; [discriminate|]. rewrite mapM_cons. destruct (f x) as [y|e'] eqn:E; cbn [bind].
  - destruct (mapM f l) as [r|e']; cbn [bind]; [discriminate|]. intro H. injection H as ->. destruct IH as [z [Hz K]]; auto.
    exists z. split; [right|]; auto.
  - intro H. injection H as ->. exists x. split; [left|]; auto.
Qed.
Definition Refusal (t : ty) (e : exn) : Prop :=
  e = TypeErr \/ (e = ValueErr /\ exists fs, Occurs (RecordT fs) t /\ NameClash fs)
  \/ (e = NotModelled /\ exists u, Occurs u t /\ OutOfModel u).
Lemma Refusal_up t u e : Occurs u t -> Refusal u e -> Refusal t e.
Proof.
  intros O [H|[[H [fs [H1 H2]]]|[H [x [H1 H2]]]]]; [left; auto|right; left|right; right]; split; auto.
  - exists fs. split; auto. eapply Occurs_trans; eauto.
  - exists x. split; auto. eapply Occurs_trans; eauto.
Qed.
Lemma Occurs_measure t : Occurs (measure t) t.
Proof.
  destruct t; try apply Occurs_here. cbn [measure].
  destruct (last_app_or parameters (DataShapeT name parameters)) as [->|(l & x & E & El & _)]; [apply Occurs_here|].
  rewrite El. eapply Occurs_in; [|apply Occurs_here]. cbn [children]. rewrite E. apply in_or_app. right. left. reflexivity.
Qed.
Lemma np_dim_raise t e : np_dim t = Raise e -> e = TypeErr.
Proof. destruct t; cbn; congruence. Qed.
Lemma shaped_raise t e : (forall m e', (tsize m <= tsize t)%nat -> npmeth m = Raise e' -> Refusal m e') ->
  to_numpy t = Raise e -> Refusal t e.
Proof.
  intro IH. unfold to_numpy, to_numpy_with.
  assert (P : forall u, tsize u = tsize t -> (let! x := npmeth u in Ok (@nil Z, x)) = Raise e -> Refusal u e).
  { intros u Hs. destruct (npmeth u) as [x|e'] eqn:E; cbn [bind]; [discriminate|]. intro H. injection H as ->. apply IH; auto. lia. }
  destruct t; try (apply P; reflexivity).
  destruct (last_app_or parameters (DataShapeT name parameters)) as [->|(l & x & E & El & Er)].
  - cbn. intro H. injection H as <-. left. reflexivity.
  - rewrite El, Er. destruct (mapM np_dim l) as [s|e'] eqn:E1; cbn [bind].
    + destruct (npmeth x) as [y|e'] eqn:E2; cbn [bind]; [discriminate|]. intro H. injection H as ->. subst parameters.
      apply (Refusal_up _ x); [eapply Occurs_in; [|apply Occurs_here]; apply in_or_app; right; left; reflexivity|].
      apply IH; auto. rewrite tsize_DataShape, lsize_app. simpl. lia.
    + intro H. injection H as ->. apply mapM_raise in E1 as [y [_ Hy]]. apply np_dim_raise in Hy. left. exact Hy.
Qed.
Lemma inner_raise t e : (forall m e', (tsize m <= tsize t)%nat -> npmeth m = Raise e' -> Refusal m e') ->
  to_numpy_dtype t = Raise e -> Refusal t e.
Proof.
  intro IH. unfold to_numpy_dtype, to_numpy_dtype_with. pose proof (measure_size t) as M.
  assert (Q : forall u, (tsize u <= tsize t)%nat -> Occurs u t ->
    (let! r := to_numpy_with npmeth u in Ok (snd r)) = Raise e -> Refusal t e).
  { intros u Hu O. destruct (to_numpy_with npmeth u) as [[s x]|e'] eqn:E; cbn [bind]; [discriminate|]. intro H. injection H as ->.
    apply (Refusal_up _ u); auto. apply shaped_raise; auto. intros m e' Hm. apply IH. lia. }
  pose proof (Occurs_measure t) as O.
  destruct (measure t) as [| | | | | | | | | | | | | | | | | |k v| | | |] eqn:E; try (rewrite E; apply Q; [lia|exact O]).
  rewrite tsize_Map in M. apply Q; [pose proof (measure_size k); lia|].
  eapply Occurs_trans; [apply Occurs_measure|]. eapply Occurs_trans; [|exact O].
  eapply Occurs_in; [left; reflexivity|apply Occurs_here].
Qed.
Lemma inner_raise_map k v e : (forall m e', (tsize m <= tsize k)%nat -> npmeth m = Raise e' -> Refusal m e') ->
  to_numpy_dtype (MapT k v) = Raise e -> Refusal (MapT k v) e.
Proof.
  intro IH. unfold to_numpy_dtype, to_numpy_dtype_with. cbn [measure].
  destruct (to_numpy_with npmeth (measure k)) as [[s x]|e'] eqn:E; cbn [bind]; [discriminate|]. intro H. injection H as ->.
  apply (Refusal_up _ (measure k)).
  - eapply Occurs_trans; [apply Occurs_measure|]. eapply Occurs_in; [left; reflexivity|apply Occurs_here].
  - apply shaped_raise; auto. intros m e' Hm. apply IH. pose proof (measure_size k). lia.
Qed.
Lemma ctype_unknown n e : ctype_to_numpy n = Raise e ->
  e = NotModelled /\ ~ In n (map (fun x => fst (fst x)) np_scalars ++ map fst np_aliases).
Proof.
  intro H. split.
  - unfold ctype_to_numpy in H. destruct (assoc _ ctype_np); congruence.
  - intro K. assert (exists d, ctype_to_numpy n = Ok d) as [d Hd]; [|congruence].
    apply in_app_or in K as [K|K]; apply in_map_iff in K as [x [<- K]].
    + destruct x as [[m d] t]. exists d. apply ctype_iff. left. eauto.
    + destruct x as [m d]. exists d. apply ctype_iff. auto.
Qed.
Lemma meth_raise : forall n t e, (tsize t < n)%nat -> npmeth t = Raise e -> Refusal t e.
Proof.
  induction n as [|n IH]; intros t e Hn; [lia|].
  assert (INN : forall u e', (tsize u < tsize t)%nat -> to_numpy_dtype u = Raise e' -> Refusal u e').
  { intros u d' Hu. apply inner_raise. intros m d0 Hm. apply IH. lia. }
  destruct t; try (intro H; injection H as <-; left; reflexivity); try (intro H; discriminate H).
  - change (npmeth (CType name itemsize alignment)) with (ctype_to_numpy name). intro H. apply ctype_unknown in H as [-> H].
    right. right. split; auto. exists (CType name itemsize alignment). split; [apply Occurs_here|now constructor].
  - change (npmeth (StringT fixlen encoding)) with (string_to_numpy fixlen encoding). unfold string_to_numpy.
    destruct fixlen as [k|]; [|discriminate]. destruct (k =? 0); [discriminate|].
    destruct ((k <? 0) || (np_maxlen <? k)) eqn:E; [|destruct (str_eqb _ _); discriminate]. intro H. injection H as <-.
    right. right. split; auto. exists (StringT (Some k) encoding). split; [apply Occurs_here|]. constructor.
    apply orb_true_iff in E. rewrite !Z.ltb_lt in E. exact E.
  - change (npmeth (DecimalT precision scale)) with (decimal_to_numpy precision scale). unfold decimal_to_numpy.
    repeat match goal with |- (if ?b then _ else _) = _ -> _ => destruct b end; try discriminate. intro H; injection H as <-. left; auto.
  - rewrite npmeth_Option. rewrite tsize_Option in Hn. destruct t; try (intro H; injection H as <-; left; reflexivity); intro H; discriminate H.
  - rewrite npmeth_Map. rewrite tsize_Map in Hn. apply inner_raise_map. intros m e' Hm. apply IH. lia.
  - rewrite npmeth_Record. rewrite tsize_Record in *. destruct (mapM _ fields) as [ds|e'] eqn:E; cbn [bind].
    + unfold mk_struct. destruct (nodup_str _) eqn:EN; [discriminate|]. intro H. injection H as <-. right. left. split; auto.
      exists fields. split; [apply Occurs_here|]. exists (np_names 0 (map fst fields)). split; [now apply names_iff|].
      intro K. apply nodup_str_NoDup in K. congruence.
    + intro H. injection H as ->. apply mapM_raise in E as [f [Hf Ef]]. apply (Refusal_up _ (snd f)).
      * eapply Occurs_in; [|apply Occurs_here]. cbn [children]. now apply in_map.
      * apply INN; auto. apply fsize_In in Hf. lia.
  - rewrite npmeth_Tuple. rewrite tsize_Tuple in *. destruct (mapM _ dshapes) as [ds|e'] eqn:E; cbn [bind].
    + unfold mk_struct. rewrite np_names_id by apply np_names_f.
      assert (K : nodup_str (map (fun i => 102%N :: z2s (Z.of_nat i)) (seq 0 (length dshapes))) = true)
        by (apply nodup_str_NoDup; apply f_names_nodup).
      rewrite K. discriminate.
    + intro H. injection H as ->. apply mapM_raise in E as [f [Hf Ef]]. apply (Refusal_up _ f).
      * eapply Occurs_in; [|apply Occurs_here]. exact Hf.
      * apply INN; auto. apply lsize_In in Hf. lia.
Qed.

Theorem to_numpy_refusal t e : to_numpy t = Raise e -> Refusal t e.
Proof. apply shaped_raise. intros m e' _. apply (meth_raise (S (tsize m))). lia. Qed.
Theorem to_numpy_dtype_refusal t e : to_numpy_dtype t = Raise e -> Refusal t e.
Proof. apply inner_raise. intros m e' _. apply (meth_raise (S (tsize m))). lia. Qed.

Definition FromRefusal (d : npdt) (e : exn) : Prop :=
  e = ValueErr \/ e = IndexErr \/ (e = NotImplErr /\ exists x, PartOf x d /\ NoType x).
Lemma timedelta_raise u e : mk_timedelta u = Raise e -> e = ValueErr \/ e = IndexErr.
Proof.
  unfold mk_timedelta. pose proof (normalize_errors u) as N. destruct (normalize_time_unit u); cbn [bind]; [discriminate|].
  intro H. injection H as ->. exact N.
Qed.
Lemma mk_fixed_raise z e : mk_fixed z = Raise e -> e = ValueErr.
Proof. unfold mk_fixed. destruct (z <? 0); congruence. Qed.
Lemma np_array_raise shp m e : is_DataShape m = false -> may_be_measure m = true -> np_array shp m = Raise e -> e = ValueErr.
Proof.
  intros D M H. destruct shp as [|z shp]; [discriminate|]. unfold np_array in H.
  destruct (mapM mk_fixed (z :: shp)) as [dims|e'] eqn:E; cbn [bind] in H.
  - assert (Ok (array_of (z :: shp) m) = Raise e); [|discriminate].
    rewrite <- (np_array_ok (z :: shp) m); auto; [unfold np_array; rewrite E; exact H|].
    apply mapM_Ok_Forall2 in E. clear - E. induction E as [|a b l l' Hab _ IH]; constructor; auto.
    unfold mk_fixed in Hab. destruct (Z.ltb_spec a 0); [discriminate|lia].
  - injection H as ->. apply mapM_raise in E as [x [_ Hx]]. eapply mk_fixed_raise; eauto.
Qed.
Lemma measure_refusal : forall d e, np_measure d = Raise e -> FromRefusal d e.
Proof.
  induction d as [d N1 N2|d IH|fs IH] using npdt_ind'; intros e H.
  - destruct d; try (exfalso; now apply (N1 d)); try (exfalso; now apply (N2 fields)); clear N1 N2; try discriminate H;
      try (destruct s; discriminate H).
    + destruct s; try discriminate H. injection H as <-. right. right. split; auto. exists (NFloat F128). split; constructor.
    + destruct s; try discriminate H. injection H as <-. right. right. split; auto. exists (NComplex C256). split; constructor.
    + destruct (Z.eq_dec n 0) as [->|Hn]; [discriminate H|].
      change (np_measure (NVoid n)) with (ctype_from_numpy_dtype (NVoid n)) in H. rewrite ctype_void in H by auto. injection H as <-.
      right. right. split; auto. exists (NVoid n). split; constructor. auto.
    + change (np_measure (NDatetime unit num)) with (ctype_from_numpy_dtype (NDatetime unit num)) in H. rewrite ctype_datetime in H.
      destruct (mem_str _ _); discriminate.
    + change (np_measure (NTimedelta unit num)) with (ctype_from_numpy_dtype (NTimedelta unit num)) in H. rewrite ctype_timedelta in H.
      apply timedelta_raise in H. destruct H; [left|right; left]; auto.
  - change (np_measure (NSwap d)) with (np_measure d) in H. destruct (IH e H) as [K|[K|[K [x [K1 K2]]]]]; [left|right; left|right; right]; auto.
    split; auto. exists x. split; auto. now constructor.
  - destruct fs as [|f fs]; [discriminate H|]. rewrite np_measure_struct in H. set (l := f :: fs) in *. clearbody l.
    destruct (mapM np_field l) as [rec|e'] eqn:E; cbn [bind] in H.
    + left. assert (exists gs, rec = map (fun g => (fst g, PTy (snd g))) gs) as [gs ->].
      { apply mapM_Ok_Forall2 in E. clear - E. induction E as [|[n [shp b]] r l rec Hr _ [gs ->]]; [exists []; auto|].
        cbn in Hr. destruct (np_measure b) as [m|]; cbn [bind] in Hr; [|discriminate].
        destruct (np_array shp m) as [t|]; cbn [bind] in Hr; [|discriminate]. injection Hr as <-. exists ((n, t) :: gs). reflexivity. }
      unfold mk_record in H.
      assert (Q : mapM (fun f : str * parg => launder no_dsh (snd f)) (map (fun g : str * ty => (fst g, PTy (snd g))) gs)
                  = Ok (map (fun g => launder_ty (snd g)) gs)).
      { clear. induction gs as [|g gs IH]; auto. cbn [map]. rewrite mapM_cons, IH. reflexivity. }
      rewrite Q in H. cbn [bind] in H. destruct (nodup_str _); congruence.
    + injection H as ->. apply mapM_raise in E as [[n [shp b]] [Hf Ef]]. rewrite Forall_forall in IH. pose proof (IH _ Hf e) as IHf. cbn [snd] in IHf.
      cbn [np_field] in Ef. destruct (np_measure b) as [m|e'] eqn:Eb; cbn [bind] in Ef.
      * apply measure_iff in Eb. destruct (from_plain _ _ Eb). destruct (np_array shp m) as [t|e'] eqn:Ea; cbn [bind] in Ef; [discriminate|].
        injection Ef as ->. left. eapply np_array_raise; eauto.
      * injection Ef as ->. destruct (IHf eq_refl) as [K|[K|[K [x [K1 K2]]]]]; [left|right; left|right; right]; auto.
        split; auto. exists x. split; auto. econstructor; eauto.
Qed.
Theorem from_numpy_refusal shp d e : from_numpy shp d = Raise e -> FromRefusal d e.
Proof.
  unfold from_numpy. destruct (np_measure d) as [m|e'] eqn:E; cbn [bind].
  - apply measure_iff in E. destruct (from_plain _ _ E). intro H1. left. eapply np_array_raise; eauto.
  - intro H. injection H as ->. now apply measure_refusal.
Qed.

Lemma ctype_swap d x : Native d x -> ctype_from_numpy_dtype d = ctype_from_numpy_dtype x.
Proof.
  intro H. induction H as [d x H IH|]; auto.
  assert (N : np_name d = np_name x) by (clear IH; induction H; auto).
  cbn [ctype_from_numpy_dtype np_name]. destruct (assoc (np_name d) type_registry) as [t|] eqn:E; [|exact IH].
  rewrite N in E. inversion H; subst; cbn [ctype_from_numpy_dtype]; cbn [ctype_from_numpy_dtype] in IH.
  - rewrite <- IH. cbn [np_name] in N. cbn [ctype_from_numpy_dtype np_name]. rewrite N, E. reflexivity.
  - destruct x; cbn [ctype_from_numpy_dtype]; rewrite E; reflexivity.
Qed.
Lemma z2s_head z c r : z2s z = c :: r -> N.eqb c 105 = false.
Proof.
  destruct z as [|p|p]; cbn [z2s]; intro H; try (injection H as <- _; reflexivity).
  destruct (Proof_Print.n2s_spec p) as [_ [_ F]]. rewrite H in F. inversion F; subst. unfold is_digit, in_range in *.
  apply N.eqb_neq. intros ->. discriminate.
Qed.
Lemma z2s_bytes_name n : n <> 0 -> assoc (np_name (NBytes n)) type_registry = None /\ assoc (np_name (NUnicode n)) type_registry = None.
Proof.
  intro H. cbn [np_name]. destruct (Z.eqb_spec n 0); [contradiction|].
  pose proof (z2s_nonempty (8 * n)) as E. pose proof (z2s_nonempty (32 * n)) as E'.
  destruct (z2s (8 * n)) as [|c r]; [congruence|]. destruct (z2s (32 * n)) as [|c' r'] eqn:F; [congruence|].
  split; [reflexivity|]. apply z2s_head in F.
  cbn -[N.eqb]. rewrite F. reflexivity.
Qed.

Theorem ctype_from_spec d x t : Native d x ->
  (ctype_from_numpy_dtype d = Ok t <-> (x = NBytes 0 /\ t = BytesT) \/ (x <> NBytes 0 /\ FromDtype x t)).
Proof.
  intro N. rewrite (ctype_swap _ _ N). assert (A : atomic x) by (clear t; induction N; [auto|split; auto]). clear N d. destruct A as [N1 N2].
  assert (G : (forall n, x <> NBytes n) -> (forall n, x <> NUnicode n) -> ctype_from_numpy_dtype x = np_measure x).
  { intros B1 B2. destruct x; try reflexivity; [exfalso; now apply (B1 n)|exfalso; now apply (B2 n)|exfalso; now apply (N1 x)|].
    exfalso. now apply (N2 fields). }
  destruct x; try (rewrite G by (intros; discriminate); rewrite measure_iff; split; [intro H; right; split; [discriminate|exact H]|intros [[H _]|[_ H]]; [discriminate H|exact H]]).
  - destruct (Z.eq_dec n 0) as [->|Hn].
    + split; [intro H; vm_compute in H; injection H as <-; left; auto|]. intros [[_ ->]|[H _]]; [reflexivity|congruence].
    + cbn [ctype_from_numpy_dtype]. rewrite (proj1 (z2s_bytes_name n Hn)).
      change (mk_string (Some n) (Some $"ascii")) with (np_measure (NBytes n)). rewrite measure_iff.
      split; [intro H; right; split; [congruence|exact H]|intros [[H _]|[_ H]]; [congruence|exact H]].
  - assert (E : ctype_from_numpy_dtype (NUnicode n) = np_measure (NUnicode n)).
    { destruct (Z.eq_dec n 0) as [->|Hn]; [reflexivity|]. cbn [ctype_from_numpy_dtype]. rewrite (proj2 (z2s_bytes_name n Hn)). reflexivity. }
    rewrite E, measure_iff. split; [intro H; right; split; [discriminate|exact H]|intros [[H _]|[_ H]]; [discriminate H|exact H]].
Qed.
