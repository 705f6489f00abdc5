(** C39 (histories) and C41. *)
From Verif Require Import Base Types Lexer Construct Parser Ops Preds Spec_WF Spec_Eq Spec_Ops Spec_Preds Proof_Eq Proof_WF Proof_Ops Proof_Ops2 Proof_Preds Proof_Preds2.
Local Open Scope Z_scope.

(** ** C39 *)
Lemma reg_run_cons {V} (o : reg_op V) l r : reg_run V (o :: l) r =
  reg_run V l (match reg_step V o r with Ok r' => r' | Raise _ => r end).
Proof. reflexivity. Qed.
Lemma reg_run_keep {V} (k : str) (v : V) l : forall r,
  (forall o, In o l -> match o with OpRegister _ _ _ | OpCType _ _ _ => True | OpClass _ k' _ ab => ab = false -> k' <> k
   | OpDataShape _ nm _ => nm <> Some k \/ k = [] end) ->
  reg_lookup V k r = Ok v -> reg_lookup V k (reg_run V l r) = Ok v.
Proof.
  induction l as [|o l IH]; intros r HO HL; [exact HL|]. rewrite reg_run_cons. apply IH.
  - intros o' Ho'. apply HO. right; auto.
  - destruct (reg_step V o r) as [r'|e] eqn:E; auto. eapply reg_step_keep; eauto. apply HO. left; auto.
Qed.

(** ** C41 *)
Lemma list_eqb_Forall2 {A} (f : A -> A -> bool) l m : list_eqb f l m = true <-> Forall2 (fun x y => f x y = true) l m.
Proof.
  revert m; induction l as [|x l IH]; intros [|y m]; simpl; split; intro H; try discriminate; try constructor; try (inversion H; fail); auto.
  - apply andb_true_iff in H; tauto.
  - apply IH. apply andb_true_iff in H; tauto.
  - inversion H; subst. apply andb_true_iff. split; auto. apply IH; auto.
Qed.
Lemma zipM_F2 {A B} (f : A -> B -> res unit) (R : A -> B -> Prop) l m :
  Forall2 R l m -> (forall x y, In x l -> In y m -> R x y -> f x y = Ok tt) -> zipM f l m = Ok tt.
Proof.
  induction 1 as [|x y l m Hxy HF IH]; intro H; simpl; auto. rewrite H by (auto; left; auto). cbn [bind].
  apply IH. intros; apply H; auto; right; auto.
Qed.
Lemma zipM_inv {A B} (f : A -> B -> res unit) l m :
  zipM f l m = Ok tt -> length l = length m -> Forall2 (fun x y => f x y = Ok tt) l m.
Proof.
  revert m; induction l as [|x l IH]; intros [|y m] H HL; try discriminate; [constructor|].
  simpl in H. destruct (f x y) as [[]|e] eqn:E; [|discriminate]. constructor; auto.
Qed.
Lemma Forall2_removelast {A B} (R : A -> B -> Prop) l m : Forall2 R l m -> Forall2 R (removelast l) (removelast m).
Proof.
  induction 1 as [|x y l m H HF IH]; [constructor|]. destruct HF; [constructor|]. constructor; auto.
Qed.
Lemma Forall2_last {A} (R : A -> A -> Prop) l m d e : Forall2 R l m -> l <> [] -> R (last l d) (last m e).
Proof.
  induction 1 as [|x y l m H HF IH]; [contradiction|]. intros _. destruct HF; [auto|]. apply IH. discriminate.
Qed.
Lemma Forall2_snoc_intro {A} (R : A -> A -> Prop) l m d e : l <> [] -> m <> [] ->
  Forall2 R (removelast l) (removelast m) -> R (last l d) (last m e) -> Forall2 R l m.
Proof.
  intros Hl Hm H1 H2. rewrite (app_removelast_last d Hl), (app_removelast_last e Hm).
  apply Forall2_app; auto.
Qed.
Lemma passert_ok b : passert b = Ok tt <-> b = true.
Proof. destruct b; simpl; split; congruence. Qed.

(** sorting two lists whose names agree position by position keeps them aligned *)
Lemma insert_F2 (R : ty -> ty -> Prop) f g l m : fst f = fst g -> R (snd f) (snd g) ->
  Forall2 (fun f g => fst f = fst g /\ R (snd f) (snd g)) l m ->
  Forall2 (fun f g => fst f = fst g /\ R (snd f) (snd g)) (insert_field f l) (insert_field g m).
Proof.
  intros H1 H2. induction 1 as [|x y l m [Hx Hy] HF IH]; simpl; [repeat constructor; auto|].
  rewrite H1, Hx. destruct (str_leb (fst g) (fst y)); repeat constructor; auto.
Qed.
Lemma sort_F2 (R : ty -> ty -> Prop) l m :
  Forall2 (fun f g => fst f = fst g /\ R (snd f) (snd g)) l m ->
  Forall2 (fun f g => fst f = fst g /\ R (snd f) (snd g)) (sort_fields l) (sort_fields m).
Proof. induction 1 as [|x y l m [Hx Hy] HF IH]; simpl; [constructor|]. apply insert_F2; auto. Qed.
Lemma In_insert x f l : In x (insert_field f l) <-> x = f \/ In x l.
Proof.
  induction l as [|g l IH]; simpl; [intuition|]. destruct (str_leb (fst f) (fst g)); simpl; [intuition|].
  rewrite IH. intuition.
Qed.
Lemma In_sort x l : In x (sort_fields l) <-> In x l.
Proof. induction l as [|f l IH]; simpl; [tauto|]. rewrite In_insert, IH. intuition. Qed.

Lemma NoUnits_child t c : NoUnits t -> In c (children t) -> NoUnits c.
Proof. intros H Hc u x Ho. apply (H u x). eapply Occurs_in; eauto. Qed.
Lemma WF_child t c : WF t -> In c (children t) -> WF c.
Proof. intros H Hc. eapply Occurs_WF; [exact H|]. eapply Occurs_in; eauto. constructor. Qed.
Lemma WF_nonempty n ps : WF (DataShapeT n ps) -> ps <> [].
Proof. intros H. destruct (H _ (Occurs_here _)) as [d [m [-> _]]]. destruct d; discriminate. Qed.
Lemma WF_fun_nonempty ps : WF (FunctionT ps) -> ps <> [].
Proof. intros H. exact (H _ (Occurs_here _)). Qed.
Lemma child_size t c : In c (children t) -> (tsize c < tsize t)%nat.
Proof.
  destruct t; cbn [children]; try contradiction; try (intros [<-|[]]; simpl; lia).
  1,2,5,6: intro H; apply lsize_In in H; rewrite ?tsize_DataShape, ?tsize_Function, ?tsize_Tuple, ?tsize_TypeSet; lia.
  - intros [<-|[<-|[]]]; rewrite tsize_Map; lia.
  - intro H. apply in_map_iff in H. destruct H as [f [<- Hf]]. apply fsize_In in Hf. rewrite tsize_Record. lia.
Qed.
Lemma last_in {A} (l : list A) d : l <> [] -> In (last l d) l.
Proof. intro H. rewrite (app_removelast_last d H) at 2. apply in_or_app. right; left; auto. Qed.

(** [info() ==] implies [==] for anything but an array *)
Lemma info_py_eq a b : is_DataShape a = false -> info_eqb py_eq a b = true -> py_eq a b = true.
Proof.
  intros HD H. rewrite py_eq_unfold. destruct a; try discriminate HD; destruct b; try discriminate H;
    try (cbn [shape measure list_eqb]; rewrite H; reflexivity); try exact H.
  - cbn [measure]. rewrite H. cbn [shape]. cbn [info_eqb] in H. rewrite andb_true_r.
    apply py_eq_split in H. destruct H as [[v [-> ->]]|[[ts [n [us [-> [-> H]]]]]|[_ [H _]]]]; auto.
  - cbn [info_eqb] in H. apply andb_true_iff in H. rewrite andb_comm. apply andb_true_iff. tauto.
Qed.
(** two objects of the same class other than arrays *)
Lemma py_eq_info a b : py_eq a b = true -> is_DataShape a = false -> is_DataShape b = false ->
  info_eqb py_eq a b = true.
Proof.
  intros H HA HB. apply py_eq_split in H. destruct H as [[v [-> ->]]|[[ts [n [us [-> [-> H]]]]]|[_ [_ H]]]].
  - simpl. apply Z.eqb_refl.
  - simpl. rewrite H. apply ostr_eqb_eq. reflexivity.
  - destruct a; try discriminate HA; destruct b; try discriminate HB; exact H.
Qed.
Lemma info_class a b f : info_eqb f a b = true -> class_ix a = class_ix b.
Proof. destruct a, b; simpl; intro H; try discriminate H; reflexivity. Qed.

Definition Arr (a b : ty) : Prop :=
  exists n m ps qs, a = DataShapeT n ps /\ b = DataShapeT m qs /\ Forall2 (fun x y => py_eq x y = true) ps qs.
Lemma assert_step_leaf a b : py_eq a b = true -> same_class a b = true -> is_DataShape a = false ->
  (check_slots a b = Ok tt /\ base_case a b = Ok tt).
Proof.
  intros H HC HD. unfold check_slots, base_case. rewrite HC, H. split; [|reflexivity]. apply passert_ok.
  apply py_eq_info; auto. unfold same_class in HC. apply Nat.eqb_eq in HC. destruct a, b; try discriminate HC; auto.
Qed.
Lemma assert_base a b : py_eq a b = true -> same_class a b = false -> check_slots a b = Ok tt /\ base_case a b = Ok tt.
Proof. intros H HC. unfold check_slots, base_case. rewrite HC, H. auto. Qed.
Lemma assert_complete F n : forall a b, (tsize a < n)%nat -> WF a -> WF b -> NoUnits a ->
  (py_eq a b = true \/ Arr a b) -> assert_eqF n F a b = Ok tt.
Proof.
  induction n as [|n IH]; intros a b Hn Wa Wb HU HE; [lia|].
  assert (HDS : forall na ps nb qs, a = DataShapeT na ps -> b = DataShapeT nb qs -> assert_eqF (S n) F a b = Ok tt).
  { intros na ps nb qs -> ->. cbn [assert_eqF].
    pose proof (WF_nonempty _ _ Wa) as Np. pose proof (WF_nonempty _ _ Wb) as Nq.
    assert (Hm : In (last ps (DataShapeT na ps)) ps) by (apply last_in; auto).
    assert (Hm' : In (last qs (DataShapeT nb qs)) qs) by (apply last_in; auto).
    assert (G : Forall2 (fun x y => py_eq x y = true) (removelast ps) (removelast qs) /\
       (py_eq (last ps (DataShapeT na ps)) (last qs (DataShapeT nb qs)) = true \/
        Arr (last ps (DataShapeT na ps)) (last qs (DataShapeT nb qs)))).
    { destruct HE as [HE|[? [? [? [? [E1 [E2 HE]]]]]]].
      - rewrite py_eq_unfold in HE. cbn [shape measure] in HE. apply andb_true_iff in HE. destruct HE as [H1 H2].
        apply list_eqb_Forall2 in H1. split; auto.
        destruct (is_DataShape (last ps (DataShapeT na ps))) eqn:ED; [|left; apply info_py_eq; auto].
        destruct (last ps (DataShapeT na ps)) as [| | | | | | | | | | | | | | |n1 l1| | | | | | |] eqn:EL; try discriminate.
        destruct (last qs (DataShapeT nb qs)) as [| | | | | | | | | | | | | | |n2 l2| | | | | | |] eqn:EL2; try discriminate.
        cbn [info_eqb] in H2. apply list_eqb_Forall2 in H2. right. exists n1, n2, l1, l2. auto.
      - injection E1 as <- <-. injection E2 as <- <-. split; [apply Forall2_removelast; auto|].
        left. eapply Forall2_last in HE; eauto. }
    destruct G as [G1 G2]. cbn [shape measure].
    replace (if check_dim F then _ else _) with (Ok tt).
    2: { destruct (check_dim F); auto. symmetry. eapply zipM_F2; [exact G1|].
         intros x y _ _ E. unfold py_ne. rewrite E. reflexivity. }
    cbn [bind]. apply IH; auto.
    - rewrite tsize_DataShape in Hn. apply lsize_In in Hm. lia.
    - eapply WF_child; [exact Wa|]. exact Hm.
    - eapply WF_child; [exact Wb|]. exact Hm'.
    - eapply NoUnits_child; [exact HU|]. exact Hm. }
  destruct (is_DataShape a && is_DataShape b) eqn:ED.
  { apply andb_true_iff in ED. destruct a; try (destruct ED; discriminate). destruct b; try (destruct ED; discriminate).
    eapply HDS; reflexivity. }
  assert (HP : py_eq a b = true).
  { destruct HE as [|[? [? [? [? [-> [-> _]]]]]]]; [auto|discriminate ED]. }
  clear HE HDS.
  destruct (same_class a b) eqn:HC.
  - assert (HD : is_DataShape a = false).
    { unfold same_class in HC. apply Nat.eqb_eq in HC. destruct a; auto. destruct b; try discriminate. }
    assert (HD' : is_DataShape b = false).
    { unfold same_class in HC. apply Nat.eqb_eq in HC. destruct b; auto. destruct a; try discriminate. }
    pose proof (py_eq_info a b HP HD HD') as HI.
    destruct (assert_step_leaf a b HP HC HD) as [HS HB].
    unfold same_class in HC. apply Nat.eqb_eq in HC.
    destruct a; destruct b; try discriminate HC; cbn [assert_eqF is_slotted andb]; try discriminate HD; try exact HS; try exact HB.
    + destruct (check_tz F); [exact HS|reflexivity].
    + destruct (check_tz F); [exact HS|reflexivity].
    + destruct (check_timedelta_unit F); [exact HS|reflexivity].
    + exfalso. eapply HU. apply Occurs_here.
    + cbn [info_eqb] in HI. apply andb_true_iff in HI. destruct HI as [H1 H2]. rewrite H1, H2. cbn [passert].
      destruct (check_str_encoding F), (check_str_fixlen F); reflexivity.
    + (* Option *) cbn [info_eqb] in HI. apply IH; auto.
      * rewrite tsize_Option in Hn. lia.
      * eapply WF_child; [exact Wa|left; auto].
      * eapply WF_child; [exact Wb|left; auto].
      * eapply NoUnits_child; [exact HU|left; auto].
    + (* Function *) cbn [info_eqb] in HI. apply list_eqb_Forall2 in HI.
      pose proof (Forall2_removelast _ _ _ HI) as HR. rewrite (Forall2_len _ _ _ HR), Nat.eqb_refl. cbn [passert bind].
      assert (IHc : forall x y, In x parameters -> In y parameters0 -> py_eq x y = true -> assert_eqF n F x y = Ok tt).
      { intros x y Hx Hy E. apply IH; auto.
        - rewrite tsize_Function in Hn. apply lsize_In in Hx. lia.
        - eapply WF_child; [exact Wa|]. exact Hx.
        - eapply WF_child; [exact Wb|]. exact Hy.
        - eapply NoUnits_child; [exact HU|]. exact Hx. }
      erewrite zipM_F2; [|exact HR|]; [cbn [bind]|].
      * pose proof (WF_fun_nonempty _ Wa) as N1. pose proof (WF_fun_nonempty _ Wb) as N2.
        apply IHc; try (apply last_in; auto). eapply Forall2_last in HI; eauto.
      * intros x y Hx Hy E. apply IHc; auto using in_removelast.
    + (* Record *) cbn [info_eqb] in HI. apply list_eqb_Forall2 in HI. rewrite (Forall2_len _ _ _ HI), Nat.eqb_refl. cbn [passert bind].
      assert (IHc : forall x y, In x fields -> In y fields0 -> fst x = fst y /\ py_eq (snd x) (snd y) = true ->
         (let! _ := passert (str_eqb (fst x) (fst y)) in assert_eqF n F (snd x) (snd y)) = Ok tt).
      { intros x y Hx Hy [E1 E2]. rewrite E1, str_eqb_refl. cbn [passert bind]. apply IH; auto.
        - rewrite tsize_Record in Hn. apply fsize_In in Hx. lia.
        - eapply WF_child; [exact Wa|]. apply in_map; exact Hx.
        - eapply WF_child; [exact Wb|]. apply in_map; exact Hy.
        - eapply NoUnits_child; [exact HU|]. apply in_map; exact Hx. }
      assert (HF : Forall2 (fun f g => fst f = fst g /\ py_eq (snd f) (snd g) = true) fields fields0).
      { clear -HI. induction HI as [|x y l m H ? IH]; constructor; auto. unfold field_eqb in H. apply andb_true_iff in H.
        destruct H as [H1 H2]. apply str_eqb_eq in H1. auto. }
      destruct (check_record_order F).
      * eapply zipM_F2; [exact HF|]. exact IHc.
      * eapply zipM_F2; [apply (sort_F2 (fun a b => py_eq a b = true)); exact HF|].
        intros x y Hx Hy HH. exact (IHc x y (proj1 (In_sort _ _) Hx) (proj1 (In_sort _ _) Hy) HH).
    + (* Tuple *) cbn [info_eqb] in HI. apply list_eqb_Forall2 in HI. rewrite (Forall2_len _ _ _ HI), Nat.eqb_refl. cbn [passert bind].
      eapply zipM_F2; [exact HI|]. intros x y Hx Hy E. apply IH; auto.
      * rewrite tsize_Tuple in Hn. apply lsize_In in Hx. lia.
      * eapply WF_child; [exact Wa|]. exact Hx.
      * eapply WF_child; [exact Wb|]. exact Hy.
      * eapply NoUnits_child; [exact HU|]. exact Hx.
  - destruct (assert_base a b HP HC) as [HS HB].
    destruct a; destruct b; try discriminate HC; try discriminate ED; cbn [assert_eqF is_slotted andb]; auto.
Qed.

Lemma FlatArrays_child t c : FlatArrays t -> In c (children t) -> FlatArrays c.
Proof. intros H Hc n ps Ho. apply (H n ps). eapply Occurs_in; eauto. Qed.
Lemma py_eq_intro a b : plain_measure a = true -> Forall2 (fun x y => py_eq x y = true) (shape a) (shape b) ->
  info_eqb py_eq (measure a) (measure b) = true -> py_eq a b = true.
Proof.
  intros HP H1 H2. rewrite py_eq_unfold. apply list_eqb_Forall2 in H1. destruct a; try discriminate HP; rewrite H1, H2; reflexivity.
Qed.
Lemma check_slots_eq a b : is_DataShape a = false -> check_slots a b = Ok tt -> py_eq a b = true.
Proof.
  intros HD. unfold check_slots, base_case. destruct (same_class a b); intro H; apply passert_ok in H; auto.
  apply info_py_eq; auto.
Qed.
Lemma base_case_eq a b : base_case a b = Ok tt -> py_eq a b = true.
Proof. intro H. apply passert_ok in H. exact H. Qed.
Lemma assert_sound n : forall a b, (tsize a < n)%nat -> WF a -> WF b -> FlatArrays a -> FlatArrays b -> SameRank a b ->
  assert_eqF n default_flags a b = Ok tt -> py_eq a b = true.
Proof.
  induction n as [|n IH]; intros a b Hn Wa Wb Fa Fb HR HE; [lia|].
  destruct a; destruct b; cbn [assert_eqF is_slotted andb default_flags check_tz check_dim check_timedelta_unit check_str_encoding check_str_fixlen check_record_order] in HE;
    try (apply check_slots_eq in HE; [exact HE|reflexivity]); try (apply base_case_eq in HE; exact HE).
  - (* Units *) destruct (passert _); discriminate HE.
  - (* String *) destruct (str_eqb encoding encoding0) eqn:E1; [|discriminate]. cbn [passert bind] in HE.
    destruct (oZ_eqb fixlen fixlen0) eqn:E2; [|destruct fixlen, fixlen0; discriminate].
    apply info_py_eq; auto. cbn [info_eqb]. rewrite E1, E2. reflexivity.
  - (* DataShape *)
    inversion HR as [n1 n2 ds es x y HL HR' Ea Eb| | | | |? ? H|? ? H]; subst; [|exfalso; eapply H; reflexivity|exfalso; apply H; reflexivity].
    cbn [shape measure] in HE. rewrite !removelast_last, !last_last in HE.
    destruct (zipM _ ds es) as [[]|] eqn:EZ; [|discriminate]. cbn [bind] in HE.
    apply zipM_inv in EZ; auto.
    assert (Hx : In x (ds ++ [x])) by (apply in_or_app; right; left; auto).
    assert (Hy : In y (es ++ [y])) by (apply in_or_app; right; left; auto).
    assert (Exy : py_eq x y = true).
    { apply IH; auto.
      - rewrite tsize_DataShape in Hn. apply lsize_In in Hx. lia.
      - eapply WF_child; [exact Wa|exact Hx].
      - eapply WF_child; [exact Wb|exact Hy].
      - eapply FlatArrays_child; [exact Fa|exact Hx].
      - eapply FlatArrays_child; [exact Fb|exact Hy]. }
    assert (Dx : is_DataShape x = false).
    { pose proof (Fa _ _ (Occurs_here _)) as H. rewrite last_last in H. destruct x; auto. exfalso. apply H. eexists _, _; reflexivity. }
    assert (Dy : is_DataShape y = false).
    { pose proof (Fb _ _ (Occurs_here _)) as H. rewrite last_last in H. destruct y; auto. exfalso. apply H. eexists _, _; reflexivity. }
    apply py_eq_intro; auto; cbn [shape measure].
    + rewrite !removelast_last. clear -EZ. induction EZ as [|u v l m H ? IH]; constructor; auto.
      apply passert_ok in H. unfold py_ne in H. rewrite Bool.negb_involutive in H. exact H.
    + rewrite !last_last. apply py_eq_info; auto.
  - (* Option *)
    inversion HR as [|? ? HR'| | | |? ? H1 H|? ? H]; subst; [|exfalso; eapply H; reflexivity|exfalso; apply H; reflexivity].
    apply info_py_eq; auto. cbn [info_eqb]. apply IH; auto.
    + rewrite tsize_Option in Hn. lia.
    + eapply WF_child; [exact Wa|left; auto].
    + eapply WF_child; [exact Wb|left; auto].
    + eapply FlatArrays_child; [exact Fa|left; auto].
    + eapply FlatArrays_child; [exact Fb|left; auto].
  - (* Function *)
    inversion HR as [| | | |? ? HR'|? ? H1 H2 H3 H4 H|? ? H]; subst; [|exfalso; eapply H; reflexivity|exfalso; apply H; reflexivity].
    pose proof (WF_fun_nonempty _ Wa) as N1. pose proof (WF_fun_nonempty _ Wb) as N2.
    destruct (Nat.eqb (length (removelast parameters)) (length (removelast parameters0))) eqn:EL; [|discriminate].
    apply Nat.eqb_eq in EL. cbn [passert bind] in HE.
    destruct (zipM _ (removelast parameters) (removelast parameters0)) as [[]|] eqn:EZ; [|discriminate]. cbn [bind] in HE.
    apply zipM_inv in EZ; auto. apply info_py_eq; auto. cbn [info_eqb]. apply list_eqb_Forall2.
    assert (HAll : Forall2 (fun x y => assert_eqF n default_flags x y = Ok tt) parameters parameters0).
    { eapply Forall2_snoc_intro; eauto. }
    assert (IHc : forall x y, In x parameters -> In y parameters0 -> SameRank x y ->
       assert_eqF n default_flags x y = Ok tt -> py_eq x y = true).
    { intros x y Hx Hy HS HO. apply IH; auto.
      - rewrite tsize_Function in Hn. apply lsize_In in Hx. lia.
      - eapply WF_child; [exact Wa|exact Hx].
      - eapply WF_child; [exact Wb|exact Hy].
      - eapply FlatArrays_child; [exact Fa|exact Hx].
      - eapply FlatArrays_child; [exact Fb|exact Hy]. }
    clear -HAll HR' IHc. revert HR' IHc. induction HAll as [|x y l m H HF IH]; intros HR' IHc; constructor.
    + apply IHc; try (left; auto); auto. inversion HR'; auto.
    + apply IH; [inversion HR'; auto|]. intros; apply IHc; auto; right; auto.
  - (* Record *)
    inversion HR as [| |? ? HR'| | |? ? H1 H2 H|? ? H]; subst; [|exfalso; eapply H; reflexivity|exfalso; apply H; reflexivity].
    destruct (Nat.eqb (length fields) (length fields0)) eqn:EL; [|discriminate].
    apply Nat.eqb_eq in EL. cbn [passert bind] in HE. apply zipM_inv in HE; auto.
    apply info_py_eq; auto. cbn [info_eqb]. apply list_eqb_Forall2.
    assert (IHc : forall x y, In x fields -> In y fields0 -> SameRank (snd x) (snd y) ->
       assert_eqF n default_flags (snd x) (snd y) = Ok tt -> py_eq (snd x) (snd y) = true).
    { intros x y Hx Hy HS HO. apply IH; auto.
      - rewrite tsize_Record in Hn. apply fsize_In in Hx. lia.
      - eapply WF_child; [exact Wa|apply in_map; exact Hx].
      - eapply WF_child; [exact Wb|apply in_map; exact Hy].
      - eapply FlatArrays_child; [exact Fa|apply in_map; exact Hx].
      - eapply FlatArrays_child; [exact Fb|apply in_map; exact Hy]. }
    clear -HE HR' IHc. revert HR' IHc. induction HE as [|x y l m H HF IH]; intros HR' IHc; constructor.
    + unfold field_eqb. destruct (str_eqb (fst x) (fst y)); [|discriminate]. cbn [passert bind] in H.
      apply IHc; try (left; auto); auto. inversion HR'; auto.
    + apply IH; [inversion HR'; auto|]. intros; apply IHc; auto; right; auto.
  - (* Tuple *)
    inversion HR as [| | |? ? HR'| |? ? H1 H2 H3 H|? ? H]; subst; [|exfalso; eapply H; reflexivity|exfalso; apply H; reflexivity].
    destruct (Nat.eqb (length dshapes) (length dshapes0)) eqn:EL; [|discriminate].
    apply Nat.eqb_eq in EL. cbn [passert bind] in HE. apply zipM_inv in HE; auto.
    apply info_py_eq; auto. cbn [info_eqb]. apply list_eqb_Forall2.
    assert (IHc : forall x y, In x dshapes -> In y dshapes0 -> SameRank x y ->
       assert_eqF n default_flags x y = Ok tt -> py_eq x y = true).
    { intros x y Hx Hy HS HO. apply IH; auto.
      - rewrite tsize_Tuple in Hn. apply lsize_In in Hx. lia.
      - eapply WF_child; [exact Wa|exact Hx].
      - eapply WF_child; [exact Wb|exact Hy].
      - eapply FlatArrays_child; [exact Fa|exact Hx].
      - eapply FlatArrays_child; [exact Fb|exact Hy]. }
    clear -HE HR' IHc. revert HR' IHc. induction HE as [|x y l m H HF IH]; intros HR' IHc; constructor.
    + apply IHc; try (left; auto); auto. inversion HR'; auto.
    + apply IH; [inversion HR'; auto|]. intros; apply IHc; auto; right; auto.
Qed.

(** relaxing a check never makes an accepted pair rejected *)
Lemma zipM_mono {A B} (f g : A -> B -> res unit) l : forall m,
  (forall x y, In x l -> In y m -> f x y = Ok tt -> g x y = Ok tt) -> zipM f l m = Ok tt -> zipM g l m = Ok tt.
Proof.
  induction l as [|x l IH]; intros [|y m] H; simpl; auto.
  destruct (f x y) as [[]|] eqn:E; [|discriminate]. rewrite H by (auto; left; auto). cbn [bind]. apply IH.
  intros; apply H; auto; right; auto.
Qed.
Lemma assert_relax F n : forall a b, assert_eqF n default_flags a b = Ok tt -> assert_eqF n F a b = Ok tt.
Proof.
  induction n as [|n IH]; intros a b HE; [discriminate|].
  destruct a; destruct b; cbn [assert_eqF is_slotted andb default_flags check_tz check_dim check_timedelta_unit check_str_encoding check_str_fixlen check_record_order] in HE |- *; auto;
    try (match goal with |- context [if ?c then _ else _] => destruct c; auto end; fail).
  - destruct (str_eqb encoding encoding0); [|discriminate]. cbn [passert bind] in HE.
    destruct (check_str_encoding F), (check_str_fixlen F); auto.
  - destruct (zipM _ _ _) as [[]|] eqn:EZ in HE; [|discriminate]. cbn [bind] in HE.
    destruct (check_dim F); [rewrite EZ|]; cbn [bind]; auto.
  - destruct (passert _) as [[]|]; [|discriminate]. cbn [bind] in *.
    destruct (zipM _ _ _) as [[]|] eqn:EZ in HE; [|discriminate]. cbn [bind] in HE.
    rewrite (zipM_mono _ (assert_eqF n F) _ _ (fun x y _ _ => IH x y) EZ). cbn [bind]. auto.
  - destruct (Nat.eqb (length fields) (length fields0)) eqn:EL; [|discriminate]. cbn [passert bind] in *.
    apply Nat.eqb_eq in EL. apply zipM_inv in HE; auto.
    assert (G : Forall2 (fun f g => fst f = fst g /\ assert_eqF n default_flags (snd f) (snd g) = Ok tt) fields fields0).
    { clear -HE. induction HE as [|x y l m H HF IH]; constructor; auto. destruct (str_eqb (fst x) (fst y)) eqn:E; [|discriminate].
      apply str_eqb_eq in E. split; auto. }
    assert (C : forall x y : str * ty, fst x = fst y /\ assert_eqF n default_flags (snd x) (snd y) = Ok tt ->
       (let! _ := passert (str_eqb (fst x) (fst y)) in assert_eqF n F (snd x) (snd y)) = Ok tt).
    { intros x y [E1 E2]. rewrite E1, str_eqb_refl. cbn [passert bind]. auto. }
    destruct (check_record_order F).
    + eapply zipM_F2; [exact G|]. intros; apply C; auto.
    + eapply zipM_F2; [apply (sort_F2 (fun a b => assert_eqF n default_flags a b = Ok tt)); exact G|]. intros; apply C; auto.
  - destruct (passert _) as [[]|]; [|discriminate]. cbn [bind] in *.
    rewrite (zipM_mono _ (assert_eqF n F) _ _ (fun x y _ _ => IH x y) HE). reflexivity.
Qed.
