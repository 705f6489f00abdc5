(** Proofs about the paths reported by assert_dshape_equal (C56). *)
From Coq Require Import Sorting.Permutation.
From Verif Require Import Base Types Lexer Printer Construct Parser Ops Preds Spec_WF Spec_Eq Spec_Ops Spec_Preds Report Spec_Report
  Proof_Eq Proof_WF Proof_Ops Proof_Preds Proof_Preds2 Proof_Preds3 Proof_Preds5.
Local Open Scope Z_scope.

Definition erase (o : outcome) : res unit :=
  match o with Pass => Ok tt | FailAt _ => Raise AssertErr | Other e => Raise e end.
Lemma erase_and o k : erase (andthen o k) = (let! _ := erase o in erase k).
Proof. destruct o; reflexivity. Qed.
Lemma erase_require b p : erase (require b p) = passert b.
Proof. destruct b; reflexivity. Qed.
Lemma erase_zip {A B} (f : nat -> A -> B -> outcome) (g : A -> B -> res unit) l : forall m k,
  (forall k x y, In x l -> In y m -> erase (f k x y) = g x y) -> erase (zip_at f k l m) = zipM g l m.
Proof.
  induction l as [|x l IH]; intros m k H; [reflexivity|]. destruct m as [|y m]; [reflexivity|].
  cbn [zip_at zipM]. rewrite erase_and, H by (left; auto). destruct (g x y) as [[]|e]; [|reflexivity]. cbn [bind].
  apply IH. intros; apply H; right; auto.
Qed.
Lemma pv_eq_ostr z w : pv_eq (pv_ostr z) (pv_ostr w) = ostr_eqb z w.
Proof. destruct z, w; reflexivity. Qed.
Lemma list_eqb_pv {A} (f : pv -> pv -> bool) (g : A -> A -> bool) (h : A -> pv) l m :
  (forall x y, f (h x) (h y) = g x y) -> list_eqb f (map h l) (map h m) = list_eqb g l m.
Proof. intro H. revert m. induction l as [|x l IH]; intros [|y m]; simpl; auto. rewrite H, IH. reflexivity. Qed.
Lemma pv_eq_lits c d : pv_eq (PvTup (map pv_lit c)) (PvTup (map pv_lit d)) = list_eqb lit_eqb c d.
Proof. unfold pv_eq. cbn [pvdepth pv_eqF]. apply list_eqb_pv. intros [|[]|] [|[]|]; reflexivity. Qed.
Lemma pv_eq_tys c d : pv_eq (PvTup (map PvTy c)) (PvTup (map PvTy d)) = list_eqb py_eq c d.
Proof. unfold pv_eq. cbn [pvdepth pv_eqF]. apply list_eqb_pv. intros; reflexivity. Qed.
Lemma pv_eq_bool b c : pv_eq (PvBool b) (PvBool c) = Bool.eqb b c.
Proof. destruct b, c; reflexivity. Qed.
Lemma req1 x : (let! _ := passert x in Ok tt) = passert x.
Proof. destruct x; reflexivity. Qed.
Lemma req2 x y : (let! _ := passert x in passert y) = passert (x && y).
Proof. destruct x; reflexivity. Qed.
Lemma erase_check_slots p a b : is_slotted a = true -> erase (check_slots_at p a b) = check_slots a b.
Proof.
  intro HS. unfold check_slots_at, check_slots, same_class, base_case_at, base_case.
  destruct (Nat.eqb (class_ix a) (class_ix b)) eqn:E; [|apply erase_require].
  apply Nat.eqb_eq in E.
  destruct a; try discriminate HS; destruct b; try discriminate E; try reflexivity.
  all: try (cbn [slot_names params slots_at info_eqb];
    rewrite ?erase_and, ?erase_require; cbn [erase]; rewrite ?req1, ?req2, ?pv_eq_ostr, ?pv_eq_lits, ?pv_eq_tys, ?pv_eq_bool, ?andb_assoc; reflexivity).
  - (* string *) destruct fixlen, fixlen0; cbn [slot_names params slots_at info_eqb pv_oint];
      rewrite ?erase_and, ?erase_require; cbn [erase]; rewrite ?req1, ?req2; reflexivity.
  - (* ellipsis *) destruct typevar as [s|], typevar0 as [u|]; try reflexivity.
    cbn [slot_names params slots_at info_eqb]. rewrite ?erase_and, ?erase_require; cbn [erase]. rewrite req1. reflexivity.
Qed.
Lemma erase_assert F n : forall p a b, erase (assert_atF n F p a b) = assert_eqF n F a b.
Proof.
  induction n as [|n IH]; intros p a b; [reflexivity|].
  assert (REST : is_slotted a && is_slotted b = true \/ is_slotted a && is_slotted b = false) by (destruct (_ && _); auto).
  assert (R : erase (if is_slotted a && is_slotted b then check_slots_at p a b else base_case_at p a b) =
              (if is_slotted a && is_slotted b then check_slots a b else base_case a b)).
  { destruct (is_slotted a) eqn:E; cbn [andb]; [|apply erase_require]. destruct (is_slotted b); [apply erase_check_slots; auto|apply erase_require]. }
  destruct a; destruct b; cbn [assert_atF assert_eqF]; try exact R; clear R REST.
  - destruct (check_tz F); [apply erase_check_slots; reflexivity|reflexivity].
  - destruct (check_tz F); [apply erase_check_slots; reflexivity|reflexivity].
  - destruct (check_timedelta_unit F); [apply erase_check_slots; reflexivity|reflexivity].
  - rewrite erase_and, erase_require. reflexivity.
  - rewrite erase_and. f_equal; [destruct (check_str_encoding F); [apply erase_require|reflexivity]|].
    destruct (check_str_fixlen F); [|reflexivity]. destruct (oZ_eqb _ _); [reflexivity|]. destruct fixlen, fixlen0; reflexivity.
  - rewrite erase_and, IH. f_equal. destruct (check_dim F); [|reflexivity].
    apply erase_zip. intros. apply erase_require.
  - apply IH.
  - rewrite !erase_and, erase_require, IH. rewrite (erase_zip _ (assert_eqF n F)) by (intros; apply IH). reflexivity.
  - rewrite erase_and, erase_require. erewrite erase_zip; [reflexivity|]. intros. rewrite erase_and, erase_require, IH. reflexivity.
  - rewrite erase_and, erase_require. erewrite erase_zip; [reflexivity|]. intros. apply IH.
Qed.

(** ** equality of slot values *)
Lemma pv_num_same x y a : pv_num x = Some a -> pv_num y = Some a -> Same x y.
Proof.
  destruct x as [| |z|s|b|], y as [| |w|u|c|]; cbn; intros E1 E2; try discriminate; injection E1 as <-; injection E2 as E2.
  - subst. constructor.
  - rewrite <- E2. constructor.
  - rewrite E2. constructor.
  - destruct b, c; try discriminate; constructor.
Qed.
Lemma pv_depth_pos v : (1 <= pvdepth v)%nat.
Proof. destruct v as [t| | | | |]; cbn [pvdepth]; try lia. destruct t; try lia; cbn [tsize]; lia. Qed.
Lemma Same_eqF n : forall x y, (pvdepth x < n)%nat -> Same x y -> pv_eqF n x y = true.
Proof.
  induction n as [|n IH]; intros x y Hn H; [lia|]. destruct H; cbn [pv_eqF pv_num]; auto.
  - cbn [pvdepth] in Hn. revert Hn. induction H as [|u v l m Huv H IHl]; intro Hn; [reflexivity|].
    cbn [list_eqb]. rewrite IH; [|cbn [fold_right] in Hn; lia|auto]. apply IHl. cbn [fold_right] in Hn. lia.
  - apply str_eqb_eq; auto.
  - apply Z.eqb_refl.
  - apply Z.eqb_refl.
  - apply Z.eqb_refl.
  - apply Z.eqb_refl.
Qed.
Lemma not_Same x y : pv_eq x y = false -> ~ Same x y.
Proof. intros H K. apply (Same_eqF (S (pvdepth x))) in K; [|lia]. unfold pv_eq in H. congruence. Qed.

Lemma require_fail b p q : require b p = FailAt q -> b = false /\ q = p.
Proof. destruct b; [discriminate|]. intro H; injection H as <-; auto. Qed.
Lemma and_fail o k q : andthen o k = FailAt q -> o = FailAt q \/ (o = Pass /\ k = FailAt q).
Proof. destruct o; simpl; auto; discriminate. Qed.
Lemma zip_fail {A B} (f : nat -> A -> B -> outcome) l : forall m k q, zip_at f k l m = FailAt q ->
  exists i x y, nth_error l i = Some x /\ nth_error m i = Some y /\ f (k + i)%nat x y = FailAt q.
Proof.
  induction l as [|x l IH]; intros m k q H; [discriminate|]. destruct m as [|y m]; [discriminate|].
  cbn [zip_at] in H. apply and_fail in H as [H|[_ H]].
  - exists 0%nat, x, y. rewrite Nat.add_0_r. auto.
  - apply IH in H as [i [u [v [H1 [H2 H3]]]]]. exists (S i), u, v. rewrite Nat.add_succ_r. auto.
Qed.

Definition Found (F : flags) (p q : list step) (a b : ty) : Prop :=
  exists r x y, q = p ++ r /\ Follow (PvTy a) r x /\ Follow (PvTy b) r y /\ ~ Same x y /\ Deep F r x y.
Definition Clock (a b : ty) : Prop :=
  exists r z w, (Follow (PvTy a) r (PvTy (DateTimeT z)) /\ Follow (PvTy b) r (PvTy (TimeT w))) \/
                (Follow (PvTy a) r (PvTy (TimeT z)) /\ Follow (PvTy b) r (PvTy (DateTimeT w))).

Lemma found_here F p a b : py_eq a b = false -> Incomparable F (PvTy a) (PvTy b) -> Found F p p a b.
Proof.
  intros E I. exists [], (PvTy a), (PvTy b). rewrite app_nil_r.
  split; [auto|]. split; [constructor|]. split; [constructor|]. split; [|right; auto].
  intro H. inversion H; congruence.
Qed.
Lemma found_slot F p a b s x y : Get (PvTy a) s x -> Get (PvTy b) s y -> IsSlot s -> pv_eq x y = false -> Found F p (p ++ [s]) a b.
Proof.
  intros H1 H2 H3 H4. exists [s], x, y. split; [auto|].
  split; [econstructor; [exact H1|constructor]|]. split; [econstructor; [exact H2|constructor]|].
  split; [apply not_Same; auto|]. left. exists [], s. auto.
Qed.
Lemma Follow_app v p w q x : Follow v p w -> Follow w q x -> Follow v (p ++ q) x.
Proof. induction 1; simpl; auto. intro. econstructor; eauto. Qed.
Lemma found_in F p st q a b c d : st <> [] -> Follow (PvTy a) st (PvTy c) -> Follow (PvTy b) st (PvTy d) ->
  Found F (p ++ st) q c d -> Found F p q a b.
Proof.
  intros _ Ha Hb [r [x [y [-> [H1 [H2 [H3 H4]]]]]]]. exists (st ++ r), x, y. rewrite app_assoc.
  split; [auto|]. split; [eapply Follow_app; eauto|]. split; [eapply Follow_app; eauto|]. split; [auto|].
  destruct H4 as [[q' [s [-> Hs]]]|H4]; [left|right; auto]. exists (st ++ q'), s. rewrite app_assoc. auto.
Qed.
Lemma clock_in st a b c d : Follow (PvTy a) st (PvTy c) -> Follow (PvTy b) st (PvTy d) -> Clock c d -> Clock a b.
Proof.
  intros Ha Hb [r [z [w [[H1 H2]|[H1 H2]]]]]; exists (st ++ r), z, w; [left|right]; split; eapply Follow_app; eauto.
Qed.

Lemma check_slots_found F p q a b : is_slotted a = true -> class_ix a = class_ix b ->
  (forall t, a <> OptionT t) -> (forall l, a <> TupleT l) -> (forall u t, a <> UnitsT u t) ->
  check_slots_at p a b = FailAt q -> Found F p q a b.
Proof.
  intros HS E NO NT NU H. unfold check_slots_at, same_class in H. rewrite E, Nat.eqb_refl in H.
  destruct a; try discriminate HS; destruct b; try discriminate E; cbn [slot_names params slots_at] in H; try discriminate H;
    try (exfalso; eapply NO; reflexivity); try (exfalso; eapply NT; reflexivity); try (exfalso; eapply NU; reflexivity).
  all: try (repeat match goal with
    | H : andthen _ _ = FailAt _ |- _ => apply and_fail in H as [H|[_ H]]
    | H : require _ _ = FailAt _ |- _ => apply require_fail in H as [H ->]
    | H : Pass = FailAt _ |- _ => discriminate H
    end; (eapply found_slot; [constructor|constructor|repeat split; discriminate|exact H]); fail).
  destruct typevar as [s|], typevar0 as [u|]; cbn [slot_names params slots_at] in H;
  repeat match goal with
    | H : andthen _ _ = FailAt _ |- _ => apply and_fail in H as [H|[_ H]]
    | H : require _ _ = FailAt _ |- _ => apply require_fail in H as [H ->]
    | H : Pass = FailAt _ |- _ => discriminate H
    end; (eapply found_slot; [constructor|constructor|repeat split; discriminate|exact H]).
Qed.
Lemma incomparable_class F a b : class_ix a <> class_ix b -> Incomparable F (PvTy a) (PvTy b).
Proof. intro H. destruct a; destruct b; try exact H; exfalso; apply H; reflexivity. Qed.
Lemma rest_found F p q a b : ~ OwnComparison a \/ class_ix a <> class_ix b ->
  (if is_slotted a && is_slotted b then check_slots_at p a b else base_case_at p a b) = FailAt q -> Found F p q a b.
Proof.
  intros HO H. destruct (Nat.eq_dec (class_ix a) (class_ix b)) as [E|E].
  - destruct HO as [HO|HO]; [|contradiction].
    destruct (is_slotted a) eqn:S1; cbn [andb] in H.
    + assert (S2 : is_slotted b = true) by (destruct a; destruct b; try discriminate E; auto). rewrite S2 in H.
      apply check_slots_found; auto; intros; intro X; subst; apply HO; exact I.
    + destruct a; try discriminate S1; try (exfalso; apply HO; exact I). destruct b; try discriminate E.
      apply require_fail in H as [H _]. discriminate.
  - assert (H' : base_case_at p a b = FailAt q).
    { destruct (_ && _); auto. unfold check_slots_at, same_class in H. apply Nat.eqb_neq in E. rewrite E in H. auto. }
    apply require_fail in H' as [H1 ->]. apply found_here; auto. apply incomparable_class; auto.
Qed.
Lemma record_ne fs gs : map fst fs <> map fst gs -> py_eq (RecordT fs) (RecordT gs) = false.
Proof.
  intro H. destruct (py_eq _ _) eqn:E; auto. exfalso. apply H. rewrite py_eq_unfold in E. cbn [shape measure info_eqb list_eqb andb] in E.
  clear H. revert gs E. induction fs as [|f fs IH]; intros [|g gs] E; try discriminate; auto.
  cbn [list_eqb] in E. apply andb_true_iff in E as [E1 E2]. unfold field_eqb in E1. apply andb_true_iff in E1 as [E1 _].
  apply str_eqb_eq in E1. simpl. f_equal; auto.
Qed.
Lemma list_eqb_length {A} (f : A -> A -> bool) l : forall m, list_eqb f l m = true -> length l = length m.
Proof. induction l as [|x l IH]; intros [|y m] H; try discriminate; auto. simpl in H. apply andb_true_iff in H as [_ H]. simpl; auto. Qed.
Lemma insert_ext f g l m : fst f = fst g -> map fst l = map fst m -> map fst (insert_field f l) = map fst (insert_field g m).
Proof.
  intro E. revert m. induction l as [|x l IH]; intros [|y m] H; try discriminate; [simpl; congruence|].
  injection H as H1 H2. cbn [insert_field]. rewrite E, H1. destruct (str_leb _ _); simpl; [congruence|]. f_equal; auto.
Qed.
Lemma sort_ext l : forall m, map fst l = map fst m -> map fst (sort_fields l) = map fst (sort_fields m).
Proof.
  induction l as [|x l IH]; intros [|y m] H; try discriminate; [reflexivity|]. injection H as H1 H2.
  simpl. apply insert_ext; auto.
Qed.
Lemma sort_names fs gs : NoDup (map fst fs) -> Permutation (map fst fs) (map fst gs) ->
  map fst (sort_fields fs) = map fst (sort_fields gs).
Proof.
  intros ND HP. set (d := fun n : str => (n, NullT)).
  assert (D : forall l : list (str * ty), map fst (map d (map fst l)) = map fst l) by (intro l; rewrite !map_map; reflexivity).
  rewrite (sort_ext fs (map d (map fst fs))), (sort_ext gs (map d (map fst gs))) by (symmetry; apply D).
  f_equal. apply sort_eq; [apply Permutation_map; auto|]. rewrite D. auto.
Qed.
Lemma last_split (l : list ty) : l <> [] -> l = removelast l ++ [last l NullT].
Proof. apply app_removelast_last. Qed.
Lemma WF_array_nonempty n ps : WF (DataShapeT n ps) -> ps <> [].
Proof. intro W. destruct (W _ (Occurs_here _)) as [ds [x [-> _]]]. destruct ds; discriminate. Qed.

Lemma assert_found F n : forall p q a b, WF a -> WF b -> assert_atF n F p a b = FailAt q ->
  (q = [] /\ Clock a b) \/ Found F p q a b.
Proof.
  induction n as [|n IH]; intros p q a b Wa Wb H; [discriminate|].
  assert (WA : forall c, In c (children a) -> WF c) by (intros c Hc; eapply WF_child; [|exact Hc]; assumption).
  assert (WB : forall c, In c (children b) -> WF c) by (intros c Hc; eapply WF_child; [|exact Hc]; assumption).
  assert (STEP : forall st c d, st <> [] -> In c (children a) -> In d (children b) ->
    Follow (PvTy a) st (PvTy c) -> Follow (PvTy b) st (PvTy d) -> assert_atF n F (p ++ st) c d = FailAt q ->
    (q = [] /\ Clock a b) \/ Found F p q a b).
  { intros st c d Hs Hc Hd Fa Fb HH. apply IH in HH as [[-> HC]|HF]; auto.
    - left. split; auto. eapply clock_in; eauto.
    - right. eapply found_in; eauto. }
  assert (R : (~ OwnComparison a \/ class_ix a <> class_ix b) ->
    (if is_slotted a && is_slotted b then check_slots_at p a b else base_case_at p a b) = FailAt q ->
    (q = [] /\ Clock a b) \/ Found F p q a b) by (intros; right; eapply rest_found; eauto).
  destruct a; destruct b; cbn [assert_atF] in H;
    try (apply R; [first [left; intros []; fail|right; discriminate]|exact H]); clear R.
  - (* time, time *) right. destruct (check_tz F); [|discriminate]. apply check_slots_found; auto; discriminate.
  - left. apply require_fail in H as [_ ->]. split; auto. exists [], tz, tz0. right. split; constructor.
  - left. apply require_fail in H as [_ ->]. split; auto. exists [], tz, tz0. left. split; constructor.
  - right. destruct (check_tz F); [|discriminate]. apply check_slots_found; auto; discriminate.
  - right. destruct (check_timedelta_unit F); [|discriminate]. apply check_slots_found; auto; discriminate.
  - (* units *) right. apply and_fail in H as [H|[_ H]]; [|discriminate]. apply require_fail in H as [H ->].
    eapply found_slot; [constructor|constructor|repeat split; discriminate|exact H].
  - (* strings *) right. apply and_fail in H as [H|[_ H]].
    + destruct (check_str_encoding F); [|discriminate]. apply require_fail in H as [H ->].
      eapply found_slot; [constructor|constructor|repeat split; discriminate|exact H].
    + destruct (check_str_fixlen F); [|discriminate]. destruct (oZ_eqb _ _) eqn:E; [discriminate|].
      destruct fixlen as [f|], fixlen0 as [g|]; try discriminate. injection H as <-.
      eapply found_slot; [constructor|constructor|repeat split; discriminate|exact E].
  - (* arrays *)
    pose proof (last_split _ (WF_array_nonempty _ _ Wa)) as Ea. pose proof (last_split _ (WF_array_nonempty _ _ Wb)) as Eb.
    cbn [shape measure] in H. apply and_fail in H as [H|[_ H]].
    + right. destruct (check_dim F); [|discriminate]. apply zip_fail in H as [i [x [y [Hx [Hy H]]]]].
      apply require_fail in H as [H ->]. unfold py_ne in H. rewrite negb_involutive in H. cbn [Nat.add].
      eapply found_slot; [rewrite Ea; constructor; exact Hx|rewrite Eb; constructor; exact Hy|exact I|exact H].
    + eapply STEP; [| | | | |exact H]; [discriminate|cbn; rewrite Ea; rewrite !last_last; apply in_app_iff; right; left; auto
        |cbn; rewrite Eb; rewrite !last_last; apply in_app_iff; right; left; auto|rewrite Ea|rewrite Eb];
        (rewrite ?last_last; econstructor; [constructor|constructor]).
  - (* option *) eapply STEP; [| | | | |exact H]; [discriminate|left; auto|left; auto| |]; (econstructor; constructor).
  - (* function *)
    pose proof (last_split _ (WF_fun_nonempty _ Wa)) as Ea. pose proof (last_split _ (WF_fun_nonempty _ Wb)) as Eb.
    apply and_fail in H as [H|[_ H]]; [|apply and_fail in H as [H|[_ H]]].
    + right. apply require_fail in H as [H ->]. apply Nat.eqb_neq in H.
      assert (N : length parameters <> length parameters0).
      { rewrite Ea, Eb, !app_length. simpl. lia. }
      apply found_here; [|exact N]. destruct (py_eq _ _) eqn:E; auto. exfalso. apply N.
      rewrite py_eq_unfold in E. cbn [shape measure info_eqb list_eqb andb] in E. eapply list_eqb_length; eauto.
    + apply zip_fail in H as [i [x [y [Hx [Hy H]]]]]. cbn [Nat.add] in H.
      eapply STEP; [| | | | |exact H]; [discriminate|cbn; rewrite Ea; apply in_app_iff; left; eapply nth_error_In; eauto
        |cbn; rewrite Eb; apply in_app_iff; left; eapply nth_error_In; eauto|rewrite Ea|rewrite Eb];
        (econstructor; [constructor; eassumption|constructor]).
    + eapply STEP; [| | | | |exact H]; [discriminate|cbn; rewrite Ea; rewrite !last_last; apply in_app_iff; right; left; auto
        |cbn; rewrite Eb; rewrite !last_last; apply in_app_iff; right; left; auto|rewrite Ea|rewrite Eb];
        (rewrite ?last_last; econstructor; [constructor|constructor]).
  - (* record *)
    destruct (Wa _ (Occurs_here _)) as [ND1 _].
    set (srt := fun l => if check_record_order F then l else sort_fields l) in *.
    assert (IN : forall l (f : str * ty), In f (srt l) -> In f l).
    { intros l f Hf. unfold srt in Hf. destruct (check_record_order F); auto. eapply Permutation_in; [apply sort_perm|exact Hf]. }
    assert (NM : map fst (srt fields) <> map fst (srt fields0) -> Found F p p (RecordT fields) (RecordT fields0)).
    { intro HN. unfold srt in HN. apply found_here.
      - apply record_ne. intro X. apply HN. destruct (check_record_order F); auto. apply sort_ext; auto.
      - cbn [Incomparable]. destruct (check_record_order F); auto. intro X. apply HN. apply sort_names; auto. }
    apply and_fail in H as [H|[_ H]].
    + right. apply require_fail in H as [H ->]. apply Nat.eqb_neq in H. apply NM. intro X. apply H.
      apply (f_equal (@length _)) in X. rewrite !map_length in X. unfold srt in X.
      destruct (check_record_order F); auto. rewrite !(Permutation_length (sort_perm _)) in X. auto.
    + apply zip_fail in H as [i [f [g [Hf [Hg H]]]]]. apply and_fail in H as [H|[H1 H]].
      * right. apply require_fail in H as [H ->]. apply NM. intro X.
        assert (fst f = fst g).
        { pose proof (map_nth_error fst i _ Hf) as Q1. pose proof (map_nth_error fst i _ Hg) as Q2. fold (srt fields) in Q1. fold (srt fields0) in Q2. rewrite X in Q1. congruence. }
        apply str_eqb_eq in H0. congruence.
      * assert (EN : fst f = fst g). { destruct (str_eqb _ _) eqn:E; [apply str_eqb_eq; auto|discriminate]. }
        apply nth_error_In, IN in Hf. apply nth_error_In, IN in Hg.
        pose proof Hf as Hf'. pose proof Hg as Hg'. rewrite (surjective_pairing f) in Hf'. rewrite (surjective_pairing g), <- EN in Hg'.
        eapply STEP; [| | | | |exact H]; [discriminate|apply in_map; auto|apply in_map; auto| |].
        -- econstructor; [apply Get_field; exact Hf'|constructor].
        -- econstructor; [apply Get_field; exact Hg'|constructor].
  - (* tuple *)
    apply and_fail in H as [H|[_ H]].
    + right. apply require_fail in H as [H ->]. apply Nat.eqb_neq in H. apply found_here; [|exact H].
      destruct (py_eq _ _) eqn:E; auto. exfalso. apply H.
      rewrite py_eq_unfold in E. cbn [shape measure info_eqb list_eqb andb] in E. eapply list_eqb_length; eauto.
    + apply zip_fail in H as [i [x [y [Hx [Hy H]]]]]. cbn [Nat.add] in H.
      eapply STEP; [| | | | |exact H]; [discriminate|eapply nth_error_In; eauto|eapply nth_error_In; eauto| |];
        (econstructor; [apply Get_dshapes|econstructor; [apply Get_index, map_nth_error; eassumption|constructor]]).
Qed.
(** ** a path leads to one value only *)
Definition distinct (t : ty) : Prop := forall fs, Occurs (RecordT fs) t -> NoDup (map fst fs).
Inductive GoodV : pv -> Prop :=
| GV_ty t : distinct t -> GoodV (PvTy t)
| GV_tup l : (forall x, In x l -> GoodV x) -> GoodV (PvTup l)
| GV_int z : GoodV (PvInt z)
| GV_str s : GoodV (PvStr s)
| GV_bool b : GoodV (PvBool b)
| GV_none : GoodV PvNone.
Lemma WF_distinct t : WF t -> distinct t.
Proof. intros W fs H. apply (W _ H). Qed.
Lemma distinct_child t c : distinct t -> In c (children t) -> distinct c.
Proof. intros D I fs H. apply D. eapply Occurs_in; eauto. Qed.
Lemma Get_good v s w : GoodV v -> Get v s w -> GoodV w.
Proof.
  intros G H. destruct H; try match goal with |- GoodV (pv_ostr ?z) => destruct z; constructor | |- GoodV (pv_oint ?z) => destruct z; constructor | |- GoodV (_ _) => constructor | |- GoodV PvNone => constructor end.
  all: try (inversion G as [? D| | | | |]; subst;
    match goal with |- distinct _ => eapply distinct_child; [exact D|]; cbn [children];
         first [apply in_app_iff; left; eapply nth_error_In; eassumption
               |apply in_app_iff; right; left; reflexivity
               |eapply nth_error_In; eassumption
               |left; reflexivity|right; left; reflexivity] end; fail).
  - inversion G as [? D| | | | |]; subst. match goal with A : In (?n, ?u) _ |- distinct ?u => apply (in_map snd) in A; cbn [snd] in A; eapply distinct_child; [exact D|exact A] end.
  - inversion G as [|? D| | | |]; subst. apply D. eapply nth_error_In; eauto.
  - inversion G as [? D| | | | |]; subst. intros x Hx. apply in_map_iff in Hx as [t [<- Ht]]. constructor. eapply distinct_child; eauto.
  - intros fs H. inversion H as [|? c Hc]. destruct Hc.
  - intros x Hx. apply in_map_iff in Hx as [[] [<- Ht]]; constructor.
  - inversion G as [? D| | | | |]; subst. intros x Hx. apply in_map_iff in Hx as [t [<- Ht]]. constructor. eapply distinct_child; eauto.
Qed.
Lemma names_fun (fs : list (str * ty)) n t u : NoDup (map fst fs) -> In (n, t) fs -> In (n, u) fs -> t = u.
Proof.
  induction fs as [|[m x] fs IH]; intros D A B; [destruct A|]. simpl in *. inversion D as [|? ? N D']; subst.
  destruct A as [X|X]; destruct B as [Y|Y]; try congruence; auto.
  - exfalso. injection X as -> ->. apply N. apply (in_map fst) in Y. exact Y.
  - exfalso. injection Y as -> ->. apply N. apply (in_map fst) in X. exact X.
Qed.
Lemma Get_unique v s w w' : GoodV v -> Get v s w -> Get v s w' -> w = w'.
Proof.
  intros G H. revert G. remember v as v0 eqn:E0. remember s as s0 eqn:E1.
  destruct H; intros G K; inversion K; subst; try reflexivity; try discriminate; try congruence;
    try match goal with H : _ ++ [_] = _ ++ [_] |- _ => apply app_inj_tail in H as [-> ->] end; try congruence.
  inversion G as [? D| | | | |]; subst. specialize (D _ (Occurs_here _)). f_equal.
  match goal with A : In (_, ?t) _, B : In (_, ?u) _ |- ?t = ?u => eapply names_fun; [exact D|exact A|exact B] end.
Qed.
Lemma Follow_unique p t x y : WF t -> Follow (PvTy t) p x -> Follow (PvTy t) p y -> x = y.
Proof.
  intro W. assert (G : GoodV (PvTy t)) by (constructor; apply WF_distinct; auto). revert G. generalize (PvTy t) as v. clear.
  intros v G H. revert y. induction H as [v|v s w p x H1 H2 IH]; intros y K; inversion K; subst; auto.
  apply IH; [eapply Get_good; eauto|]. match goal with K1 : Get v s ?w' |- _ => match w' with w => fail 1 | _ => rewrite (Get_unique _ _ _ _ G H1 K1) end end. auto.
Qed.
