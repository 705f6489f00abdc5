(** assert_dshape_equal exactly. *)
From Coq Require Import Sorting.Permutation.
From Verif Require Import Base Types Lexer Construct Parser Ops Preds Spec_WF Spec_Eq Spec_Ops Spec_Preds
  Proof_Eq Proof_WF Proof_Parser Proof_Ops Proof_Ops2 Proof_Preds Proof_Preds2 Proof_Preds3.
Local Open Scope Z_scope.

(** ** sorting by name *)
Lemma str_leb_total a b : str_leb a b = false -> str_leb b a = true.
Proof.
  revert b; induction a as [|x a IH]; intros [|y b]; simpl; auto; try discriminate.
  intro H. apply orb_false_iff in H as [H1 H2]. apply N.ltb_ge in H1.
  destruct (N.eqb_spec x y) as [->|N].
  - rewrite N.eqb_refl. apply IH in H2. rewrite H2. apply orb_true_r.
  - destruct (N.ltb_spec y x); [reflexivity|]. exfalso; apply N; lia.
Qed.
Lemma str_leb_antisym a b : str_leb a b = true -> str_leb b a = true -> a = b.
Proof.
  revert b; induction a as [|x a IH]; intros [|y b]; simpl; auto; try discriminate.
  intros H1 H2. apply orb_true_iff in H1. apply orb_true_iff in H2.
  rewrite N.ltb_lt, andb_true_iff, N.eqb_eq in H1. rewrite N.ltb_lt, andb_true_iff, N.eqb_eq in H2.
  destruct H1 as [H1|[-> H1]]; destruct H2 as [H2|[E H2]]; try lia. f_equal. auto.
Qed.
Lemma str_leb_trans a b c : str_leb a b = true -> str_leb b c = true -> str_leb a c = true.
Proof.
  revert b c; induction a as [|x a IH]; intros [|y b] [|z c]; simpl; auto; try discriminate.
  rewrite !orb_true_iff, !andb_true_iff, !N.ltb_lt, !N.eqb_eq.
  intros [H1|[-> H1]] [H2|[-> H2]]; [left; lia|left; lia|left; lia|right; split; eauto].
Qed.
Lemma sort_perm l : Permutation (sort_fields l) l.
Proof.
  induction l as [|f l IH]; simpl; [constructor|].
  transitivity (f :: sort_fields l); [|constructor; auto].
  generalize (sort_fields l). clear. intro l. induction l as [|g l IH]; simpl; [reflexivity|].
  destruct (str_leb _ _); [reflexivity|]. rewrite IH. apply perm_swap.
Qed.
Inductive SortedF : list (str * ty) -> Prop :=
| SF_nil : SortedF []
| SF_cons f l : (forall g, In g l -> str_leb (fst f) (fst g) = true) -> SortedF l -> SortedF (f :: l).
Lemma insert_sorted f l : SortedF l -> SortedF (insert_field f l).
Proof.
  induction 1 as [|g l H HS IH]; simpl; [constructor; [intros ? []|constructor]|].
  destruct (str_leb (fst f) (fst g)) eqn:E.
  - constructor; [|constructor; auto]. intros h [<-|Hh]; auto. eapply str_leb_trans; eauto.
  - constructor; auto. intros h Hh. apply In_insert in Hh as [->|Hh]; auto. apply str_leb_total; auto.
Qed.
Lemma sort_sorted l : SortedF (sort_fields l).
Proof. induction l; simpl; [constructor|apply insert_sorted; auto]. Qed.
Lemma sorted_unique l m : SortedF l -> SortedF m -> Permutation l m -> NoDup (map fst l) -> l = m.
Proof.
  intro Hl. revert m. induction Hl as [|f l H HS IH]; intros m Hm HP HN.
  - apply Permutation_nil in HP. auto.
  - destruct Hm as [|g m Hg Hm]; [apply Permutation_sym, Permutation_nil in HP; discriminate|].
    assert (f = g).
    { assert (F1 : In f (g :: m)) by (eapply Permutation_in; [exact HP|left; auto]).
      assert (G1 : In g (f :: l)) by (eapply Permutation_in; [apply Permutation_sym; exact HP|left; auto]).
      destruct F1 as [F1|F1]; auto. destruct G1 as [G1|G1]; auto. exfalso.
      assert (E : fst f = fst g) by (apply str_leb_antisym; auto).
      inversion HN as [|? ? N1 _]; subst. apply N1. rewrite E. apply in_map. exact G1. }
    subst g. f_equal. apply IH; auto; [eapply Permutation_cons_inv; eauto|inversion HN; auto].
Qed.
Lemma sort_eq l m : Permutation l m -> NoDup (map fst l) -> sort_fields l = sort_fields m.
Proof.
  intros HP HN. apply sorted_unique; try apply sort_sorted.
  - rewrite !sort_perm. exact HP.
  - eapply Permutation_NoDup; [|exact HN]. apply Permutation_map, Permutation_sym, sort_perm.
Qed.
Lemma perm_Forall2 {A B} (R : A -> B -> Prop) l l' m : Permutation l l' -> Forall2 R l m ->
  exists m', Permutation m m' /\ Forall2 R l' m'.
Proof.
  intro HP. revert m. induction HP as [|x l l' HP IH|x y l|l l' l'' H1 IH1 H2 IH2]; intros m HF.
  - inversion HF; subst. exists []. split; constructor.
  - inversion HF as [|? b ? m0 Hb HF']; subst. destruct (IH m0 HF') as [m' [P Q]]. exists (b :: m'). split; constructor; auto.
  - inversion HF as [|? b ? m0 Hb HF']; subst. inversion HF' as [|? c ? m1 Hc HF'']; subst.
    exists (c :: b :: m1). split; [apply perm_swap|]. constructor; auto.
  - destruct (IH1 m HF) as [m1 [P1 Q1]]. destruct (IH2 m1 Q1) as [m2 [P2 Q2]]. exists m2. split; auto. etransitivity; eauto.
Qed.

(** ** zip *)
Lemma zipM_nth {A B} (f : A -> B -> res unit) l m :
  zipM f l m = Ok tt <-> forall i x y, nth_error l i = Some x -> nth_error m i = Some y -> f x y = Ok tt.
Proof.
  revert m; induction l as [|x l IH]; intros [|y m]; cbn [zipM]; split; try reflexivity.
  - intros _ [|] ? ? H; discriminate.
  - intros _ [|] ? ? H; discriminate.
  - intros _ [|] ? ? _ H; discriminate.
  - intros H [|i] a b Ha Hb; destruct (f x y) as [[]|] eqn:E; try discriminate; cbn [bind] in H.
    + injection Ha as <-. injection Hb as <-. exact E.
    + eapply IH; eauto.
  - intro H. rewrite (H O x y eq_refl eq_refl). cbn [bind]. apply IH. intros i a b Ha Hb. apply (H (S i)); auto.
Qed.
Lemma zipM_all {A B} (f : A -> B -> res unit) l m : length l = length m ->
  (zipM f l m = Ok tt <-> Forall2 (fun x y => f x y = Ok tt) l m).
Proof.
  intro HL. split; [intro H; apply zipM_inv; auto|]. intro H. eapply zipM_F2; [exact H|]. auto.
Qed.
Lemma bind_ok (x : res unit) (y : res unit) : (let! _ := x in y) = Ok tt <-> x = Ok tt /\ y = Ok tt.
Proof. destruct x as [[]|]; cbn [bind]; intuition discriminate. Qed.
Lemma Forall2_len {A B} (R : A -> B -> Prop) l m : Forall2 R l m -> length l = length m.
Proof. induction 1; simpl; congruence. Qed.
Lemma Forall2_in {A B} (R S : A -> B -> Prop) l m :
  (forall x y, In x l -> In y m -> (R x y <-> S x y)) -> (Forall2 R l m <-> Forall2 S l m).
Proof.
  revert m; induction l as [|x l IH]; intros [|y m] H; split; intro G; inversion G; subst; constructor.
  - apply H; [left; auto|left; auto|auto].
  - apply (IH m); auto. intros; apply H; right; auto.
  - apply H; [left; auto|left; auto|auto].
  - apply (IH m); auto. intros; apply H; right; auto.
Qed.

Definition rest (a b : ty) : res unit := if is_slotted a && is_slotted b then check_slots a b else base_case a b.
Lemma rest_eq a b : ~ OwnComparison a \/ class_ix a <> class_ix b -> (rest a b = Ok tt <-> py_eq a b = true).
Proof.
  intro H. unfold rest, check_slots, base_case, same_class.
  destruct (is_slotted a && is_slotted b) eqn:S; [|apply passert_ok].
  destruct (Nat.eqb_spec (class_ix a) (class_ix b)) as [E|E]; [|apply passert_ok].
  destruct H as [H|H]; [|congruence]. rewrite passert_ok.
  assert (D : is_DataShape a = false /\ is_DataShape b = false) by (destruct a, b; try discriminate E; try discriminate S; auto).
  destruct D. split; [apply info_py_eq; auto|intro X; apply py_eq_info; auto].
Qed.
Lemma assert_exact F n : forall a b, (tsize a < n)%nat -> WF a -> WF b ->
  (assert_eqF n F a b = Ok tt <-> Accepts F a b).
Proof.
  induction n as [|n IH]; intros a b Hn Wa Wb; [lia|].
  assert (OTHER : ~ OwnComparison a \/ class_ix a <> class_ix b -> assert_eqF (S n) F a b = rest a b ->
    (assert_eqF (S n) F a b = Ok tt <-> Accepts F a b)).
  { intros H E. rewrite E, rest_eq by auto. split; [apply Acc_equal; auto|].
    intro HA. clear E. destruct HA; try assumption; exfalso; destruct H as [H|H]; apply H; first [exact I|reflexivity]. }
  assert (SUB : forall x y, In x (children a) -> WF y -> (assert_eqF n F x y = Ok tt <-> Accepts F x y)).
  { intros x y Hx Hy. apply IH; auto; [pose proof (child_size a x Hx); lia|eapply WF_child; [exact Wa|exact Hx]]. }
  assert (WB : forall y, In y (children b) -> WF y) by (intros; eapply WF_child; eauto).
  (* pairs of different classes *)
  destruct (Nat.eq_dec (class_ix a) (class_ix b)) as [HC|HC];
    [|apply OTHER; auto; destruct a; destruct b; try reflexivity; exfalso; apply HC; reflexivity].
  destruct a; destruct b; try discriminate HC; try (apply OTHER; [left; intros []|reflexivity]); clear OTHER HC; cbn [assert_eqF].
  - (* time *) split.
    + intro H. constructor. intro K. rewrite K in H. unfold check_slots in H. apply passert_ok in H. apply ostr_eqb_eq. exact H.
    + intro H. destruct (check_tz F) eqn:K; auto. unfold check_slots. apply passert_ok. cbn [info_eqb].
      inversion H as [|z w Hz| | | | | | | |? ? [X|X]]; subst; try (exfalso; apply X; exact I); try (exfalso; apply X; reflexivity). apply ostr_eqb_eq; auto.
  - split.
    + intro H. constructor. intro K. rewrite K in H. unfold check_slots in H. apply passert_ok in H. apply ostr_eqb_eq. exact H.
    + intro H. destruct (check_tz F) eqn:K; auto. unfold check_slots. apply passert_ok. cbn [info_eqb].
      inversion H as [| |z w Hz| | | | | | |? ? [X|X]]; subst; try (exfalso; apply X; exact I); try (exfalso; apply X; reflexivity). apply ostr_eqb_eq; auto.
  - split.
    + intro H. constructor. intro K. rewrite K in H. unfold check_slots in H. apply passert_ok in H. apply str_eqb_eq. exact H.
    + intro H. destruct (check_timedelta_unit F) eqn:K; auto. unfold check_slots. apply passert_ok. cbn [info_eqb].
      inversion H as [| | |z w Hz| | | | | |? ? [X|X]]; subst; try (exfalso; apply X; exact I); try (exfalso; apply X; reflexivity). apply str_eqb_eq; auto.
  - (* units *) split.
    + rewrite bind_ok. intros [_ H]. discriminate.
    + intro H. inversion H as [| | | | | | | | |? ? [X|X]]; subst; exfalso; apply X; [exact I|reflexivity].
  - (* strings *) rewrite bind_ok. split.
    + intros [H1 H2]. constructor; intro K; [rewrite K in H1; apply passert_ok, str_eqb_eq in H1; auto|rewrite K in H2].
      destruct (oZ_eqb fixlen fixlen0) eqn:E; [|destruct fixlen, fixlen0; discriminate]. apply oZ_eqb_eq; auto.
    + intro H. inversion H as [| | | |f g e e' H1 H2| | | | |? ? [X|X]]; subst; try (exfalso; apply X; exact I); try (exfalso; apply X; reflexivity).
      split; [destruct (check_str_encoding F) eqn:K; auto; apply passert_ok, str_eqb_eq; auto|].
      destruct (check_str_fixlen F) eqn:K; auto. rewrite (proj2 (oZ_eqb_eq _ _) (H2 eq_refl)). reflexivity.
  - (* arrays *)
    destruct (Wa _ (Occurs_here _)) as [ds [x [-> _]]]. destruct (Wb _ (Occurs_here _)) as [es [y [-> _]]].
    cbn [shape measure]. rewrite !removelast_last, !last_last, bind_ok, SUB;
      [|cbn [children]; apply in_app_iff; right; left; auto|apply WB; cbn [children]; apply in_app_iff; right; left; auto].
    assert (Z : (if check_dim F then zipM (fun x y : ty => passert (negb (py_ne x y))) ds es else Ok tt) = Ok tt <->
      (check_dim F = true -> forall i d e, nth_error ds i = Some d -> nth_error es i = Some e -> py_eq d e = true)).
    { destruct (check_dim F); [|intuition discriminate]. rewrite zipM_nth. unfold py_ne. split.
      - intros H _ i d e Hd He. specialize (H i d e Hd He). rewrite negb_involutive in H. apply passert_ok in H; auto.
      - intros H i d e Hd He. rewrite negb_involutive. apply passert_ok. eauto. }
    rewrite Z. split.
    + intros [H1 H2]. constructor; auto.
    + intro H. remember (DataShapeT name (ds ++ [x])) as ta eqn:Ta. remember (DataShapeT name0 (es ++ [y])) as tb eqn:Tb.
      destruct H as [n0 m0 ds' es' x' y' H1 H2| | | | | | | | |? ? [X|X]]; try discriminate; subst;
        try (exfalso; apply X; exact I); try (exfalso; apply X; reflexivity).
      injection Ta as _ Ta. injection Tb as _ Tb.
      apply app_inj_tail in Ta as [-> ->]. apply app_inj_tail in Tb as [-> ->]. auto.
  - (* option *) rewrite SUB; [|cbn; auto|apply WB; cbn; auto]. split; [intro; constructor; auto|].
    intro H. inversion H as [| | | | | | | | |? ? [X|X]]; subst; auto; exfalso; apply X; [exact I|reflexivity].
  - (* function *)
    pose proof (WF_fun_nonempty _ Wa) as Na. pose proof (WF_fun_nonempty _ Wb) as Nb.
    assert (EQ : (let! _ := passert (Nat.eqb (length (removelast parameters)) (length (removelast parameters0))) in
      let! _ := zipM (assert_eqF n F) (removelast parameters) (removelast parameters0) in
      assert_eqF n F (last parameters NullT) (last parameters0 NullT)) = Ok tt <->
      Forall2 (fun x y => assert_eqF n F x y = Ok tt) parameters parameters0).
    { rewrite bind_ok, bind_ok, passert_ok, Nat.eqb_eq. split.
      - intros [H1 [H2 H3]]. apply zipM_all in H2; auto. eapply Forall2_snoc_intro; eauto.
      - intro H. pose proof (Forall2_removelast _ _ _ H) as H1. split; [eapply Forall2_len; eauto|]. split.
        + apply zipM_all; auto. eapply Forall2_len; eauto.
        + apply (Forall2_last (fun x y => assert_eqF n F x y = Ok tt)); auto. }
    rewrite EQ, (Forall2_in _ (Accepts F)) by (intros; apply SUB; auto; apply WB; auto). split; [intro; constructor; auto|].
    intro H. inversion H as [| | | | | | | | |? ? [X|X]]; subst; auto; exfalso; apply X; [exact I|reflexivity].
  - (* record *)
    destruct (Wa _ (Occurs_here _)) as [ND1 _]. destruct (Wb _ (Occurs_here _)) as [ND2 _].
    rewrite bind_ok, passert_ok, Nat.eqb_eq. cbv zeta.
    set (chk := fun f g : str * ty => let! _ := passert (str_eqb (fst f) (fst g)) in assert_eqF n F (snd f) (snd g)).
    assert (CH : forall f g, In f fields -> In g fields0 -> (chk f g = Ok tt <-> fst f = fst g /\ Accepts F (snd f) (snd g))).
    { intros f g Hf Hg. unfold chk. rewrite bind_ok, passert_ok, str_eqb_eq, SUB; [tauto|cbn; apply in_map; auto|apply WB; cbn; apply in_map; auto]. }
    split.
    + intros [HL H]. destruct (check_record_order F) eqn:K.
      * apply zipM_all in H; auto. apply Acc_record with (hs := fields0); [reflexivity|auto|].
        apply (Forall2_in (fun f g => chk f g = Ok tt)); auto.
      * apply zipM_all in H; [|rewrite !(Permutation_length (sort_perm _)); auto].
        destruct (perm_Forall2 _ _ fields _ (sort_perm fields) H) as [hs [P Q]].
        assert (P' : Permutation fields0 hs) by (rewrite <- P; apply Permutation_sym, sort_perm).
        apply Acc_record with (hs := hs); auto; [congruence|].
        apply (Forall2_in (fun f g => chk f g = Ok tt)); auto. intros f g Hf Hg. symmetry. symmetry. apply CH; auto.
        eapply Permutation_in; [apply Permutation_sym; exact P'|exact Hg].
    + intro H. inversion H as [| | | | | |fs gs hs P O HF| | |? ? [X|X]]; subst; try (exfalso; apply X; exact I); try (exfalso; apply X; reflexivity).
      split; [rewrite (Permutation_length P); eapply Forall2_len; eauto|].
      destruct (check_record_order F) eqn:K.
      * rewrite (O eq_refl) in HF. apply zipM_all; [eapply Forall2_len; eauto|].
        apply (Forall2_in (fun f g => chk f g = Ok tt) (fun f h => fst f = fst h /\ Accepts F (snd f) (snd h))); auto.
      * rewrite (sort_eq fields0 hs) by auto. apply sort_F2 in HF. eapply zipM_F2; [exact HF|].
        intros f g Hf Hg [E1 E2]. apply CH; auto.
        -- apply In_sort; auto.
        -- eapply Permutation_in; [apply Permutation_sym; exact P|]. apply In_sort; auto.
  - (* tuple *)
    rewrite bind_ok, passert_ok, Nat.eqb_eq.
    assert (EQ : length dshapes = length dshapes0 /\ zipM (assert_eqF n F) dshapes dshapes0 = Ok tt <->
      Forall2 (fun x y => assert_eqF n F x y = Ok tt) dshapes dshapes0).
    { split; [intros [H1 H2]; apply zipM_all; auto|]. intro H. split; [eapply Forall2_len; eauto|]. apply zipM_all; auto. eapply Forall2_len; eauto. }
    rewrite EQ, (Forall2_in _ (Accepts F)) by (intros; apply SUB; auto; apply WB; auto). split; [intro; constructor; auto|].
    intro H. inversion H as [| | | | | | | | |? ? [X|X]]; subst; auto; exfalso; apply X; [exact I|reflexivity].
Qed.
