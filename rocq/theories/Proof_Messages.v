(** Proofs about the messages of assert_dshape_equal (C68). *)
From Coq Require Import Sorting.Permutation Sorting.Sorted.
From Verif Require Import Base Types Lexer Printer Construct Parser Ops Preds Objects Spec_WF Spec_Eq Spec_Ops Spec_Preds Report Spec_Report
  Messages Spec_Messages Proof_Eq Proof_WF Proof_Ops Proof_Preds Proof_Preds2 Proof_Preds3 Proof_Preds5 Proof_Report.
Local Open Scope Z_scope.

(** the two models run in step *)
Definition Lock (P : list step -> str -> Prop) (v : verdict) (o : outcome) : Prop :=
  match v, o with
  | Passes, Pass => True
  | Fails m, FailAt q => P q m
  | Raises e, Other e' => e = e'
  | _, _ => False
  end.
Lemma Lock_then P v o v' o' : Lock P v o -> (o = Pass -> Lock P v' o') -> Lock P (then_ v v') (andthen o o').
Proof. destruct v, o; simpl; auto; contradiction. Qed.
Lemma Lock_check (P : list step -> str -> Prop) b m q : (b = false -> P q m) -> Lock P (check b m) (require b q).
Proof. destruct b; simpl; auto. Qed.
Lemma Lock_zip {A B} P (f : nat -> A -> B -> verdict) (g : nat -> A -> B -> outcome) l : forall m k,
  (forall i x y, nth_error l i = Some x -> nth_error m i = Some y -> Lock P (f (k + i)%nat x y) (g (k + i)%nat x y)) ->
  Lock P (zip_msg f k l m) (zip_at g k l m).
Proof.
  induction l as [|x l IH]; intros m k H; [exact I|]. destruct m as [|y m]; [exact I|]. cbn [zip_msg zip_at].
  apply Lock_then; [specialize (H 0%nat x y eq_refl eq_refl); rewrite Nat.add_0_r in H; exact H|]. intros _. apply IH.
  intros i u v Hu Hv. specialize (H (S i) u v Hu Hv). rewrite Nat.add_succ_r in H. exact H.
Qed.
Lemma Lock_impl (P Q : list step -> str -> Prop) v o : (forall q m, P q m -> Q q m) -> Lock P v o -> Lock Q v o.
Proof. intros H. destruct v, o; simpl; auto. Qed.

Section S.
  Variable U : uni.
  Variable F : flags.
  Definition Told (p : list step) (a b : ty) (q : list step) (m : str) : Prop :=
    exists r s x y h, q = p ++ r ++ s /\ Follow (PvTy a) r (PvTy x) /\ Follow (PvTy b) r (PvTy y) /\ Says U F x y s h /\
      m = h ++ newline ++ fmt_path U q.
  Definition ClockTold (a b : ty) (q : list step) (m : str) : Prop :=
    q = [] /\ exists r x y, Follow (PvTy a) r (PvTy x) /\ Follow (PvTy b) r (PvTy y) /\
      m = py_str U x ++ $" != " ++ py_str U y ++ newline /\
      match x, y with DateTimeT _, TimeT _ | TimeT _, DateTimeT _ => True | _, _ => False end.
  Definition Good p a b q m : Prop := Told p a b q m \/ ClockTold a b q m.

  Lemma told_here p a b s h m : Says U F a b s h -> m = h ++ newline ++ fmt_path U (p ++ s) -> Good p a b (p ++ s) m.
  Proof. intros H ->. left. exists [], s, a, b, h. repeat split; auto; constructor. Qed.
  Lemma good_in p st a b c d q m : Follow (PvTy a) st (PvTy c) -> Follow (PvTy b) st (PvTy d) ->
    Good (p ++ st) c d q m -> Good p a b q m.
  Proof.
    intros Ha Hb [[r [s [x [y [h [-> [H1 [H2 [H3 H4]]]]]]]]]|[-> [r [x [y [H1 [H2 H3]]]]]]].
    - left. exists (st ++ r), s, x, y, h. rewrite H4, !app_assoc. split; auto. split; [eapply Follow_app; eauto|]. split; [eapply Follow_app; eauto|]. auto.
    - right. split; auto. exists (st ++ r), x, y. split; [eapply Follow_app; eauto|]. split; [eapply Follow_app; eauto|]. exact H3.
  Qed.
  Lemma repr_Repr : forall n v, (pvdepth v < n)%nat -> Repr U v (pv_repr U v).
  Proof.
    induction n as [|n IH]; intros v Hn; [lia|]. destruct v as [t|l|z|s|b|]; try constructor; [|destruct b; constructor].
    cbn [pvdepth] in Hn.
    assert (L : forall l, (fold_right (fun x m => Nat.max (pvdepth x) m) 0 l < n)%nat -> Forall2 (Repr U) l (map (pv_repr U) l)).
    { clear l Hn. induction l as [|x l IHl]; cbn [fold_right map]; intro H; constructor; [apply IH; lia|apply IHl; lia]. }
    destruct l as [|x [|y l]].
    - cbn [pv_repr map]. apply (RP_tup U [] []); [discriminate|constructor].
    - cbn [pv_repr]. constructor. apply IH. cbn [fold_right] in Hn. lia.
    - change (pv_repr U (PvTup (x :: y :: l))) with ($"(" ++ join $", " (map (pv_repr U) (x :: y :: l)) ++ $")").
      apply RP_tup; [discriminate|]. apply L. lia.
  Qed.
  Lemma repr_ok v : Repr U v (pv_repr U v). Proof. apply (repr_Repr (S (pvdepth v))). lia. Qed.

  Lemma good_attr p a b c n x y : Class a c -> Class b c -> c <> $"units" -> Get (PvTy a) (StAttr n) x -> Get (PvTy b) (StAttr n) y ->
    Good p a b (p ++ [StAttr n]) (c ++ $" " ++ n ++ $"s do not match: " ++ versus U (pv_repr U x) (pv_repr U y) (p ++ [StAttr n])).
  Proof.
    intros. eapply told_here; [eapply SY_attr; eauto using repr_ok|]. unfold versus. rewrite !app_assoc. reflexivity.
  Qed.
  Lemma good_class p a b : class_ix a <> class_ix b -> Good p a b p (versus U (py_str U a) (py_str U b) p).
  Proof.
    intro H. rewrite <- (app_nil_r p) at 2. eapply told_here; [apply SY_class; exact H|]. unfold versus. rewrite app_nil_r, !app_assoc. reflexivity.
  Qed.
  Lemma slots_lock p a b : is_slotted a = true -> class_ix a = class_ix b ->
    (forall t, a <> OptionT t) -> (forall l, a <> TupleT l) -> (forall u t, a <> UnitsT u t) ->
    Lock (Good p a b) (check_slots_msg U p a b) (check_slots_at p a b).
  Proof.
    intros HS E NO NT NU. unfold check_slots_msg, check_slots_at, same_class. rewrite E, Nat.eqb_refl.
    destruct a; try discriminate HS; destruct b; try discriminate E; cbn [slot_names params class_lower slots_at slots_msg];
      try exact I; try (exfalso; eapply NO; reflexivity); try (exfalso; eapply NT; reflexivity); try (exfalso; eapply NU; reflexivity).
    all: try (repeat (apply Lock_then; [apply Lock_check; intros _; apply good_attr; [constructor|constructor|discriminate|constructor|constructor]|intros _]); exact I).
    destruct typevar as [s|], typevar0 as [u|]; cbn [slots_at slots_msg];
    repeat (apply Lock_then; [apply Lock_check; intros _; apply good_attr; [constructor|constructor|discriminate|constructor|constructor]|intros _]); exact I.
  Qed.
  Lemma base_lock p a b : (py_eq a b = false -> class_ix a <> class_ix b) -> Lock (Good p a b) (base_msg U p a b) (base_case_at p a b).
  Proof. intro H. apply Lock_check. intro E. apply good_class; auto. Qed.
  Lemma rest_lock p a b : ~ OwnComparison a \/ class_ix a <> class_ix b ->
    Lock (Good p a b) (if is_slotted a && is_slotted b then check_slots_msg U p a b else base_msg U p a b)
      (if is_slotted a && is_slotted b then check_slots_at p a b else base_case_at p a b).
  Proof.
    intros HO. destruct (Nat.eq_dec (class_ix a) (class_ix b)) as [E|E].
    - destruct HO as [HO|HO]; [|contradiction].
      destruct (is_slotted a) eqn:S1; cbn [andb].
      + assert (S2 : is_slotted b = true) by (destruct a; destruct b; try discriminate E; auto). rewrite S2.
        apply slots_lock; auto; intros; intro X; subst; apply HO; exact I.
      + destruct a; try discriminate S1; try (exfalso; apply HO; exact I). destruct b; try discriminate E.
        apply base_lock. discriminate.
    - destruct (_ && _); [|apply base_lock; auto]. unfold check_slots_msg, check_slots_at, same_class. apply Nat.eqb_neq in E. rewrite E.
      apply base_lock. intros _. now apply Nat.eqb_neq.
  Qed.
  Lemma sorted_strong l : SortedF l -> StronglySorted (fun f g : str * ty => str_leb (fst f) (fst g) = true) l.
  Proof. induction 1; constructor; auto. apply Forall_forall. auto. Qed.
  Lemma ordered l : Ordered F l (if check_record_order F then l else sort_fields l).
  Proof.
    unfold Ordered. destruct (check_record_order F); auto. split; [apply Permutation_sym, sort_perm|apply sorted_strong, sort_sorted].
  Qed.

  Lemma msg_lock n : forall p a b, WF a -> WF b -> Lock (Good p a b) (msgF U n F p a b) (assert_atF n F p a b).
  Proof.
    induction n as [|n IH]; intros p a b Wa Wb; [reflexivity|].
    assert (WA : forall c, In c (children a) -> WF c) by (intros c Hc; eapply WF_child; [|exact Hc]; assumption).
    assert (WB : forall c, In c (children b) -> WF c) by (intros c Hc; eapply WF_child; [|exact Hc]; assumption).
    assert (STEP : forall st c d, In c (children a) -> In d (children b) ->
      Follow (PvTy a) st (PvTy c) -> Follow (PvTy b) st (PvTy d) ->
      Lock (Good p a b) (msgF U n F (p ++ st) c d) (assert_atF n F (p ++ st) c d)).
    { intros st c d Hc Hd Fa Fb. eapply Lock_impl; [|apply IH; auto]. intros q m. apply good_in; auto. }
    pose proof (rest_lock p a b) as R.
    destruct a; destruct b; cbn [msgF assert_atF];
      try (apply R; first [left; intros []; fail|right; discriminate]); clear R.
    - destruct (check_tz F); [apply slots_lock; auto; discriminate|exact I].
    - apply Lock_check. intros _. right. split; auto. exists [], (TimeT tz), (DateTimeT tz0). split; [constructor|]. split; [constructor|].
      split; [|exact I]. reflexivity.
    - apply Lock_check. intros _. right. split; auto. exists [], (DateTimeT tz), (TimeT tz0). split; [constructor|]. split; [constructor|].
      split; [|exact I]. reflexivity.
    - destruct (check_tz F); [apply slots_lock; auto; discriminate|exact I].
    - destruct (check_timedelta_unit F); [apply slots_lock; auto; discriminate|exact I].
    - apply Lock_then; [|reflexivity]. apply Lock_check. intros _. eapply told_here; [apply SY_units|].
      cbn [class_lower]. unfold versus. rewrite !app_assoc. reflexivity.
    - apply Lock_then.
      + destruct (check_str_encoding F); [|exact I]. apply Lock_check. intros _.
        pose proof (good_attr p (StringT fixlen encoding) (StringT fixlen0 encoding0) $"string" $"encoding" _ _ ltac:(constructor) ltac:(constructor) ltac:(discriminate) (Get_encoding _ _) (Get_encoding _ _)) as G.
        exact G.
      + intros _. destruct (check_str_fixlen F); [|exact I]. destruct (oZ_eqb _ _); [exact I|].
        destruct fixlen as [f|], fixlen0 as [g|]; try reflexivity.
        pose proof (good_attr p (StringT (Some f) encoding) (StringT (Some g) encoding0) $"string" $"fixlen" _ _ ltac:(constructor) ltac:(constructor) ltac:(discriminate) (Get_fixlen _ _) (Get_fixlen _ _)) as G.
        exact G.
    - (* arrays *)
      pose proof (last_split _ (WF_array_nonempty _ _ Wa)) as Ea. pose proof (last_split _ (WF_array_nonempty _ _ Wb)) as Eb.
      cbn [shape measure]. apply Lock_then.
      + destruct (check_dim F); [|exact I]. apply Lock_zip. intros i x y Hx Hy. cbn [Nat.add]. apply Lock_check. intros _.
        eapply told_here; [rewrite Ea at 1; rewrite Eb at 1; apply SY_dim; eassumption|]. rewrite <- !app_assoc. do 4 f_equal.
        f_equal. destruct (removelast parameters) as [|d1 [|d2 ds]]; reflexivity.
      + intros _. apply STEP; [cbn; rewrite Ea; rewrite !last_last; apply in_app_iff; right; left; auto
        |cbn; rewrite Eb; rewrite !last_last; apply in_app_iff; right; left; auto|rewrite Ea|rewrite Eb];
        (rewrite ?last_last; econstructor; [constructor|constructor]).
    - apply STEP; [left; auto|left; auto| |]; (econstructor; constructor).
    - (* function *)
      pose proof (last_split _ (WF_fun_nonempty _ Wa)) as Ea. pose proof (last_split _ (WF_fun_nonempty _ Wb)) as Eb.
      apply Lock_then; [|intros _; apply Lock_then].
      + apply Lock_check. intro H. apply Nat.eqb_neq in H. rewrite <- (app_nil_r p) at 2.
        eapply told_here; [rewrite Ea at 1; rewrite Eb at 1; apply SY_args; exact H|]. rewrite <- Ea, <- Eb. unfold versus, number, nat_str.
        rewrite app_nil_r, <- !app_assoc. reflexivity.
      + apply Lock_zip. intros i x y Hx Hy. cbn [Nat.add].
        apply STEP; [cbn; rewrite Ea; apply in_app_iff; left; eapply nth_error_In; eauto
          |cbn; rewrite Eb; apply in_app_iff; left; eapply nth_error_In; eauto|rewrite Ea|rewrite Eb];
          (econstructor; [constructor; eassumption|constructor]).
      + intros _. apply STEP; [cbn; rewrite Ea; rewrite !last_last; apply in_app_iff; right; left; auto
        |cbn; rewrite Eb; rewrite !last_last; apply in_app_iff; right; left; auto|rewrite Ea|rewrite Eb];
        (rewrite ?last_last; econstructor; [constructor|constructor]).
    - (* record *)
      apply Lock_then.
      + apply Lock_check. intro H. apply Nat.eqb_neq in H. rewrite <- (app_nil_r p) at 2.
        eapply told_here; [apply SY_fields; exact H|]. unfold versus, number, nat_str, names_repr, name_list.
        rewrite !map_map, app_nil_r, <- !app_assoc. reflexivity.
      + intro HL. assert (L : length fields = length fields0).
        { destruct (Nat.eqb _ _) eqn:E in HL; [apply Nat.eqb_eq; exact E|discriminate]. } clear HL.
        set (srt := fun l => if check_record_order F then l else sort_fields l) in *.
        assert (IN : forall l (f : str * ty), In f (srt l) -> In f l).
        { intros l f Hf. unfold srt in Hf. destruct (check_record_order F); auto. eapply Permutation_in; [apply sort_perm|exact Hf]. }
        apply Lock_zip. intros i f g Hf Hg. cbn [Nat.add]. apply Lock_then.
        * apply Lock_check. intro H. rewrite <- (app_nil_r p) at 2.
          eapply told_here; [eapply SY_name; [exact L|apply ordered|apply ordered|exact Hf|exact Hg|]|].
          -- intro X. apply str_eqb_eq in X. congruence.
          -- unfold versus, number, nat_str. rewrite app_nil_r, <- !app_assoc. reflexivity.
        * intro HE. assert (EN : fst f = fst g). { destruct (str_eqb _ _) eqn:E in HE; [apply str_eqb_eq; auto|discriminate]. }
          apply nth_error_In, IN in Hf. apply nth_error_In, IN in Hg.
          pose proof Hf as Hf'. pose proof Hg as Hg'. rewrite (surjective_pairing f) in Hf'. rewrite (surjective_pairing g), <- EN in Hg'.
          apply STEP; [apply in_map; auto|apply in_map; auto| |].
          -- econstructor; [apply Get_field; exact Hf'|constructor].
          -- econstructor; [apply Get_field; exact Hg'|constructor].
    - (* tuple *)
      apply Lock_then.
      + apply Lock_check. intro H. apply Nat.eqb_neq in H. rewrite <- (app_nil_r p) at 2.
        eapply told_here; [apply SY_items; exact H|]. unfold versus, number, nat_str.
        rewrite app_nil_r, <- !app_assoc. reflexivity.
      + intros _. apply Lock_zip. intros i x y Hx Hy. cbn [Nat.add].
        apply STEP; [eapply nth_error_In; eauto|eapply nth_error_In; eauto| |];
          (econstructor; [apply Get_dshapes|econstructor; [apply Get_index, map_nth_error; eassumption|constructor]]).
  Qed.
End S.
