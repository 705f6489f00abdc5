(** Proofs about the lexer against Spec_Lexer. *)
From Verif Require Import Base Lexer Proof_Scan Spec_Lexer.
Local Open Scope N_scope.

(** ** string bodies *)
Lemma unescape_plain c r : c <> 92 -> unescape (c :: r) = c :: unescape r.
Proof.
  intro H. destruct c as [|p]; [reflexivity|].
  do 7 (destruct p as [p|p|]; try reflexivity). congruence.
Qed.
Lemma unescape_esc e r : e <> 117 -> unescape (92 :: e :: r) =
  (if N.eqb e 98 then 8 else if N.eqb e 102 then 12 else if N.eqb e 110 then 10
       else if N.eqb e 114 then 13 else if N.eqb e 116 then 9 else e) :: unescape r.
Proof.
  intro H. destruct e as [|p]; [reflexivity|].
  do 7 (destruct p as [p|p|]; try reflexivity). congruence.
Qed.
Lemma unescape_u a b c d r : unescape (92 :: 117 :: a :: b :: c :: d :: r) =
  (hex_val a * 4096 + hex_val b * 256 + hex_val c * 16 + hex_val d) :: unescape r.
Proof. reflexivity. Qed.
Lemma StrBody_unescape q b v : q = dq \/ q = sq -> StrBody q b v -> unescape b = v.
Proof.
  intros Hq H. induction H as [|c b v H1 H2 H3 H4 H IH|h1 h2 h3 h4 b v A1 A2 A3 A4 H IH|b v H IH|e c b v Hin H IH].
  - reflexivity.
  - rewrite unescape_plain by exact H2. congruence.
  - unfold bsl. rewrite unescape_u, IH. reflexivity.
  - unfold bsl. rewrite unescape_esc by (destruct Hq; subst; discriminate). rewrite IH.
    destruct Hq; subst; reflexivity.
  - unfold bsl. assert (e <> 117).
    { simpl in Hin. intuition congruence. }
    rewrite unescape_esc by assumption. rewrite IH. f_equal.
    simpl in Hin.
    repeat (destruct Hin as [Hin|Hin]; [inversion Hin; subst; reflexivity|]). contradiction.
Qed.

Lemma removelast_tl_quote (q : N) (b : str) : removelast (tl (q :: b ++ [q])) = b.
Proof. cbn [tl]. apply removelast_last. Qed.

Lemma one_of_In l c : one_of l c = true <-> In c l.
Proof.
  unfold one_of. rewrite existsb_exists. split.
  - intros [x [H1 H2]]. apply N.eqb_eq in H2. subst; auto.
  - intro H. exists c. split; auto. apply N.eqb_refl.
Qed.

Lemma scan_body_complete q b v t : q = dq \/ q = sq -> StrBody q b v -> scan_body q (b ++ q :: t) = Some t.
Proof.
  intros Hq H. assert (Hqb : q <> bsl) by (destruct Hq; subst; discriminate).
  induction H as [|c b v H1 H2 H3 H4 H IH|h1 h2 h3 h4 b v A1 A2 A3 A4 H IH|b v H IH|e c b v Hin H IH];
    cbn [app scan_body].
  - rewrite N.eqb_refl. reflexivity.
  - apply N.eqb_neq in H1, H2, H3, H4. rewrite H1, H2, H3, H4. exact IH.
  - replace (bsl =? q) with false by (symmetry; apply N.eqb_neq; congruence).
    rewrite N.eqb_refl.
    replace (one_of (q :: $"bfnrt") 117) with false by (destruct Hq; subst; reflexivity).
    rewrite N.eqb_refl, A1, A2, A3, A4. exact IH.
  - replace (bsl =? q) with false by (symmetry; apply N.eqb_neq; congruence).
    rewrite N.eqb_refl.
    replace (one_of (q :: $"bfnrt") q) with true by (destruct Hq; subst; reflexivity). exact IH.
  - replace (bsl =? q) with false by (symmetry; apply N.eqb_neq; congruence).
    rewrite N.eqb_refl.
    replace (one_of (q :: $"bfnrt") e) with true; [exact IH|].
    symmetry. apply one_of_In. simpl in *. intuition congruence.
Qed.

Lemma scan_body_sound q : q = dq \/ q = sq -> forall n s t, (length s <= n)%nat ->
  scan_body q s = Some t -> exists b v, s = b ++ q :: t /\ StrBody q b v.
Proof.
  intro Hq. induction n as [|n IH]; intros s t Hn H.
  { destruct s; [discriminate|simpl in Hn; lia]. }
  destruct s as [|c r]; [discriminate|]. cbn [scan_body] in H. simpl in Hn.
  destruct (c =? q) eqn:E1.
  { apply N.eqb_eq in E1. inversion H; subst. exists [], []. split; [reflexivity|constructor]. }
  destruct (c =? bsl) eqn:E2.
  - apply N.eqb_eq in E2; subst c. destruct r as [|e r1]; [discriminate|]. simpl in Hn.
    destruct (one_of (q :: $"bfnrt") e) eqn:E3.
    + destruct (IH r1 t) as [b [v [Hb Hv]]]; [lia|exact H|].
      apply one_of_In in E3. destruct E3 as [E3|E3].
      * subst e. exists (bsl :: q :: b), (q :: v). split; [simpl; congruence|]. apply SB_quote; auto.
      * simpl in E3.
        assert (exists c, In (e, c) [(98, 8); (102, 12); (110, 10); (114, 13); (116, 9)]) as [c Hc].
        { intuition (subst; eexists; simpl; eauto 10). }
        exists (bsl :: e :: b), (c :: v). split; [simpl; congruence|]. eapply SB_esc; eauto.
    + destruct (e =? 117) eqn:E4; [|discriminate]. apply N.eqb_eq in E4; subst e.
      destruct r1 as [|h1 [|h2 [|h3 [|h4 r2]]]]; try discriminate.
      destruct (is_hex h1 && is_hex h2 && is_hex h3 && is_hex h4) eqn:E5; [|discriminate].
      apply andb_true_iff in E5 as [E5 A4]. apply andb_true_iff in E5 as [E5 A3].
      apply andb_true_iff in E5 as [A1 A2].
      destruct (IH r2 t) as [b [v [Hb Hv]]]; [simpl in Hn; lia|exact H|].
      exists (bsl :: 117 :: h1 :: h2 :: h3 :: h4 :: b). eexists. split; [simpl; congruence|].
      apply SB_unicode; eauto.
  - destruct ((c =? 10) || (c =? 13)) eqn:E3; [discriminate|].
    apply orb_false_iff in E3 as [E3 E4].
    destruct (IH r t) as [b [v [Hb Hv]]]; [lia|exact H|].
    apply N.eqb_neq in E1, E2, E3, E4.
    exists (c :: b), (c :: v). split; [simpl; congruence|]. apply SB_plain; auto.
Qed.

(** ** numbers *)
Lemma int_digits_app acc w d : int_digits acc (w ++ [d]) = (int_digits acc w * 10 + digit_val d)%Z.
Proof. revert acc; induction w as [|c w IH]; intro acc; cbn [app int_digits]; [reflexivity|apply IH]. Qed.
Lemma digit_val_N d : is_digit d = true -> digit_val d = Z.of_N (d - 48).
Proof. unfold is_digit, in_range, digit_val. intro H. apply andb_true_iff in H as [H _]. apply N.leb_le in H. lia. Qed.
Lemma Digits_val w z : Digits w z -> int_digits 0 w = z.
Proof.
  induction 1 as [d H|w z d Hd IH H]; [cbn [int_digits]|rewrite int_digits_app]; rewrite digit_val_N by exact H; lia.
Qed.
Lemma Digits_forall w z : Digits w z -> forallb is_digit w = true.
Proof.
  induction 1 as [d H|w z d Hd IH H]; [simpl; rewrite H; reflexivity|].
  rewrite forallb_app, IH. simpl. rewrite H. reflexivity.
Qed.
Lemma Digits_exists w : w <> [] -> forallb is_digit w = true -> exists z, Digits w z.
Proof.
  induction w as [|d w IH] using rev_ind; [congruence|]. intros _ H.
  rewrite forallb_app in H. apply andb_true_iff in H as [H1 H2]. simpl in H2. rewrite andb_true_r in H2.
  destruct w as [|c w]; [eexists; apply (Digits_one d H2)|].
  destruct IH as [z Hz]; [discriminate|assumption|]. eexists. apply Digits_snoc; eauto.
Qed.
Lemma Digits_nonempty w z : Digits w z -> w <> [].
Proof. destruct 1; [discriminate|]. destruct w; discriminate. Qed.
Lemma Digits_int_val w z : Digits w z -> int_val w = z.
Proof.
  intro H. rewrite <- (Digits_val w z H). pose proof (Digits_forall w z H) as F.
  destruct w as [|c r]; [reflexivity|]. cbn [int_val]. destruct (c =? 45) eqn:E; [|reflexivity].
  apply N.eqb_eq in E; subst. discriminate.
Qed.

(** ** values *)
Lemma existsb_bad w : existsb (fun c => N.eqb c 0 || is_surrogate c) w = true <-> ~ Forall (fun c => bad_char c = false) w.
Proof.
  induction w as [|c w IH]; [split; [discriminate|intro H; exfalso; apply H; constructor]|].
  cbn [existsb]. rewrite orb_true_iff, IH. fold (bad_char c). split.
  - intros H F. inversion F as [|? ? F1 F2]; subst. destruct H as [H|H]; [congruence|contradiction].
  - intro H. destruct (bad_char c) eqn:E; [auto|]. right. intro F. apply H. constructor; auto.
Qed.
Lemma tok_val_ok k w v : TokText k w v -> Decodable k w -> tok_val k w = Ok v.
Proof.
  intros H D. destruct H; try reflexivity; cbn [tok_val].
  - rewrite (Digits_int_val w z) by assumption. reflexivity.
  - cbn [int_val]. rewrite N.eqb_refl. rewrite (Digits_val w z) by assumption. reflexivity.
  - unfold str_val. destruct (existsb _ (q :: b ++ [q])) eqn:E.
    + apply existsb_bad in E. exfalso. apply E. apply D. reflexivity.
    + rewrite removelast_tl_quote, (StrBody_unescape q b v) by assumption. reflexivity.
Qed.
Lemma tok_val_bad w v : TokText KStr w v -> ~ Decodable KStr w -> tok_val KStr w = Raise ValueErr.
Proof.
  intros H D. inversion H; subst. cbn [tok_val]. unfold str_val.
  assert (existsb (fun c => N.eqb c 0 || is_surrogate c) (q :: b ++ [q]) = true) as ->; [|reflexivity].
  apply existsb_bad. intro F. apply D. intros _. exact F.
Qed.
Lemma Decodable_dec k w : Decodable k w \/ (k = KStr /\ ~ Decodable k w).
Proof.
  destruct (existsb (fun c => N.eqb c 0 || is_surrogate c) w) eqn:E.
  - destruct k; try (left; intro; discriminate). right. split; auto. apply existsb_bad in E.
    intro D. apply E, D. reflexivity.
  - left. intros _. apply Forall_forall. intros c Hc. destruct (bad_char c) eqn:B; auto.
    assert (existsb (fun c => N.eqb c 0 || is_surrogate c) w = true); [|congruence].
    apply existsb_exists. eauto.
Qed.

(** ** one token *)
Lemma starts_iff p s t : starts p s = Some t <-> s = p ++ t.
Proof. split; [apply starts_app|intros ->; apply starts_self]. Qed.
Lemma starts_none p s : starts p s = None <-> ~ starts_with p s.
Proof.
  split.
  - intros H [r E]. subst. rewrite starts_self in H. discriminate.
  - intro H. destruct (starts p s) as [t|] eqn:E; auto. exfalso. apply H. exists t. apply starts_app; auto.
Qed.
Lemma drop_while_exact p w t : forallb p w = true -> head_not p t -> drop_while p (w ++ t) = t.
Proof.
  intros H F. induction w as [|c w IH]; cbn [app].
  - destruct t as [|c t]; [reflexivity|]. simpl in *. rewrite F. reflexivity.
  - simpl in H. apply andb_true_iff in H as [H1 H2]. cbn [drop_while]. rewrite H1. auto.
Qed.
Lemma forallb_Forall' (p : N -> bool) w : forallb p w = true <-> Forall (fun x => p x = true) w.
Proof. rewrite forallb_forall, Forall_forall. reflexivity. Qed.

Lemma head_not_drop p s : head_not p (drop_while p s).
Proof. unfold head_not. apply drop_while_hd. Qed.

Lemma lower_not_TF c : is_lower c = true -> c <> 84 /\ c <> 70.
Proof. unfold is_lower, in_range. intro H. apply andb_true_iff in H as [H1 H2]. apply N.leb_le in H1. lia. Qed.

Ltac bools :=
  repeat match goal with
  | H : _ && _ = true |- _ => apply andb_true_iff in H; destruct H
  | H : _ || _ = false |- _ => apply orb_false_iff in H; destruct H
  | H : (_ <=? _) = true |- _ => apply N.leb_le in H
  | H : (_ =? _) = true |- _ => apply N.eqb_eq in H
  end.

Lemma prefix_in_name w t : Forall (fun x => is_name_char x = true) w -> head_not is_name_char t ->
  forall p, Forall (fun x => is_name_char x = true) p -> starts_with p (w ++ t) -> starts_with p w.
Proof.
  intros F Ht. induction w as [|c w IH]; intros p Fp [r E].
  - destruct p as [|a p]; [exists []; reflexivity|]. simpl in E. subst t. simpl in Ht.
    inversion Fp; congruence.
  - destruct p as [|a p]; [exists (c :: w); reflexivity|]. inversion E; subst.
    inversion F; subst. inversion Fp; subst. destruct (IH ltac:(assumption) p ltac:(assumption)) as [r' E'].
    + exists r; assumption.
    + exists r'. simpl. congruence.
Qed.
Lemma NoDup_prefix_True w t : ~ bool_prefixed w -> Forall (fun x => is_name_char x = true) w ->
  head_not is_name_char t -> ~ bool_prefixed (w ++ t).
Proof.
  intros H F Ht B. apply H.
  destruct B as [B|B]; [left|right]; (eapply prefix_in_name; [exact F|exact Ht| |exact B]); repeat constructor.
Qed.
Lemma bool_prefixed_app w t : bool_prefixed w -> bool_prefixed (w ++ t).
Proof.
  intros [[r E]|[r E]]; [left|right]; exists (r ++ t); rewrite E, app_assoc; reflexivity.
Qed.

Lemma scan_complete k w v t : TokText k w v -> follow_ok k t -> scan (w ++ t) = Some (k, t).
Proof.
  intros H F. destruct H; try reflexivity.
  - (* lower *) destruct H as [c r Hc Hr]. cbn [app scan].
    destruct (lower_not_TF c Hc) as [HT HF].
    replace (starts $"True" (c :: r ++ t)) with (@None (list N)).
    2:{ symmetry. apply starts_none. intros [x Hx]. inversion Hx. congruence. }
    replace (starts $"False" (c :: r ++ t)) with (@None (list N)).
    2:{ symmetry. apply starts_none. intros [x Hx]. inversion Hx. congruence. }
    rewrite Hc. rewrite drop_while_exact; auto. apply forallb_Forall'; auto.
  - (* upper *) destruct H as [c r Hc Hr].
    assert (NB : ~ bool_prefixed ((c :: r) ++ t)).
    { apply NoDup_prefix_True; auto. constructor; auto. unfold is_name_char. rewrite Hc. apply orb_true_iff. left.
      apply orb_true_iff. left. apply orb_true_r. }
    cbn [app scan] in *.
    replace (starts $"True" (c :: r ++ t)) with (@None (list N)).
    2:{ symmetry. apply starts_none. intro Hx. apply NB. left; exact Hx. }
    replace (starts $"False" (c :: r ++ t)) with (@None (list N)).
    2:{ symmetry. apply starts_none. intro Hx. apply NB. right; exact Hx. }
    replace (is_lower c) with false.
    2:{ unfold is_lower, is_upper, in_range in *. bools. symmetry. apply andb_false_iff. left. apply N.leb_gt. lia. }
    rewrite Hc. rewrite drop_while_exact; auto. apply forallb_Forall'; auto.
  - (* other *) destruct H as [c r Hc Hr]. apply N.eqb_eq in Hc. subst c. cbn [app scan].
    change (starts $"True" (95 :: r ++ t)) with (@None (list N)).
    change (starts $"False" (95 :: r ++ t)) with (@None (list N)). cbn -[drop_while].
    rewrite drop_while_exact; auto. apply forallb_Forall'; auto.
  - (* zero *) destruct t as [|d t]; [reflexivity|]. cbn [follow_ok head_not] in F.
    cbn -[is_digit]. rewrite F. reflexivity.
  - (* int *) pose proof (Digits_forall w z H) as Fw. destruct w as [|c r]; [contradiction|].
    simpl in H0. simpl in Fw. apply andb_true_iff in Fw as [F1 F2].
    assert (D19 : is_digit19 c = true).
    { unfold is_digit, is_digit19, in_range in *. bools. apply andb_true_iff. split; apply N.leb_le; lia. }
    assert (Hc : In c [49;50;51;52;53;54;55;56;57]).
    { unfold is_digit19, in_range in D19. bools.
      assert (c = 49 \/ c = 50 \/ c = 51 \/ c = 52 \/ c = 53 \/ c = 54 \/ c = 55 \/ c = 56 \/ c = 57) by lia.
      simpl. intuition. }
    simpl in Hc. assert (G : drop_while is_digit (r ++ t) = t) by (apply drop_while_exact; auto).
    repeat (destruct Hc as [Hc|Hc]; [subst c; cbn -[drop_while]; rewrite G; reflexivity|]). contradiction.
  - (* neg *) pose proof (Digits_forall w z H) as Fw. destruct w as [|c r]; [contradiction|].
    simpl in H0. simpl in Fw. apply andb_true_iff in Fw as [F1 F2].
    assert (D19 : is_digit19 c = true).
    { unfold is_digit, is_digit19, in_range in *. bools. apply andb_true_iff. split; apply N.leb_le; lia. }
    assert (G : drop_while is_digit (r ++ t) = t) by (apply drop_while_exact; auto).
    change (scan ((45 :: c :: r) ++ t)) with
      (match starts $"->" (45 :: c :: r ++ t) with
       | Some t' => Some (KArrow, t')
       | None => match (if is_digit19 c then Some (drop_while is_digit (r ++ t)) else None) with
                 | Some t' => Some (KInt, t') | None => None end end).
    replace (starts $"->" (45 :: c :: r ++ t)) with (@None (list N)).
    2:{ symmetry. apply starts_none. intros [x Hx]. inversion Hx. subst. discriminate. }
    rewrite D19, G. reflexivity.
  - (* str *) pose proof (scan_body_complete q b v t H H0) as G.
    rewrite <- app_comm_cons, <- app_assoc. cbn [app].
    destruct H; subst q; cbn -[scan_body]; rewrite G; reflexivity.
Qed.

Lemma name_split r : exists w, r = w ++ drop_while is_name_char r /\ Forall (fun x => is_name_char x = true) w.
Proof.
  destruct (drop_while_app is_name_char r) as [w [H1 H2]]. exists w. split; auto. apply forallb_Forall'; auto.
Qed.

Lemma scan_int_sound s t : scan_int s = Some t ->
  exists w v, s = w ++ t /\ TokText KInt w v /\ head_not is_digit t.
Proof.
  destruct s as [|c r]; [discriminate|]. cbn [scan_int].
  assert (P : forall d r', is_digit19 d = true -> exists w z, d :: r' = w ++ drop_while is_digit r' /\
     Digits w z /\ no_leading_zero w).
  { intros d r' Hd. destruct (drop_while_app is_digit r') as [w [H1 H2]].
    assert (Dd : is_digit d = true).
    { unfold is_digit, is_digit19, in_range in *. bools. apply andb_true_iff; split; apply N.leb_le; lia. }
    destruct (Digits_exists (d :: w)) as [z Hz]; [discriminate|simpl; rewrite Dd; auto|].
    exists (d :: w), z. split; [simpl; congruence|]. split; auto. simpl.
    unfold is_digit19, in_range in Hd. bools. lia. }
  destruct (c =? 48) eqn:E.
  - apply N.eqb_eq in E; subst c.
    assert (G : forall r, r = t -> head_not is_digit r -> exists w v, 48 :: r = w ++ t /\ TokText KInt w v /\ head_not is_digit t).
    { intros r0 -> Hn. exists [48], (VInt 0). split; [reflexivity|]. split; [apply TT_zero|exact Hn]. }
    destruct r as [|d r]; [|destruct (is_digit d) eqn:Ed; [discriminate|]]; (intro H; apply G; [congruence|]); [exact I|exact Ed].
  - destruct (is_digit19 c) eqn:E19.
    + intro H; inversion H; subst t. destruct (P c r E19) as [w [z [Hw [Hd Hz]]]].
      exists w, (VInt z). split; auto. split; [constructor; auto|apply head_not_drop].
    + destruct (c =? 45) eqn:E45; [|discriminate]. apply N.eqb_eq in E45; subst c.
      destruct r as [|d r]; [discriminate|]. destruct (is_digit19 d) eqn:Ed; [|discriminate].
      intro H; inversion H; subst t. destruct (P d r Ed) as [w [z [Hw [Hd Hz]]]].
      exists (45 :: w), (VInt (- z)). split; [simpl; congruence|]. split; [apply TT_neg; auto|apply head_not_drop].
Qed.

Lemma assocN_In {A} c (l : list (N * A)) k : assocN c l = Some k -> In (c, k) l.
Proof.
  induction l as [|[d a] l IH]; [discriminate|]. cbn [assocN]. destruct (c =? d) eqn:E.
  - intro H; inversion H; subst. apply N.eqb_eq in E; subst. left; reflexivity.
  - intro H. right; auto.
Qed.

Lemma scan_sound s k t : scan s = Some (k, t) ->
  exists w v, s = w ++ t /\ TokText k w v /\ follow_ok k t.
Proof.
  destruct s as [|c r]; [discriminate|]. unfold scan.
  destruct (starts $"True" (c :: r)) as [t1|] eqn:ET.
  { intro H; inversion H; subst. apply starts_app in ET. exists $"True", (VBool true).
    split; [exact ET|]. split; [constructor|exact I]. }
  destruct (starts $"False" (c :: r)) as [t1|] eqn:EF.
  { intro H; inversion H; subst. apply starts_app in EF. exists $"False", (VBool false).
    split; [exact EF|]. split; [constructor|exact I]. }
  apply starts_none in ET, EF.
  destruct (name_split r) as [w [Hw Fw]].
  destruct (is_lower c) eqn:El.
  { intro H; inversion H; subst. exists (c :: w), (VStr (c :: w)). split; [simpl; congruence|].
    split; [constructor; constructor; auto|apply head_not_drop]. }
  destruct (is_upper c) eqn:Eu.
  { intro H; inversion H; subst. exists (c :: w), (VStr (c :: w)). split; [simpl; congruence|].
    split; [|apply head_not_drop]. constructor; [constructor; auto|].
    intro B. apply (bool_prefixed_app _ (drop_while is_name_char r)) in B. rewrite <- app_comm_cons, <- Hw in B.
    destruct B; contradiction. }
  destruct (c =? 95) eqn:E95.
  { intro H; inversion H; subst. exists (c :: w), (VStr (c :: w)). split; [simpl; congruence|].
    split; [|apply head_not_drop]. constructor. constructor; auto. rewrite N.eqb_sym; exact E95. }
  destruct (assocN c single_tokens) as [k'|] eqn:Es.
  { intro H; inversion H; subst k' r. apply assocN_In in Es. exists [c], VNone. split; [reflexivity|].
    unfold single_tokens in Es. simpl in Es.
    repeat (destruct Es as [Es|Es]; [inversion Es; subst; split; [constructor|exact I]|]). contradiction. }
  destruct (starts $"..." (c :: r)) as [t1|] eqn:E1.
  { intro H; inversion H; subst. apply starts_app in E1. exists $"...", VNone. split; [exact E1|]. split; [constructor|exact I]. }
  destruct (starts $"->" (c :: r)) as [t1|] eqn:E2.
  { intro H; inversion H; subst. apply starts_app in E2. exists $"->", VNone. split; [exact E2|]. split; [constructor|exact I]. }
  destruct (scan_int (c :: r)) as [t1|] eqn:Ei.
  { intro H; inversion H; subst. apply scan_int_sound in Ei. exact Ei. }
  assert (Str : forall q, q = dq \/ q = sq -> scan_body q r = Some t ->
     exists w v, q :: r = w ++ t /\ TokText KStr w v /\ follow_ok KStr t).
  { intros q Hq H. destruct (scan_body_sound q Hq (length r) r t (Nat.le_refl _) H) as [b [v [Hb Hv]]].
    exists (q :: b ++ [q]), (VStr v). split; [simpl; rewrite <- app_assoc; simpl; congruence|].
    split; [constructor; auto|exact I]. }
  destruct (c =? dq) eqn:Ed.
  { apply N.eqb_eq in Ed; subst c. destruct (scan_body dq r) as [t1|] eqn:Eb; [|discriminate].
    intro H; inversion H; subst. apply Str; auto. }
  destruct (c =? sq) eqn:Eq; [|discriminate].
  apply N.eqb_eq in Eq; subst c. destruct (scan_body sq r) as [t1|] eqn:Eb; [|discriminate].
  intro H; inversion H; subst. apply Str; auto.
Qed.

Lemma scan_none s : scan s = None <-> NoToken s.
Proof.
  split.
  - intros H k w v rest E T F. subst. rewrite (scan_complete k w v rest T F) in H. discriminate.
  - intro H. destruct (scan s) as [[k t]|] eqn:E; auto. exfalso.
    apply scan_sound in E as [w [v [E [T F]]]]. exact (H k w v t E T F).
Qed.

Lemma TokText_NotBlank k w v rest : TokText k w v -> NotBlank (w ++ rest).
Proof.
  assert (G : forall c r, is_space c = false -> c <> 35 -> NotBlank ((c :: r) ++ rest)).
  { intros c r H1 H2. exists c, (r ++ rest). auto. }
  assert (Alpha : forall c, is_name_char c = true -> is_space c = false /\ c <> 35).
  { intros c H. assert (48 <= c <= 57 \/ 65 <= c <= 90 \/ c = 95 \/ 97 <= c <= 122).
    { unfold is_name_char, is_lower, is_upper, is_digit, in_range, is_c in H.
      repeat rewrite orb_true_iff in H. repeat rewrite andb_true_iff in H. repeat rewrite N.leb_le in H.
      rewrite N.eqb_eq in H. lia. }
    split; [|lia]. unfold is_space, in_range, is_c.
    repeat rewrite orb_false_iff. repeat rewrite andb_false_iff. repeat rewrite N.leb_gt. repeat rewrite N.eqb_neq.
    lia. }
  assert (Dig : forall c, is_digit c = true -> is_name_char c = true).
  { intros c H. unfold is_name_char. rewrite H. rewrite orb_true_r. reflexivity. }
  intro T. destruct T; try (apply G; [reflexivity|discriminate]).
  - destruct H as [c r Hc Hr]. apply G; apply Alpha; unfold is_name_char; rewrite Hc; reflexivity.
  - destruct H as [c r Hc Hr]. apply G; apply Alpha; unfold is_name_char; rewrite Hc, orb_true_r; reflexivity.
  - destruct H as [c r Hc Hr]. apply N.eqb_eq in Hc; subst. apply G; [reflexivity|discriminate].
  - pose proof (Digits_forall w z H) as F. destruct w as [|c r]; [contradiction|].
    simpl in F. apply andb_true_iff in F as [F _]. apply G; apply Alpha, Dig, F.
  - destruct H; subst; apply G; try reflexivity; discriminate.
Qed.
Lemma TokText_nonempty k w v : TokText k w v -> (0 < length w)%nat.
Proof.
  intro T. destruct T; simpl; try lia; try (destruct H; simpl; lia).
  apply Digits_nonempty in H. destruct w; [congruence|simpl; lia].
Qed.

(** ** blanks *)
Lemma Blank_ws_in_comment body w : Forall (fun c => c <> 10) body -> ws_go true (body ++ 10 :: w) = ws_go false (10 :: w).
Proof.
  intro F. induction F as [|c b Hc F IH]; [reflexivity|]. cbn [app ws_go].
  apply N.eqb_neq in Hc. rewrite Hc. exact IH.
Qed.
Lemma Blank_ws g rest : Blank false g -> NotBlank rest -> ws (g ++ rest) = rest.
Proof.
  intros H [c [r [E [H1 H2]]]]. unfold ws. induction H as [|d w Hd H IH|body w F H IH|body E' F].
  - subst rest. simpl. rewrite H1. apply N.eqb_neq in H2. rewrite H2. reflexivity.
  - cbn [app ws_go]. rewrite Hd. exact IH.
  - cbn [app]. rewrite <- app_assoc. cbn [ws_go]. cbn -[ws_go].
    rewrite Blank_ws_in_comment by exact F. exact IH.
  - discriminate.
Qed.
Lemma Blank_ws_end g : Blank true g -> ws g = [].
Proof.
  unfold ws. induction 1 as [|d w Hd H IH|body w F H IH|body E' F].
  - reflexivity.
  - cbn [ws_go]. rewrite Hd. exact IH.
  - cbn [ws_go]. cbn -[ws_go]. rewrite Blank_ws_in_comment by exact F. exact IH.
  - cbn [ws_go]. cbn -[ws_go]. induction F as [|c b Hc F IH]; [reflexivity|]. cbn [ws_go].
    apply N.eqb_neq in Hc. rewrite Hc. exact IH.
Qed.
Lemma ws_sound s :
  (ws s = [] /\ Blank true s) \/
  exists g, s = g ++ ws s /\ Blank false g /\ NotBlank (ws s).
Proof.
  (* generalised over being inside a comment *)
  assert (G : forall s b,
    (ws_go b s = [] /\ (if b then exists body, (s = body /\ Forall (fun c => c <> 10) body) \/
                                   (exists w, s = body ++ 10 :: w /\ Forall (fun c => c <> 10) body /\ Blank true (10 :: w))
                        else Blank true s)) \/
    exists g, s = g ++ ws_go b s /\ NotBlank (ws_go b s) /\
       (if b then exists body w, g = body ++ 10 :: w /\ Forall (fun c => c <> 10) body /\ Blank false (10 :: w)
        else Blank false g)).
  { clear s. induction s as [|c s IH]; intro b.
    - left. split; [reflexivity|]. destruct b; [|constructor]. exists []. left. split; [reflexivity|constructor].
    - cbn [ws_go]. destruct b.
      + destruct (c =? 10) eqn:E.
        * apply N.eqb_eq in E; subst c. destruct (IH false) as [[H1 H2]|[g [H1 [H2 H3]]]].
          -- left. split; auto. exists []. right. exists s. split; [reflexivity|]. split; [constructor|].
             apply Blank_space; auto.
          -- right. exists (10 :: g). split; [simpl; congruence|]. split; auto.
             exists [], g. split; [reflexivity|]. split; [constructor|]. apply Blank_space; auto.
        * apply N.eqb_neq in E. destruct (IH true) as [[H1 [body [[H2 H3]|[w [H2 [H3 H4]]]]]]|[g [H1 [H2 [body [w [H3 [H4 H5]]]]]]]].
          -- left. split; auto. exists (c :: body). left. subst. split; [reflexivity|constructor; auto].
          -- left. split; auto. exists (c :: body). right. exists w. subst. split; [reflexivity|]. split; [constructor; auto|auto].
          -- right. exists (c :: g). split; [simpl; congruence|]. split; auto.
             exists (c :: body), w. subst g. split; [reflexivity|]. split; [constructor; auto|auto].
      + destruct (is_space c) eqn:Es.
        * destruct (IH false) as [[H1 H2]|[g [H1 [H2 H3]]]].
          -- left. split; auto. apply Blank_space; auto.
          -- right. exists (c :: g). split; [simpl; congruence|]. split; auto. apply Blank_space; auto.
        * destruct (c =? 35) eqn:E.
          -- apply N.eqb_eq in E; subst c. destruct (IH true) as [[H1 [body [[H2 H3]|[w [H2 [H3 H4]]]]]]|[g [H1 [H2 [body [w [H3 [H4 H5]]]]]]]].
             ++ left. split; auto. subst. apply Blank_comment_end; auto.
             ++ left. split; auto. subst. apply Blank_comment; auto.
             ++ right. exists (35 :: g). split; [simpl; congruence|]. split; auto. subst g. apply Blank_comment; auto.
          -- right. exists []. split; [reflexivity|]. split; [|constructor]. exists c, s. split; auto. split; auto.
             apply N.eqb_neq; auto. }
  destruct (G s false) as [H|[g [H1 [H2 H3]]]]; [left; exact H|right; exists g; auto].
Qed.

(** ** the loop *)
Lemma firstn_exact {A} (w r : list A) : firstn (length (w ++ r) - length r) (w ++ r) = w.
Proof. rewrite app_length. replace (length w + length r - length r)%nat with (length w) by lia. 
  rewrite firstn_app, Nat.sub_diag, firstn_all. simpl. apply app_nil_r. Qed.

Lemma lex_loop_complete pos0 s0 ts err : Tiles pos0 s0 ts err ->
  forall n pos s, s = ws s0 -> pos = (pos0 + (length s0 - length s))%nat -> (length s <= n)%nat ->
  lex_loop n pos s = (ts, err).
Proof.
  induction 1 as [pos0 g Hg|pos0 g k w v rest ts err Hg Ht Hd Hf Htl IH|pos0 g rest Hg Hb Hn|pos0 g w v rest Hg Ht Hd];
    intros n pos s Hs Hp Hl.
  - rewrite Blank_ws_end in Hs by exact Hg. subst s. destruct n; reflexivity.
  - rewrite Blank_ws in Hs by (auto; eapply TokText_NotBlank; eauto).
    pose proof (TokText_nonempty k w v Ht) as Hw.
    destruct n as [|n]; [subst s; rewrite app_length in Hl; lia|].
    destruct s as [|c s']; [destruct w; [simpl in Hw; lia|discriminate]|].
    cbn [lex_loop]. rewrite Hs. rewrite first_match_scan, (scan_complete k w v rest Ht Hf).
    rewrite firstn_exact, (tok_val_ok k w v Ht Hd), skip_ws_ws.
    assert (Hpos : pos = (pos0 + length g)%nat).
    { rewrite Hp, Hs. rewrite app_length. lia. }
    assert (Hlen : (length (w ++ rest) - length rest)%nat = length w) by (rewrite app_length; lia).
    rewrite Hlen.
    destruct (ws_go_suffix false rest) as [x Hx]. fold (ws rest) in Hx.
    assert (Hr : (length (ws rest) <= length rest)%nat).
    { rewrite Hx at 2. rewrite app_length. lia. }
    rewrite (IH n (pos + length w + (length rest - length (ws rest)))%nat (ws rest));
      [rewrite Hpos; reflexivity|reflexivity|lia|].
    rewrite Hs, app_length in Hl. lia.
  - rewrite Blank_ws in Hs by auto. subst s. destruct Hb as [c [r [E _]]]. 
    assert (Hpos : pos = (pos0 + length g)%nat) by (rewrite Hp, app_length; lia).
    destruct n as [|n]; [rewrite E in Hl; simpl in Hl; lia|].
    rewrite E. cbn [lex_loop]. rewrite <- E, first_match_scan. apply scan_none in Hn. rewrite Hn, Hpos. reflexivity.
  - rewrite Blank_ws in Hs by (auto; eapply TokText_NotBlank; eauto).
    pose proof (TokText_nonempty _ w v Ht) as Hw.
    destruct n as [|n]; [subst s; rewrite app_length in Hl; lia|].
    destruct s as [|c s']; [destruct w; [simpl in Hw; lia|discriminate]|].
    cbn [lex_loop]. rewrite Hs. rewrite first_match_scan, (scan_complete _ w v rest Ht I).
    rewrite firstn_exact, (tok_val_bad w v Ht Hd). reflexivity.
Qed.

Lemma Tiles_total : forall n s0 pos0, (length s0 <= n)%nat -> exists ts err, Tiles pos0 s0 ts err.
Proof.
  induction n as [|n IH]; intros s0 pos0 Hn.
  - destruct s0; [|simpl in Hn; lia]. exists [], None. apply Tiles_end. constructor.
  - destruct (ws_sound s0) as [[H1 H2]|[g [H1 [H2 H3]]]].
    + exists [], None. apply Tiles_end; auto.
    + destruct (scan (ws s0)) as [[k t]|] eqn:E.
      * apply scan_sound in E as [w [v [E [T F]]]].
        pose proof (TokText_nonempty k w v T) as Hw.
        destruct (Decodable_dec k w) as [D|[-> D]].
        -- destruct (IH t (pos0 + length g + length w)%nat) as [ts [err HT]].
           { rewrite H1, E, !app_length in Hn. lia. }
           rewrite H1, E. eexists _, err. eapply Tiles_tok; eauto.
        -- rewrite H1, E. eexists _, _. eapply Tiles_value; eauto.
      * apply scan_none in E. rewrite H1. eexists _, _. apply Tiles_syntax; auto.
Qed.

(** The lexer's output is exactly the tiling of the text. *)
Theorem lex_Tiles s ts err : lex s = (ts, err) <-> Tiles 0 s ts err.
Proof.
  assert (C : forall ts err, Tiles 0 s ts err -> lex s = (ts, err)).
  { intros ts' err' H. unfold lex. eapply lex_loop_complete; eauto.
    - apply skip_ws_ws.
    - rewrite skip_ws_ws. destruct (ws_go_suffix false s) as [x Hx]. fold (ws s) in Hx.
      rewrite Hx at 2. rewrite app_length. lia. }
  split; [|apply C]. intro H. destruct (Tiles_total (length s) s 0 (Nat.le_refl _)) as [ts' [err' H']].
  rewrite (C ts' err' H') in H. inversion H; subst. exact H'.
Qed.

(** ** spans *)
Lemma skipn_exact {A} (w r : list A) : skipn (length w) (w ++ r) = r.
Proof. rewrite skipn_app, Nat.sub_diag, skipn_all. reflexivity. Qed.
Lemma sub_mid p g r : sub (p ++ g ++ r) (length p) (length p + length g) = g.
Proof.
  unfold sub. rewrite skipn_exact. replace (length p + length g - length p)%nat with (length g) by lia.
  rewrite firstn_app, Nat.sub_diag, firstn_all. simpl. apply app_nil_r.
Qed.

Lemma Tiles_Spans pos s ts err : Tiles pos s ts err ->
  forall p, length p = pos -> Spans (p ++ s) pos ts err.
Proof.
  induction 1 as [pos g Hg|pos g k w v rest ts err Hg Ht Hd Hf Htl IH|pos g rest Hg Hb Hn|pos g w v rest Hg Ht Hd];
    intros p Hp; cbn [Spans tk_start tk_end tk_kind tk_val].
  - subst pos. rewrite skipn_exact. exact Hg.
  - pose proof (TokText_nonempty k w v Ht) as Hw.
    subst pos. rewrite sub_mid.
    assert (Hpg : length (p ++ g) = (length p + length g)%nat) by apply app_length.
    replace (p ++ g ++ w ++ rest) with ((p ++ g) ++ w ++ rest) by (rewrite <- !app_assoc; reflexivity).
    rewrite <- Hpg. rewrite sub_mid.
    assert (Hpw : length ((p ++ g) ++ w) = (length (p ++ g) + length w)%nat) by apply app_length.
    replace ((p ++ g) ++ w ++ rest) with (((p ++ g) ++ w) ++ rest) by (rewrite <- !app_assoc; reflexivity).
    rewrite <- Hpw. rewrite skipn_exact.
    split; [rewrite Hpg; lia|]. split; [rewrite Hpw; lia|]. split; [rewrite (app_length _ rest); lia|]. split; [assumption|].
    split; [assumption|]. split; [assumption|].
    rewrite Hpw, Hpg in *. apply IH. rewrite !app_length. reflexivity.
  - subst pos. rewrite sub_mid. rewrite !app_length.
    replace (p ++ g ++ rest) with ((p ++ g) ++ rest) by (rewrite <- !app_assoc; reflexivity).
    rewrite <- (app_length p g). rewrite skipn_exact.
    destruct Hb as [c [r [E Hb]]]. subst rest. simpl (length (c :: r)). rewrite app_length.
    split; [reflexivity|]. split; [lia|]. split; [lia|]. split; [assumption|]. split; [|assumption]. exists c, r. auto.
  - split; [reflexivity|]. exists (pos + length g)%nat, w, v, rest. subst pos. rewrite sub_mid.
    replace (p ++ g ++ w ++ rest) with ((p ++ g) ++ w ++ rest) by (rewrite <- !app_assoc; reflexivity).
    rewrite <- (app_length p g). rewrite skipn_exact. rewrite app_length.
    split; [lia|]. split; [assumption|]. split; [reflexivity|]. split; assumption.
Qed.
Theorem lex_Spans s ts err : lex s = (ts, err) -> Spans s 0 ts err.
Proof. intro H. apply lex_Tiles in H. exact (Tiles_Spans 0 s ts err H [] eq_refl). Qed.

(** ** layouts *)
Lemma Layout_Tiles l s : Layout l s -> forall pos, exists ts, Tiles pos s ts None /\ map kind_val ts = l.
Proof.
  induction 1 as [g Hg|g k w v rest l Hg Ht Hd Hf Hl IH]; intro pos.
  - exists []. split; [constructor; auto|reflexivity].
  - destruct (IH (pos + length g + length w)%nat) as [ts [H1 H2]].
    eexists. split; [eapply Tiles_tok; eauto|]. cbn [map kind_val tk_kind tk_val]. unfold kind_val at 1. simpl. congruence.
Qed.
Lemma Tiles_Layout pos s ts err : Tiles pos s ts err -> err = None -> Layout (map kind_val ts) s.
Proof.
  induction 1 as [pos g Hg|pos g k w v rest ts err Hg Ht Hd Hf Htl IH|pos g rest Hg Hb Hn|pos g w v rest Hg Ht Hd];
    intro E; try discriminate.
  - constructor; auto.
  - cbn [map]. unfold kind_val at 1. simpl. eapply Layout_tok; eauto.
Qed.
Theorem lex_Layout s l : Layout l s <-> exists ts, lex s = (ts, None) /\ map kind_val ts = l.
Proof.
  split.
  - intro H. destruct (Layout_Tiles l s H 0) as [ts [H1 H2]]. exists ts. split; auto. apply lex_Tiles; auto.
  - intros [ts [H1 H2]]. apply lex_Tiles in H1. rewrite <- H2. eapply Tiles_Layout; eauto.
Qed.

(** ** identifiers *)
Lemma Ident_kind w : Ident w -> ~ bool_prefixed w ->
  exists k, TokText k w (VStr w) /\ (k = KLower \/ k = KUpper \/ k = KOther).
Proof.
  intros [c r Hc Hr] Hb. apply orb_true_iff in Hc as [Hc|Hc]; [apply orb_true_iff in Hc as [Hc|Hc]|].
  - exists KLower. split; [constructor; constructor; auto|auto].
  - exists KUpper. split; [constructor; [constructor; auto|auto]|auto].
  - exists KOther. split; [constructor; constructor; auto|auto].
Qed.
Lemma lex_one k w v : TokText k w v -> Decodable k w ->
  lex w = ([{| tk_kind := k; tk_val := v; tk_start := 0; tk_end := length w |}], None).
Proof.
  intros T D. apply lex_Tiles.
  pose proof (Tiles_tok 0 [] k w v [] [] None) as H. simpl in H. rewrite !app_nil_r in H.
  apply H; auto; [constructor|destruct k; exact I|constructor; constructor].
Qed.
Theorem ident_one_token w : Ident w -> ~ bool_prefixed w ->
  exists k, (k = KLower \/ k = KUpper \/ k = KOther) /\
    lex w = ([{| tk_kind := k; tk_val := VStr w; tk_start := 0; tk_end := length w |}], None).
Proof.
  intros H1 H2. destruct (Ident_kind w H1 H2) as [k [T Hk]]. exists k. split; auto.
  apply lex_one; auto. intros ->. intuition discriminate.
Qed.
Theorem ident_bool_prefixed w : bool_prefixed w ->
  exists (b : bool) n ts err, lex w = ({| tk_kind := KBool; tk_val := VBool b; tk_start := 0; tk_end := n |} :: ts, err)
    /\ w = (if b then $"True" else $"False") ++ skipn n w /\ n = length (if b then $"True" else $"False").
Proof.
  assert (G : forall (b : bool) (r : str), exists ts err, lex ((if b then $"True" else $"False") ++ r) =
     ({| tk_kind := KBool; tk_val := VBool b; tk_start := 0; tk_end := length (if b then $"True" else $"False") |} :: ts, err)).
  { intros b r. destruct (Tiles_total (length r) r (length (if b then $"True" else $"False")) (Nat.le_refl _)) as [ts [err H]].
    exists ts, err. apply lex_Tiles.
    apply (Tiles_tok 0 [] KBool (if b then $"True" else $"False") (VBool b) r ts err); auto.
    - constructor.
    - destruct b; constructor.
    - intro; discriminate.
    - exact I. }
  intros [[r E]|[r E]].
  - destruct (G true r) as [ts [err H]]. exists true, 4%nat, ts, err. rewrite E. split; [exact H|split; reflexivity].
  - destruct (G false r) as [ts [err H]]. exists false, 5%nat, ts, err. rewrite E. split; [exact H|split; reflexivity].
Qed.
