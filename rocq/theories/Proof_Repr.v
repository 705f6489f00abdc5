(** Characters of printed datashapes; [repr] (C53). *)
From Verif Require Import Base Types Lexer Printer Construct Parser Ops Preds Numpy Objects
  Spec_Eq Spec_WF Spec_Ops Spec_Preds Spec_Objects Proof_WF Proof_Eq Proof_Ops Proof_Objects.
Local Open Scope Z_scope.

Definition QC (U : uni) (c : char) : Prop := QuietChar U c \/ c = 10%N \/ c = 39%N.
Lemma QC_Bare U s : Forall (QC U) s -> Bare s.
Proof.
  intro H. eapply Forall_impl; [|exact H]. intros c [[[H1 [H2 [H3 H4]]]|[H1 _]]|[->| ->]]; (split; [|split]); try discriminate; auto; lia.
Qed.
Lemma asciis U (s : str) : forallb (fun c => (32 <=? c) && (c <=? 126) && negb (N.eqb c 34) && negb (N.eqb c 92) || N.eqb c 10)%N s = true -> Forall (QC U) s.
Proof.
  intro H. apply Forall_forall. intros c Hc. rewrite forallb_forall in H. specialize (H c Hc).
  apply orb_true_iff in H as [H|H]; [|right; left; apply N.eqb_eq; auto].
  apply andb_true_iff in H as [H H4]. apply andb_true_iff in H as [H H3]. apply andb_true_iff in H as [H1 H2].
  apply N.leb_le in H1. apply N.leb_le in H2. apply negb_true_iff, N.eqb_neq in H3. apply negb_true_iff, N.eqb_neq in H4.
  destruct (N.eq_dec c 39) as [->|N9]; [right; right; auto|]. left. left. auto.
Qed.
Lemma quiet_existsb U q s : QuietText U s -> In q [34%N; 39%N] -> existsb (N.eqb q) s = false.
Proof.
  intros H Hq. destruct (existsb _ _) eqn:E; auto. apply existsb_exists in E as [c [Hc E]]. apply N.eqb_eq in E. subst c.
  unfold QuietText in H. rewrite Forall_forall in H. specialize (H q Hc). destruct Hq as [<-|[<-|[]]]; destruct H as [[_ [? [? ?]]]|[H _]]; try congruence; lia.
Qed.
Lemma quiet_repr U s : QuietText U s -> repr_str U s = [39%N] ++ s ++ [39%N].
Proof.
  intro H. unfold repr_str, repr_quote. rewrite (quiet_existsb U sq s H) by (simpl; auto). cbn [andb]. cbn [app]. f_equal. f_equal.
  induction H as [|c s Hc _ IH]; [reflexivity|]. cbn [flat_map]. rewrite IH. unfold repr_char.
  assert (X : [c] = (if N.eqb c sq || N.eqb c bsl then [bsl; c]
  else if N.eqb c 9 then [bsl; 116%N]
  else if N.eqb c 10 then [bsl; 110%N]
  else if N.eqb c 13 then [bsl; 114%N]
  else if (c <? 32)%N || N.eqb c 127 then bsl :: 120%N :: hexn 2 c
  else if (c <? 127)%N then [c]
  else if e_print U c then [c]
  else if (c <? 256)%N then bsl :: 120%N :: hexn 2 c
  else if (c <? 65536)%N then bsl :: 117%N :: hexn 4 c
  else bsl :: 85%N :: hexn 8 c)).
  { unfold sq, bsl.
    destruct (N.eqb_spec c 39) as [->|N1]; [exfalso; destruct Hc as [[_ [_ [? _]]]|[? _]]; [congruence|lia]|].
    destruct (N.eqb_spec c 92) as [->|N2]; [exfalso; destruct Hc as [[_ [_ [_ ?]]]|[? _]]; [congruence|lia]|]. cbn [orb].
    destruct (N.eqb_spec c 9); [exfalso; destruct Hc as [[? _]|[? _]]; lia|].
    destruct (N.eqb_spec c 10); [exfalso; destruct Hc as [[? _]|[? _]]; lia|].
    destruct (N.eqb_spec c 13); [exfalso; destruct Hc as [[? _]|[? _]]; lia|].
    destruct (N.ltb_spec c 32); [exfalso; destruct Hc as [[? _]|[? _]]; lia|]. cbn [orb].
    destruct (N.eqb_spec c 127); [exfalso; destruct Hc as [[? _]|[? _]]; lia|].
    destruct (N.ltb_spec c 127); [reflexivity|]. destruct Hc as [[? _]|[_ ->]]; [lia|reflexivity]. }
  rewrite <- X. reflexivity.
Qed.
Lemma QC_quiet U s : QuietText U s -> Forall (QC U) s.
Proof. apply Forall_impl. intros; left; auto. Qed.
Lemma QC_repr U s : QuietText U s -> Forall (QC U) (repr_str U s).
Proof.
  intro H. rewrite quiet_repr by auto. assert (X : QC U 39%N) by (right; right; reflexivity).
  constructor; auto. apply Forall_app. split; [apply QC_quiet; auto|constructor; auto].
Qed.
Lemma QC_join U sep l : Forall (QC U) sep -> Forall (Forall (QC U)) l -> Forall (QC U) (join sep l).
Proof.
  intros H. induction 1 as [|x l Hx Hl IH]; [constructor|]. cbn [join]. destruct l; [exact Hx|]. apply Forall_app; split; auto. apply Forall_app; split; auto.
Qed.
Lemma digit_QC U n : QC U (48 + n mod 10)%N.
Proof. assert (H : (n mod 10 < 10)%N) by (apply N.mod_lt; discriminate). revert H. generalize (n mod 10)%N. intros d H. left. left. lia. Qed.
Lemma QC1 U c : QC U c -> Forall (QC U) [c].
Proof. intro; constructor; auto. Qed.
Lemma dec_digits_QC U n k : Forall (QC U) (dec_digits n k).
Proof.
  revert k; induction n as [|n IH]; intro k; cbn [dec_digits]; [apply QC1, digit_QC|].
  destruct (N.ltb_spec k 10); [apply QC1; left; left; lia|]. apply Forall_app. split; [apply IH|apply QC1, digit_QC].
Qed.
Lemma z2s_QC U z : Forall (QC U) (z2s z).
Proof.
  destruct z; cbn [z2s]; unfold n2s; [apply QC1; left; left; lia|apply dec_digits_QC|].
  constructor; [left; left; lia|apply dec_digits_QC].
Qed.
Lemma indent_QC U s : Forall (QC U) s -> Forall (QC U) (indent_nl s).
Proof.
  induction 1 as [|c s Hc _ IH]; [constructor|]. cbn [indent_nl]. assert (X : QC U 32%N) by (left; left; lia). assert (Y : QC U 10%N) by (right; left; auto).
  destruct (N.eqb c 10); auto.
Qed.
Lemma layout_QC U r w op cl items : QC U op -> QC U cl -> Forall (Forall (QC U)) items -> Forall (QC U) (layout r w op cl items).
Proof.
  intros H1 H2 H. unfold layout. destruct (_ <? _)%Z.
  - constructor; auto. apply Forall_app. split; [apply QC_join; auto; apply asciis; reflexivity|apply QC1; auto].
  - apply indent_QC. constructor; auto. constructor; [right; left; auto|]. apply Forall_app. split; [apply QC_join; auto; apply asciis; reflexivity|].
    constructor; [right; left; auto|]. apply QC1; auto.
Qed.
Lemma field_name_QC U n : QuietText U n -> Forall (QC U) (field_name U n).
Proof. intro H. unfold field_name. destruct (isidentifier n); [apply QC_quiet|apply QC_repr]; auto. Qed.
Lemma cats_QC U c : (forall s, In (LStr s) c -> QuietText U s) -> Forall (QC U) (format_categories U c).
Proof.
  intro H. unfold format_categories. apply Forall_app. split; [apply asciis; reflexivity|]. apply Forall_app. split.
  - apply QC_join; [apply asciis; reflexivity|]. apply Forall_forall. intros x Hx. apply in_map_iff in Hx as [l [<- Hl]].
    assert (Hl' : In l c) by (rewrite <- (firstn_skipn 10 c); apply in_app_iff; left; exact Hl). clear Hl.
    destruct l as [z|[]|s]; cbn [repr_lit]; [apply z2s_QC|apply asciis; reflexivity|apply asciis; reflexivity|apply QC_repr; auto].
  - apply Forall_app. split; [destruct (Nat.ltb _ _); [apply asciis; reflexivity|constructor]|apply asciis; reflexivity].
Qed.
Lemma QC_app U a b : Forall (QC U) a -> Forall (QC U) b -> Forall (QC U) (a ++ b).
Proof. intros. apply Forall_app; auto. Qed.
Ltac qc := repeat (simple apply QC_app); auto using z2s_QC, QC_repr; try (apply asciis; reflexivity).
Lemma Quiet_child U t c : Quiet U t -> In c (children t) -> Quiet U c.
Proof. intros H Hc u s Hu Hs. apply (H u s); auto. eapply Occurs_in; eauto. Qed.
Lemma Quiet_here U t s : Quiet U t -> In s (texts t) -> QuietText U s.
Proof. intros H Hs. apply (H t s); auto. constructor. Qed.
Lemma pp_QC U t : Quiet U t -> forall m, Forall (QC U) (pp U m t).
Proof.
  assert (ML : forall (l : list ty) f, (forall x, In x l -> Forall (QC U) (f x)) -> Forall (Forall (QC U)) (map f l)).
  { intros l f H. apply Forall_forall. intros y Hy. apply in_map_iff in Hy as [x [<- Hx]]. auto. }
  induction t using ty_ind'; intros HQ m; cbn [pp]; try (apply asciis; reflexivity);
    try (pose proof (fun s => Quiet_here U _ s HQ) as HT; cbn [texts] in HT).
  - apply QC_quiet, HT. left; auto.
  - destruct z as [z|]; qc. apply QC_repr, HT. left; auto.
  - destruct z as [z|]; qc. apply QC_repr, HT. left; auto.
  - qc. apply QC_repr, HT. left; auto.
  - assert (QuietText U u) by (apply HT; left; auto).
    assert (Quiet U t) by (eapply Quiet_child; [exact HQ|left; auto]). destruct (is_DS_float64 t); qc.
  - assert (QuietText U e) by (apply HT; left; auto). destruct f; destruct (str_eqb _ _); qc.
  - qc.
  - qc.
  - apply QC_quiet, HT. left; auto.
  - destruct o as [s|]; qc. apply QC_quiet, HT. left; auto.
  - assert (HP : forall x, In x ps -> forall m, Forall (QC U) (pp U m x)).
    { rewrite Forall_forall in H. intros x Hx. apply H; auto. eapply Quiet_child; eauto. }
    assert (HJ : Forall (QC U) (join $" * " (map (pp U MStr) ps))) by (apply QC_join; [apply asciis; reflexivity|apply ML; auto]).
    destruct m as [|w|r w]; [|clear HJ|].
    + destruct n as [[|c n]|]; auto. apply QC_quiet, HT. left; auto.
    + clear H HT HQ. assert (HA : Forall (QC U) []) by constructor. revert HA. generalize (@nil char).
      induction ps as [|x ps IH]; intros acc HA; [exact HA|]. destruct ps as [|y ps].
      * apply QC_app; auto. apply HP. left; auto.
      * apply IH; [intros; apply HP; right; auto|]. qc. apply HP. left; auto.
    + destruct n as [[|c n]|]; auto. apply QC_quiet, HT. left; auto.
  - qc. apply IHt. eapply Quiet_child; [exact HQ|left; auto].
  - assert (HP : Forall (Forall (QC U)) (map (pp U MStr) ps)).
    { rewrite Forall_forall in H. apply ML. intros x Hx. apply H; auto. eapply Quiet_child; eauto. }
    qc.
    + apply QC_join; [apply asciis; reflexivity|]. apply Forall_forall. intros x Hx. rewrite Forall_forall in HP. apply HP. apply in_removelast; auto.
    + clear -HP. induction HP as [|x l Hx Hl IH]; [constructor|]. cbn [last]. destruct l; auto.
  - qc; [apply IHt1|apply IHt2]; (eapply Quiet_child; [exact HQ|simpl; auto]).
  - assert (HP : forall n x, In (n, x) fs -> QuietText U n /\ forall m, Forall (QC U) (pp U m x)).
    { rewrite Forall_forall in H. intros n x Hx. split; [apply HT; apply in_map_iff; exists (n, x); auto|].
      apply (H (n, x) Hx). eapply Quiet_child; [exact HQ|]. apply in_map_iff. exists (n, x); auto. }
    assert (B : QC U 123%N /\ QC U 125%N) by (split; left; left; lia). destruct B as [B1 B2].
    destruct m; (apply layout_QC; auto; apply Forall_forall; intros y Hy; apply in_map_iff in Hy as [[n x] [<- Hx]];
      destruct (HP n x Hx) as [X1 X2]; cbn [fst snd]; qc; apply field_name_QC; auto).
  - qc; [|apply IHt; eapply Quiet_child; [exact HQ|left; auto]|destruct o; apply asciis; reflexivity].
    apply cats_QC. intros s Hs. apply HT. apply in_flat_map. exists (LStr s). split; auto. left; auto.
  - assert (HP : forall x, In x ds -> forall m, Forall (QC U) (pp U m x)).
    { rewrite Forall_forall in H. intros x Hx. apply H; auto. eapply Quiet_child; eauto. }
    assert (B : QC U 40%N /\ QC U 41%N) by (split; left; left; lia). destruct B as [B1 B2].
    destruct m; [qc; apply QC_join; [apply asciis; reflexivity|apply ML; auto]| |]; (apply layout_QC; auto).
Qed.
Lemma Quiet_Bare U m t : Quiet U t -> Bare (pp U m t).
Proof. intro H. eapply QC_Bare, pp_QC; eauto. Qed.
Lemma in_quotes_Literal s : Bare s -> Literal (in_quotes s) s.
Proof.
  intro H. unfold in_quotes, dq. destruct (existsb _ _) eqn:E; constructor; auto.
  intro X. assert (Y : existsb (N.eqb 10) s = true) by (apply existsb_exists; exists 10%N; auto). congruence.
Qed.
