(** Printed text: tokens separated by blanks. *)
From Verif Require Import Base Types Lexer Printer Construct Spec_Lexer Spec_WF Spec_Print Proof_Lexer.
Local Open Scope N_scope.

(** ** pieces: tokens without newline, spaces and newlines *)
Notation word := (list (kind * tval)).
Inductive Pieces : word -> str -> Prop :=
| P_nil : Pieces [] []
| P_blank c w s : c = 32 \/ c = 10 -> Pieces w s -> Pieces w (c :: s)
| P_tok k v x w s : TokText k x v -> Decodable k x -> ~ In 10 x -> follow_ok k s ->
    Pieces w s -> Pieces ((k, v) :: w) (x ++ s).
Definition clean (s : str) : Prop := head_not is_name_char s.

Lemma clean_follow k s : clean s -> follow_ok k s.
Proof.
  unfold clean, follow_ok. intro H. destruct k; auto. destruct s as [|c s]; simpl in *; auto.
  destruct (is_digit c) eqn:E; auto. unfold is_name_char in H. rewrite E in H.
  destruct (is_lower c); destruct (is_upper c); discriminate.
Qed.
Lemma follow_app k s r : follow_ok k s -> clean r -> follow_ok k (s ++ r).
Proof. intros H C. destruct s; [apply clean_follow; auto|]. destruct k; exact H. Qed.
Lemma Pieces_app w1 s1 w2 s2 : Pieces w1 s1 -> Pieces w2 s2 -> clean s2 -> Pieces (w1 ++ w2) (s1 ++ s2).
Proof.
  intros H H2 C. induction H; simpl; auto.
  - constructor; auto.
  - rewrite <- app_assoc. constructor; auto. apply follow_app; auto.
Qed.
Lemma Pieces_tok k v x : TokText k x v -> Decodable k x -> ~ In 10 x -> Pieces [(k, v)] x.
Proof. intros. rewrite <- (app_nil_r x). constructor; auto; [destruct k; exact I|constructor]. Qed.
(** a token of fixed text needs nothing of what follows *)
Lemma Pieces_punct k v x w s : TokText k x v -> (k <> KStr) -> ~ In 10 x ->
  (follow_ok k s) -> Pieces w s -> Pieces ((k, v) :: w) (x ++ s).
Proof. intros. constructor; auto. intro; contradiction. Qed.

Lemma Layout_space l s c : is_space c = true -> Layout l s -> Layout l (c :: s).
Proof.
  intros Hc H. destruct H as [g Hg|g k w v rest l Hg Ht Hd Hf Hl].
  - apply Layout_end. constructor; auto.
  - apply (Layout_tok (c :: g)); auto. constructor; auto.
Qed.
Lemma Pieces_Layout w s : Pieces w s -> Layout w s.
Proof.
  induction 1 as [|c w s Hc _ IH|k v x w s Ht Hd Hn Hf _ IH].
  - apply Layout_end. constructor.
  - apply Layout_space; auto. destruct Hc; subst; reflexivity.
  - apply (Layout_tok []); auto. constructor.
Qed.

(** indenting only adds blanks *)
Lemma indent_app x s : ~ In 10 x -> indent_nl (x ++ s) = x ++ indent_nl s.
Proof.
  induction x as [|c x IH]; intro H; auto. simpl. destruct (N.eqb_spec c 10) as [->|Hc].
  - exfalso. apply H. left; auto.
  - f_equal. apply IH. intro. apply H. right; auto.
Qed.
Lemma indent_head p s : head_not p s -> head_not p (indent_nl s).
Proof. destruct s as [|c s]; auto. simpl. destruct (N.eqb c 10) eqn:E; auto. apply N.eqb_eq in E; subst; auto. Qed.
Lemma Pieces_indent w s : Pieces w s -> Pieces w (indent_nl s).
Proof.
  induction 1 as [|c w s Hc _ IH|k v x w s Ht Hd Hn Hf _ IH].
  - constructor.
  - simpl. destruct (N.eqb c 10); repeat (constructor; auto).
  - rewrite indent_app by auto. constructor; auto. destruct k; try exact I; apply indent_head; exact Hf.
Qed.

(** ** integers *)
Lemma digit_char n : n < 10 -> is_digit (48 + n) = true.
Proof. intro H. unfold is_digit, in_range. apply andb_true_iff. split; apply N.leb_le; lia. Qed.
Lemma Digits_unit n : n < 10 -> Digits [48 + n] (Z.of_N n).
Proof.
  intro H. replace (Z.of_N n) with (Z.of_N ((48 + n) - 48)) by (f_equal; lia).
  constructor. apply digit_char; auto.
Qed.
Lemma dec_digits_spec f : forall n, n < 10 * 2 ^ N.of_nat f ->
  Digits (dec_digits f n) (Z.of_N n) /\ (0 < n -> no_leading_zero (dec_digits f n)) /\
  Forall (fun c => is_digit c = true) (dec_digits f n).
Proof.
  induction f as [|f IH]; intros n H.
  - cbn [dec_digits]. change (10 * 2 ^ N.of_nat 0) with 10 in H. rewrite N.mod_small by lia. split; [|split].
    + apply Digits_unit; auto.
    + intros; unfold no_leading_zero; lia.
    + constructor; auto. apply digit_char; auto.
  - cbn [dec_digits]. destruct (N.ltb_spec n 10) as [Hn|Hn].
    + split; [apply Digits_unit; auto|split; [intros; unfold no_leading_zero; lia|constructor; auto; apply digit_char; auto]].
    + assert (Hd : n / 10 < 10 * 2 ^ N.of_nat f).
      { apply N.div_lt_upper_bound; [lia|]. rewrite Nat2N.inj_succ, N.pow_succ_r' in H. lia. }
      destruct (IH _ Hd) as [H1 [H2 H3]]. pose proof (N.mod_lt n 10 ltac:(lia)) as Hm.
      split; [|split].
      * replace (Z.of_N n) with (10 * Z.of_N (n / 10) + Z.of_N ((48 + n mod 10) - 48))%Z.
        -- constructor; auto. apply digit_char; auto.
        -- pose proof (N.div_mod' n 10). rewrite (N.add_comm 48), N.add_sub. generalize dependent (n / 10). generalize dependent (n mod 10). intros. lia.
      * intros _. specialize (H2 ltac:(apply N.div_str_pos; lia)).
        destruct (dec_digits f (n / 10)); [contradiction|exact H2].
      * apply Forall_app. split; auto. constructor; auto. apply digit_char; auto.
Qed.
Lemma n2s_spec p : Digits (n2s (Npos p)) (Zpos p) /\ no_leading_zero (n2s (Npos p)) /\
  Forall (fun c => is_digit c = true) (n2s (Npos p)).
Proof.
  unfold n2s. destruct (dec_digits_spec (N.to_nat (N.log2 (Npos p))) (Npos p)) as [H1 [H2 H3]].
  - rewrite N2Nat.id. destruct (N.log2_spec (Npos p) ltac:(lia)) as [_ H]. rewrite N.pow_succ_r' in H. lia.
  - split; [exact H1|split; [apply H2; lia|exact H3]].
Qed.
Lemma no_nl_digits s : Forall (fun c => is_digit c = true) s -> ~ In 10 s.
Proof. intros H Hi. rewrite Forall_forall in H. specialize (H _ Hi). discriminate. Qed.
Lemma z2s_tok z : TokText KInt (z2s z) (VInt z) /\ ~ In 10 (z2s z).
Proof.
  destruct z as [|p|p]; cbn [z2s].
  - split; [constructor|]. intros [H|[]]; discriminate.
  - destruct (n2s_spec p) as [H1 [H2 H3]]. split; [constructor; auto|apply no_nl_digits; auto].
  - destruct (n2s_spec p) as [H1 [H2 H3]]. split.
    + change (Zneg p) with (- Zpos p)%Z. apply TT_neg; auto.
    + intros [H|H]; [discriminate|]. exact (no_nl_digits _ H3 H).
Qed.
Lemma Pieces_int z : Pieces [(KInt, VInt z)] (z2s z).
Proof. destruct (z2s_tok z). apply Pieces_tok; auto. discriminate. Qed.

(** ** quoted strings *)
Lemma hexdig_spec n : n < 16 -> is_hex (hexdig n) = true /\ hex_val (hexdig n) = n.
Proof.
  intro H. assert (X : forallb (fun n => is_hex (hexdig n) && (hex_val (hexdig n) =? n))
    [0;1;2;3;4;5;6;7;8;9;10;11;12;13;14;15] = true) by reflexivity.
  rewrite forallb_forall in X. specialize (X n). rewrite andb_true_iff, N.eqb_eq in X. apply X.
  assert (n = 0 \/ n = 1 \/ n = 2 \/ n = 3 \/ n = 4 \/ n = 5 \/ n = 6 \/ n = 7 \/ n = 8 \/ n = 9 \/ n = 10 \/
    n = 11 \/ n = 12 \/ n = 13 \/ n = 14 \/ n = 15) by lia. simpl. intuition.
Qed.
Lemma hexn4 n : n < 65536 -> exists h1 h2 h3 h4, hexn 4 n = [h1; h2; h3; h4] /\
  is_hex h1 = true /\ is_hex h2 = true /\ is_hex h3 = true /\ is_hex h4 = true /\
  hex_val h1 * 4096 + hex_val h2 * 256 + hex_val h3 * 16 + hex_val h4 = n.
Proof.
  intro H. exists (hexdig (n / 16 / 16 / 16 mod 16)), (hexdig (n / 16 / 16 mod 16)), (hexdig (n / 16 mod 16)), (hexdig (n mod 16)).
  split; [reflexivity|].
  assert (M : forall x, is_hex (hexdig (x mod 16)) = true /\ hex_val (hexdig (x mod 16)) = x mod 16).
  { intro x. apply hexdig_spec. apply N.mod_lt. lia. }
  destruct (M (n / 16 / 16 / 16)) as [A1 A2], (M (n / 16 / 16)) as [B1 B2], (M (n / 16)) as [C1 C2], (M n) as [D1 D2].
  rewrite A2, B2, C2, D2. do 4 (split; [assumption|]).
  pose proof (N.div_mod' n 16). pose proof (N.div_mod' (n / 16) 16). pose proof (N.div_mod' (n / 16 / 16) 16).
  pose proof (N.div_mod' (n / 16 / 16 / 16) 16).
  assert (n / 16 / 16 / 16 / 16 = 0). { rewrite !N.div_div by lia. apply N.div_small. simpl. lia. }
  lia.
Qed.
Lemma hex_no_nl h : is_hex h = true -> h <> 10 /\ bad_char h = false.
Proof.
  unfold is_hex, bad_char, is_surrogate, is_digit, in_range. rewrite !orb_true_iff, !andb_true_iff, !N.leb_le. intro H.
  split; [lia|]. apply orb_false_iff. split; [apply N.eqb_neq; lia|]. apply andb_false_iff. left. apply N.leb_gt. lia.
Qed.
Lemma ascii_ok c : 1 <= c < 55296 -> bad_char c = false.
Proof.
  intro H. unfold bad_char, is_surrogate, in_range. apply orb_false_iff.
  split; [apply N.eqb_neq; lia|]. apply andb_false_iff. left. apply N.leb_gt. lia.
Qed.
Ltac nin := repeat match goal with |- ~ In _ _ => intro | H : In _ (_ :: _) |- _ => destruct H as [H|H] | H : In _ [] |- _ => destruct H end.

(** the printed form of one character, in front of a body *)
Lemma repr_char_spec U q c b v : q = dq \/ q = sq -> QuotableChar U c -> StrBody q b v ->
  StrBody q (repr_char U q c ++ b) (c :: v) /\ ~ In 10 (repr_char U q c) /\
  Forall (fun c => bad_char c = false) (repr_char U q c).
Proof.
  intros Hq HC HB. unfold repr_char.
  assert (Q1 : q <> 10 /\ q <> 92 /\ bad_char q = false) by (destruct Hq; subst q; repeat split; discriminate).
  destruct (N.eqb_spec c q) as [->|Hcq]; cbn [orb].
  { split; [apply SB_quote; auto|split].
    - nin; [discriminate|]. tauto.
    - repeat constructor; tauto. }
  destruct (N.eqb_spec c bsl) as [->|Hb]; cbn [orb].
  { exfalso. unfold bsl in HC. destruct HC as [[_ H]|[H|[[H _]|[H _]]]]; try lia. simpl in H. intuition discriminate. }
  assert (E3 : forall e d, In (e, d) [(98, 8); (102, 12); (110, 10); (114, 13); (116, 9)] ->
     StrBody q ([bsl; e] ++ b) (d :: v) /\ ~ In 10 [bsl; e] /\ Forall (fun c => bad_char c = false) [bsl; e]).
  { intros e d He. split; [apply SB_esc; auto|]. simpl in He.
    repeat (destruct He as [He|He]; [injection He as <- <-; split; [nin; discriminate|repeat constructor]|]). contradiction. }
  destruct (N.eqb_spec c 9) as [->|H9]. { apply E3; simpl; auto 6. }
  destruct (N.eqb_spec c 10) as [->|H10]. { apply E3; simpl; auto 6. }
  destruct (N.eqb_spec c 13) as [->|H13]. { apply E3; simpl; auto 6. }
  assert (P : bad_char c = false -> StrBody q ([c] ++ b) (c :: v) /\ ~ In 10 [c] /\ Forall (fun c => bad_char c = false) [c]).
  { intro Hbad. split; [apply SB_plain; auto|]. split; [nin; congruence|repeat constructor; auto]. }
  destruct (N.ltb_spec c 32) as [H32|H32]; cbn [orb].
  { exfalso. destruct HC as [[H _]|[H|[[H _]|[H _]]]]; try lia. simpl in H. intuition. }
  destruct (N.eqb_spec c 127) as [H127|H127]; cbn [orb].
  { exfalso. destruct HC as [[H _]|[H|[[H _]|[H _]]]]; try lia. simpl in H. intuition. }
  destruct (N.ltb_spec c 127) as [Hlt|Hge]. { apply P. apply ascii_ok. lia. }
  destruct (e_print U c) eqn:EP.
  { apply P. destruct HC as [[H _]|[H|[[_ [_ H]]|[_ H]]]]; try lia; try congruence.
    - simpl in H; intuition congruence.
    - unfold bad_char. rewrite H. destruct (N.eqb_spec c 0); [lia|reflexivity]. }
  destruct HC as [[H _]|[H|[[_ [H _]]|[H _]]]]; try lia; try congruence; [simpl in H; intuition congruence|].
  destruct (N.ltb_spec c 256); [lia|]. destruct (N.ltb_spec c 65536); [|lia].
  destruct (hexn4 c ltac:(lia)) as [h1 [h2 [h3 [h4 [-> [X1 [X2 [X3 [X4 <-]]]]]]]]].
  pose proof (hex_no_nl _ X1). pose proof (hex_no_nl _ X2). pose proof (hex_no_nl _ X3). pose proof (hex_no_nl _ X4).
  split; [apply SB_unicode; auto|]. split.
  - nin; try discriminate; intuition.
  - repeat constructor; tauto.
Qed.
Lemma repr_body U q s : q = dq \/ q = sq -> Quotable U s ->
  StrBody q (flat_map (repr_char U q) s) s /\ ~ In 10 (flat_map (repr_char U q) s) /\
  Forall (fun c => bad_char c = false) (flat_map (repr_char U q) s).
Proof.
  intros Hq H. induction H as [|c s Hc _ [IH1 [IH2 IH3]]]; simpl.
  - split; [constructor|split; auto].
  - destruct (repr_char_spec U q c _ _ Hq Hc IH1) as [A [B C]]. split; auto. split.
    + rewrite in_app_iff. tauto.
    + apply Forall_app. auto.
Qed.
Lemma Pieces_repr U s : Quotable U s -> Pieces [(KStr, VStr s)] (repr_str U s).
Proof.
  intro H. unfold repr_str. set (q := repr_quote s).
  assert (Hq : q = dq \/ q = sq) by (unfold q, repr_quote; destruct (existsb _ s && _); auto).
  destruct (repr_body U q s Hq H) as [A [B C]].
  assert (Q1 : q <> 10 /\ bad_char q = false) by (destruct Hq as [-> | ->]; split; discriminate || reflexivity).
  apply Pieces_tok.
  - apply Spec_Lexer.TT_str; auto.
  - intros _. constructor; [tauto|]. apply Forall_app. split; auto. constructor; [tauto|constructor].
  - intros [X|X]; [tauto|]. apply in_app_iff in X as [X|[X|[]]]; tauto.
Qed.

(** ** names *)
Lemma name_no_nl first w : NameText first w -> (forall c, first c = true -> c <> 10) -> ~ In 10 w.
Proof.
  intros [c r Hc Hr] Hf [H|H]; [exact (Hf _ Hc H)|]. rewrite Forall_forall in Hr. specialize (Hr _ H). discriminate.
Qed.
Lemma Pieces_upper s : UpperName s -> Pieces [(KUpper, VStr s)] s.
Proof.
  intros [H Hb]. apply Pieces_tok; [constructor; auto|discriminate|].
  apply (name_no_nl is_upper); auto. intros c Hc ->. discriminate.
Qed.
Lemma Pieces_lower s : NameText is_lower s -> Pieces [(KLower, VStr s)] s.
Proof.
  intro H. apply Pieces_tok; [constructor; auto|discriminate|].
  apply (name_no_nl is_lower); auto. intros c Hc ->. discriminate.
Qed.
Definition lower_name (s : str) : bool := match s with c :: r => is_lower c && forallb is_name_char r | [] => false end.
Lemma lower_name_spec s : lower_name s = true -> NameText is_lower s.
Proof.
  destruct s as [|c r]; [discriminate|]. simpl. rewrite andb_true_iff, forallb_forall. intros [H1 H2].
  constructor; auto. apply Forall_forall. auto.
Qed.

(** [isidentifier] in words *)
Lemma ident_iff s : isidentifier s = true <-> Ident s \/ exists m, s = m ++ [10] /\ Ident m.
Proof.
  unfold isidentifier, ident_re_match. destruct s as [|c r].
  - split; [discriminate|]. intros [H|[m [H _]]]; [inversion H|destruct m; discriminate].
  - rewrite andb_true_iff. split.
    + intros [Hc H]. assert (Hc' : is_lower c || is_upper c || (95 =? c) = true) by (rewrite N.eqb_sym in Hc; auto). clear Hc.
      apply orb_true_iff in H as [H|H].
      * left. constructor; auto. apply Forall_forall. rewrite forallb_forall in H. auto.
      * right. destruct (list_rev_case r) as [->|[r' [x ->]]]; [discriminate|].
        rewrite last_opt_app in H. destruct (N.eq_dec x 10) as [->|Hx].
        -- rewrite removelast_last in H. exists (c :: r'). split; auto. constructor; auto.
           apply Forall_forall. rewrite forallb_forall in H. auto.
        -- exfalso. destruct x as [|p]; try discriminate. do 4 (destruct p; try discriminate). congruence.
    + intros [H|[m [E H]]].
      * inversion H as [c' r' Hc Hr]; subst. split; [rewrite N.eqb_sym; auto|]. apply orb_true_iff. left.
        apply forallb_forall. rewrite Forall_forall in Hr. auto.
      * inversion H as [c' r' Hc Hr]; subst. injection E as -> ->. split; [rewrite N.eqb_sym; auto|].
        apply orb_true_iff. right. rewrite last_opt_app, removelast_last.
        apply forallb_forall. rewrite Forall_forall in Hr. auto.
Qed.
(** the token of a field name *)
Definition FieldTok (n : str) (t : kind * tval) : Prop := snd t = VStr n /\ In (fst t) [KLower; KUpper; KOther; KStr].
Lemma Pieces_field U n : PrintableName U n -> exists t, FieldTok n t /\ Pieces [t] (field_name U n).
Proof.
  unfold field_name. intros [[Hi Hb]|[Hi [Hm Hq]]].
  - assert (isidentifier n = true) as -> by (apply ident_iff; auto).
    destruct (Ident_kind n Hi Hb) as [k [Ht Hk]]. exists (k, VStr n). split.
    + split; auto. simpl. intuition.
    + apply Pieces_tok; auto.
      * intros ->. intuition discriminate.
      * eapply name_no_nl; [exact Hi|]. intros c Hc ->. discriminate.
  - assert (isidentifier n = false) as ->.
    { destruct (isidentifier n) eqn:E; auto. apply ident_iff in E as [E|[m [E1 E2]]]; [contradiction|exfalso; eapply Hm; eauto]. }
    exists (KStr, VStr n). split; [split; simpl; auto|]. apply Pieces_repr; auto.
Qed.
