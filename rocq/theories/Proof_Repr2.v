(** Proofs for C65: string literals and [repr]. *)
From Coq Require Import Sorting.Permutation.
From Verif Require Import Base Types Lexer Printer Construct Ops Objects Report Spec_WF Spec_Objects Spec_Repr
  Proof_Eq Proof_WF Proof_Print Proof_Repr Proof_Attrs.
Local Open Scope N_scope.

Lemma hexdig_HexDigit n : n < 16 -> HexDigit (hexdig n) n.
Proof.
  intro H. unfold hexdig. destruct (N.ltb_spec n 10); [now constructor|].
  replace (87 + n) with (97 + (n - 10)) by lia. constructor. lia.
Qed.
Lemma hexn_spec k : forall n, n < 16 ^ N.of_nat k -> length (hexn k n) = k /\ HexNumber (hexn k n) n.
Proof.
  induction k as [|k IH]; intros n H.
  - change (16 ^ N.of_nat 0) with 1 in H. assert (n = 0) by lia. subst. split; constructor.
  - rewrite Nat2N.inj_succ, N.pow_succ_r' in H. cbn [hexn].
    destruct (IH (n / 16)) as [H1 H2]; [apply N.div_lt_upper_bound; lia|].
    split; [rewrite app_length, H1; cbn; lia|].
    pose proof (N.div_mod' n 16) as D. rewrite D at 3. constructor; auto. apply hexdig_HexDigit. apply N.mod_lt. lia.
Qed.
Lemma Inside_hex q e k n r s : In (e, k) hex_escapes -> n < 16 ^ N.of_nat k -> Inside q r s ->
  Inside q (92 :: e :: hexn k n ++ r) (n :: s).
Proof. intros H1 H2 H3. destruct (hexn_spec k n H2) as [L X]. eapply IS_hex; eauto. Qed.
Lemma repr_char_inside U q c r s : q = 39 \/ q = 34 -> CodePoint c -> Inside q r s ->
  Inside q (repr_char U q c ++ r) (c :: s).
Proof.
  intros Hq Hc Hr. unfold repr_char, bsl, CodePoint in *.
  destruct (N.eqb_spec c q) as [->|E1]; cbn [orb].
  { apply IS_simple; auto. unfold simple_escapes. cbn [In]. destruct Hq as [->| ->]; tauto. }
  destruct (N.eqb_spec c 92) as [->|E2]; [apply IS_simple; auto; unfold simple_escapes; cbn [In]; tauto|].
  destruct (N.eqb_spec c 9) as [->|E3]; [apply IS_simple; auto; unfold simple_escapes; cbn [In]; tauto|].
  destruct (N.eqb_spec c 10) as [->|E4]; [apply IS_simple; auto; unfold simple_escapes; cbn [In]; tauto|].
  destruct (N.eqb_spec c 13) as [->|E5]; [apply IS_simple; auto; unfold simple_escapes; cbn [In]; tauto|].
  assert (X2 : c < 256 -> Inside q ((92 :: 120 :: hexn 2 c) ++ r) (c :: s)).
  { intro B. apply (Inside_hex q 120 2 c r s); auto. unfold hex_escapes; cbn [In]; tauto. }
  assert (X4 : c < 65536 -> Inside q ((92 :: 117 :: hexn 4 c) ++ r) (c :: s)).
  { intro B. apply (Inside_hex q 117 4 c r s); auto. unfold hex_escapes; cbn [In]; tauto. }
  assert (X8 : Inside q ((92 :: 85 :: hexn 8 c) ++ r) (c :: s)).
  { apply (Inside_hex q 85 8 c r s); auto; [unfold hex_escapes; cbn [In]; tauto|]. change (16 ^ N.of_nat 8) with 4294967296. lia. }
  assert (XP : Inside q ([c] ++ r) (c :: s)) by (apply IS_plain; auto).
  destruct (N.ltb_spec c 32); cbn [orb]; [apply X2; lia|].
  destruct (N.eqb_spec c 127); [apply X2; lia|].
  destruct (N.ltb_spec c 127); [exact XP|].
  destruct (e_print U c); [exact XP|].
  destruct (N.ltb_spec c 256); [apply X2; lia|].
  destruct (N.ltb_spec c 65536); [apply X4; lia|exact X8].
Qed.
Lemma repr_PyStr U s : Forall CodePoint s -> PyStr (repr_str U s) s.
Proof.
  intro H. unfold repr_str. set (q := repr_quote s).
  assert (Hq : q = 39 \/ q = 34) by (unfold q, repr_quote; destruct (_ && _); [right|left]; reflexivity).
  exists q, (flat_map (repr_char U q) s). split; auto. split; auto. clearbody q.
  induction H as [|c s Hc _ IH]; [constructor|]. cbn [flat_map]. now apply repr_char_inside.
Qed.
Lemma escape_inside c r s : c <> 34 -> CodePoint c -> Inside 34 r s ->
  Inside 34 (unicode_escape_char c ++ r) (c :: s).
Proof.
  intros Hq Hc Hr. unfold unicode_escape_char, bsl, CodePoint in *.
  destruct (N.eqb_spec c 92) as [->|E2]; [apply IS_simple; auto; unfold simple_escapes; cbn [In]; tauto|].
  destruct (N.eqb_spec c 9) as [->|E3]; [apply IS_simple; auto; unfold simple_escapes; cbn [In]; tauto|].
  destruct (N.eqb_spec c 10) as [->|E4]; [apply IS_simple; auto; unfold simple_escapes; cbn [In]; tauto|].
  destruct (N.eqb_spec c 13) as [->|E5]; [apply IS_simple; auto; unfold simple_escapes; cbn [In]; tauto|].
  assert (X2 : c < 256 -> Inside 34 ((92 :: 120 :: hexn 2 c) ++ r) (c :: s)).
  { intro B. apply (Inside_hex 34 120 2 c r s); auto. unfold hex_escapes; cbn [In]; tauto. }
  assert (X4 : c < 65536 -> Inside 34 ((92 :: 117 :: hexn 4 c) ++ r) (c :: s)).
  { intro B. apply (Inside_hex 34 117 4 c r s); auto. unfold hex_escapes; cbn [In]; tauto. }
  assert (X8 : Inside 34 ((92 :: 85 :: hexn 8 c) ++ r) (c :: s)).
  { apply (Inside_hex 34 85 8 c r s); auto; [unfold hex_escapes; cbn [In]; tauto|]. change (16 ^ N.of_nat 8) with 4294967296. lia. }
  destruct ((32 <=? c) && (c <? 127)); [apply IS_plain; auto|].
  destruct (N.ltb_spec c 256); [apply X2; lia|].
  destruct (N.ltb_spec c 65536); [apply X4; lia|exact X8].
Qed.
Lemma escape_PyStr s : ~ In 34 s -> Forall CodePoint s -> PyStr ([34] ++ unicode_escape s ++ [34]) s.
Proof.
  intros Hn H. exists 34, (unicode_escape s). split; auto. split; auto.
  induction H as [|c s Hc _ IH]; [constructor|]. unfold unicode_escape. cbn [flat_map].
  apply escape_inside; auto; [intros ->; apply Hn; left; reflexivity|]. apply IH. intro K. apply Hn. right. exact K.
Qed.

(** ** a literal stands for one string *)
Lemma HexDigit_fun c v w : HexDigit c v -> HexDigit c w -> v = w.
Proof. intros H K. inversion H; inversion K; subst; lia. Qed.
Lemma HexNumber_fun h n : HexNumber h n -> forall m, HexNumber h m -> n = m.
Proof.
  induction 1 as [|h n c v H IH D]; intros m K; inversion K; subst; auto;
    try (match goal with Q : _ ++ [_] = [] |- _ => destruct (app_cons_not_nil _ _ _ (eq_sym Q)) end);
    try (match goal with Q : [] = _ ++ [_] |- _ => destruct (app_cons_not_nil _ _ _ Q) end).
  match goal with Q : _ ++ [_] = _ ++ [_] |- _ => apply app_inj_tail in Q as [-> ->] end.
  match goal with Q : HexNumber h ?k |- _ = 16 * ?k + _ => rewrite (IH _ Q) end.
  match goal with Q : HexDigit c ?k |- _ = _ + ?k => rewrite (HexDigit_fun _ _ _ D Q) end. reflexivity.
Qed.
Lemma HexDigit_hex c v : HexDigit c v -> c <> 10 /\ c <> 13 /\ c <> 92 /\ c <> 34 /\ c <> 39.
Proof. intro H; inversion H; subst; repeat split; lia. Qed.
Lemma Inside_fun q r s : Inside q r s -> forall s', Inside q r s' -> s = s'.
Proof.
  induction 1 as [|c r s H1 H2 H3 H4 H IH|e c r s I H IH|e k h n r s I L N H IH]; intros s' K.
  - inversion K; auto.
  - inversion K; subst; [f_equal; auto|congruence|congruence].
  - inversion K; subst; [congruence| |].
    + f_equal; auto. unfold simple_escapes in *. cbn [In] in *.
      repeat match goal with Q : _ \/ _ |- _ => destruct Q as [Q|Q] end; try contradiction; congruence.
    + exfalso. unfold simple_escapes, hex_escapes in *. cbn [In] in *.
      repeat match goal with Q : _ \/ _ |- _ => destruct Q as [Q|Q] end; try contradiction; congruence.
  - inversion K as [|c' r' s1 Q1 Q2 Q3 Q4 Q5|e' c' r' s1 Q1 Q2|e' k' h' n' r' s1 Q1 Q2 Q3 Q4 Q5]; subst; [congruence| |].
    + exfalso. unfold simple_escapes, hex_escapes in *. cbn [In] in *.
      repeat match goal with Q : _ \/ _ |- _ => destruct Q as [Q|Q] end; try contradiction; congruence.
    + assert (E : length h = length h').
      { unfold hex_escapes in *. cbn [In] in *.
        repeat match goal with Q : _ \/ _ |- _ => destruct Q as [Q|Q] end; try contradiction; congruence. }
      assert (h = h' /\ r = r') as [-> ->].
      { match goal with Q : _ ++ _ = _ ++ _ |- _ => rename Q into Q6 end. clear - E Q6. revert h' E Q6. induction h as [|x h IH]; intros [|y h'] E Q; try discriminate; auto.
        cbn in Q. injection Q as -> Q. destruct (IH h') as [-> ->]; auto. }
      f_equal; [eapply HexNumber_fun; eauto|auto].
Qed.
Lemma PyStr_fun lit s s' : PyStr lit s -> PyStr lit s' -> s = s'.
Proof.
  intros [q [r [_ [-> H]]]] [q' [r' [_ [E H']]]]. injection E as -> E. apply app_inj_tail in E as [-> _]. eapply Inside_fun; eauto.
Qed.
Lemma repr_inj U s s' : Forall CodePoint s -> Forall CodePoint s' -> repr_str U s = repr_str U s' -> s = s'.
Proof. intros H H' E. apply (PyStr_fun (repr_str U s)); [now apply repr_PyStr|]. rewrite E. now apply repr_PyStr. Qed.

(** ** repr of datashape objects *)
Lemma lit_shows U l : (forall s, l = LStr s -> Forall CodePoint s) -> Shows U (repr_lit U l) (lit_value_of l).
Proof.
  intro H. destruct l as [z|b|s]; cbn [repr_lit lit_value_of]; [constructor|destruct b; constructor|].
  apply SH_str. apply repr_PyStr. now apply H.
Qed.
Lemma cats_show U c : (forall s, In (LStr s) c -> Forall CodePoint s) -> Shows U (format_categories U c) (VaList c).
Proof.
  intro H. unfold format_categories.
  assert (F : forall l, (forall s, In (LStr s) l -> Forall CodePoint s) -> Forall2 (fun it x => Shows U it (lit_value_of x)) (map (repr_lit U) l) l).
  { clear. induction l as [|x l IH]; intro H; constructor; [apply lit_shows; intros s ->; apply H; left; reflexivity|].
    apply IH. intros s Hs. apply H. right. exact Hs. }
  destruct (Nat.ltb_spec 10 (length c)) as [L|L].
  - rewrite <- (firstn_skipn 10 c) at 2.
    apply SH_long.
    + apply firstn_length_le. lia.
    + intro E. apply (f_equal (@length pylit)) in E. rewrite skipn_length in E. cbn in E. lia.
    + apply F. intros s Hs. apply H. rewrite <- (firstn_skipn 10 c). apply in_or_app. left. exact Hs.
  - rewrite firstn_all2 by lia. cbn [app]. apply SH_list; auto.
Qed.
Lemma opt_shows U o : (forall s, o = Some s -> Forall CodePoint s) -> Shows U (repr_opt U o) (va_opt o).
Proof. intro H. destruct o as [s|]; cbn; [apply SH_str, repr_PyStr; now apply H|constructor]. Qed.

(** texts all of whose characters are code points; objects written in double quotes: without
    quotes and backslashes *)
Definition Legible (U : uni) (t : ty) : Prop :=
  forall u, Occurs u t ->
    (forall s, In s (texts u) -> Forall CodePoint s) /\
    match u with
    | CType _ _ _ | StringT _ _ | DataShapeT _ _ | RecordT _ | TupleT _ => Quiet U u
    | TypeSetT _ _ => False
    | _ => True
    end.
Lemma Legible_child U t c : Legible U t -> In c (children t) -> Legible U c.
Proof. intros H Hc u Hu. apply H. eapply Occurs_in; eauto. Qed.
Lemma call_shows U cls pairs t :
  Forall (fun p => Shows U (snd (fst p)) (snd p)) pairs -> Built cls (map (fun p => (fst (fst p), snd p)) pairs) t ->
  Shows U (cls ++ $"(" ++ join $", " (map (fun p => fst (fst p) ++ $"=" ++ snd (fst p)) pairs) ++ $")") (VaTy t).
Proof.
  intros F B. eapply SH_call; eauto. clear B. induction F as [|p pairs Hp _ IH]; constructor; auto.
  exists (snd (fst p)). auto.
Qed.

Lemma no_dq_py U t : Quiet U t -> ~ In 34 (py_str U t).
Proof.
  intros H K. pose proof (pp_QC U t H MStr) as F. apply QC_Bare in F. unfold Bare in F. rewrite Forall_forall in F.
  destruct (F 34 K) as [F1 _]. congruence.
Qed.
Lemma ascii_cp (s : str) : forallb (fun c => c <? 128) s = true -> Forall CodePoint s.
Proof.
  intro H. rewrite forallb_forall in H. apply Forall_forall. intros c Hc. apply H in Hc. apply N.ltb_lt in Hc. unfold CodePoint. lia.
Qed.
Lemma cp_app a b : Forall CodePoint a -> Forall CodePoint b -> Forall CodePoint (a ++ b).
Proof. intros. apply Forall_app. auto. Qed.
Lemma z2s_cp z : Forall CodePoint (z2s z).
Proof.
  destruct z as [|p|p]; cbn [z2s]; try (apply ascii_cp; reflexivity).
  - destruct (n2s_spec p) as [_ [_ F]]. eapply Forall_impl; [|exact F]. intros c Hc. unfold is_digit, in_range in Hc.
    apply andb_true_iff in Hc as [_ Hc]. apply N.leb_le in Hc. unfold CodePoint. lia.
  - constructor; [unfold CodePoint; lia|]. destruct (n2s_spec p) as [_ [_ F]]. eapply Forall_impl; [|exact F]. intros c Hc. unfold is_digit, in_range in Hc.
    apply andb_true_iff in Hc as [_ Hc]. apply N.leb_le in Hc. unfold CodePoint. lia.
Qed.
Lemma string_cp U f e : QuietText U e -> Forall CodePoint e -> Forall CodePoint (py_str U (StringT f e)).
Proof.
  intros Q C.
  assert (R : Forall CodePoint (repr_str U e)).
  { rewrite quiet_repr by auto. apply cp_app; [apply ascii_cp; reflexivity|]. apply cp_app; auto. apply ascii_cp; reflexivity. }
  unfold py_str. destruct f as [n|]; cbn [pp]; destruct (str_eqb e _).
  - apply cp_app; [apply ascii_cp; reflexivity|]. apply cp_app; [apply z2s_cp|apply ascii_cp; reflexivity].
  - apply cp_app; [apply ascii_cp; reflexivity|]. apply cp_app; [apply z2s_cp|]. apply cp_app; [apply ascii_cp; reflexivity|].
    apply cp_app; auto. apply ascii_cp; reflexivity.
  - apply ascii_cp; reflexivity.
  - apply cp_app; [apply ascii_cp; reflexivity|]. apply cp_app; auto. apply ascii_cp; reflexivity.
Qed.
Lemma FT2 U ps : Forall (fun t => Legible U t -> Shows U (py_repr U t) (VaTy t)) ps -> (forall p, In p ps -> Legible U p) ->
  Forall2 (fun it p => Shows U it (VaTy p)) (map (py_repr U) ps) ps.
Proof.
  induction 1 as [|p ps Hp _ IH]; intro L; constructor; [apply Hp, L; left; reflexivity|].
  apply IH. intros q Hq. apply L. right. exact Hq.
Qed.
Lemma repr_shows U t : Legible U t -> Shows U (py_repr U t) (VaTy t).
Proof.
  induction t as [n i a| | | | | |z|z|u|u t IH|f e|p s|v|s|o|n ps F|t IH|ps F|k v IHk IHv|fs F|c t o IH|ds F|ts n F] using ty_ind';
    intro L; pose proof (L _ (Occurs_here _)) as [LT LQ]; cbn [py_repr].
  - (* CType *) pose proof (no_dq_py U _ LQ) as D. change (py_str U (CType n i a)) with n in *.
    replace ($"ctype(" ++ [dq] ++ unicode_escape n ++ [dq] ++ $")") with ($"ctype(" ++ ([dq] ++ unicode_escape n ++ [dq]) ++ $")") by (now rewrite <- !app_assoc).
    apply SH_ctype. apply escape_PyStr; auto. apply LT. left. reflexivity.
  - exact (call_shows U $"Null" [] NullT ltac:(constructor) BU_null).
  - exact (call_shows U $"Bytes" [] BytesT ltac:(constructor) BU_bytes).
  - exact (call_shows U $"Date" [] DateT ltac:(constructor) BU_date).
  - exact (call_shows U $"JSON" [] JSONT ltac:(constructor) BU_json).
  - exact (call_shows U $"Var" [] VarT ltac:(constructor) BU_var).
  - assert (H : Shows U (repr_opt U z) (va_opt z)) by (apply opt_shows; intros s ->; apply LT; left; reflexivity).
    pose proof (call_shows U $"Time" [(($"tz", repr_opt U z), va_opt z)] (TimeT z) ltac:(repeat constructor; exact H) (BU_time z)) as K.
    cbn [map join fst snd] in K. rewrite <- !app_assoc in K. exact K.
  - assert (H : Shows U (repr_opt U z) (va_opt z)) by (apply opt_shows; intros s ->; apply LT; left; reflexivity).
    pose proof (call_shows U $"DateTime" [(($"tz", repr_opt U z), va_opt z)] (DateTimeT z) ltac:(repeat constructor; exact H) (BU_datetime z)) as K.
    cbn [map join fst snd] in K. rewrite <- !app_assoc in K. exact K.
  - assert (H : Shows U (repr_str U u) (VaStr u)) by (apply SH_str, repr_PyStr, LT; left; reflexivity).
    pose proof (call_shows U $"TimeDelta" [(($"unit", repr_str U u), VaStr u)] (TimeDeltaT u) ltac:(constructor; [exact H|constructor]) (BU_timedelta u)) as K.
    cbn [map join fst snd] in K. rewrite <- !app_assoc in K. exact K.
  - assert (H : Shows U (repr_str U u) (VaStr u)) by (apply SH_str, repr_PyStr, LT; left; reflexivity).
    assert (H2 : Shows U (py_repr U t) (VaTy t)) by (apply IH; eapply Legible_child; [exact L|left; reflexivity]).
    pose proof (call_shows U $"Units" [(($"unit", repr_str U u), VaStr u); (($"tp", py_repr U t), VaTy t)] (UnitsT u t)
      ltac:(constructor; [exact H|constructor; [exact H2|constructor]]) (BU_units _ u t (Permutation_refl _))) as K.
    cbn [map join fst snd] in K. rewrite <- !app_assoc in K. exact K.
  - (* String *) pose proof (no_dq_py U _ LQ) as D.
    replace ($"ctype(" ++ [dq] ++ unicode_escape (py_str U (StringT f e)) ++ [dq] ++ $")")
      with ($"ctype(" ++ ([dq] ++ unicode_escape (py_str U (StringT f e)) ++ [dq]) ++ $")") by (now rewrite <- !app_assoc).
    apply SH_string. apply escape_PyStr; auto. apply string_cp; [|apply LT; left; reflexivity].
    eapply Quiet_here; [exact LQ|left; reflexivity].
  - pose proof (call_shows U $"Decimal" [(($"precision", z2s p), VaInt p); (($"scale", z2s s), VaInt s)] (DecimalT p s)
      ltac:(constructor; [constructor|constructor; [constructor|constructor]]) (BU_decimal _ p s (Permutation_refl _))) as K.
    cbn [map join fst snd] in K. rewrite <- !app_assoc in K. exact K.
  - pose proof (call_shows U $"Fixed" [(($"val", z2s v), VaInt v)] (FixedT v)
      ltac:(constructor; [constructor|constructor]) (BU_fixed v)) as K.
    cbn [map join fst snd] in K. rewrite <- !app_assoc in K. exact K.
  - assert (H : Shows U (repr_str U s) (VaStr s)) by (apply SH_str, repr_PyStr, LT; left; reflexivity).
    pose proof (call_shows U $"TypeVar" [(($"symbol", repr_str U s), VaStr s)] (TypeVarT s)
      ltac:(constructor; [exact H|constructor]) (BU_typevar s)) as K.
    cbn [map join fst snd] in K. rewrite <- !app_assoc in K. exact K.
  - (* Ellipsis *) apply SH_ellipsis. destruct o as [s|].
    + change (py_str U (EllipsisT (Some s))) with (s ++ $"..."). apply repr_PyStr. apply cp_app; [apply LT; left; reflexivity|apply ascii_cp; reflexivity].
    + apply repr_PyStr. apply ascii_cp. reflexivity.
  - apply SH_array. apply in_quotes_Literal. apply Quiet_Bare. exact LQ.
  - assert (H2 : Shows U (py_repr U t) (VaTy t)) by (apply IH; eapply Legible_child; [exact L|left; reflexivity]).
    pose proof (call_shows U $"Option" [(($"ty", py_repr U t), VaTy t)] (OptionT t)
      ltac:(constructor; [exact H2|constructor]) (BU_option t)) as K.
    cbn [map join fst snd] in K. rewrite <- !app_assoc in K. exact K.
  - apply SH_function. apply FT2; auto. intros p Hp. eapply Legible_child; [exact L|exact Hp].
  - assert (H1 : Shows U (py_repr U k) (VaTy k)) by (apply IHk; eapply Legible_child; [exact L|left; reflexivity]).
    assert (H2 : Shows U (py_repr U v) (VaTy v)) by (apply IHv; eapply Legible_child; [exact L|right; left; reflexivity]).
    pose proof (call_shows U $"Map" [(($"key", py_repr U k), VaTy k); (($"value", py_repr U v), VaTy v)] (MapT k v)
      ltac:(constructor; [exact H1|constructor; [exact H2|constructor]]) (BU_map _ k v (Permutation_refl _))) as K.
    cbn [map join fst snd] in K. rewrite <- !app_assoc in K. exact K.
  - apply SH_record. apply in_quotes_Literal. apply Quiet_Bare. exact LQ.
  - assert (H1 : Shows U (format_categories U c) (VaList c)).
    { apply cats_show. intros s Hs. apply LT. cbn [texts]. apply in_flat_map. exists (LStr s). split; auto. left. reflexivity. }
    assert (H2 : Shows U (py_repr U t) (VaTy t)) by (apply IH; eapply Legible_child; [exact L|left; reflexivity]).
    assert (H3 : Shows U (bool_str o) (VaBool o)) by (destruct o; constructor).
    pose proof (call_shows U $"Categorical" [(($"categories", format_categories U c), VaList c); (($"type", py_repr U t), VaTy t); (($"ordered", bool_str o), VaBool o)] (CategoricalT c t o)
      ltac:(constructor; [exact H1|constructor; [exact H2|constructor; [exact H3|constructor]]]) (BU_categorical _ c t o (Permutation_refl _))) as K.
    cbn [map join fst snd] in K. rewrite <- !app_assoc in K. exact K.
  - apply SH_tuple. apply in_quotes_Literal. apply Quiet_Bare. exact LQ.
  - contradiction.
Qed.

(** ** paths *)
Lemma path_texts U p : (forall n, In (StKey n) p -> Forall CodePoint n) -> StepTexts p (flat_map (fmt_step U) p).
Proof.
  induction p as [|s p IH]; intro H; cbn [flat_map]; constructor.
  - destruct s; cbn [fmt_step]; try (constructor; fail). apply ST_key. apply repr_PyStr. apply H. left. reflexivity.
  - apply IH. intros n Hn. apply H. right. exact Hn.
Qed.
