(** C01, C02 (tokens), C03: the lexer. Specification in Spec_Lexer.v. *)
From Verif Require Import Base Lexer Spec_Lexer Proof_Lexer.

(** C01. The tokens tile the text: increasing non-empty spans, only blanks and comments
    between them, each token's value is what its span's text denotes; when lexing stops
    with an error, it is at the first non-blank character after the last token and no token
    starts there. *)
Theorem C01_lexer_tiles : forall s ts err, lex s = (ts, err) -> Spans s 0 ts err.
Proof. exact lex_Spans. Qed.
Print Assumptions C01_lexer_tiles.

(** ... and the tiling determines the result: [lex] computes exactly the unique tiling. *)
Theorem C01_lexer_tiles_iff : forall s ts err, lex s = (ts, err) <-> Tiles 0 s ts err.
Proof. exact lex_Tiles. Qed.
Print Assumptions C01_lexer_tiles_iff.

(** The letters and digits meant in Spec_Lexer.v: *)
Definition lowers : str := $"abcdefghijklmnopqrstuvwxyz".
Definition uppers : str := $"ABCDEFGHIJKLMNOPQRSTUVWXYZ".
Definition digits : str := $"0123456789".
Lemma range_in a b c l : (forall x, In x l <-> (a <= x <= b)%N) -> in_range a b c = true <-> In c l.
Proof. intro H. unfold in_range. rewrite andb_true_iff, !N.leb_le, H. reflexivity. Qed.
Theorem C01_characters : forall c,
  (is_lower c = true <-> In c lowers) /\ (is_upper c = true <-> In c uppers) /\ (is_digit c = true <-> In c digits) /\
  (is_name_char c = true <-> In c lowers \/ In c uppers \/ In c digits \/ c = 95%N) /\
  (is_hex c = true <-> In c $"0123456789abcdefABCDEF") /\
  (forall i, nth_error $"0123456789abcdef" i = Some c \/ nth_error $"0123456789ABCDEF" i = Some c -> hex_val c = N.of_nat i).
Proof.
  intro c.
  assert (HL : is_lower c = true <-> In c lowers) by (apply range_in; intro x; cbn; lia).
  assert (HU : is_upper c = true <-> In c uppers) by (apply range_in; intro x; cbn; lia).
  assert (HD : is_digit c = true <-> In c digits) by (apply range_in; intro x; cbn; lia).
  split; [exact HL|]. split; [exact HU|]. split; [exact HD|]. split; [|split].
  - unfold is_name_char, is_c. rewrite !orb_true_iff, HL, HU, HD, N.eqb_eq. intuition.
  - unfold is_hex. rewrite !orb_true_iff, HD. rewrite (range_in 97%N 102%N c $"abcdef") by (intro x; cbn; lia).
    rewrite (range_in 65%N 70%N c $"ABCDEF") by (intro x; cbn; lia). cbn. intuition.
  - intros i [H|H]; do 16 (destruct i as [|i]; [injection H as <-; reflexivity|]); destruct i; discriminate.
Qed.
Print Assumptions C01_characters.
(** A single letter is a name of the kind its case says. *)
Theorem C03_letters : forall c,
  (map kind_val (fst (lex [c])) = [(KLower, VStr [c])] <-> In c lowers) /\
  (map kind_val (fst (lex [c])) = [(KUpper, VStr [c])] <-> In c uppers).
Proof.
  intro c. destruct (C01_characters c) as [HL [HU _]].
  assert (X : forall k, map kind_val (fst (lex [c])) = [(k, VStr [c])] -> (k = KLower -> is_lower c = true) /\ (k = KUpper -> is_upper c = true)).
  { intros k H. destruct (lex [c]) as [ts err] eqn:El. apply C01_lexer_tiles_iff in El. cbn [fst] in H.
    inversion El as [|? g k' w v rest ts' err' HB HT _ _ _| |]; subst; try discriminate.
    match goal with X : _ ++ _ ++ _ = [c] |- _ => rename X into E1 end. cbn in H. injection H as -> -> _.
    assert (w = [c]) as ->.
    { destruct g as [|? [|? ?]]; cbn in E1.
      - destruct w as [|x [|? ?]]; cbn in E1; try discriminate; [inversion HT; try discriminate; match goal with N : NameText _ [] |- _ => inversion N end|]. injection E1 as ->. auto.
      - injection E1 as _ E1. destruct w; [inversion HT; try discriminate; match goal with N : NameText _ [] |- _ => inversion N end|discriminate].
      - discriminate. }
    split; intros ->; inversion HT; subst; match goal with N : NameText _ [c] |- _ => inversion N; auto end. }
  assert (L : forall k, TokText k [c] (VStr [c]) -> Decodable k [c] -> map kind_val (fst (lex [c])) = [(k, VStr [c])]).
  { intros k HT HD. assert (Layout [(k, VStr [c])] [c]) as HLy.
    { pose proof (Layout_tok [] k [c] (VStr [c]) [] [] (Blank_nil _) HT HD) as HLy. cbn in HLy. apply HLy; [destruct k; exact I|]. constructor. constructor. }
    apply lex_Layout in HLy as [ts [E1 E2]]. rewrite E1. exact E2. }
  split; split; intro H.
  - apply HL. apply (X KLower); auto.
  - apply L; [|discriminate]. constructor. constructor; [apply HL; auto|constructor].
  - apply HU. apply (X KUpper); auto.
  - apply L; [|discriminate]. constructor; [constructor; [apply HU; auto|constructor]|]. intros [[r Hr]|[r Hr]]; discriminate.
Qed.
Print Assumptions C03_letters.

Definition ex_src : str := $"3 * {a: int32} # tail".
Example C01_nonvacuous :
  exists ts, lex ex_src = (ts, None) /\ length ts = 7%nat /\ Spans ex_src 0 ts None.
Proof.
  eexists. split; [vm_compute; reflexivity|]. split; [reflexivity|]. apply lex_Spans. vm_compute; reflexivity.
Qed.
Example C01_nonvacuous_error : lex $"3 * int32 ;x" =
  ([{| tk_kind := KInt; tk_val := VInt 3; tk_start := 0; tk_end := 1 |};
    {| tk_kind := KAst; tk_val := VNone; tk_start := 2; tk_end := 3 |};
    {| tk_kind := KLower; tk_val := VStr $"int32"; tk_start := 4; tk_end := 9 |}], Some (SyntaxErr 10 MToken)).
Proof. vm_compute; reflexivity. Qed.

(** C02 (token level). Two texts spelling the same tokens with any blanks and comments
    between them lex to the same (kind, value) sequence; and every text that lexes to
    that sequence is such a spelling. *)
Theorem C02_blanks_tokens : forall s l,
  Layout l s <-> exists ts, lex s = (ts, None) /\ map kind_val ts = l.
Proof. exact lex_Layout. Qed.
Print Assumptions C02_blanks_tokens.

(** The characters that are skipped on their own are the blanks and the comment sign. *)
Theorem C02_blank_chars : forall c, lex [c] = ([], None) <-> BlankChar c \/ c = 35%N.
Proof.
  intro c.
  assert (S : is_space c = true <-> BlankChar c).
  { unfold is_space, in_range, is_c, BlankChar. rewrite !orb_true_iff, !andb_true_iff, !N.leb_le, !N.eqb_eq.
    cbn [In]. split; [|intro H; repeat (destruct H as [<-|H]; [lia|]); destruct H].
    intro H. lia. }
  split.
  - intro H. assert (L : Layout [] [c]) by (apply lex_Layout; exists []; auto).
    inversion L as [g B|]; subst. inversion B as [|? ? Sp _|body w _ _ E|]; subst; [left; apply S; auto|right; auto|right; auto].
  - intro H. assert (L : Layout [] [c]).
    { apply Layout_end. destruct H as [H| ->]; [apply Blank_space; [apply S; auto|constructor]|].
      apply (Blank_comment_end true []); auto. }
    apply lex_Layout in L as [ts [E M]]. destruct ts; [exact E|discriminate].
Qed.
Print Assumptions C02_blank_chars.

Example C02_layouts :
  let l := [(KInt, VInt 3); (KAst, VNone); (KLower, VStr $"int8")] in
  Layout l $"3*int8" /\ Layout l ($"  3 # c" ++ [10%N] ++ $" * int8#").
Proof. split; apply lex_Layout; eexists; split; vm_compute; reflexivity. Qed.

(** C03. *)
Theorem C03_name_is_one_token : forall w, Ident w -> ~ bool_prefixed w ->
  exists k, (k = KLower \/ k = KUpper \/ k = KOther) /\
    lex w = ([{| tk_kind := k; tk_val := VStr w; tk_start := 0; tk_end := length w |}], None).
Proof. exact ident_one_token. Qed.
Print Assumptions C03_name_is_one_token.

Theorem C03_bool_prefixed_is_split : forall w, bool_prefixed w ->
  exists (b : bool) n ts err,
    lex w = ({| tk_kind := KBool; tk_val := VBool b; tk_start := 0; tk_end := n |} :: ts, err)
    /\ w = (if b then $"True" else $"False") ++ skipn n w
    /\ n = length (if b then $"True" else $"False").
Proof. exact ident_bool_prefixed. Qed.
Print Assumptions C03_bool_prefixed_is_split.

Lemma not_bool_prefixed_foo : Ident $"Foo_1" /\ ~ bool_prefixed $"Foo_1".
Proof.
  split; [split; [reflexivity|repeat constructor]|].
  intros [[r H]|[r H]]; discriminate.
Qed.
(** the documented claim (grammar.rst) is false for identifiers such as TrueType *)
Theorem C03_name_refuted : exists w, Ident w /\
  ~ exists k, lex w = ([{| tk_kind := k; tk_val := VStr w; tk_start := 0; tk_end := length w |}], None).
Proof.
  exists $"TrueType". split; [split; [reflexivity|repeat constructor]|].
  intros [k H]. vm_compute in H. discriminate.
Qed.
Print Assumptions C03_name_refuted.
