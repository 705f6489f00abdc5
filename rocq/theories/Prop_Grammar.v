(** C05, C06: the parser and the documented grammar (Spec_Grammar.v). *)
From Verif Require Import Base Types Lexer Printer Construct Parser Ops Preds Spec_Lexer Spec_WF Spec_Preds
  Proof_Lexer Proof_WF Proof_ParserRel Proof_Parser Proof_Preds Proof_Preds2 Tests_Parser Prop_Parser
  Spec_Grammar Proof_Grammar Proof_Grammar2 Proof_Grammar3 Proof_Grammar4 Proof_Grammar5.

(** C05. A text is accepted exactly if all of its tokens (no prefix, no trailing garbage)
    are derivable in the implemented grammar, denoting the datashape that is returned, and
    that passes [validate] (at most one ellipsis: C24). *)
Theorem C05_exact : forall E s t, disc_ok E ->
  dshape E s = Ok t <->
  exists l, Layout l s /\ Implemented (default_sym E (dshape E)) l t /\ AllGood t.
Proof. exact dshape_exact. Qed.
Print Assumptions C05_exact.

(** A text with a lexical error is never accepted, also not if the error comes after a
    complete datashape. *)
Theorem C05_no_garbage : forall E s t l s', disc_ok E ->
  dshape E s = Ok t -> Layout l s' -> s' = s -> Implemented (default_sym E (dshape E)) l t.
Proof.
  intros E s t l s' HE H HL ->. apply dshape_exact in H as [l' [HL' [HD _]]]; auto.
  apply lex_Layout in HL as [ts [E1 M1]]. apply lex_Layout in HL' as [ts' [E2 M2]].
  assert (l' = l) as -> by congruence. exact HD.
Qed.
Print Assumptions C05_no_garbage.

(** The documented grammar is the implemented one restricted to tidy texts (a condition on
    neighbouring tokens only). So tidy texts are accepted only as documented... *)
Theorem C05_documented_iff : forall E dsh l t,
  Documented (default_sym E dsh) l t <->
  Implemented (default_sym E dsh) l t /\ Tidy (default_sym E dsh) l.
Proof. exact documented_default. Qed.
Print Assumptions C05_documented_iff.
Theorem C05_tidy : forall E s t l, disc_ok E -> Layout l s -> Tidy (default_sym E (dshape E)) l ->
  dshape E s = Ok t -> Documented (default_sym E (dshape E)) l t.
Proof. exact dshape_tidy. Qed.
Print Assumptions C05_tidy.

(** ... and the full statement is false: texts outside the documented grammar are accepted. *)
Definition AcceptedButUndocumented (s : str) : Prop :=
  (exists t, dshape E0 s = Ok t) /\
  forall l t, Layout l s -> ~ Documented (default_sym E0 (dshape E0)) l t.
Lemma undocumented s p x q : (exists t, dshape E0 s = Ok t) ->
  (exists ts, lex s = (ts, None) /\ map kind_val ts = p ++ x :: q) ->
  ~ tidy_at (default_sym E0 (dshape E0)) x q -> AcceptedButUndocumented s.
Proof.
  intros Ha [ts [Hl Hm]] Ht. split; auto. intros l t HL HD.
  apply lex_Layout in HL as [ts' [E1 M1]]. apply documented_default in HD as [_ HT].
  apply Ht. apply (HT p x q). congruence.
Qed.
Ltac accepted := eexists; vm_compute; reflexivity.
Ltac toks := eexists; split; vm_compute; reflexivity.
Ltac in_false H := cbn in H; repeat (destruct H as [H|H]); try discriminate; try contradiction.
Ltac bad1 := let H := fresh in let X := fresh in intros [H _];
  match type of H with ?P -> _ => assert (X : P) end; [first [left; reflexivity|right; do 2 eexists; split; reflexivity]|
   specialize (H X); in_false H].

(** [var int32] is read as [int32] *)
Theorem C05_var_refuted : AcceptedButUndocumented $"var int32" /\ D $"var int32" = D $"int32".
Proof.
  split; [|vm_compute; reflexivity].
  apply (undocumented _ [] (KLower, VStr $"var") [(KLower, VStr $"int32")]); [accepted|toks|bad1].
Qed.
Print Assumptions C05_var_refuted.
(** [... int32] and [A... int32] are read as [int32] *)
Theorem C05_ellipsis_refuted : AcceptedButUndocumented $"... int32" /\ D $"... int32" = D $"int32" /\
  AcceptedButUndocumented $"A... int32" /\ D $"A... int32" = D $"int32".
Proof.
  split; [|split; [vm_compute; reflexivity|split; [|vm_compute; reflexivity]]].
  - apply (undocumented _ [] (tok KEll) [(KLower, VStr $"int32")]); [accepted|toks|bad1].
  - apply (undocumented _ [(KUpper, VStr $"A")] (tok KEll) [(KLower, VStr $"int32")]); [accepted|toks|bad1].
Qed.
Print Assumptions C05_ellipsis_refuted.
(** a [?] before a literal argument, or at the end of a tuple, is ignored *)
Theorem C05_question_refuted : AcceptedButUndocumented $"string[?10]" /\ D $"string[?10]" = D $"string[10]" /\
  AcceptedButUndocumented $"(int32, ?)" /\ D $"(int32, ?)" = D $"(int32)".
Proof.
  split; [|split; [vm_compute; reflexivity|split; [|vm_compute; reflexivity]]].
  - apply (undocumented _ [(KLower, VStr $"string"); tok KLBk] (tok KQ) [(KInt, VInt 10); tok KRBk]); [accepted|toks|].
    intros [_ [H _]]. specialize (H eq_refl). cbn in H. discriminate.
  - apply (undocumented _ [tok KLP; (KLower, VStr $"int32"); tok KComma] (tok KQ) [tok KRP]); [accepted|toks|].
    intros [_ [H _]]. specialize (H eq_refl). exact H.
Qed.
Print Assumptions C05_question_refuted.
(** a dimension at the end of a tuple is ignored *)
Theorem C05_tuple_dim_refuted : AcceptedButUndocumented $"(int32, var)" /\ D $"(int32, var)" = D $"(int32)".
Proof.
  split; [|vm_compute; reflexivity].
  apply (undocumented _ [tok KLP; (KLower, VStr $"int32"); tok KComma] (KLower, VStr $"var") [tok KRP]); [accepted|toks|bad1].
Qed.
Print Assumptions C05_tuple_dim_refuted.
(** a trailing comma in an argument list; a record without fields *)
Theorem C05_comma_refuted : AcceptedButUndocumented $"string[10,]" /\ D $"string[10,]" = D $"string[10]".
Proof.
  split; [|vm_compute; reflexivity].
  apply (undocumented _ [(KLower, VStr $"string"); tok KLBk; (KInt, VInt 10)] (tok KComma) [tok KRBk]); [accepted|toks|].
  intros [_ [_ [H _]]]. apply H; reflexivity.
Qed.
Print Assumptions C05_comma_refuted.
Theorem C05_empty_record_refuted : AcceptedButUndocumented $"{}".
Proof.
  apply (undocumented _ [] (tok KLBc) [tok KRBc]); [accepted|toks|].
  intros [_ [_ [_ H]]]. apply H; reflexivity.
Qed.
Print Assumptions C05_empty_record_refuted.

(** C06. Every sentence of the documented grammar (the semantic actions of a derivation
    succeed by definition) that passes [validate] is accepted, in every layout, and gives
    the datashape that it denotes. *)
Theorem C06_complete : forall E l s t, disc_ok E -> Layout l s ->
  Documented (default_sym E (dshape E)) l t -> AllGood t -> dshape E s = Ok t.
Proof. exact documented_complete. Qed.
Print Assumptions C06_complete.
(** A sentence that does not pass it is refused with the exception of validate, not with a
    syntax error. *)
Theorem C06_only_validate : forall E l s t, disc_ok E -> Layout l s ->
  Documented (default_sym E (dshape E)) l t -> ~ AllGood t -> dshape E s = Raise TypeErr.
Proof.
  intros E l s t HE HL HD HG. assert (HP : parse s (default_sym E (dshape E)) = Ok t).
  { eapply parse_complete; eauto using default_disjoint. apply lax_all; auto. }
  exact (dshape_invalid E s t HE HP HG).
Qed.
Print Assumptions C06_only_validate.
(** The grammar is unambiguous: also the implemented one. *)
Theorem C06_unambiguous : forall E dsh l t1 t2,
  Implemented (default_sym E dsh) l t1 -> Implemented (default_sym E dsh) l t2 -> t1 = t2.
Proof. exact grammar_unambiguous. Qed.
Print Assumptions C06_unambiguous.
(** The restriction on keywords in [Spec_Grammar.A_kwargs] excludes nothing that a
    constructor of the default symbol table accepts. *)
Theorem C06_kwarg_names : forall E dsh n c args kw t k v,
  st_dtype_constr (default_sym E dsh) n = Some c -> c args kw = Ok t -> In (k, v) kw ->
  st_dtype (default_sym E dsh) k = None /\ st_dim (default_sym E dsh) k = None.
Proof. exact kwarg_names. Qed.
Print Assumptions C06_kwarg_names.
(** The documented grammar also has type constructors as dimensions, and [typevar] as a type
    constructor. The parser does not implement them. *)
Theorem C06_dim_constr_refuted :
  dshape E0 $"fixed[3] * int32" = Raise NotImplErr /\ dshape E0 $"typevar['X']" = Raise NotImplErr.
Proof. split; vm_compute; reflexivity. Qed.
Print Assumptions C06_dim_constr_refuted.

(** A concrete sentence: [3 * {a: ?int32, 'b c': (string['A'],)}] *)
Definition ex_word : word :=
  [(KInt, VInt 3); tok KAst; tok KLBc;
   (KLower, VStr $"a"); tok KColon; tok KQ; (KLower, VStr $"int32"); tok KComma;
   (KStr, VStr $"b c"); tok KColon; tok KLP; (KLower, VStr $"string"); tok KLBk; (KStr, VStr $"A"); tok KRBk; tok KComma; tok KRP;
   tok KRBc].
Ltac no_dim_constr := intros [? [? [? [? [H ?]]]]]; try discriminate H;
  injection H; clear H; intros; subst; discriminate.
Example C06_derivation : exists t, Documented (default_sym E0 (dshape E0)) ex_word t /\ AllGood t.
Proof.
  eexists. split.
  - apply DS_plain. change ex_word with ([(KInt, VInt 3)] ++ tok KAst :: skipn 2 ex_word).
    eapply NO_dim; [eapply D_integer; reflexivity|..].
    + apply DS_plain. eapply NO_dtype; [|no_dim_constr|].
      * change (skipn 2 ex_word) with (tok KLBc :: removelast (skipn 3 ex_word) ++ [tok KRBc]).
        eapply DT_struct; [|reflexivity|].
        -- apply FL_fields.
           change (removelast (skipn 3 ex_word)) with
             ((KLower, VStr $"a") :: tok KColon :: [tok KQ; (KLower, VStr $"int32")] ++ tok KComma ::
               (KStr, VStr $"b c") :: tok KColon ::
                 (tok KLP :: [(KLower, VStr $"string"); tok KLBk; (KStr, VStr $"A"); tok KRBk] ++ [tok KComma; tok KRP])).
           apply F_more; [apply FN; cbn; auto| |apply F_one; [apply FN; cbn; auto 6|]].
           ++ eapply DS_option; [|reflexivity|..].
              ** eapply NO_dtype; [apply DT_type; reflexivity|no_dim_constr|reflexivity].
              ** reflexivity.
              ** reflexivity.
           ++ apply DS_plain. eapply NO_dtype; [|no_dim_constr|].
              ** eapply DT_tuple; [|reflexivity|].
                 --- apply TT_comma. apply I_one. apply DS_plain. eapply NO_dtype; [|no_dim_constr|].
                     +++ eapply (DT_constr _ _ $"string" _ [(KStr, VStr $"A")]); [reflexivity|..].
                         *** apply A_one. apply (AR_literal _ _ []); [left; reflexivity|constructor].
                         *** left; discriminate.
                         *** reflexivity.
                     +++ reflexivity.
                 --- reflexivity.
              ** reflexivity.
        -- reflexivity.
      * reflexivity.
    + reflexivity.
  - destruct (dshape_exact E0 $"3 * {a: ?int32, 'b c': (string['A'],)}"
      (DataShapeT None [FixedT 3; RecordT [($"a", OptionT int32_t);
         ($"b c", TupleT [DataShapeT None [StringT None $"A"]])]]) disc_ok_E0) as [X _].
    destruct X as [? [_ [_ HG]]]; [vm_compute; reflexivity|exact HG].
Qed.

(** The keyword arguments of a type constructor: each key once, with its last value. *)
Theorem C05_keywords : forall kw, NoDup (map fst (dict_of kw)) /\
  forall k v, In (k, v) (dict_of kw) <-> exists pre post, kw = pre ++ (k, v) :: post /\ ~ In k (map fst post).
Proof.
  assert (S : forall k v d, NoDup (map fst d) -> NoDup (map fst (dict_set k v d)) /\
    (forall k' v', In (k', v') (dict_set k v d) <-> (k' = k /\ v' = v) \/ (k' <> k /\ In (k', v') d))).
  { intros k v. induction d as [|[x y] d IH]; intro H; cbn [dict_set].
    - split; [repeat constructor; intros []|]. intros k' v'. split.
      + intros [E|[]]. injection E as <- <-. auto.
      + intros [[-> ->]|[_ []]]. left; auto.
    - inversion H as [|? ? N1 N2]; subst. destruct (IH N2) as [I1 I2]. destruct (str_eqb k x) eqn:E.
      + apply str_eqb_eq in E. subst x. split; [constructor; auto|]. intros k' v'. split.
        * intros [X|X]; [injection X as <- <-; auto|]. right. split; [|right; auto]. intros ->. apply N1. apply (in_map fst) in X. exact X.
        * intros [[-> ->]|[X [Y|Y]]]; [left; auto|injection Y as <- <-; congruence|right; auto].
      + assert (x <> k) by (intros ->; rewrite str_eqb_refl in E; discriminate). split.
        * cbn [map fst]. constructor; auto. intro X. apply in_map_iff in X as [[k' v'] [X1 X2]]. cbn in X1. subst k'.
          apply I2 in X2 as [[X2 _]|[_ X2]]; [auto|]. apply N1. apply (in_map fst) in X2. exact X2.
        * intros k' v'. split.
          -- intros [X|X]; [injection X as <- <-; right; split; [auto|left; auto]|]. apply I2 in X as [X|[X Y]]; auto. right. split; [auto|right; auto].
          -- intros [[-> ->]|[X [Y|Y]]]; [right; apply I2; auto|left; auto|right; apply I2; auto]. }
  assert (G : forall kw d, NoDup (map fst d) ->
    let r := fold_left (fun d p => dict_set (fst p) (snd p) d) kw d in NoDup (map fst r) /\
    forall k v, In (k, v) r <-> (exists pre post, kw = pre ++ (k, v) :: post /\ ~ In k (map fst post)) \/
      (In (k, v) d /\ ~ In k (map fst kw))).
  { induction kw as [|[x y] kw IH]; intros d H; cbn [fold_left].
    - split; auto. intros k v. split; [intro X; right; split; [auto|intros []]|].
      intros [[pre [post [X _]]]|[X _]]; [destruct pre; discriminate|auto].
    - destruct (S x y d H) as [S1 S2]. cbn [fst snd]. destruct (IH _ S1) as [I1 I2]. split; auto. intros k v. rewrite I2. cbn [map fst]. split.
      + intros [[pre [post [-> X]]]|[X Y]].
        * left. exists ((x, y) :: pre), post. auto.
        * apply S2 in X as [[-> ->]|[X Z]]; [left; exists [], kw; auto|]. right. split; auto. intros [<-|W]; auto.
      + intros [[pre [post [X Y]]]|[X Y]].
        * destruct pre as [|p pre].
          -- injection X as -> -> ->. right. split; auto. apply S2. auto.
          -- injection X as <- ->. left. eauto.
        * right. split; [apply S2; right; split; auto; intros ->; apply Y; left; auto|]. intro W. apply Y. right; auto. }
  intro kw. destruct (G kw []) as [G1 G2]; [constructor|]. split; [exact G1|]. intros k v. rewrite (G2 k v). split.
  - intros [X|[[] _]]. exact X.
  - intro X. left. exact X.
Qed.
Print Assumptions C05_keywords.
Example C05_keywords_example :
  dict_of [($"a", AInt 1); ($"b", AInt 2); ($"a", AInt 3)] = [($"a", AInt 3); ($"b", AInt 2)].
Proof. reflexivity. Qed.
