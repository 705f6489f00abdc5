(** C10-C13: printing and reading back (Spec_Print.v). *)
From Verif Require Import Base Types Lexer Printer Construct Parser Ops Preds Spec_Lexer Spec_WF Spec_Preds Spec_Print
  Proof_Lexer Proof_WF Proof_Eq Proof_ParserRel Proof_Parser Proof_Preds Proof_Preds2 Tests_Parser Prop_Parser Proof_Print Spec_Grammar
  Proof_Grammar Proof_Grammar2 Proof_Grammar3 Proof_Print2 Proof_Print3 Proof_Print4.

(** C10. [dshape(str(ds)) == ds] for every printable datashape that [validate] accepts. *)
Theorem C10_print_parse : forall E t, disc_ok E -> IsDataShape t -> Printable (e_uni E) t -> AllGood t ->
  exists t', dshape E (py_str (e_uni E) t) = Ok t' /\ py_eq t' t = true /\ py_eq t t' = true.
Proof.
  intros E t HE HD HP HA. exists (asds (norm t)).
  split; [apply (print_parse E t MStr); auto|]. destruct (print_parse_eq E t) as [H1 H2]; auto.
  intros [X _]. contradiction.
Qed.
Print Assumptions C10_print_parse.
(** The result is the same object, constructor by constructor, if nothing in it has a name
    and the parameters of functions are DataShapes (as they are after parsing). *)
Theorem C10_exact : forall E t, disc_ok E -> IsDataShape t -> Printable (e_uni E) t -> AllGood t ->
  (forall n l, Occurs (DataShapeT n l) t -> n = None) ->
  (forall l u, Occurs (FunctionT l) t -> In u l -> IsDataShape u) ->
  dshape E (py_str (e_uni E) t) = Ok t.
Proof.
  intros E t HE HD HP HA HN HF. unfold py_str. rewrite print_parse by auto. rewrite norm_ds by auto.
  rewrite norm_id by auto. reflexivity.
Qed.
Print Assumptions C10_exact.
(** also for measures that are not wrapped in a DataShape, unless they are options of arrays *)
Theorem C10_bare : forall E t, disc_ok E -> IsMeasure t -> shape t = [] -> Printable (e_uni E) t -> AllGood t ->
  exists t', dshape E (py_str (e_uni E) t) = Ok t' /\ py_eq t' t = true /\ py_eq t t' = true.
Proof.
  intros E t HE HD HS HP HA. exists (asds (norm t)).
  split; [apply (print_parse E t MStr); auto|]. destruct (print_parse_eq E t) as [H1 H2]; auto.
Qed.
Print Assumptions C10_bare.
Theorem C10_bare_option_refuted :
  let t := OptionT (DataShapeT None [FixedT 2; int32_t]) in
  exists t', dshape E0 (py_str U0 t) = Ok t' /\ py_eq t' t = false.
Proof. eexists. split; vm_compute; reflexivity. Qed.
Print Assumptions C10_bare_option_refuted.

(** C11. Line breaking never changes the meaning: any width, also negative. *)
Theorem C11_pprint_parse : forall E t w, disc_ok E -> IsDataShape t -> Printable (e_uni E) t -> AllGood t ->
  exists t', dshape E (pprint (e_uni E) t w) = Ok t' /\ py_eq t' t = true /\ py_eq t t' = true.
Proof.
  intros E t w HE HD HP HA. exists (asds (norm t)).
  split; [apply (print_parse E t (MPp w)); auto|]. destruct (print_parse_eq E t) as [H1 H2]; auto.
  intros [X _]. contradiction.
Qed.
Print Assumptions C11_pprint_parse.
(** all widths give the same datashape as [str] *)
Theorem C11_width_irrelevant : forall E t w, disc_ok E -> IsDataShape t -> Printable (e_uni E) t -> AllGood t ->
  dshape E (pprint (e_uni E) t w) = dshape E (py_str (e_uni E) t).
Proof. intros. unfold pprint, py_str. rewrite !print_parse; auto. Qed.
Print Assumptions C11_width_irrelevant.

(** C12. Printing, parsing and printing again gives the same text, with [str] and with
    [pprint] at any width... *)
Theorem C12_stable : forall E t t', disc_ok E -> IsDataShape t -> Printable (e_uni E) t -> AllGood t ->
  dshape E (py_str (e_uni E) t) = Ok t' -> py_str (e_uni E) t' = py_str (e_uni E) t.
Proof.
  intros E t t' HE HD HP HA H. unfold py_str in H. rewrite print_parse in H by auto. injection H as <-.
  apply pp_asds_norm; auto.
Qed.
Print Assumptions C12_stable.
Theorem C12_stable_pprint : forall E t t' w w', disc_ok E -> IsDataShape t -> Printable (e_uni E) t -> AllGood t ->
  dshape E (pprint (e_uni E) t w) = Ok t' -> pprint (e_uni E) t' w' = pprint (e_uni E) t w'.
Proof.
  intros E t t' w w' HE HD HP HA H. unfold pprint in H. rewrite print_parse in H by auto. injection H as <-.
  apply pp_asds_norm; auto.
Qed.
Print Assumptions C12_stable_pprint.
(** ... and the text determines the datashape up to [==], whichever way it was printed. *)
Theorem C12_injective : forall E t1 t2 m1 m2, disc_ok E ->
  IsDataShape t1 -> Printable (e_uni E) t1 -> AllGood t1 ->
  IsDataShape t2 -> Printable (e_uni E) t2 -> AllGood t2 ->
  pp (e_uni E) m1 t1 = pp (e_uni E) m2 t2 -> py_eq t1 t2 = true.
Proof.
  intros E t1 t2 m1 m2 HE D1 P1 A1 D2 P2 A2 H.
  pose proof (print_parse E t1 m1 HE P1 (or_intror D1) A1) as R1.
  pose proof (print_parse E t2 m2 HE P2 (or_intror D2) A2) as R2.
  rewrite H in R1. rewrite R1 in R2. injection R2 as R2.
  destruct (print_parse_eq E t1 HE P1 (or_intror D1) A1) as [X _]; [intros [Y _]; contradiction|].
  destruct (print_parse_eq E t2 HE P2 (or_intror D2) A2) as [_ Z]; [intros [Y _]; contradiction|].
  eapply py_eq_trans; [exact X|]. rewrite R2. exact Z.
Qed.
Print Assumptions C12_injective.

(** C13. What [dshape] returns satisfies the class invariants and passes [validate], so it
    can be read back if its parts are lexable. (The theorem is in Prop_Reads.v.) *)
Lemma parse_print_lexable : forall E s t, disc_ok E -> dshape E s = Ok t ->
  (forall u, Occurs u t -> Lexable (e_uni E) u) ->
  exists t', dshape E (py_str (e_uni E) t) = Ok t' /\ py_eq t' t = true /\ py_eq t t' = true.
Proof.
  intros E s t HE H HL. destruct (C07_parse_wf E s t HE H) as [HD [HW _]].
  apply dshape_exact in H as [_ [_ [_ HA]]]; auto. apply C10_print_parse; auto. split; auto.
Qed.

(** the hypotheses are satisfiable: a nested datashape with quoted names *)
Definition ex_print : ty :=
  DataShapeT None [FixedT 3; VarT; RecordT
    [($"a", OptionT (DataShapeT None [EllipsisT (Some $"A"); int32_t]));
     ($"it's", FunctionT [DataShapeT None [complex64_t]; DataShapeT None [TupleT [DataShapeT None [TypeVarT $"M"]]]]);
     ([], CategoricalT [LStr [10%N; 233%N; 8203%N]] string_t true)]].
Lemma occurs_dec (P : ty -> Prop) t : P t -> (forall c, In c (children t) -> forall u, Occurs u c -> P u) ->
  forall u, Occurs u t -> P u.
Proof. intros H1 H2 u Hu. inversion Hu; subst; eauto. Qed.
Example C10_nonvacuous : IsDataShape ex_print /\ Printable U0 ex_print /\ AllGood ex_print /\
  dshape E0 (py_str U0 ex_print) = Ok ex_print.
Proof.
  split; [eexists; eexists; reflexivity|].
  assert (HD : dshape E0 (py_str U0 ex_print) = Ok ex_print) by (vm_compute; reflexivity).
  destruct (C07_parse_wf _ _ _ disc_ok_E0 HD) as [_ [HW _]].
  pose proof HD as HA. apply dshape_exact in HA as [_ [_ [_ HA]]]; [|exact disc_ok_E0].
  split; [|auto]. split; [exact HW|].
  assert (Up : forall c, is_upper c = true -> UpperName [c]).
  { intros c Hc. split; [constructor; auto|]. intros [[q H]|[q H]]; destruct q; discriminate. }
  assert (M : forall t, is_DataShape t = false -> may_be_measure t = true -> is_Ellipsis t = false -> IsMeasure t).
  { intros t H1 H2 H3. split; [intro X; apply IsDataShape_b in X; congruence|]. split; [apply may_be_measure_spec; auto|].
    intros o ->. discriminate. }
  assert (DSh : forall n l, IsDataShape (DataShapeT n l)) by (intros; eexists; eexists; reflexivity).
  assert (Q : forall s, forallb (fun c => ((32 <=? c) && (c <=? 126) && negb (c =? 92))%N || (c =? 10)%N ||
     ((256 <=? c) && (c <? 65536) && negb (e_print U0 c))%N ||
     ((128 <=? c) && e_print U0 c && negb (is_surrogate c))%N) s = true -> Quotable U0 s).
  { intros s Hs. apply Forall_forall. intros c Hc. rewrite forallb_forall in Hs. specialize (Hs c Hc).
    rewrite !orb_true_iff, !andb_true_iff, !negb_true_iff, N.eqb_eq, N.eqb_neq, !N.leb_le, N.ltb_lt in Hs.
    destruct Hs as [[[Hs| ->]|Hs]|Hs]; [left; lia|right; left; simpl; auto|right; right; right; tauto|right; right; left; tauto]. }
  assert (K : forall c, In c KnownCTypes -> forall u, Occurs u c -> Lexable U0 u).
  { intros c Hc. apply occurs_dec.
    - destruct c; try exact I; try exact Hc; exfalso; repeat (destruct Hc as [Hc|Hc]; [discriminate|]); exact Hc.
    - intros d Hd. exfalso. repeat (destruct Hc as [<-|Hc]; [exact Hd|]). exact Hc. }
  assert (K1 : forall c, children c = [] -> Lexable U0 c -> forall u, Occurs u c -> Lexable U0 u).
  { intros c Hc HL. apply occurs_dec; auto. rewrite Hc. intros d []. }
  assert (K2 : forall dims m, (forall d, In d dims -> IsDim d) -> IsMeasure m ->
     (forall d, In d dims -> forall u, Occurs u d -> Lexable U0 u) -> (forall u, Occurs u m -> Lexable U0 u) ->
     forall u, Occurs u (DataShapeT None (dims ++ [m])) -> Lexable U0 u).
  { intros dims m H1 H2 H3 H4. apply occurs_dec.
    - split; auto. exists dims, m. auto.
    - intros c Hc. cbn in Hc. apply in_app_iff in Hc as [Hc|[<-|[]]]; [exact (H3 c Hc)|exact H4]. }
  apply (K2 [FixedT 3; VarT]).
  { intros d [<-|[<-|[]]]; [left; eauto|right; left; auto]. }
  { apply M; reflexivity. }
  { intros d [<-|[<-|[]]]; apply K1; auto; exact I. }
  apply occurs_dec.
  - intros n u [H|[H|[H|[]]]]; injection H as <- <-; (split; [|left; apply M; reflexivity]).
    + left. split; [constructor; [reflexivity|constructor]|]. intros [[q H]|[q H]]; discriminate.
    + right. split; [|split; [|apply Q; reflexivity]].
      * intro H. inversion H as [c r _ H2]; subst. rewrite Forall_forall in H2. specialize (H2 39%N). discriminate H2. simpl; auto.
      * intros m H. exfalso. assert (X : last $"it's" 0%N = last (m ++ [10%N]) 0%N) by (f_equal; exact H). rewrite last_last in X. discriminate.
    + right. split; [intro H; inversion H|split; [|constructor]]. intros m H. destruct m; discriminate.
  - intros c [<-|[<-|[<-|[]]]].
    + apply occurs_dec.
      * split; [right; apply DSh|discriminate].
      * intros c [<-|[]]. apply (K2 [EllipsisT (Some $"A")]).
        -- intros d [<-|[]]. right; right; right; eauto.
        -- apply M; reflexivity.
        -- intros d [<-|[]]. apply K1; auto. apply Up. reflexivity.
        -- apply K. simpl; auto 20.
    + apply occurs_dec.
      * intros u [<-|[<-|[]]]; right; apply DSh.
      * intros c [<-|[<-|[]]].
        -- apply (K2 []); [intros ? []|apply M; reflexivity|intros ? []|]. apply K. simpl; auto 20.
        -- apply (K2 []); [intros ? []|apply M; reflexivity|intros ? []|]. apply occurs_dec; [exact I|].
           intros c [<-|[]]. apply (K2 []); [intros ? []|apply M; reflexivity|intros ? []|].
           apply K1; auto. apply Up. reflexivity.
    + apply occurs_dec.
      * split; [simpl; lia|]. split; [right; left; intros x [<-|[]]; eauto|]. split; [|apply M; reflexivity].
        intros s [H|[]]. injection H as <-. apply Q. reflexivity.
      * intros c [<-|[]]. apply K1; auto; exact I.
Qed.
