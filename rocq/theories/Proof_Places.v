(** Places of syntax errors (C08, C02): instances of the relational invariant of the parser. *)
From Verif Require Import Base Types Lexer Printer Construct Parser Proof_ParserRel Spec_Lexer
  Proof_Lexer Proof_Parser Spec_Places.

Fixpoint end_from (ts : list token) (e : nat) : nat :=
  match ts with [] => e | t :: r => end_from r (tk_end t) end.
Lemma end_from_spec ts : forall e, (ts = [] /\ end_from ts e = e) \/ exists l t, ts = l ++ [t] /\ end_from ts e = tk_end t.
Proof.
  induction ts as [|t ts IH]; intro e; [left; auto|right]. cbn [end_from].
  destruct (IH (tk_end t)) as [[-> H]|[l [u [-> H]]]]; [exists [], t; auto|exists (t :: l), u; auto].
Qed.
Lemma EndOf_from ts : EndOf ts (end_from ts 0).
Proof. destruct (end_from_spec ts 0) as [H|H]; [left|right]; exact H. Qed.

Lemma stream_strel2 (pr : nat -> nat -> Prop) K ts1 ts2 err1 err2 :
  Forall2 (fun a b => kind_val a = kind_val b /\ pr (tk_start a) (tk_start b)) ts1 ts2 ->
  match err1, err2 with
  | Some x, Some y => er pr x y
  | None, None => True
  | _, _ => False
  end -> str_bound K ts1 -> forall e1 e2,
  (err1 = None -> pr (end_from ts1 e1) (end_from ts2 e2)) ->
  strel pr (gval K) (stream ts1 err1 e1) (stream ts2 err2 e2).
Proof.
  intros H He. induction H as [|a b ts1 ts2 [H1 H2] H IH]; intros HK e1 e2 Hp; cbn [stream end_from] in *.
  - destruct err1, err2; try contradiction; constructor; auto.
  - inversion HK as [|? ? K1 K2]; subst. unfold kind_val in H1. inversion H1. constructor; auto.
Qed.

Lemma Inner_by_char ts : by_char (Inner ts).
Proof.
  intros s c [t [v [H1 [H2 [H3 H4]]]]] Hc. exists t, v. repeat split; auto. right.
  destruct H4 as [->|[c' [H4 ->]]]; [eauto|]. destruct Hc as [<-|[]]. eauto.
Qed.
Lemma Inner_short s u : Inner (fst (lex s)) u -> (length u < length s)%nat.
Proof.
  destruct (lex s) as [ts err] eqn:El. apply lex_Spans in El. cbn [fst].
  pose proof (Spans_bound _ _ _ _ El) as B.
  assert (P : ts = [] \/ (0 < length s)%nat) by (destruct ts; [left|right; cbn [Spans] in El; lia]; reflexivity).
  intros [t [v [H1 [H2 [H3 H4]]]]]. destruct P as [->|P]; [contradiction|].
  unfold str_bound in B. rewrite Forall_forall in B. specialize (B t H1 (or_intror (or_introl H2))). rewrite H3 in B. unfold gval, upto in B.
  destruct H4 as [->|[c [Hc ->]]]; [lia|]. destruct v; [contradiction|cbn in *; lia].
Qed.
Lemma str_bound_Inner s ts err : lex s = (ts, err) -> str_bound (Inner ts) ts.
Proof.
  intro El. pose proof (lex_Spans _ _ _ El) as S. unfold str_bound. apply Forall_forall. intros t Ht Hk.
  assert (V : forall v, tk_val t = VStr v -> (tk_kind t = KInt \/ tk_kind t = KStr \/ tk_kind t = KBool) -> tk_kind t = KStr).
  { clear Hk El. revert S. generalize 0%nat. induction ts as [|t' ts IH]; intros a S v Hv Hk; [contradiction|]. cbn [Spans] in S.
    destruct S as [_ [_ [_ [_ [S [_ S']]]]]]. destruct Ht as [<-|Ht]; [|eapply IH; eauto].
    destruct t' as [k v' st en]. cbn [tk_kind tk_val] in *. subst v'. remember (VStr v) as w. destruct S; try discriminate Heqw; auto; intuition discriminate. }
  unfold gval. destruct (tk_val t) as [| |v|] eqn:Ev; auto. exists t, v. repeat split; auto. apply (V v); auto.
Qed.

Section Places.
  Variable E : env.
  Hypothesis HE : disc_ok E.
  Definition at_place (s : str) (p q : nat) : Prop := p = q /\ ErrorPlace s p.

  Lemma place_rel : forall s m, (length s < m)%nat -> RV (at_place s) gds (dshape_str E m s) (dshape_str E m s).
  Proof.
    intro s. remember (length s) as n eqn:En. revert s En.
    induction n as [n IH] using (well_founded_induction lt_wf). intros s -> m Hm.
    destruct m as [|m]; [lia|]. cbn [dshape_str].
    eapply RVbind; [|intros t Ht; eapply RVbind; [apply validate_rel|intros _ _; apply RV_Ok; exact Ht]].
    unfold parse. destruct (lex s) as [ts err] eqn:El.
    pose proof (f_equal fst El) as E1. pose proof (f_equal snd El) as E2. cbn [fst snd] in E1, E2.
    apply parse_toks_default with (K := Inner ts); auto using Inner_by_char.
    - intros u Hu. rewrite <- E1 in Hu. pose proof (Inner_short _ _ Hu) as L.
      eapply RV_pr; [|apply (IH (length u)); auto; lia]. intros p q [-> H]. split; auto. eapply EP_inner; eauto.
    - apply stream_strel2.
      + assert (G : forall l, (forall t, In t l -> In t ts) -> Forall2 (fun a b => kind_val a = kind_val b /\ at_place s (tk_start a) (tk_start b)) l l).
        { clear - E1. induction l as [|t l IH]; intro H; constructor; [|apply IH; intros; apply H; right; auto].
          split; [reflexivity|]. split; [reflexivity|]. apply EP_token with t; [rewrite E1; apply H; left; reflexivity|reflexivity]. }
        apply G. auto.
      + destruct err as [e|]; auto. pose proof (Spans_ends _ _ _ _ (lex_Spans _ _ _ El)) as [_ H].
        destruct e; simpl; try congruence. destruct H as [-> H]. exists pos. split; auto. split; auto. apply EP_lex. exact E2.
      + eapply str_bound_Inner; eauto.
      + intros ->. split; auto. apply EP_end; [exact E2|]. rewrite E1. apply EndOf_from.
  Qed.
  Lemma error_place s p m : dshape E s = Raise (SyntaxErr p m) -> ErrorPlace s p.
  Proof.
    intro H. pose proof (place_rel s (S (length s)) ltac:(lia)) as R. fold (dshape E s) in R. rewrite H in R. cbn in R.
    destruct R as [p2 [_ [_ R]]]. exact R.
  Qed.

  Lemma same_place_rel l s1 s2 : Layout l s1 -> Layout l s2 -> RV (SamePlace s1 s2) gds (dshape E s1) (dshape E s2).
  Proof.
    intros L1 L2. apply lex_Layout in L1 as [ts1 [X1 M1]]. apply lex_Layout in L2 as [ts2 [X2 M2]].
    unfold dshape. cbn [dshape_str].
    eapply RVbind; [|intros t Ht; eapply RVbind; [apply validate_rel|]; intros _ _; apply RV_Ok; exact Ht].
    unfold parse. rewrite X1, X2.
    pose proof (f_equal fst X1) as F1. pose proof (f_equal fst X2) as F2. cbn [fst] in F1, F2.
    assert (I12 : forall u, Inner ts1 u -> Inner ts2 u).
    { intros u [t [v [H1 [H2 [H3 H4]]]]]. subst l. apply (in_map kind_val) in H1. rewrite <- M2 in H1.
      apply in_map_iff in H1 as [t2 [Hkv H1]]. exists t2, v. unfold kind_val in Hkv. injection Hkv as K1 K2. repeat split; auto; congruence. }
    apply parse_toks_default with (K := Inner ts1); auto using Inner_by_char.
    - intros u Hu. pose proof (I12 _ Hu) as Hu2. rewrite <- F1 in Hu. rewrite <- F2 in Hu2.
      pose proof (Inner_short _ _ Hu) as L. pose proof (Inner_short _ _ Hu2) as L2.
      rewrite !(dshape_fuel E HE) by lia. eapply RV_pr; [|apply (place_rel u (S (length u))); lia].
      intros p q [-> H]. eapply SP_inner; eauto.
    - apply stream_strel2.
      + assert (G : forall l1 l2 pre1 pre2, ts1 = pre1 ++ l1 -> ts2 = pre2 ++ l2 -> length pre1 = length pre2 -> map kind_val l1 = map kind_val l2 ->
          Forall2 (fun a b => kind_val a = kind_val b /\ SamePlace s1 s2 (tk_start a) (tk_start b)) l1 l2).
        { clear - F1 F2. induction l1 as [|t1 l1 IH]; intros [|t2 l2] pre1 pre2 H1 H2 HL HM; try discriminate; constructor.
          - split; [injection HM; intros; unfold kind_val; congruence|]. apply SP_token with (length pre1) t1 t2; auto.
            + rewrite F1, H1, nth_error_app2, Nat.sub_diag by lia. reflexivity.
            + rewrite F2, H2, HL, nth_error_app2, Nat.sub_diag by lia. reflexivity.
          - apply (IH l2 (pre1 ++ [t1]) (pre2 ++ [t2])); [now rewrite <- app_assoc|now rewrite <- app_assoc| |injection HM; auto].
            rewrite !app_length. cbn. lia. }
        apply (G ts1 ts2 [] []); auto. congruence.
      + exact I.
      + eapply str_bound_Inner; eauto.
      + intros _. apply SP_end; [rewrite F1|rewrite F2]; apply EndOf_from.
  Qed.
End Places.
Lemma layout_places E l s1 s2 : disc_ok E -> Layout l s1 -> Layout l s2 ->
  (exists t, dshape E s1 = Ok t /\ dshape E s2 = Ok t) \/
  (exists p q m, dshape E s1 = Raise (SyntaxErr p m) /\ dshape E s2 = Raise (SyntaxErr q m) /\ SamePlace s1 s2 p q) \/
  (exists e, dshape E s1 = Raise e /\ dshape E s2 = Raise e /\ forall p m, e <> SyntaxErr p m).
Proof.
  intros HE L1 L2. pose proof (same_place_rel E HE l s1 s2 L1 L2) as H.
  apply RV_inv in H as [[t [H1 [H2 _]]]|[[p [q [m [H1 [H2 H3]]]]]|[e [H1 [H2 H3]]]]]; eauto 9.
  right; right. exists e. repeat split; auto. intros p m ->. exact H3.
Qed.
