(** What the table of refusals refuses is not accepted (C71). *)
From Verif Require Import Base Types Lexer Printer Construct Parser Spec_Time Spec_Constr Spec_Raises Proof_Time Proof_Constr Proof_Constr2 Proof_Raises2.
Local Open Scope Z_scope.
Section C.
  Variable E : env.
  Variable dsh : str -> res ty.
  Lemma Elements_fun a l m : Elements a l -> Elements a m -> l = m.
  Proof. rewrite !Elements_spec. congruence. Qed.
  Lemma AsText_fun a s s' : AsText E a s -> AsText E a s' -> s = s'.
  Proof. rewrite !AsText_spec. congruence. Qed.
  Lemma AsType_fun a s s' : AsType dsh a s -> AsType dsh a s' -> s = s'.
  Proof. rewrite !AsType_spec. congruence. Qed.
  Lemma Literal_fun l m m' : Forall2 AsLiteral l m -> Forall2 AsLiteral l m' -> m = m'.
  Proof.
    intro H. revert m'. induction H as [|a b l m H F IH]; intros m' F'; inversion F'; subst; auto. f_equal; auto.
    rewrite AsLiteral_spec in *. congruence.
  Qed.
  Lemma Pairs_fun l m fs fs' : Pairs E dsh l m fs -> Pairs E dsh l m fs' -> fs = fs'.
  Proof.
    intro H. revert fs'. induction H; intros fs' H'; inversion H'; subst; auto. f_equal; auto. f_equal; [eapply AsText_fun|eapply AsType_fun]; eauto.
  Qed.
  Lemma Pairs_nth l m fs i x : Pairs E dsh l m fs -> (i < length l)%nat -> nth_error m i = Some x -> exists t, AsType dsh x t.
  Proof.
    intro H. revert i. induction H; intros i Hi Hx; [cbn in Hi; lia|destruct i; discriminate|].
    destruct i as [|i]; [injection Hx as <-; eauto|]. cbn in Hi, Hx. apply (IHPairs i); auto. lia.
  Qed.
  Lemma NoType_not a e t : NoType dsh a e -> AsType dsh a t -> False.
  Proof. intros H K. destruct H; inversion K; subst; try lia; congruence. Qed.
  Lemma NoSeq_not a l : NoSequence a -> Elements a l -> False.
  Proof. intros [[z ->]|[b ->]] H; inversion H. Qed.
  Lemma NoItem_not a e t : NoItem a e -> TupleItem a t -> False.
  Proof. intros H K. destruct H; inversion K; subst; try congruence; discriminate. Qed.
  Lemma UnitOf_OnlyS s u : OnlyS s -> UnitOf s u -> False.
  Proof. intros H K. apply normalize_index in H. apply normalize_UnitOf in K. congruence. Qed.
  Lemma F2_In {A B} (R : A -> B -> Prop) l m x : Forall2 R l m -> In x l -> exists y, R x y.
  Proof. induction 1; intros []; subst; eauto. Qed.
  Ltac inv K := inversion K; subst; clear K.
  Ltac same := try match goal with
    | X : NoSequence ?a, Y : Elements ?a _ |- _ => destruct (NoSeq_not _ _ X Y)
    | X : NoType _ ?a _, Y : AsType _ ?a _ |- _ => destruct (NoType_not _ _ _ X Y) end;
    repeat match goal with
    | X : Elements ?a ?l, Y : Elements ?a ?m |- _ => tryif constr_eq l m then clear Y else (pose proof (Elements_fun _ _ _ X Y); subst)
    | X : AsText _ ?a ?l, Y : AsText _ ?a ?m |- _ => tryif constr_eq l m then clear Y else (pose proof (AsText_fun _ _ _ X Y); subst) end.
  Lemma disjoint n b e t : Refuses E dsh n b e -> Meaning E dsh n b t -> False.
  Proof.
    intros H K. destruct H as [a H|a b H|a b H|a b l m i x e H1 H2 H3 H4 H5|a b l m fs H1 H2 H3 H4|a H|a l x e H1 H2 H3|a r H|c s H|a H|a H|x l H|nm p ps
      |a e H|a b e H|a b e H|n a Hn H|a s H1 H2 H3|a s H1 H2|l|a tp H|a x H|a ty o H|a l lits ty o e H1 H2 H3 H4|a x o H1 H2].
    - inv K; destruct (H _ eq_refl); congruence.
    - inv K. same.
    - inv K. same.
    - inv K. same. match goal with X : Pairs _ _ _ _ _ |- _ => destruct (Pairs_nth _ _ _ _ _ X H3 H4) end. eapply NoType_not; eauto.
    - inv K. same. match goal with X : Pairs _ _ ?l ?m ?f, Y : Pairs _ _ ?l ?m ?g |- _ => rewrite (Pairs_fun _ _ _ _ X Y) in *; contradiction end.
    - inv K. same.
    - inv K. same. match goal with X : Forall2 _ _ _ |- _ => destruct (F2_In _ _ _ _ X H2) end. eapply NoItem_not; eauto.
    - inv K. same.
    - inv K. auto.
    - inv K. destruct H; discriminate.
    - inv K. destruct H as [[z H]|[b H]]; discriminate.
    - inv K.
    - inv K.
    - inv K. eapply NoType_not; eauto.
    - inv K. same.
    - inv K. same.
    - destruct Hn as [<-|[<-|[]]]; inv K; eapply H; eauto.
    - inv K. same. eapply H3; eauto.
    - inv K. same. eapply UnitOf_OnlyS; eauto.
    - inv K. match goal with X : AsText _ (AList _) _ |- _ => inversion X end.
    - inv K; eapply H; eauto.
    - inv K; eapply H; eauto.
    - inv K. same.
    - inv K. same. match goal with X : Forall2 _ ?l ?m, Y : Forall2 _ ?l ?m' |- _ => rewrite (Literal_fun _ _ _ X Y) in * end.
      destruct H3 as [->|[x [-> F]]].
      + match goal with X : exists d, _ |- _ => destruct X as [d [X _]] end. congruence.
      + destruct F as [->|[->|[->| ->]]]; match goal with X : _ /\ exists d, _ |- _ => destruct X as [_ [d [X _]]] end; congruence.
    - inv K. destruct x; try (match goal with X : Falsy _ /\ _ |- _ => destruct X; contradiction end). eapply H2; eauto.
  Qed.
  Lemma Bound_fun ps args kw b b' : NoDup (map fst ps) -> NoDup (map fst kw) -> Bound ps args kw b -> Bound ps args kw b' -> b = b'.
  Proof. intros N1 N2 H H'. apply call_bind_spec in H, H'; auto. congruence. Qed.
  Theorem constr_refuses n ps c args kw b e : In (n, ps) signatures -> constr_fun E dsh n = Some c -> NoDup (map fst kw) ->
    Bound ps args kw b -> Refuses E dsh n b e -> exists e', c args kw = Raise e'.
  Proof.
    intros Hin Hc NK HB HR. destruct (c args kw) as [t|e'] eqn:Ec; [|eauto]. exfalso.
    apply (constr_spec E dsh n ps) in Ec as [b' [HB' HM]]; auto.
    assert (NP : NoDup (map fst ps)).
    { cbn [signatures In] in Hin. repeat (destruct Hin as [H|Hin]; [injection H; intros; subst; apply nodup_str_NoDup; reflexivity|]). contradiction. }
    rewrite (Bound_fun _ _ _ _ _ NP NK HB' HB) in HM. eapply disjoint; eauto.
  Qed.
  Theorem string_refuses c args kw e : constr_fun E dsh $"string" = Some c -> RefusesString args kw e -> exists e', c args kw = Raise e'.
  Proof.
    intros Hc HR. destruct (c args kw) as [t|e'] eqn:Ec; [|eauto]. exfalso. apply (string_spec E dsh) in Ec as [-> HM]; auto.
    inversion HR; subst; clear HR; try congruence; inversion HM; subst;
      try match goal with H : forall c, ~ Encoding _ c, X : Encoding _ _ |- _ => exact (H _ X) end;
      try match goal with H : _ \/ _ |- _ => destruct H as [[? H]|[? H]]; discriminate end;
      try match goal with H : forall s, AStr _ <> AStr s |- _ => exact (H _ eq_refl) end; try contradiction.
    - match goal with X : Falsy _ |- _ => destruct X as [X|[X|[X|X]]]; try discriminate; injection X as -> end.
      match goal with H : forall c, ~ Encoding _ c |- _ => apply (H $"U8"), EN_utf8; cbn; auto 10 end.
    - match goal with X : Falsy _ |- _ => destruct X as [X|[X|[X|X]]]; discriminate end.
  Qed.
End C.
