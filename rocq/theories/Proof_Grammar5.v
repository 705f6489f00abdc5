(** Documented sentences are tidy: with Proof_Grammar4, the documented grammar is exactly the
    tidy part of the implemented one. *)
From Verif Require Import Base Types Lexer Printer Construct Parser Ops Preds Spec_Lexer Spec_WF Spec_Preds
  Proof_Lexer Proof_WF Proof_ParserRel Proof_Parser Proof_Preds Proof_Preds2 Spec_Grammar Proof_Grammar Proof_Grammar2 Proof_Grammar3 Proof_Grammar4.

Section Doc.
  Variable sym : symtab.
  Hypothesis Hdisj : forall n d, st_dim sym n = Some d -> st_dtype sym n = None.
  Hypothesis Hdisj2 : forall n d, st_dim sym n = Some d -> st_dtype_constr sym n = None.
  Notation ta := (tidy_at sym).

  Definition TidyIn (w q : word) : Prop := forall p x q', w = p ++ x :: q' -> ta x (q' ++ q).
  Lemma TidyIn_nil q : TidyIn [] q.
  Proof. intros p x q' H. destruct p; discriminate. Qed.
  Lemma TidyIn_cons x w q : ta x (w ++ q) -> TidyIn w q -> TidyIn (x :: w) q.
  Proof. intros H1 H2 [|y p] z q' H; simpl in H; injection H as <- ->; auto. apply (H2 p z q'). reflexivity. Qed.
  Lemma TidyIn_app a b q : TidyIn a (b ++ q) -> TidyIn b q -> TidyIn (a ++ b) q.
  Proof.
    induction a as [|x a IH]; intros H1 H2; simpl; auto. apply TidyIn_cons.
    - rewrite <- app_assoc. apply (H1 [] x a). reflexivity.
    - apply IH; auto. intros p y q' ->. apply (H1 (x :: p) y q'). reflexivity.
  Qed.
  Definition fol (q : word) : Prop := In (next_kind q) [None; Some KComma; Some KRBk; Some KRBc; Some KRP].
  Definition gh (w : word) : Prop := match next_kind w with Some KRBk | Some KRBc | None => False | _ => True end.
  Lemma gh_app w q : gh w -> gh (w ++ q).
  Proof. destruct w as [|[k v] w]; unfold gh; simpl; auto. contradiction. Qed.
  Lemma gh_RBk w q : gh w -> next_kind (w ++ q) <> Some KRBk.
  Proof. intro H. apply gh_app with (q := q) in H. unfold gh in H. destruct (next_kind _) as [k|]; [|contradiction]. destruct k; try contradiction; discriminate. Qed.
  Lemma gh_RBc w q : gh w -> next_kind (w ++ q) <> Some KRBc.
  Proof. intro H. apply gh_app with (q := q) in H. unfold gh in H. destruct (next_kind _) as [k|]; [|contradiction]. destruct k; try contradiction; discriminate. Qed.
  Definition q_ok (q : word) : Prop :=
    match q with
     | (KUpper, _) :: _ | (KLBc, _) :: _ | (KLP, _) :: _ | (KEll, _) :: _ => True
     | (KLower, _) :: q' => next_kind q' <> Some KEq
     | (KInt, _) :: q' => next_kind q' = Some KAst
     | _ => False
    end.
  (** tokens on which nothing depends *)
  Lemma ta_any k v q : ~ In k [KEll; KLower; KQ; KComma; KLBc] -> ta (k, v) q.
  Proof.
    intro H. unfold tidy_at. simpl. simpl in H. repeat split; try (intros ->; exfalso; apply H; auto 10; fail).
    intros [->|[n [d [E _]]]]; [exfalso; apply H; auto|]. injection E as -> _. exfalso; apply H; auto.
  Qed.
  Lemma ta_lower n q : st_dim sym n = None \/ In (next_kind q) [Some KAst; Some KColon; Some KEq] -> ta (KLower, VStr n) q.
  Proof.
    intro H. unfold tidy_at. simpl. repeat split; try discriminate.
    intros [E|[n' [d [E Hd]]]]; [discriminate|]. injection E as <-. destruct H as [H|H]; [congruence|exact H].
  Qed.
  Lemma ta_comma v q : next_kind q <> Some KRBk -> ta (KComma, v) q.
  Proof.
    intro H. unfold tidy_at. simpl. repeat split; try discriminate; auto.
    intros [E|[n' [d [E Hd]]]]; discriminate.
  Qed.
  Lemma ta_q v q : q_ok q -> ta (KQ, v) q.
  Proof.
    intro H. unfold tidy_at. simpl. repeat split; try discriminate; auto.
    intros [E|[n' [d [E Hd]]]]; discriminate.
  Qed.
  Lemma ta_ell v q : next_kind q = Some KAst -> ta (KEll, v) q.
  Proof. intro H. unfold tidy_at. rewrite H. simpl. repeat split; try discriminate; auto. Qed.
  Lemma ta_lbc v q : next_kind q <> Some KRBc -> ta (KLBc, v) q.
  Proof.
    intro H. unfold tidy_at. simpl. repeat split; try discriminate; auto.
    intros [E|[n' [d [E Hd]]]]; discriminate.
  Qed.
  Ltac any := apply ta_any; simpl; intuition discriminate.
  Ltac one := apply TidyIn_cons; [any|].
  Ltac fol1 := unfold fol; simpl; auto 10.

  Definition R_DS (w : word) (t : ty) := gh w /\ forall q, fol q -> TidyIn w q.
  Definition R_NoOpt (w : word) (t : ty) := gh w /\ forall q, fol q -> TidyIn w q /\ q_ok (w ++ q).
  Definition R_FieldList (w : word) (fs : list (str * ty)) := gh w /\ forall q, next_kind q = Some KRBc -> TidyIn w q.
  Definition R_Fields (w : word) (fs : list (str * ty)) := gh w /\ forall q, fol q -> TidyIn w q.
  Definition R_TupleType (w : word) (l : list ty) := (exists w', w = tok KLP :: w') /\ forall q, TidyIn w q.
  Definition R_Items (w : word) (l : list ty) := gh w /\ forall q, fol q -> TidyIn w q.
  Definition R_Args (w : word) (args : list targ) (kw : list (str * targ)) := gh w /\ forall q, fol q -> TidyIn w q.
  Definition R_Kwargs (w : word) (kw : list (str * targ)) := gh w /\ forall q, fol q -> TidyIn w q.
  Definition R_Arg (w : word) (a : targ) := gh w /\ forall q, fol q -> TidyIn w q.
  Definition R_ListArg (w : word) (l : list targ) := forall q, fol q -> TidyIn w q.

  Lemma DimName_tidy u d q : DimName sym u d -> next_kind q = Some KAst -> TidyIn u q /\ q_ok (u ++ q) /\ gh u.
  Proof.
    intros H Hq. destruct H as [n d H|d H|s c d H1 H2]; (split; [|split; [|exact I]]); simpl; try exact I.
    - apply TidyIn_cons; [|apply TidyIn_nil]. apply ta_lower. right. simpl. rewrite Hq. auto.
    - rewrite Hq. discriminate.
    - apply TidyIn_cons; [|apply TidyIn_nil]. apply ta_ell. exact Hq.
    - one. apply TidyIn_cons; [|apply TidyIn_nil]. apply ta_ell. exact Hq.
  Qed.
  Lemma Dim_tidy u d q : Dim sym u d -> next_kind q = Some KAst -> TidyIn u q /\ q_ok (u ++ q) /\ gh u.
  Proof.
    intros H Hq. destruct H as [u d H|s c d Hc H|z c d Hc H].
    - eapply DimName_tidy; eauto.
    - split; [one; apply TidyIn_nil|]. split; exact I.
    - split; [one; apply TidyIn_nil|]. split; [exact Hq|exact I].
  Qed.
  Lemma LiteralList_tidy k w l : LiteralList k w l -> gh w /\ forall q, fol q -> TidyIn w q.
  Proof.
    induction 1 as [t a H Hk|t a w l H Hk Hs [IH1 IH2]].
    - split; [destruct H; exact I|]. intros q Hq. apply TidyIn_cons; [|apply TidyIn_nil]. destruct H; any.
    - split; [destruct H; exact I|]. intros q Hq. apply TidyIn_cons; [destruct H; any|].
      apply TidyIn_cons; [apply ta_comma, gh_RBk; auto|]. auto.
  Qed.
  Lemma FieldName_tidy f n q : FieldName f n -> ta f (tok KColon :: q) /\ forall w, gh (f :: w).
  Proof.
    intros [k s Hk]. simpl in Hk. destruct Hk as [<-|[<-|[<-|[<-|[]]]]]; (split; [|intro; exact I]); try any.
    apply ta_lower. right. simpl. auto.
  Qed.
  Lemma Dropped_false j : Dropped sym false j -> j = [].
  Proof. intros [->|[H _]]; [auto|discriminate]. Qed.

  Theorem documented_tidy w t : DS sym false w t -> R_DS w t.
  Proof.
    revert w t. apply (DS_mind sym false R_DS R_NoOpt R_NoOpt R_FieldList R_Fields R_TupleType R_Items R_Args R_Kwargs R_Arg R_ListArg).
    - intros w t _ [H1 H2]. split; auto. intros q Hq. apply H2; auto.
    - intros w t c o d _ [H1 H2] _ _ _. split; [exact I|]. intros q Hq. destruct (H2 q Hq). apply TidyIn_cons; auto. apply ta_q; auto.
    - intros u d w t t' Hd _ [H1 H2] _.
      assert (HH : forall q, TidyIn u (tok KAst :: w ++ q) /\ q_ok (u ++ tok KAst :: w ++ q) /\ gh u)
        by (intro q; eapply Dim_tidy; eauto).
      split; [apply gh_app, (HH [])|]. intros q Hq. destruct (HH q) as [X1 [X2 X3]]. split.
      + apply TidyIn_app; [exact X1|]. one. auto.
      + rewrite <- app_assoc. exact X2.
    - intros w t t' _ IH _ _. exact IH.
    - intros; discriminate.
    - intros s c t _ _. split; [exact I|]. intros q Hq. split; [one; apply TidyIn_nil|exact I].
    - intros n t H. split; [exact I|]. intros q Hq. split.
      + apply TidyIn_cons; [|apply TidyIn_nil]. apply ta_lower. left. destruct (st_dim sym n) eqn:E; auto. apply Hdisj in E. congruence.
      + simpl. unfold fol in Hq. simpl in Hq. destruct Hq as [Hq|[Hq|[Hq|[Hq|[Hq|[]]]]]]; rewrite <- Hq; discriminate.
    - intros n c w args kw t Hc _ [H1 H2] _ _. split; [exact I|]. intros q Hq. split; [|discriminate].
      apply TidyIn_cons.
      { apply ta_lower. left. destruct (st_dim sym n) eqn:E; auto. apply Hdisj2 in E. congruence. }
      one. apply TidyIn_app; [apply H2; fol1|]. one. apply TidyIn_nil.
    - intros w fs c t _ [H1 H2] _ _. split; [exact I|]. intros q Hq. split; [|exact I].
      apply TidyIn_cons. { apply ta_lbc. rewrite <- app_assoc. apply gh_RBc; auto. }
      apply TidyIn_app; [apply H2; reflexivity|]. one. apply TidyIn_nil.
    - intros w l c t _ [[w' ->] H2] _ _. split; [exact I|]. intros q Hq. split; [auto|exact I].
    - intros w l v r c t _ [[w' ->] H2] _ [H3 H4] _ _. split; [exact I|]. intros q Hq. split; [|exact I].
      apply TidyIn_app; auto. one. auto.
    - intros w fs _ [H1 H2]. split; auto. intros q Hq. apply H2. unfold fol. rewrite Hq. simpl; auto.
    - intros w fs _ [H1 H2]. split; [apply gh_app; auto|]. intros q Hq. apply TidyIn_app; [apply H2; fol1|].
      apply TidyIn_cons; [|apply TidyIn_nil]. apply ta_comma. simpl. rewrite Hq. discriminate.
    - discriminate.
    - intros f n w t Hn _ [H1 H2]. split; [apply (FieldName_tidy f n [] Hn)|]. intros q Hq.
      apply TidyIn_cons; [apply (FieldName_tidy f n _ Hn)|]. one. auto.
    - intros f n w t w' fs Hn _ [H1 H2] _ [H3 H4]. split; [apply (FieldName_tidy f n [] Hn)|]. intros q Hq.
      apply TidyIn_cons; [apply (FieldName_tidy f n _ Hn)|]. one. apply TidyIn_app; [apply H2; fol1|].
      apply TidyIn_cons; [apply ta_comma, gh_RBk; auto|]. auto.
    - intros w l _ [H1 H2]. split; [eauto|]. intro q. one. apply TidyIn_app; [apply H2; fol1|]. one. apply TidyIn_nil.
    - intros w l _ [H1 H2]. split; [eauto|]. intro q. one. apply TidyIn_app; [apply H2; fol1|].
      apply TidyIn_cons; [apply ta_comma; discriminate|]. one. apply TidyIn_nil.
    - split; [eauto|]. intro q. one. one. apply TidyIn_nil.
    - discriminate.
    - intros w t _ IH. exact IH.
    - intros w t w' l _ [H1 H2] _ [H3 H4]. split; [apply gh_app; auto|]. intros q Hq. apply TidyIn_app; [apply H2; fol1|].
      apply TidyIn_cons; [apply ta_comma, gh_RBk; auto|]. auto.
    - intros w a _ IH. exact IH.
    - intros w a w' l kw _ [H1 H2] _ [H3 H4]. split; [apply gh_app; auto|]. intros q Hq. apply TidyIn_app; [apply H2; fol1|].
      apply TidyIn_cons; [apply ta_comma, gh_RBk; auto|]. auto.
    - intros j n v w kw HJ _ IH _ _. apply Dropped_false in HJ as ->. exact IH.
    - discriminate.
    - intros n w a _ [H1 H2]. split; [exact I|]. intros q Hq. apply TidyIn_cons; [apply ta_lower; simpl; auto|]. one. auto.
    - intros n w a w' kw _ [H1 H2] _ [H3 H4]. split; [exact I|]. intros q Hq. apply TidyIn_cons; [apply ta_lower; simpl; auto|]. one.
      apply TidyIn_app; [apply H2; fol1|]. apply TidyIn_cons; [apply ta_comma, gh_RBk; auto|]. auto.
    - intros w t _ IH. exact IH.
    - intros j t a HJ HL. apply Dropped_false in HJ as ->. split; [destruct HL; exact I|]. intros q Hq.
      apply TidyIn_cons; [|apply TidyIn_nil]. destruct HL; any.
    - intros j w l HJ _ _ IH. apply Dropped_false in HJ as ->. split; [exact I|]. intros q Hq.
      one. apply TidyIn_app; [apply IH; fol1|]. one. apply TidyIn_nil.
    - intros q _. apply TidyIn_nil.
    - intros w l _ [_ IH]. exact IH.
    - intros k w l H. exact (proj2 (LiteralList_tidy _ _ _ H)).
  Qed.
  Theorem documented_iff w t : Documented sym w t <-> Implemented sym w t /\ Tidy sym w.
  Proof.
    split.
    - intro H. split; [apply lax_all; auto|]. destruct (documented_tidy _ _ H) as [_ HT].
      intros p x q Hw. specialize (HT [] ltac:(unfold fol; simpl; auto) p x q Hw). rewrite app_nil_r in HT. exact HT.
    - intros [H HT]. apply (tidy_documented _ _ _ H [] []). rewrite app_nil_r. exact HT.
  Qed.
End Doc.

Lemma default_disjoint2 E dsh n d : st_dim (default_sym E dsh) n = Some d -> st_dtype_constr (default_sym E dsh) n = None.
Proof.
  change (assoc n dim_table = Some d -> constr_fun E dsh n = None). intro H.
  assert (X : n = $"var" \/ n = $"ellipsis").
  { unfold dim_table in H. cbn [assoc] in H. destruct (str_eqb n $"var") eqn:E1; [left; apply str_eqb_eq; auto|].
    destruct (str_eqb n $"ellipsis") eqn:E2; [right; apply str_eqb_eq; auto|]. inversion H. }
  destruct X; subst; reflexivity.
Qed.
Theorem documented_default E dsh w t :
  Documented (default_sym E dsh) w t <-> Implemented (default_sym E dsh) w t /\ Tidy (default_sym E dsh) w.
Proof. apply documented_iff; [apply default_disjoint|apply default_disjoint2]. Qed.
