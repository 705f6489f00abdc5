(** On tidy texts the implemented grammar is the documented one. *)
From Verif Require Import Base Types Lexer Printer Construct Parser Ops Preds Spec_Lexer Spec_WF Spec_Preds
  Proof_Lexer Proof_WF Proof_ParserRel Proof_Parser Proof_Preds Proof_Preds2 Spec_Grammar Proof_Grammar Proof_Grammar2 Proof_Grammar3.

Ltac sapp := repeat (rewrite <- app_assoc; cbn [app]); reflexivity.
Ltac retidy H := match goal with |- Tidy ?s ?x => match type of H with Tidy _ ?y => replace x with y; [exact H|sapp] end end.

Section Tidy.
  Variable sym : symtab.
  Notation T := (Tidy sym).

  Definition Q_DS w t := forall p q, T (p ++ w ++ q) -> DS sym false w t.
  Definition Q_NoOpt w t := forall p q, T (p ++ w ++ q) -> NoOpt sym false w t.
  Definition Q_Dtype w t := forall p q, T (p ++ w ++ q) -> Dtype sym false w t.
  Definition Q_FieldList w fs := forall p q, T ((p ++ [tok KLBc]) ++ w ++ tok KRBc :: q) -> FieldList sym false w fs.
  Definition Q_Fields w fs := forall p q, T (p ++ w ++ q) -> Fields sym false w fs.
  Definition Q_TupleType w l := forall p q, T (p ++ w ++ q) -> TupleType sym false w l.
  Definition Q_Items w l := forall p q, T (p ++ w ++ q) -> Items sym false w l.
  Definition Q_Args w args kw := forall p q, T (p ++ w ++ tok KRBk :: q) ->
    (args <> [] \/ kw <> []) \/ (exists p', p = p' ++ [tok KComma]) -> Args sym false w args kw.
  Definition Q_Kwargs w kw := forall p q, T (p ++ w ++ tok KRBk :: q) -> Kwargs sym false w kw.
  Definition Q_Arg w a := forall p q k, T (p ++ w ++ tok k :: q) -> k = KComma \/ k = KRBk -> Arg sym false w a.
  Definition Q_ListArg w l := forall p q, T (p ++ w ++ q) -> ListArg sym false w l.

  Lemma dim_last u d : DimName sym u d -> exists p x, u = p ++ [x] /\
    (fst x = KEll \/ (exists n d, x = (KLower, VStr n) /\ st_dim sym n = Some d)).
  Proof.
    destruct 1 as [n d H|d H|s c d H1 H2].
    - exists [], (KLower, VStr n). eauto 6.
    - exists [], (tok KEll). auto.
    - exists [(KUpper, VStr s)], (tok KEll). auto.
  Qed.
  Lemma tidy_dim u d p q : DimName sym u d -> T (p ++ u ++ q) -> In (next_kind q) [Some KAst; Some KColon; Some KEq].
  Proof.
    intros H HT. apply dim_last in H as [p' [x [-> Hx]]].
    destruct (HT (p ++ p') x q) as [H1 _]; [sapp|]. auto.
  Qed.
  (** dropped tokens do not occur before these *)
  Lemma tidy_junk j p k v q : Junk sym j -> T (p ++ j ++ (k, v) :: q) ->
    In k [KRBk; KRP; KStr; KBool; KLBk] \/ (k = KInt /\ next_kind q <> Some KAst) \/ (k = KLower /\ next_kind q = Some KEq) ->
    j = [].
  Proof.
    intros HJ HT Hk. destruct HJ as [| |u d Hd|u d Hd]; auto; exfalso.
    - destruct (HT p (tok KQ) ((k, v) :: q) eq_refl) as [_ [H _]]. specialize (H eq_refl).
      destruct Hk as [Hk|[[-> Hk]|[-> Hk]]].
      + simpl in Hk. destruct Hk as [<-|[<-|[<-|[<-|[<-|[]]]]]]; exact H.
      + contradiction.
      + contradiction.
    - pose proof (tidy_dim _ _ _ _ Hd HT) as H. simpl in H.
      destruct Hk as [Hk|[[-> _]|[-> _]]].
      + simpl in Hk. destruct Hk as [<-|[<-|[<-|[<-|[<-|[]]]]]]; destruct H as [H|[H|[H|[]]]]; discriminate.
      + destruct H as [H|[H|[H|[]]]]; discriminate.
      + destruct H as [H|[H|[H|[]]]]; discriminate.
    - assert (HT' : T ((p ++ [tok KQ]) ++ u ++ (k, v) :: q)) by retidy HT.
      pose proof (tidy_dim _ _ _ _ Hd HT') as H. simpl in H.
      destruct Hk as [Hk|[[-> _]|[-> _]]].
      + simpl in Hk. destruct Hk as [<-|[<-|[<-|[<-|[<-|[]]]]]]; destruct H as [H|[H|[H|[]]]]; discriminate.
      + destruct H as [H|[H|[H|[]]]]; discriminate.
      + destruct H as [H|[H|[H|[]]]]; discriminate.
  Qed.
  Lemma Dropped_nil lax j p k v q : Dropped sym lax j -> T (p ++ j ++ (k, v) :: q) ->
    In k [KRBk; KRP; KStr; KBool; KLBk] \/ (k = KInt /\ next_kind q <> Some KAst) \/ (k = KLower /\ next_kind q = Some KEq) ->
    j = [].
  Proof. intros [->|[_ H]]; eauto using tidy_junk. Qed.

  Theorem tidy_documented w t : DS sym true w t -> Q_DS w t.
  Proof.
    revert w t. apply (DS_mind sym true Q_DS Q_NoOpt Q_Dtype Q_FieldList Q_Fields Q_TupleType Q_Items Q_Args Q_Kwargs Q_Arg Q_ListArg).
    - intros w t _ IH p q HT. constructor. eapply IH; eauto.
    - intros w t c o d _ IH Hc Ho Hd p q HT. eapply DS_option; eauto. apply (IH (p ++ [tok KQ]) q). retidy HT.
    - intros u d w t t' Hd _ IH Hm p q HT. eapply NO_dim; eauto. apply (IH (p ++ u ++ [tok KAst]) q). retidy HT.
    - intros w t t' _ IH Hs Hm p q HT. eapply NO_dtype; eauto.
    - intros u d w t t' _ Hd HD IH Hm p q HT. exfalso.
      assert (HT' : T (p ++ u ++ (w ++ q))) by retidy HT. pose proof (tidy_dim _ _ _ _ Hd HT') as H.
      assert (exists k v w', w = (k, v) :: w' /\ In k [KUpper; KLower; KLBc; KLP]) as [k [v [w' [-> Hk]]]].
      { destruct HD as [s c t1 Hc H0|n t1 H0|n c w args kw t1 Hc HA Hne H0|w fs c t1 Hfs Hc H0|w l c t1 Ht Hc H0|w l v rr c t1 Ht Hd' Hc H0];
          try destruct Ht; simpl; do 3 eexists; (split; [reflexivity|simpl; auto]). }
      simpl in H, Hk. destruct Hk as [<-|[<-|[<-|[<-|[]]]]]; destruct H as [H|[H|[H|[]]]]; discriminate.
    - intros. intros p q _. econstructor; eauto.
    - intros. intros p q _. econstructor; eauto.
    - intros n c w args kw t Hc _ IH Hne H p q HT. eapply DT_constr; eauto.
      apply (IH (p ++ [(KLower, VStr n); tok KLBk]) q); auto. retidy HT.
    - intros w fs c t _ IH Hc H p q HT. eapply DT_struct; eauto. apply (IH p q). retidy HT.
    - intros w l c t _ IH Hc H p q HT. eapply DT_tuple; eauto.
    - intros w l v r c t _ IH _ IH' Hc H p q HT. eapply DT_funcproto; eauto.
      + apply (IH p (tok KArrow :: v ++ q)). retidy HT.
      + apply (IH' (p ++ w ++ [tok KArrow]) q). retidy HT.
    - intros w fs _ IH p q HT. constructor. eapply IH; eauto.
    - intros w fs _ IH p q HT. apply FL_comma. apply (IH (p ++ [tok KLBc]) (tok KComma :: tok KRBc :: q)). retidy HT.
    - intros _ p q HT. exfalso. destruct (HT p (tok KLBc) (tok KRBc :: q)) as [_ [_ [_ H]]]; [sapp|].
      apply H; reflexivity.
    - intros f n w t Hn _ IH p q HT. constructor; auto. apply (IH (p ++ [f; tok KColon]) q). retidy HT.
    - intros f n w t w' fs Hn _ IH _ IH' p q HT. constructor; auto.
      + apply (IH (p ++ [f; tok KColon]) (tok KComma :: w' ++ q)). retidy HT.
      + apply (IH' (p ++ f :: tok KColon :: w ++ [tok KComma]) q). retidy HT.
    - intros w l _ IH p q HT. constructor. apply (IH (p ++ [tok KLP]) (tok KRP :: q)). retidy HT.
    - intros w l _ IH p q HT. apply TT_comma. apply (IH (p ++ [tok KLP]) (tok KComma :: tok KRP :: q)). retidy HT.
    - intros p q _. constructor.
    - intros w l j _ _ IH HJ p q HT.
      assert (j = []) as ->.
      { apply (tidy_junk j (p ++ tok KLP :: w ++ [tok KComma]) KRP VNone q); auto; [retidy HT|simpl; auto]. }
      apply TT_comma. apply (IH (p ++ [tok KLP]) (tok KComma :: tok KRP :: q)). retidy HT.
    - intros w t _ IH p q HT. constructor. eapply IH; eauto.
    - intros w t w' l _ IH _ IH' p q HT. constructor.
      + apply (IH p (tok KComma :: w' ++ q)). retidy HT.
      + apply (IH' (p ++ w ++ [tok KComma]) q). retidy HT.
    - intros w a _ IH p q HT _. constructor. apply (IH p q KRBk); auto.
    - intros w a w' l kw _ IH _ IH' p q HT _. constructor.
      + apply (IH p (w' ++ tok KRBk :: q) KComma); auto. retidy HT.
      + apply (IH' (p ++ w ++ [tok KComma]) q); [retidy HT|]. right. exists (p ++ w). sapp.
    - intros j n v w kw HJ HK IH Hdt Hdm p q HT _. destruct v as [kv vv].
      assert (kv = KEq) as -> by (inversion HK; reflexivity).
      assert (j = []) as ->.
      { apply (Dropped_nil true j p KLower (VStr n) ((KEq, vv) :: w ++ tok KRBk :: q)); auto. retidy HT. }
      apply A_kwargs; auto.
      + left; auto.
      + apply (IH p q). retidy HT.
    - intros j _ HJ p q HT Hor.
      assert (j = []) as -> by (apply (tidy_junk j p KRBk VNone q); auto; simpl; auto).
      exfalso. destruct Hor as [[H|H]|[p' ->]]; try congruence.
      destruct (HT p' (tok KComma) (tok KRBk :: q)) as [_ [_ [H _]]]; [sapp|]. apply H; reflexivity.
    - intros n w a _ IH p q HT. constructor. apply (IH (p ++ [(KLower, VStr n); tok KEq]) q KRBk); auto. retidy HT.
    - intros n w a w' kw _ IH _ IH' p q HT. constructor.
      + apply (IH (p ++ [(KLower, VStr n); tok KEq]) (w' ++ tok KRBk :: q) KComma); auto. retidy HT.
      + apply (IH' (p ++ (KLower, VStr n) :: tok KEq :: w ++ [tok KComma]) q). retidy HT.
    - intros w t _ IH p q k HT _. constructor. eapply IH; eauto.
    - intros j [k0 v0] a HJ HL p q k HT Hk.
      assert (j = []) as ->.
      { apply (Dropped_nil true j p k0 v0 (tok k :: q)); auto; [retidy HT|].
        inversion HL; subst; simpl; auto 10. right; left. split; auto. destruct Hk; subst; discriminate. }
      apply AR_literal; auto. left; auto.
    - intros j w l HJ He _ IH p q k HT Hk.
      assert (j = []) as ->.
      { apply (Dropped_nil true j p KLBk VNone (w ++ tok KRBk :: tok k :: q)); auto; [retidy HT|simpl; auto 10]. }
      apply AR_list; auto; [left; auto|]. apply (IH (p ++ [tok KLBk]) (tok KRBk :: tok k :: q)). retidy HT.
    - intros p q _. constructor.
    - intros w l _ IH p q HT. constructor. eapply IH; eauto.
    - intros k w l H p q _. econstructor; eauto.
  Qed.
End Tidy.

Theorem dshape_tidy E s t l : disc_ok E -> Layout l s -> Tidy (default_sym E (dshape E)) l ->
  dshape E s = Ok t -> Documented (default_sym E (dshape E)) l t.
Proof.
  intros HE HL HT H. apply dshape_exact in H as [l' [HL' [HD _]]]; auto.
  apply lex_Layout in HL as [ts [E1 M1]]. apply lex_Layout in HL' as [ts' [E2 M2]].
  assert (l' = l) as -> by congruence.
  apply (tidy_documented _ _ _ HD [] []). rewrite app_nil_r. exact HT.
Qed.

(** keyword arguments of the default constructors are not names of types *)
Lemma bind_names params args kw l : call_bind params args kw = Ok l ->
  Forall (fun p => In (fst p) (map fst params)) kw.
Proof.
  unfold call_bind. destruct (forallb _ kw) eqn:Ef; [|discriminate]. intros _.
  apply Forall_forall. intros p Hp. rewrite forallb_forall in Ef. apply mem_str_In. auto.
Qed.
Lemma kwarg_names E dsh n c args kw t k v : st_dtype_constr (default_sym E dsh) n = Some c ->
  c args kw = Ok t -> In (k, v) kw ->
  st_dtype (default_sym E dsh) k = None /\ st_dim (default_sym E dsh) k = None.
Proof.
  simpl st_dtype_constr. unfold constr_fun. intros Hc H Hin.
  repeat match type of Hc with
  | (if ?b then _ else _) = _ => destruct b; [injection Hc as <-|]
  end; try discriminate.
  all: try (match type of H with bind (call_bind ?ps ?a ?k0) _ = _ =>
     destruct (call_bind ps a k0) eqn:EB; [|discriminate]; apply bind_names in EB;
     rewrite Forall_forall in EB; specialize (EB _ Hin); simpl in EB end;
     repeat (destruct EB as [<-|EB]; [split; vm_compute; reflexivity|]); contradiction).
  destruct kw; [contradiction|discriminate].
Qed.
