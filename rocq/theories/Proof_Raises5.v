(** Strings among the arguments of a construct are string literals of the text (C71). *)
From Verif Require Import Base Types Lexer Printer Construct Parser Spec_Lexer Spec_Time Spec_Grammar Spec_Constr Spec_Places Spec_Syntax Spec_Raises
  Base Proof_Parser Proof_Places Proof_Grammar Proof_Grammar2 Proof_Constr Proof_Raises3.
Definition Has (a : targ) (v : str) : Prop := a = AStr v \/ exists m, a = AList m /\ In (AStr v) m.
Section S.
  Variable sym : symtab.
  Definition Hargs (w : word) (l : list targ) (kw : list (str * targ)) : Prop :=
    forall a v, In a l \/ In a (map snd kw) -> Has a v -> In (KStr, VStr v) w.
  Lemma lits_In k w l v : LiteralList k w l -> In (AStr v) l -> In (KStr, VStr v) w.
  Proof.
    induction 1 as [t a H|t a w l H K _ IH]; intros Hin.
    - destruct Hin as [->|[]]. inversion H; subst. left. reflexivity.
    - destruct Hin as [->|Hin]; [inversion H; subst; left; reflexivity|]. right. right. auto.
  Qed.
  Lemma strings :
    (forall w (t : ty), DS sym true w t -> True) /\ (forall w (t : ty), NoOpt sym true w t -> True) /\
    (forall w (t : ty), Dtype sym true w t -> True) /\ (forall w (l : list (str * ty)), FieldList sym true w l -> True) /\
    (forall w (l : list (str * ty)), Fields sym true w l -> True) /\ (forall w (l : list ty), TupleType sym true w l -> True) /\
    (forall w (l : list ty), Items sym true w l -> True) /\ (forall w l kw, Args sym true w l kw -> Hargs w l kw) /\
    (forall w kw, Kwargs sym true w kw -> Hargs w [] kw) /\ (forall w a, Arg sym true w a -> Hargs w [a] []) /\
    (forall w l, ListArg sym true w l -> Hargs w [AList l] []).
  Proof.
    apply grammar_mind; intros; auto; intros xx vv Hx Hv.
    - apply in_or_app. destruct Hx as [[<-|Hx]|Hx].
      + left. eapply H0; eauto. left. left. reflexivity.
      + right. right. eapply H2; eauto.
      + right. right. eapply H2; eauto.
    - apply in_or_app. right. eapply H1; eauto.
    - destruct Hx as [[]|[]].
    - destruct Hx as [[]|[<-|[]]]. right. right. eapply H0; eauto. left. left. reflexivity.
    - destruct Hx as [[]|[<-|Hx]]; right; right; apply in_or_app.
      + left. eapply H0; eauto. left. left. reflexivity.
      + right. right. eapply H2; eauto.
    - destruct Hx as [[<-|[]]|[]]. destruct Hv as [Hv|[m [Hv _]]]; discriminate.
    - destruct Hx as [[<-|[]]|[]]. apply in_or_app. right. left.
      match goal with X : Literal _ _ |- _ => destruct X end; destruct Hv as [Hv|[m [Hv _]]]; try discriminate. injection Hv as <-. reflexivity.
    - destruct Hx as [[<-|[]]|[]]. apply in_or_app. right. right. apply in_or_app. left. eapply H2; eauto. left. left. reflexivity.
    - destruct Hx as [[<-|[]]|[]]. destruct Hv as [Hv|[m [Hv K]]]; [discriminate|]. injection Hv as <-. destruct K.
    - destruct Hx as [[<-|[]]|[]]. destruct Hv as [Hv|[m [Hv K]]]; [discriminate|]. injection Hv as <-.
      apply in_map_iff in K as [t [K _]]. discriminate.
    - destruct Hx as [[<-|[]]|[]]. destruct Hv as [Hv|[m [Hv K]]]; [discriminate|]. injection Hv as <-. eapply lits_In; eauto.
  Qed.
End S.
Lemma Bound_In ps args kw b a : NoDup (map fst ps) -> Bound ps args kw b -> In (Some a) b -> In a args \/ In a (map snd kw).
Proof.
  intros ND [L M P K D] H. apply In_nth_error in H as [i Hi].
  destruct (nth_error args i) as [a'|] eqn:Ea.
  - rewrite (P _ _ Ea) in Hi. injection Hi as <-. left. eapply nth_error_In; eauto.
  - apply nth_error_None in Ea. destruct (nth_error ps i) as [[n r]|] eqn:Ep.
    2:{ apply nth_error_None in Ep. assert (i < length b)%nat by (apply nth_error_Some; congruence). lia. }
    destruct (in_dec (list_eq_dec N.eq_dec) n (map fst kw)) as [Hn|Hn].
    + (* a keyword *) right. clear D.
      apply in_map_iff in Hn as [[n' a'] [En Hn]]. cbn in En. subst n'.
      destruct (K _ _ Hn) as [j [r' [H1 [H2 H3]]]].
      assert (i = j) as -> by (apply (NoDup_nth_fst ps i j n r r'); auto). rewrite H3 in Hi. injection Hi as <-.
      apply in_map_iff. exists (n, a'). auto.
    + destruct (D _ _ _ Ep Ea Hn) as [_ X]. congruence.
Qed.

Lemma sig_NoDup n ps : In (n, ps) signatures -> NoDup (map fst ps).
Proof.
  intro Hin. cbn [signatures In] in Hin.
  repeat (destruct Hin as [H|Hin]; [injection H; intros; subst; apply Base.nodup_str_NoDup; reflexivity|]). contradiction.
Qed.
(** the arguments that are read as texts *)
Definition Read (b : list (option targ)) (u : str) : Prop :=
  exists a, In (Some a) b /\ (a = AStr u \/ exists l, Elements a l /\ In (AStr u) l).
Lemma Read_Inner sym n ps w args kw kwd b u : In (n, ps) signatures -> Args sym true w args kw -> Latest kw kwd -> Bound ps args kwd b -> Read b u ->
  exists v, In (KStr, VStr v) w /\ (u = v \/ exists c, In c v /\ u = [c]).
Proof.
  intros Hin HA [_ HL] HB [a [Ha Hu]]. apply (Bound_In _ _ _ _ _ (sig_NoDup _ _ Hin) HB) in Ha.
  assert (Ha' : In a args \/ In a (map snd kw)).
  { destruct Ha as [Ha|Ha]; auto. right. apply in_map_iff in Ha as [[m x] [<- Ha]]. apply HL in Ha as [p [q [-> _]]].
    rewrite map_app. apply in_or_app. right. left. reflexivity. }
  destruct (strings sym) as [_ [_ [_ [_ [_ [_ [_ [S _]]]]]]]]. specialize (S _ _ _ HA a).
  destruct Hu as [->|[l [Hl Hu]]].
  - exists u. split; auto. apply S; auto. left. reflexivity.
  - destruct Hl as [l|s|nm qs|t H1 H2 H3].
    + exists u. split; auto. apply S; auto. right. eauto.
    + apply in_map_iff in Hu as [c [Hc Hs]]. injection Hc as <-. exists s. split; [apply S; auto; left; reflexivity|]. right. eauto.
    + apply in_map_iff in Hu as [t [Hc _]]. discriminate.
    + destruct Hu as [Hu|[]]. discriminate.
Qed.
Definition Plainly (E : env) (n : str) (e : exn) : Prop :=
  In n (culprits e) \/ (n = $"categorical" /\ exists l, e_disc E l = Raise e).
Lemma refuses_names E dsh n b e : In e [IndexErr; AttributeErr; UnboundErr; NotImplErr] -> Refuses E dsh n b e ->
  Plainly E n e \/ exists u, Read b u /\ dsh u = Raise e.
Proof.
  intros He HR. assert (NV : e <> ValueErr /\ e <> TypeErr /\ e <> NotModelled) by (cbn in He; repeat destruct He as [<-|He]; try contradiction; repeat split; discriminate).
  destruct NV as [NV [NT NM]]. clear He. revert NV NT NM.
  assert (G : forall a e, e <> ValueErr -> e <> TypeErr -> NoType dsh a e -> exists u, a = AStr u /\ dsh u = Raise e).
  { intros a e' N1 N2 H. inversion H; subst; try contradiction. eauto. }
  destruct HR; intros NV NT NM; try contradiction; try (left; left; cbn; auto; fail).
  - match goal with X : NoType _ _ _ |- _ => apply G in X; auto; destruct X as [u [-> X]] end. right. exists u. split; auto.
    exists b. split; [right; left; reflexivity|]. right. exists m. split; auto. eapply nth_error_In; eauto.
  - match goal with X : NoItem _ _ |- _ => inversion X; subst; contradiction end.
  - match goal with X : NoType _ _ _ |- _ => apply G in X; auto; destruct X as [u [-> X]] end. right. exists u. split; auto.
    exists (AStr u). split; [left; reflexivity|auto].
  - match goal with X : NoType _ _ _ |- _ => apply G in X; auto; destruct X as [u [-> X]] end. right. exists u. split; auto.
    exists (AStr u). split; [left; reflexivity|auto].
  - match goal with X : NoType _ _ _ |- _ => apply G in X; auto; destruct X as [u [-> X]] end. right. exists u. split; auto.
    exists (AStr u). split; [right; left; reflexivity|auto].
  - left. right. eauto.
Qed.
Lemma culprits_found E s e : disc_ok E -> dshape E s = Raise e -> In e [IndexErr; AttributeErr; UnboundErr; NotImplErr] ->
  exists u b n a, Within s u /\ map kv (fst (lex u)) = b ++ (KLower, VStr n) :: tok KLBk :: a /\ Plainly E n e.
Proof.
  intros HE. remember (length s) as k eqn:En. revert s En. induction k as [k IH] using (well_founded_induction lt_wf). intros s -> H He.
  assert (NS : forall p m, e <> SyntaxErr p m) by (intros p m ->; cbn in He; intuition discriminate).
  assert (NV : e <> ValueErr /\ e <> TypeErr /\ e <> NotModelled) by (cbn in He; repeat destruct He as [<-|He]; try contradiction; repeat split; discriminate).
  destruct NV as [NV [NT NM]].
  destruct (dshape_cause E s e HE H NS) as [[X _]|[[b [w [a [Ht HR]]]]|[X _]]]; [contradiction| |contradiction].
  inversion HR as [n ps w0 args kw kwd e0 H1 H2 H3 H4 H5|w0 args kw e0 H1 H2 H3|w0 fs H1 H2|z Hz|n w0 args kw Hn H1]; subst; try contradiction.
  - destruct H5 as [[X _]|[b0 [HB [HF|[X _]]]]]; try contradiction.
    destruct (refuses_names _ _ _ _ _ He HF) as [X|[u [HRd Hu]]].
    + exists s, b, n, (w0 ++ [tok KRBk] ++ a). split; [constructor|]. split; auto. rewrite Ht. cbn [app]. rewrite <- app_assoc. reflexivity.
    + destruct (Read_Inner _ _ _ _ _ _ _ _ _ H1 H2 H4 HB HRd) as [v [Hv Hc]].
      assert (HI : Inner (fst (lex s)) u).
      { assert (Hin : In (KStr, VStr v) (map kv (fst (lex s)))) by (rewrite Ht; apply in_or_app; right; right; right; apply in_or_app; left; apply in_or_app; auto).
        apply in_map_iff in Hin as [t [Hk Hin]]. injection Hk as K1 K2. exists t, v. auto. }
      destruct (IH (length u) (Inner_short _ _ HI) u eq_refl Hu He) as [u' [b' [n' [a' [HW X]]]]]. exists u', b', n', a'. split; auto. eapply W_inner; eauto.
  - destruct H3 as [HF|[X _]]; try contradiction. exists s, b, $"string", (w0 ++ [tok KRBk] ++ a). split; [constructor|].
    split; [rewrite Ht; cbn [app]; rewrite <- app_assoc; reflexivity|]. left. inversion HF; subst; try contradiction; cbn; auto.
  - exists s, b, n, (w0 ++ [tok KRBk] ++ a). split; [constructor|].
    split; [rewrite Ht; cbn [app]; rewrite <- app_assoc; reflexivity|]. left. exact Hn.
Qed.
