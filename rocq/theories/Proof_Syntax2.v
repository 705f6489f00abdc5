(** The messages of syntax errors (C70): whole texts. *)
From Verif Require Import Base Types Lexer Printer Construct Parser Ops Preds Objects Spec_Lexer Spec_WF Spec_Preds Spec_Grammar Spec_Places Spec_Syntax
  Proof_Lexer Proof_ParserRel Proof_Parser Proof_Places Proof_Errors Proof_Errors2 Proof_Preds Proof_Preds2 Proof_Grammar Proof_Grammar2 Proof_Grammar3 Proof_Syntax.

(** ** a table that reads fewer nested texts builds fewer types *)
Section Mono.
  Variable E : env.
  Variable d2 d1 : str -> res ty.
  Hypothesis Hd : forall s t, d2 s = Ok t -> d1 s = Ok t.
  Definition le1 {A} (x y : res A) : Prop := forall a, x = Ok a -> y = Ok a.
  Lemma le_refl1 {A} (x : res A) : le1 x x. Proof. intros a H; exact H. Qed.
  Lemma le_bind {A B} (x y : res A) (f g : A -> res B) : le1 x y -> (forall a, le1 (f a) (g a)) -> le1 (bind x f) (bind y g).
  Proof. intros H K b. destruct x as [a|e]; cbn [bind]; [|discriminate]. rewrite (H a eq_refl). cbn [bind]. apply K. Qed.
  Lemma le_mapM {A B} (f g : A -> res B) l : (forall a, le1 (f a) (g a)) -> le1 (mapM f l) (mapM g l).
  Proof.
    intro H. induction l as [|a l IH]; [apply le_refl1|]. rewrite !mapM_cons. apply le_bind; auto. intro b. apply le_bind; auto. intro. apply le_refl1.
  Qed.
  Lemma le_launder x : le1 (launder d2 x) (launder d1 x).
  Proof. destruct x; cbn [launder]; try apply le_refl1. apply le_bind; [intros t H; apply Hd, H|intro; apply le_refl1]. Qed.
  Lemma le_datashape n l : le1 (mk_datashape d2 n l) (mk_datashape d1 n l).
  Proof.
    unfold mk_datashape. destruct l as [|p l]; [apply le_refl1|].
    assert (G : le1 (let! ps := mapM (launder d2) (p :: l) in check_datashape n ps) (let! ps := mapM (launder d1) (p :: l) in check_datashape n ps)).
    { apply le_bind; [apply le_mapM, le_launder|intro; apply le_refl1]. }
    destruct p; try exact G. destruct l; [apply le_refl1|exact G].
  Qed.
  Lemma le_tuple l : le1 (mk_tuple d2 l) (mk_tuple d1 l).
  Proof.
    unfold mk_tuple. apply le_bind; [|intro; apply le_refl1]. apply le_mapM. intro x. destruct x; cbn [tuple_item]; try apply le_datashape.
    destruct (is_DataShape t); [apply le_refl1|apply le_datashape].
  Qed.
  Lemma le_targ a : le1 (targ_launder d2 a) (targ_launder d1 a).
  Proof. destruct a; cbn [targ_launder]; apply le_launder. Qed.
  Lemma le_struct a b : le1 (c_struct E d2 a b) (c_struct E d1 a b).
  Proof.
    unfold c_struct. apply le_bind; [apply le_refl1|]. intro ns. apply le_bind; [apply le_refl1|]. intro ds.
    apply le_bind; [apply le_refl1|]. intro. apply le_bind; [apply le_mapM; intro; apply le_targ|]. intro. apply le_refl1.
  Qed.
  Lemma le_constr n : match constr_fun E d2 n, constr_fun E d1 n with
    | Some c2, Some c1 => forall args kw, le1 (c2 args kw) (c1 args kw)
    | None, None => True
    | _, _ => False
    end.
  Proof.
    unfold constr_fun. cbv zeta.
    assert (R : forall (o : option targ) (f g : targ -> res ty), (forall x, le1 (f x) (g x)) ->
      le1 (match o with Some x => f x | None => Raise TypeErr end : res ty) (match o with Some x => g x | None => Raise TypeErr end)).
    { intros o f g Hf. destruct o; [apply Hf|apply le_refl1]. }
    repeat match goal with
      | |- context [if ?c then Some _ else _] => destruct c; [intros args kw; try (apply le_bind; [apply le_refl1|intro l]); try apply le_refl1|]
      end; try exact I.
    - apply R. intro a. apply R. intro b. apply le_struct.
    - apply R. intro a. unfold c_tuple. apply le_bind; [apply le_refl1|intro; apply le_tuple].
    - apply R. intro a. unfold c_option. apply le_bind; [apply le_targ|intro; apply le_refl1].
    - apply R. intro a. apply R. intro b. unfold c_map. apply le_bind; [apply le_targ|intro]. apply le_bind; [apply le_targ|intro; apply le_refl1].
  Qed.
End Mono.

(** ** two tables with the same names, where the first builds less *)
Section Incl.
  Variable s2 s1 : symtab.
  Hypothesis Hty : forall n, st_dtype s2 n = st_dtype s1 n.
  Hypothesis Hdim : forall n, st_dim s2 n = st_dim s1 n.
  Hypothesis Hdc : forall n, st_dim_constr s2 n = st_dim_constr s1 n.
  Hypothesis Hc : forall n, match st_dtype_constr s2 n, st_dtype_constr s1 n with
    | Some c2, Some c1 => forall args kw, le1 (c2 args kw) (c1 args kw)
    | None, None => True
    | _, _ => False
    end.
  Lemma constr_incl n c args kw t : st_dtype_constr s2 n = Some c -> c args kw = Ok t ->
    exists c', st_dtype_constr s1 n = Some c' /\ c' args kw = Ok t.
  Proof.
    intros H1 H2. pose proof (Hc n) as L. rewrite H1 in L.
    destruct (st_dtype_constr s1 n) as [c'|]; [|contradiction]. exists c'. split; auto. apply L; auto.
  Qed.
  Lemma constr_some n c : st_dtype_constr s2 n = Some c -> exists c', st_dtype_constr s1 n = Some c'.
  Proof.
    intros H1. pose proof (Hc n) as L. rewrite H1 in L. destruct (st_dtype_constr s1 n) as [c'|]; [eauto|contradiction].
  Qed.
  Lemma constr_none n : st_dtype_constr s2 n = None -> st_dtype_constr s1 n = None.
  Proof.
    intros H1. pose proof (Hc n) as L. rewrite H1 in L. destruct (st_dtype_constr s1 n) as [c'|]; [contradiction|auto].
  Qed.
  Lemma dimname_incl w d : DimName s2 w d -> DimName s1 w d.
  Proof. destruct 1; [apply DN_name|apply DN_ellipsis|eapply DN_ellipsis_typevar]; try rewrite <- Hdim; try rewrite <- Hdc; eauto. Qed.
  Lemma dim_incl w d : Dim s2 w d -> Dim s1 w d.
  Proof. destruct 1; [apply D_name, dimname_incl; auto|eapply D_typevar|eapply D_integer]; try rewrite <- Hdc; eauto. Qed.
  Lemma junk_incl j : Junk s2 j -> Junk s1 j.
  Proof. destruct 1; [constructor|constructor|eapply J_dim, dimname_incl; eauto|eapply J_question_dim, dimname_incl; eauto]. Qed.
  Lemma dropped_incl j : Dropped s2 true j -> Dropped s1 true j.
  Proof. intros [->|[H1 H2]]; [left; auto|right; split; auto using junk_incl]. Qed.
  Lemma hasdim_incl j : has_dim s2 j -> has_dim s1 j.
  Proof. intros [u [d [q [H ->]]]]. exists u, d, q. split; auto using dimname_incl. Qed.

  Lemma grammar_incl :
    (forall w t, DS s2 true w t -> DS s1 true w t) /\ (forall w l, FieldList s2 true w l -> FieldList s1 true w l) /\
    (forall w l, Fields s2 true w l -> Fields s1 true w l) /\ (forall w l, TupleType s2 true w l -> TupleType s1 true w l) /\
    (forall w l, Items s2 true w l -> Items s1 true w l) /\ (forall w l kw, Args s2 true w l kw -> Args s1 true w l kw) /\
    (forall w kw, Kwargs s2 true w kw -> Kwargs s1 true w kw) /\ (forall w l, ListArg s2 true w l -> ListArg s1 true w l).
  Proof.
    assert (C : forall n c args kw t (Q : Prop), st_dtype_constr s2 n = Some c -> c args kw = Ok t ->
      (forall c', st_dtype_constr s1 n = Some c' -> c' args kw = Ok t -> Q) -> Q).
    { intros n c args kw t Q H1 H2 K. destruct (constr_incl _ _ _ _ _ H1 H2) as [c' [K1 K2]]. eauto. }
    assert (ALL : (forall w t, DS s2 true w t -> DS s1 true w t) /\ (forall w t, NoOpt s2 true w t -> NoOpt s1 true w t) /\
      (forall w t, Dtype s2 true w t -> Dtype s1 true w t) /\ (forall w l, FieldList s2 true w l -> FieldList s1 true w l) /\
      (forall w l, Fields s2 true w l -> Fields s1 true w l) /\ (forall w l, TupleType s2 true w l -> TupleType s1 true w l) /\
      (forall w l, Items s2 true w l -> Items s1 true w l) /\ (forall w l kw, Args s2 true w l kw -> Args s1 true w l kw) /\
      (forall w kw, Kwargs s2 true w kw -> Kwargs s1 true w kw) /\ (forall w a, Arg s2 true w a -> Arg s1 true w a) /\
      (forall w l, ListArg s2 true w l -> ListArg s1 true w l)); [|tauto].
    apply grammar_mind; intros;
      try match goal with H1 : st_dtype_constr _ _ = Some ?c, H2 : ?c _ _ = Ok _ |- _ => apply (C _ _ _ _ _ _ H1 H2); intros ? ? ? end;
      try (econstructor; eauto using dropped_incl, dim_incl, dimname_incl, junk_incl; fail).
    - eapply NO_dtype; eauto. intros [n [c [v [r [-> Hn]]]]]. apply H1. exists n, c, v, r. split; auto. rewrite Hdc. exact Hn.
    - apply DT_type. rewrite <- Hty. auto.
    - intros. apply A_kwargs; auto using dropped_incl; [rewrite <- Hty; auto|]. rewrite <- Hdim. destruct H3; auto using hasdim_incl.
  Qed.
  Lemma notype_incl a : NoType s2 a -> NoType s1 a.
  Proof.
    destruct a as [|[k v] a]; auto. destruct k; auto. destruct v; auto. destruct a as [|[k v] a]; [cbn; now rewrite Hty|].
    destruct k; cbn; rewrite ?Hty; auto. apply constr_none.
  Qed.
  Lemma nodim_incl a : NoDim s2 a -> NoDim s1 a.
  Proof.
    destruct a as [|[k v] a]; auto. destruct k; auto. destruct v; auto. destruct a as [|[k v] a]; [cbn; now rewrite Hdim|].
    destruct k; cbn; rewrite ?Hdim, ?Hdc; auto.
  Qed.
  Lemma missing_incl j a : Missing s2 j a -> Missing s1 j a.
  Proof. intros [H1 [H2 H3]]. split; [apply junk_incl; auto|]. split; [apply notype_incl; auto|]. destruct H3 as [H3|[H3 H4]]; auto using hasdim_incl, nodim_incl. Qed.
  Lemma noarg_incl j a : NoArgument s2 j a -> NoArgument s1 j a.
  Proof. intros [H1 H2]. split; auto using missing_incl. Qed.
  Lemma argsend_incl w a : ArgsEnd s2 w a -> ArgsEnd s1 w a.
  Proof. intros [H|[w' [j [H1 [H2 [H3 H4]]]]]]; [left; auto|right]. exists w', j. auto using noarg_incl. Qed.
  Lemma textfault_incl w a m : TextFault s2 w a m -> TextFault s1 w a m.
  Proof.
    destruct grammar_incl as [G1 [G2 [G3 [G4 [G5 [G6 [G7 G8]]]]]]].
    destruct 1 as [b w a m H|j a H|w t a H H']; [|apply TF_invalid, missing_incl; auto|eapply TF_unexpected; eauto].
    apply TF_inside. destruct H; try (econstructor; eauto using dim_incl, missing_incl, argsend_incl, noarg_incl; fail).
    - eapply F_closing; eauto using argsend_incl. rewrite <- Hdc. eauto.
    - destruct (constr_some _ _ H) as [c' Hc']. econstructor; eauto using junk_incl.
    - destruct (constr_some _ _ H) as [c' Hc']. econstructor; eauto using argsend_incl.
    - apply F_field_name; auto. destruct H as [H|[w' [fs [H H3]]]]; [left; auto|right; eauto].
  Qed.
End Incl.

(** ** one text *)
Definition innerb (ts : list token) (u : str) : bool :=
  existsb (fun t => match tk_kind t, tk_val t with
    | KStr, VStr v => str_eqb u v || existsb (fun c => str_eqb u [c]) v
    | _, _ => false end) ts.
Lemma innerb_spec ts u : innerb ts u = true <-> Inner ts u.
Proof.
  unfold innerb, Inner. rewrite existsb_exists. split.
  - intros [t [Ht H]]. destruct (tk_kind t) eqn:Ek; try discriminate. destruct (tk_val t) as [| |v|] eqn:Ev; try discriminate.
    exists t, v. repeat split; auto. apply orb_true_iff in H as [H|H]; [left; apply str_eqb_eq; auto|].
    apply existsb_exists in H as [c [Hc H]]. right. exists c. split; auto. apply str_eqb_eq; auto.
  - intros [t [v [Ht [Hk [Hv H]]]]]. exists t. split; auto. rewrite Hk, Hv. apply orb_true_iff. destruct H as [->|[c [Hc ->]]].
    + left. apply str_eqb_eq; auto.
    + right. apply existsb_exists. exists c. split; auto. apply str_eqb_eq; auto.
Qed.

Section Text.
  Variable E : env.
  Hypothesis HE : disc_ok E.
  Definition dsh2 (ts : list token) (u : str) : res ty := if innerb ts u then dshape E u else Raise TypeErr.
  Lemma stream_Str s ts err : lex s = (ts, err) -> Str (stream ts err 0).
  Proof.
    intro El. apply lex_Spans, Spans_VTok in El. generalize 0%nat. induction El as [|t ts H _ IH]; intro e; cbn [stream].
    - destruct err; constructor.
    - constructor; auto.
  Qed.
  Lemma stream_Ate ts err : forall e w a, Ate w (stream ts err e) a -> Good a -> exists tb ta,
    ts = tb ++ ta /\ map kv tb = w /\ map kv ta = words a /\
    match ta with t :: _ => tok_pos a = tk_start t | [] => err = None /\ tok_pos a = end_from ts e end.
  Proof.
    intros e w a [u [Hu <-]] [_ Ga]. revert ts e Hu. induction u as [|x u IH]; intros ts e Hu; cbn [map app] in Hu.
    - subst a. exists [], ts. split; auto. split; auto. destruct ts as [|t ts]; cbn [stream] in *.
      + destruct err as [x|]; [destruct (Ga x [] eq_refl)|]. cbn. auto.
      + split; auto. clear Ga. cbn [words map]. f_equal. generalize (tk_end t). induction ts as [|t' ts IH]; intro e'; cbn [stream words map].
        * destruct err; reflexivity.
        * f_equal; auto.
    - destruct ts as [|t ts]; cbn [stream] in Hu; [destruct err; discriminate|]. injection Hu as -> Hu.
      destruct (IH _ _ Hu) as [tb [ta [-> [H2 [H3 H4]]]]]. exists (x :: tb), ta. split; auto. split; [cbn [map]; rewrite <- H2; reflexivity|]. split; auto.
  Qed.

  Lemma syntax_text s p m : dshape E s = Raise (SyntaxErr p m) ->
    Explains (default_sym E (dshape E)) s p m \/ exists u, Inner (fst (lex s)) u /\ dshape E u = Raise (SyntaxErr p m).
  Proof.
    intro H. unfold dshape in H. cbn [dshape_str] in H.
    destruct (parse s (default_sym E (dshape_str E (length s)))) as [t|e] eqn:EP; cbn [bind] in H.
    { exfalso. pose proof (ok_validate (fun e => forall p m, e <> SyntaxErr p m)) as V.
      assert (V0 : only (fun e => forall p m, e <> SyntaxErr p m) (validate t)).
      { apply V. intros e He p' m' ->. cbn in He. intuition discriminate. }
      destruct (validate t); cbn [bind] in H; [discriminate|]. injection H as ->. exact (V0 p m eq_refl). }
    injection H as ->. unfold parse in EP. destruct (lex s) as [ts err] eqn:El. cbn [fst].
    pose proof (f_equal fst El) as F1. pose proof (f_equal snd El) as F2. cbn [fst snd] in F1, F2.
    assert (R : RV eq gds (parse_toks (default_sym E (dshape_str E (length s))) (stream ts err 0)) (parse_toks (default_sym E (dsh2 ts)) (stream ts err 0))).
    { apply parse_toks_default with (K := Inner ts); auto using Inner_by_char.
      - intros u Hu. pose proof Hu as Hu'. rewrite <- F1 in Hu'. apply Inner_short in Hu'. unfold dsh2. rewrite (proj2 (innerb_spec ts u) Hu).
        eapply RV_pr; [|apply dshape_str_rel; auto; lia]. intros a b [-> _]. reflexivity.
      - apply stream_strel2.
        + clear. induction ts; constructor; auto.
        + destruct err as [e|]; auto. pose proof (Spans_ends _ _ _ _ (lex_Spans _ _ _ El)) as [_ X].
          destruct e; simpl; try congruence. eauto.
        + eapply str_bound_Inner; eauto.
        + auto. }
    rewrite EP in R. cbn in R. destruct (parse_toks (default_sym E (dsh2 ts)) (stream ts err 0)) as [t|e] eqn:EQ; [contradiction|].
    cbn in R. destruct R as [p2 [-> <-]].
    set (Q := fun e => match e with SyntaxErr p m => exists u, Inner ts u /\ dshape E u = Raise (SyntaxErr p m) | _ => True end).
    assert (HQ : forall e, In e [TypeErr; ValueErr; IndexErr; AttributeErr; NotImplErr; UnboundErr; NotModelled; OutOfFuel] -> Q e).
    { intros e He. cbn [In] in He. repeat destruct He as [<-|He]; try exact I. contradiction. }
    assert (HQd : forall l e, e_disc E l = Raise e -> Q e).
    { intros l e He. pose proof (HE l) as X. rewrite He in X. destruct e; try exact I. contradiction. }
    assert (Hq : forall u, only Q (dsh2 ts u)).
    { intro u. unfold dsh2. destruct (innerb ts u) eqn:Ei; [|exact I]. apply innerb_spec in Ei.
      destruct (dshape E u) as [t|e] eqn:Eu; [exact I|]. destruct e; try exact I. cbn. eauto. }
    pose proof (parse_toks_pass (default_sym E (dsh2 ts)) (fun p m => exists u, Inner ts u /\ dshape E u = Raise (SyntaxErr p m))) as PP.
    destruct (PP) with (ts := stream ts err 0) (p := p) (m := m) as [X|[X|X]]; auto.
    - intros n c args kw p' m' Hc Hr. pose proof (ok_constr E (dsh2 ts) Q HQ HQd Hq n c Hc args kw) as X. rewrite Hr in X. exact X.
    - intros n c a p' m' Hc Hr. pose proof (ok_dim_constr E Q HQ n c Hc a) as X. rewrite Hr in X. exact X.
    - intros l p' m' Hr. pose proof (ok_datashape no_dsh (fun e => forall p m, e <> SyntaxErr p m)) as X.
      unfold mk_ds in Hr. assert (X0 : only (fun e => forall p m, e <> SyntaxErr p m) (mk_datashape no_dsh None (map PTy l))).
      { apply X. - intros e He ? ? ->. cbn in He. intuition discriminate. - intro s0. cbn. discriminate. }
      rewrite Hr in X0. exact (X0 _ _ eq_refl).
    - repeat constructor; discriminate.
    - repeat constructor; discriminate.
    - discriminate.
    - eapply stream_Str; eauto.
    - left. left. assert (err = Some (SyntaxErr p m)) as ->.
      { clear - X. revert X. generalize 0%nat. induction ts as [|t ts IH]; intros e X; cbn [stream] in X.
        - destruct X as [X|[]]. destruct err; congruence.
        - destruct X as [X|X]; [discriminate|]. eauto. }
      pose proof (Spans_ends _ _ _ _ (lex_Spans _ _ _ El)) as [_ [-> _]]. split; auto.
    - left. right. destruct X as [w [a [Ha [Ga [Hp HF]]]]]. apply textfault_incl with (s1 := default_sym E (dshape E)) in HF; [|reflexivity|reflexivity|reflexivity|].
      2:{ intro n. apply le_constr. intros u t. unfold dsh2. destruct (innerb ts u); [auto|discriminate]. }
      exists w, (words a). split; auto. destruct (stream_Ate _ _ _ _ _ Ha Ga) as [tb [ta [H1 [H2 [H3 H4]]]]].
      exists tb, ta. rewrite El. cbn [fst snd]. split; auto. split; auto. split; auto. destruct ta; [|congruence]. destruct H4 as [H4 H5]. split; auto.
      rewrite <- Hp, H5. apply EndOf_from.
  Qed.

  Lemma syntax_explained s p m : dshape E s = Raise (SyntaxErr p m) ->
    exists u, Within s u /\ dshape E u = Raise (SyntaxErr p m) /\ Explains (default_sym E (dshape E)) u p m.
  Proof.
    remember (length s) as n eqn:En. revert s En. induction n as [n IH] using (well_founded_induction lt_wf). intros s -> H.
    destruct (syntax_text _ _ _ H) as [X|[u [Hu X]]]; [exists s; split; [constructor|auto]|].
    destruct (IH (length u) (Inner_short _ _ Hu) u eq_refl X) as [v [Hv Y]]. exists v. split; auto. eapply W_inner; eauto.
  Qed.
End Text.

Lemma complaint sym b a m : TextFault sym b a m -> Complaint sym b a (msg_text m).
Proof.
  intro H. exists m. split; auto. destruct H as [b w a m H| |]; [destruct H; reflexivity|reflexivity|reflexivity].
Qed.
Lemma shown u p m : (p <= length u)%nat -> Shown u p (msg_text m) (syntax_str u p m).
Proof.
  intro H. destruct (syntax_error_spec p u H) as [start [H1 [H2 [H3 H4]]]].
  exists (err_lineno (mk_syntax_error p u)), start, (err_line (mk_syntax_error p u)). split; auto. split; [lia|].
  unfold syntax_str, err_str. rewrite H3, Nat2Z.id. reflexivity.
Qed.
Lemma syntax_messages E s p m : disc_ok E -> dshape E s = Raise (SyntaxErr p m) ->
  exists u, Within s u /\ dshape E u = Raise (SyntaxErr p m) /\
    ((msg_text m = $"Invalid DataShape token" /\ snd (lex u) = Some (SyntaxErr p MToken)) \/
     (exists b a, Place u p b a /\ Complaint (default_sym E (dshape E)) b a (msg_text m))) /\
    Shown u p (msg_text m) (syntax_str u p m).
Proof.
  intros HE H. destruct (syntax_explained E HE s p m H) as [u [H1 [H2 H3]]]. exists u. split; auto. split; auto. split.
  - destruct H3 as [[-> H3]|[b [a [H3 H4]]]]; [left; auto|right]. exists b, a. split; auto. apply complaint; auto.
  - apply shown. destruct (dshape_outcome E u HE) as [[t [X _]]|[[p' [m' [X Y]]]|[e [X Y]]]]; [congruence| |].
    + rewrite H2 in X. injection X as <- <-. exact Y.
    + rewrite H2 in X. injection X as <-. destruct Y.
Qed.
