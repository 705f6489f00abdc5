(** What [dshape] raises (C67): the constructors, and whole texts. *)
From Verif Require Import Base Types Lexer Printer Construct Parser Proof_ParserRel Spec_Lexer
  Proof_Lexer Proof_Parser Spec_Errors Proof_Errors.

Section Con.
  Variable E : env.
  Variable dsh : str -> res ty.
  Variable Q : exn -> Prop.
  Hypothesis HQ : forall e, In e [TypeErr; ValueErr; IndexErr; AttributeErr; NotImplErr; UnboundErr; NotModelled; OutOfFuel] -> Q e.
  Hypothesis HD : forall l e, e_disc E l = Raise e -> Q e.
  Hypothesis Hdsh : forall s, only Q (dsh s).
  Notation ok := (only Q).

  Ltac lst := cbn; apply HQ; cbn; tauto.
  Lemma ok_bind {A B} (x : res A) (f : A -> res B) : ok x -> (forall a, ok (f a)) -> ok (let! a := x in f a).
  Proof. destruct x; cbn; auto. Qed.
  Lemma ok_mapM {A B} (f : A -> res B) l : (forall a, ok (f a)) -> ok (mapM f l).
  Proof.
    intro H. induction l as [|a l IH]; [exact I|]. rewrite mapM_cons. apply ok_bind; auto. intro b. apply ok_bind; auto. intro; exact I.
  Qed.
  Lemma ok_fixed z : ok (mk_fixed z). Proof. unfold mk_fixed. destruct (_ <? _)%Z; [lst|exact I]. Qed.
  Lemma ok_launder x : ok (launder dsh x).
  Proof. destruct x; cbn [launder]; [apply ok_fixed|apply ok_bind; [apply Hdsh|intro; exact I]|exact I|lst]. Qed.
  Lemma ok_check n ps : ok (check_datashape n ps).
  Proof. unfold check_datashape. destruct (negb _); [lst|]. destruct (forallb _ _); [exact I|lst]. Qed.
  Lemma ok_datashape n l : ok (mk_datashape dsh n l).
  Proof.
    unfold mk_datashape. destruct l as [|p l]; [lst|].
    assert (G : ok (let! ps := mapM (launder dsh) (p :: l) in check_datashape n ps)).
    { apply ok_bind; [apply ok_mapM, ok_launder|intro; apply ok_check]. }
    destruct p; try exact G. destruct l; [lst|exact G].
  Qed.
  Lemma ok_tuple l : ok (mk_tuple dsh l).
  Proof.
    unfold mk_tuple. apply ok_bind; [|intro; exact I]. apply ok_mapM. intro x. destruct x; cbn [tuple_item]; try apply ok_datashape.
    destruct (is_DataShape t); [exact I|apply ok_datashape].
  Qed.
  Lemma ok_targ_launder a : ok (targ_launder dsh a). Proof. destruct a; cbn [targ_launder]; apply ok_launder. Qed.
  Lemma ok_iter a : ok (targ_iter a). Proof. destruct a; cbn [targ_iter]; try lst; try exact I. destruct t; try lst; exact I. Qed.
  Lemma ok_str a : ok (targ_str E a). Proof. destruct a; cbn [targ_str]; try lst; exact I. Qed.
  Lemma ok_string f e : ok (mk_string f e). Proof. unfold mk_string. destruct (assoc _ _); [exact I|lst]. Qed.
  Lemma ok_typevar U s : ok (mk_typevar U s). Proof. destruct s; cbn [mk_typevar]; [lst|]. destruct (isupper _ _); [exact I|lst]. Qed.
  Lemma ok_c_typevar a : ok (c_typevar E a).
  Proof.
    destruct a as [| | |t|l]; cbn [c_typevar]; try lst; try apply ok_typevar.
    - destruct t; try lst. destruct parameters; lst.
    - destruct l as [|[] l]; lst.
  Qed.
  Lemma ok_unit s : ok (mk_timedelta s).
  Proof.
    unfold mk_timedelta. apply ok_bind; [|intro; exact I]. unfold normalize_time_unit. generalize (Datatypes.S (length s)). intro n. revert s.
    induction n as [|n IH]; intro s; [lst|]. cbn [normalize_time_unitF]. destruct (mem_str _ _); [exact I|]. destruct (assoc _ _); [exact I|].
    destruct (last_opt _); [|lst]. destruct (_ && _); [apply IH|lst].
  Qed.
  Lemma ok_bind_kw ps kw : ok (bind_kw ps kw).
  Proof.
    induction ps as [|[n r] ps IH]; [exact I|]. cbn [bind_kw].
    destruct (assoc n kw); [|destruct r; [lst|]]; (apply ok_bind; [exact IH|intro; exact I]).
  Qed.
  Lemma ok_bind_pos ps args kw : ok (bind_pos ps args kw).
  Proof.
    revert ps. induction args as [|a args IH]; intro ps; [destruct ps; apply ok_bind_kw|]. destruct ps as [|[n r] ps]; [lst|]. cbn [bind_pos].
    destruct (assoc n kw); [lst|]. apply ok_bind; [apply IH|intro; exact I].
  Qed.
  Lemma ok_call ps args kw : ok (call_bind ps args kw).
  Proof. unfold call_bind. destruct (forallb _ _); [apply ok_bind_pos|lst]. Qed.
  Lemma ok_c_string args : ok (c_string args).
  Proof.
    unfold c_string. destruct args as [|a [|b [|c args]]]; [apply ok_string| | |destruct a; lst].
    - destruct a; try lst; apply ok_string.
    - assert (G : ok (let! t := match b with
                  | AStr s => mk_string None (Some s)
                  | AInt z => if (z =? 0)%Z then mk_string None None else Raise ValueErr
                  | ABool b => if b then Raise ValueErr else mk_string None None
                  | ADs _ => Raise ValueErr
                  | AList [] => mk_string None None
                  | AList _ => Raise TypeErr
                  end in
        match a, t with AInt z, StringT _ c => Ok (StringT (Some z) c) | _, _ => Raise NotModelled end)).
      { apply ok_bind.
        - destruct b as [z|b|s|t|l]; try apply ok_string; [destruct (z =? 0)%Z|destruct b| |destruct l]; try lst; apply ok_string.
        - intro t. destruct a; try lst. destruct t; try lst. exact I. }
      destruct a; exact G.
  Qed.
  Lemma ok_struct a b : ok (c_struct E dsh a b).
  Proof.
    unfold c_struct. apply ok_bind; [apply ok_iter|]. intro ns. apply ok_bind; [apply ok_iter|]. intro ds.
    apply ok_bind; [apply ok_mapM; intro; apply ok_str|]. intro. apply ok_bind; [apply ok_mapM; intro; apply ok_targ_launder|]. intro.
    destruct (nodup_str _); [exact I|lst].
  Qed.
  Lemma ok_ds a : ok (targ_ds a). Proof. destruct a; cbn [targ_ds]; try lst; exact I. Qed.
  Lemma ok_lit a : ok (targ_lit a). Proof. destruct a; cbn [targ_lit]; try lst; exact I. Qed.
  Lemma ok_categorical a b c : ok (c_categorical E a b c).
  Proof.
    unfold c_categorical. apply ok_bind; [apply ok_iter|]. intro l. apply ok_bind; [apply ok_mapM; intro; apply ok_lit|]. intro lits.
    assert (D : ok (let! t := e_disc E lits in Ok (measure t))).
    { destruct (e_disc E lits) eqn:Ed; cbn; [exact I|]. exact (HD _ _ Ed). }
    apply ok_bind.
    - destruct b as [x|]; [|exact D]. destruct x; try (destruct (falsy _); [exact D|lst]). exact I.
    - intro t. destruct c as [x|]; [|exact I]. destruct x; try lst. exact I.
  Qed.
  Lemma ok_constr n con : constr_fun E dsh n = Some con -> forall args kw, ok (con args kw).
  Proof.
    intro H. unfold constr_fun in H. cbv zeta in H.
    assert (R : forall (o : option targ) (f : targ -> res ty), (forall x, ok (f x)) -> ok (match o with Some x => f x | None => Raise TypeErr end : res ty)).
    { intros o f Hf. destruct o; [apply Hf|lst]. }
    repeat match goal with
      | H : (if ?c then Some ?f else _) = Some con |- _ =>
          destruct c; [injection H as <-; intros args kw; try (apply ok_bind; [apply ok_call|intro l])|]
      end; try discriminate.
    - apply R. intro a. unfold c_complex. destruct a; try lst. destruct (py_eq _ _); [exact I|]. destruct (py_eq _ _); [exact I|lst].
    - destruct kw; [apply ok_c_string|lst].
    - apply R. intro a. apply R. intro b. apply ok_struct.
    - apply R. intro a. unfold c_tuple. apply ok_bind; [apply ok_iter|intro; apply ok_tuple].
    - apply R. intro a. apply R. intro b. unfold c_funcproto. apply ok_bind; [apply ok_iter|intro]. apply ok_bind; [apply ok_mapM, ok_ds|intro].
      apply ok_bind; [apply ok_ds|intro; exact I].
    - apply R. intro a. apply ok_c_typevar.
    - apply R. intro a. apply ok_bind; [apply ok_targ_launder|intro; exact I].
    - apply R. intro a. apply R. intro b. apply ok_bind; [apply ok_targ_launder|intro]. apply ok_bind; [apply ok_targ_launder|intro; exact I].
    - destruct (nth 0 l None) as [x|]; [|exact I]. destruct x; cbn [c_time]; try lst; exact I.
    - destruct (nth 0 l None) as [x|]; [|exact I]. destruct x; cbn [c_time]; try lst; exact I.
    - unfold c_timedelta. destruct (nth 0 l None) as [x|]; [|apply ok_unit].
      destruct x; try lst; (apply ok_bind; [apply ok_str|intro; apply ok_unit]).
    - apply R. intro a. unfold c_units. destruct a; try lst. destruct (nth 1 l None) as [x|]; [|exact I].
      destruct x; try lst. cbn [mk_units]. destruct (is_DataShape t); [exact I|lst].
    - apply R. intro a. unfold c_decimal. destruct a; try lst. destruct (nth 1 l None) as [x|]; [|exact I]. destruct x; try lst. exact I.
    - apply R. intro a. apply ok_categorical.
  Qed.
  Lemma ok_dim_constr n con : dim_constr_fun E n = Some con -> forall a, ok (con a).
  Proof.
    intros H a. unfold dim_constr_fun in H.
    destruct (str_eqb n $"fixed"); [injection H as <-|destruct (str_eqb n $"typevar"); [injection H as <-|destruct (str_eqb n $"ellipsis"); [injection H as <-|discriminate]]].
    - destruct a; try lst; [apply ok_fixed|apply ok_fixed|]. destruct t; try lst. apply ok_fixed.
    - apply ok_c_typevar.
    - destruct a; try (apply ok_bind; [apply ok_c_typevar|intro; lst]). unfold mk_ellipsis. apply ok_bind; [apply ok_typevar|intro; exact I].
  Qed.
  Lemma ok_validate t : ok (validate t).
  Proof.
    assert (V : forall t, ok (validate_ds t)).
    { intro u. destruct u; cbn [validate_ds]; try exact I. destruct (Nat.ltb _ _); [lst|]. destruct (is_Ellipsis _); [lst|exact I]. }
    assert (M : forall l, Forall (fun t => ok (validate t)) l -> ok (mapM validate l)).
    { induction 1 as [|x l H _ IH]; [exact I|]. rewrite mapM_cons. apply ok_bind; auto. intro. apply ok_bind; auto. intro; exact I. }
    induction t using ty_ind'; cbn [validate]; try exact I; try assumption.
    - apply ok_bind; [apply M; assumption|intro; apply V].
    - apply ok_bind; [apply M; assumption|intro; apply V].
    - apply ok_bind; [exact IHt1|intro; exact IHt2].
  Qed.
End Con.

(** ** the tokens of a text *)
Lemma Spans_tok s ts err a : Spans s a ts err -> Forall (fun t => exists w, TokText (tk_kind t) w (tk_val t)) ts.
Proof.
  revert a. induction ts as [|t ts IH]; intros a H; [constructor|]. cbn [Spans] in H.
  destruct H as [_ [_ [_ [_ [H [_ H']]]]]]. constructor; eauto.
Qed.
Lemma stream_In p ts err e : In p (stream ts err e) ->
  (exists t, p = PTok t /\ In t ts) \/ (exists x, p = PErr x /\ err = Some x) \/ (exists q, p = PEnd q).
Proof.
  revert e. induction ts as [|t ts IH]; intros e H; cbn [stream] in H.
  - destruct H as [<-|[]]. destruct err; eauto.
  - destruct H as [<-|H]; [left; eexists; split; eauto; left; reflexivity|].
    destruct (IH _ H) as [[u [-> H1]]|[H1|H1]]; auto. left. exists u. split; auto. right; auto.
Qed.
Lemma tok_upper t w : TokText (tk_kind t) w (tk_val t) -> tk_kind t = KUpper -> exists c r, tk_val t = VStr (c :: r) /\ is_upper c = true.
Proof.
  intros H K. destruct t as [k v a b]. cbn in *. subst k. inversion H as [| | |w' Hn| | | | | | | | | | | | | | | | | |]; subst.
  match goal with X : NameText _ _ |- _ => destruct X as [c r Y _] end. eauto.
Qed.
Lemma tok_name t w : TokText (tk_kind t) w (tk_val t) -> tk_kind t = KLower \/ tk_kind t = KOther \/ tk_kind t = KStr -> exists s, tk_val t = VStr s.
Proof. intros H K. destruct t as [k v a b]. cbn in *. destruct K as [->|[->| ->]]; inversion H; subst; eauto. Qed.
Lemma tok_int t w : TokText (tk_kind t) w (tk_val t) -> tk_kind t = KInt -> exists z, tk_val t = VInt z.
Proof. intros H K. destruct t as [k v a b]. cbn in *. subst k; inversion H; subst; eauto. Qed.

(** ** any text *)
Definition contract (E : env) (e : exn) : Prop :=
  (exists p m, e = SyntaxErr p m) \/ In e [TypeErr; ValueErr; IndexErr; AttributeErr; NotImplErr; UnboundErr; NotModelled; OutOfFuel] \/
  DiscoverRaises E e.
Lemma contract_all E m : forall s, only (contract E) (dshape_str E m s).
Proof.
  induction m as [|m IH]; intro s; cbn [dshape_str]; [right; left; cbn; tauto|].
  assert (HQ : forall e, In e [TypeErr; ValueErr; IndexErr; AttributeErr; NotImplErr; UnboundErr; NotModelled; OutOfFuel] -> contract E e)
    by (intros e H; right; left; exact H).
  assert (HD : forall l e, e_disc E l = Raise e -> contract E e) by (intros l e H; right; right; exists l; exact H).
  apply ok_bind; [|intro t; apply ok_bind; [apply ok_validate; auto|intro; exact I]].
  unfold parse. destruct (lex s) as [ts err] eqn:El. pose proof (lex_Spans _ _ _ El) as Sp.
  pose proof (Spans_tok _ _ _ _ Sp) as Tk. rewrite Forall_forall in Tk.
  assert (TI : forall t, In (PTok t) (stream ts err 0) -> exists w, TokText (tk_kind t) w (tk_val t)).
  { intros t H. apply stream_In in H as [[u [X H]]|[[x [X _]]|[q X]]]; try discriminate. injection X as <-. apply Tk; exact H. }
  pose proof (parse_toks_1 E (dshape_str E m) true (stream ts err 0) (contract E)) as G.
  assert (K : match parse_toks (default_sym E (dshape_str E m)) (stream ts err 0) with
    | Raise e => contract E e | Ok t => true = false -> (tell t <= nell (stream ts err 0))%nat /\ fine t = true end).
  { apply G.
    - intro p. left. eauto.
    - apply HQ; cbn; tauto.
    - intros e H. apply stream_In in H as [[u [X _]]|[[x [X H]]|[q X]]]; try discriminate. injection X as <-.
      pose proof (Spans_ends _ _ _ _ Sp) as [_ He]. rewrite H in He. destruct e; try (subst; discriminate He); try (left; eauto; fail); apply HQ; cbn; tauto.
    - intros _ e H. apply HQ. cbn in *. tauto.
    - intros _. apply ok_constr; auto.
    - intros _. apply ok_dim_constr; auto.
    - discriminate.
    - intros t H Hk. destruct (TI t H) as [w W]. eapply tok_upper; eauto.
    - intros t H Hk. destruct (TI t H) as [w W]. eapply tok_name; eauto.
    - intros t H Hk. destruct (TI t H) as [w W]. destruct (tok_int t w W Hk) as [z Hz]. exists z. split; auto. intros _. apply HQ; cbn; tauto.
    - intros _. apply HQ; cbn; tauto. }
  destruct (parse_toks _ _); [exact I|exact K].
Qed.

Lemma dshape_errors E s e : disc_ok E -> dshape E s = Raise e ->
  (exists p m, e = SyntaxErr p m) \/ In e [TypeErr; ValueErr; IndexErr; AttributeErr; NotImplErr; UnboundErr] \/ e = NotModelled \/ DiscoverRaises E e.
Proof.
  intros HE H. pose proof (contract_all E (Datatypes.S (length s)) s) as K. fold (dshape E s) in K. rewrite H in K. cbn in K.
  destruct (dshape_outcome E s HE) as [[t [H1 _]]|[[p [m [H1 _]]]|[e' [H1 P]]]]; rewrite H in H1; [discriminate|injection H1 as ->; left; eauto|].
  injection H1 as <-. destruct K as [K|[K|K]]; auto. cbn [In] in K.
  repeat (destruct K as [<-|K]; [first [right; left; cbn; tauto | right; right; left; reflexivity | contradiction P]|]). contradiction.
Qed.

(** ** texts without brackets *)
Lemma validate_tell t : fine t = true -> match validate t with Ok _ => True | Raise e => e = TypeErr /\ (2 <= tell t)%nat end.
Proof.
  assert (M : forall l, Forall (fun t => fine t = true -> match validate t with Ok _ => True | Raise e => e = TypeErr /\ (2 <= tell t)%nat end) l ->
    forallb fine l = true -> match mapM validate l with Ok _ => True | Raise e => e = TypeErr /\ (2 <= list_sum (map tell l))%nat end).
  { induction 1 as [|x l H _ IH]; [constructor|]. intro W. cbn [forallb] in W. apply andb_true_iff in W as [W1 W2].
    rewrite mapM_cons. specialize (H W1). specialize (IH W2). cbn [map]. rewrite sum_cons.
    destruct (validate x); cbn [bind]; [|destruct H; split; auto; lia]. destruct (mapM validate l); cbn [bind]; auto. destruct IH; split; auto; lia. }
  assert (C : forall l, (length (filter is_Ellipsis l) <= list_sum (map tell l))%nat).
  { induction l as [|x l IH]; [cbn; lia|]. cbn [filter map]. rewrite sum_cons. destruct x; cbn [is_Ellipsis tell length]; lia. }
  induction t using ty_ind'; cbn [validate]; try exact (fun _ => I); intro W.
  - cbn [fine] in W. apply andb_true_iff in W as [W1 W2].
    specialize (M ps H W2). destruct (mapM validate ps); cbn [bind]; [|cbn [tell]; exact M].
    cbn [validate_ds tell]. destruct (Nat.ltb _ _) eqn:L.
    + apply Nat.ltb_lt in L. specialize (C ps). split; auto. lia.
    + destruct (is_Ellipsis (last ps NullT)); [discriminate|exact I].
  - exact (IHt W).
  - cbn [fine] in W. specialize (M ps H W). destruct (mapM validate ps); cbn [bind]; [exact I|exact M].
  - cbn [fine] in W. apply andb_true_iff in W as [W1 W2].
    specialize (IHt1 W1). specialize (IHt2 W2). cbn [tell]. destruct (validate t1); cbn [bind]; [|destruct IHt1; split; auto; lia].
    destruct (validate t2); auto. destruct IHt2; split; auto; lia.
  - exact (IHt W).
Qed.

Lemma ell_tok t : ell (PTok t) = true -> EllipsisTok t.
Proof.
  cbn. unfold EllipsisTok. destruct (tk_kind t); try discriminate; auto. destruct (tk_val t) as [| |v|]; try discriminate. intro H. apply str_eqb_eq in H. right. split; [reflexivity|]. now rewrite H.
Qed.
Lemma nell_stream ts err e : nell (stream ts err e) = length (filter (fun t => ell (PTok t)) ts).
Proof.
  revert e. induction ts as [|t ts IH]; intro e; cbn [stream]; [destruct err; reflexivity|].
  unfold nell in *. cbn [filter]. destruct (ell (PTok t)); cbn [length]; rewrite IH; reflexivity.
Qed.
Lemma two_filter {A} (f : A -> bool) l : (2 <= length (filter f l))%nat ->
  exists l1 a l2 b l3, l = l1 ++ a :: l2 ++ b :: l3 /\ f a = true /\ f b = true.
Proof.
  assert (O : forall l, (1 <= length (filter f l))%nat -> exists l1 a l2, l = l1 ++ a :: l2 /\ f a = true).
  { clear. induction l as [|x l IH]; cbn; [lia|]. destruct (f x) eqn:F; intro H; [exists [], x, l; auto|].
    destruct (IH H) as [l1 [a [l2 [-> Ha]]]]. exists (x :: l1), a, l2. auto. }
  induction l as [|x l IH]; cbn; [lia|]. destruct (f x) eqn:F; intro H.
  - cbn in H. destruct (O l ltac:(lia)) as [l1 [a [l2 [-> Ha]]]]. exists [], x, l1, a, l2. auto.
  - destruct (IH H) as [l1 [a [l2 [b [l3 [-> [Ha Hb]]]]]]]. exists (x :: l1), a, l2, b, l3. auto.
Qed.

(** labels of the tokens *)
Lemma labels_stream_In n ts err e : In n (labels (stream ts err e)) ->
  exists l1 a b l2, ts = l1 ++ a :: b :: l2 /\ tk_val a = VStr n /\ tk_kind b = KColon.
Proof.
  revert e. induction ts as [|t ts IH]; intros e H; cbn [stream] in H; [destruct err; contradiction|].
  destruct ts as [|u ts]; [destruct err; contradiction|]. cbn [stream] in H. rewrite labels_cons in H. apply in_app_or in H as [H|H].
  - cbn [lab] in H. destruct (tk_kind u) eqn:K, (tk_val t) eqn:V; try contradiction. destruct H as [<-|[]]. exists [], t, u, ts. auto.
  - destruct (IH (tk_end t) H) as [l1 [a [b [l2 [X Y]]]]]. exists (t :: l1), a, b, l2. split; [cbn; congruence|exact Y].
Qed.
Lemma labels_dup ts err e : Forall (fun t => exists w, TokText (tk_kind t) w (tk_val t)) ts -> ~ NoDup (labels (stream ts err e)) ->
  exists n l1 a b l2 a' b' l3, ts = l1 ++ a :: b :: l2 ++ a' :: b' :: l3 /\
  tk_val a = VStr n /\ tk_kind b = KColon /\ tk_val a' = VStr n /\ tk_kind b' = KColon.
Proof.
  intro F. revert e. induction F as [|t ts [w T] F IH]; intros e H; cbn [stream] in H; [exfalso; apply H; destruct err; constructor|].
  destruct ts as [|u ts]; [exfalso; apply H; destruct err; constructor|]. cbn [stream] in H. rewrite labels_cons in H.
  assert (Rest : ~ NoDup (labels (stream (u :: ts) err (tk_end t))) -> exists n l1 a b l2 a' b' l3, t :: u :: ts = l1 ++ a :: b :: l2 ++ a' :: b' :: l3 /\
    tk_val a = VStr n /\ tk_kind b = KColon /\ tk_val a' = VStr n /\ tk_kind b' = KColon).
  { intro N. destruct (IH _ N) as [n [l1 [a [b [l2 [a' [b' [l3 [X Y]]]]]]]]]. exists n, (t :: l1), a, b, l2, a', b', l3. split; [cbn; congruence|exact Y]. }
  cbn [lab] in H. destruct (tk_kind u) eqn:K; try (apply Rest; exact H). destruct (tk_val t) as [| |n|] eqn:V; try (apply Rest; exact H).
  destruct (in_dec (list_eq_dec N.eq_dec) n (labels (stream (u :: ts) err (tk_end t)))) as [I|I].
  - cbn [stream] in I. destruct ts as [|v ts]; [destruct err; contradiction|]. cbn [stream] in I. rewrite labels_cons in I.
    assert (U : tk_val u = VNone).
    { inversion F as [|? ? [w' T'] _]; subst. rewrite K in T'. inversion T'; auto. }
    cbn [lab] in I. rewrite U in I. assert (I' : In n (labels (stream (v :: ts) err (tk_end u)))) by (destruct (tk_kind v); exact I).
    destruct (labels_stream_In _ _ _ _ I') as [l1 [a [b [l2 [X [Y Z]]]]]]. exists n, [], t, u, l1, a, b, l2. rewrite X. auto.
  - apply Rest. intro N. apply H. cbn [app]. constructor; auto.
Qed.

Definition plain_contract (s : str) (e : exn) : Prop :=
  (exists p m, e = SyntaxErr p m) \/ e = OutOfFuel \/ (e = ValueErr /\ (NegativeInt s \/ RepeatedLabel s \/ BadLiteral s)).
Lemma dshape_plain E s e : disc_ok E -> ~ Brackets s -> dshape E s = Raise e ->
  (exists p m, e = SyntaxErr p m) \/ (e = TypeErr /\ TwoEllipses s) \/
  (e = ValueErr /\ (NegativeInt s \/ RepeatedLabel s \/ BadLiteral s)).
Proof.
  intros HE NB H. unfold dshape in H. cbn [dshape_str] in H.
  destruct (dshape_outcome E s HE) as [[t0 [H0 _]]|[[p [m [H0 _]]]|[e0 [H0 P]]]]; unfold dshape in H0; cbn [dshape_str] in H0; rewrite H in H0; [discriminate|injection H0 as ->; left; eauto|].
  injection H0 as <-.
  unfold NegativeInt, RepeatedLabel, BadLiteral, TwoEllipses, Brackets in *.
  unfold parse in *. destruct (lex s) as [ts err] eqn:El. cbn [fst snd] in *. pose proof (lex_Spans _ _ _ El) as Sp.
  pose proof (Spans_tok _ _ _ _ Sp) as Tk0. pose proof Tk0 as Tk. rewrite Forall_forall in Tk.
  assert (TI : forall t, In (PTok t) (stream ts err 0) -> In t ts).
  { intros t X. apply stream_In in X as [[u [X Y]]|[[x [X _]]|[q X]]]; try discriminate. injection X as <-. exact Y. }
  pose proof (parse_toks_1 E (dshape_str E (length s)) false (stream ts err 0)
    (fun e => (exists p m, e = SyntaxErr p m) \/ e = OutOfFuel \/ (e = ValueErr /\
      ((exists t z, In t ts /\ tk_kind t = KInt /\ tk_val t = VInt z /\ (z < 0)%Z) \/
       (exists n l1 a b l2 a' b' l3, ts = l1 ++ a :: b :: l2 ++ a' :: b' :: l3 /\
          tk_val a = VStr n /\ tk_kind b = KColon /\ tk_val a' = VStr n /\ tk_kind b' = KColon) \/ err = Some ValueErr)))) as G.
  cbv beta in G.
  match type of G with _ -> _ -> _ -> _ -> _ -> _ -> _ -> _ -> _ -> _ -> _ -> ?c => assert (K : c) end.
  { apply G; clear G.
    - intros p m. left. eauto.
    - auto.
    - intros x X. apply stream_In in X as [[u [X _]]|[[y [X Y]]|[q X]]]; try discriminate. injection X as <-.
      pose proof (Spans_ends _ _ _ _ Sp) as [_ He]. rewrite Y in He. destruct x; try discriminate He; [left; eauto|]. right. right. split; auto.
    - discriminate.
    - discriminate.
    - discriminate.
    - intros _ t X Y. apply NB. exists t. auto.
    - intros t X Hk. destruct (Tk t (TI t X)) as [w W]. eapply tok_upper; eauto.
    - intros t X Hk. destruct (Tk t (TI t X)) as [w W]. eapply tok_name; eauto.
    - intros t X Hk. destruct (Tk t (TI t X)) as [w W]. destruct (tok_int t w W Hk) as [z Hz]. exists z. split; auto. intro Z.
      right. right. split; auto. left. exists t, z. auto.
    - intro N. right. right. split; auto. right. left. eapply labels_dup; eauto. }
  clear G. destruct (parse_toks _ _) as [t|x] eqn:Ep; cbn [bind] in H.
  - destruct (K eq_refl) as [K' W]. pose proof (validate_tell t W) as V.
    destruct (validate t) as [[]|y]; cbn [bind] in H; [discriminate|]. injection H as <-. destruct V as [-> V]. right. left. split; auto.
    rewrite nell_stream in K'. destruct (two_filter _ _ (Nat.le_trans _ _ _ V K')) as [l1 [a [l2 [b [l3 [X [Ya Yb]]]]]]].
    exists l1, a, l2, b, l3. split; auto. split; apply ell_tok; assumption.
  - injection H as ->. destruct K as [K|[->|K]]; auto. contradiction.
Qed.
