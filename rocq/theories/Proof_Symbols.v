(** Parsing depends on a symbol table only through the names in the text (C57). *)
From Verif Require Import Base Types Lexer Printer Construct Parser Spec_Lexer Proof_Lexer Spec_Grammar Proof_Grammar Proof_Grammar3 Spec_Symbols.

Section Local.
  Variables sym sym' : symtab.
  Hypothesis SUGAR : AgreeSugar sym sym'.
  Definition okTok (p : ptok) : Prop :=
    match p with PTok t => tk_kind t = KLower -> forall n, vstr (tk_val t) = n -> Agree sym sym' n | _ => True end.
  Definition Good (ts : toks) : Prop := Forall okTok ts.
  Definition Rel {A} (x y : res (A * toks)) : Prop := x = y /\ forall o r, x = Ok (o, r) -> Good r.
  Definition RelA (x : res toks) : Prop := forall r, x = Ok r -> Good r.

  Lemma Rel_ret {A} (o : A) ts : Good ts -> Rel (Ok (o, ts)) (Ok (o, ts)).
  Proof. split; auto. intros ? ? E; injection E as <- <-; auto. Qed.
  Lemma Rel_raise {A} e : @Rel A (Raise e) (Raise e).
  Proof. split; [auto|discriminate]. Qed.
  Lemma Rel_error {A} ts m : @Rel A (raise_error ts m) (raise_error ts m).
  Proof. apply Rel_raise. Qed.
  Lemma Rel_bind {A B} (x y : res (A * toks)) (k k' : A -> toks -> res (B * toks)) :
    Rel x y -> (forall o r, Good r -> Rel (k o r) (k' o r)) ->
    Rel (let! (o, r) := x in k o r) (let! (o, r) := y in k' o r).
  Proof.
    intros [-> H] HK. destruct y as [[o r]|e]; cbn [bind]; [apply HK; eapply H; reflexivity|apply Rel_raise].
  Qed.
  Lemma Rel_adv {B} ts (k k' : toks -> res (B * toks)) :
    Good ts -> (forall r, Good r -> Rel (k r) (k' r)) -> Rel (let! r := advance ts in k r) (let! r := advance ts in k' r).
  Proof.
    intros HG HK. destruct (advance ts) as [r|e] eqn:E; cbn [bind]; [|apply Rel_raise]. apply HK.
    unfold advance in E. destruct ts as [|[t|p|e'] ts]; try (injection E as <-; auto; fail).
    destruct ts as [|[t'|p|e'] ts]; try discriminate; injection E as <-; inversion HG; auto.
  Qed.
  Lemma Rel_res {A B} (x : res A) (k k' : A -> res (B * toks)) :
    (forall a, Rel (k a) (k' a)) -> Rel (let! a := x in k a) (let! a := x in k' a).
  Proof. intro HK. destruct x; cbn [bind]; [apply HK|apply Rel_raise]. Qed.

  Lemma hom_loop_rel {A} (item item' : toks -> P A) n : (forall ts, Good ts -> Rel (item ts) (item' ts)) ->
    forall sep tr saved items ts, Good saved -> Good ts ->
    Rel (hom_loop item n sep tr saved items ts) (hom_loop item' n sep tr saved items ts).
  Proof.
    intro HI. induction n as [|n IH]; intros sep tr saved items ts Hs Ht; cbn [hom_loop]; [apply Rel_raise|].
    apply (Rel_bind (item ts) (item' ts)); [auto|]. intros [x|] r Hr.
    - destruct (kind_is sep r); [apply Rel_adv; auto|apply Rel_ret; auto].
    - destruct items; [apply Rel_ret; auto|]. destruct tr; [apply Rel_ret; auto|apply Rel_error].
  Qed.
  Lemma hom_list_rel {A} (item item' : toks -> P A) : (forall ts, Good ts -> Rel (item ts) (item' ts)) ->
    forall sep tr ts, Good ts -> Rel (hom_list item sep tr ts) (hom_list item' sep tr ts).
  Proof. intros HI sep tr ts Ht. apply hom_loop_rel; auto. Qed.

  Variables rec rec' : toks -> P ty.
  Hypothesis REC : forall ts, Good ts -> Rel (rec ts) (rec' ts).

  Lemma tokval_rel k f ts : Good ts -> Rel (parse_tokval k f ts) (parse_tokval k f ts).
  Proof. intro H. unfold parse_tokval. destruct (kind_is k ts); [|apply Rel_ret; auto]. apply Rel_adv; auto. intros; apply Rel_ret; auto. Qed.
  Lemma rec_targ_rel ts : Good ts -> Rel (rec_targ rec ts) (rec_targ rec' ts).
  Proof. intro H. unfold rec_targ. apply (Rel_bind (rec ts) (rec' ts)); auto. intros; apply Rel_ret; auto. Qed.
  Lemma type_arg_rel ts : Good ts -> Rel (parse_type_arg rec ts) (parse_type_arg rec' ts).
  Proof.
    intro H. unfold parse_type_arg. apply (Rel_bind (rec ts) (rec' ts)); auto. intros [t|] r Hr; [apply Rel_ret; auto|].
    destruct (_ || _); [apply Rel_adv; auto; intros; apply Rel_ret; auto|].
    destruct (kind_is KLBk r); [|apply Rel_ret; auto]. apply Rel_adv; auto. intros r2 H2.
    apply Rel_bind; [apply hom_list_rel; auto; apply rec_targ_rel|]. intros v1 r3 H3.
    apply Rel_bind; [destruct v1; [apply Rel_ret; auto|apply hom_list_rel; auto; apply tokval_rel]|]. intros v2 r4 H4.
    apply Rel_bind; [destruct v2; [apply Rel_ret; auto|apply hom_list_rel; auto; apply tokval_rel]|]. intros v3 r5 H5.
    apply Rel_bind; [destruct v3; [apply Rel_ret; auto|apply hom_list_rel; auto; apply tokval_rel]|]. intros v4 r6 H6.
    destruct (kind_is KRBk r6); [|apply Rel_error]. apply Rel_adv; auto. intros; apply Rel_ret; auto.
  Qed.
  Lemma type_kwarg_rel ts : Good ts -> Rel (parse_type_kwarg rec ts) (parse_type_kwarg rec' ts).
  Proof.
    intro H. unfold parse_type_kwarg. destruct (kind_is KLower ts); [|apply Rel_ret; auto].
    apply Rel_adv; auto. intros r1 H1. destruct (kind_is KEq r1); [|apply Rel_ret; auto].
    apply Rel_adv; auto. intros r2 H2. apply Rel_bind; [apply type_arg_rel; auto|]. intros [x|] r3 H3; [apply Rel_ret; auto|apply Rel_error].
  Qed.
  Lemma arg_loop_rel n : forall args ts, Good ts -> Rel (arg_loop rec n args ts) (arg_loop rec' n args ts).
  Proof.
    induction n as [|n IH]; intros args ts H; cbn [arg_loop]; [apply Rel_raise|].
    apply Rel_bind; [apply type_arg_rel; auto|]. intros [x|] r1 H1.
    - destruct (kind_is KComma r1); [apply Rel_adv; auto|apply (Rel_ret (_, _)); auto].
    - apply Rel_bind; [apply hom_list_rel; auto; apply type_kwarg_rel|]. intros kw r2 H2. apply (Rel_ret (_, _)); auto.
  Qed.
  Lemma args_rel {B} ts (k k' : list targ -> list (str * targ) -> toks -> res (B * toks)) : Good ts ->
    (forall a kw r, Good r -> Rel (k a kw r) (k' a kw r)) ->
    Rel (let! (a, kw, r) := parse_type_arg_list rec ts in k a kw r) (let! (a, kw, r) := parse_type_arg_list rec' ts in k' a kw r).
  Proof.
    intros H HK. unfold parse_type_arg_list. destruct (arg_loop_rel (S (length ts)) [] ts H) as [<- G].
    destruct (arg_loop rec _ _ _) as [[[a kw] r]|e]; cbn [bind]; [apply HK; eapply G; reflexivity|apply Rel_raise].
  Qed.
  Lemma struct_field_rel ts : Good ts -> Rel (parse_struct_field rec ts) (parse_struct_field rec' ts).
  Proof.
    intro H. unfold parse_struct_field. destruct (_ || _); [|apply Rel_ret; auto].
    apply Rel_adv; auto. intros r1 H1. destruct (kind_is KColon r1); [|apply Rel_error].
    apply Rel_adv; auto. intros r2 H2. apply Rel_bind; auto. intros [x|] r3 H3; [apply Rel_ret; auto|apply Rel_error].
  Qed.
  Ltac sg := apply SUGAR; cbn; tauto.
  Lemma struct_rel ts : Good ts -> Rel (parse_struct_type sym rec ts) (parse_struct_type sym' rec' ts).
  Proof.
    intro H. unfold parse_struct_type, sugar. replace (st_dtype_constr sym' $"struct") with (st_dtype_constr sym $"struct") by sg.
    apply Rel_adv; auto. intros r1 H1. apply Rel_bind; [apply hom_list_rel; auto; apply struct_field_rel|]. intros fs r2 H2.
    destruct (kind_is KRBc r2); [|apply Rel_error]. apply Rel_adv; auto. intros r3 H3. apply Rel_res. intro con. apply Rel_res. intro t.
    apply Rel_ret; auto.
  Qed.
  Lemma funcproto_rel ts : Good ts -> Rel (parse_funcproto_or_tuple sym rec ts) (parse_funcproto_or_tuple sym' rec' ts).
  Proof.
    intro H. unfold parse_funcproto_or_tuple, sugar. replace (st_dtype_constr sym' $"funcproto") with (st_dtype_constr sym $"funcproto") by sg.
    replace (st_dtype_constr sym' $"tuple") with (st_dtype_constr sym $"tuple") by sg.
    apply Rel_adv; auto. intros r1 H1. apply Rel_bind; [apply hom_list_rel; auto|]. intros fs r2 H2.
    destruct (kind_is KRP r2); [|apply Rel_error]. apply Rel_adv; auto. intros r3 H3.
    destruct (kind_is KArrow r3).
    - apply Rel_adv; auto. intros r4 H4. apply Rel_bind; auto. intros [t|] r5 H5; [|apply Rel_error].
      apply Rel_res. intro con. apply Rel_res. intro u. apply Rel_ret; auto.
    - apply Rel_res. intro con. apply Rel_res. intro u. apply Rel_ret; auto.
  Qed.
  Lemma lower_agree ts : Good ts -> tok_kind ts = Some KLower -> Agree sym sym' (vstr (tok_value ts)).
  Proof.
    intros H E. destruct ts as [|[t|p|e] ts]; try discriminate. inversion H as [|? ? H1 H2]; subst. apply H1; auto.
    cbn in E. congruence.
  Qed.
  Lemma dtype_rel ts : Good ts -> Rel (parse_dtype sym rec ts) (parse_dtype sym' rec' ts).
  Proof.
    intro H. unfold parse_dtype, sugar. destruct (tok_kind ts) as [k|] eqn:E; [|apply Rel_ret; auto].
    destruct k; try (apply Rel_ret; auto; fail).
    all: try (apply struct_rel; auto; fail). all: try (apply funcproto_rel; auto; fail).
    all: cbv zeta.
    1, 2: match goal with E : tok_kind _ = Some KLower |- _ =>
        destruct (lower_agree ts H E) as [A1 [A2 _]]; rewrite <- A1, <- A2;
        apply Rel_adv; auto; intros r1 H1; destruct (kind_is KLBk r1);
        [ destruct (st_dtype_constr sym _); [|apply Rel_ret; auto]; apply Rel_adv; auto; intros r2 H2;
          apply args_rel; auto; intros a kw r3 H3; destruct (kind_is KRBk r3); [|apply Rel_error];
          destruct a, kw; try apply Rel_error; (apply Rel_adv; auto; intros r4 H4; apply Rel_res; intro; apply Rel_ret; auto)
        | destruct (st_dtype sym _); apply Rel_ret; auto ]
      | _ => replace (st_dtype_constr sym' $"typevar") with (st_dtype_constr sym $"typevar") by sg;
        apply Rel_adv; auto; intros r1 H1; apply Rel_res; intro; apply Rel_res; intro; apply Rel_ret; auto end.
  Qed.
  Lemma dim_rel ts : Good ts -> Rel (parse_dim sym rec ts) (parse_dim sym' rec' ts).
  Proof.
    intro H. unfold parse_dim, sugar. destruct (tok_kind ts) as [k|] eqn:E; [|apply Rel_ret; auto].
    replace (st_dim_constr sym' $"ellipsis") with (st_dim_constr sym $"ellipsis") by sg.
    replace (st_dim_constr sym' $"typevar") with (st_dim_constr sym $"typevar") by sg.
    replace (st_dim_constr sym' $"fixed") with (st_dim_constr sym $"fixed") by sg.
    replace (st_dim sym' $"ellipsis") with (st_dim sym $"ellipsis") by sg.
    destruct k; try (apply Rel_ret; auto; fail); cbv zeta.
    all: match goal with
      | E : tok_kind _ = Some KLower |- _ =>
        destruct (lower_agree ts H E) as [_ [_ [A1 A2]]]; rewrite <- A1, <- A2;
        apply Rel_adv; auto; intros r1 H1; destruct (kind_is KLBk r1);
        [ destruct (st_dim_constr sym _); [|apply Rel_ret; auto]; apply Rel_adv; auto; intros r2 H2;
          apply args_rel; auto; intros a kw r3 H3; destruct (kind_is KRBk r3); [|apply Rel_error];
          apply Rel_adv; auto; intros; apply Rel_raise
        | destruct (st_dim sym _); apply Rel_ret; auto ]
      | _ => apply Rel_adv; auto; intros r1 H1;
        repeat first [ apply Rel_ret; auto; fail | apply Rel_adv; [auto|intros] | apply Rel_res; intro
                     | match goal with |- context [kind_is ?k r1] => destruct (kind_is k r1) end ]
      end.
  Qed.
  Lemma nooption_rel ts : Good ts -> Rel (parse_nooption sym rec ts) (parse_nooption sym' rec' ts).
  Proof.
    intro H. unfold parse_nooption. apply Rel_bind; [apply dim_rel; auto|]. intros o r1 H1.
    assert (C : Rel (let! (dt, ts2) := parse_dtype sym rec r1 in match dt with Some t => let! ds := mk_ds [t] in Ok (Some ds, ts2) | None => Ok (None, ts2) end)
                    (let! (dt, ts2) := parse_dtype sym' rec' r1 in match dt with Some t => let! ds := mk_ds [t] in Ok (Some ds, ts2) | None => Ok (None, ts2) end)).
    { apply Rel_bind; [apply dtype_rel; auto|]. intros [t|] r2 H2; [apply Rel_res; intro|]; apply Rel_ret; auto. }
    destruct o as [d|]; [|exact C]. destruct (kind_is KAst r1); [|exact C].
    apply Rel_adv; auto. intros r2 H2. apply Rel_bind; auto. intros [t|] r3 H3; [|apply Rel_error]. apply Rel_res; intro. apply Rel_ret; auto.
  Qed.
  Lemma step_rel ts : Good ts -> Rel (parse_datashape_step sym rec ts) (parse_datashape_step sym' rec' ts).
  Proof.
    intro H. unfold parse_datashape_step, sugar. replace (st_dtype_constr sym' $"option") with (st_dtype_constr sym $"option") by sg.
    destruct (kind_is KQ ts); [|apply nooption_rel; auto].
    apply Rel_adv; auto. intros r1 H1. apply Rel_bind; [apply nooption_rel; auto|].
    intros [t|] r2 H2; [|apply Rel_ret; auto]. apply Rel_res; intro. apply Rel_res; intro. apply Rel_res; intro. apply Rel_ret; auto.
  Qed.
End Local.

Lemma parse_datashape_local sym sym' n : AgreeSugar sym sym' ->
  forall ts, Good sym sym' ts -> Rel sym sym' (parse_datashape sym n ts) (parse_datashape sym' n ts).
Proof.
  intro S. induction n as [|n IH]; intros ts H; cbn [parse_datashape]; [apply Rel_raise|]. apply step_rel; auto.
Qed.
Lemma parse_local s sym sym' : AgreeSugar sym sym' -> (forall m, Mentions s m -> Agree sym sym' m) -> parse s sym = parse s sym'.
Proof.
  intros HS H. unfold parse. destruct (lex s) as [ts err] eqn:EL.
  assert (G : forall k, Good sym sym' (stream ts err k)).
  { assert (HT : forall t, In t ts -> okTok sym sym' (PTok t)).
    { intros t Ht HK n <-. pose proof (Spans_VTok _ _ _ _ (lex_Spans _ _ _ EL)) as HV.
      rewrite Forall_forall in HV. specialize (HV t Ht). unfold kind_val in HV. rewrite HK in HV.
      destruct HV as [u EV]. rewrite EV. apply H. exists t. rewrite EL. auto. }
    clear -HT. induction ts as [|t ts IH]; intro k; cbn [stream].
    - constructor; [destruct err; exact I|constructor].
    - constructor; [apply HT; left; auto|]. apply IH. intros; apply HT; right; auto. }
  specialize (G 0). unfold parse_toks.
  destruct (stream ts err 0) as [|p q] eqn:ES; [reflexivity|].
  destruct (parse_datashape_local sym sym' (S (length (p :: q))) HS _ G) as [E _]. rewrite E. reflexivity.
Qed.
