(** Where the exceptions of the parser come from (C71): a unary invariant of the parser. *)
From Verif Require Import Base Types Lexer Printer Construct Parser Spec_Lexer Spec_Grammar Spec_Places
  Proof_ParserRel Proof_Grammar.

Section Raises.
  Variable sym : symtab.
  Notation DSx := (DS sym true).
  (** constructs that the table or DataShape refuses *)
  Inductive RaisesG : word -> exn -> Prop :=
  | G_constr n c w args kw e : st_dtype_constr sym n = Some c -> Args sym true w args kw -> args <> [] \/ kw <> [] ->
      c args (dict_of kw) = Raise e -> RaisesG ((KLower, VStr n) :: tok KLBk :: w ++ [tok KRBk]) e
  | G_struct w fs c e : FieldList sym true w fs -> st_dtype_constr sym $"struct" = Some c ->
      c [AList (map (fun f => AStr (fst f)) fs); AList (map (fun f => ADs (snd f)) fs)] [] = Raise e ->
      RaisesG (tok KLBc :: w ++ [tok KRBc]) e
  | G_tuple w l c e : TupleType sym true w l -> st_dtype_constr sym $"tuple" = Some c ->
      c [AList (map ADs l)] [] = Raise e -> RaisesG w e
  | G_func w l v r c e : TupleType sym true w l -> DSx v r -> st_dtype_constr sym $"funcproto" = Some c ->
      c [AList (map ADs l); ADs r] [] = Raise e -> RaisesG (w ++ tok KArrow :: v) e
  | G_typevar s c e : VTok (KUpper, VStr s) -> st_dtype_constr sym $"typevar" = Some c -> c [AStr s] [] = Raise e -> RaisesG [(KUpper, VStr s)] e
  | G_option w t c e : NoOpt sym true w t -> st_dtype_constr sym $"option" = Some c -> c [ADs t] [] = Raise e -> RaisesG (tok KQ :: w) e
  | G_option_ds w t c o e : NoOpt sym true w t -> st_dtype_constr sym $"option" = Some c -> c [ADs t] [] = Ok o ->
      mk_ds [o] = Raise e -> RaisesG (tok KQ :: w) e
  | G_dim_ellipsis s c e : VTok (KUpper, VStr s) -> st_dim_constr sym $"ellipsis" = Some c -> c (AStr s) = Raise e -> RaisesG [(KUpper, VStr s); tok KEll] e
  | G_dim_typevar s c e : VTok (KUpper, VStr s) -> st_dim_constr sym $"typevar" = Some c -> c (AStr s) = Raise e -> RaisesG [(KUpper, VStr s)] e
  | G_size z c e : st_dim_constr sym $"fixed" = Some c -> c (AInt z) = Raise e -> RaisesG [(KInt, VInt z); tok KAst] e
  | G_dims u d w t e : Dim sym u d -> DSx w t -> mk_ds (d :: ds_params t) = Raise e -> RaisesG (u ++ tok KAst :: w) e
  | G_dtype w t e : Dtype sym true w t -> mk_ds [t] = Raise e -> RaisesG w e
  | G_notimpl n c w args kw : st_dim_constr sym n = Some c -> Args sym true w args kw ->
      RaisesG ((KLower, VStr n) :: tok KLBk :: w ++ [tok KRBk]) NotImplErr.

  Variable all : toks.
  Definition Here (ts : toks) : Prop := vtoks ts /\ exists b, Ate b all ts.
  Definition BadE (e : exn) : Prop :=
    (exists p m, e = SyntaxErr p m) \/ e = OutOfFuel \/ In (PErr e) all \/
    exists b w a, Ate (b ++ w) all a /\ RaisesG w e.
  Definition Eo {A} (x : res A) : Prop := forall e, x = Raise e -> BadE e.

  Lemma Here_later w ts r : Here ts -> Ate w ts r -> Here r.
  Proof. intros [V [b Hb]] H. split; [eapply Ate_vtoks; eauto|]. exists (b ++ w). eapply Ate_trans; eauto. Qed.
  Lemma Eo_ok {A} (a : A) : Eo (Ok a). Proof. intros e H. discriminate. Qed.
  Lemma Eo_bind {A B} (x : res A) (f : A -> res B) : Eo x -> (forall a, x = Ok a -> Eo (f a)) -> Eo (bind x f).
  Proof. destruct x as [a|e]; cbn [bind]; intros H K; [apply K; reflexivity|]. intros e' H'. injection H' as ->. apply H. reflexivity. Qed.
  Lemma Eo_err {A} ts m : Eo (A := A) (raise_error ts m).
  Proof. intros e H. injection H as <-. left. eauto. Qed.
  Lemma Eo_sugar {A} (f : str -> option A) n w err : Eo (sugar f n w err).
  Proof. unfold sugar. destruct (f n); [apply Eo_ok|apply Eo_err]. Qed.
  Lemma Eo_advance ts : Here ts -> Eo (advance ts).
  Proof.
    intros [_ [b [u [Hu _]]]] e He. right; right; left. rewrite Hu. destruct ts as [|[t| |] [|[t'| |e'] r]]; try discriminate. cbn in He. injection He as ->.
    apply in_or_app. right. right. left. reflexivity.
  Qed.
  Lemma Eo_con {A} w ts r (x : res A) : Here ts -> Ate w ts r -> (forall e, x = Raise e -> RaisesG w e) -> Eo x.
  Proof. intros [_ [b Hb]] Ha H e He. right; right; right. exists b, w, r. split; [eapply Ate_trans; eauto|auto]. Qed.
  Lemma eath k ts r : kind_is k ts = true -> Here ts -> advance ts = Ok r ->
    exists v, Ate [(k, v)] ts r /\ VTok (k, v) /\ tok_value ts = v /\ Here r.
  Proof.
    intros H G Ha. destruct (eat _ _ _ H (proj1 G) Ha) as [v [H1 [H2 [H3 H4]]]]. exists v. repeat split; auto. eapply Here_later; eauto.
  Qed.
  Lemma eath' k ts r : tok_kind ts = Some k -> Here ts -> advance ts = Ok r ->
    exists v, Ate [(k, v)] ts r /\ VTok (k, v) /\ tok_value ts = v /\ Here r.
  Proof. intros H. apply eath. apply kind_tok. exact H. Qed.
  Lemma next_eat k ts : kind_is k ts = true -> Here ts -> exists v r, Ate [(k, v)] ts r /\ VTok (k, v).
  Proof.
    intros H [V _]. apply kind_is_inv in H as [t [r [-> <-]]]. exists (tk_val t), r. split; [exact (Ate_tok t r)|]. inversion V; subst. auto.
  Qed.

  Section Hom.
    Context {A : Type}.
    Variable item : toks -> P A.
    Hypothesis Hi : forall ts, Here ts -> Eo (item ts).
    Hypothesis Hm : forall ts o r, Here ts -> item ts = Ok (o, r) -> Here r.
    Lemma Eo_loop tr sv : forall n acc ts, Here ts -> Eo (hom_loop item n KComma tr sv acc ts).
    Proof.
      induction n as [|n IH]; intros acc ts Ht; cbn [hom_loop]; [intros e H; injection H as <-; right; left; reflexivity|].
      apply Eo_bind; auto. intros [o ts1] E. pose proof (Hm _ _ _ Ht E) as H1. destruct o as [x|].
      - destruct (kind_is KComma ts1) eqn:Ek; [|apply Eo_ok]. apply Eo_bind; [apply Eo_advance; auto|]. intros ts2 E2.
        destruct (eath _ _ _ Ek H1 E2) as [v [_ [_ [_ H2]]]]. apply IH; auto.
      - destruct acc; [apply Eo_ok|]. destruct tr; [apply Eo_ok|apply Eo_err].
    Qed.
    Lemma Eo_list tr ts : Here ts -> Eo (hom_list item KComma tr ts).
    Proof. apply Eo_loop. Qed.
    Lemma loop_Here tr sv : Here sv -> forall n acc ts o r, Here ts -> hom_loop item n KComma tr sv acc ts = Ok (o, r) -> Here r.
    Proof.
      intro Hsv. induction n as [|n IH]; intros acc ts o r Ht H; cbn [hom_loop] in H; [discriminate|].
      okb H. destruct a as [o1 ts1]. pose proof (Hm _ _ _ Ht E) as H1. destruct o1 as [x|].
      - destruct (kind_is KComma ts1) eqn:Ek; [|injection H as _ <-; auto]. okb H.
        destruct (eath _ _ _ Ek H1 E0) as [v [_ [_ [_ H2]]]]. eapply IH; eauto.
      - destruct acc; [injection H as _ <-; auto|]. destruct tr; [injection H as _ <-; auto|discriminate].
    Qed.
    Lemma list_Here tr ts o r : Here ts -> hom_list item KComma tr ts = Ok (o, r) -> Here r.
    Proof. intro H. apply loop_Here; auto. Qed.
  End Hom.

  Section Level.
    Variable rec : toks -> P ty.
    Hypothesis Hs : Sound sym rec.
    Hypothesis Hr : forall ts, Here ts -> Eo (rec ts).

    Lemma rec_Here ts o r : Here ts -> rec ts = Ok (o, r) -> Here r.
    Proof. intros H E. apply Hs in E; [|apply H]. destruct o; destruct E as [w [Hw _]]; eapply Here_later; eauto. Qed.
    Lemma targ_Eo ts : Here ts -> Eo (rec_targ rec ts).
    Proof. intro H. unfold rec_targ. apply Eo_bind; auto. intros [o ts1] _. apply Eo_ok. Qed.
    Lemma targ_Here ts o r : Here ts -> rec_targ rec ts = Ok (o, r) -> Here r.
    Proof. intros H E. unfold rec_targ in E. okb E. destruct a as [o1 ts1]. injection E as _ <-. eapply rec_Here; eauto. Qed.
    Lemma tokval_Eo k ts : Here ts -> Eo (parse_tokval k val_targ ts).
    Proof. intro H. unfold parse_tokval. destruct (kind_is k ts); [|apply Eo_ok]. apply Eo_bind; [apply Eo_advance; auto|]. intros. apply Eo_ok. Qed.
    Lemma tokval_Here k ts o r : Here ts -> parse_tokval k val_targ ts = Ok (o, r) -> Here r.
    Proof.
      intros H E. unfold parse_tokval in E. destruct (kind_is k ts) eqn:Ek; [|injection E as _ <-; auto]. okb E. injection E as _ <-.
      destruct (eath _ _ _ Ek H E0) as [v [_ [_ [_ G]]]]. exact G.
    Qed.
    Lemma stage_Eo k (v : option (list targ)) r : Here r ->
      let x := match v with Some _ => Ok (v, r) | None => hom_list (parse_tokval k val_targ) KComma (Complain (another k)) r end in
      Eo x /\ forall v' r', x = Ok (v', r') -> Here r'.
    Proof.
      intro H. destruct v; intro x; subst x; (split; [|]).
      - apply Eo_ok.
      - intros v' r' E. injection E as _ <-. auto.
      - apply Eo_list; auto using tokval_Eo. apply tokval_Here.
      - intros v' r'. apply list_Here; auto. apply tokval_Here.
    Qed.
    Lemma type_arg_Eo ts : Here ts -> Eo (parse_type_arg rec ts).
    Proof.
      intro H. unfold parse_type_arg. apply Eo_bind; auto. intros [ds ts1] E. pose proof (rec_Here _ _ _ H E) as H1.
      destruct ds; [apply Eo_ok|]. destruct (kind_is KInt ts1 || kind_is KStr ts1 || kind_is KBool ts1).
      { apply Eo_bind; [apply Eo_advance; auto|]. intros. apply Eo_ok. }
      destruct (kind_is KLBk ts1) eqn:Eb; [|apply Eo_ok].
      apply Eo_bind; [apply Eo_advance; auto|]. intros ts2 E2. destruct (eath _ _ _ Eb H1 E2) as [v [_ [_ [_ H2]]]].
      apply Eo_bind; [apply Eo_list; auto using targ_Eo; apply targ_Here|]. intros [v1 ts3] E3.
      apply list_Here in E3; auto; [|apply targ_Here].
      destruct (stage_Eo KInt v1 ts3 E3) as [I1 I2]. apply Eo_bind; [exact I1|]. intros [v2 ts4] E4. apply I2 in E4. clear I1 I2.
      destruct (stage_Eo KStr v2 ts4 E4) as [I1 I2]. apply Eo_bind; [exact I1|]. intros [v3 ts5] E5. apply I2 in E5. clear I1 I2.
      destruct (stage_Eo KBool v3 ts5 E5) as [I1 I2]. apply Eo_bind; [exact I1|]. intros [v4 ts6] E6. apply I2 in E6. clear I1 I2.
      destruct (kind_is KRBk ts6); [|apply Eo_err]. apply Eo_bind; [apply Eo_advance; auto|]. intros. apply Eo_ok.
    Qed.
    Lemma type_arg_Here ts o r : Here ts -> parse_type_arg rec ts = Ok (o, r) -> Here r.
    Proof. intros H E. apply (type_arg_sound sym rec Hs) in E; [|apply H]. destruct o; destruct E as [w [Hw _]]; eapply Here_later; eauto. Qed.
    Lemma kwarg_Eo ts : Here ts -> Eo (parse_type_kwarg rec ts).
    Proof.
      intro H. unfold parse_type_kwarg. destruct (kind_is KLower ts) eqn:Ek; [|apply Eo_ok].
      apply Eo_bind; [apply Eo_advance; auto|]. intros ts1 E. destruct (eath _ _ _ Ek H E) as [v [_ [_ [_ H1]]]].
      destruct (kind_is KEq ts1) eqn:Ee; [|apply Eo_ok].
      apply Eo_bind; [apply Eo_advance; auto|]. intros ts2 E2. destruct (eath _ _ _ Ee H1 E2) as [v' [_ [_ [_ H2]]]].
      apply Eo_bind; [apply type_arg_Eo; auto|]. intros [o ts3] _. destruct o; [apply Eo_ok|apply Eo_err].
    Qed.
    Lemma kwarg_Here ts o r : Here ts -> parse_type_kwarg rec ts = Ok (o, r) -> Here r.
    Proof. intros H E. apply (type_kwarg_sound sym rec Hs) in E; [|apply H]. destruct o; destruct E as [w [Hw _]]; eapply Here_later; eauto. Qed.
    Lemma arg_loop_Eo : forall n acc ts, Here ts -> Eo (arg_loop rec n acc ts).
    Proof.
      induction n as [|n IH]; intros acc ts H; cbn [arg_loop]; [intros e X; injection X as <-; right; left; reflexivity|].
      apply Eo_bind; [apply type_arg_Eo; auto|]. intros [o ts1] E. pose proof (type_arg_Here _ _ _ H E) as H1. destruct o as [x|].
      - destruct (kind_is KComma ts1) eqn:Ek; [|apply Eo_ok]. apply Eo_bind; [apply Eo_advance; auto|]. intros ts2 E2.
        destruct (eath _ _ _ Ek H1 E2) as [v [_ [_ [_ H2]]]]. apply IH; auto.
      - apply Eo_bind; [apply Eo_list; auto using kwarg_Eo; apply kwarg_Here|]. intros [kw ts2] _. apply Eo_ok.
    Qed.
    Lemma field_Eo ts : Here ts -> Eo (parse_struct_field rec ts).
    Proof.
      intro H. unfold parse_struct_field. destruct (kind_is KLower ts || kind_is KUpper ts || kind_is KOther ts || kind_is KStr ts) eqn:Ek;
        [|apply Eo_ok].
      assert (exists k, kind_is k ts = true) as [k Ek'].
      { rewrite !orb_true_iff in Ek. destruct Ek as [[[Ek|Ek]|Ek]|Ek]; eexists; exact Ek. }
      apply Eo_bind; [apply Eo_advance; auto|]. intros ts1 E. destruct (eath _ _ _ Ek' H E) as [v [_ [_ [_ H1]]]].
      destruct (kind_is KColon ts1) eqn:Ec; [|apply Eo_err].
      apply Eo_bind; [apply Eo_advance; auto|]. intros ts2 E2. destruct (eath _ _ _ Ec H1 E2) as [v' [_ [_ [_ H2]]]].
      apply Eo_bind; auto. intros [o ts3] _. destruct o; [apply Eo_ok|apply Eo_err].
    Qed.
    Lemma field_Here ts o r : Here ts -> parse_struct_field rec ts = Ok (o, r) -> Here r.
    Proof. intros H E. apply (struct_field_sound sym rec Hs) in E; [|apply H]. destruct o; destruct E as [w [Hw _]]; eapply Here_later; eauto. Qed.

    (** what was eaten by a struct and by a parenthesised list, as in the proofs of soundness *)
    Lemma struct_Eo ts : Here ts -> tok_kind ts = Some KLBc -> Eo (parse_struct_type sym rec ts).
    Proof.
      intros H Ek. unfold parse_struct_type. apply Eo_bind; [apply Eo_advance; auto|]. intros ts1 E.
      destruct (eath' _ _ _ Ek H E) as [v [Ha [Hv [_ H1]]]]. simpl in Hv. subst v.
      apply Eo_bind; [apply Eo_list; auto using field_Eo; apply field_Here|]. intros [fs ts2] E2.
      pose proof (list_Here _ field_Here _ _ _ _ H1 E2) as H2. pose proof E2 as E2'.
      eapply hom_list_sound in E2'; [|exact (struct_field_sound sym rec Hs)|apply H1].
      destruct (kind_is KRBc ts2) eqn:Ec; [|apply Eo_err].
      apply Eo_bind; [apply Eo_advance; auto|]. intros ts3 E3. destruct (eath _ _ _ Ec H2 E3) as [v [Hc [Hv [_ H3]]]]. simpl in Hv. subst v.
      apply Eo_bind; [apply Eo_sugar|]. intros con E4. apply sugar_inv in E4.
      apply Eo_bind; [|intros; apply Eo_ok].
      assert (exists w, Ate w ts1 ts2 /\ FieldList sym true w (opt_list fs)) as [w [Hw HF]].
      { destruct fs as [l|]; cbn [opt_list].
        - destruct E2' as [w [Hw [HS|[_ [w' [j [HS [-> ->]]]]]]]].
          + exists w. split; auto. apply FL_fields, Sep_fields; auto.
          + exists (w' ++ [tok KComma]). split; auto. apply FL_comma, Sep_fields; auto.
        - subst ts2. exists []. split; [apply Ate_refl|]. apply FL_empty. reflexivity. }
      eapply Eo_con with (w := tok KLBc :: w ++ [tok KRBc]) (ts := ts) (r := ts3); auto.
      - exact (Ate_trans _ _ _ _ _ Ha (Ate_trans _ _ _ _ _ Hw Hc)).
      - intros e He. eapply G_struct; eauto.
    Qed.
    Lemma tuple_Eo ts : Here ts -> tok_kind ts = Some KLP -> Eo (parse_funcproto_or_tuple sym rec ts).
    Proof.
      intros H Ek. unfold parse_funcproto_or_tuple. apply Eo_bind; [apply Eo_advance; auto|]. intros ts1 E.
      destruct (eath' _ _ _ Ek H E) as [v [Ha [Hv [_ H1]]]]. simpl in Hv. subst v.
      apply Eo_bind; [apply Eo_list; auto; apply rec_Here|]. intros [fs ts2] E2.
      pose proof (list_Here _ rec_Here _ _ _ _ H1 E2) as H2. pose proof E2 as E2'.
      eapply hom_list_sound in E2'; [|exact Hs|apply H1].
      destruct (kind_is KRP ts2) eqn:Ec; [|apply Eo_err].
      apply Eo_bind; [apply Eo_advance; auto|]. intros ts3 E3. destruct (eath _ _ _ Ec H2 E3) as [v [Hc [Hv [_ H3]]]]. simpl in Hv. subst v.
      assert (exists w, Ate w ts1 ts2 /\ TupleType sym true (tok KLP :: w ++ [tok KRP]) (opt_list fs)) as [w [Hw HF]].
      { destruct fs as [l|]; cbn [opt_list].
        - destruct E2' as [w [Hw [HS|[_ [w' [j [HS [-> HJ]]]]]]]]; apply Sep_items in HS.
          + exists w. split; auto. apply TT_items; auto.
          + exists (w' ++ tok KComma :: j). split; auto. rewrite <- app_assoc. apply TT_dropped; auto. apply HJ.
        - subst ts2. exists []. split; [apply Ate_refl|]. apply TT_empty. }
      assert (Hall : Ate (tok KLP :: w ++ [tok KRP]) ts ts3) by exact (Ate_trans _ _ _ _ _ Ha (Ate_trans _ _ _ _ _ Hw Hc)).
      destruct (kind_is KArrow ts3) eqn:Er.
      - apply Eo_bind; [apply Eo_advance; auto|]. intros ts4 E4. destruct (eath _ _ _ Er H3 E4) as [v [Hd [Hv [_ H4]]]]. simpl in Hv. subst v.
        apply Eo_bind; auto. intros [ret ts5] E5. destruct ret as [r|]; [|apply Eo_err].
        apply Hs in E5; [|apply H4]. destruct E5 as [wr [Hwr HD]].
        apply Eo_bind; [apply Eo_sugar|]. intros con E6. apply sugar_inv in E6. apply Eo_bind; [|intros; apply Eo_ok].
        eapply Eo_con with (w := (tok KLP :: w ++ [tok KRP]) ++ tok KArrow :: wr) (ts := ts) (r := ts5); auto.
        + exact (Ate_trans _ _ _ _ _ Hall (Ate_trans _ _ _ _ _ Hd Hwr)).
        + intros e He. eapply G_func; eauto.
      - apply Eo_bind; [apply Eo_sugar|]. intros con E6. apply sugar_inv in E6. apply Eo_bind; [|intros; apply Eo_ok].
        eapply Eo_con with (ts := ts) (r := ts3); eauto. intros e He. eapply G_tuple; eauto.
    Qed.
    Lemma dict_of_nil' l : dict_of l <> [] -> l <> [].
    Proof. intros H ->. apply H. reflexivity. Qed.
    Lemma dtype_Eo ts : Here ts -> Eo (parse_dtype sym rec ts).
    Proof.
      intro H. unfold parse_dtype. destruct (tok_kind ts) as [k|] eqn:Ek; [|apply Eo_ok].
      destruct k; try apply Eo_ok.
      - apply Eo_bind; [apply Eo_advance; auto|]. intros ts1 E. destruct (eath' _ _ _ Ek H E) as [v [Ha [[s ->] [Ht H1]]]]. rewrite Ht. cbn [vstr].
        destruct (kind_is KLBk ts1) eqn:Eb.
        + destruct (st_dtype_constr sym s) as [con|] eqn:Ec; [|apply Eo_ok].
          apply Eo_bind; [apply Eo_advance; auto|]. intros ts2 E2. destruct (eath _ _ _ Eb H1 E2) as [v [Hb [Hv [_ H2]]]]. simpl in Hv. subst v.
          apply Eo_bind; [apply arg_loop_Eo; auto|]. intros [[args kw] ts3] E3.
          destruct (arg_loop_sound sym rec Hs _ _ _ _ _ _ (proj1 H2) E3) as [l [kw0 [w [Hl [-> [Hw HA]]]]]]. cbn [app] in Hl. subst l.
          pose proof (Here_later _ _ _ H2 Hw) as H3.
          destruct (kind_is KRBk ts3) eqn:Ed; [|apply Eo_err].
          assert (Hgo : args <> [] \/ kw0 <> [] -> Eo (let! ts4 := advance ts3 in let! t := con args (dict_of kw0) in Ok (Some t, ts4))).
          { intro Hne. apply Eo_bind; [apply Eo_advance; auto|]. intros ts4 E4.
            destruct (eath _ _ _ Ed H3 E4) as [v [Hd [Hv [_ H4]]]]. simpl in Hv. subst v.
            apply Eo_bind; [|intros; apply Eo_ok].
            eapply Eo_con with (w := (KLower, VStr s) :: tok KLBk :: w ++ [tok KRBk]) (ts := ts) (r := ts4); auto.
            - exact (Ate_trans _ _ _ _ _ Ha (Ate_trans _ _ _ _ _ Hb (Ate_trans _ _ _ _ _ Hw Hd))).
            - intros e He. eapply G_constr; eauto. }
          destruct args as [|x args]; [|apply Hgo; left; discriminate]. destruct (dict_of kw0) as [|y d] eqn:Edict; [apply Eo_err|].
          apply Hgo. right. apply dict_of_nil'. congruence.
        + destruct (st_dtype sym s); apply Eo_ok.
      - apply Eo_bind; [apply Eo_advance; auto|]. intros ts1 E. destruct (eath' _ _ _ Ek H E) as [v [Ha [[s ->] [Ht H1]]]].
        apply Eo_bind; [apply Eo_sugar|]. intros con E6. apply sugar_inv in E6. apply Eo_bind; [|intros; apply Eo_ok].
        rewrite Ht. cbn [val_targ]. eapply Eo_con with (ts := ts) (r := ts1); eauto. intros e He. eapply G_typevar; eauto. exists s. reflexivity.
      - apply struct_Eo; auto.
      - apply tuple_Eo; auto.
    Qed.
    Lemma dim_Eo ts : Here ts -> Eo (parse_dim sym rec ts).
    Proof.
      intro H. unfold parse_dim. destruct (tok_kind ts) as [k|] eqn:Ek; [|apply Eo_ok].
      destruct k; try apply Eo_ok.
      - apply Eo_bind; [apply Eo_advance; auto|]. intros ts1 E. destruct (eath' _ _ _ Ek H E) as [v [Ha [[s ->] [Ht H1]]]]. rewrite Ht. cbn [vstr].
        destruct (kind_is KLBk ts1) eqn:Eb.
        + destruct (st_dim_constr sym s) as [con|] eqn:Ec; [|apply Eo_ok].
          apply Eo_bind; [apply Eo_advance; auto|]. intros ts2 E2. destruct (eath _ _ _ Eb H1 E2) as [v [Hb [Hv [_ H2]]]]. simpl in Hv. subst v.
          apply Eo_bind; [apply arg_loop_Eo; auto|]. intros [[args kw] ts3] E3.
          destruct (arg_loop_sound sym rec Hs _ _ _ _ _ _ (proj1 H2) E3) as [l [kw0 [w [Hl [-> [Hw HA]]]]]]. cbn [app] in Hl. subst l.
          pose proof (Here_later _ _ _ H2 Hw) as H3.
          destruct (kind_is KRBk ts3) eqn:Ed; [|apply Eo_err].
          apply Eo_bind; [apply Eo_advance; auto|]. intros ts4 E4. destruct (eath _ _ _ Ed H3 E4) as [v [Hd [Hv [_ H4]]]]. simpl in Hv. subst v.
          eapply Eo_con with (w := (KLower, VStr s) :: tok KLBk :: w ++ [tok KRBk]) (ts := ts) (r := ts4); auto.
          * exact (Ate_trans _ _ _ _ _ Ha (Ate_trans _ _ _ _ _ Hb (Ate_trans _ _ _ _ _ Hw Hd))).
          * intros e He. injection He as <-. eapply G_notimpl; eauto.
        + destruct (st_dim sym s); apply Eo_ok.
      - apply Eo_bind; [apply Eo_advance; auto|]. intros ts1 E. destruct (eath' _ _ _ Ek H E) as [v [Ha [[s ->] [Ht H1]]]].
        rewrite Ht. cbn [val_targ]. destruct (kind_is KEll ts1) eqn:Ee.
        + apply Eo_bind; [apply Eo_advance; auto|]. intros ts2 E2. destruct (eath _ _ _ Ee H1 E2) as [v [Hb [Hv [_ H2]]]]. simpl in Hv. subst v.
          apply Eo_bind; [apply Eo_sugar|]. intros con E6. apply sugar_inv in E6. apply Eo_bind; [|intros; apply Eo_ok].
          eapply Eo_con with (ts := ts) (r := ts2); auto; [exact (Ate_trans _ _ _ _ _ Ha Hb)|]. intros e He. eapply G_dim_ellipsis; eauto. exists s. reflexivity.
        + destruct (kind_is KAst ts1); [|apply Eo_ok].
          apply Eo_bind; [apply Eo_sugar|]. intros con E6. apply sugar_inv in E6. apply Eo_bind; [|intros; apply Eo_ok].
          eapply Eo_con with (ts := ts) (r := ts1); eauto. intros e He. eapply G_dim_typevar; eauto. exists s. reflexivity.
      - apply Eo_bind; [apply Eo_advance; auto|]. intros ts1 E. apply Eo_bind; [apply Eo_sugar|]. intros. apply Eo_ok.
      - apply Eo_bind; [apply Eo_advance; auto|]. intros ts1 E. destruct (eath' _ _ _ Ek H E) as [v [Ha [[z ->] [Ht H1]]]].
        rewrite Ht. cbn [val_targ]. destruct (kind_is KAst ts1) eqn:Es; [|apply Eo_ok].
        destruct (next_eat _ _ Es H1) as [v [r [Hb Hv]]]. simpl in Hv. subst v.
        apply Eo_bind; [apply Eo_sugar|]. intros con E6. apply sugar_inv in E6. apply Eo_bind; [|intros; apply Eo_ok].
        eapply Eo_con with (ts := ts) (r := r); auto; [exact (Ate_trans _ _ _ _ _ Ha Hb)|]. intros e He. eapply G_size; eauto.
    Qed.
    Lemma nooption_Eo ts : Here ts -> Eo (parse_nooption sym rec ts).
    Proof.
      intro H. unfold parse_nooption. apply Eo_bind; [apply dim_Eo; auto|]. intros [dim ts1] E.
      apply (dim_sound sym rec) in E; [|apply H].
      assert (HT : Here ts1 -> Eo (let! (dt, ts2) := parse_dtype sym rec ts1 in
        match dt with Some t => let! ds := mk_ds [t] in Ok (Some ds, ts2) | None => Ok (None, ts2) end)).
      { intro H1. apply Eo_bind; [apply dtype_Eo; auto|]. intros [dt ts2] E2. destruct dt as [t|]; [|apply Eo_ok].
        apply (dtype_sound sym rec Hs) in E2; [|apply H1]. destruct E2 as [w [Hw HD]].
        apply Eo_bind; [|intros; apply Eo_ok]. eapply Eo_con with (ts := ts1) (r := ts2); eauto. intros e He. eapply G_dtype; eauto. }
      destruct dim as [d|].
      - destruct E as [u [Ha [Hd _]]]. pose proof (Here_later _ _ _ H Ha) as H1. destruct (kind_is KAst ts1) eqn:Es; [|apply HT; auto].
        apply Eo_bind; [apply Eo_advance; auto|]. intros ts2 E2. destruct (eath _ _ _ Es H1 E2) as [v [Hb [Hv [_ H2]]]]. simpl in Hv. subst v.
        apply Eo_bind; auto. intros [o ts3] E3. destruct o as [t|]; [|apply Eo_err].
        apply Hs in E3; [|apply H2]. destruct E3 as [w [Hw HD]]. apply Eo_bind; [|intros; apply Eo_ok].
        eapply Eo_con with (w := u ++ tok KAst :: w) (ts := ts) (r := ts3); auto.
        + exact (Ate_trans _ _ _ _ _ Ha (Ate_trans _ _ _ _ _ Hb Hw)).
        + intros e He. eapply G_dims; eauto.
      - destruct E as [-> _]. apply HT; auto.
    Qed.
    Lemma step_Eo ts : Here ts -> Eo (parse_datashape_step sym rec ts).
    Proof.
      intro H. unfold parse_datashape_step. destruct (kind_is KQ ts) eqn:Eq; [|apply nooption_Eo; auto].
      apply Eo_bind; [apply Eo_advance; auto|]. intros ts1 E. destruct (eath _ _ _ Eq H E) as [v [Ha [Hv [_ H1]]]]. simpl in Hv. subst v.
      apply Eo_bind; [apply nooption_Eo; auto|]. intros [o ts2] E2. destruct o as [t|]; [|apply Eo_ok].
      apply (nooption_sound sym rec Hs) in E2; [|apply H1]. destruct E2 as [w [Hw HN]].
      assert (Hall : Ate (tok KQ :: w) ts ts2) by exact (Ate_trans _ _ _ _ _ Ha Hw).
      apply Eo_bind; [apply Eo_sugar|]. intros con E6. apply sugar_inv in E6.
      apply Eo_bind; [eapply Eo_con with (ts := ts) (r := ts2); eauto; intros e He; eapply G_option; eauto|]. intros o Eo1.
      apply Eo_bind; [eapply Eo_con with (ts := ts) (r := ts2); eauto; intros e He; eapply G_option_ds; eauto|]. intros. apply Eo_ok.
    Qed.
  End Level.

  Lemma datashape_Eo n : forall ts, Here ts -> Eo (parse_datashape sym n ts).
  Proof.
    induction n as [|n IH]; intros ts H; cbn [parse_datashape]; [intros e X; injection X as <-; right; left; reflexivity|].
    apply step_Eo; auto. apply parse_datashape_sound.
  Qed.
  Lemma parse_toks_Eo : vtoks all -> Eo (parse_toks sym all).
  Proof.
    intro V. assert (H : Here all) by (split; auto; exists []; apply Ate_refl).
    unfold parse_toks. destruct all as [|[t|p|e0] r] eqn:Ea; rewrite <- Ea in *.
    4:{ intros e X. injection X as <-. right; right; left. rewrite Ea. left. reflexivity. }
    all: apply Eo_bind; [apply datashape_Eo; auto|]; intros [ds ts1] _; destruct ds; [|apply Eo_err];
      destruct (at_end ts1); [apply Eo_ok|apply Eo_err].
  Qed.
End Raises.
