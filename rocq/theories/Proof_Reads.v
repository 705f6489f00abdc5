(** What [dshape] builds from a text (for C13): the part of [Lexable] (Spec_Print.v) that
    holds of every parsed datashape. *)
From Verif Require Import Base Types Lexer Printer Construct Parser Ops Preds Numpy Graph Discovery
  Spec_Lexer Spec_WF Spec_Preds Spec_Print Spec_Grammar Spec_Found
  Proof_Lexer Proof_WF Proof_Preds Proof_Parser Proof_Grammar Proof_Grammar2 Proof_Grammar3 Proof_Discovery6 Proof_Discovery7 Proof_Ops.

Definition Reads (t : ty) : Prop :=
  match t with
  | CType _ _ _ => In t KnownCTypes
  | BytesT | TypeSetT _ _ => False
  | EllipsisT (Some s) => UpperName s
  | DataShapeT n ps => n = None /\
      exists dims m, ps = dims ++ [m] /\ (forall d, In d dims -> IsDim d) /\ ~ IsDataShape m /\ ~ DimensionClass m
  | CategoricalT c u _ => SameKind c /\ IsMeasure u
  | MapT k v => forall u, u = k \/ u = v -> IsMeasure u \/ IsDataShape u \/ exists z, u = FixedT z
  | _ => True
  end.
Definition PP (t : ty) : Prop := forall u, Occurs u t -> Reads u.
Definition PM (t : ty) : Prop := IsMeasure t /\ PP t.
Definition PDS (t : ty) : Prop := exists dims m, t = DataShapeT None (dims ++ [m]) /\
  (forall d, In d dims -> IsDim d /\ PP d) /\ PM m.

Lemma PP_intro t : Reads t -> (forall c, In c (children t) -> PP c) -> PP t.
Proof. intros H1 H2 u Hu. inversion Hu as [|c t' Hc Ho]; subst; auto. exact (H2 c Hc u Ho). Qed.
Lemma PP_here t : PP t -> Reads t.
Proof. intro H. apply H. constructor. Qed.
Lemma PP_child t c : PP t -> In c (children t) -> PP c.
Proof. intros H Hc u Hu. apply H. eapply Occurs_in; eauto. Qed.
Lemma PDS_PP t : PDS t -> PP t.
Proof.
  intros [dims [m [-> [H1 [[H2 [H3 H4]] H5]]]]]. apply PP_intro.
  - split; auto. exists dims, m. split; auto. split; [intros d Hd; apply H1; auto|]. split; auto.
  - cbn [children]. intros c Hc. apply in_app_iff in Hc as [Hc|[<-|[]]]; auto. apply H1; auto.
Qed.

Definition LitArg (k : nat) (a : targ) : Prop :=
  match k, a with 0, AInt _ => True | 1, AStr _ => True | 2, ABool _ => True | _, _ => False end.
Definition GA (a : targ) : Prop :=
  match a with
  | ADs t => PDS t
  | AList l => (forall x, In x l -> exists t, x = ADs t /\ PDS t) \/ exists k, forall x, In x l -> LitArg k x
  | _ => True
  end.
(** elements of an iterated argument *)
Definition GE (a : targ) : Prop :=
  match a with ADs t => PP t | AList _ => False | _ => True end.
Lemma targ_iter_GE a l : GA a -> targ_iter a = Ok l -> forall x, In x l -> GE x.
Proof.
  intros Ha H x Hx. destruct a as [z|b|s|t|l0]; try discriminate.
  - injection H as <-. apply in_map_iff in Hx as [c [<- _]]. exact I.
  - destruct Ha as [dims [m [-> [H1 H2]]]]. cbn in H. injection H as <-. apply in_map_iff in Hx as [c [<- Hc]].
    apply in_app_iff in Hc as [Hc|[<-|[]]]; [apply H1; auto|apply H2].
  - injection H as <-. destruct Ha as [Ha|[k Ha]].
    + destruct (Ha x Hx) as [t [-> Ht]]. apply PDS_PP; auto.
    + specialize (Ha x Hx). destruct k as [|[|[|k]]], x; try contradiction; exact I.
Qed.
Lemma launder_ty_PP t : PP t -> PP (launder_ty t).
Proof.
  intro H. destruct t; auto. destruct parameters as [|x [|]]; auto. cbn. eapply PP_child; eauto. simpl; auto.
Qed.
Lemma PDS_DS t : PDS t -> IsDataShape t.
Proof. intros [dims [m [-> _]]]. red; eauto. Qed.
Lemma IsDim_launder d : IsDim d -> launder_ty d = d.
Proof. intros [[n ->]|[->|[[s ->]|[o ->]]]]; reflexivity. Qed.
Lemma IsMeasure_launder d : ~ IsDataShape d -> launder_ty d = d.
Proof. intro H. destruct d; auto. exfalso. apply H. red; eauto. Qed.
Lemma Dim_leaf d : IsDim d -> Reads d -> PP d.
Proof. intros [[n ->]|[->|[[s ->]|[o ->]]]] H; apply PP_intro; auto; intros c []. Qed.

Lemma mapM_In {A B} (f : A -> res B) l r y : mapM f l = Ok r -> In y r -> exists x, In x l /\ f x = Ok y.
Proof.
  revert r. induction l as [|x l IH]; intros r H Hy.
  - injection H as <-. destruct Hy.
  - rewrite mapM_cons in H. destruct (f x) as [b|] eqn:Ef; cbn [bind] in H; [|discriminate].
    destruct (mapM f l) as [bs|] eqn:Em; cbn [bind] in H; [|discriminate]. injection H as <-.
    destruct Hy as [<-|Hy]; [exists x; split; auto; left; auto|].
    destruct (IH _ eq_refl Hy) as [x' [H1 H2]]. exists x'. split; auto. right; auto.
Qed.

Section Env.
  Variable E : env.
  Hypothesis HE : forall l t, e_disc E l = Ok t -> PM (measure t).
  Variable dsh : str -> res ty.
  Hypothesis Hdsh : forall s t, dsh s = Ok t -> PDS t.

  Lemma targ_launder_PP a t : GE a \/ GA a -> targ_launder dsh a = Ok t -> PP t.
  Proof.
    intros Ha H. destruct a as [z|b|s|t0|l0]; try discriminate; cbn [targ_launder launder] in H.
    - unfold mk_fixed in H. destruct (_ <? _)%Z; [discriminate|]. injection H as <-. apply PP_intro; [exact I|intros c []].
    - destruct b; injection H as <-; (apply PP_intro; [exact I|intros c []]).
    - destruct (dsh s) as [t'|] eqn:Ed; cbn [bind] in H; [|discriminate]. injection H as <-. apply launder_ty_PP, PDS_PP. eauto.
    - injection H as <-. apply launder_ty_PP. destruct Ha as [Ha|Ha]; [exact Ha|apply PDS_PP; exact Ha].
  Qed.

  Lemma launder_part t : PDS t -> IsMeasure (launder_ty t) \/ IsDataShape (launder_ty t).
  Proof.
    intros [dims [m [-> [_ [H _]]]]]. destruct dims as [|d [|]]; cbn; [left; auto|right; red; eauto..].
  Qed.
  Lemma targ_launder_part a t : GA a -> targ_launder dsh a = Ok t -> IsMeasure t \/ IsDataShape t \/ exists z, t = FixedT z.
  Proof.
    intros Ha H. destruct a as [z|b|s|t0|l0]; try discriminate; cbn [targ_launder launder] in H.
    - unfold mk_fixed in H. destruct (_ <? _)%Z; [discriminate|]. injection H as <-. eauto.
    - destruct b; injection H as <-; eauto.
    - destruct (dsh s) as [t'|] eqn:Ed; cbn [bind] in H; [|discriminate]. injection H as <-. destruct (launder_part t'); eauto.
    - injection H as <-. destruct (launder_part t0); auto.
  Qed.

  (* measures without parts *)
  Lemma leaf_PM t : match t with
    | NullT | DateT | TimeT _ | DateTimeT _ | TimeDeltaT _ | StringT _ _ | DecimalT _ _ | TypeVarT _ | JSONT => True
    | CType _ _ _ => In t KnownCTypes | _ => False end -> PM t.
  Proof.
    intro H. split.
    - split; [intros [n [l ->]]; contradiction|]. split; [intro X; destruct X; contradiction|]. intros o ->. contradiction.
    - apply PP_intro; [destruct t; try contradiction; auto|]. destruct t; try contradiction; intros c [].
  Qed.
  Lemma node_PM t : match t with
    | UnitsT _ _ | OptionT _ | RecordT _ | FunctionT _ | TupleT _ => True | _ => False end ->
    (forall c, In c (children t) -> PP c) -> PM t.
  Proof.
    intros H Hc. split.
    - split; [intros [n [l ->]]; contradiction|]. split; [intro X; destruct X; contradiction|]. intros o ->. contradiction.
    - apply PP_intro; auto. destruct t; try contradiction; exact I.
  Qed.

  Lemma c_complex_PM a t : c_complex a = Ok t -> PM t.
  Proof.
    unfold c_complex. destruct a; try discriminate. destruct (py_eq _ _); [intro H; injection H as <-; apply leaf_PM; unfold KnownCTypes; simpl; tauto|].
    destruct (py_eq _ _); [intro H; injection H as <-; apply leaf_PM; unfold KnownCTypes; simpl; tauto|discriminate].
  Qed.
  Lemma mk_string_form f e t : mk_string f e = Ok t -> exists c, t = StringT f c.
  Proof. unfold mk_string. destruct (assoc _ _); [intro H; injection H as <-; eauto|discriminate]. Qed.
  Lemma c_string_PM l t : c_string l = Ok t -> PM t.
  Proof.
    assert (X : forall f e, mk_string f e = Ok t -> PM t).
    { intros f e H. apply mk_string_form in H as [c ->]. apply leaf_PM. exact I. }
    unfold c_string. destruct l as [|a [|b [|c l]]].
    - apply X.
    - destruct a; try discriminate; apply X.
    - intro H. set (r := match b with AInt _ => _ | _ => _ end) in H.
      destruct r as [u|]; cbn [bind] in H; [|destruct a; discriminate].
      destruct a; try discriminate. destruct u; try discriminate. injection H as <-. apply leaf_PM. exact I.
    - destruct a; discriminate.
  Qed.
  Lemma c_struct_PM a b t : GA b -> c_struct E dsh a b = Ok t -> PM t.
  Proof.
    intros Hb. unfold c_struct. destruct (targ_iter a) as [ns|]; cbn [bind]; [|discriminate].
    destruct (targ_iter b) as [ds|] eqn:Eb; cbn [bind]; [|discriminate].
    destruct (mapM (fun p => targ_str E (fst p)) _) as [strs|]; cbn [bind]; [|discriminate].
    destruct (mapM (fun p => targ_launder dsh (snd p)) _) as [tys|] eqn:Et; cbn [bind]; [|discriminate].
    assert (HT : forall u, In u tys -> PP u).
    { intros u Hu. destruct (mapM_In _ _ _ _ Et Hu) as [[n x] [Hx Hl]]. apply in_combine_r in Hx.
      eapply targ_launder_PP; [left|exact Hl]. eapply targ_iter_GE; eauto. }
    destruct (nodup_str strs); [|discriminate]. intro H. injection H as <-. apply node_PM; [exact I|]. cbn [children].
    intros c Hc. apply in_map_iff in Hc as [[n u] [<- Hc]]. apply in_combine_r in Hc. cbn [snd]. auto.
  Qed.
  Lemma tuple_item_PP x t : GE x -> tuple_item dsh (targ_parg x) = Ok t -> PP t.
  Proof.
    intros Hx H.
    assert (X : forall u, PP u -> ~ IsDataShape u -> mk_datashape dsh None [PTy u] = Ok t -> PP t).
    { intros u Hu Hn Hm. unfold mk_datashape in Hm. cbn [mapM bind launder] in Hm.
      rewrite IsMeasure_launder in Hm by auto. unfold check_datashape in Hm. cbn [last removelast forallb] in Hm.
      destruct (may_be_measure u) eqn:Em; cbn [negb] in Hm; [|discriminate]. injection Hm as <-.
      apply PP_intro; [|intros c [<-|[]]; auto]. split; auto. exists [], u. split; auto. split; [intros ? []|].
      split; auto. apply may_be_measure_spec; auto. }
    destruct x as [z|b|s|u|l]; cbn [targ_parg tuple_item GE] in *; try contradiction.
    - unfold mk_datashape in H. cbn [mapM bind launder] in H. unfold mk_fixed in H. destruct (_ <? _)%Z; cbn in H; discriminate.
    - unfold mk_datashape in H. cbn [mapM bind launder] in H. unfold mk_fixed in H. destruct (_ <? _)%Z; cbn in H; discriminate.
    - discriminate.
    - destruct (is_DataShape u) eqn:Eu; [injection H as <-; auto|].
      apply (X u); auto. intro Y. apply IsDataShape_b in Y. congruence.
  Qed.
  Lemma c_tuple_PM a t : GA a -> c_tuple dsh a = Ok t -> PM t.
  Proof.
    intro Ha. unfold c_tuple. destruct (targ_iter a) as [l|] eqn:El; cbn [bind]; [|discriminate].
    unfold mk_tuple. destruct (mapM _ _) as [ds|] eqn:Em; cbn [bind]; [|discriminate]. intro H. injection H as <-.
    apply node_PM; [exact I|]. cbn [children]. intros c Hc. destruct (mapM_In _ _ _ _ Em Hc) as [p [Hp Hl]].
    apply in_map_iff in Hp as [x [<- Hx]]. eapply tuple_item_PP; [|exact Hl]. eapply targ_iter_GE; eauto.
  Qed.
  Lemma c_funcproto_PM a b t : GA a -> GA b -> c_funcproto a b = Ok t -> PM t.
  Proof.
    intros Ha Hb. unfold c_funcproto. destruct (targ_iter a) as [l|] eqn:El; cbn [bind]; [|discriminate].
    destruct (mapM _ _) as [ps|] eqn:Em; cbn [bind]; [|discriminate].
    destruct b as [| | |r|]; try discriminate. cbn [targ_ds bind]. intro H. injection H as <-. apply node_PM; [exact I|].
    cbn [children]. intros c Hc. apply in_app_iff in Hc as [Hc|[<-|[]]]; [|apply PDS_PP; exact Hb].
    destruct (mapM_In _ _ _ _ Em Hc) as [x [Hx Hl]]. pose proof (targ_iter_GE _ _ Ha El x Hx) as HG.
    destruct x; try discriminate. injection Hl as <-. exact HG.
  Qed.
  Lemma c_typevar_PM a t : c_typevar E a = Ok t -> PM t.
  Proof.
    unfold c_typevar. destruct a as [| |s|d|l]; try discriminate; [|destruct d; try discriminate; destruct parameters; discriminate|destruct l as [|[] l]; discriminate].
    unfold mk_typevar. destruct s; [discriminate|].
    destruct (isupper _ _); [|discriminate]. intro H. injection H as <-. apply leaf_PM. exact I.
  Qed.
  Lemma c_option_PM a t : GA a -> c_option dsh a = Ok t -> PM t.
  Proof.
    intro Ha. unfold c_option. destruct (targ_launder dsh a) as [u|] eqn:Eu; cbn [bind]; [|discriminate].
    intro H. injection H as <-. apply node_PM; [exact I|]. intros c [<-|[]]. eapply targ_launder_PP; eauto.
  Qed.
  Lemma c_map_PM a b t : GA a -> GA b -> c_map dsh a b = Ok t -> PM t.
  Proof.
    intros Ha Hb. unfold c_map. destruct (targ_launder dsh a) as [u|] eqn:Eu; cbn [bind]; [|discriminate].
    destruct (targ_launder dsh b) as [v|] eqn:Ev; cbn [bind]; [|discriminate].
    intro H. injection H as <-. split.
    - split; [intros [n [l X]]; discriminate|]. split; [intro X; inversion X|discriminate].
    - apply PP_intro.
      + intros w [-> | ->]; [exact (targ_launder_part _ _ Ha Eu)|exact (targ_launder_part _ _ Hb Ev)].
      + intros c [<-|[<-|[]]];
          [exact (targ_launder_PP _ _ (or_intror Ha) Eu)|exact (targ_launder_PP _ _ (or_intror Hb) Ev)].
  Qed.
  Lemma c_time_PM mk a t : (mk = TimeT \/ mk = DateTimeT) -> c_time mk a = Ok t -> PM t.
  Proof.
    intros Hmk. unfold c_time. destruct a as [[| |s| |]|]; try discriminate; intro H; injection H as <-;
      destruct Hmk; subst; apply leaf_PM; exact I.
  Qed.
  Lemma c_timedelta_PM a t : c_timedelta E a = Ok t -> PM t.
  Proof.
    assert (X : forall s, mk_timedelta s = Ok t -> PM t).
    { intros s. unfold mk_timedelta. destruct (normalize_time_unit s); cbn [bind]; [|discriminate].
      intro H. injection H as <-. apply leaf_PM. exact I. }
    unfold c_timedelta. destruct a as [a|]; [|apply X].
    destruct a; cbn [targ_str bind]; try discriminate; apply X.
  Qed.
  Lemma float64_PP : PP (DataShapeT None [float64_t]).
  Proof.
    apply PP_intro.
    - split; auto. exists [], float64_t. split; auto. split; [intros ? []|]. split; [intros [n [l X]]; discriminate|intro X; inversion X].
    - intros c [<-|[]]. apply PP_intro; [unfold KnownCTypes; simpl; tauto|intros c []].
  Qed.
  Lemma c_units_PM a b t : match b with Some x => GA x | None => True end -> c_units a b = Ok t -> PM t.
  Proof.
    intro Hb. unfold c_units. destruct a as [| |s| |]; try discriminate. destruct b as [b|].
    - destruct b as [| | |u|]; try discriminate. unfold mk_units. destruct (is_DataShape u); [|discriminate].
      intro H. injection H as <-. apply node_PM; [exact I|]. intros c [<-|[]]. apply PDS_PP; auto.
    - intro H. injection H as <-. apply node_PM; [exact I|]. intros c [<-|[]]. apply float64_PP.
  Qed.
  Lemma c_decimal_PM a b t : c_decimal a b = Ok t -> PM t.
  Proof.
    unfold c_decimal. destruct a; try discriminate. destruct b as [b|].
    - destruct b; try discriminate. intro H. injection H as <-. apply leaf_PM. exact I.
    - intro H. injection H as <-. apply leaf_PM. exact I.
  Qed.
  Lemma lits_kind a l lits : GA a -> targ_iter a = Ok l -> mapM targ_lit l = Ok lits -> SameKind lits.
  Proof.
    intros Ha Hi Hl.
    assert (HX : forall y, In y lits -> exists x, In x l /\ targ_lit x = Ok y) by (intros y; apply mapM_In; auto).
    assert (K : forall k, (forall x, In x l -> LitArg k x) -> SameKind lits).
    { intros k Hk. destruct k as [|[|[|k]]]; [left|right; left|right; right|left];
        intros y Hy; destruct (HX y Hy) as [x [Hx Hy']]; specialize (Hk x Hx); destruct x; try contradiction;
        injection Hy' as <-; eauto. }
    destruct a as [z|b|s|t|l0]; try discriminate.
    - apply (K 1). injection Hi as <-. intros x Hx. apply in_map_iff in Hx as [c [<- _]]. exact I.
    - destruct Ha as [dims [m [-> _]]]. injection Hi as <-. rewrite map_app in Hl. exfalso.
      destruct dims; cbn in Hl; discriminate.
    - injection Hi as <-. destruct Ha as [Ha|[k Ha]]; [|apply (K k); auto].
      left. intros y Hy. destruct (HX y Hy) as [x [Hx Hy']]. destruct (Ha x Hx) as [u [-> _]]. discriminate.
  Qed.
  Lemma PDS_measure t : PDS t -> PM (measure t).
  Proof. intros [dims [m [-> [_ H]]]]. unfold measure. destruct (dims ++ [m]) eqn:X; [destruct dims; discriminate|]. rewrite <- X, last_last. auto. Qed.
  Lemma c_categorical_PM a b c t : GA a -> match b with Some x => GA x | None => True end ->
    c_categorical E a b c = Ok t -> PM t.
  Proof.
    intros Ha Hb. unfold c_categorical. destruct (targ_iter a) as [l|] eqn:El; cbn [bind]; [|discriminate].
    destruct (mapM targ_lit l) as [lits|] eqn:Em; cbn [bind]; [|discriminate].
    pose proof (lits_kind _ _ _ Ha El Em) as HK.
    assert (X : forall u o, PM u -> PM (CategoricalT lits u o)).
    { intros u o [H1 H2]. split; [split; [intros [n [k X]]; discriminate|split; [intro X; inversion X|discriminate]]|].
      apply PP_intro; [split; auto|]. intros d [<-|[]]; auto. }
    assert (Y : forall u, (let! t0 := e_disc E lits in Ok (measure t0)) = Ok u -> PM u).
    { intros u. destruct (e_disc E lits) as [t0|] eqn:Ed; cbn [bind]; [|discriminate]. intro H; injection H as <-. eauto. }
    match goal with |- (let! _ := ?r in _) = _ -> _ => destruct r as [u|] eqn:Eu; cbn [bind]; [|discriminate] end.
    assert (HU : PM u).
    { destruct b as [b|]; [|apply Y; exact Eu]. destruct b as [z|b|s|t0|l0];
        try (destruct (falsy _) in Eu; [apply Y; exact Eu|discriminate]). injection Eu as <-. apply PDS_measure; auto. }
    destruct c as [[]|]; try discriminate; intro H; injection H as <-; auto.
  Qed.

  Lemma bind_kw_GA params kw l : (forall n a, In (n, a) kw -> GA a) -> bind_kw params kw = Ok l ->
    forall a, In (Some a) l -> GA a.
  Proof.
    intro Hk. revert l. induction params as [|[n req] r IH]; intros l H a Ha.
    - injection H as <-. destruct Ha.
    - cbn [bind_kw] in H. destruct (assoc n kw) as [v|] eqn:Ea.
      + destruct (bind_kw r kw) as [t|] eqn:Eb; cbn [bind] in H; [|discriminate]. injection H as <-.
        destruct Ha as [Ha|Ha]; [|eapply IH; eauto]. injection Ha as <-. apply assoc_In in Ea. eauto.
      + destruct req; [discriminate|]. destruct (bind_kw r kw) as [t|] eqn:Eb; cbn [bind] in H; [|discriminate]. injection H as <-.
        destruct Ha as [Ha|Ha]; [discriminate|eapply IH; eauto].
  Qed.
  Lemma bind_pos_GA kw args : (forall n a, In (n, a) kw -> GA a) -> (forall a, In a args -> GA a) ->
    forall params l, bind_pos params args kw = Ok l -> forall a, In (Some a) l -> GA a.
  Proof.
    intro Hk. induction args as [|x args IH]; intros Ha params l H a Hin.
    - cbn [bind_pos] in H. destruct params; eapply bind_kw_GA; eauto.
    - destruct params as [|[n b] r]; [discriminate|]. cbn [bind_pos] in H. destruct (assoc n kw); [discriminate|].
      destruct (bind_pos r args kw) as [t|] eqn:Eb; cbn [bind] in H; [|discriminate]. injection H as <-.
      destruct Hin as [Hin|Hin]; [injection Hin as <-; apply Ha; left; auto|]. eapply IH; eauto. intros; apply Ha; right; auto.
  Qed.
  Lemma call_bind_GA params args kw l : (forall n a, In (n, a) kw -> GA a) -> (forall a, In a args -> GA a) ->
    call_bind params args kw = Ok l -> forall i a, nth i l None = Some a -> GA a.
  Proof.
    intros H1 H2. unfold call_bind. destruct (forallb _ _); [|discriminate]. intros H i a Hn.
    eapply bind_pos_GA; eauto. rewrite <- Hn. apply nth_In. destruct (Nat.lt_ge_cases i (length l)); auto.
    rewrite nth_overflow in Hn by auto. discriminate.
  Qed.
  Ltac pick := match goal with
    | |- match nth ?i ?l None with _ => _ end = _ -> _ => destruct (nth i l None) eqn:?; [|try discriminate]
    end.
  Lemma constr_fun_PM name f args kw t : constr_fun E dsh name = Some f ->
    (forall a, In a args -> GA a) -> (forall n a, In (n, a) kw -> GA a) -> f args kw = Ok t -> PM t.
  Proof.
    intros Hf Ha Hk. unfold constr_fun in Hf.
    repeat match type of Hf with (if ?b then _ else _) = _ => destruct b; [injection Hf as <-|] end; try discriminate;
      try (destruct (call_bind _ args kw) as [l|] eqn:El; cbn [bind]; [|discriminate];
           pose proof (call_bind_GA _ _ _ _ Hk Ha El) as G).
    - pick. apply c_complex_PM.
    - destruct kw; [apply c_string_PM|discriminate].
    - pick. pick. apply c_struct_PM; eauto.
    - pick. apply c_tuple_PM; eauto.
    - pick. pick. apply c_funcproto_PM; eauto.
    - pick. apply c_typevar_PM.
    - pick. apply c_option_PM; eauto.
    - pick. pick. apply c_map_PM; eauto.
    - apply c_time_PM; auto.
    - apply c_time_PM; auto.
    - apply c_timedelta_PM.
    - pick. apply c_units_PM. destruct (nth 1 l None) eqn:X; eauto.
    - pick. apply c_decimal_PM.
    - pick. apply c_categorical_PM; eauto. destruct (nth 1 l None) eqn:X; eauto.
  Qed.
  Lemma dtype_table_PM n t : assoc n dtype_table = Some t -> PM t.
  Proof.
    intro H. apply assoc_In in H. apply leaf_PM.
    repeat (destruct H as [H|H]; [injection H as _ <-; first [exact I|unfold KnownCTypes; simpl; tauto]|]). destruct H.
  Qed.

  (** the grammar *)
  Definition UW (w : word) : Prop := forall s, In (KUpper, VStr s) w -> UpperName s.
  Lemma UW_app u v : UW (u ++ v) -> UW u /\ UW v.
  Proof. intro H. split; intros s Hs; apply H, in_app_iff; auto. Qed.
  Lemma UW_cons x v : UW (x :: v) -> UW v.
  Proof. intros H s Hs. apply H. right; auto. Qed.
  Notation sym := (default_sym E dsh).
  Lemma mk_typevar_form U s t : mk_typevar U s = Ok t -> t = TypeVarT s.
  Proof. unfold mk_typevar. destruct s; [discriminate|]. destruct (isupper _ _); [|discriminate]. congruence. Qed.
  Lemma DimName_dim u d : DimName sym u d -> UW u -> IsDim d /\ PP d.
  Proof.
    intros H HU. assert (X : IsDim d /\ Reads d).
    { destruct H as [n d H|d H|s c d Hc H].
      - change (assoc n dim_table = Some d) in H. apply assoc_In in H. destruct H as [H|[H|[]]]; injection H as _ <-.
        + split; [right; left; auto|exact I].
        + split; [right; right; right; eauto|exact I].
      - change (Some (EllipsisT None) = Some d) in H. injection H as <-.
        split; [right; right; right; eauto|exact I].
      - injection Hc as <-. cbn in H. unfold mk_ellipsis in H. destruct (mk_typevar _ _); [|discriminate]. injection H as <-.
        split; [right; right; right; eauto|]. apply HU. left; auto. }
    split; [apply X|apply Dim_leaf; apply X].
  Qed.
  Lemma Dim_dim u d : Dim sym u d -> UW u -> IsDim d /\ PP d.
  Proof.
    intros H HU. destruct H as [u d H|s c d Hc H|z c d Hc H]; [eapply DimName_dim; eauto|..].
    - injection Hc as <-. cbn in H. apply mk_typevar_form in H as ->.
      assert (X : IsDim (TypeVarT s)) by (right; right; left; eauto). split; auto. apply Dim_leaf; auto. exact I.
    - injection Hc as <-. cbn in H. unfold mk_fixed in H. destruct (_ <? _)%Z; [discriminate|]. injection H as <-.
      assert (X : IsDim (FixedT z)) by (left; eauto). split; auto. apply Dim_leaf; auto. exact I.
  Qed.
  Lemma mk_ds_PDS ps t : mk_ds ps = Ok t -> map launder_ty ps = ps ->
    (exists dims m, ps = dims ++ [m] /\ (forall d, In d dims -> IsDim d /\ PP d) /\ PM m) -> PDS t.
  Proof.
    intros H HL [dims [m [-> [H1 H2]]]]. unfold mk_ds, mk_datashape in H.
    assert (X : (let! ps := mapM (launder no_dsh) (map PTy (dims ++ [m])) in check_datashape None ps) = Ok t).
    { destruct dims as [|d [|]]; exact H. }
    rewrite mapM_launder_PTy, HL in X. cbn [bind] in X. unfold check_datashape in X.
    destruct (negb _); [discriminate|]. destruct (forallb _ _); [|discriminate]. injection X as <-. exists dims, m. auto.
  Qed.
  Lemma PM_ds t t' : PM t -> mk_ds [t] = Ok t' -> PDS t'.
  Proof.
    intros HM H. apply (mk_ds_PDS _ _ H).
    - cbn. rewrite IsMeasure_launder; auto. apply HM.
    - exists [], t. split; auto. split; [intros ? []|auto].
  Qed.
  Lemma GA_pds l : (forall t, In t l -> PDS t) -> GA (AList (map ADs l)).
  Proof. intro H. left. intros x Hx. apply in_map_iff in Hx as [t [<- Ht]]. eauto. Qed.
  Lemma Literal_lit k t a : Literal t a -> fst t = k -> LitArg (match k with KInt => 0 | KStr => 1 | KBool => 2 | _ => 3 end) a.
  Proof. intros H <-. destruct H; exact I. Qed.
  Lemma LiteralList_lit k w l : LiteralList k w l -> forall x, In x l -> LitArg (match k with KInt => 0 | KStr => 1 | KBool => 2 | _ => 3 end) x.
  Proof.
    induction 1 as [t a H1 H2|t a w l H1 H2 _ IH]; intros x [<-|Hx]; auto; try (destruct Hx; fail); eapply Literal_lit; eauto.
  Qed.
  Lemma Literal_GA t a : Literal t a -> GA a.
  Proof. destruct 1; exact I. Qed.
  Lemma dict_set_In k v d n a : In (n, a) (dict_set k v d) -> (n, a) = (k, v) \/ In (n, a) d.
  Proof.
    induction d as [|[k' v'] d IH]; cbn [dict_set].
    - intros [H|[]]; auto.
    - destruct (str_eqb k k'); intros [H|H]; auto; [right; right; auto|right; left; auto|]. destruct (IH H); auto. right; right; auto.
  Qed.
  Lemma dict_of_In l n a : In (n, a) (dict_of l) -> In (n, a) l.
  Proof.
    unfold dict_of. assert (X : forall l d, In (n, a) (fold_left (fun d p => dict_set (fst p) (snd p) d) l d) -> In (n, a) l \/ In (n, a) d).
    { clear l. induction l as [|[k v] l IH]; intros d H; cbn [fold_left] in H; auto. destruct (IH _ H) as [Y|Y]; [left; right; auto|].
      apply dict_set_In in Y as [Y|Y]; [left; left; auto|auto]. }
    intro H. destruct (X _ _ H) as [Y|[]]; auto.
  Qed.
  Definition AllGA (args : list targ) (kw : list (str * targ)) : Prop :=
    (forall a, In a args -> GA a) /\ forall n a, In (n, a) kw -> GA a.
  Ltac uw := repeat match goal with
    | H : UW (_ :: _) |- _ => apply UW_cons in H
    | H : UW (_ ++ _) |- _ => apply UW_app in H; destruct H
    end; auto.
  Lemma grammar_PDS w t : DS sym true w t -> UW w -> PDS t.
  Proof.
    revert w t.
    apply (DS_mind sym true
      (fun w t => UW w -> PDS t) (fun w t => UW w -> PDS t) (fun w t => UW w -> PM t)
      (fun w fs => UW w -> forall n t, In (n, t) fs -> PDS t) (fun w fs => UW w -> forall n t, In (n, t) fs -> PDS t)
      (fun w l => UW w -> forall t, In t l -> PDS t) (fun w l => UW w -> forall t, In t l -> PDS t)
      (fun w a k => UW w -> AllGA a k) (fun w k => UW w -> forall n a, In (n, a) k -> GA a)
      (fun w a => UW w -> GA a) (fun w l => UW w -> GA (AList l))).
    - auto.
    - intros w t c o d _ IH Hc Ho Hd HU. eapply PM_ds; [|exact Hd]. eapply constr_fun_PM; [exact Hc| | |exact Ho].
      + intros a [<-|[]]. apply IH. uw.
      + intros n a [].
    - intros u d w t t' Hd _ IH Hm HU. apply UW_app in HU as [HU1 HU2]. apply UW_cons in HU2.
      destruct (IH HU2) as [dims [m [-> [H1 H2]]]]. cbn [ds_params] in Hm. destruct (Dim_dim _ _ Hd HU1) as [D1 D2].
      apply (mk_ds_PDS _ _ Hm).
      + cbn [map]. rewrite IsDim_launder by auto. f_equal. rewrite map_app. cbn [map]. rewrite IsMeasure_launder by apply H2.
        f_equal. rewrite <- map_id. apply map_ext_in. intros x Hx. apply IsDim_launder. apply H1; auto.
      + exists (d :: dims), m. split; auto. split; auto. intros x [<-|Hx]; auto.
    - intros w t t' _ IH _ Hm HU. eapply PM_ds; eauto.
    - intros u d w t t' _ Hd _ IH Hm HU. eapply PM_ds; [|exact Hm]. apply IH. uw.
    - intros s c t Hc Ht HU. eapply constr_fun_PM; [exact Hc| | |exact Ht].
      + intros a [<-|[]]. exact I.
      + intros n a [].
    - intros n t H _. eapply dtype_table_PM; exact H.
    - intros n c w args kw t Hc _ IH _ Ht HU. destruct IH as [I1 I2]; [uw|]. eapply constr_fun_PM; [exact Hc|exact I1| |exact Ht].
      intros m a Hm. apply dict_of_In in Hm. eauto.
    - intros w fs c t _ IH Hc Ht HU. eapply constr_fun_PM; [exact Hc| | |exact Ht].
      + intros a [<-|[<-|[]]].
        * right. exists 1. intros x Hx. apply in_map_iff in Hx as [f [<- _]]. exact I.
        * rewrite <- map_map. apply GA_pds. intros u Hu. apply in_map_iff in Hu as [[n v] [<- Hu]]. eapply IH; [uw|exact Hu].
      + intros n a [].
    - intros w l c t _ IH Hc Ht HU. eapply constr_fun_PM; [exact Hc| | |exact Ht].
      + intros a [<-|[]]. apply GA_pds. auto.
      + intros n a [].
    - intros w l v r c t _ IH _ IH2 Hc Ht HU. apply UW_app in HU as [HU1 HU2]. apply UW_cons in HU2. eapply constr_fun_PM; [exact Hc| | |exact Ht].
      + intros a [<-|[<-|[]]]; [apply GA_pds; auto|exact (IH2 HU2)].
      + intros n a [].
    - auto.
    - intros w fs _ IH HU. apply IH. uw.
    - intros _ _ n t [].
    - intros f n w t _ _ IH HU m u [H|[]]. injection H as <- <-. apply IH. uw.
    - intros f n w t w' fs _ _ IH _ IH2 HU m u [H|H].
      + injection H as <- <-. apply IH. uw.
      + eapply IH2; [uw|exact H].
    - intros w l _ IH HU. apply IH. uw.
    - intros w l _ IH HU. apply IH. uw.
    - intros _ t [].
    - intros w l j _ _ IH _ HU. apply IH. uw.
    - intros w t _ IH HU u [<-|[]]. auto.
    - intros w t w' l _ IH _ IH2 HU u [<-|Hu]; [apply IH; uw|apply IH2; uw].
    - intros w a _ IH HU. split; [intros x [<-|[]]; auto|intros n x []].
    - intros w a w' l kw _ IH _ IH2 HU. destruct IH2 as [I1 I2]; [uw|]. split; [|auto]. intros x [<-|Hx]; [apply IH; uw|auto].
    - intros j n v w kw _ _ IH _ _ HU. split; [intros x []|]. apply IH. apply UW_app in HU. apply HU.
    - intros j _ _ _. split; [intros x []|intros n x []].
    - intros n w a _ IH HU m x [H|[]]. injection H as <- <-. apply IH. uw.
    - intros n w a w' kw _ IH _ IH2 HU m x [H|H].
      + injection H as <- <-. apply IH. uw.
      + eapply IH2; [uw|exact H].
    - intros w t _ IH HU. exact (IH HU).
    - intros j t a _ H _. eapply Literal_GA; eauto.
    - intros j w l _ _ _ IH HU. apply IH. uw.
    - intros _. right. exists 0. intros x [].
    - intros w l _ IH HU. apply GA_pds. auto.
    - intros k w l H _. right. eexists. eapply LiteralList_lit; eauto.
  Qed.
End Env.

Lemma Layout_UW l s : Layout l s -> UW l.
Proof.
  induction 1 as [g Hg|g k w v rest l Hg Ht Hd Hf HL IH]; intros u Hu; [destruct Hu|].
  destruct Hu as [Hu|Hu]; [|apply IH; auto]. injection Hu as -> ->. inversion Ht; subst. split; auto.
Qed.

Lemma dshape_str_PDS E : (forall l t, e_disc E l = Ok t -> PM (measure t)) ->
  forall m s t, dshape_str E m s = Ok t -> PDS t.
Proof.
  intros HE. induction m as [|m IH]; intros s t H; [discriminate|]. cbn [dshape_str] in H.
  destruct (parse s _) as [u|] eqn:Ep; cbn [bind] in H; [|discriminate].
  destruct (validate u); cbn [bind] in H; [|discriminate]. injection H as <-.
  apply parse_sound in Ep as [l [HL HD]]. eapply grammar_PDS; eauto. eapply Layout_UW; eauto.
Qed.

Lemma lit_no_key n l : ~ KeyOf n (DSeq KTuple (map lit_val l)).
Proof.
  intro H. inversion H as [| |k l' x Hx Hk| |]; subst. apply in_map_iff in Hx as [p [<- _]].
  destruct p; inversion Hk.
Qed.
Notation D0 := (D (fun _ => False) (fun _ => True)).
Lemma D0_Reads (U : uni) u : D0 u -> Reads u.
Proof.
  intro H. pose proof (D_Lexable _ U u (fun n (X : False) => match X with end) H) as L.
  destruct H as [H|[ps [-> [dims [m [-> [H1 H2]]]]]]].
  - destruct H as [c Hc Hl| | | | |u Hu Hl|f e He Hl|m Hm Ho|fs N NP Hf|ds Hd]; try exact I.
    destruct (known_CType c Hc) as [n [i [a E]]]. subst c. exact Hc.
  - destruct L as [_ [dims' [m' [E [L1 [L2 [L3 _]]]]]]]. split; auto. exists dims', m'. auto.
Qed.
Lemma full_env_PM U sc so : dates_ok so -> forall l t, e_disc (full_env U sc so) l = Ok t -> PM (measure t).
Proof.
  intros Hso l t H. cbn [full_env e_disc] in H.
  pose proof (All_ok (fun _ => False) sc so Hso (DSeq KTuple (map lit_val l)) (fun n => lit_no_key n l)) as HD.
  rewrite H in HD. cbn [okR] in HD.
  assert (HR : PP t).
  { intros u Hu. destruct (D_occurs _ _ _ Hu (or_introl HD)) as [X|X]; [eapply (D0_Reads U); eauto|destruct X; exact I]. }
  destruct HD as [HD|[ps [-> [dims [m [-> [H1 H2]]]]]]].
  - assert (E : measure t = t). { destruct t; auto. exfalso. eapply DM_not_ds; eauto. }
    rewrite E. split; auto. eapply DM_IsMeasure; eauto.
  - unfold measure. destruct (dims ++ [m]) eqn:X; [destruct dims; discriminate|]. rewrite <- X in *. rewrite last_last.
    split; [eapply DM_IsMeasure; eauto|]. eapply PP_child; eauto. cbn [children]. apply in_app_iff. right; left; auto.
Qed.
Theorem dshape_PDS U sc so s t : dates_ok so -> dshape (full_env U sc so) s = Ok t -> PDS t.
Proof. intros Hso. apply dshape_str_PDS. apply full_env_PM; auto. Qed.

(** together with [Writable]: everything is lexable *)
Lemma type_part t : IsType t -> IsMeasure t \/ IsDataShape t.
Proof.
  intros [H1 H2]. destruct (is_DataShape t) eqn:E; [right; apply IsDataShape_b; auto|left].
  split; [intro X; apply IsDataShape_b in X; congruence|auto].
Qed.
Lemma reads_lexable U t : Reads t -> WritablePart U t -> Lexable U t.
Proof.
  intros HR HW. destruct t; cbn [Reads WritablePart Lexable] in *; auto.
  - destruct HR as [-> [dims [m [-> [H1 [H2 H3]]]]]]. split; auto. exists dims, m. split; auto. split; auto.
    rewrite last_last in HW. split; [|split]; auto.
  - destruct HW as [H1 H2]. split; auto. apply type_part; auto.
  - intros u Hu. destruct (HW u Hu) as [H1 H2]. destruct (type_part _ H1) as [H|H]; [|auto]. destruct H2 as [H2|H2]; auto.
  - intros n u Hu. destruct (HW n u Hu) as [H1 H2]. split; auto. apply type_part; auto.
  - destruct HR as [H1 H2]. destruct HW as [H3 H4]. auto.
Qed.
