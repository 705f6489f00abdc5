(** The messages of syntax errors (C70): a unary invariant of the parser. *)
From Verif Require Import Base Types Lexer Printer Construct Parser Spec_Lexer Spec_Grammar Spec_Places Spec_Syntax
  Proof_ParserRel Proof_Grammar.

(** streams: tokens, then the end or the lexer's exception *)
Inductive Str : toks -> Prop :=
| Str_end p : Str [PEnd p]
| Str_err e : Str [PErr e]
| Str_tok t r : VTok (kind_val t) -> Str r -> Str (PTok t :: r).
Definition Good (ts : toks) : Prop := Str ts /\ forall e r, ts <> PErr e :: r.
Fixpoint words (ts : toks) : word := match ts with PTok t :: r => kind_val t :: words r | _ => [] end.
Lemma Str_vtoks ts : Str ts -> vtoks ts.
Proof. induction 1; constructor; auto; constructor. Qed.
Lemma Good_vtoks ts : Good ts -> vtoks ts.
Proof. intros [H _]. apply Str_vtoks; auto. Qed.
Lemma Str_Ate w ts r : Ate w ts r -> Str ts -> Str r.
Proof.
  intros [u [-> _]]. induction u as [|t u IH]; cbn [map app]; auto. intro H. inversion H; subst. auto.
Qed.
Lemma words_Ate w ts r : Ate w ts r -> words ts = w ++ words r.
Proof. intros [u [-> <-]]. induction u as [|t u IH]; cbn [map app words]; auto. rewrite IH. reflexivity. Qed.

Lemma eatg k ts r : kind_is k ts = true -> Good ts -> advance ts = Ok r ->
  exists v, Ate [(k, v)] ts r /\ VTok (k, v) /\ tok_value ts = v /\ Good r.
Proof.
  intros H G Ha. destruct (eat _ _ _ H (Good_vtoks _ G) Ha) as [v [H1 [H2 [H3 H4]]]]. exists v. repeat split; auto.
  - eapply Str_Ate; eauto. apply G.
  - intros e r' ->. apply kind_is_inv in H as [t [r0 [-> Hk]]]. pose proof (advance_inv _ _ _ Ha). subst r0. discriminate Ha.
Qed.
Lemma eatg' k ts r : tok_kind ts = Some k -> Good ts -> advance ts = Ok r ->
  exists v, Ate [(k, v)] ts r /\ VTok (k, v) /\ tok_value ts = v /\ Good r.
Proof. intros H. apply eatg. apply kind_tok. exact H. Qed.

Lemma kind_next k r : kind_is k r = false -> ~ Next k (words r).
Proof.
  intros H [v [q Hq]]. destruct r as [|[t| |] r]; try discriminate. cbn in Hq. unfold kind_val in Hq. injection Hq as <- _ _.
  unfold kind_is in H. cbn in H. destruct (tk_kind t); discriminate.
Qed.
Lemma kind_next' k r : kind_is k r = true -> Next k (words r).
Proof. intro H. apply kind_is_inv in H as [t [q [-> <-]]]. exists (tk_val t), (words q). reflexivity. Qed.

(** ** when no datashape is found *)
Section Absent.
  Variable sym : symtab.
  Variable rec : toks -> P ty.
  Lemma dtype_none ts r : Good ts -> parse_dtype sym rec ts = Ok (None, r) -> r = ts /\ NoType sym (words ts).
  Proof.
    intros V H. unfold parse_dtype in H. destruct (tok_kind ts) as [k|] eqn:Ek.
    2:{ inversion H; subst. split; auto. destruct r as [|[]]; try discriminate; exact I. }
    destruct ts as [|[t| |] ts0]; try discriminate. cbn in Ek. injection Ek as Ek. cbn [words]. unfold kind_val.
    destruct k; try (injection H as <-; rewrite Ek; split; [reflexivity|exact I]).
    - okb H. destruct (eatg' KLower (PTok t :: ts0) _ (f_equal Some Ek) V E) as [v [Ha [[s ->] [Ht V1]]]].
      apply advance_inv in E. subst a. cbn in Ht. rewrite Ek, Ht. cbn [tok_value] in H. rewrite Ht in H. cbn [vstr] in H.
      destruct (kind_is KLBk ts0) eqn:Eb.
      + destruct (st_dtype_constr sym s) eqn:Ec.
        * okb H. okb H. destruct a0 as [[args kw] ts3]. destruct (kind_is KRBk ts3); [|discriminate].
          destruct args, kw; try discriminate; (okb H; okb H; discriminate).
        * injection H as <-. split; auto. apply kind_next' in Eb as [v [q ->]]. exact Ec.
      + destruct (st_dtype sym s) eqn:Ed; [discriminate|]. injection H as <-. split; auto.
        pose proof (kind_next _ _ Eb) as Nx. destruct (words ts0) as [|[[] v] q] eqn:Ew; try exact Ed. exfalso. apply Nx. exists v, q. reflexivity.
    - okb H. okb H. okb H. discriminate.
    - unfold parse_struct_type in H. okb H. okb H. destruct a0 as [fs ts2]. destruct (kind_is KRBc ts2); [|discriminate].
      okb H. okb H. okb H. discriminate.
    - unfold parse_funcproto_or_tuple in H. okb H. okb H. destruct a0 as [fs ts2]. destruct (kind_is KRP ts2); [|discriminate].
      okb H. destruct (kind_is KArrow a0).
      + okb H. okb H. destruct a2 as [[ret|] ts5]; [|discriminate]. okb H. okb H. discriminate.
      + okb H. okb H. discriminate.
  Qed.
  Lemma dim_none ts r : Good ts -> parse_dim sym rec ts = Ok (None, r) -> r = ts /\ NoDim sym (words ts).
  Proof.
    intros V H. unfold parse_dim in H. destruct (tok_kind ts) as [k|] eqn:Ek.
    2:{ inversion H; subst. split; auto. destruct r as [|[]]; try discriminate; exact I. }
    destruct ts as [|[t| |] ts0]; try discriminate. cbn in Ek. injection Ek as Ek. cbn [words]. unfold kind_val.
    destruct k; try (injection H as <-; rewrite Ek; split; [reflexivity|exact I]).
    - okb H. destruct (eatg' KLower (PTok t :: ts0) _ (f_equal Some Ek) V E) as [v [Ha [[s ->] [Ht V1]]]].
      apply advance_inv in E. subst a. cbn in Ht. rewrite Ek, Ht. cbn [tok_value] in H. rewrite Ht in H. cbn [vstr] in H.
      destruct (kind_is KLBk ts0) eqn:Eb.
      + destruct (st_dim_constr sym s) eqn:Ec.
        * okb H. okb H. destruct a0 as [[args kw] ts3]. destruct (kind_is KRBk ts3); [okb H|]; discriminate.
        * injection H as <-. split; auto. apply kind_next' in Eb as [v [q ->]]. exact Ec.
      + destruct (st_dim sym s) eqn:Ed; [discriminate|]. injection H as <-. split; auto.
        pose proof (kind_next _ _ Eb) as Nx. destruct (words ts0) as [|[[] v] q] eqn:Ew; try exact Ed. exfalso. apply Nx. exists v, q. reflexivity.
    - okb H. destruct (kind_is KEll a); [okb H; okb H; okb H; discriminate|]. destruct (kind_is KAst a); [okb H; okb H; discriminate|].
      injection H as <-. rewrite Ek. split; auto. exact I.
    - okb H. okb H. discriminate.
    - okb H. apply advance_inv in E. subst a. destruct (kind_is KAst ts0) eqn:Es; [okb H; okb H; discriminate|].
      injection H as <-. rewrite Ek. split; auto. pose proof (kind_next _ _ Es) as Nx.
      destruct (words ts0) as [|[[] v] q] eqn:Ew; try exact I. exfalso. apply Nx. exists v, q. reflexivity.
  Qed.
End Absent.

(** results that are datashapes, or a missing datashape *)
Section Missing.
  Variable sym : symtab.
  Definition Miss (rec : toks -> P ty) : Prop := forall ts r, Good ts -> rec ts = Ok (None, r) ->
    exists j, Ate j ts r /\ Missing sym j (words r).
  Definition Keeps {A} (p : toks -> P A) : Prop := forall ts o r, Good ts -> p ts = Ok (o, r) -> Good r.
  Variable rec : toks -> P ty.
  Hypothesis Hs : Sound sym rec.
  Hypothesis Hk : Keeps rec.

  Lemma nooption_miss ts r : Good ts -> Keeps (parse_dim sym rec) -> parse_nooption sym rec ts = Ok (None, r) ->
    exists j, Ate j ts r /\ NoType sym (words r) /\ ((exists d, DimName sym j d) \/ (j = [] /\ NoDim sym (words r))).
  Proof.
    intros V KD H. unfold parse_nooption in H. okb H. destruct a as [dim ts1]. pose proof (KD _ _ _ V E) as V1. destruct dim as [d|].
    - apply dim_sound in E; auto using Good_vtoks. destruct E as [u [Ha [Hd Hor]]].
      destruct (kind_is KAst ts1) eqn:Es.
      + okb H. okb H. destruct a0 as [[t|] ts3]; [|discriminate]. okb H. discriminate.
      + destruct Hor as [Hor|[Hn _]]; [congruence|]. okb H. destruct a as [[t|] ts2]; [okb H; discriminate|].
        injection H as <-. apply dtype_none in E as [-> E]; auto. exists u. split; auto. split; auto. left. eauto.
    - apply dim_none in E as [-> E]; auto. okb H. destruct a as [[t|] ts2]; [okb H; discriminate|].
      injection H as <-. apply dtype_none in E0 as [-> E0]; auto. exists []. split; [apply Ate_refl|]. auto.
  Qed.
  Lemma step_miss : Keeps (parse_dim sym rec) -> Miss (parse_datashape_step sym rec).
  Proof.
    intros KD ts r V H. unfold parse_datashape_step in H. destruct (kind_is KQ ts) eqn:Eq.
    - okb H. destruct (eatg _ _ _ Eq V E) as [v [Ha [Hv [_ V1]]]]. simpl in Hv. subst v.
      okb H. destruct a0 as [[t|] ts2]; [okb H; okb H; okb H; discriminate|]. injection H as <-.
      apply nooption_miss in E0; auto. destruct E0 as [j [Hj [HT HD]]]. exists (tok KQ :: j).
      split; [exact (Ate_trans _ _ _ _ _ Ha Hj)|]. split; [|split; [exact HT|]].
      + destruct HD as [[d Hd]|[-> _]]; [eapply J_question_dim; eauto|constructor].
      + destruct HD as [[d Hd]|[-> Hd]]; [left; exists j, d, [tok KQ]; auto|right; split; auto; discriminate].
    - apply nooption_miss in H; auto. destruct H as [j [Hj [HT HD]]]. exists j. split; auto. split; [|split; [exact HT|]].
      + destruct HD as [[d Hd]|[-> _]]; [eapply J_dim; eauto|constructor].
      + destruct HD as [[d Hd]|[-> Hd]]; [left; exists j, d, []; auto|right; split; auto].
        intros _. destruct Hj as [u [-> Hu]]. apply map_eq_nil in Hu. subst u. apply kind_next. exact Eq.
  Qed.
End Missing.

Lemma Sep_snoc {A} (G : word -> A -> Prop) w l w' x : Sep G w l -> G w' x -> Sep G (w ++ tok KComma :: w') (l ++ [x]).
Proof.
  induction 1 as [w y H|w y w1 l H Hl IH]; intro Hx; cbn [app].
  - constructor; auto. constructor; auto.
  - rewrite <- app_assoc. cbn [app]. constructor; auto.
Qed.

(** ** The invariant *)
Section Pass.
  Variable sym : symtab.
  Variable Inn : nat -> synmsg -> Prop.
  Hypothesis HC : forall n c args kw p m, st_dtype_constr sym n = Some c -> c args kw = Raise (SyntaxErr p m) -> Inn p m.
  Hypothesis HDC : forall n c a p m, st_dim_constr sym n = Some c -> c a = Raise (SyntaxErr p m) -> Inn p m.
  Hypothesis Hds : forall l p m, mk_ds l <> Raise (SyntaxErr p m).
  Hypothesis Hty : Forall (fun n => st_dtype_constr sym n <> None) [$"struct"; $"funcproto"; $"tuple"; $"typevar"; $"option"].
  Hypothesis Hdi : Forall (fun n => st_dim_constr sym n <> None) [$"ellipsis"; $"typevar"; $"fixed"].
  Hypothesis Hel : st_dim sym $"ellipsis" <> None.

  Definition Bad (ts : toks) (p : nat) (m : synmsg) : Prop :=
    Inn p m \/ In (PErr (SyntaxErr p m)) ts \/
    exists b w a, Ate (b ++ w) ts a /\ Good a /\ tok_pos a = p /\ Fault sym w (words a) m.
  Definition Errs {A} (ts : toks) (x : res A) : Prop := forall p m, x = Raise (SyntaxErr p m) -> Bad ts p m.
  Definition Pass {A} (ts : toks) (x : res (A * toks)) : Prop := Errs ts x /\ forall o r, x = Ok (o, r) -> Good r.

  Lemma Bad_later w ts ts' p m : Ate w ts ts' -> Bad ts' p m -> Bad ts p m.
  Proof.
    intros Ha [H|[H|[b [w' [a [H1 H2]]]]]]; [left; auto|right; left|right; right].
    - destruct Ha as [u [-> _]]. apply in_or_app. auto.
    - exists (w ++ b), w', a. split; auto. rewrite <- app_assoc. eapply Ate_trans; eauto.
  Qed.
  Lemma Errs_later {A} w ts ts' (x : res A) : Ate w ts ts' -> Errs ts' x -> Errs ts x.
  Proof. intros Ha H p m E. eapply Bad_later; eauto. Qed.
  Lemma Pass_later {A} w ts ts' (x : res (A * toks)) : Ate w ts ts' -> Pass ts' x -> Pass ts x.
  Proof. intros Ha [H1 H2]. split; auto. eapply Errs_later; eauto. Qed.
  Lemma Errs_Ok {A} ts (a : A) : Errs ts (Ok a). Proof. intros p m H. discriminate. Qed.
  Lemma Pass_Ok {A} ts (o : A) r : Good r -> Pass ts (Ok (o, r)).
  Proof. intro H. split; [apply Errs_Ok|]. intros o' r' E. injection E as _ <-. exact H. Qed.
  Lemma Errs_bind {A B} ts (x : res A) (f : A -> res B) : Errs ts x -> (forall a, x = Ok a -> Errs ts (f a)) -> Errs ts (bind x f).
  Proof. destruct x as [a|e]; cbn [bind]; intros H K; [apply K; reflexivity|]. intros p m E. injection E as ->. apply H. reflexivity. Qed.
  Lemma Pass_bind {A B} ts (x : res A) (f : A -> res (B * toks)) : Errs ts x -> (forall a, x = Ok a -> Pass ts (f a)) -> Pass ts (bind x f).
  Proof.
    intros H K. split; [apply Errs_bind; auto; intros a E; apply K; auto|].
    intros o r E. destruct x as [a|e]; [|discriminate]. apply (K a eq_refl) in E. exact E.
  Qed.
  Lemma advance_errs ts : Errs ts (advance ts).
  Proof.
    intros p m H. right; left. destruct ts as [|[t| |] [|[u| |e] r]]; try discriminate. cbn in H. injection H as ->. right; left; reflexivity.
  Qed.
  Lemma fault {A} b w ts a m : Ate (b ++ w) ts a -> Good a -> Fault sym w (words a) m -> Pass (A := A) ts (raise_error a m).
  Proof.
    intros H1 H2 H3. split; [|discriminate]. intros p m' E. injection E as <- <-. right; right. exists b, w, a. auto.
  Qed.
  Lemma fault0 {A} w ts a m : Ate w ts a -> Good a -> Fault sym w (words a) m -> Pass (A := A) ts (raise_error a m).
  Proof. intros. apply (fault [] w); auto. Qed.
  Lemma sugar_ty ts n w err : In n [$"struct"; $"funcproto"; $"tuple"; $"typevar"; $"option"] -> Errs ts (sugar (st_dtype_constr sym) n w err).
  Proof. intros Hn p m H. unfold sugar in H. rewrite Forall_forall in Hty. specialize (Hty n Hn). destruct (st_dtype_constr sym n); congruence. Qed.
  Lemma sugar_di ts n w err : In n [$"ellipsis"; $"typevar"; $"fixed"] -> Errs ts (sugar (st_dim_constr sym) n w err).
  Proof. intros Hn p m H. unfold sugar in H. rewrite Forall_forall in Hdi. specialize (Hdi n Hn). destruct (st_dim_constr sym n); congruence. Qed.
  Lemma sugar_el ts w err : Errs ts (sugar (st_dim sym) $"ellipsis" w err).
  Proof. intros p m H. unfold sugar in H. destruct (st_dim sym $"ellipsis"); congruence. Qed.
  Lemma con_errs ts n c args kw : st_dtype_constr sym n = Some c -> Errs ts (c args kw).
  Proof. intros H p m E. left. eapply HC; eauto. Qed.
  Lemma dcon_errs ts n c a : st_dim_constr sym n = Some c -> Errs ts (c a).
  Proof. intros H p m E. left. eapply HDC; eauto. Qed.
  Lemma ds_errs ts l : Errs ts (mk_ds l).
  Proof. intros p m E. destruct (Hds _ _ _ E). Qed.

  Section Hom.
    Context {A : Type}.
    Variable G : word -> A -> Prop.
    Variable J : word -> word -> Prop.
    Variable item : toks -> P A.
    Hypothesis Hitem : forall ts, Good ts -> Pass ts (item ts) /\ forall o r, item ts = Ok (o, r) ->
      match o with
      | Some x => exists w, Ate w ts r /\ G w x
      | None => exists j, Ate j ts r /\ J j (words r)
      end.
    Definition Acc (acc : list A) (w : word) : Prop :=
      (acc = [] /\ w = []) \/ (exists w', Sep G w' acc /\ w = w' ++ [tok KComma]).
    Definition hom_result (tr : onmiss) (ts0 sv : toks) (x : P (list A)) : Prop :=
      (forall p m, x = Raise (SyntaxErr p m) -> Bad ts0 p m \/
         exists w l j r, tr = Complain m /\ Sep G w l /\ Ate (w ++ tok KComma :: j) ts0 r /\ J j (words r) /\ Good r /\ p = tok_pos r) /\
      (forall o r, x = Ok (o, r) -> Good r /\
         match o with
         | Some l => exists w, Ate w ts0 r /\
             ((Sep G w l /\ kind_is KComma r = false) \/
              (tr = Trailing /\ exists w' j, Sep G w' l /\ w = w' ++ tok KComma :: j /\ J j (words r)))
         | None => r = sv /\ exists j r', Ate j ts0 r' /\ J j (words r')
         end).
    Lemma hom_loop_pass tr sv ts0 : Good sv -> forall n acc wacc ts, Good ts -> Ate wacc ts0 ts -> Acc acc wacc ->
      hom_result tr ts0 sv (hom_loop item n KComma tr sv acc ts).
    Proof.
      intros Gs. induction n as [|n IH]; intros acc wacc ts Gt Ha HA; [split; discriminate|]. cbn [hom_loop].
      destruct (Hitem ts Gt) as [[H1 H2] H3]. destruct (item ts) as [[o ts1]|e]; cbn [bind].
      2:{ split; [|discriminate]. intros p m E. left. eapply Bad_later; [exact Ha|]. apply H1. congruence. }
      pose proof (H2 _ _ eq_refl) as G1. specialize (H3 _ _ eq_refl). clear H1 H2. destruct o as [x|].
      - destruct H3 as [w [Hw Hx]].
        assert (HS : exists w0, Ate w0 ts0 ts1 /\ Sep G w0 (acc ++ [x])).
        { exists (wacc ++ w). split; [eapply Ate_trans; eauto|]. destruct HA as [[-> ->]|[w' [HS ->]]].
          - constructor; auto.
          - rewrite <- app_assoc. apply Sep_snoc; auto. }
        destruct HS as [w0 [Hw0 HS]]. destruct (kind_is KComma ts1) eqn:Ek.
        + destruct (advance ts1) as [ts2|e] eqn:Ea; cbn [bind].
          * destruct (eatg _ _ _ Ek G1 Ea) as [v [Hc [Hv [_ G2]]]]. simpl in Hv. subst v.
            apply IH with (wacc := w0 ++ [tok KComma]); auto; [eapply Ate_trans; eauto|]. right. eauto.
          * split; [|discriminate]. intros p m E. left. eapply Bad_later; [exact Hw0|]. apply (advance_errs ts1). congruence.
        + split; [discriminate|]. intros o r E. injection E as <- <-. split; auto. exists w0. split; auto.
      - destruct H3 as [j [Hj Hm]]. destruct acc as [|y acc].
        + split; [discriminate|]. intros o r E. injection E as <- <-. split; auto. split; auto.
          destruct HA as [[_ ->]|[w' [HS _]]]; [|inversion HS]. exists j, ts1. split; auto. eapply (Ate_trans []); eauto.
        + destruct HA as [[HA _]|[w' [HS ->]]]; [discriminate|].
          assert (Hfull : Ate (w' ++ tok KComma :: j) ts0 ts1).
          { eapply Ate_eq; [eapply Ate_trans; eauto|]. rewrite <- app_assoc. reflexivity. }
          destruct tr as [|em].
          * split; [discriminate|]. intros o r E. injection E as <- <-. split; auto. exists (w' ++ tok KComma :: j). split; auto. right; split; auto. eauto.
          * split; [|discriminate]. intros p m E. injection E as <- <-. right. exists w', (y :: acc), j, ts1. repeat split; auto; try apply G1.
    Qed.
    Lemma hom_list_pass tr ts : Good ts -> hom_result tr ts ts (hom_list item KComma tr ts).
    Proof. intro Gt. unfold hom_list. apply hom_loop_pass with (wacc := []); auto using Ate_refl. left; auto. Qed.
  End Hom.

  Notation DSx := (DS sym true).
  Section Level.
    Variable rec : toks -> P ty.
    Hypothesis Hs : Sound sym rec.
    Hypothesis Hm : Miss sym rec.
    Hypothesis Hp : forall ts, Good ts -> Pass ts (rec ts).

    Definition Spec {A} (G : word -> A -> Prop) (J : word -> word -> Prop) (p : toks -> P A) : Prop :=
      forall ts, Good ts -> Pass ts (p ts) /\ forall o r, p ts = Ok (o, r) ->
      match o with
      | Some x => exists w, Ate w ts r /\ G w x
      | None => exists j, Ate j ts r /\ J j (words r)
      end.
    Lemma rec_spec : Spec DSx (Missing sym) rec.
    Proof.
      intros ts Gt. split; auto. intros o r H. destruct o as [t|]; [|apply Hm; auto].
      apply Hs in H; auto using Good_vtoks.
    Qed.
    Lemma Ate_vtok w ts r : Ate w ts r -> Good ts -> vtoks r.
    Proof. intros H G. eapply Ate_vtoks; eauto using Good_vtoks. Qed.

    Lemma rec_targ_spec : Spec (fun w a => exists t, a = ADs t /\ DSx w t) (Missing sym) (rec_targ rec).
    Proof.
      intros ts Gt. destruct (rec_spec ts Gt) as [[P1 P2] P3]. unfold rec_targ.
      destruct (rec ts) as [[o ts1]|e] eqn:E; cbn [bind].
      - specialize (P2 _ _ eq_refl). specialize (P3 _ _ eq_refl). split; [apply Pass_Ok; auto|].
        intros o' r H. injection H as <- <-. destruct o as [t|]; cbn [option_map]; auto.
        destruct P3 as [w [H1 H2]]. eauto.
      - split; [|discriminate]. split; [|discriminate]. intros p m H. apply P1. congruence.
    Qed.
    Lemma tokval_spec k : In k [KInt; KStr; KBool] ->
      Spec (fun w a => exists t, w = [t] /\ Literal t a /\ fst t = k) (fun j a => j = [] /\ ~ Next k a) (parse_tokval k val_targ).
    Proof.
      intros Hk ts Gt. split.
      - unfold parse_tokval. destruct (kind_is k ts) eqn:Ek; [|apply Pass_Ok; auto].
        apply Pass_bind; [apply advance_errs|]. intros a E. apply Pass_Ok. destruct (eatg _ _ _ Ek Gt E) as [v [_ [_ [_ G]]]]. exact G.
      - intros o r H. pose proof (lit_sound k ts o r Hk (Good_vtoks _ Gt) H) as L. destruct o; [exact L|].
        unfold parse_tokval in H. destruct (kind_is k ts) eqn:Ek; [okb H; discriminate|]. injection H as <-.
        exists []. split; [apply Ate_refl|]. split; auto. apply kind_next; auto.
    Qed.

    (** one of the three lists of literals, after an opening bracket at [ts2] *)
    Lemma lits_pass k ts2 tsb : In k [KInt; KStr; KBool] -> Good ts2 -> Ate [tok KLBk] tsb ts2 ->
      let x := hom_list (parse_tokval k val_targ) KComma (Complain (another k)) ts2 in
      Errs tsb x /\ forall v r, x = Ok (v, r) -> Good r /\
        match v with
        | Some l => l <> [] /\ kind_is KComma r = false /\ exists w, Ate w ts2 r /\ ListArg sym true w l
        | None => r = ts2 /\ ~ Next k (words ts2)
        end.
    Proof.
      intros Hk G2 Hb x. pose proof (hom_list_pass _ _ _ (tokval_spec k Hk) (Complain (another k)) ts2 G2) as [R1 R2]. fold x in R1, R2.
      split.
      - intros p m E. destruct (R1 p m E) as [R|[w [l [j [r [Ht [HS [Ha [[-> HJ] [Gr ->]]]]]]]]]].
        + eapply Bad_later; eauto.
        + right; right. exists [], (tok KLBk :: w ++ [tok KComma]), r. split; [exact (Ate_trans _ _ _ _ _ Hb Ha)|]. split; auto. split; auto.
          injection Ht as <-. apply Sep_lits in HS. cbn [In] in Hk. destruct Hk as [<-|[<-|[<-|[]]]]; cbn [another]; econstructor; eauto.
      - intros v r E. destruct (R2 v r E) as [Gr H]. split; auto. destruct v as [l|].
        + destruct H as [w [Ha [[HS Hc]|[Ht _]]]]; [|discriminate]. split; [inversion HS; discriminate|]. split; auto. exists w. split; auto.
          apply LA_literals with k. apply Sep_lits; auto.
        + destruct H as [-> [j [r' [Ha [-> HJ]]]]]. split; auto. destruct Ha as [u [Hu Hm0]]. apply map_eq_nil in Hm0. subst u. cbn in Hu. subst r'. exact HJ.
    Qed.
    Definition stage (ts2 : toks) (N : Prop) (v : option (list targ)) (r : toks) : Prop :=
      Good r /\
      match v with
      | Some l => l <> [] /\ kind_is KComma r = false /\ exists w, Ate w ts2 r /\ ListArg sym true w l
      | None => r = ts2 /\ N
      end.
    Lemma stage_pass k ts2 tsb N v r : In k [KInt; KStr; KBool] -> Good ts2 -> Ate [tok KLBk] tsb ts2 -> stage ts2 N v r ->
      let x := match v with Some _ => Ok (v, r) | None => hom_list (parse_tokval k val_targ) KComma (Complain (another k)) r end in
      Errs tsb x /\ forall v' r', x = Ok (v', r') -> stage ts2 (N /\ ~ Next k (words ts2)) v' r'.
    Proof.
      intros Hk G2 Hb [Gr S]. destruct v as [l|]; intro x; subst x.
      - split; [apply Errs_Ok|]. intros v' r' E. injection E as <- <-. split; auto.
      - destruct S as [-> HN]. destruct (lits_pass k ts2 tsb Hk G2 Hb) as [L1 L2]. split; auto. intros v' r' E.
        destruct (L2 _ _ E) as [Gr' L]. split; auto. destruct v'; auto. destruct L as [-> L]. auto.
    Qed.

    Lemma type_arg_pass ts : Good ts -> Pass ts (parse_type_arg rec ts).
    Proof.
      intro Gt. unfold parse_type_arg. destruct (rec_spec ts Gt) as [[P1 P2] P3].
      apply Pass_bind; [exact P1|]. intros [ds ts1] E. specialize (P2 _ _ E). specialize (P3 _ _ E).
      destruct ds as [t|]; [apply Pass_Ok; auto|]. destruct P3 as [j [Hj HM]].
      destruct (kind_is KInt ts1 || kind_is KStr ts1 || kind_is KBool ts1) eqn:Ek.
      { assert (exists k, kind_is k ts1 = true) as [k Ek'] by (rewrite !orb_true_iff in Ek; destruct Ek as [[Ek|Ek]|Ek]; eauto).
        apply Pass_bind; [eapply Errs_later; [exact Hj|apply advance_errs]|]. intros ts2 E2. apply Pass_Ok.
        destruct (eatg _ _ _ Ek' P2 E2) as [v [_ [_ [_ G]]]]. exact G. }
      destruct (kind_is KLBk ts1) eqn:Eb; [|apply Pass_Ok; auto].
      apply (Pass_later j ts ts1); auto.
      apply Pass_bind; [apply advance_errs|]. intros ts2 E2.
      destruct (eatg _ _ _ Eb P2 E2) as [v [Hb [Hv [_ G2]]]]. simpl in Hv. subst v.
      pose proof (hom_list_pass _ _ _ rec_targ_spec (Complain MAnotherDatashape) ts2 G2) as [R1 R2].
      apply Pass_bind.
      { intros p m E3. destruct (R1 p m E3) as [R|[w [l [j' [r [Ht [HS [Ha [HJ [Gr ->]]]]]]]]]].
        - eapply Bad_later; eauto.
        - right; right. exists [], (tok KLBk :: w ++ tok KComma :: j'), r. split; [exact (Ate_trans _ _ _ _ _ Hb Ha)|]. split; auto. split; auto.
          injection Ht as <-. apply Sep_ads in HS as [l' [-> HS]]. econstructor; [apply Sep_items; eauto|exact HJ]. }
      intros [v1 ts3] E3. destruct (R2 _ _ E3) as [G3 R3].
      assert (S1 : stage ts2 (exists j' a', words ts2 = j' ++ a' /\ Missing sym j' a') v1 ts3).
      { split; auto. destruct v1 as [l|].
        - destruct R3 as [w [Ha [[HS Hc]|[Ht _]]]]; [|discriminate]. split; [inversion HS; discriminate|]. split; auto. exists w. split; auto.
          apply Sep_ads in HS as [l' [-> HS]]. apply LA_ds, Sep_items; auto.
        - destruct R3 as [-> [j' [r' [Ha HJ]]]]. split; auto. exists j', (words r'). split; auto. apply words_Ate; auto. }
      clear R1 R2 R3 E3. pose proof (stage_pass KInt ts2 ts1 _ v1 ts3 ltac:(simpl; auto) G2 Hb S1) as [I1 I2].
      apply Pass_bind; [exact I1|]. intros [v2 ts4] E4. apply I2 in E4. clear I1 I2.
      pose proof (stage_pass KStr ts2 ts1 _ v2 ts4 ltac:(simpl; auto) G2 Hb E4) as [I1 I2].
      apply Pass_bind; [exact I1|]. intros [v3 ts5] E5. apply I2 in E5. clear I1 I2.
      pose proof (stage_pass KBool ts2 ts1 _ v3 ts5 ltac:(simpl; auto) G2 Hb E5) as [I1 I2].
      apply Pass_bind; [exact I1|]. intros [v4 ts6] E6. apply I2 in E6. clear I1 I2. destruct E6 as [G6 S6].
      destruct (kind_is KRBk ts6) eqn:Er.
      - apply Pass_bind.
        + destruct v4 as [l|].
          * destruct S6 as [_ [_ [w [Hw _]]]]. eapply Errs_later; [exact (Ate_trans _ _ _ _ _ Hb Hw)|apply advance_errs].
          * destruct S6 as [-> _]. eapply Errs_later; [exact Hb|apply advance_errs].
        + intros ts7 E7. apply Pass_Ok. destruct (eatg _ _ _ Er G6 E7) as [v [_ [_ [_ G]]]]. exact G.
      - destruct v4 as [l|].
        + destruct S6 as [Hl [Hc [w [Hw HL]]]]. apply (fault0 (tok KLBk :: w)); auto; [exact (Ate_trans _ _ _ _ _ Hb Hw)|].
          econstructor; eauto; apply kind_next; auto.
        + destruct S6 as [-> [[[[j' [a' [Hw HM']]] N1] N2] N3]]. apply (fault0 [tok KLBk]); auto.
          pose proof (kind_next _ _ Er) as N4. rewrite Hw in *. constructor; auto.
    Qed.
    Lemma type_arg_spec : Spec (Arg sym true) (NoArgument sym) (parse_type_arg rec).
    Proof.
      intros ts Gt. split; [apply type_arg_pass; auto|]. intros o r H.
      pose proof (type_arg_sound sym rec Hs ts o r (Good_vtoks _ Gt) H) as L. destruct o; [exact L|]. clear L.
      unfold parse_type_arg in H. okb H. destruct a as [[t|] ts1]; [discriminate|]. apply Hm in E; auto. destruct E as [j [Ha HM]].
      destruct (kind_is KInt ts1 || kind_is KStr ts1 || kind_is KBool ts1) eqn:Ek; [okb H; discriminate|].
      destruct (kind_is KLBk ts1) eqn:Eb.
      - okb H. okb H. destruct a0 as [v1 ts3]. okb H. destruct a0 as [v2 ts4]. okb H. destruct a0 as [v3 ts5]. okb H. destruct a0 as [v4 ts6].
        destruct (kind_is KRBk ts6); [okb H|]; discriminate.
      - injection H as <-. exists j. split; auto. rewrite !orb_false_iff in Ek. destruct Ek as [[E1 E2] E3].
        repeat split; try apply HM; apply kind_next; auto.
    Qed.

    Lemma type_kwarg_spec :
      Spec (fun w x => exists wa n a, x = (n, a) /\ w = (KLower, VStr n) :: tok KEq :: wa /\ Arg sym true wa a)
           (fun j a => j = [] /\ ~ NextKeyword a) (parse_type_kwarg rec).
    Proof.
      intros ts Gt. split.
      - unfold parse_type_kwarg. destruct (kind_is KLower ts) eqn:Ek; [|apply Pass_Ok; auto].
        apply Pass_bind; [apply advance_errs|]. intros ts1 E. destruct (eatg _ _ _ Ek Gt E) as [v [Ha [[s ->] [_ G1]]]].
        destruct (kind_is KEq ts1) eqn:Ee; [|apply Pass_Ok; auto].
        apply Pass_bind; [eapply Errs_later; [exact Ha|apply advance_errs]|]. intros ts2 E2.
        destruct (eatg _ _ _ Ee G1 E2) as [v [Hb [Hv [_ G2]]]]. simpl in Hv. subst v. pose proof (Ate_trans _ _ _ _ _ Ha Hb) as Hab.
        destruct (type_arg_spec ts2 G2) as [[P1 P2] P3]. apply Pass_bind; [eapply Errs_later; [exact Hab|exact P1]|].
        intros [o ts3] E3. specialize (P2 _ _ E3). specialize (P3 _ _ E3). destruct o as [x|]; [apply Pass_Ok; auto|].
        destruct P3 as [j [Hj HN]]. apply (fault0 ((KLower, VStr s) :: tok KEq :: j)); auto; [exact (Ate_trans _ _ _ _ _ Hab Hj)|]. constructor; auto.
      - intros o r H. pose proof (type_kwarg_sound sym rec Hs ts o r (Good_vtoks _ Gt) H) as L. destruct o; [exact L|].
        assert (X : r = ts /\ ~ NextKeyword (words ts)).
        { unfold parse_type_kwarg in H. destruct (kind_is KLower ts) eqn:Ek.
          - okb H. destruct (eatg _ _ _ Ek Gt E) as [v [Ha [_ [_ G1]]]]. destruct (kind_is KEq a) eqn:Ee.
            + okb H. okb H. destruct a1 as [[|] ?]; discriminate.
            + injection H as <-. split; auto. rewrite (words_Ate _ _ _ Ha). intros [n [v' [q Hq]]]. injection Hq as _ Hq.
              apply (kind_next _ _ Ee). exists v', q. exact Hq.
          - injection H as <-. split; auto. intros [n [v [q Hq]]]. apply (kind_next _ _ Ek). exists n, ((KEq, v) :: q). exact Hq. }
        destruct X as [-> X]. exists []. split; [apply Ate_refl|]. auto.
    Qed.

    (** the argument list, and how it ends *)
    Lemma arg_loop_pass : forall n acc ts, Good ts ->
      Pass ts (arg_loop rec n acc ts) /\
      forall args kw r, arg_loop rec n acc ts = Ok (args, kw, r) -> exists w, Ate w ts r /\ ArgsEnd sym w (words r) /\
        exists l kw0, args = acc ++ l /\ kw = dict_of kw0 /\ Args sym true w l kw0.
    Proof.
      induction n as [|n IH]; intros acc ts Gt; [split; [split|]; discriminate|]. cbn [arg_loop].
      destruct (type_arg_spec ts Gt) as [[P1 P2] P3].
      destruct (parse_type_arg rec ts) as [[o ts1]|e] eqn:Ea; cbn [bind].
      2:{ split; [|discriminate]. split; [|discriminate]. intros p m E. apply P1. congruence. }
      specialize (P2 _ _ eq_refl). specialize (P3 _ _ eq_refl). destruct o as [x|].
      - destruct P3 as [w [Hw Hx]]. destruct (kind_is KComma ts1) eqn:Ek.
        + destruct (advance ts1) as [ts2|e] eqn:E2; cbn [bind].
          2:{ split; [|discriminate]. split; [|discriminate]. intros p m E. eapply Bad_later; [exact Hw|]. apply (advance_errs ts1). congruence. }
          destruct (eatg _ _ _ Ek P2 E2) as [v [Hc [Hv [_ G2]]]]. simpl in Hv. subst v.
          destruct (IH (acc ++ [x]) ts2 G2) as [I1 I2]. pose proof (Ate_trans _ _ _ _ _ Hw Hc) as Hwc. split; [eapply Pass_later; eauto|].
          intros args kw r E. destruct (I2 _ _ _ E) as [w' [Ha' [HE [l [kw0 [-> [-> HA]]]]]]].
          exists (w ++ tok KComma :: w'). split; [eapply Ate_eq; [eapply Ate_trans; eauto|rewrite <- app_assoc; reflexivity]|]. split.
          * destruct HE as [HE|[w1 [j [-> [Hw1 HE]]]]]; [left; exact HE|]. right. exists (w ++ tok KComma :: w1), j.
            split; [rewrite <- app_assoc; reflexivity|]. split; auto. right. destruct Hw1 as [->|[w'' ->]]; [exists w; auto|].
            exists (w ++ tok KComma :: w''). rewrite <- app_assoc. reflexivity.
          * exists (x :: l), kw0. split; [rewrite <- app_assoc; reflexivity|]. split; auto. constructor; auto.
        + split; [apply Pass_Ok; auto|]. intros args kw r E. injection E as <- <- <-. exists w. split; auto. split; [left; apply kind_next; auto|].
          exists [x], []. split; auto. split; auto. constructor; auto.
      - destruct P3 as [j [Hj HN]]. pose proof (hom_list_pass _ _ _ type_kwarg_spec (Complain MKeyword) ts1 P2) as [R1 R2].
        split.
        + apply (Pass_later j ts ts1); auto. apply Pass_bind.
          * intros p m E. destruct (R1 p m E) as [R|[w [l [j' [r [Ht [HS [Ha [[-> HJ] [Gr ->]]]]]]]]]]; auto.
            right; right. exists [], (w ++ [tok KComma]), r. split; auto. split; auto. split; auto. injection Ht as <-.
            apply Sep_kwargs in HS as [HS _]. econstructor; eauto.
          * intros [kw ts2] E. apply Pass_Ok. apply (R2 _ _ E).
        + intros args kw r E.
          assert (E0 : arg_loop rec 1 acc ts = Ok (args, kw, r)).
          { cbn [arg_loop]. rewrite Ea. exact E. }
          destruct (arg_loop_sound sym rec Hs _ _ _ _ _ _ (Good_vtoks _ Gt) E0) as [l [kw0 [w [Hl [Hk [Ha HA]]]]]].
          exists w. split; auto. split; [|eauto 6]. okb E. destruct a as [kwo ts2]. injection E as _ _ <-.
          destruct (R2 _ _ eq_refl) as [G2 R3]. destruct kwo as [kws|].
          * destruct R3 as [w1 [_ [[_ Hc]|[Ht _]]]]; [|discriminate]. left. apply kind_next; auto.
          * destruct R3 as [-> [j' [r' [Ha' [-> HJ]]]]].
            assert (Er : r' = ts1). { destruct Ha' as [u [Hu Hm0]]. apply map_eq_nil in Hm0. subst u. cbn in Hu. auto. } subst r'.
            assert (w = j) as ->. { apply words_Ate in Ha. apply words_Ate in Hj. rewrite Hj in Ha. eapply app_inv_tail. symmetry. exact Ha. }
            right. exists [], j. repeat split; auto; apply HN.
    Qed.

    Lemma struct_field_spec :
      Spec (fun w x => exists f n t wd, x = (n, t) /\ w = f :: tok KColon :: wd /\ FieldName f n /\ DSx wd t)
           (fun j a => j = [] /\ ~ NextName a) (parse_struct_field rec).
    Proof.
      intros ts Gt. split.
      - unfold parse_struct_field. destruct (kind_is KLower ts || kind_is KUpper ts || kind_is KOther ts || kind_is KStr ts) eqn:Ek;
          [|apply Pass_Ok; auto].
        assert (exists k, In k [KLower; KUpper; KOther; KStr] /\ kind_is k ts = true) as [k [Hk Ek']].
        { rewrite !orb_true_iff in Ek. destruct Ek as [[[Ek|Ek]|Ek]|Ek]; eexists; (split; [|exact Ek]); simpl; auto. }
        apply Pass_bind; [apply advance_errs|]. intros ts1 E. destruct (eatg _ _ _ Ek' Gt E) as [v [Ha [Hv [_ G1]]]].
        assert (exists s, v = VStr s) as [s ->] by (simpl in Hk; destruct Hk as [<-|[<-|[<-|[<-|[]]]]]; exact Hv).
        assert (HF : FieldName (k, VStr s) s) by (constructor; auto).
        destruct (kind_is KColon ts1) eqn:Ec.
        2:{ apply (fault0 [(k, VStr s)]); auto. econstructor; eauto. apply kind_next; auto. }
        apply Pass_bind; [eapply Errs_later; [exact Ha|apply advance_errs]|]. intros ts2 E2.
        destruct (eatg _ _ _ Ec G1 E2) as [v [Hb [Hv' [_ G2]]]]. simpl in Hv'. subst v. pose proof (Ate_trans _ _ _ _ _ Ha Hb) as Hab.
        destruct (rec_spec ts2 G2) as [[P1 P2] P3]. apply Pass_bind; [eapply Errs_later; [exact Hab|exact P1]|].
        intros [o ts3] E3. specialize (P2 _ _ E3). specialize (P3 _ _ E3). destruct o as [x|]; [apply Pass_Ok; auto|].
        destruct P3 as [j [Hj HN]]. apply (fault0 ((k, VStr s) :: tok KColon :: j)); auto; [exact (Ate_trans _ _ _ _ _ Hab Hj)|]. econstructor; eauto.
      - intros o r H. pose proof (struct_field_sound sym rec Hs ts o r (Good_vtoks _ Gt) H) as L. destruct o; [exact L|]. clear L.
        unfold parse_struct_field in H. destruct (kind_is KLower ts || kind_is KUpper ts || kind_is KOther ts || kind_is KStr ts) eqn:Ek.
        + okb H. destruct (kind_is KColon a); [|discriminate]. okb H. okb H. destruct a1 as [[|] ?]; discriminate.
        + injection H as <-. exists []. split; [apply Ate_refl|]. split; auto. rewrite !orb_false_iff in Ek. destruct Ek as [[[E1 E2] E3] E4].
          intros [f [n [q [Hq HF]]]]. destruct HF as [k s Hk].
          assert (kind_is k ts = false) as Ek by (simpl in Hk; destruct Hk as [<-|[<-|[<-|[<-|[]]]]]; auto).
          apply (kind_next _ _ Ek). exists (VStr s), q. exact Hq.
    Qed.

    Lemma struct_pass ts : Good ts -> tok_kind ts = Some KLBc -> Pass ts (parse_struct_type sym rec ts).
    Proof.
      intros Gt Ek. unfold parse_struct_type. apply Pass_bind; [apply advance_errs|]. intros ts1 E.
      destruct (eatg' _ _ _ Ek Gt E) as [v [Ha [Hv [_ G1]]]]. simpl in Hv. subst v.
      pose proof (hom_list_pass _ _ _ struct_field_spec Trailing ts1 G1) as [R1 R2].
      apply Pass_bind.
      { intros p m E2. destruct (R1 p m E2) as [R|[w [l [j' [r [Ht _]]]]]]; [|discriminate]. eapply Bad_later; eauto. }
      intros [fs ts2] E2. destruct (R2 _ _ E2) as [G2 R3].
      assert (A2 : exists w, Ate w ts1 ts2 /\ (kind_is KRBc ts2 = false -> Fault sym (tok KLBc :: w) (words ts2) MField)).
      { destruct fs as [l|].
        - destruct R3 as [w [Hw [[HS Hc]|[_ [w' [j [HS [-> [-> HJ]]]]]]]]].
          + exists w. split; auto. intro Hr. eapply F_field_end; [apply Sep_fields; eauto| |]; apply kind_next; auto.
          + exists (w' ++ [tok KComma]). split; auto. intro Hr. apply F_field_name; auto; [|apply kind_next; auto].
            right. exists w', l. split; auto. apply Sep_fields; auto.
        - destruct R3 as [-> [j [r' [Ha' [-> HJ]]]]].
          assert (Er : r' = ts1). { destruct Ha' as [u [Hu Hm0]]. apply map_eq_nil in Hm0. subst u. cbn in Hu. auto. } subst r'.
          exists []. split; [apply Ate_refl|]. intro Hr. apply F_field_name; auto. apply kind_next; auto. }
      destruct A2 as [w [Hw HF]]. pose proof (Ate_trans _ _ _ _ _ Ha Hw) as Haw.
      destruct (kind_is KRBc ts2) eqn:Ec.
      - apply Pass_bind; [eapply Errs_later; [exact Haw|apply advance_errs]|]. intros ts3 E3.
        destruct (eatg _ _ _ Ec G2 E3) as [v [_ [_ [_ G3]]]].
        apply Pass_bind; [apply sugar_ty; simpl; auto|]. intros con E4. apply sugar_inv in E4.
        apply Pass_bind; [eapply con_errs; eauto|]. intros t _. apply Pass_Ok; auto.
      - apply (fault0 (tok KLBc :: w)); auto.
    Qed.

    Lemma tuple_pass ts : Good ts -> tok_kind ts = Some KLP -> Pass ts (parse_funcproto_or_tuple sym rec ts).
    Proof.
      intros Gt Ek. unfold parse_funcproto_or_tuple. apply Pass_bind; [apply advance_errs|]. intros ts1 E.
      destruct (eatg' _ _ _ Ek Gt E) as [v [Ha [Hv [_ G1]]]]. simpl in Hv. subst v.
      pose proof (hom_list_pass _ _ _ rec_spec Trailing ts1 G1) as [R1 R2].
      apply Pass_bind.
      { intros p m E2. destruct (R1 p m E2) as [R|[w [l [j' [r [Ht _]]]]]]; [|discriminate]. eapply Bad_later; eauto. }
      intros [fs ts2] E2. destruct (R2 _ _ E2) as [G2 R3].
      assert (A2 : exists w, Ate w ts1 ts2 /\ (kind_is KRP ts2 = false -> Fault sym (tok KLP :: w) (words ts2) MTuple) /\
                TupleType sym true (tok KLP :: w ++ [tok KRP]) (opt_list fs)).
      { destruct fs as [l|].
        - destruct R3 as [w [Hw [[HS Hc]|[_ [w' [j [HS [-> HJ]]]]]]]]; apply Sep_items in HS.
          + exists w. split; auto. split; [|apply TT_items; auto]. intro Hr. eapply F_tuple_end; [eauto| |]; apply kind_next; auto.
          + exists (w' ++ tok KComma :: j). split; auto. split; [|cbn [opt_list]; rewrite <- app_assoc; apply TT_dropped; auto; apply HJ].
            intro Hr. eapply F_tuple_comma; eauto. apply kind_next; auto.
        - destruct R3 as [-> [j [r' [Ha' HJ]]]]. exists []. split; [apply Ate_refl|]. split; [|apply TT_empty].
          intro Hr. apply kind_next in Hr. rewrite (words_Ate _ _ _ Ha') in *. apply F_tuple_start; auto. }
      destruct A2 as [w [Hw [HF HT]]]. pose proof (Ate_trans _ _ _ _ _ Ha Hw) as Haw.
      destruct (kind_is KRP ts2) eqn:Ec; [|apply (fault0 (tok KLP :: w)); auto].
      apply Pass_bind; [eapply Errs_later; [exact Haw|apply advance_errs]|]. intros ts3 E3.
      destruct (eatg _ _ _ Ec G2 E3) as [v [Hc [Hv [_ G3]]]]. simpl in Hv. subst v.
      assert (H3 : Ate (tok KLP :: w ++ [tok KRP]) ts ts3) by exact (Ate_trans _ _ _ _ _ Haw Hc).
      destruct (kind_is KArrow ts3) eqn:Ea.
      - apply Pass_bind; [eapply Errs_later; [exact H3|apply advance_errs]|]. intros ts4 E4.
        destruct (eatg _ _ _ Ea G3 E4) as [v [Hd [Hv [_ G4]]]]. simpl in Hv. subst v. pose proof (Ate_trans _ _ _ _ _ H3 Hd) as H4.
        destruct (rec_spec ts4 G4) as [[P1 P2] P3]. apply Pass_bind; [eapply Errs_later; [exact H4|exact P1]|].
        intros [o ts5] E5. specialize (P2 _ _ E5). specialize (P3 _ _ E5). destruct o as [x|].
        + apply Pass_bind; [apply sugar_ty; simpl; auto|]. intros con E6. apply sugar_inv in E6.
          apply Pass_bind; [eapply con_errs; eauto|]. intros t _. apply Pass_Ok; auto.
        + destruct P3 as [j [Hj HN]]. apply (fault0 ((tok KLP :: w ++ [tok KRP]) ++ tok KArrow :: j)); auto; [|econstructor; eauto].
          eapply Ate_eq; [eapply Ate_trans; eauto|]. rewrite <- app_assoc. reflexivity.
      - apply Pass_bind; [apply sugar_ty; simpl; auto|]. intros con E6. apply sugar_inv in E6.
        apply Pass_bind; [eapply con_errs; eauto|]. intros t _. apply Pass_Ok; auto.
    Qed.

    Lemma dict_of_nil l : dict_of l = [] -> l = [].
    Proof.
      destruct l as [|[k v] l]; auto. unfold dict_of. cbn [fold_left fst snd dict_set].
      assert (X : forall d, d <> [] -> fold_left (fun d p => dict_set (fst p) (snd p) d) l d <> []).
      { induction l as [|p l IH]; intros d Hd; cbn [fold_left]; auto. apply IH. destruct d as [|[k' v'] d]; [congruence|]. cbn [dict_set]. destruct (str_eqb _ _); discriminate. }
      intro H. destruct (X [(k, v)] ltac:(discriminate) H).
    Qed.
    Lemma dtype_pass ts : Good ts -> Pass ts (parse_dtype sym rec ts).
    Proof.
      intro Gt. unfold parse_dtype. destruct (tok_kind ts) as [k|] eqn:Ek; [|apply Pass_Ok; auto].
      destruct k; try (apply Pass_Ok; auto; fail).
      - apply Pass_bind; [apply advance_errs|]. intros ts1 E. destruct (eatg' _ _ _ Ek Gt E) as [v [Ha [[s ->] [Ht G1]]]]. rewrite Ht. cbn [vstr].
        destruct (kind_is KLBk ts1) eqn:Eb.
        + destruct (st_dtype_constr sym s) as [con|] eqn:Ec; [|apply Pass_Ok; auto].
          apply Pass_bind; [eapply Errs_later; [exact Ha|apply advance_errs]|]. intros ts2 E2.
          destruct (eatg _ _ _ Eb G1 E2) as [v [Hb [Hv [_ G2]]]]. simpl in Hv. subst v. pose proof (Ate_trans _ _ _ _ _ Ha Hb) as Hab.
          destruct (arg_loop_pass (S (length ts2)) [] ts2 G2) as [[P1 P2] P3].
          apply Pass_bind; [eapply Errs_later; [exact Hab|exact P1]|]. intros [[args kw] ts3] E3. specialize (P2 _ _ E3).
          destruct (P3 _ _ _ E3) as [w [Hw [HE [l [kw0 [Hl [-> HA]]]]]]]. cbn [app] in Hl. subst l.
          assert (Hall : Ate ((KLower, VStr s) :: tok KLBk :: w) ts ts3) by exact (Ate_trans _ _ _ _ _ Hab Hw).
          destruct (kind_is KRBk ts3) eqn:Ed.
          * assert (Hgo : Pass ts (let! ts4 := advance ts3 in let! t := con args (dict_of kw0) in Ok (Some t, ts4))).
            { apply Pass_bind; [eapply Errs_later; [exact Hall|apply advance_errs]|]. intros ts4 E4.
              apply Pass_bind; [eapply con_errs; eauto|]. intros t _. apply Pass_Ok. destruct (eatg _ _ _ Ed P2 E4) as [v [_ [_ [_ G4]]]]. exact G4. }
            destruct args as [|x args]; [|exact Hgo]. destruct (dict_of kw0) as [|y d] eqn:Edict; [|exact Hgo].
            apply dict_of_nil in Edict. subst kw0. apply (fault0 ((KLower, VStr s) :: tok KLBk :: w)); auto.
            assert (Junk sym w). { inversion HA as [| |j n v w' kw HD HK| j HD HJ]; subst; auto. inversion HK. }
            econstructor; eauto. apply kind_next'; auto.
          * apply (fault0 ((KLower, VStr s) :: tok KLBk :: w)); auto. econstructor; eauto. apply kind_next; auto.
        + destruct (st_dtype sym s); apply Pass_Ok; auto.
      - apply Pass_bind; [apply advance_errs|]. intros ts1 E. destruct (eatg' _ _ _ Ek Gt E) as [v [Ha [_ [_ G1]]]].
        apply Pass_bind; [apply sugar_ty; simpl; auto|]. intros con E6. apply sugar_inv in E6.
        apply Pass_bind; [eapply con_errs; eauto|]. intros t _. apply Pass_Ok; auto.
      - apply struct_pass; auto.
      - apply tuple_pass; auto.
    Qed.

    Lemma dim_pass ts : Good ts -> Pass ts (parse_dim sym rec ts).
    Proof.
      intro Gt. unfold parse_dim. destruct (tok_kind ts) as [k|] eqn:Ek; [|apply Pass_Ok; auto].
      destruct k; try (apply Pass_Ok; auto; fail).
      - apply Pass_bind; [apply advance_errs|]. intros ts1 E. destruct (eatg' _ _ _ Ek Gt E) as [v [Ha [[s ->] [Ht G1]]]]. rewrite Ht. cbn [vstr].
        destruct (kind_is KLBk ts1) eqn:Eb.
        + destruct (st_dim_constr sym s) as [con|] eqn:Ec; [|apply Pass_Ok; auto].
          apply Pass_bind; [eapply Errs_later; [exact Ha|apply advance_errs]|]. intros ts2 E2.
          destruct (eatg _ _ _ Eb G1 E2) as [v [Hb [Hv [_ G2]]]]. simpl in Hv. subst v. pose proof (Ate_trans _ _ _ _ _ Ha Hb) as Hab.
          destruct (arg_loop_pass (S (length ts2)) [] ts2 G2) as [[P1 P2] P3].
          apply Pass_bind; [eapply Errs_later; [exact Hab|exact P1]|]. intros [[args kw] ts3] E3. specialize (P2 _ _ E3).
          destruct (P3 _ _ _ E3) as [w [Hw [HE [l [kw0 [Hl [-> HA]]]]]]]. cbn [app] in Hl. subst l.
          assert (Hall : Ate ((KLower, VStr s) :: tok KLBk :: w) ts ts3) by exact (Ate_trans _ _ _ _ _ Hab Hw).
          destruct (kind_is KRBk ts3) eqn:Ed.
          * apply Pass_bind; [eapply Errs_later; [exact Hall|apply advance_errs]|]. intros ts4 E4. split; [|discriminate]. intros p m X. discriminate.
          * apply (fault0 ((KLower, VStr s) :: tok KLBk :: w)); auto. econstructor; eauto. apply kind_next; auto.
        + destruct (st_dim sym s); apply Pass_Ok; auto.
      - apply Pass_bind; [apply advance_errs|]. intros ts1 E. destruct (eatg' _ _ _ Ek Gt E) as [v [Ha [_ [_ G1]]]].
        destruct (kind_is KEll ts1) eqn:Ee.
        + apply Pass_bind; [eapply Errs_later; [exact Ha|apply advance_errs]|]. intros ts2 E2. destruct (eatg _ _ _ Ee G1 E2) as [v' [_ [_ [_ G2]]]].
          apply Pass_bind; [apply sugar_di; simpl; auto|]. intros con E6. apply sugar_inv in E6.
          apply Pass_bind; [eapply dcon_errs; eauto|]. intros t _. apply Pass_Ok; auto.
        + destruct (kind_is KAst ts1); [|apply Pass_Ok; auto].
          apply Pass_bind; [apply sugar_di; simpl; auto|]. intros con E6. apply sugar_inv in E6.
          apply Pass_bind; [eapply dcon_errs; eauto|]. intros t _. apply Pass_Ok; auto.
      - apply Pass_bind; [apply advance_errs|]. intros ts1 E. destruct (eatg' _ _ _ Ek Gt E) as [v [Ha [_ [_ G1]]]].
        apply Pass_bind; [apply sugar_el|]. intros t _. apply Pass_Ok; auto.
      - apply Pass_bind; [apply advance_errs|]. intros ts1 E. destruct (eatg' _ _ _ Ek Gt E) as [v [Ha [_ [_ G1]]]].
        destruct (kind_is KAst ts1); [|apply Pass_Ok; auto].
        apply Pass_bind; [apply sugar_di; simpl; auto|]. intros con E6. apply sugar_inv in E6.
        apply Pass_bind; [eapply dcon_errs; eauto|]. intros t _. apply Pass_Ok; auto.
    Qed.
    Lemma dim_keeps : Keeps (parse_dim sym rec).
    Proof. intros ts o r Gt E. apply (dim_pass ts Gt) in E. exact E. Qed.

    Lemma nooption_pass ts : Good ts -> Pass ts (parse_nooption sym rec ts).
    Proof.
      intro Gt. unfold parse_nooption. destruct (dim_pass ts Gt) as [D1 D2]. apply Pass_bind; [exact D1|].
      intros [dim ts1] E. specialize (D2 _ _ E). apply dim_sound in E; auto using Good_vtoks.
      assert (HT : forall u, Ate u ts ts1 -> Pass ts (let! (dt, ts2) := parse_dtype sym rec ts1 in
        match dt with Some t => let! ds := mk_ds [t] in Ok (Some ds, ts2) | None => Ok (None, ts2) end)).
      { intros u Hu. apply (Pass_later u ts ts1); auto. destruct (dtype_pass ts1 D2) as [P1 P2]. apply Pass_bind; [exact P1|].
        intros [dt ts2] E2. specialize (P2 _ _ E2). destruct dt; [|apply Pass_Ok; auto].
        apply Pass_bind; [apply ds_errs|]. intros d _. apply Pass_Ok; auto. }
      destruct dim as [d|].
      - destruct E as [u [Ha [Hd _]]]. destruct (kind_is KAst ts1) eqn:Es; [|eapply HT; eauto].
        apply Pass_bind; [eapply Errs_later; [exact Ha|apply advance_errs]|]. intros ts2 E2.
        destruct (eatg _ _ _ Es D2 E2) as [v [Hb [Hv [_ G2]]]]. simpl in Hv. subst v. pose proof (Ate_trans _ _ _ _ _ Ha Hb) as Hab.
        destruct (rec_spec ts2 G2) as [[P1 P2] P3]. apply Pass_bind; [eapply Errs_later; [exact Hab|exact P1]|].
        intros [o ts3] E3. specialize (P2 _ _ E3). specialize (P3 _ _ E3). destruct o as [x|].
        + apply Pass_bind; [apply ds_errs|]. intros t _. apply Pass_Ok; auto.
        + destruct P3 as [j [Hj HN]]. apply (fault0 (u ++ [tok KAst])); auto. rewrite (words_Ate _ _ _ Hj). econstructor; eauto.
      - destruct E as [-> _]. apply (HT []). apply Ate_refl.
    Qed.
    Lemma step_pass ts : Good ts -> Pass ts (parse_datashape_step sym rec ts).
    Proof.
      intro Gt. unfold parse_datashape_step. destruct (kind_is KQ ts) eqn:Eq; [|apply nooption_pass; auto].
      apply Pass_bind; [apply advance_errs|]. intros ts1 E. destruct (eatg _ _ _ Eq Gt E) as [v [Ha [Hv [_ G1]]]].
      apply (Pass_later _ _ _ _ Ha). destruct (nooption_pass ts1 G1) as [P1 P2]. apply Pass_bind; [exact P1|].
      intros [o ts2] E2. specialize (P2 _ _ E2). destruct o as [t|]; [|apply Pass_Ok; auto].
      apply Pass_bind; [apply sugar_ty; simpl; auto 6|]. intros con E6. apply sugar_inv in E6.
      apply Pass_bind; [eapply con_errs; eauto|]. intros t' _. apply Pass_bind; [apply ds_errs|]. intros d _. apply Pass_Ok; auto.
    Qed.
  End Level.

  Lemma datashape_pass n : Miss sym (parse_datashape sym n) /\ forall ts, Good ts -> Pass ts (parse_datashape sym n ts).
  Proof.
    induction n as [|n [IH1 IH2]].
    - split; [intros ts r _ H; discriminate|]. intros ts _. split; [intros p m H|]; discriminate.
    - cbn [parse_datashape]. pose proof (parse_datashape_sound sym n) as HS. split.
      + apply step_miss; auto. apply dim_keeps; auto.
      + intros ts Gt. apply step_pass; auto.
  Qed.
  (** a whole stream *)
  Lemma parse_toks_pass ts p m : Str ts -> parse_toks sym ts = Raise (SyntaxErr p m) ->
    Inn p m \/ In (PErr (SyntaxErr p m)) ts \/
    exists w a, Ate w ts a /\ Good a /\ tok_pos a = p /\ TextFault sym w (words a) m.
  Proof.
    intros St H. assert (Gd : (exists e, ts = [PErr e]) \/ Good ts).
    { inversion St; subst; eauto; right; split; auto; discriminate. }
    destruct Gd as [[e ->]|Gd].
    { cbn in H. injection H as ->. right; left; left; reflexivity. }
    assert (H' : (let! (ds, r) := parse_datashape sym (S (length ts)) ts in
      match ds with None => raise_error r MInvalid | Some t => if at_end r then Ok t else raise_error r MUnexpected end) = Raise (SyntaxErr p m)).
    { unfold parse_toks in H. destruct ts as [|[| |e] ts']; auto. destruct Gd as [_ Gd]. destruct (Gd e ts' eq_refl). }
    clear H. destruct (datashape_pass (S (length ts))) as [HM HP]. destruct (HP ts Gd) as [P1 P2].
    pose proof (parse_datashape_sound sym (S (length ts)) ts) as HS.
    destruct (parse_datashape sym (S (length ts)) ts) as [[o r]|e] eqn:E; cbn [bind] in H'.
    - specialize (P2 _ _ eq_refl). destruct o as [t|].
      + destruct (at_end r) eqn:Er; [discriminate|]. injection H' as <- <-. right; right.
        destruct (HS _ _ (Good_vtoks _ Gd) eq_refl) as [w [Hw HD]]. exists w, r. split; auto. split; auto. split; auto.
        apply TF_unexpected with t; auto. destruct P2 as [S2 G2]. destruct S2; try discriminate. destruct (G2 e [] eq_refl).
      + injection H' as <- <-. right; right. destruct (HM _ _ Gd E) as [j [Hj HN]]. exists j, r. split; auto. split; auto. split; auto.
        apply TF_invalid; auto.
    - injection H' as ->. destruct (P1 p m eq_refl) as [X|[X|[b [w [a [X1 [X2 [X3 X4]]]]]]]]; auto.
      right; right. exists (b ++ w), a. split; auto. split; auto. split; auto. apply TF_inside; auto.
  Qed.
End Pass.
