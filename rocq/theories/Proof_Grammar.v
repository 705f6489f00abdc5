(** Soundness of the parser: what it consumes is derivable in the implemented grammar. *)
From Verif Require Import Base Types Lexer Printer Construct Parser Spec_Lexer Spec_Grammar Proof_ParserRel.

(** tokens carry values of the type of their kind *)
Definition VTok (x : kind * tval) : Prop :=
  match x with
  | (KLower, v) | (KUpper, v) | (KOther, v) | (KStr, v) => exists s, v = VStr s
  | (KInt, v) => exists z, v = VInt z
  | (KBool, v) => exists b, v = VBool b
  | (_, v) => v = VNone
  end.
Definition vtoks (ts : toks) : Prop :=
  Forall (fun p => match p with PTok t => VTok (kind_val t) | _ => True end) ts.

Definition Ate (w : word) (ts r : toks) : Prop :=
  exists u, ts = map PTok u ++ r /\ map kind_val u = w.
Lemma Ate_refl ts : Ate [] ts ts.
Proof. exists []. auto. Qed.
Lemma Ate_trans w1 w2 a b c : Ate w1 a b -> Ate w2 b c -> Ate (w1 ++ w2) a c.
Proof.
  intros [u [-> H1]] [v [-> H2]]. exists (u ++ v). rewrite map_app, <- app_assoc, map_app. subst; auto.
Qed.
Lemma Ate_tok t r : Ate [kind_val t] (PTok t :: r) r.
Proof. exists [t]. auto. Qed.
Lemma Ate_eq w w' a b : Ate w a b -> w = w' -> Ate w' a b.
Proof. intros; subst; auto. Qed.
Lemma Ate_vtoks w ts r : Ate w ts r -> vtoks ts -> vtoks r.
Proof. intros [u [-> _]] H. apply Forall_app in H. tauto. Qed.

Lemma kind_is_inv k ts : kind_is k ts = true -> exists t r, ts = PTok t :: r /\ tk_kind t = k.
Proof.
  intro H. apply kind_is_Some in H. destruct ts as [|[t| |] r]; try discriminate.
  inversion H. eauto.
Qed.
Lemma advance_inv t r r' : advance (PTok t :: r) = Ok r' -> r' = r.
Proof. simpl. destruct r as [|[]]; intro H; inversion H; auto. Qed.

Ltac okb H := match type of H with
  | bind ?x _ = Ok _ => let E := fresh "E" in destruct x as [?|?] eqn:E; cbn [bind] in H; [|discriminate]
  end.
Lemma sugar_inv {A} (e : str -> option A) n w err x : sugar e n w err = Ok x -> e n = Some x.
Proof. unfold sugar; destruct (e n); [congruence|discriminate]. Qed.

(** one token of kind [k] *)
Lemma eat k ts r : kind_is k ts = true -> vtoks ts -> advance ts = Ok r ->
  exists v, Ate [(k, v)] ts r /\ VTok (k, v) /\ tok_value ts = v /\ vtoks r.
Proof.
  intros H V Ha. apply kind_is_inv in H as [t [r' [-> Hk]]]. apply advance_inv in Ha as ->.
  exists (tk_val t). inversion V; subst. unfold kind_val in *.
  repeat split; auto; simpl; auto. exact (Ate_tok t r').
Qed.
Lemma eat' k ts r : tok_kind ts = Some k -> vtoks ts -> advance ts = Ok r ->
  exists v, Ate [(k, v)] ts r /\ VTok (k, v) /\ tok_value ts = v /\ vtoks r.
Proof.
  intros H. apply eat. unfold kind_is. rewrite H. destruct k; reflexivity.
Qed.

Inductive Sep {A} (G : word -> A -> Prop) : word -> list A -> Prop :=
| Sep_one w x : G w x -> Sep G w [x]
| Sep_more w x w' l : G w x -> Sep G w' l -> Sep G (w ++ tok KComma :: w') (x :: l).

Section Hom.
  Context {A : Type}.
  Variable G : word -> A -> Prop.
  Variable J : word -> toks -> Prop.
  Variable item : toks -> P A.
  Hypothesis Hitem : forall ts o r, vtoks ts -> item ts = Ok (o, r) ->
    match o with
    | Some x => exists w, Ate w ts r /\ G w x
    | None => exists j, Ate j ts r /\ J j r
    end.
  Lemma hom_loop_sound tr sv : forall n acc ts o r, vtoks ts ->
    hom_loop item n KComma tr sv acc ts = Ok (o, r) ->
    match o with
    | Some l => exists l' w, l = acc ++ l' /\ Ate w ts r /\
        (Sep G w l' \/ (tr = Trailing /\ exists w' j, Sep G w' l' /\ w = w' ++ tok KComma :: j /\ J j r)
         \/ (l' = [] /\ acc <> [] /\ tr = Trailing /\ J w r))
    | None => r = sv /\ acc = []
    end.
  Proof.
    induction n as [|n IH]; intros acc ts o r V H; [discriminate|]. cbn [hom_loop] in H.
    destruct (item ts) as [[o1 ts1]|] eqn:Ei; cbn [bind] in H; [|discriminate].
    pose proof (Hitem _ _ _ V Ei) as HI. destruct o1 as [x|].
    - destruct HI as [w [Ha Hg]]. pose proof (Ate_vtoks _ _ _ Ha V) as V1.
      destruct (kind_is KComma ts1) eqn:Ek.
      + okb H. destruct (eat _ _ _ Ek V1 E) as [v [Hc [Hv [_ V2]]]]. simpl in Hv. subst v.
        specialize (IH _ _ _ _ V2 H). destruct o as [l|].
        * destruct IH as [l' [w' [-> [Ha' Hd]]]]. exists (x :: l'), (w ++ tok KComma :: w').
          split; [rewrite <- app_assoc; reflexivity|]. split.
          { eapply Ate_trans; [exact Ha|]. exact (Ate_trans _ _ _ _ _ Hc Ha'). }
          destruct Hd as [Hd|[[Ht [w1 [j [Hs [-> Hj]]]]]|[-> [_ [Ht Hj]]]]].
          -- left. constructor; auto.
          -- right; left. split; auto. exists (w ++ tok KComma :: w1), j.
             split; [constructor; auto|]. split; auto. rewrite <- app_assoc. reflexivity.
          -- right; left. split; auto. exists w, w'. split; [constructor; auto|]. auto.
        * destruct IH as [-> Hc']. destruct acc; discriminate.
      + inversion H; subst. exists [x], w. split; auto. split; auto. left. constructor; auto.
    - destruct HI as [j [Ha Hj]]. destruct acc as [|a acc].
      + inversion H; subst. auto.
      + destruct tr; [|discriminate]. inversion H; subst. exists [], j. rewrite app_nil_r.
        split; auto. split; auto. right; right. repeat split; auto. discriminate.
  Qed.
  Lemma hom_list_sound tr ts o r : vtoks ts -> hom_list item KComma tr ts = Ok (o, r) ->
    match o with
    | Some l => exists w, Ate w ts r /\
        (Sep G w l \/ (tr = Trailing /\ exists w' j, Sep G w' l /\ w = w' ++ tok KComma :: j /\ J j r))
    | None => r = ts
    end.
  Proof.
    intros V H. apply hom_loop_sound in H; auto. destruct o as [l|]; [|tauto].
    destruct H as [l' [w [-> [Ha [H|[H|[_ [H _]]]]]]]]; [| |congruence]; exists w; auto.
  Qed.
End Hom.

Section Sound.
  Variable sym : symtab.
  Notation DSx := (DS sym true).

  (** what holds when no datashape is found after dropping [j] *)
  Definition Nothing (j : word) (r : toks) : Prop :=
    Junk sym j /\
    (forall t t' r' n, r = PTok t :: PTok t' :: r' -> kind_val t = (KLower, VStr n) -> tk_kind t' = KEq ->
       st_dtype sym n = None /\ (st_dim sym n = None \/ has_dim sym j)) /\
    (kind_is KLBk r = true -> ~ ends_with_name j).
  Definition Sound (rec : toks -> P ty) : Prop := forall ts o r, vtoks ts -> rec ts = Ok (o, r) ->
    match o with
    | Some t => exists w, Ate w ts r /\ DSx w t
    | None => exists j, Ate j ts r /\ Nothing j r
    end.

  Variable rec : toks -> P ty.
  Hypothesis Hrec : Sound rec.

  Lemma lit_sound k ts o r : In k [KInt; KStr; KBool] -> vtoks ts ->
    parse_tokval k val_targ ts = Ok (o, r) ->
    match o with
    | Some a => exists w, Ate w ts r /\ (exists t, w = [t] /\ Literal t a /\ fst t = k)
    | None => exists j, Ate j ts r /\ j = []
    end.
  Proof.
    intros Hk V H. unfold parse_tokval in H. destruct (kind_is k ts) eqn:Ek.
    - okb H. destruct (eat _ _ _ Ek V E) as [v [Ha [Hv [Ht _]]]]. rewrite Ht in H. inversion H; subst.
      eexists. split; [exact Ha|]. eexists. split; [reflexivity|]. split; [|reflexivity].
      simpl in Hk. destruct Hk as [<-|[<-|[<-|[]]]]; simpl in Hv; destruct Hv as [x ->]; constructor.
    - inversion H; subst. exists []. split; [apply Ate_refl|reflexivity].
  Qed.
  Lemma Sep_lits k w l : Sep (fun w a => exists t, w = [t] /\ Literal t a /\ fst t = k) w l -> LiteralList k w l.
  Proof.
    induction 1 as [w x [t [-> [H1 H2]]]|w x w' l [t [-> [H1 H2]]] H IH]; simpl; constructor; auto.
  Qed.
  Lemma Sep_items w l : Sep DSx w l -> Items sym true w l.
  Proof. induction 1; econstructor; eauto. Qed.

  Lemma rec_targ_sound ts o r : vtoks ts -> rec_targ rec ts = Ok (o, r) ->
    match o with
    | Some a => exists w, Ate w ts r /\ (exists t, a = ADs t /\ DSx w t)
    | None => exists j, Ate j ts r /\ True
    end.
  Proof.
    intros V H. unfold rec_targ in H. destruct (rec ts) as [[o1 r1]|] eqn:E; cbn [bind] in H; [|discriminate].
    inversion H; subst. pose proof (Hrec _ _ _ V E) as HR. destruct o1 as [t|]; simpl.
    - destruct HR as [w [H1 H2]]. eauto.
    - destruct HR as [j [H1 H2]]. eauto.
  Qed.
  Lemma Sep_ads w l : Sep (fun w a => exists t, a = ADs t /\ DSx w t) w l ->
    exists l', l = map ADs l' /\ Sep DSx w l'.
  Proof.
    induction 1 as [w x [t [-> H]]|w x w' l [t [-> H]] Hs [l' [-> IH]]].
    - exists [t]. split; auto. constructor; auto.
    - exists (t :: l'). split; auto. constructor; auto.
  Qed.

  Lemma Nothing_Dropped j r : Nothing j r -> Dropped sym true j.
  Proof. intros [H _]. right; auto. Qed.

  Lemma list_lits k ts v r : In k [KInt; KStr; KBool] -> vtoks ts ->
    hom_list (parse_tokval k val_targ) KComma (Complain (another k)) ts = Ok (v, r) ->
    match v with Some l => exists w, Ate w ts r /\ ListArg sym true w l | None => r = ts end.
  Proof.
    intros Hk V H. eapply (hom_list_sound _ (fun j _ => j = []) _ (fun ts o r V' => lit_sound k ts o r Hk V')) in H; auto.
    destruct v as [l|]; auto. destruct H as [w [Ha [Hs|[Hf _]]]]; [|discriminate].
    exists w. split; auto. apply LA_literals with (k := k). apply Sep_lits; auto.
  Qed.

  Lemma list_or {v : option (list targ)} {ts1 ts2 r} {o : option (list targ)} k :
    In k [KInt; KStr; KBool] -> vtoks ts1 ->
    match v with Some l => exists w, Ate w ts1 ts2 /\ ListArg sym true w l | None => ts2 = ts1 end ->
    match v with Some _ => Ok (v, ts2) | None => hom_list (parse_tokval k val_targ) KComma (Complain (another k)) ts2 end = Ok (o, r) ->
    match o with Some l => exists w, Ate w ts1 r /\ ListArg sym true w l | None => r = ts1 end.
  Proof.
    intros Hk V H E. destruct v as [l|].
    - inversion E; subst. exact H.
    - subst ts2. apply list_lits in E; auto.
  Qed.

  Lemma type_arg_sound ts o r : vtoks ts -> parse_type_arg rec ts = Ok (o, r) ->
    match o with
    | Some a => exists w, Ate w ts r /\ Arg sym true w a
    | None => exists j, Ate j ts r /\ Nothing j r
    end.
  Proof.
    intros V H. unfold parse_type_arg in H.
    destruct (rec ts) as [[ds ts1]|] eqn:Er; cbn [bind] in H; [|discriminate].
    pose proof (Hrec _ _ _ V Er) as HR. destruct ds as [t|].
    { inversion H; subst. destruct HR as [w [Ha Hd]]. exists w. split; auto. constructor; auto. }
    destruct HR as [j [Ha Hn]]. pose proof (Ate_vtoks _ _ _ Ha V) as V1.
    destruct (kind_is KInt ts1 || kind_is KStr ts1 || kind_is KBool ts1) eqn:Ek.
    { okb H. inversion H; subst.
      assert (exists k, In k [KInt; KStr; KBool] /\ kind_is k ts1 = true) as [k [Hk Ek']].
      { apply orb_true_iff in Ek as [Ek|Ek]; [apply orb_true_iff in Ek as [Ek|Ek]|]; eexists; (split; [|exact Ek]); simpl; auto. }
      destruct (eat _ _ _ Ek' V1 E) as [v [Hc [Hv [Ht _]]]]. rewrite Ht.
      exists (j ++ [(k, v)]). split; [eapply Ate_trans; eauto|]. constructor.
      - eapply Nothing_Dropped; eauto.
      - simpl in Hk. destruct Hk as [<-|[<-|[<-|[]]]]; simpl in Hv; destruct Hv as [x ->]; constructor. }
    destruct (kind_is KLBk ts1) eqn:Eb.
    - okb H. rename a into ts2. destruct (eat _ _ _ Eb V1 E) as [v [Hc [Hv [_ V2]]]]. simpl in Hv. subst v.
      destruct (hom_list (rec_targ rec) KComma (Complain MAnotherDatashape) ts2) as [[v1 ts3]|] eqn:E1; cbn [bind] in H; [|discriminate].
      eapply (hom_list_sound _ (fun _ _ => True) _ rec_targ_sound) in E1; auto.
      assert (H1 : match v1 with Some l => exists w, Ate w ts2 ts3 /\ ListArg sym true w l | None => ts3 = ts2 end).
      { destruct v1 as [l|]; auto. destruct E1 as [w [H1 [Hs|[Hf _]]]]; [|discriminate].
        exists w. split; auto. apply Sep_ads in Hs as [l' [-> Hs]]. apply LA_ds, Sep_items; auto. }
      clear E1. okb H. destruct a as [v2 ts4]. eapply list_or in E0; [|simpl; auto|exact V2|exact H1]. clear H1.
      okb H. destruct a as [v3 ts5]. eapply list_or in E1; [|simpl; auto|exact V2|exact E0]. clear E0.
      okb H. destruct a as [v4 ts6]. eapply list_or in E0; [|simpl; auto|exact V2|exact E1]. clear E1.
      destruct (kind_is KRBk ts6) eqn:Ec; [|discriminate]. okb H. inversion H; subst.
      assert (exists w l, match v4 with Some l => l | None => [] end = l /\ Ate w ts2 ts6 /\ ListArg sym true w l)
        as [w [l [-> [Hw Hl]]]].
      { destruct v4 as [l|].
        - destruct E0 as [w [H1 H2]]. eauto.
        - subst ts6. exists [], []. split; auto. split; [apply Ate_refl|constructor]. }
      destruct (eat _ _ _ Ec (Ate_vtoks _ _ _ Hw V2) E1) as [v [Hc2 [Hv [_ V3]]]]. simpl in Hv. subst v.
      exists (j ++ tok KLBk :: w ++ [tok KRBk]). split.
      + eapply Ate_trans; [exact Ha|]. apply (Ate_trans _ _ _ _ _ Hc). eapply Ate_trans; eauto.
      + constructor; auto. { eapply Nothing_Dropped; eauto. } apply Hn; auto.
    - inversion H; subst. eauto.
  Qed.

  Lemma type_kwarg_sound ts o r : vtoks ts -> parse_type_kwarg rec ts = Ok (o, r) ->
    match o with
    | Some x => exists w, Ate w ts r /\ (exists wa n a, x = (n, a) /\ w = (KLower, VStr n) :: tok KEq :: wa /\ Arg sym true wa a)
    | None => exists j, Ate j ts r /\ j = []
    end.
  Proof.
    intros V H. unfold parse_type_kwarg in H. destruct (kind_is KLower ts) eqn:Ek.
    2:{ inversion H; subst. exists []. split; [apply Ate_refl|auto]. }
    okb H. destruct (eat _ _ _ Ek V E) as [v [Ha [[s ->] [Ht V1]]]].
    destruct (kind_is KEq a) eqn:Ee.
    2:{ inversion H; subst. exists []. split; [apply Ate_refl|auto]. }
    okb H. destruct (eat _ _ _ Ee V1 E0) as [v [Hb [Hv [_ V2]]]]. simpl in Hv. subst v.
    destruct (parse_type_arg rec a0) as [[o1 r1]|] eqn:Ea; cbn [bind] in H; [|discriminate].
    apply type_arg_sound in Ea; auto. destruct o1 as [x|]; [|discriminate]. inversion H; subst.
    destruct Ea as [w [Hw Hx]]. exists ((KLower, VStr s) :: tok KEq :: w).
    split; [apply (Ate_trans _ _ _ _ _ Ha); apply (Ate_trans _ _ _ _ _ Hb Hw)|].
    rewrite Ht. simpl. do 3 eexists. eauto.
  Qed.
  Lemma Sep_kwargs w l :
    Sep (fun w x => exists wa n a, x = (n, a) /\ w = (KLower, VStr n) :: tok KEq :: wa /\ Arg sym true wa a) w l ->
    Kwargs sym true w l /\ exists n w', w = (KLower, VStr n) :: tok KEq :: w'.
  Proof.
    induction 1 as [w x [wa [n [a [-> [-> H]]]]]|w x w' l [wa [n [a [-> [-> H]]]]] Hs [IH _]].
    - split; [constructor; auto|eauto].
    - split; [constructor; auto|simpl; eauto].
  Qed.

  Lemma arg_loop_sound : forall n acc ts args kw r, vtoks ts ->
    arg_loop rec n acc ts = Ok (args, kw, r) ->
    exists l kw0 w, args = acc ++ l /\ kw = dict_of kw0 /\ Ate w ts r /\ Args sym true w l kw0.
  Proof.
    induction n as [|n IH]; intros acc ts args kw r V H; [discriminate|]. cbn [arg_loop] in H.
    okb H. destruct a as [o ts1]. pose proof (type_arg_sound _ _ _ V E) as HA. destruct o as [x|].
    - destruct HA as [w [Ha Hx]]. pose proof (Ate_vtoks _ _ _ Ha V) as V1.
      destruct (kind_is KComma ts1) eqn:Ek.
      + okb H. destruct (eat _ _ _ Ek V1 E0) as [v [Hc [Hv [_ V2]]]]. simpl in Hv. subst v.
        destruct (IH _ _ _ _ _ V2 H) as [l [kw0 [w' [-> [-> [Ha' Hl]]]]]].
        exists (x :: l), kw0, (w ++ tok KComma :: w'). split; [rewrite <- app_assoc; reflexivity|].
        split; auto. split; [|constructor; auto].
        eapply Ate_trans; [exact Ha|]. exact (Ate_trans _ _ _ _ _ Hc Ha').
      + inversion H; subst. exists [x], [], w. split; auto. split; auto. split; auto. constructor; auto.
    - destruct HA as [j [Ha Hn]]. pose proof (Ate_vtoks _ _ _ Ha V) as V1.
      okb H. destruct a as [kwo ts2]. inversion H; subst. pose proof E0 as E1.
      eapply (hom_list_sound _ (fun j _ => j = []) _ type_kwarg_sound) in E0; auto. destruct kwo as [kws|].
      + destruct E0 as [w [Hw [Hs|[Hf _]]]]; [|discriminate]. apply Sep_kwargs in Hs as [Hk [n0 [w' ->]]].
        exists [], kws, (j ++ (KLower, VStr n0) :: tok KEq :: w'). rewrite app_nil_r.
        split; auto. split; auto. split; [eapply Ate_trans; eauto|].
        destruct Hw as [u [Hu Hm]]. destruct u as [|t [|t' u]]; try discriminate.
        destruct Hn as [Hj [Hn1 _]].
        assert (XX : st_dtype sym n0 = None /\ (st_dim sym n0 = None \/ has_dim sym j)).
        { inversion Hm as [[Hm1 Hm2 Hm3]]. destruct (Hn1 t t' (map PTok u ++ r) n0) as [X1 X2]; auto.
          unfold kind_val. congruence. }
        destruct XX. apply A_kwargs; auto. right; auto.
      + subst. exists [], [], j. rewrite app_nil_r. split; auto. split; auto. split; auto.
        apply A_trailing; auto. apply Hn.
  Qed.

  Lemma struct_field_sound ts o r : vtoks ts -> parse_struct_field rec ts = Ok (o, r) ->
    match o with
    | Some x => exists w, Ate w ts r /\
        (exists f n t wd, x = (n, t) /\ w = f :: tok KColon :: wd /\ FieldName f n /\ DSx wd t)
    | None => exists j, Ate j ts r /\ j = []
    end.
  Proof.
    intros V H. unfold parse_struct_field in H.
    destruct (kind_is KLower ts || kind_is KUpper ts || kind_is KOther ts || kind_is KStr ts) eqn:Ek.
    2:{ inversion H; subst. exists []. split; [apply Ate_refl|auto]. }
    assert (exists k, In k [KLower; KUpper; KOther; KStr] /\ kind_is k ts = true) as [k [Hk Ek']].
    { rewrite !orb_true_iff in Ek. destruct Ek as [[[Ek|Ek]|Ek]|Ek]; eexists; (split; [|exact Ek]); simpl; auto. }
    okb H. destruct (eat _ _ _ Ek' V E) as [v [Ha [Hv [Ht V1]]]].
    assert (exists s, v = VStr s) as [s ->].
    { simpl in Hk. destruct Hk as [<-|[<-|[<-|[<-|[]]]]]; exact Hv. }
    destruct (kind_is KColon a) eqn:Ee; [|discriminate].
    okb H. destruct (eat _ _ _ Ee V1 E0) as [v [Hb [Hv' [_ V2]]]]. simpl in Hv'. subst v.
    destruct (rec a0) as [[o1 r1]|] eqn:Ea; cbn [bind] in H; [|discriminate].
    apply Hrec in Ea; auto. destruct o1 as [x|]; [|discriminate]. inversion H; subst.
    destruct Ea as [w [Hw Hx]]. exists ((k, VStr s) :: tok KColon :: w).
    split; [apply (Ate_trans _ _ _ _ _ Ha); apply (Ate_trans _ _ _ _ _ Hb Hw)|].
    rewrite Ht. simpl. do 4 eexists. split; [reflexivity|]. split; [reflexivity|]. split; auto. constructor; auto.
  Qed.
  Lemma Sep_fields w l :
    Sep (fun w x => exists f n t wd, x = (n, t) /\ w = f :: tok KColon :: wd /\ FieldName f n /\ DSx wd t) w l ->
    Fields sym true w l.
  Proof.
    induction 1 as [w x [f [n [t [wd [-> [-> [H1 H2]]]]]]]|w x w' l [f [n [t [wd [-> [-> [H1 H2]]]]]]] Hs IH];
      simpl; constructor; auto.
  Qed.

  Lemma kind_tok k ts : tok_kind ts = Some k -> kind_is k ts = true.
  Proof. intro H. unfold kind_is. rewrite H. destruct k; reflexivity. Qed.

  Lemma struct_sound ts o r : vtoks ts -> tok_kind ts = Some KLBc -> parse_struct_type sym rec ts = Ok (o, r) ->
    exists t w, o = Some t /\ Ate w ts r /\ Dtype sym true w t /\ ~ starts_dim_constr sym w.
  Proof.
    intros V Ek H. unfold parse_struct_type in H. okb H. apply kind_tok in Ek.
    destruct (eat _ _ _ Ek V E) as [v [Ha [Hv [_ V1]]]]. simpl in Hv. subst v.
    okb H. destruct a0 as [fs ts2].
    eapply (hom_list_sound _ (fun j _ => j = []) _ struct_field_sound) in E0; auto.
    destruct (kind_is KRBc ts2) eqn:Ec; [|discriminate]. okb H. okb H. apply sugar_inv in E2. okb H. inversion H; subst.
    assert (exists w, Ate w a ts2 /\ FieldList sym true w (opt_list fs)) as [w [Hw Hf]].
    { destruct fs as [l|].
      - destruct E0 as [w [Hw [Hs|[_ [w' [j [Hs [-> ->]]]]]]]]; exists w || exists (w' ++ [tok KComma]); (split; [exact Hw|]).
        + apply FL_fields, Sep_fields; auto.
        + apply FL_comma, Sep_fields; auto.
      - subst ts2. exists []. split; [apply Ate_refl|]. apply FL_empty; auto. }
    destruct (eat _ _ _ Ec (Ate_vtoks _ _ _ Hw V1) E1) as [v [Hc2 [Hv [_ _]]]]. simpl in Hv. subst v.
    exists a2, (tok KLBc :: w ++ [tok KRBc]). split; [reflexivity|].
    split; [apply (Ate_trans [tok KLBc] (w ++ [tok KRBc]) ts a r Ha); eapply Ate_trans; eauto|].
    split; [eapply DT_struct; eauto|]. intros [n [c [v [r' [X _]]]]]. discriminate.
  Qed.

  Lemma tuple_sound ts o r : vtoks ts -> tok_kind ts = Some KLP -> parse_funcproto_or_tuple sym rec ts = Ok (o, r) ->
    exists t w, o = Some t /\ Ate w ts r /\ Dtype sym true w t /\ ~ starts_dim_constr sym w.
  Proof.
    intros V Ek H. unfold parse_funcproto_or_tuple in H. okb H. apply kind_tok in Ek.
    destruct (eat _ _ _ Ek V E) as [v [Ha [Hv [_ V1]]]]. simpl in Hv. subst v.
    okb H. destruct a0 as [fs ts2].
    assert (Hrec' : forall ts o r, vtoks ts -> rec ts = Ok (o, r) ->
      match o with Some x => exists w, Ate w ts r /\ DSx w x | None => exists j, Ate j ts r /\ Junk sym j end).
    { intros ts' o' r' V' H'. apply Hrec in H'; auto. destruct o'; auto. destruct H' as [j [H1 [H2 _]]]. eauto. }
    eapply (hom_list_sound _ (fun j _ => Junk sym j) _ Hrec') in E0; auto.
    destruct (kind_is KRP ts2) eqn:Ec; [|discriminate]. okb H.
    assert (exists w, Ate w a ts2 /\ TupleType sym true (tok KLP :: w ++ [tok KRP]) (opt_list fs)) as [w [Hw Hf]].
    { destruct fs as [l|].
      - destruct E0 as [w [Hw [Hs|[_ [w' [j [Hs [-> Hj]]]]]]]].
        + exists w. split; auto. apply TT_items, Sep_items; auto.
        + exists (w' ++ tok KComma :: j). split; auto. rewrite <- app_assoc. apply TT_dropped; auto. apply Sep_items; auto.
      - subst ts2. exists []. split; [apply Ate_refl|]. apply TT_empty. }
    destruct (eat _ _ _ Ec (Ate_vtoks _ _ _ Hw V1) E1) as [v [Hc2 [Hv [_ V3]]]]. simpl in Hv. subst v.
    assert (Htup : Ate (tok KLP :: w ++ [tok KRP]) ts a0).
    { apply (Ate_trans _ _ _ _ _ Ha). eapply Ate_trans; eauto. }
    destruct (kind_is KArrow a0) eqn:Ea.
    - okb H. destruct (eat _ _ _ Ea V3 E2) as [v [Hd [Hv [_ V4]]]]. simpl in Hv. subst v.
      okb H. destruct a2 as [ret ts5]. apply Hrec in E3; auto. destruct ret as [rt|]; [|discriminate].
      destruct E3 as [wr [Hwr Hr]]. okb H. apply sugar_inv in E3. okb H. inversion H; subst.
      exists a3, ((tok KLP :: w ++ [tok KRP]) ++ tok KArrow :: wr). split; auto. split.
      { eapply Ate_trans; [exact Htup|]. exact (Ate_trans _ _ _ _ _ Hd Hwr). }
      split; [eapply DT_funcproto; eauto|]. intros [n [c [v [r' [X _]]]]]. discriminate.
    - okb H. apply sugar_inv in E2. okb H. inversion H; subst.
      exists a2, (tok KLP :: w ++ [tok KRP]). split; auto. split; auto.
      split; [eapply DT_tuple; eauto|]. intros [n [c [v [r' [X _]]]]]. discriminate.
  Qed.

  (** [parse_dtype]: on failure it does not move, and a name before [=] is no dtype *)
  Lemma dtype_sound ts o r : vtoks ts -> parse_dtype sym rec ts = Ok (o, r) ->
    match o with
    | Some t => exists w, Ate w ts r /\ Dtype sym true w t
    | None => r = ts /\ (forall t t' r' n, ts = PTok t :: PTok t' :: r' -> kind_val t = (KLower, VStr n) ->
                          tk_kind t' = KEq -> st_dtype sym n = None)
    end.
  Proof.
    intros V H. unfold parse_dtype in H. destruct (tok_kind ts) as [k|] eqn:Ek.
    2:{ inversion H; subst. split; auto. intros; subst; discriminate. }
    destruct k; try (inversion H; subst; split; [reflexivity|];
      intros t t' r' n Hts Hk; subst; simpl in Ek; unfold kind_val in Hk; congruence).
    - (* KLower *)
      okb H. destruct (eat' _ _ _ Ek V E) as [v [Ha [[s ->] [Ht V1]]]]. rewrite Ht in H. simpl in H.
      destruct (kind_is KLBk a) eqn:Eb.
      + destruct (st_dtype_constr sym s) as [con|] eqn:Ec.
        * okb H. destruct (eat _ _ _ Eb V1 E0) as [v [Hb [Hv [_ V2]]]]. simpl in Hv. subst v.
          okb H. destruct a1 as [[args kw] ts3]. apply arg_loop_sound in E1 as [l [kw0 [w [Hl [-> [Hw HA]]]]]]; auto.
          simpl in Hl. subst l.
          destruct (kind_is KRBk ts3) eqn:Ed; [|discriminate].
          pose proof (Ate_vtoks _ _ _ Hw V2) as V3.
          assert (exists t r', advance ts3 = Ok r' /\ con args (dict_of kw0) = Ok t /\ o = Some t /\ r' = r /\ (args <> [] \/ kw0 <> []))
            as [t [r' [X1 [X2 [-> [-> X3]]]]]].
          { destruct args as [|x args].
            - destruct (dict_of kw0) as [|p d] eqn:Edict; [discriminate|].
              okb H. okb H. inversion H; subst. do 2 eexists. repeat split; eauto. right. intros ->. discriminate.
            - okb H. okb H. inversion H; subst. do 2 eexists. repeat split; eauto. left. discriminate. }
          destruct (eat _ _ _ Ed V3 X1) as [v [Hd [Hv [_ _]]]]. simpl in Hv. subst v.
          exists ((KLower, VStr s) :: tok KLBk :: w ++ [tok KRBk]). split.
          { apply (Ate_trans _ _ _ _ _ Ha). apply (Ate_trans _ _ _ _ _ Hb). eapply Ate_trans; eauto. }
          econstructor; eauto.
        * inversion H; subst. split; auto. intros t t' r' n -> Hk Hq. apply advance_inv in E. subst a.
          apply kind_is_inv in Eb as [t0 [r0 [Eq Hk0]]]. inversion Eq; subst. congruence.
      + destruct (st_dtype sym s) as [t|] eqn:Ed.
        * inversion H; subst. exists [(KLower, VStr s)]. split; auto. constructor; auto.
        * inversion H; subst. split; auto. intros t t' r' n -> Hk Hq.
          simpl in Ht. unfold kind_val in Hk. congruence.
    - (* KUpper *)
      okb H. destruct (eat' _ _ _ Ek V E) as [v [Ha [[s ->] [Ht V1]]]]. okb H. apply sugar_inv in E0.
      okb H. inversion H; subst. rewrite Ht in E1. exists [(KUpper, VStr s)]. split; auto. econstructor; eauto.
    - (* KLBc *) destruct (struct_sound _ _ _ V Ek H) as [t [w [-> [H1 [H2 _]]]]]. eauto.
    - (* KLP *) destruct (tuple_sound _ _ _ V Ek H) as [t [w [-> [H1 [H2 _]]]]]. eauto.
  Qed.

  (** [parse_dim] *)
  Lemma dim_sound ts o r : vtoks ts -> parse_dim sym rec ts = Ok (o, r) ->
    match o with
    | Some d => exists u, Ate u ts r /\ Dim sym u d /\
        (kind_is KAst r = true \/ (DimName sym u d /\ (kind_is KLBk r = true -> ~ ends_with_name u)))
    | None => r = ts /\
        (forall t t' r' n, ts = PTok t :: PTok t' :: r' -> kind_val t = (KLower, VStr n) ->
            tk_kind t' = KEq -> st_dim sym n = None) /\
        (forall t t' r' n, ts = PTok t :: PTok t' :: r' -> kind_val t = (KLower, VStr n) ->
            tk_kind t' = KLBk -> st_dim_constr sym n = None)
    end.
  Proof.
    intros V H. unfold parse_dim in H. destruct (tok_kind ts) as [k|] eqn:Ek.
    2:{ inversion H; subst. repeat split; intros; subst; discriminate. }
    destruct k; try (inversion H; subst; split; [reflexivity|]; split;
      intros t t' r' n Hts Hk; subst; simpl in Ek; unfold kind_val in Hk; congruence).
    - (* KLower *)
      okb H. destruct (eat' _ _ _ Ek V E) as [v [Ha [[s ->] [Ht V1]]]]. rewrite Ht in H. simpl in H.
      destruct (kind_is KLBk a) eqn:Eb.
      + destruct (st_dim_constr sym s) as [con|] eqn:Ec.
        * okb H. okb H. destruct a1 as [[x1 x2] ts3]. destruct (kind_is KRBk ts3); [okb H|]; discriminate.
        * inversion H; subst. split; auto.
          apply kind_is_inv in Eb as [t0 [r0 [Eq Hk0]]]. split; intros t t' r' n -> Hk Hq.
          -- apply advance_inv in E. inversion E; congruence.
          -- simpl in Ht. unfold kind_val in Hk. congruence.
      + destruct (st_dim sym s) as [t|] eqn:Ed.
        * inversion H; subst. exists [(KLower, VStr s)]. split; auto.
          assert (DimName sym [(KLower, VStr s)] t) by (constructor; auto).
          split; [apply D_name; auto|]. right. split; auto. congruence.
        * inversion H; subst. split; auto. split; intros t t' r' n -> Hk Hq.
          -- simpl in Ht. unfold kind_val in Hk. congruence.
          -- apply advance_inv in E. subst a. unfold kind_is in Eb. simpl in Eb. rewrite Hq in Eb. discriminate.
    - (* KUpper *)
      okb H. destruct (eat' _ _ _ Ek V E) as [v [Ha [[s ->] [Ht V1]]]]. rewrite Ht in H. simpl val_targ in H.
      destruct (kind_is KEll a) eqn:Ee.
      + okb H. destruct (eat _ _ _ Ee V1 E0) as [v [Hb [Hv [_ V2]]]]. simpl in Hv. subst v.
        okb H. apply sugar_inv in E1. okb H. inversion H; subst.
        exists [(KUpper, VStr s); tok KEll]. split; [exact (Ate_trans _ _ _ _ _ Ha Hb)|].
        assert (DimName sym [(KUpper, VStr s); tok KEll] a2) by (econstructor; eauto).
        split; [apply D_name; auto|]. right. split; auto. intros _ [p [n X]].
        destruct p as [|? [|? [|]]]; discriminate.
      + destruct (kind_is KAst a) eqn:Es.
        * okb H. apply sugar_inv in E0. okb H. inversion H; subst. exists [(KUpper, VStr s)]. split; auto.
          split; [eapply D_typevar; eauto|]. auto.
        * inversion H; subst. split; auto. split; intros t t' r' n -> Hk; simpl in Ek; unfold kind_val in Hk; congruence.
    - (* KEll *)
      okb H. destruct (eat' _ _ _ Ek V E) as [v [Ha [Hv [Ht V1]]]]. simpl in Hv. subst v.
      okb H. apply sugar_inv in E0. inversion H; subst. exists [tok KEll]. split; auto.
      assert (DimName sym [tok KEll] a0) by (econstructor; eauto).
      split; [apply D_name; auto|]. right. split; auto. intros _ [p [n X]]. destruct p as [|? [|]]; discriminate.
    - (* KInt *)
      okb H. destruct (eat' _ _ _ Ek V E) as [v [Ha [[z ->] [Ht V1]]]]. rewrite Ht in H. simpl val_targ in H.
      destruct (kind_is KAst a) eqn:Es.
      + okb H. apply sugar_inv in E0. okb H. inversion H; subst. exists [(KInt, VInt z)]. split; auto.
        split; [eapply D_integer; eauto|]. auto.
      + inversion H; subst. split; auto. split; intros t t' r' n -> Hk; simpl in Ek; unfold kind_val in Hk; congruence.
  Qed.

  Lemma nooption_sound ts o r : vtoks ts -> parse_nooption sym rec ts = Ok (o, r) ->
    match o with
    | Some t => exists w, Ate w ts r /\ NoOpt sym true w t
    | None => exists j, Ate j ts r /\ (j = [] \/ exists d, DimName sym j d) /\
        (forall t t' r' n, r = PTok t :: PTok t' :: r' -> kind_val t = (KLower, VStr n) -> tk_kind t' = KEq ->
           st_dtype sym n = None /\ (st_dim sym n = None \/ exists d, DimName sym j d)) /\
        (kind_is KLBk r = true -> ~ ends_with_name j)
    end.
  Proof.
    intros V H. unfold parse_nooption in H. okb H. destruct a as [dim ts1].
    apply dim_sound in E; auto. destruct dim as [d|].
    - destruct E as [u [Ha [Hd Hor]]]. pose proof (Ate_vtoks _ _ _ Ha V) as V1.
      destruct (kind_is KAst ts1) eqn:Es.
      + okb H. destruct (eat _ _ _ Es V1 E) as [v [Hb [Hv [_ V2]]]]. simpl in Hv. subst v.
        okb H. destruct a0 as [ds ts3]. apply Hrec in E0; auto. destruct ds as [t|]; [|discriminate].
        okb H. inversion H; subst. destruct E0 as [w [Hw Ht]]. exists (u ++ tok KAst :: w). split.
        { eapply Ate_trans; [exact Ha|]. exact (Ate_trans _ _ _ _ _ Hb Hw). }
        econstructor; eauto.
      + destruct Hor as [Hor|[Hn Hlb]]; [congruence|].
        okb H. destruct a as [dt ts2]. apply dtype_sound in E; auto. destruct dt as [t|].
        * okb H. inversion H; subst. destruct E as [w [Hw Ht]]. exists (u ++ w). split; [eapply Ate_trans; eauto|].
          eapply NO_dropped; eauto.
        * inversion H; subst. destruct E as [-> Hno]. exists u. split; auto. split; [eauto|]. split; auto.
          intros t t' r' n Hr Hk Hq. split; [eapply Hno; eauto|]. eauto.
    - destruct E as [-> [Hno1 Hno2]]. okb H. destruct a as [dt ts2]. apply dtype_sound in E; auto. destruct dt as [t|].
      + okb H. inversion H; subst. destruct E as [w [Hw Ht]]. exists w. split; auto.
        eapply NO_dtype; eauto. intros [n [c [v [r' [-> Hc]]]]].
        destruct Hw as [uu [-> Hm]]. destruct uu as [|t1 [|t2 uu]]; try discriminate.
        inversion Hm as [[Hm1 Hm2 Hm3]]. simpl in Hno2.
        rewrite (Hno2 t1 t2 (map PTok uu ++ r) n) in Hc; [discriminate|reflexivity| |]; unfold kind_val in *; congruence.
      + inversion H; subst. destruct E as [-> Hno]. exists []. split; [apply Ate_refl|]. split; auto. split.
        * intros t t' r' n Hr Hk Hq. split; [eapply Hno; eauto|]. left. eapply Hno1; eauto.
        * intros _ [p [n X]]. destruct p; discriminate.
  Qed.

  Lemma step_sound : Sound (parse_datashape_step sym rec).
  Proof.
    intros ts o r V H. unfold parse_datashape_step in H. destruct (kind_is KQ ts) eqn:Eq.
    - okb H. destruct (eat _ _ _ Eq V E) as [v [Ha [Hv [_ V1]]]]. simpl in Hv. subst v.
      okb H. destruct a0 as [ds ts2]. apply nooption_sound in E0; auto. destruct ds as [t|].
      + okb H. apply sugar_inv in E1. okb H. okb H. inversion H; subst. destruct E0 as [w [Hw Ht]].
        exists (tok KQ :: w). split; [exact (Ate_trans _ _ _ _ _ Ha Hw)|]. eapply DS_option; eauto.
      + inversion H; subst. destruct E0 as [j [Hj [Hor [Hk Hl]]]]. exists (tok KQ :: j).
        split; [exact (Ate_trans _ _ _ _ _ Ha Hj)|]. split.
        * destruct Hor as [->|[d Hd]]; [constructor|eapply J_question_dim; eauto].
        * split.
          -- intros t t' r' n Hr Hkv Hq. destruct (Hk _ _ _ _ Hr Hkv Hq) as [X [Y|[d Hd]]]; split; auto.
             right. exists j, d, [tok KQ]. auto.
          -- intros X [p [n Y]]. apply (Hl X). destruct p as [|x p]; inversion Y; subst. exists p, n. auto.
    - apply nooption_sound in H; auto. destruct o as [t|].
      + destruct H as [w [Hw Ht]]. exists w. split; auto. constructor; auto.
      + destruct H as [j [Hj [Hor [Hk Hl]]]]. exists j. split; auto. split.
        * destruct Hor as [->|[d Hd]]; [constructor|eapply J_dim; eauto].
        * split; auto. intros t t' r' n Hr Hkv Hq. destruct (Hk _ _ _ _ Hr Hkv Hq) as [X [Y|[d Hd]]]; split; auto.
          right. exists j, d, []. auto.
  Qed.
End Sound.

Lemma parse_datashape_sound sym n : Sound sym (parse_datashape sym n).
Proof.
  induction n as [|n IH]; [intros ts o r _ H; discriminate|].
  cbn [parse_datashape]. apply step_sound. exact IH.
Qed.
