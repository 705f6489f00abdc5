(** What [dshape] raises (C67): a unary invariant of the parser. *)
From Coq Require Import ListDec.
From Verif Require Import Base Types Lexer Printer Construct Parser Proof_ParserRel Spec_Lexer
  Proof_Lexer Proof_Time Proof_Parser Spec_Errors.

Definition Suffix (a b : toks) : Prop := exists p, b = p ++ a.
Lemma Suffix_refl a : Suffix a a. Proof. exists []. reflexivity. Qed.
Lemma Suffix_trans a b c : Suffix a b -> Suffix b c -> Suffix a c.
Proof. intros [p ->] [q ->]. exists (q ++ p). now rewrite app_assoc. Qed.
Lemma Suffix_cons x a b : Suffix (x :: a) b -> Suffix a b.
Proof. intros [p ->]. exists (p ++ [x]). now rewrite <- app_assoc. Qed.
Lemma Suffix_tl x a : Suffix a (x :: a). Proof. exists [x]. reflexivity. Qed.
Lemma Suffix_In x a b : Suffix a b -> In x a -> In x b.
Proof. intros [p ->] H. apply in_or_app. auto. Qed.

(** ellipses in a type *)
Fixpoint tell (t : ty) : nat :=
  match t with
  | EllipsisT _ => 1
  | DataShapeT _ ps | FunctionT ps | TupleT ps | TypeSetT ps _ => list_sum (map tell ps)
  | OptionT u | CategoricalT _ u _ | UnitsT _ u => tell u
  | MapT k v => tell k + tell v
  | RecordT fs => list_sum (map (fun f => tell (snd f)) fs)
  | _ => 0
  end%nat.
Lemma sum_cons x l : list_sum (x :: l) = (x + list_sum l)%nat. Proof. reflexivity. Qed.
Lemma tell_launder t : (tell (launder_ty t) <= tell t)%nat.
Proof. destruct t as [| | | | | | | | | | | | | | |nm ps| | | | | | |]; try (cbn; lia). destruct ps as [|p [|q ps]]; try (cbn; lia). Qed.
(** ellipsis tokens *)
Definition ell (p : ptok) : bool :=
  match p with
  | PTok t => match tk_kind t, tk_val t with
              | KEll, _ => true
              | KLower, VStr s => str_eqb s $"ellipsis"
              | _, _ => false
              end
  | _ => false
  end.
Definition nell (ts : toks) : nat := length (filter ell ts).
Lemma nell_app a b : nell (a ++ b) = (nell a + nell b)%nat.
Proof. unfold nell. now rewrite filter_app, app_length. Qed.
Lemma nell_suffix a b : Suffix a b -> (nell a <= nell b)%nat.
Proof. intros [p ->]. rewrite nell_app. lia. Qed.

(** labels *)
Definition lab (p q : ptok) : list str :=
  match p, q with
  | PTok a, PTok b => match tk_kind b, tk_val a with KColon, VStr n => [n] | _, _ => [] end
  | _, _ => []
  end.
Fixpoint labels (ts : toks) : list str :=
  match ts with
  | p :: (q :: _) as r => lab p q ++ labels r
  | _ => []
  end.
Lemma labels_cons p q r : labels (p :: q :: r) = lab p q ++ labels (q :: r). Proof. reflexivity. Qed.
Lemma labels_suffix a b : Suffix a b -> exists l, labels b = l ++ labels a.
Proof.
  intros [p ->]. induction p as [|x p [l IH]]; [exists []; reflexivity|].
  cbn [app]. destruct (p ++ a) as [|y r] eqn:E.
  - exists []. apply app_eq_nil in E as [_ ->]. reflexivity.
  - rewrite labels_cons, IH. exists (lab x y ++ l). now rewrite app_assoc.
Qed.
Lemma NoDup_app_r {A} (a b : list A) : NoDup (a ++ b) -> NoDup b.
Proof. induction a; cbn; auto. intro N. inversion N; auto. Qed.
Lemma NoDup_app_l {A} (a b : list A) : NoDup (a ++ b) -> NoDup a.
Proof.
  induction a as [|x a IH]; cbn; intro N; [constructor|]. inversion N as [|? ? N1 N2]; subst. constructor; auto.
  intro H. apply N1, in_or_app. auto.
Qed.
Inductive Subseq {A} : list A -> list A -> Prop :=
| Sub_nil l : Subseq [] l
| Sub_skip x a l : Subseq a l -> Subseq a (x :: l)
| Sub_keep x a l : Subseq a l -> Subseq (x :: a) (x :: l).
Lemma Subseq_In {A} (a l : list A) x : Subseq a l -> In x a -> In x l.
Proof. induction 1; simpl; intuition. Qed.
Lemma Subseq_NoDup {A} (a l : list A) : Subseq a l -> NoDup l -> NoDup a.
Proof.
  induction 1; intro N; [constructor|inversion N; auto|]. inversion N; subst. constructor; auto.
  intro H'. apply H2. eapply Subseq_In; eauto.
Qed.
Lemma Subseq_app {A} (a b l m : list A) : Subseq a l -> Subseq b m -> Subseq (a ++ b) (l ++ m).
Proof.
  intros H K. induction H; cbn [app]; try (constructor; assumption).
  induction l; cbn; auto. constructor; auto.
Qed.
Lemma Subseq_grow {A} (a l m : list A) : Subseq a l -> Subseq a (l ++ m).
Proof. intro H. rewrite <- (app_nil_r a). apply Subseq_app; auto. constructor. Qed.

(** no datashape that [validate] visits ends in an ellipsis *)
Fixpoint fine (t : ty) : bool :=
  match t with
  | DataShapeT _ ps => negb (is_Ellipsis (last ps NullT)) && forallb fine ps
  | FunctionT ps => forallb fine ps
  | OptionT u | CategoricalT _ u _ => fine u
  | MapT k v => fine k && fine v
  | _ => true
  end.
Lemma fine_launder t : fine t = true -> fine (launder_ty t) = true.
Proof.
  destruct t as [| | | | | | | | | | | | | | |nm ps| | | | | | |]; auto. destruct ps as [|p [|q ps]]; auto.
  cbn [fine forallb launder_ty]. intro H. apply andb_true_iff in H as [_ H]. apply andb_true_iff in H as [H _]. exact H.
Qed.
Definition measurable (t : ty) : Prop :=
  is_DataShape t = false /\ may_be_measure t = true /\ is_Ellipsis t = false /\ fine t = true.
(** datashapes as the parser builds them without brackets *)
Definition shaped (t : ty) : Prop := exists ps, t = DataShapeT None ps /\
  Forall (fun p => is_DataShape p = false) ps /\ ps <> [] /\
  may_be_measure (last ps NullT) = true /\ forallb may_be_dim (removelast ps) = true /\ fine t = true.
Lemma mk_ds_measure t : is_DataShape t = false -> may_be_measure t = true -> mk_ds [t] = Ok (DataShapeT None [t]).
Proof.
  intros H M. unfold mk_ds, mk_datashape. cbn [map mapM launder bind].
  replace (launder_ty t) with t by (destruct t; auto; discriminate). unfold check_datashape. cbn [last]. rewrite M. reflexivity.
Qed.
Lemma map_launder l : Forall (fun p => is_DataShape p = false) l -> map launder_ty l = l.
Proof. induction 1 as [|x l H _ IH]; cbn [map]; [reflexivity|]. rewrite IH. f_equal. destruct x; auto; discriminate. Qed.
Lemma mk_ds_dim d t : is_DataShape d = false -> may_be_dim d = true -> shaped t ->
  fine d = true -> exists u, mk_ds (d :: ds_params t) = Ok u /\ shaped u /\ tell u = (tell d + tell t)%nat.
Proof.
  intros H M [ps [-> [F [N [L [R Fi]]]]]] Fd. cbn [ds_params]. unfold mk_ds.
  assert (F' : Forall (fun p => is_DataShape p = false) (d :: ps)) by (constructor; auto).
  unfold mk_datashape. cbn [map]. change (PTy d :: map PTy ps) with (map PTy (d :: ps)).
  rewrite mapM_launder_PTy, (map_launder _ F'). cbn [bind]. unfold check_datashape.
  destruct ps as [|x ps]; [congruence|].
  change (last (d :: x :: ps) NullT) with (last (x :: ps) NullT). change (removelast (d :: x :: ps)) with (d :: removelast (x :: ps)).
  rewrite L. cbn [negb forallb]. rewrite M, R. cbn [andb]. eexists. split; [reflexivity|]. split; [|reflexivity].
  exists (d :: x :: ps). split; auto. split; auto. split; [discriminate|]. split; [exact L|]. split; [change (removelast (d :: x :: ps)) with (d :: removelast (x :: ps)); cbn [forallb]; rewrite M; exact R|].
  cbn [fine] in *. change (last (d :: x :: ps) NullT) with (last (x :: ps) NullT). apply andb_true_iff in Fi as [Fi1 Fi2]. rewrite Fi1.
  cbn [forallb andb]. rewrite Fd. exact Fi2.
Qed.

(** ** The invariant *)
Section Errs.
  Variable E : env.
  Variable dsh : str -> res ty.
  Variable br : bool.                (* brackets allowed *)
  Variable T0 : toks.                (* the whole stream *)
  Variable Q : exn -> Prop.
  Notation sym := (default_sym E dsh).
  Definition only {A} (x : res A) : Prop := match x with Ok _ => True | Raise e => Q e end.

  Hypothesis HSyn : forall p m, Q (SyntaxErr p m).
  Hypothesis HFuel : Q OutOfFuel.
  Hypothesis HErr : forall e, In (PErr e) T0 -> Q e.
  Hypothesis HbrE : br = true -> forall e, In e [TypeErr; ValueErr; NotImplErr; NotModelled] -> Q e.
  Hypothesis HbrC : br = true -> forall n con, constr_fun E dsh n = Some con -> forall args kw, only (con args kw).
  Hypothesis HbrD : br = true -> forall n con, dim_constr_fun E n = Some con -> forall a, only (con a).
  Hypothesis Hnb : br = false -> forall t, In (PTok t) T0 -> tk_kind t <> KLBk.
  Hypothesis Hup : forall t, In (PTok t) T0 -> tk_kind t = KUpper -> exists c r, tk_val t = VStr (c :: r) /\ is_upper c = true.
  Hypothesis Hname : forall t, In (PTok t) T0 -> tk_kind t = KLower \/ tk_kind t = KOther \/ tk_kind t = KStr -> exists s, tk_val t = VStr s.
  Hypothesis Hint : forall t, In (PTok t) T0 -> tk_kind t = KInt -> exists z, tk_val t = VInt z /\ ((z < 0)%Z -> Q ValueErr).
  Hypothesis Hlab : ~ NoDup (labels T0) -> Q ValueErr.

  Definition res1 {A} (V : A -> toks -> toks -> Prop) (ts : toks) (x : P A) : Prop :=
    match x with
    | Raise e => Q e
    | Ok (o, r) => Suffix r ts /\ (br = false -> forall a, o = Some a -> V a ts r)
    end.
  Definition good1 {A} (V : A -> toks -> toks -> Prop) (p : toks -> P A) : Prop :=
    forall ts, Suffix ts T0 -> res1 V ts (p ts).

  Lemma kind_tok k ts : kind_is k ts = true -> exists t r, ts = PTok t :: r /\ tk_kind t = k.
  Proof.
    intro H. apply kind_is_Some in H. destruct ts as [|[t| |] r]; try discriminate. cbn in H. injection H as H. eauto.
  Qed.
  Lemma advance_1 t r : Suffix (PTok t :: r) T0 -> match advance (PTok t :: r) with Ok r' => r' = r | Raise e => Q e end.
  Proof.
    intro S. destruct r as [|[u| |e] r]; cbn; auto. apply HErr. eapply Suffix_In; [exact S|]. right; left; reflexivity.
  Qed.
  Lemma raise_1 {A} V ts ts' m : res1 V ts (raise_error (A := option A * toks) ts' m). Proof. cbn. apply HSyn. Qed.
  Lemma ok_1 {A} (V : A -> toks -> toks -> Prop) ts o r : Suffix r ts -> (br = false -> forall a, o = Some a -> V a ts r) -> res1 V ts (Ok (o, r)).
  Proof. intros; split; auto. Qed.
  Lemma none_1 {A} (V : A -> toks -> toks -> Prop) ts r : Suffix r ts -> res1 V ts (Ok (None, r)).
  Proof. intros. split; auto. discriminate. Qed.

  (** lists *)
  Section Hom.
    Context {A : Type} (V : A -> toks -> toks -> Prop) (W : list A -> toks -> toks -> Prop).
    Hypothesis W0 : forall ts, W [] ts ts.
    Hypothesis W1 : forall l x a b c, W l a b -> V x b c -> W (l ++ [x]) a c.
    Hypothesis W2 : forall l a b c, W l a b -> Suffix c b -> W l a c.
    Lemma hom_loop_1 item sep tr : good1 V item -> forall n saved items ts, Suffix saved T0 -> Suffix ts saved ->
      (br = false -> W items saved ts) -> res1 W saved (hom_loop item n sep tr saved items ts).
    Proof.
      intros HI n. induction n as [|n IH]; intros saved items ts S0 S H; cbn [hom_loop]; [exact HFuel|].
      assert (ST : Suffix ts T0) by (eapply Suffix_trans; eauto).
      pose proof (HI ts ST) as K. destruct (item ts) as [[o ts1]|e]; cbn [bind]; [|exact K]. destruct K as [K1 K2].
      assert (S1 : Suffix ts1 saved) by (eapply Suffix_trans; eauto).
      destruct o as [x|].
      - destruct (kind_is sep ts1) eqn:Ek.
        + apply kind_tok in Ek as [t [r [-> Ek]]]. pose proof (advance_1 t r) as Ad.
          destruct (advance (PTok t :: r)) as [r'|e]; cbn [bind]; [|apply Ad; eapply Suffix_trans; eauto].
          rewrite Ad by (eapply Suffix_trans; eauto). apply IH; auto.
          * eapply Suffix_trans; [|exact S1]. apply Suffix_tl.
          * intro Hb. eapply W2; [|apply Suffix_tl]. eapply W1; [apply H; exact Hb|]. apply K2; auto.
        + apply ok_1; auto. intros Hb a Ha. injection Ha as <-. eapply W1; [apply H; exact Hb|]. apply K2; auto.
      - destruct items as [|i items]; [apply none_1; apply Suffix_refl|]. destruct tr; [|apply raise_1].
        apply ok_1; auto. intros Hb a Ha. injection Ha as <-. eapply W2; [apply H; exact Hb|exact K1].
    Qed.
    Lemma hom_list_1 item sep tr : good1 V item -> good1 W (hom_list item sep tr).
    Proof. intros HI ts S. unfold hom_list. apply hom_loop_1; auto using Suffix_refl. Qed.
  End Hom.

  Definition TT {A} (_ : A) (_ _ : toks) : Prop := True.

  Ltac adv t r k Hk :=
    let Ad := fresh "Ad" in
    apply kind_tok in Hk as [t [r [-> Hk]]];
    pose proof (advance_1 t r) as Ad.

  Section Level.
    Variable rec : toks -> P ty.
    Definition VD (t : ty) (ts r : toks) : Prop := shaped t /\ (tell t + nell r <= nell ts)%nat.
    Hypothesis Hrec : good1 VD rec.

    Lemma good1_TT {A} (V : A -> toks -> toks -> Prop) p : good1 V p -> good1 TT p.
    Proof.
      intros H ts S. specialize (H ts S). destruct (p ts) as [[o r]|e]; cbn in *; auto. destruct H; split; auto. unfold TT. auto.
    Qed.
    Lemma tokval_1 k f : good1 TT (parse_tokval k f).
    Proof.
      intros ts S. unfold parse_tokval. destruct (kind_is k ts) eqn:Ek; [|apply none_1, Suffix_refl].
      adv t r k Ek. destruct (advance _) as [r'|e]; cbn [bind]; [|apply Ad; exact S]. rewrite (Ad S).
      apply ok_1; [apply Suffix_tl|]. unfold TT; auto.
    Qed.
    Lemma rec_targ_1 : good1 TT (rec_targ rec).
    Proof.
      intros ts S. unfold rec_targ. pose proof (Hrec ts S) as K. destruct (rec ts) as [[o r]|e]; cbn [bind]; [|exact K].
      destruct K. apply ok_1; auto. unfold TT; auto.
    Qed.
    Lemma homTT {A} (item : toks -> P A) sep tr : good1 TT item -> good1 TT (hom_list item sep tr).
    Proof. intro H. eapply hom_list_1 with (V := TT); auto; unfold TT; auto. Qed.
    Lemma res1_TT_trans {A} (x : P A) ts ts' : res1 TT ts' x -> Suffix ts' ts -> res1 TT ts x.
    Proof. destruct x as [[o r]|e]; cbn; auto. intros [H _] S. split; [eapply Suffix_trans; eauto|unfold TT; auto]. Qed.
    Lemma try_1 k (v : option (list targ)) ts : Suffix ts T0 ->
      res1 TT ts (match v with Some _ => Ok (v, ts) | None => hom_list (parse_tokval k val_targ) KComma (Complain (another k)) ts end).
    Proof. intro S. destruct v; [apply ok_1; [apply Suffix_refl|unfold TT; auto]|]. apply homTT; auto using tokval_1. Qed.

    Lemma type_arg_1 : good1 TT (parse_type_arg rec).
    Proof.
      intros ts S. unfold parse_type_arg. pose proof (Hrec ts S) as K. destruct (rec ts) as [[o ts1]|e]; cbn [bind]; [|exact K].
      destruct K as [K _]. assert (S1 : Suffix ts1 T0) by (eapply Suffix_trans; eauto).
      destruct o as [x|]; [apply ok_1; unfold TT; auto|].
      destruct (kind_is KInt ts1 || kind_is KStr ts1 || kind_is KBool ts1) eqn:Ek.
      - assert (Ex : exists t r, ts1 = PTok t :: r).
        { apply orb_true_iff in Ek as [Ek|Ek]; [apply orb_true_iff in Ek as [Ek|Ek]|]; apply kind_tok in Ek as [t [r [-> _]]]; eauto. }
        destruct Ex as [t [r ->]]. pose proof (advance_1 t r S1) as Ad. destruct (advance _) as [r'|e]; cbn [bind]; [|exact Ad]. subst r'.
        apply ok_1; [|unfold TT; auto]. eapply Suffix_cons. exact K.
      - destruct (kind_is KLBk ts1) eqn:El; [|apply none_1; auto].
        adv t r KLBk El. destruct (advance _) as [r'|e]; cbn [bind]; [|apply Ad; exact S1]. rewrite (Ad S1). clear r' Ad.
        assert (S2 : Suffix r T0) by (eapply Suffix_cons; eauto). assert (S2' : Suffix r ts) by (eapply Suffix_cons; eauto).
        pose proof (homTT _ KComma (Complain MAnotherDatashape) rec_targ_1 r S2) as K1. destruct (hom_list _ _ _ r) as [[v1 ts3]|e]; cbn [bind]; [|exact K1].
        destruct K1 as [K1 _]. assert (S3 : Suffix ts3 T0) by (eapply Suffix_trans; eauto).
        pose proof (try_1 KInt v1 ts3 S3) as K2. destruct (match v1 with Some _ => _ | None => _ end) as [[v2 ts4]|e]; cbn [bind]; [|exact K2].
        destruct K2 as [K2 _]. assert (S4 : Suffix ts4 T0) by (eapply Suffix_trans; eauto).
        pose proof (try_1 KStr v2 ts4 S4) as K3. destruct (match v2 with Some _ => _ | None => _ end) as [[v3 ts5]|e]; cbn [bind]; [|exact K3].
        destruct K3 as [K3 _]. assert (S5 : Suffix ts5 T0) by (eapply Suffix_trans; eauto).
        pose proof (try_1 KBool v3 ts5 S5) as K4. destruct (match v3 with Some _ => _ | None => _ end) as [[v4 ts6]|e]; cbn [bind]; [|exact K4].
        destruct K4 as [K4 _]. assert (S6 : Suffix ts6 T0) by (eapply Suffix_trans; eauto).
        destruct (kind_is KRBk ts6) eqn:Er; [|apply raise_1].
        adv t' r' KRBk Er. destruct (advance _) as [r''|e]; cbn [bind]; [|apply Ad; exact S6]. rewrite (Ad S6).
        apply ok_1; [|unfold TT; auto]. eapply Suffix_cons. eapply Suffix_trans; [exact K4|]. eapply Suffix_trans; [exact K3|].
        eapply Suffix_trans; [exact K2|]. eapply Suffix_trans; [exact K1|]. exact S2'.
    Qed.
    Lemma type_kwarg_1 : good1 TT (parse_type_kwarg rec).
    Proof.
      intros ts S. unfold parse_type_kwarg. destruct (kind_is KLower ts) eqn:Ek; [|apply none_1, Suffix_refl].
      adv t r KLower Ek. destruct (advance _) as [r'|e]; cbn [bind]; [|apply Ad; exact S]. rewrite (Ad S). clear r' Ad.
      destruct (kind_is KEq r) eqn:Eq; [|apply none_1, Suffix_refl].
      adv t' r' KEq Eq. assert (S1 : Suffix (PTok t' :: r') T0) by (eapply Suffix_cons; eauto).
      destruct (advance _) as [r''|e]; cbn [bind]; [|apply Ad; exact S1]. rewrite (Ad S1). clear r'' Ad.
      pose proof (type_arg_1 r' (Suffix_cons _ _ _ S1)) as K. destruct (parse_type_arg rec r') as [[a ts3]|e]; cbn [bind]; [|exact K].
      destruct K as [K _]. destruct a; [|apply raise_1]. apply ok_1; [|unfold TT; auto].
      eapply Suffix_trans; [exact K|]. eapply Suffix_trans; [apply Suffix_tl|apply Suffix_tl].
    Qed.
    Lemma arg_loop_1 : forall n args ts, Suffix ts T0 ->
      match arg_loop rec n args ts with Ok (_, _, r) => Suffix r ts | Raise e => Q e end.
    Proof.
      induction n as [|n IH]; intros args ts S; cbn [arg_loop]; [exact HFuel|].
      pose proof (type_arg_1 ts S) as K. destruct (parse_type_arg rec ts) as [[a ts1]|e]; cbn [bind]; [|exact K].
      destruct K as [K _]. assert (S1 : Suffix ts1 T0) by (eapply Suffix_trans; eauto). destruct a as [x|].
      - destruct (kind_is KComma ts1) eqn:Ek; [|exact K].
        adv t r KComma Ek. destruct (advance _) as [r'|e]; cbn [bind]; [|apply Ad; exact S1]. rewrite (Ad S1).
        specialize (IH (args ++ [x]) r (Suffix_cons _ _ _ S1)). destruct (arg_loop rec n _ r) as [[[? ?] r2]|e]; auto.
        eapply Suffix_trans; [exact IH|]. eapply Suffix_cons; eauto.
      - pose proof (homTT _ KComma (Complain MKeyword) type_kwarg_1 ts1 S1) as K1. destruct (hom_list _ _ _ ts1) as [[kw ts2]|e]; cbn [bind]; [|exact K1].
        destruct K1 as [K1 _]. eapply Suffix_trans; eauto.
    Qed.

    (** records *)
    Definition VF (f : str * ty) (ts r : toks) : Prop :=
      shaped (snd f) /\ (tell (snd f) + nell r <= nell ts)%nat /\ exists l, labels ts = fst f :: l ++ labels r.
    Lemma struct_field_1 : good1 VF (parse_struct_field rec).
    Proof.
      intros ts S. unfold parse_struct_field. destruct (kind_is KLower ts || kind_is KUpper ts || kind_is KOther ts || kind_is KStr ts) eqn:Ek;
        [|apply none_1, Suffix_refl].
      assert (Ex : exists t r, ts = PTok t :: r /\ (tk_kind t = KLower \/ tk_kind t = KUpper \/ tk_kind t = KOther \/ tk_kind t = KStr)).
      { apply orb_true_iff in Ek as [Ek|Ek]; [apply orb_true_iff in Ek as [Ek|Ek]; [apply orb_true_iff in Ek as [Ek|Ek]|]|];
          apply kind_tok in Ek as [t [r [-> Ek]]]; eauto 7. }
      clear Ek. destruct Ex as [t [r [-> Ek]]]. pose proof (advance_1 t r S) as Ad. destruct (advance _) as [r'|e]; cbn [bind]; [|exact Ad]. subst r'.
      assert (It : In (PTok t) T0) by (eapply Suffix_In; [exact S|left; reflexivity]).
      destruct (kind_is KColon r) eqn:Ec; [|apply raise_1].
      adv t' r' KColon Ec. assert (S1 : Suffix (PTok t' :: r') T0) by (eapply Suffix_cons; eauto).
      destruct (advance _) as [r''|e]; cbn [bind]; [|apply Ad; exact S1]. rewrite (Ad S1). clear r'' Ad.
      pose proof (Hrec r' (Suffix_cons _ _ _ S1)) as K. destruct (rec r') as [[a ts3]|e]; cbn [bind]; [|exact K].
      destruct K as [K1 K2]. destruct a as [u|]; [|apply raise_1]. apply ok_1.
      - eapply Suffix_trans; [exact K1|]. eapply Suffix_trans; [apply Suffix_tl|apply Suffix_tl].
      - intros Hb a Ha. injection Ha as <-. destruct (K2 Hb u eq_refl) as [D N]. cbn [fst snd tok_value]. split; [exact D|]. split.
        + assert (nell r' <= nell (PTok t :: PTok t' :: r'))%nat by (apply nell_suffix; exists [PTok t; PTok t']; reflexivity). cbn [snd]. lia.
        + assert (V : exists s, tk_val t = VStr s).
          { destruct Ek as [Ek|[Ek|[Ek|Ek]]]; [apply Hname; auto| |apply Hname; auto|apply Hname; auto]. destruct (Hup t It Ek) as [c [w [H _]]]; eauto. }
          destruct V as [s V]. rewrite V. cbn [vstr].
          destruct (labels_suffix ts3 (PTok t' :: r')) as [l Hl]; [eapply Suffix_trans; [exact K1|apply Suffix_tl]|].
          exists l. rewrite labels_cons, Hl. cbn [lab]. rewrite Ec, V. reflexivity.
    Qed.
    Definition WF' (fs : list (str * ty)) (ts r : toks) : Prop :=
      Forall (fun f => shaped (snd f)) fs /\ (list_sum (map (fun f => tell (snd f)) fs) + nell r <= nell ts)%nat /\
      exists l, labels ts = l ++ labels r /\ Subseq (map fst fs) l.
    Lemma fields_1 : good1 WF' (hom_list (parse_struct_field rec) KComma Trailing).
    Proof.
      apply hom_list_1 with (V := VF); [| | |exact struct_field_1].
      - intro ts. split; [constructor|]. split; [cbn; lia|]. exists []. split; auto. constructor.
      - intros l [n u] a b c [H1 [H2 [la [H3 H4]]]] [K1 [K2 [lb K3]]]. cbn [fst snd] in *. split; [|split].
        + apply Forall_app; split; auto.
        + rewrite map_app, list_sum_app. cbn [map list_sum fold_right snd]. lia.
        + exists (la ++ n :: lb). split; [rewrite H3, K3, <- app_assoc; reflexivity|].
          rewrite map_app. apply Subseq_app; auto. cbn. apply Sub_keep. constructor.
      - intros l a b c [H1 [H2 [la [H3 H4]]]] S. split; [exact H1|]. split; [apply nell_suffix in S; lia|].
        destruct (labels_suffix _ _ S) as [l' Hl]. exists (la ++ l'). split; [rewrite H3, Hl, app_assoc; reflexivity|]. now apply Subseq_grow.
    Qed.
    Definition WT (l : list ty) (ts r : toks) : Prop :=
      Forall shaped l /\ (list_sum (map tell l) + nell r <= nell ts)%nat.
    Lemma items_1 : good1 WT (hom_list rec KComma Trailing).
    Proof.
      apply hom_list_1 with (V := VD); [| | |exact Hrec].
      - intro ts. split; [constructor|cbn; lia].
      - intros l u a b c [H1 H2] [K1 K2]. split.
        + apply Forall_app; split; auto.
        + rewrite map_app, list_sum_app. cbn [map list_sum fold_right]. lia.
      - intros l a b c [H1 H2] S. split; [exact H1|]. apply nell_suffix in S; lia.
    Qed.
    Definition VT (t : ty) (ts r : toks) : Prop :=
      measurable t /\ (tell t + nell r <= nell ts)%nat.

    Lemma struct_con fs : (br = false -> Forall (fun f : str * ty => shaped (snd f)) fs /\ (NoDup (map fst fs) \/ Q ValueErr)) ->
      forall con, constr_fun E dsh $"struct" = Some con ->
      match con [AList (map (fun f => AStr (fst f)) fs); AList (map (fun f => ADs (snd f)) fs)] [] with
      | Raise e => Q e
      | Ok t => br = false -> measurable t /\ (tell t <= list_sum (map (fun f => tell (snd f)) fs))%nat
      end.
    Proof.
      intros H con Hc. destruct br eqn:B.
      { pose proof (HbrC eq_refl _ _ Hc [AList (map (fun f => AStr (fst f)) fs); AList (map (fun f => ADs (snd f)) fs)] []) as K.
        destruct (con _ _); [|exact K]. intro; discriminate. }
      destruct (H eq_refl) as [F N]. cbn in Hc. injection Hc as <-. cbn [call_bind map forallb bind_pos assoc bind fst str_eqb nth].
      cbn. unfold c_struct. cbn [targ_iter bind].
      assert (M : forall l : list (str * ty),
        mapM (fun p => targ_str E (fst p)) (combine (map (fun f => AStr (fst f)) l) (map (fun f => ADs (snd f)) l)) = Ok (map fst l)).
      { induction l as [|f l IH]; cbn [map combine]; [reflexivity|]. rewrite mapM_cons. cbn [fst targ_str bind]. rewrite IH. reflexivity. }
      assert (M2 : forall l : list (str * ty),
        mapM (fun p => targ_launder dsh (snd p)) (combine (map (fun f => AStr (fst f)) l) (map (fun f => ADs (snd f)) l)) = Ok (map (fun f => launder_ty (snd f)) l)).
      { induction l as [|f l IH]; cbn [map combine]; [reflexivity|]. rewrite mapM_cons. cbn [snd targ_launder launder bind]. rewrite IH. reflexivity. }
      rewrite M, M2. cbn [bind]. destruct (nodup_str (map fst fs)) eqn:En.
      - intros _. split; [repeat split|]. cbn [tell].
        clear -F. induction F as [|[n u] l D F IH]; [cbn; lia|]. cbn [map combine snd fst] in *.
        pose proof (tell_launder u). rewrite !sum_cons. lia.
      - destruct N as [N|N]; [|exact N]. exfalso. apply nodup_str_NoDup in N. congruence.
    Qed.

    Lemma tuple_con l : (br = false -> Forall shaped l) -> forall con, constr_fun E dsh $"tuple" = Some con ->
      match con [AList (map ADs l)] [] with
      | Raise e => Q e
      | Ok t => br = false -> measurable t /\ (tell t <= list_sum (map tell l))%nat
      end.
    Proof.
      intros H con Hc. destruct br eqn:B.
      { pose proof (HbrC eq_refl _ _ Hc [AList (map ADs l)] []) as K. destruct (con _ _); [|exact K]. intro; discriminate. }
      specialize (H eq_refl). cbn in Hc. injection Hc as <-. cbn. unfold c_tuple. cbn [targ_iter bind]. unfold mk_tuple.
      assert (M : mapM (tuple_item dsh) (map targ_parg (map ADs l)) = Ok l).
      { induction H as [|u l D _ IH]; cbn [map]; [reflexivity|]. rewrite mapM_cons, IH. destruct D as [ps [-> _]]. reflexivity. }
      rewrite M. cbn [bind]. intros _. split; [repeat split|]. cbn [tell]. lia.
    Qed.
    Lemma func_con l r : (br = false -> Forall shaped l /\ shaped r) -> forall con, constr_fun E dsh $"funcproto" = Some con ->
      match con [AList (map ADs l); ADs r] [] with
      | Raise e => Q e
      | Ok t => br = false -> measurable t /\ (tell t <= list_sum (map tell l) + tell r)%nat
      end.
    Proof.
      intros HS con Hc. destruct br eqn:B.
      { pose proof (HbrC eq_refl _ _ Hc [AList (map ADs l); ADs r] []) as K. destruct (con _ _); [|exact K]. intro; discriminate. }
      cbn in Hc. injection Hc as <-. cbn. unfold c_funcproto. cbn [targ_iter bind].
      assert (M : mapM targ_ds (map ADs l) = Ok l).
      { clear. induction l as [|u l IH]; cbn [map]; [reflexivity|]. rewrite mapM_cons, IH. reflexivity. }
      rewrite M. cbn [bind targ_ds]. intros _. split.
      { destruct (HS eq_refl) as [F [ps [_ [_ [_ [_ [_ Fr]]]]]]]. split; [reflexivity|]. split; [reflexivity|]. split; [reflexivity|]. cbn [fine].
        rewrite forallb_app. cbn [forallb]. rewrite Fr. cbn [andb]. rewrite andb_true_r. apply forallb_forall. intros x Hx.
        rewrite Forall_forall in F. destruct (F x Hx) as [? [_ [_ [_ [_ [_ Fx]]]]]]. exact Fx. }
      cbn [tell].
      rewrite map_app, list_sum_app. cbn [map]. rewrite sum_cons. change (list_sum []) with 0%nat. lia.
    Qed.

    Lemma struct_type_1 ts : Suffix ts T0 -> kind_is KLBc ts = true -> res1 VT ts (parse_struct_type sym rec ts).
    Proof.
      intros S Ek. unfold parse_struct_type. adv t r KLBc Ek. destruct (advance _) as [r'|e]; cbn [bind]; [|apply Ad; exact S]. rewrite (Ad S). clear r' Ad.
      pose proof (fields_1 r (Suffix_cons _ _ _ S)) as K. destruct (hom_list _ _ _ r) as [[fs ts2]|e]; cbn [bind]; [|exact K]. destruct K as [K1 K2].
      destruct (kind_is KRBc ts2) eqn:Er; [|apply raise_1].
      assert (S2 : Suffix ts2 T0) by (eapply Suffix_trans; [exact K1|eapply Suffix_cons; exact S]).
      adv t' r' KRBc Er. destruct (advance _) as [r''|e]; cbn [bind]; [|apply Ad; exact S2]. rewrite (Ad S2). clear r'' Ad.
      destruct (st_dtype_constr sym $"struct") as [con|] eqn:Ec; [|discriminate]. unfold sugar; try rewrite Ec; cbn [bind].
      assert (W : br = false -> WF' (opt_list fs) r (PTok t' :: r')).
      { intro Hb. destruct fs as [fs|]; [apply K2; auto|]. cbn [opt_list]. split; [constructor|].
        pose proof (nell_suffix _ _ K1). split; [cbn [map list_sum fold_right]; lia|]. destruct (labels_suffix _ _ K1) as [l Hl]. exists l. split; auto. constructor. }
      assert (N : br = false -> NoDup (map fst (opt_list fs)) \/ Q ValueErr).
      { intro Hb. destruct (W Hb) as [_ [_ [l [Hl Hs]]]].
        destruct (ListDec.NoDup_dec (list_eq_dec N.eq_dec) (labels T0)) as [N|N]; [left|right; auto].
        eapply Subseq_NoDup; [exact Hs|].
        destruct (labels_suffix r T0 (Suffix_cons _ _ _ S)) as [l1 Hl1]. rewrite Hl1, Hl in N.
        apply NoDup_app_r in N. apply NoDup_app_l in N. exact N. }
      pose proof (struct_con (opt_list fs) (fun Hb => conj (proj1 (W Hb)) (N Hb)) con Ec) as SC.
      destruct (con _ _) as [u|e]; cbn [bind]; [|exact SC]. apply ok_1.
      - eapply Suffix_trans; [apply Suffix_tl|]. eapply Suffix_trans; [exact K1|apply Suffix_tl].
      - intros Hb a Ha. injection Ha as <-. destruct (SC Hb) as [C1 C3]. destruct (W Hb) as [_ [W2 _]]. split; auto.
        pose proof (nell_suffix _ _ (Suffix_tl (PTok t') r')). pose proof (nell_suffix _ _ (Suffix_tl (PTok t) r)). lia.
    Qed.
    Lemma funcproto_1 ts : Suffix ts T0 -> kind_is KLP ts = true -> res1 VT ts (parse_funcproto_or_tuple sym rec ts).
    Proof.
      intros S Ek. unfold parse_funcproto_or_tuple. adv t r KLP Ek. destruct (advance _) as [r'|e]; cbn [bind]; [|apply Ad; exact S]. rewrite (Ad S). clear r' Ad.
      pose proof (items_1 r (Suffix_cons _ _ _ S)) as K. destruct (hom_list _ _ _ r) as [[ds ts2]|e]; cbn [bind]; [|exact K]. destruct K as [K1 K2].
      destruct (kind_is KRP ts2) eqn:Er; [|apply raise_1].
      assert (S2 : Suffix ts2 T0) by (eapply Suffix_trans; [exact K1|eapply Suffix_cons; exact S]).
      adv t' r' KRP Er. destruct (advance _) as [r''|e]; cbn [bind]; [|apply Ad; exact S2]. rewrite (Ad S2). clear r'' Ad.
      assert (W : br = false -> WT (opt_list ds) r (PTok t' :: r')).
      { intro Hb. destruct ds as [ds|]; [apply K2; auto|]. cbn [opt_list]. split; [constructor|].
        pose proof (nell_suffix _ _ K1). cbn [map list_sum fold_right]; lia. }
      assert (Sr : Suffix r' (PTok t :: r)). { eapply Suffix_trans; [apply Suffix_tl|]. eapply Suffix_trans; [exact K1|apply Suffix_tl]. }
      pose proof (nell_suffix _ _ (Suffix_tl (PTok t') r')) as N1. pose proof (nell_suffix _ _ (Suffix_tl (PTok t) r)) as N2.
      destruct (kind_is KArrow r') eqn:Ea.
      - adv t2 r2 KArrow Ea. assert (S3 : Suffix (PTok t2 :: r2) T0) by (eapply Suffix_cons; exact S2).
        destruct (advance _) as [r''|e]; cbn [bind]; [|apply Ad; exact S3]. rewrite (Ad S3). clear r'' Ad.
        pose proof (Hrec r2 (Suffix_cons _ _ _ S3)) as K. destruct (rec r2) as [[ret ts5]|e]; cbn [bind]; [|exact K]. destruct K as [K3 K4].
        destruct ret as [u|]; [|apply raise_1]. destruct (st_dtype_constr sym $"funcproto") as [con|] eqn:Ec; [|discriminate]. unfold sugar; try rewrite Ec; cbn [bind].
        pose proof (func_con (opt_list ds) u (fun Hb => conj (proj1 (W Hb)) (proj1 (K4 Hb u eq_refl))) con Ec) as FC. destruct (con _ _) as [v|e]; cbn [bind]; [|exact FC]. apply ok_1.
        + eapply Suffix_trans; [exact K3|]. eapply Suffix_cons; exact Sr.
        + intros Hb a Ha. injection Ha as <-. destruct (FC Hb) as [C1 C3]. destruct (W Hb) as [_ W2]. destruct (K4 Hb u eq_refl) as [_ W3].
          split; auto. pose proof (nell_suffix _ _ (Suffix_tl (PTok t2) r2)). lia.
      - destruct (st_dtype_constr sym $"tuple") as [con|] eqn:Ec; [|discriminate]. unfold sugar; try rewrite Ec; cbn [bind].
        pose proof (tuple_con (opt_list ds) (fun Hb => proj1 (W Hb)) con Ec) as FC. destruct (con _ _) as [v|e]; cbn [bind]; [|exact FC]. apply ok_1; auto.
        intros Hb a Ha. injection Ha as <-. destruct (FC Hb) as [C1 C3]. destruct (W Hb) as [_ W2]. split; auto. lia.
    Qed.

    Lemma table_tell n t : assoc n dtype_table = Some t -> measurable t /\ tell t = 0%nat.
    Proof.
      intro Ht. apply assoc_In in Ht. unfold dtype_table in Ht. cbn [In] in Ht.
      repeat (destruct Ht as [Ht|Ht]; [inversion Ht; subst; repeat split; reflexivity|]). contradiction.
    Qed.
    Lemma typevar_con t : In (PTok t) T0 -> tk_kind t = KUpper -> exists s, mk_typevar (e_uni E) s = Ok (TypeVarT s) /\ tk_val t = VStr s.
    Proof.
      intros It Hk. destruct (Hup t It Hk) as [c [r [V U]]]. exists (c :: r). split; auto. unfold mk_typevar, isupper.
      assert (C : (c <? 128)%N = true). { unfold is_upper, in_range in U. apply andb_true_iff in U as [_ U]. apply N.leb_le in U. apply N.ltb_lt. lia. }
      rewrite C, U. reflexivity.
    Qed.

    Lemma dtype_1 : good1 VT (parse_dtype sym rec).
    Proof.
      intros ts S. unfold parse_dtype. destruct (tok_kind ts) as [k|] eqn:Hk; [|apply none_1, Suffix_refl].
      destruct k; try (apply none_1, Suffix_refl).
      - (* lower *)
        assert (Ek : kind_is KLower ts = true) by (unfold kind_is; rewrite Hk; reflexivity). clear Hk.
        adv t r KLower Ek. destruct (advance _) as [r'|e]; cbn [bind]; [|apply Ad; exact S]. rewrite (Ad S). clear r' Ad.
        pose proof (Suffix_cons _ _ _ S) as Sr.
        destruct (kind_is KLBk r) eqn:El.
        + destruct (st_dtype_constr sym _) as [con|] eqn:Ec; [|apply none_1, Suffix_refl].
          adv t' r' KLBk El. destruct (advance _) as [r''|e]; cbn [bind]; [|apply Ad; exact Sr]. rewrite (Ad Sr). clear r'' Ad.
          destruct br eqn:B; [|exfalso; apply (Hnb eq_refl t'); [eapply Suffix_In; [exact Sr|left; reflexivity]|exact El]].
          pose proof (arg_loop_1 (Datatypes.S (length r')) [] r' (Suffix_cons _ _ _ Sr)) as K. unfold parse_type_arg_list.
          destruct (arg_loop rec _ [] r') as [[[args kw] ts3]|e]; cbn [bind]; [|exact K].
          assert (S3 : Suffix ts3 T0) by (eapply Suffix_trans; [exact K|eapply Suffix_cons; exact Sr]).
          destruct (kind_is KRBk ts3) eqn:Er; [|apply raise_1].
          adv t2 r2 KRBk Er.
          assert (G : res1 VT (PTok t :: PTok t' :: r') (let! ts4 := advance (PTok t2 :: r2) in let! t := con args kw in Ok (Some t, ts4))).
          { destruct (advance _) as [r''|e]; cbn [bind]; [|apply Ad; exact S3]. rewrite (Ad S3).
            pose proof (HbrC eq_refl _ _ Ec args kw) as C. destruct (con args kw); cbn [bind]; [|exact C].
            split; [|congruence]. eapply Suffix_cons. eapply Suffix_trans; [exact K|]. eapply Suffix_trans; apply Suffix_tl. }
          destruct args; [destruct kw; [apply raise_1|]|]; exact G.
        + cbn [st_dtype default_sym]. destruct (assoc _ _) as [u|] eqn:Et; [|apply none_1, Suffix_refl].
          apply ok_1; [apply Suffix_tl|]. intros _ a Ha. injection Ha as <-. apply table_tell in Et as [T1 T3].
          split; auto. pose proof (nell_suffix _ _ (Suffix_tl (PTok t) r)). lia.
      - (* upper *)
        assert (Ek : kind_is KUpper ts = true) by (unfold kind_is; rewrite Hk; reflexivity). clear Hk.
        adv t r KUpper Ek. destruct (advance _) as [r'|e]; cbn [bind]; [|apply Ad; exact S]. rewrite (Ad S). clear r' Ad.
        destruct (typevar_con t) as [s [T1 T2]]; [eapply Suffix_In; [exact S|left; reflexivity]|exact Ek|].
        cbn [tok_value]. rewrite T2. cbn. rewrite T1. cbn.
        split; [apply Suffix_tl|]. intros _ a Ha. injection Ha as <-.
        split; [repeat split|]. cbn [tell]. pose proof (nell_suffix _ _ (Suffix_tl (PTok t) r)). lia.
      - apply struct_type_1; auto. unfold kind_is; rewrite Hk; reflexivity.
      - apply funcproto_1; auto. unfold kind_is; rewrite Hk; reflexivity.
    Qed.

    Definition VM (t : ty) (ts r : toks) : Prop :=
      is_DataShape t = false /\ may_be_dim t = true /\ fine t = true /\ (tell t + nell r <= nell ts)%nat.
    Lemma nell_cons p r : nell (p :: r) = ((if ell p then 1 else 0) + nell r)%nat.
    Proof. unfold nell. cbn [filter]. destruct (ell p); reflexivity. Qed.
    Lemma dim_1 : good1 VM (parse_dim sym rec).
    Proof.
      intros ts S. unfold parse_dim. destruct (tok_kind ts) as [k|] eqn:Hk; [|apply none_1, Suffix_refl].
      destruct k; try (apply none_1, Suffix_refl).
      - (* lower *)
        assert (Ek : kind_is KLower ts = true) by (unfold kind_is; rewrite Hk; reflexivity). clear Hk.
        adv t r KLower Ek. destruct (advance _) as [r'|e]; cbn [bind]; [|apply Ad; exact S]. rewrite (Ad S). clear r' Ad.
        pose proof (Suffix_cons _ _ _ S) as Sr.
        destruct (kind_is KLBk r) eqn:El.
        + destruct (st_dim_constr sym _) as [con|] eqn:Ec; [|apply none_1, Suffix_refl].
          adv t' r' KLBk El. destruct (advance _) as [r''|e]; cbn [bind]; [|apply Ad; exact Sr]. rewrite (Ad Sr). clear r'' Ad.
          destruct br eqn:B; [|exfalso; apply (Hnb eq_refl t'); [eapply Suffix_In; [exact Sr|left; reflexivity]|exact El]].
          pose proof (arg_loop_1 (Datatypes.S (length r')) [] r' (Suffix_cons _ _ _ Sr)) as K. unfold parse_type_arg_list.
          destruct (arg_loop rec _ [] r') as [[[args kw] ts3]|e]; cbn [bind]; [|exact K].
          assert (S3 : Suffix ts3 T0) by (eapply Suffix_trans; [exact K|eapply Suffix_cons; exact Sr]).
          destruct (kind_is KRBk ts3) eqn:Er; [|apply raise_1].
          adv t2 r2 KRBk Er. destruct (advance _) as [r''|e]; cbn [bind]; [|apply Ad; exact S3].
          cbn. apply (HbrE eq_refl). right; right; left; reflexivity.
        + destruct (Hname t) as [n Hn]; [eapply Suffix_In; [exact S|left; reflexivity]|left; exact Ek|].
          cbn [st_dim default_sym tok_value]. rewrite Hn. cbn [vstr]. destruct (assoc n dim_table) as [u|] eqn:Et; [|apply none_1, Suffix_refl].
          apply ok_1; [apply Suffix_tl|]. intros _ a Ha. injection Ha as <-.
          unfold dim_table in Et. cbn [assoc] in Et. destruct (str_eqb n $"var") eqn:E1.
          { injection Et as <-. repeat split; auto. cbn [tell]. rewrite nell_cons. lia. }
          destruct (str_eqb n $"ellipsis") eqn:E2; [|discriminate]. injection Et as <-. repeat split; auto. cbn [tell].
          rewrite nell_cons. unfold ell. rewrite Ek, Hn, E2. lia.
      - (* upper *)
        assert (Ek : kind_is KUpper ts = true) by (unfold kind_is; rewrite Hk; reflexivity). clear Hk.
        adv t r KUpper Ek. destruct (advance _) as [r'|e]; cbn [bind]; [|apply Ad; exact S]. rewrite (Ad S). clear r' Ad.
        pose proof (Suffix_cons _ _ _ S) as Sr.
        destruct (typevar_con t) as [s [T1 T2]]; [eapply Suffix_In; [exact S|left; reflexivity]|exact Ek|].
        destruct (kind_is KEll r) eqn:El.
        + adv t' r' KEll El. destruct (advance _) as [r''|e]; cbn [bind]; [|apply Ad; exact Sr]. rewrite (Ad Sr). clear r'' Ad.
          cbn [tok_value]. rewrite T2. cbn. unfold mk_ellipsis. rewrite T1. cbn.
          split; [eapply Suffix_trans; apply Suffix_tl|]. intros _ a Ha. injection Ha as <-. repeat split; auto.
          cbn [tell]. rewrite !nell_cons. unfold ell at 2. rewrite El. destruct (ell _); lia.
        + destruct (kind_is KAst r) eqn:Ea; [|apply none_1, Suffix_refl].
          cbn [tok_value]. rewrite T2. cbn. rewrite T1. cbn.
          split; [apply Suffix_tl|]. intros _ a Ha. injection Ha as <-. repeat split; auto.
          cbn [tell]. pose proof (nell_suffix _ _ (Suffix_tl (PTok t) r)). lia.
      - (* ... *)
        assert (Ek : kind_is KEll ts = true) by (unfold kind_is; rewrite Hk; reflexivity). clear Hk.
        adv t r KEll Ek. destruct (advance _) as [r'|e]; cbn [bind]; [|apply Ad; exact S]. rewrite (Ad S). clear r' Ad.
        cbn. split; [apply Suffix_tl|]. intros _ a Ha. injection Ha as <-. repeat split; auto.
        cbn [tell]. rewrite nell_cons. unfold ell. rewrite Ek. lia.
      - (* integer *)
        assert (Ek : kind_is KInt ts = true) by (unfold kind_is; rewrite Hk; reflexivity). clear Hk.
        adv t r KInt Ek. destruct (advance _) as [r'|e]; cbn [bind]; [|apply Ad; exact S]. rewrite (Ad S). clear r' Ad.
        destruct (kind_is KAst r) eqn:Ea; [|apply none_1, Suffix_refl].
        destruct (Hint t) as [z [Hz HQ]]; [eapply Suffix_In; [exact S|left; reflexivity]|exact Ek|].
        cbn [tok_value]. rewrite Hz. cbn. unfold mk_fixed. destruct (z <? 0)%Z eqn:Ez; cbn.
        + apply HQ. apply Z.ltb_lt. exact Ez.
        + split; [apply Suffix_tl|]. intros _ a Ha. injection Ha as <-. repeat split; auto.
          cbn [tell]. pose proof (nell_suffix _ _ (Suffix_tl (PTok t) r)). lia.
    Qed.
    Lemma mk_ds_only ps : br = true -> only (mk_ds ps).
    Proof.
      intro B. unfold mk_ds, mk_datashape. destruct ps as [|p ps]; [apply (HbrE B); right; left; reflexivity|].
      cbn [map]. change (PTy p :: map PTy ps) with (map PTy (p :: ps)). rewrite mapM_launder_PTy. cbn [bind]. unfold check_datashape.
      destruct (negb _); [apply (HbrE B); left; reflexivity|]. destruct (forallb _ _); [exact I|apply (HbrE B); left; reflexivity].
    Qed.
    Lemma nooption_1 : good1 VD (parse_nooption sym rec).
    Proof.
      intros ts S. unfold parse_nooption. pose proof (dim_1 ts S) as K. destruct (parse_dim sym rec ts) as [[d ts1]|e]; cbn [bind]; [|exact K].
      destruct K as [K1 K2]. assert (S1 : Suffix ts1 T0) by (eapply Suffix_trans; eauto).
      assert (C : res1 VD ts (let! (dt, ts2) := parse_dtype sym rec ts1 in
        match dt with Some t => let! ds := mk_ds [t] in Ok (Some ds, ts2) | None => Ok (None, ts2) end)).
      { pose proof (dtype_1 ts1 S1) as K. destruct (parse_dtype sym rec ts1) as [[u ts2]|e]; cbn [bind]; [|exact K]. destruct K as [K3 K4].
        assert (S2 : Suffix ts2 ts) by (eapply Suffix_trans; eauto).
        destruct u as [u|]; [|apply none_1; exact S2]. pose proof (mk_ds_only [u]) as M. destruct br eqn:B.
        - specialize (M eq_refl). destruct (mk_ds [u]); cbn [bind]; [|exact M]. apply ok_1; auto. congruence.
        - destruct (K4 eq_refl u eq_refl) as [[T1 [T2 [T4 T5]]] T3]. rewrite mk_ds_measure; auto. cbn [bind]. apply ok_1; auto.
          intros _ a Ha. injection Ha as <-. split.
          + exists [u]. split; [reflexivity|]. split; [constructor; auto|]. split; [discriminate|]. split; auto. split; auto.
            cbn [fine last forallb]. rewrite T4, T5. reflexivity.
          + cbn [tell map]. rewrite sum_cons. change (list_sum []) with 0%nat. apply nell_suffix in K1. lia. }
      destruct d as [d|]; [|exact C]. destruct (kind_is KAst ts1) eqn:Ea; [|exact C]. clear C.
      adv t r KAst Ea. destruct (advance _) as [r'|e]; cbn [bind]; [|apply Ad; exact S1]. rewrite (Ad S1). clear r' Ad.
      pose proof (Hrec r (Suffix_cons _ _ _ S1)) as K. destruct (rec r) as [[u ts3]|e]; cbn [bind]; [|exact K]. destruct K as [K3 K4].
      assert (S3 : Suffix ts3 ts). { eapply Suffix_trans; [exact K3|]. eapply Suffix_cons; exact K1. }
      destruct u as [u|]; [|apply raise_1]. pose proof (mk_ds_only (d :: ds_params u)) as M. destruct br eqn:B.
      - specialize (M eq_refl). destruct (mk_ds _); cbn [bind]; [|exact M]. apply ok_1; auto. congruence.
      - destruct (K2 eq_refl d eq_refl) as [D1 [D2 [D4 D3]]]. destruct (K4 eq_refl u eq_refl) as [U1 U2].
        destruct (mk_ds_dim d u D1 D2 U1 D4) as [v [V1 [V2 V3]]]. rewrite V1. cbn [bind]. apply ok_1; auto.
        intros _ a Ha. injection Ha as <-. split; auto. rewrite V3. pose proof (nell_suffix _ _ (Suffix_tl (PTok t) r)). lia.
    Qed.
    Lemma step_1 : good1 VD (parse_datashape_step sym rec).
    Proof.
      intros ts S. unfold parse_datashape_step. destruct (kind_is KQ ts) eqn:Eq; [|apply nooption_1; exact S].
      adv t r KQ Eq. destruct (advance _) as [r'|e]; cbn [bind]; [|apply Ad; exact S]. rewrite (Ad S). clear r' Ad.
      pose proof (nooption_1 r (Suffix_cons _ _ _ S)) as K. destruct (parse_nooption sym rec r) as [[u ts2]|e]; cbn [bind]; [|exact K].
      destruct K as [K1 K2]. assert (S2 : Suffix ts2 (PTok t :: r)) by (eapply Suffix_trans; [exact K1|apply Suffix_tl]).
      destruct u as [u|]; [|apply none_1; exact S2]. cbn. split; [exact S2|]. intros Hb a Ha. injection Ha as <-.
        destruct (K2 Hb u eq_refl) as [[? [_ [_ [_ [_ [_ U3]]]]]] U2]. split.
        + exists [OptionT (launder_ty u)]. split; [reflexivity|]. split; [constructor; auto|]. split; [discriminate|]. split; auto. split; auto.
          cbn [fine last forallb is_Ellipsis negb andb]. rewrite (fine_launder _ U3). reflexivity.
        + cbn [tell map]. rewrite sum_cons. change (list_sum []) with 0%nat. pose proof (tell_launder u). pose proof (nell_suffix _ _ (Suffix_tl (PTok t) r)). lia.
    Qed.
  End Level.

  Lemma datashape_1 n : good1 VD (parse_datashape sym n).
  Proof. induction n as [|n IH]; intros ts S; cbn [parse_datashape]; [exact HFuel|]. apply step_1; auto. Qed.
  Lemma parse_toks_1 :
    match parse_toks sym T0 with
    | Raise e => Q e
    | Ok t => br = false -> (tell t <= nell T0)%nat /\ fine t = true
    end.
  Proof.
    pose proof (datashape_1 (S (length T0)) T0 (Suffix_refl _)) as K. unfold parse_toks.
    assert (G : match (let! (ds, r) := parse_datashape sym (S (length T0)) T0 in
        match ds with None => raise_error r MInvalid | Some t => if at_end r then Ok t else raise_error r MUnexpected end) with
      | Raise e => Q e | Ok t => br = false -> (tell t <= nell T0)%nat /\ fine t = true end).
    { destruct (parse_datashape sym _ T0) as [[o r]|e]; cbn [bind]; [|exact K]. destruct K as [_ K].
      destruct o as [t|]; [|apply HSyn]. destruct (at_end r); [|apply HSyn]. intro Hb. destruct (K Hb t eq_refl) as [[? [_ [_ [_ [_ [_ F]]]]]] H]. split; auto. lia. }
    destruct T0 as [|[t|p|e] r] eqn:Et; try exact G. apply HErr. left; reflexivity.
  Qed.
End Errs.
