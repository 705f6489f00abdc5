(** C59: float(s). *)
From Coq Require Import Reals Lra.
From Flocq Require Import Core.
From Verif Require Import Base Types Lexer Printer Construct Ops Discovery Strings Spec_Time Spec_Strings Proof_Time Proof_Float Proof_Float3 Proof_Strings.
Local Open Scope N_scope.

Lemma map_app_inv' {A B} (f : A -> B) l a b : map f l = a ++ b -> exists x y, l = x ++ y /\ map f x = a /\ map f y = b.
Proof. intro H. apply map_eq_app in H as (x & y & -> & Hx & Hy). eauto. Qed.

Lemma is_digit_95 : is_digit 95 = false. Proof. reflexivity. Qed.

Section F.
  Variable X : chars.
  Hypothesis XO : chars_ok X.
  Notation f := (to_ascii X).
  Notation a10 := (map (N.add 48)).

  (** *** underscores *)
  Lemma del_us_head p q c r : is_digit c = true -> del_us p (c :: r) = del_us q (c :: r).
  Proof.
    intro D. cbn [del_us]. rewrite D. cbn [negb]. rewrite !andb_false_r.
    destruct (N.eqb_spec c 95) as [->|]; [discriminate|reflexivity].
  Qed.
  Lemma del_us_prev p s : p <> 95 -> match s with c :: _ => c <> 95 | [] => True end -> del_us p s = del_us 0 s.
  Proof.
    intros P H. destruct s as [|c s]; cbn [del_us].
    - destruct (N.eqb_spec p 95); [contradiction|reflexivity].
    - destruct (N.eqb_spec c 95); [contradiction|]. destruct (N.eqb_spec p 95); [contradiction|]. reflexivity.
  Qed.
  Lemma del_us_nondigit p s : p <> 95 -> is_digit p = false -> del_us p s = del_us 0 s.
  Proof.
    intros P D. destruct s as [|c s]; cbn [del_us].
    - destruct (N.eqb_spec p 95); [contradiction|reflexivity].
    - rewrite D. cbn [is_digit]. destruct (N.eqb_spec c 95); [reflexivity|]. destruct (N.eqb_spec p 95); [contradiction|]. reflexivity.
  Qed.
  Lemma del_nil t : del_us 0 (map f t) = Some [] -> t = [].
  Proof.
    destruct t as [|c t]; [reflexivity|]. cbn [map del_us]. destruct (N.eqb_spec (f c) 95).
    - discriminate.
    - cbn [andb N.eqb]. destruct (del_us (f c) (map f t)); discriminate.
  Qed.
  Lemma del_cons t c r : del_us 0 (map f t) = Some (c :: r) -> is_digit c = false ->
    exists c0 t', t = c0 :: t' /\ f c0 = c /\ c <> 95 /\ del_us 0 (map f t') = Some r.
  Proof.
    destruct t as [|c0 t]; cbn [map del_us]; [discriminate|]. destruct (N.eqb_spec (f c0) 95) as [|N]; [discriminate|].
    cbn [andb N.eqb]. intros H D. destruct (del_us (f c0) (map f t)) as [u|] eqn:E; [|discriminate].
    cbn [option_map] in H. injection H as <- <-. exists c0, t. split; [auto|]. split; [auto|]. split; [auto|].
    rewrite <- E. symmetry. apply del_us_nondigit; auto.
  Qed.
  Lemma del_cons_plain t c r : plain c -> del_us 0 (map f t) = Some (c :: r) ->
    exists t', t = c :: t' /\ del_us 0 (map f t') = Some r.
  Proof.
    intros P H. destruct (del_cons t c r H) as (c0 & t' & -> & E & _ & H'); [apply P|].
    apply (f_plain1 X XO) in E; auto. subst. eauto.
  Qed.
  Lemma run n : forall t u, (length t <= n)%nat -> del_us 0 (map f t) = Some u ->
    exists t1 t2 ds r, t = t1 ++ t2 /\ Digits0 X t1 ds /\ span_digits u = (a10 ds, r) /\
      del_us 0 (map f t2) = Some r /\ match r with c :: _ => is_digit c = false | [] => True end.
  Proof.
    induction n as [|n IH]; intros t u L H.
    { destruct t; [|cbn [length] in L; lia]. injection H as <-. exists [], [], [], []. repeat split; constructor. }
    destruct t as [|c t]. { injection H as <-. exists [], [], [], []. repeat split; constructor. }
    cbn [map del_us] in H. destruct (N.eqb_spec (f c) 95) as [|N]; [discriminate|]. cbn [andb N.eqb] in H.
    destruct (del_us (f c) (map f t)) as [u'|] eqn:E; [|discriminate]. cbn [option_map] in H. injection H as <-.
    cbn [length] in L. destruct (is_digit (f c)) eqn:D.
    - pose proof D as D'. apply (f_digit X XO) in D' as [d Dd]. destruct (proj1 (Digit_f X XO c d) Dd) as [Ec Ld].
      assert (K : (exists t1 t2 ds r, c :: t = t1 ++ t2 /\ Digits0 X t1 ds /\ ds <> [] /\ d :: a10 (tl ds) = d :: a10 (tl ds) /\ (f c) :: fst (span_digits u') = a10 ds /\ snd (span_digits u') = r /\
        del_us 0 (map f t2) = Some r /\ match r with c :: _ => is_digit c = false | [] => True end)).
      { destruct t as [|c' t].
        - cbn [map del_us] in E. destruct (N.eqb_spec (f c) 95); [contradiction|]. injection E as <-.
          exists [c], [], [d], []. cbn [span_digits fst snd map app]. rewrite <- Ec.
          split; [auto|]. split; [apply Digits0_some, Digits_one; auto|]. repeat split; discriminate.
        - destruct (N.eqb_spec (f c') 95) as [E'|N'].
          + apply (f_plain1 X XO) in E'; [|split; [lia|split; [lia|split; [lia|reflexivity]]]]. subst c'.
            cbn [map] in E. rewrite (f_self X 95) in E by lia. cbn [del_us N.eqb Pos.eqb] in E. rewrite D in E.
            destruct t as [|c2 t]; [discriminate|]. cbn [map] in E.
            destruct (is_digit (f c2)) eqn:D2.
            2:{ cbn [del_us] in E. rewrite D2 in E. cbn [negb andb N.eqb Pos.eqb] in E.
                destruct (f c2 =? 95); discriminate. }
            rewrite (del_us_head 95 0) in E by auto. change (f c2 :: map f t) with (map f (c2 :: t)) in E.
            cbn [length] in L. destruct (IH (c2 :: t) u') as (t1 & t2 & ds & r & Et & Dt & S & Er & Hr); [cbn [length]; lia|exact E|].
            assert (N1 : Digits X t1 ds).
            { destruct Dt as [|s ds Ds]; [|exact Ds]. exfalso. cbn [app] in Et. subst t2.
              destruct u' as [|k u']; [cbn [map del_us] in E; destruct (f c2 =? 95); [discriminate|]; cbn [andb N.eqb] in E; destruct (del_us (f c2) (map f t)); discriminate|].
              cbn [map del_us] in E. destruct (f c2 =? 95); [discriminate|]. cbn [andb N.eqb] in E. destruct (del_us (f c2) (map f t)); [|discriminate].
              cbn [option_map] in E. injection E as <- <-. cbn [span_digits] in S. rewrite D2 in S. destruct (span_digits l); discriminate. }
            exists (c :: 95 :: t1), t2, (d :: ds), r. rewrite S. cbn [fst snd map app]. rewrite Et, <- Ec.
            split; [auto|]. split; [apply Digits0_some, Digits_under; auto|]. split; [discriminate|]. auto.
          + rewrite del_us_prev in E; [|auto|cbn [map]; auto].
            destruct (IH (c' :: t) u') as (t1 & t2 & ds & r & Et & Dt & S & Er & Hr); [cbn [length] in *; lia|exact E|].
            exists (c :: t1), t2, (d :: ds), r. rewrite S. cbn [fst snd map app]. rewrite Et, <- Ec.
            split; [auto|]. split; [|split; [discriminate|auto]].
            apply Digits0_some. destruct Dt as [|s ds Ds]; [apply Digits_one; auto|apply Digits_more; auto]. }
      destruct K as (t1 & t2 & ds & r & Et & Dt & Nd & _ & S1 & S2 & Er & Hr).
      exists t1, t2, ds, r. split; [auto|]. split; [auto|]. split; [|auto].
      cbn [span_digits]. rewrite D. destruct (span_digits u') as [x y]. cbn [fst snd] in *. congruence.
    - exists [], (c :: t), [], (f c :: u'). split; [auto|]. split; [constructor|]. split; [cbn [span_digits]; rewrite D; reflexivity|].
      split; [|auto]. cbn [map del_us]. destruct (N.eqb_spec (f c) 95); [contradiction|]. cbn [andb N.eqb]. rewrite E. reflexivity.
  Qed.
  Lemma scan_run t u : del_us 0 (map f t) = Some u ->
    exists t1 t2 ds r, t = t1 ++ t2 /\ Digits0 X t1 ds /\ span_digits u = (a10 ds, r) /\
      del_us 0 (map f t2) = Some r /\ match r with c :: _ => is_digit c = false | [] => True end.
  Proof. apply (run (length t)). lia. Qed.
  Lemma scan_sign t u : del_us 0 (map f t) = Some u ->
    exists sg neg t' u', t = sg ++ t' /\ Sign sg neg /\ drop_sign u = (neg, u') /\ del_us 0 (map f t') = Some u'.
  Proof.
    intro H. destruct u as [|c u].
    { exists [], false, t, []. repeat split; auto. constructor. }
    cbn [drop_sign]. destruct (N.eqb_spec c 43) as [->|].
    { apply del_cons_plain in H as (t' & -> & H); [|split; [lia|split; [lia|split; [lia|reflexivity]]]].
      exists [43], false, t', u. repeat split; auto. constructor. }
    destruct (N.eqb_spec c 45) as [->|].
    { apply del_cons_plain in H as (t' & -> & H); [|split; [lia|split; [lia|split; [lia|reflexivity]]]].
      exists [45], true, t', u. repeat split; auto. constructor. }
    exists [], false, t, (c :: u). repeat split; auto. constructor.
  Qed.

  (** the other way *)
  Lemma Digits_del t ds r : Digits X t ds -> forall p, del_us p (map f t ++ r) = option_map (app (a10 ds)) (del_us 48 r).
  Proof.
    assert (Q : forall d, d < 10 -> forall s, del_us (48 + d) s = del_us 48 s).
    { intros d L s. destruct s as [|c s]; cbn [del_us]; rewrite ?is_digit_dig by auto;
        (destruct (N.eqb_spec (48 + d) 95); [lia|reflexivity]). }
    induction 1 as [c d D|c d s ds D Ds IH|c d s ds D Ds IH]; intro p; cbn [map app]; apply (Digit_f X XO) in D as [-> L]; cbn [del_us].
    - rewrite is_digit_dig by auto. destruct (N.eqb_spec (48 + d) 95); [lia|]. cbn [negb]. rewrite andb_false_r, Q by auto.
      destruct (del_us 48 r); reflexivity.
    - rewrite is_digit_dig by auto. destruct (N.eqb_spec (48 + d) 95); [lia|]. cbn [negb]. rewrite andb_false_r, IH.
      destruct (del_us 48 r); reflexivity.
    - rewrite is_digit_dig by auto. destruct (N.eqb_spec (48 + d) 95); [lia|]. cbn [negb]. rewrite andb_false_r.
      rewrite (f_self X 95) by lia. cbn [N.eqb Pos.eqb]. rewrite IH.
      destruct (del_us 48 r); reflexivity.
  Qed.
  Lemma Digits0_del t ds r : Digits0 X t ds -> match r with c :: _ => c <> 95 | [] => True end ->
    del_us 0 (map f t ++ r) = option_map (app (a10 ds)) (del_us 0 r).
  Proof.
    intros [|s d D] H.
    - cbn [map app]. destruct (del_us 0 r); reflexivity.
    - rewrite (Digits_del _ _ _ D). f_equal. apply del_us_prev; [lia|auto].
  Qed.
  Lemma del_plain_cons c r : c <> 95 -> is_digit c = false -> del_us 0 (c :: r) = option_map (cons c) (del_us 0 r).
  Proof.
    intros A D. cbn [del_us]. destruct (N.eqb_spec c 95); [contradiction|]. cbn [andb N.eqb]. f_equal. apply del_us_nondigit; auto.
  Qed.
  Lemma Sign_del sg neg r : Sign sg neg -> del_us 0 (sg ++ r) = option_map (app sg) (del_us 0 r).
  Proof.
    intros []; cbn [app].
    - destruct (del_us 0 r); reflexivity.
    - rewrite del_plain_cons by (lia || reflexivity). reflexivity.
    - rewrite del_plain_cons by (lia || reflexivity). reflexivity.
  Qed.

  (** *** decimals *)
  Lemma span_a10 ds r : Forall (fun d => d < 10) ds -> match r with c :: _ => is_digit c = false | [] => True end ->
    span_digits (a10 ds ++ r) = (a10 ds, r).
  Proof.
    intros L H. induction L as [|d ds Ld _ IH]; cbn [map app span_digits].
    - destruct r as [|c r]; [reflexivity|]. cbn [span_digits]. rewrite H. reflexivity.
    - rewrite is_digit_dig by auto. rewrite IH. reflexivity.
  Qed.
  Lemma int_digits_value ds : Forall (fun d => d < 10) ds -> int_digits 0 (a10 ds) = value ds.
  Proof.
    unfold value. generalize 0%Z. induction ds as [|d ds IH]; intros a L; [reflexivity|]. inversion L; subst. cbn [map int_digits fold_left].
    rewrite IH by auto. f_equal. unfold digit_val. lia.
  Qed.
  Lemma Digits_small t ds : Digits X t ds -> Forall (fun d => d < 10) ds.
  Proof. induction 1 as [c d D|c d s ds D _ IH|c d s ds D _ IH]; constructor; auto; apply (Digit_f X XO) in D; apply D. Qed.
  Lemma Digits0_small t ds : Digits0 X t ds -> Forall (fun d => d < 10) ds.
  Proof. intros [|s d D]; [constructor|eapply Digits_small; eauto]. Qed.
  Lemma Digits_nonnil t ds : Digits X t ds -> ds <> [] /\ t <> [].
  Proof. intros []; split; discriminate. Qed.

  Definition tail_exp (r : str) : option Z :=
    match r with
    | [] => Some 0%Z
    | c :: r3 => if N.eqb c 101 || N.eqb c 69 then
        let (neg, r4) := drop_sign r3 in
        let (ed, r5) := span_digits r4 in
        match ed, r5 with _ :: _, [] => Some (if neg then - int_digits 0 ed else int_digits 0 ed)%Z | _, _ => None end
        else None
    end.
  Definition pd_fin (ds : str) (k : nat) (r2 : str) : option (Z * Z) :=
    match ds with [] => None | _ => option_map (fun e => (int_digits 0 ds, (e - Z.of_nat k)%Z)) (tail_exp r2) end.
  (** the part after the sign *)
  Definition UDec (n e : Z) (t : str) : Prop :=
    exists m ds k x ex, t = m ++ x /\ Mantissa X m ds k /\ Exponent X x ex /\ n = value ds /\ e = (ex - Z.of_nat k)%Z.

  Lemma exponent_sound t r : del_us 0 (map f t) = Some r -> forall e,
    tail_exp r = Some e -> Exponent X t e.
  Proof.
    intros H e. destruct r as [|c r].
    { apply del_nil in H as ->. intro E. injection E as <-. constructor. }
    assert (K : In c [101; 69] -> (let (neg, r4) := drop_sign r in
        let (ed, r5) := span_digits r4 in
        match ed, r5 with _ :: _, [] => Some (if neg then - int_digits 0 ed else int_digits 0 ed)%Z | _, _ => None end) = Some e -> Exponent X t e).
    { intro C. assert (P : plain c) by (destruct C as [<-|[<-|[]]]; (split; [lia|split; [lia|split; [lia|reflexivity]]])).
      destruct (del_cons_plain _ _ _ P H) as (t' & -> & H').
      destruct (scan_sign _ _ H') as (sg & neg & t2 & u2 & -> & S & -> & H2).
      destruct (scan_run _ _ H2) as (t3 & t4 & ds & r' & -> & D & -> & H3 & _).
      destruct D as [|t3 ds D]; [discriminate|]. destruct (Digits_nonnil _ _ D) as [ND _].
      pose proof (int_digits_value _ (Digits_small _ _ D)) as V.
      destruct ds as [|d ds]; [contradiction|]. cbn [map] in *. destruct r'; [|discriminate]. apply del_nil in H3 as ->.
      rewrite app_nil_r, V. intro E. assert (E' : e = (if neg then - value (d :: ds) else value (d :: ds))%Z) by congruence.
      rewrite E'. apply Exp_some; auto. }
    cbn [tail_exp]. destruct (N.eqb_spec c 101) as [C|C]; [|destruct (N.eqb_spec c 69) as [C'|]; [|discriminate]]; cbn [orb];
      apply K; subst; cbn [In]; auto.
  Qed.
  Lemma exponent_complete t e : Exponent X t e -> exists r, del_us 0 (map f t) = Some r /\
    match r with c :: _ => c = 101 \/ c = 69 | [] => True end /\
    tail_exp r = Some e.
  Proof.
    intros [|c sg neg t' ds C S D]; [exists []; auto|].
    exists (c :: sg ++ a10 ds). cbn [map]. rewrite f_self by (destruct C as [<-|[<-|[]]]; lia). rewrite map_app, (Sign_map X _ _ S).
    split; [|split].
    - rewrite del_plain_cons by (destruct C as [<-|[<-|[]]]; lia || reflexivity). rewrite (Sign_del _ _ _ S).
      rewrite <- (app_nil_r (map f t')), (Digits_del _ _ _ D). change (del_us 48 []) with (Some (@nil char)). cbn [option_map]. rewrite app_nil_r. reflexivity.
    - destruct C as [<-|[<-|[]]]; auto.
    - cbn [tail_exp]. replace ((c =? 101) || (c =? 69)) with true by (destruct C as [<-|[<-|[]]]; reflexivity).
      rewrite (drop_sign_app sg neg (a10 ds) S).
      + rewrite <- (app_nil_r (a10 ds)), span_a10 by (auto; eapply Digits_small; eauto).
        pose proof (int_digits_value _ (Digits_small _ _ D)) as V. destruct (Digits_nonnil _ _ D) as [ND _].
        destruct ds as [|d ds]; [contradiction|]. cbn [map] in *. rewrite V. reflexivity.
      + pose proof (Digits_small _ _ D) as L. destruct L; [exact I|]. cbn [map]. lia.
  Qed.

  Lemma parse_decimal_eq s : parse_decimal s =
    let (ip, r) := span_digits s in
    let (fp, r2) := match r with
                    | c :: r' => if N.eqb c 46 then span_digits r' else ([], r)
                    | [] => ([], r)
                    end in
    pd_fin (ip ++ fp) (length fp) r2.
  Proof.
    unfold parse_decimal, pd_fin, tail_exp. destruct (span_digits s) as [ip r].
    destruct (match r with c :: r' => if c =? 46 then span_digits r' else ([], r) | [] => ([], r) end) as [fp r2].
    destruct (ip ++ fp); [reflexivity|]. destruct r2 as [|c r3]; [reflexivity|]. destruct ((c =? 101) || (c =? 69)); [|reflexivity].
    destruct (drop_sign r3) as [neg r4]. destruct (span_digits r4) as [[|? ?] [|? ?]]; reflexivity.
  Qed.
  Lemma decimal_sound t u n e : del_us 0 (map f t) = Some u -> parse_decimal u = Some (n, e) -> UDec n e t.
  Proof.
    intros H. rewrite parse_decimal_eq. destruct (scan_run _ _ H) as (t1 & t2 & ds & r & -> & D & -> & H2 & Hr).
    assert (NP : forall r2 k dsx, a10 ds ++ [] = dsx -> r2 = r -> k = 0%nat -> 
       pd_fin (dsx) k r2 = Some (n, e) -> UDec n e (t1 ++ t2)).
    { unfold pd_fin. intros r2 k dsx <- -> ->. rewrite app_nil_r. destruct D as [|t1 ds D]; [discriminate|].
      pose proof (int_digits_value _ (Digits_small _ _ D)) as V. destruct (Digits_nonnil _ _ D) as [ND _].
      pose proof (exponent_sound _ _ H2) as ES.
      destruct ds as [|d ds]; [contradiction|]. cbn [map] in *. rewrite V.
      destruct (tail_exp r) as [ex|]; [|discriminate]. cbn [option_map]. intro E.
      exists t1, (d :: ds), 0%nat, t2, ex. split; [auto|]. split; [constructor; auto|]. split; [apply ES; auto|]. split; congruence. }
    destruct r as [|c r]; [apply NP; auto|]. destruct (N.eqb_spec c 46) as [->|]; [|apply NP; auto].
    clear NP. apply del_cons_plain in H2 as (t3 & -> & H2); [|split; [lia|split; [lia|split; [lia|reflexivity]]]].
    destruct (scan_run _ _ H2) as (t4 & t5 & ds2 & r' & -> & D2 & -> & H3 & Hr').
    unfold pd_fin. rewrite <- map_app. destruct (ds ++ ds2) as [|d dd] eqn:Ed; [discriminate|]. cbn [map].
    pose proof (int_digits_value (ds ++ ds2)) as V. rewrite Ed in V. cbn [map] in V. rewrite V.
    2:{ rewrite <- Ed. apply Forall_app. split; eapply Digits0_small; eauto. }
    pose proof (exponent_sound _ _ H3) as ES.
    destruct (tail_exp r') as [ex|]; [|discriminate]. cbn [option_map]. intro E.
    exists (t1 ++ 46 :: t4), (d :: dd), (length ds2), t5, ex. split; [rewrite <- app_assoc; reflexivity|].
    split; [rewrite <- Ed; constructor; auto; rewrite Ed; discriminate|]. split; [apply ES; auto|].
    rewrite map_length in E. split; congruence.
  Qed.
  Lemma decimal_complete t n e : UDec n e t -> exists u, del_us 0 (map f t) = Some u /\ parse_decimal u = Some (n, e) /\
    match u with c :: _ => is_digit c = true \/ c = 46 | [] => False end.
  Proof.
    intros (m & ds & k & x & ex & -> & M & Ex & -> & ->). destruct (exponent_complete _ _ Ex) as (r & Hr & Hh & He).
    assert (r95 : match r with c :: _ => is_digit c = false | [] => True end) by (destruct r; [auto|]; destruct Hh as [-> | ->]; reflexivity).
    assert (x95 : match map f x with c :: _ => c <> 95 | [] => True end).
    { destruct x as [|c x]; [exact I|]. cbn [map]. inversion Ex; subst. rewrite f_self; destruct H1 as [<-|[<-|[]]]; lia. }
    destruct M as [m ds D|t1 ds1 t2 ds2 D1 D2 ND].
    - exists (a10 ds ++ r). rewrite map_app, (Digits_del _ _ _ D). rewrite (del_us_prev 48) by (auto; lia). rewrite Hr.
      split; [reflexivity|]. destruct (Digits_nonnil _ _ D) as [ND _]. pose proof (Digits_small _ _ D) as L. split.
      + rewrite parse_decimal_eq, span_a10 by auto.
        assert (R2 : match r with c :: r' => if c =? 46 then span_digits r' else ([], r) | [] => ([], r) end = ([] : str, r)).
        { destruct r as [|c r]; [reflexivity|]. destruct Hh as [-> | ->]; reflexivity. }
        rewrite R2, app_nil_r. pose proof (int_digits_value _ L) as V. destruct ds as [|d ds]; [contradiction|]. cbn [map] in *.
        unfold pd_fin. rewrite He. cbn [option_map length]. rewrite V. reflexivity.
      + destruct L; [contradiction|]. cbn [map app]. left. apply is_digit_dig; auto.
    - exists (a10 ds1 ++ 46 :: a10 ds2 ++ r). rewrite !map_app. cbn [map]. rewrite (f_self X 46) by lia. rewrite <- app_assoc.
      pose proof (Digits0_small _ _ D1) as L1. pose proof (Digits0_small _ _ D2) as L2. cbn [app].
      rewrite (Digits0_del _ _ _ D1) by lia. rewrite del_plain_cons by (lia || reflexivity). rewrite (Digits0_del _ _ _ D2) by auto.
      rewrite Hr. split; [reflexivity|]. split.
      + rewrite parse_decimal_eq, span_a10 by auto. cbn [N.eqb Pos.eqb]. rewrite span_a10 by auto.
        rewrite <- map_app. assert (L : Forall (fun d => d < 10) (ds1 ++ ds2)) by (apply Forall_app; auto).
        pose proof (int_digits_value _ L) as V. destruct (ds1 ++ ds2) as [|d dd]; [contradiction|]. cbn [map] in *.
        unfold pd_fin. rewrite He. cbn [option_map]. rewrite V, map_length. reflexivity.
      + destruct L1; cbn [map app]; [right; reflexivity|left; apply is_digit_dig; auto].
  Qed.

  (** *** words *)
  Definition words3 : list str := [$"inf"; $"infinity"; $"nan"].
  Lemma lower_same c : lower_letter c = ascii_lower c.
  Proof. reflexivity. Qed.
  Definition letter (c : char) : Prop := 65 <= c <= 90 \/ 97 <= c <= 122.
  Lemma lower_is_letter c : is_lower (ascii_lower c) = true -> letter c.
  Proof.
    unfold is_lower, ascii_lower, is_upper, in_range, letter. destruct ((65 <=? c) && (c <=? 90)) eqn:E; rewrite !andb_true_iff in *; rewrite ?N.leb_le in *; lia.
  Qed.
  Lemma words3_letters w : In (map ascii_lower w) words3 -> Forall letter w.
  Proof.
    intro H. assert (Q : Forall (fun c => is_lower c = true) (map ascii_lower w)).
    { destruct H as [<-|[<-|[<-|[]]]]; repeat constructor. }
    rewrite Forall_map in Q. eapply Forall_impl; [|exact Q]. intros c. apply lower_is_letter.
  Qed.
  Lemma words3_nonnil w : In (map ascii_lower w) words3 -> w <> [].
  Proof. intros H ->. destruct H as [H|[H|[H|[]]]]; discriminate. Qed.
  Lemma letter_plain c : letter c -> plain c /\ c <> 95 /\ c < 128 /\ c <> 43 /\ c <> 45 /\ c <> 46 /\ c_space c = false.
  Proof.
    intro L. assert (is_digit c = false) by (destruct (is_digit c) eqn:E; [apply is_digit_iff in E; unfold letter in L; lia|auto]).
    assert (c_space c = false) by (destruct (c_space c) eqn:E; [apply c_space_iff in E; unfold letter in L; lia|auto]).
    unfold letter, plain in *. intuition lia.
  Qed.
  Lemma scan_letters w : forall t, Forall letter w -> del_us 0 (map f t) = Some w -> t = w.
  Proof.
    induction w as [|c w IH]; intros t L H; [apply del_nil in H; auto|]. inversion L; subst.
    destruct (letter_plain c) as [P _]; auto. destruct (del_cons_plain _ _ _ P H) as (t' & -> & H'). f_equal. auto.
  Qed.
  Lemma letters_scan w : Forall letter w -> map f w = w /\ del_us 0 w = Some w /\ Tight w.
  Proof.
    induction 1 as [|c w L _ (A & B & C)]; [repeat constructor|]. destruct (letter_plain c L) as (P & N & L8 & _ & _ & _ & S).
    cbn [map]. rewrite f_self, A by auto. split; [auto|]. split; [|constructor; auto].
    rewrite del_plain_cons, B by (auto; apply P). reflexivity.
  Qed.

  (** *** the value *)
  Definition dec_z (m e : Z) : option Z :=
    if (m <? 0)%Z then option_map Z.opp (dec_integer (- m) e) else dec_integer m e.
  Definition float_body (u : option str) : option (option Z) :=
    match u with
    | None => None
    | Some t =>
        let (neg, b) := drop_sign t in
        if mem_str (map ascii_lower b) [$"inf"; $"infinity"; $"nan"] then Some None
        else match parse_decimal b with
             | None => None
             | Some (n, e) => Some (option_map (fun z => if neg then (- z)%Z else z) (dec_integer n e))
             end
    end.
  Lemma float_of_body s : float_of X s = float_body (del_us 0 (c_strip (map f s))).
  Proof. reflexivity. Qed.
  Lemma value_nonneg ds : (0 <= value ds)%Z.
  Proof.
    unfold value. assert (G : forall a, (0 <= a)%Z -> (0 <= fold_left (fun (a : Z) (d : N) => 10 * a + Z.of_N d)%Z ds a)%Z); [|apply G; lia].
    induction ds as [|d ds IH]; intros a A; cbn [fold_left]; [auto|]. apply IH. lia.
  Qed.
  Lemma dec_z_sign (neg : bool) v e : (0 <= v)%Z ->
    option_map (fun z => if neg then (- z)%Z else z) (dec_integer v e) = dec_z (if neg then - v else v)%Z e.
  Proof.
    intro V. unfold dec_z. destruct neg.
    - destruct (Z.ltb_spec (- v) 0) as [L|L].
      + rewrite Z.opp_involutive. reflexivity.
      + assert (v = 0%Z) by lia. subst v. unfold dec_integer. destruct (0 <=? e)%Z; reflexivity.
    - destruct (Z.ltb_spec v 0); [lia|]. destruct (dec_integer v e); reflexivity.
  Qed.
  Definition FloatBody (o : option Z) (t : str) : Prop :=
    (exists m e, DecBody X m e t /\ o = dec_z m e) \/ (SpecialBody t /\ o = None).
  Lemma UDec_value n e t : UDec n e t -> (0 <= n)%Z.
  Proof. intros (m & ds & k & x & ex & -> & M & Ex & -> & ->). apply value_nonneg. Qed.
  Lemma DecBody_U m e t : DecBody X m e t <-> exists sg neg t' n, t = sg ++ t' /\ Sign sg neg /\ UDec n e t' /\ m = (if neg then - n else n)%Z.
  Proof.
    split.
    - intros [sg neg t' ds k x ex S M E]. exists sg, neg, (t' ++ x), (value ds). split; [auto|]. split; [auto|]. split; [|auto].
      exists t', ds, k, x, ex. auto.
    - intros (sg & neg & t' & n & -> & S & (m' & ds & k & x & ex & -> & M & Ex & -> & ->) & ->). constructor; auto.
  Qed.
  Lemma float_body_iff o t : float_body (del_us 0 (map f t)) = Some o <-> FloatBody o t.
  Proof.
    split.
    - intro H. destruct (del_us 0 (map f t)) as [u|] eqn:E; [|discriminate]. cbn [float_body] in H.
      destruct (scan_sign _ _ E) as (sg & neg & t' & u' & -> & S & Ed & E'). rewrite Ed in H.
      destruct (mem_str (map ascii_lower u') _) eqn:M.
      + apply mem_str_In in M. right. split; [|congruence].
        pose proof (words3_letters _ M) as L. rewrite (scan_letters _ _ L E').
        apply SpecialBody_intro with neg; auto.
      + destruct (parse_decimal u') as [[n e]|] eqn:P; [|discriminate]. pose proof (decimal_sound _ _ _ _ E' P) as U.
        left. exists (if neg then - n else n)%Z, e. split; [apply DecBody_U; eauto 8|].
        rewrite <- dec_z_sign by (eapply UDec_value; eauto). congruence.
    - intros [(m & e & D & ->)|[[sg neg w S W] ->]].
      + apply DecBody_U in D as (sg & neg & t' & n & -> & S & U & ->). rewrite map_app, (Sign_map X _ _ S), (Sign_del _ _ _ S).
        destruct (decimal_complete _ _ _ U) as (u & -> & P & Hh). cbn [option_map float_body].
        destruct u as [|c u]; [contradiction|].
        rewrite (drop_sign_app sg neg (c :: u) S).
        2:{ destruct Hh as [Hh| ->]; [apply is_digit_iff in Hh; lia|lia]. }
        destruct (mem_str (map ascii_lower (c :: u)) _) eqn:M.
        { exfalso. apply mem_str_In in M. apply words3_letters in M. inversion M; subst. unfold letter in *.
          destruct Hh as [Hh| ->]; [apply is_digit_iff in Hh; lia|lia]. }
        rewrite P. f_equal. apply dec_z_sign. eapply UDec_value; eauto.
      + rewrite map_app, (Sign_map X _ _ S), (Sign_del _ _ _ S).
        assert (W' : In (map ascii_lower w) words3) by exact W.
        pose proof (words3_letters _ W') as L. destruct (letters_scan _ L) as (-> & -> & _). cbn [option_map float_body].
        rewrite (drop_sign_app sg neg w S) by (destruct L as [|c w Lc]; [exact I|destruct (letter_plain c Lc) as (_ & _ & _ & ? & ? & _); auto]).
        assert (Q : mem_str (map ascii_lower w) [$"inf"; $"infinity"; $"nan"] = true) by (apply mem_str_In; exact W').
        rewrite Q. reflexivity.
  Qed.
  Lemma Digits0_tight t ds : Digits0 X t ds -> Tight (map f t).
  Proof. intros [|s d D]; [constructor|eapply Digits_tight; eauto]. Qed.
  Lemma FloatBody_tight o t : FloatBody o t -> Tight (map f t).
  Proof.
    unfold Tight. intros [(m & e & [sg neg t' ds k x ex S M E] & _)|[[sg neg w S W] _]]; rewrite map_app; apply Forall_app; (split; [eapply Sign_tight; eauto|]).
    - rewrite map_app. apply Forall_app. split.
      + destruct M as [t' ds D|t1 ds1 t2 ds2 D1 D2 _]; [eapply Digits_tight; eauto|].
        rewrite map_app. cbn [map]. rewrite f_self by lia. apply Forall_app. split; [eapply Digits0_tight; eauto|].
        constructor; [reflexivity|eapply Digits0_tight; eauto].
      + destruct E as [|c sg' neg' t2 ds2 C S2 D2]; [constructor|]. cbn [map]. constructor.
        * destruct C as [<-|[<-|[]]]; rewrite f_self by lia; reflexivity.
        * rewrite map_app. apply Forall_app. split; [eapply Sign_tight; eauto|eapply Digits_tight; eauto].
    - destruct (letters_scan _ (words3_letters _ W)) as (-> & _ & T). exact T.
  Qed.
  Lemma Padded_impl (P Q : str -> Prop) s : (forall t, P t -> Q t) -> Padded P s -> Padded Q s.
  Proof. intros H [b1 t b2 B1 B2 p]. constructor; auto. Qed.
  Lemma float_of_iff o s : float_of X s = Some o <->
    (exists m e, Decimal X s m e /\ o = dec_z m e) \/ (Padded SpecialBody s /\ o = None).
  Proof.
    rewrite float_of_body.
    rewrite (padded_iff X (FloatBody o) (fun u => float_body (del_us 0 u) = Some o) s); [|apply FloatBody_tight|apply float_body_iff].
    split.
    - intros [b1 t b2 B1 B2 [(m & e & D & E)|[S E]]]; [left; exists m, e; split; [constructor; auto|auto]|right; split; [constructor; auto|auto]].
    - intros [(m & e & D & E)|[S E]]; [|]; (eapply Padded_impl; [|eassumption]); intros t H; [left; eauto|right; auto].
  Qed.
  Theorem float_ok_iff s : float_of X s <> None <-> FloatText X s.
  Proof.
    split.
    - intro H. destruct (float_of X s) as [o|] eqn:E; [|contradiction]. apply float_of_iff in E as [(m & e & D & _)|[S _]]; [left|right]; eauto.
    - intros [(m & e & D)|S].
      + rewrite (proj2 (float_of_iff (dec_z m e) s)); [discriminate|]. left; eauto.
      + rewrite (proj2 (float_of_iff None s)); [discriminate|]. right; auto.
  Qed.
End F.

(** *** rounding *)
Section V.
  Local Open Scope Z_scope.
  Lemma fl_integer_iff n d z : 0 <= n -> 0 < d ->
    (fl_integer n d = Some z <-> rnd (IZR n / IZR d) = IZR z /\ Z.abs z < 2 ^ 1024).
  Proof.
    intros Hn Hd. unfold fl_integer. destruct (Z.eqb_spec n 0) as [->|N0].
    { replace (0 / IZR d)%R with 0%R by (unfold Rdiv; rewrite Rmult_0_l; reflexivity). rewrite round_0 by apply valid_rnd_N. split.
      - intro E. injection E as <-. split; [reflexivity|]. cbn [Z.abs]. apply two_p_pos. lia.
      - intros [E _]. apply eq_IZR in E. congruence. }
    assert (Hp : 0 < n) by lia. pose proof (fl_div_round n d Hp Hd) as F. pose proof (small_quotient n d Hp Hd) as SQ.
    set (x := rnd (IZR n / IZR d)) in *.
    assert (x0 : (0 <= x)%R).
    { unfold x. apply round_ge_generic; [apply FLT_exp_valid; reflexivity|apply valid_rnd_N|apply generic_format_0|].
      apply Rmult_le_pos; [apply IZR_le; lia|]. left. apply Rinv_0_lt_compat, IZR_lt; auto. }
    destruct (fl_div n d) as [m e]. cbn [snd] in SQ. clearbody x. unfold F2R in F. cbn [Fnum Fexp] in F.
    destruct (Z.leb_spec 0 e) as [K|K].
    - assert (E : x = IZR (m * 2 ^ e)).
      { rewrite F, mult_IZR. f_equal. change 2 with (radix_val radix2). rewrite IZR_Zpower; auto. }
      assert (M0 : 0 <= m * 2 ^ e) by (rewrite E in x0; apply le_IZR in x0; exact x0).
      rewrite E. destruct (Z.leb_spec (2 ^ 1024) (m * 2 ^ e)) as [L|L].
      + split; [discriminate|]. intros [Z1 Z2]. apply eq_IZR in Z1. subst z. rewrite Z.abs_eq in Z2 by auto. lia.
      + split.
        * intro Q. injection Q as <-. split; [reflexivity|]. rewrite Z.abs_eq; auto.
        * intros [Z1 Z2]. apply eq_IZR in Z1. congruence.
    - assert (P : 0 < 2 ^ (- e)) by (apply two_p_pos; lia).
      assert (E : (x * IZR (2 ^ (- e)) = IZR m)%R).
      { rewrite F. change 2 with (radix_val radix2). rewrite IZR_Zpower by lia. rewrite Rmult_assoc, <- bpow_plus.
        replace (e + - e) with 0 by lia. cbn [bpow]. lra. }
      assert (B : (x <= bpow radix2 53)%R) by (apply SQ; exact K).
      set (p := 2 ^ (- e)) in *. clearbody p. destruct (Z.eqb_spec (m mod p) 0) as [D|D].
      + assert (Mm : m = p * (m / p)) by (apply Z_div_exact_full_2; lia).
        assert (Ex : x = IZR (m / p)).
        { apply (Rmult_eq_reg_r (IZR p)); [|apply IZR_neq; lia]. rewrite E. rewrite <- mult_IZR. f_equal. lia. }
        rewrite Ex. split.
        * intro Q. injection Q as <-. split; [reflexivity|]. rewrite Ex in B, x0. apply le_IZR in x0.
          rewrite <- (IZR_Zpower radix2 53) in B by lia. apply le_IZR in B. rewrite Z.abs_eq by auto.
          eapply Z.le_lt_trans; [exact B|]. apply Z.pow_lt_mono_r; [reflexivity|discriminate|reflexivity].
        * intros [Z1 Z2]. apply eq_IZR in Z1. congruence.
      + split; [discriminate|]. intros [Z1 Z2]. exfalso. apply D. rewrite Z1, <- mult_IZR in E. apply eq_IZR in E. subst m.
        apply Z.mod_mul. lia.
  Qed.
  Lemma F2R_10 m e : F2R (Float radix10 m e) = (if 0 <=? e then IZR (m * 10 ^ e) / 1 else IZR m / IZR (10 ^ (- e)))%R.
  Proof.
    unfold F2R. cbn [Fnum Fexp]. destruct (Z.leb_spec 0 e) as [K|K].
    - rewrite mult_IZR. change 10 with (radix_val radix10). rewrite IZR_Zpower by auto. field.
    - change 10 with (radix_val radix10). rewrite IZR_Zpower by lia. rewrite bpow_opp. field. apply Rgt_not_eq, bpow_gt_0.
  Qed.
  Lemma pow10_pos e : 0 <= e -> 0 < 10 ^ e.
  Proof. intro. apply Z.pow_pos_nonneg; lia. Qed.
  Lemma dec_integer_iff n e z : 0 <= n ->
    (dec_integer n e = Some z <-> binary64 (F2R (Float radix10 n e)) = IZR z /\ Z.abs z < 2 ^ 1024).
  Proof.
    intro Hn. unfold dec_integer, binary64. rewrite F2R_10. destruct (Z.leb_spec 0 e) as [K|K].
    - change 1%R with (IZR 1). apply fl_integer_iff; [|lia]. apply Z.mul_nonneg_nonneg; [auto|]. apply Z.lt_le_incl, pow10_pos; auto.
    - apply fl_integer_iff; [auto|]. apply pow10_pos. lia.
  Qed.
  Lemma dec_z_iff m e z : dec_z m e = Some z <-> binary64 (F2R (Float radix10 m e)) = IZR z /\ Z.abs z < 2 ^ 1024.
  Proof.
    unfold dec_z. destruct (Z.ltb_spec m 0) as [L|L]; [|apply dec_integer_iff; auto].
    assert (O : binary64 (F2R (Float radix10 m e)) = (- binary64 (F2R (Float radix10 (- m) e)))%R).
    { unfold binary64. rewrite <- round_NE_opp, F2R_Zopp, Ropp_involutive. reflexivity. }
    rewrite O. split.
    - intro H. destruct (dec_integer (- m) e) as [y|] eqn:E; [|discriminate]. injection H as <-.
      apply dec_integer_iff in E as [E1 E2]; [|lia]. rewrite E1, opp_IZR, Z.abs_opp. auto.
    - intros [E1 E2]. assert (E : dec_integer (- m) e = Some (- z)).
      { apply dec_integer_iff; [lia|]. rewrite Z.abs_opp. split; [|auto]. rewrite opp_IZR, <- E1. lra. }
      rewrite E. cbn [option_map]. f_equal. lia.
  Qed.
  Theorem float_value_iff X s z : chars_ok X -> (float_of X s = Some (Some z) <-> Amount X s z).
  Proof.
    intro XO. rewrite float_of_iff by auto. unfold Amount. split.
    - intros [(m & e & D & E)|[_ E]]; [|discriminate]. symmetry in E. apply dec_z_iff in E. exists m, e. tauto.
    - intros (m & e & D & E). left. exists m, e. split; auto. symmetry. apply dec_z_iff. exact E.
  Qed.
End V.
