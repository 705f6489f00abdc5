(** C59: texts written by Python itself. *)
From Coq Require Import Reals Lra.
From Flocq Require Import Core.
From Verif Require Import Base Types Lexer Printer Construct Ops Discovery Strings Spec_Lexer Spec_Time Spec_Strings Proof_Lexer Proof_Print Proof_Time
  Proof_Strings Proof_Strings2 Proof_Strings3 Proof_Strings4.
Local Open Scope N_scope.

Section S.
  Variable X : chars.
  Hypothesis XO : chars_ok X.

  Lemma ascii_Digits w : Forall (fun c => is_digit c = true) w -> w <> [] ->
    exists ds, w = map (N.add 48) ds /\ Spec_Strings.Digits X w ds.
  Proof.
    induction 1 as [|c w D _ IH]; [contradiction|]. intros _. destruct (is_digit_ex _ D) as (d & L & ->).
    destruct w as [|c' w].
    - exists [d]. split; [reflexivity|]. constructor. constructor; auto.
    - destruct IH as (ds & -> & Ds); [discriminate|]. exists (d :: ds). split; [reflexivity|]. apply Digits_more; auto. constructor; auto.
  Qed.
  (** the digits of an integer *)
  Lemma z2s_parts z : exists sg neg w ds, z2s z = sg ++ w /\ Sign sg neg /\ Spec_Strings.Digits X w ds /\ length w = length ds /\
    z = (if neg then - value ds else value ds)%Z.
  Proof.
    assert (P : forall p, exists ds, Spec_Strings.Digits X (n2s (Npos p)) ds /\ length (n2s (Npos p)) = length ds /\ Zpos p = value ds).
    { intro p. destruct (n2s_spec p) as (V & _ & F). assert (Ne : n2s (Npos p) <> []) by (intro E; rewrite E in V; inversion V; destruct w; discriminate).
      destruct (ascii_Digits _ F Ne) as (ds & E & D). exists ds. split; [auto|]. split; [rewrite E, map_length; reflexivity|].
      apply Digits_val in V. rewrite E, int_digits_value in V; [auto|]. eapply Digits_small; eauto. }
    destruct z as [|p|p].
    - exists [], false, [48], [0]. split; [reflexivity|]. split; [constructor|]. split; [constructor; apply (Digit_ascii X 0); lia|]. auto.
    - destruct (P p) as (ds & D & L & V). exists [], false, (n2s (Npos p)), ds. split; [reflexivity|]. split; [constructor|]. auto.
    - destruct (P p) as (ds & D & L & V). exists [45], true, (n2s (Npos p)), ds. split; [reflexivity|]. split; [constructor|].
      split; [auto|]. split; [auto|]. rewrite <- V. reflexivity.
  Qed.
  Lemma z2s_IntText z : match ch_maxdigits X with Some m => (length (z2s z) <= m)%nat | None => True end -> IntText X (z2s z).
  Proof.
    intro M. destruct (z2s_parts z) as (sg & neg & w & ds & E & S & D & L & V). rewrite E in *.
    rewrite <- (app_nil_l (sg ++ w)), <- (app_nil_r (sg ++ w)). apply Padded_intro; [constructor|constructor|].
    apply IntBody_intro with neg ds; auto. destruct (ch_maxdigits X); [|auto]. rewrite app_length in M. lia.
  Qed.
  Lemma z2s_Decimal z : Decimal X (z2s z) z 0.
  Proof.
    destruct (z2s_parts z) as (sg & neg & w & ds & E & S & D & L & V). rewrite E. unfold Decimal.
    pose proof (DecBody_intro X sg neg w ds 0 [] 0 S (Mant_int X w ds D) (Exp_none X)) as H. rewrite app_nil_r, <- V in H.
    pose proof (Padded_intro (DecBody X z 0) [] (sg ++ w) [] (Forall_nil _) (Forall_nil _) H) as P.
    rewrite app_nil_r in P. exact P.
  Qed.
  Lemma z2s_FloatText z : FloatText X (z2s z).
  Proof. left. eexists _, _. apply z2s_Decimal. Qed.
  Lemma z2s_Amount z : (Z.abs z <= 2 ^ 53)%Z -> Amount X (z2s z) z.
  Proof.
    intro B. exists z, 0%Z. split; [apply z2s_Decimal|split].
    - unfold F2R. cbn [Fnum Fexp bpow]. rewrite Rmult_1_r. unfold binary64. apply round_generic; [apply valid_rnd_N|].
      apply generic_format_FLT.
      assert (C : (Z.abs z < 2 ^ 53)%Z \/ (Z.abs z = 2 ^ 53)%Z) by lia. destruct C as [C|C].
      + apply (FLT_spec _ _ _ _ (Float radix2 z 0)); [unfold F2R; cbn [Fnum Fexp bpow]; rewrite Rmult_1_r; reflexivity|exact C|cbn [Fexp]; lia].
      + apply (FLT_spec _ _ _ _ (Float radix2 (Z.sgn z * 2 ^ 52) 1)); [|cbn [Fnum]|cbn [Fexp]; lia].
        * unfold F2R. cbn [Fnum Fexp]. change (bpow radix2 1) with (IZR 2). rewrite <- mult_IZR. f_equal. lia.
        * rewrite Z.abs_mul. change (Z.abs (2 ^ 52)) with (2 ^ 52)%Z. change (radix_val radix2) with 2%Z.
          assert (Z.abs (Z.sgn z) <= 1)%Z by lia. assert (2 ^ 52 < 2 ^ 53)%Z by lia. nia.
    - eapply Z.le_lt_trans; [exact B|]. apply Z.pow_lt_mono_r; lia.
  Qed.
  Lemma z2s_NoBlank z : NoBlank (z2s z) /\ z2s z <> [].
  Proof.
    destruct (z2s_parts z) as (sg & neg & w & ds & E & S & D & L & V). rewrite E. split.
    - apply Forall_app. split.
      + eapply Forall_impl; [|eapply Sign_numchar; eauto]. intros c [? _]; auto.
      + eapply Forall_impl; [|eapply Digits_numchar; eauto]. intros c [? _]; auto.
    - intro H. apply app_eq_nil in H as [_ ->]. destruct (Digits_nonnil X _ _ D); auto.
  Qed.
  Lemma z2s_Duration z w u : (Z.abs z <= 2 ^ 53)%Z -> NoBlank w -> w <> [] -> UnitOf w u -> DurationText X (z2s z ++ 32 :: w) z u.
  Proof.
    intros B Nw Lw U. destruct (z2s_NoBlank z) as [Nz Lz]. exists (z2s z), w. split; [|split; [apply z2s_Amount; auto|auto]].
    exists [], [32], []. rewrite app_nil_r. split; [reflexivity|]. split; [constructor|]. split; [repeat constructor|]. split; [constructor|].
    split; [discriminate|]. auto.
  Qed.
  Lemma Digits_len t ds ds' : Spec_Strings.Digits X t ds -> Spec_Strings.Digits X t ds' -> length ds = length ds'.
  Proof. intros D D'. rewrite <- (Digits_count X XO _ _ D), <- (Digits_count X XO _ _ D'). reflexivity. Qed.
  Lemma z2s_too_long n m : ch_maxdigits X = Some m -> (m < length (z2s n))%nat -> (0 <= n)%Z -> ~ IntText X (z2s n).
  Proof.
    intros M L P I.
    destruct (z2s_parts n) as (sg & neg & w & ds & E & S & D & Lw & V).
    assert (H : sg = []).
    { destruct n as [|p|p]; [..|lia].
      - destruct S; cbn [z2s] in E; [auto|discriminate|discriminate].
      - destruct S; cbn [z2s] in E; [auto| |]; exfalso; destruct (n2s_spec p) as (_ & _ & F); rewrite E in F; inversion F; discriminate. }
    subst sg. cbn [app] in E. rewrite E in *. clear E.
    remember w as w0 eqn:Ew. destruct I as [b1 t b2 B1 B2 IB].
    pose proof (Digits_numchar X XO _ _ D) as C. apply Forall_app in C as [C1 C]. apply Forall_app in C as [_ C2].
    assert (N : forall b, Forall NumBlank b -> Forall numchar b -> b = []).
    { intros b H1 H2. destruct H1 as [|c b [H1 _]]; [auto|]. inversion H2 as [|? ? [H3 _]]; congruence. }
    rewrite (N b1), (N b2) in D by auto. rewrite (N b1), (N b2) in Lw by auto. rewrite (N b1), (N b2) in L by auto.
    cbn [app] in *. rewrite app_nil_r in *. destruct IB as [sg' neg' t' ds' S' D' L']. rewrite M in L'.
    assert (T : sg' = []).
    { destruct S'; [auto|..]; cbn [app] in D; inversion D as [c d Dd|c d ? ? Dd _|c d ? ? Dd _]; subst; apply (Digit_f X XO) in Dd as [Q _]; rewrite f_self in Q by lia; lia. }
    subst sg'. cbn [app] in *. pose proof (Digits_len _ _ _ D D'). lia.
  Qed.
End S.
