(** [int(ceil(a / b))] for integers of any size, against Flocq's binary64 rounding. *)
From Coq Require Import Reals Lra.
From Flocq Require Import Core.
From Verif Require Import Base Ops Spec_Ops Proof_Float Proof_Float2 Proof_Slice2.
Local Open Scope Z_scope.

Lemma rne_ZnearestE n d : 0 < d -> ZnearestE (IZR n / IZR d) = rne n d.
Proof.
  intro Hd. unfold rne. set (q := n / d). set (r := n mod d).
  assert (E : n = d * q + r) by (apply Z.div_mod; lia). assert (B : 0 <= r < d) by (apply Z.mod_pos_bound; lia).
  assert (Rd : (0 < IZR d)%R) by (apply IZR_lt; auto).
  assert (X : (IZR n / IZR d = IZR q + IZR r / IZR d)%R).
  { rewrite E, plus_IZR, mult_IZR. field. lra. }
  assert (F : Zfloor (IZR n / IZR d) = q).
  { apply Zfloor_imp. rewrite plus_IZR, X. destruct B as [B1 B2]. apply IZR_le in B1. apply IZR_lt in B2. split.
    - assert (0 <= IZR r / IZR d)%R by (apply Rmult_le_pos; [lra|left; apply Rinv_0_lt_compat; auto]). lra.
    - assert (IZR r / IZR d < 1)%R; [|lra]. apply (Rmult_lt_reg_r (IZR d)); auto. unfold Rdiv. rewrite Rmult_assoc, Rinv_l by lra. lra. }
  assert (C : forall c, Rcompare (IZR n / IZR d - IZR q) (/ 2) = c -> (2 * r ?= d) = c).
  { intros c <-. rewrite X. replace (IZR q + IZR r / IZR d - IZR q)%R with (IZR r / IZR d)%R by lra.
    destruct (Z.compare_spec (2 * r) d) as [H|H|H]; symmetry.
    - apply Rcompare_Eq. apply (f_equal IZR) in H. rewrite mult_IZR in H. rewrite <- H in *. field. lra.
    - apply Rcompare_Lt. apply IZR_lt in H. rewrite mult_IZR in H. apply (Rmult_lt_reg_r (IZR d)); auto.
      unfold Rdiv. rewrite Rmult_assoc, Rinv_l by lra. lra.
    - apply Rcompare_Gt. apply IZR_lt in H. rewrite mult_IZR in H. apply (Rmult_lt_reg_r (IZR d)); auto.
      unfold Rdiv. rewrite Rmult_assoc, Rinv_l by lra. lra. }
  assert (CE : 0 < r -> Zceil (IZR n / IZR d) = q + 1).
  { intro H. apply Zceil_imp. replace (q + 1 - 1) with q by lia. rewrite plus_IZR, X. destruct B as [B1 B2].
    apply IZR_lt in H. apply IZR_lt in B2. split.
    - assert (0 < IZR r / IZR d)%R by (apply Rdiv_lt_0_compat; auto). lra.
    - assert (IZR r / IZR d < 1)%R; [|lra]. apply (Rmult_lt_reg_r (IZR d)); auto. unfold Rdiv. rewrite Rmult_assoc, Rinv_l by lra. lra. }
  unfold Znearest. rewrite F.
  destruct (Rcompare (IZR n / IZR d - IZR q) (/ 2)) eqn:R; specialize (C _ eq_refl).
  - apply Z.compare_eq in C. destruct (Z.ltb_spec (2 * r) d); [lia|]. destruct (Z.ltb_spec d (2 * r)); [lia|].
    destruct (Z.even q) eqn:V; cbn [negb]; [reflexivity|]. apply CE; lia.
  - rewrite Z.compare_lt_iff in C. destruct (Z.ltb_spec (2 * r) d); [reflexivity|lia].
  - rewrite Z.compare_gt_iff in C. destruct (Z.ltb_spec (2 * r) d); [lia|]. destruct (Z.ltb_spec d (2 * r)); [|lia].
    apply CE; lia.
Qed.

Notation rnd := (round radix2 (FLT_exp (-1074) 53) ZnearestE).
Lemma fl_div_round n d : 0 < n -> 0 < d ->
  let (m, e) := fl_div n d in rnd (IZR n / IZR d) = F2R (Float radix2 m e).
Proof.
  intros Hn Hd. unfold fl_div. set (k := log2_ratio n d). set (e := Z.max (k - 52) (-1074)).
  assert (Rn : (0 < IZR n)%R) by (apply IZR_lt; auto). assert (Rd : (0 < IZR d)%R) by (apply IZR_lt; auto).
  assert (M : mag radix2 (IZR n / IZR d) = k + 1 :> Z).
  { apply mag_unique. rewrite Rabs_pos_eq by (left; apply Rdiv_lt_0_compat; auto).
    replace (k + 1 - 1) with k by lia. destruct (log2_ratio_spec n d Hn Hd) as [P N]. fold k in P, N.
    destruct (Z.le_gt_cases 0 k) as [K|K].
    - destruct (P K) as [P1 P2]. apply IZR_le in P1. apply IZR_lt in P2. rewrite mult_IZR in P1, P2.
      change 2 with (radix_val radix2) in P1, P2. rewrite !IZR_Zpower in P1, P2 by lia. split.
      + apply (Rmult_le_reg_r (IZR d)); auto. unfold Rdiv. rewrite Rmult_assoc, Rinv_l by lra. lra.
      + apply (Rmult_lt_reg_r (IZR d)); auto. unfold Rdiv. rewrite Rmult_assoc, Rinv_l by lra. lra.
    - destruct (N K) as [P1 P2]. apply IZR_le in P1. apply IZR_lt in P2. rewrite mult_IZR in P1, P2.
      change 2 with (radix_val radix2) in P1, P2. rewrite !IZR_Zpower in P1, P2 by lia.
      pose proof (bpow_gt_0 radix2 k) as Gk. pose proof (bpow_gt_0 radix2 (k + 1)) as Gk1.
      assert (E1 : (bpow radix2 (- k) * bpow radix2 k = 1)%R) by (rewrite <- bpow_plus; replace (- k + k) with 0 by lia; reflexivity).
      assert (E2 : (bpow radix2 (- k - 1) * bpow radix2 (k + 1) = 1)%R) by (rewrite <- bpow_plus; replace (- k - 1 + (k + 1)) with 0 by lia; reflexivity).
      split.
      + apply (Rmult_le_reg_r (IZR d)); auto. unfold Rdiv. rewrite Rmult_assoc, Rinv_l by lra.
        apply (Rmult_le_compat_r (bpow radix2 k)) in P1; [|lra]. rewrite Rmult_assoc, E1 in P1. lra.
      + apply (Rmult_lt_reg_r (IZR d)); auto. unfold Rdiv. rewrite Rmult_assoc, Rinv_l by lra.
        apply (Rmult_lt_compat_r (bpow radix2 (k + 1))) in P2; [|lra]. rewrite Rmult_assoc, E2 in P2. lra. }
  assert (CX : cexp radix2 (FLT_exp (-1074) 53) (IZR n / IZR d) = e).
  { unfold cexp, FLT_exp. rewrite M. unfold e. f_equal. lia. }
  unfold round. rewrite CX. unfold scaled_mantissa. rewrite CX. apply f_equal. f_equal.
  destruct (Z.leb_spec 0 e) as [K|K].
  - rewrite <- rne_ZnearestE by (apply Z.mul_pos_pos; auto; apply two_p_pos; auto). f_equal. rewrite mult_IZR.
    change 2 with (radix_val radix2). rewrite IZR_Zpower by auto. rewrite bpow_opp. field. split; [|lra].
    pose proof (bpow_gt_0 radix2 e). lra.
  - rewrite <- rne_ZnearestE by auto. f_equal. rewrite mult_IZR. change 2 with (radix_val radix2).
    rewrite IZR_Zpower by lia. field. lra.
Qed.

(** what Python computes: overflow is an error, otherwise the ceiling of the binary64 quotient *)
Definition ceil_or_overflow (x : R) : res Z :=
  if Rle_bool (bpow radix2 1024) (Rabs x) then Raise OverflowErr else Ok (Zceil x).

Lemma small_quotient n d : 0 < n -> 0 < d -> snd (fl_div n d) < 0 -> (rnd (IZR n / IZR d) <= bpow radix2 53)%R.
Proof.
  intros Hn Hd He. apply round_le_generic; [apply FLT_exp_valid; reflexivity|apply valid_rnd_N| |].
  - apply generic_format_bpow. unfold FLT_exp. lia.
  - cbn [fl_div snd] in He. destruct (log2_ratio_spec n d Hn Hd) as [P N]. set (k := log2_ratio n d) in *.
    assert (Rn : (0 < IZR n)%R) by (apply IZR_lt; auto). assert (Rd : (0 < IZR d)%R) by (apply IZR_lt; auto).
    apply (Rmult_le_reg_r (IZR d)); auto. unfold Rdiv. rewrite Rmult_assoc, Rinv_l, Rmult_1_r by lra.
    rewrite <- IZR_Zpower by lia. rewrite <- mult_IZR. apply IZR_le. change (radix_val radix2) with 2.
    destruct (Z.le_gt_cases 0 k) as [K|K].
    + destruct (P K) as [_ P2]. assert (2 ^ (k + 1) <= 2 ^ 53) by (apply Z.pow_le_mono_r; lia). nia.
    + destruct (N K) as [_ P2]. assert (0 < 2 ^ (- k - 1)) by (apply two_p_pos; lia). assert (1 <= 2 ^ 53) by lia.
      nia.
Qed.
Lemma ceil_div_pos n d : 0 < n -> 0 < d ->
  let x := rnd (IZR n / IZR d) in
  ceil_div_float n d = ceil_or_overflow x /\ ceil_div_float (- n) d = ceil_or_overflow (- x).
Proof.
  intros Hn Hd x. pose proof (fl_div_round n d Hn Hd) as F. pose proof (small_quotient n d Hn Hd) as SQ. fold x in F, SQ.
  assert (x0 : (0 <= x)%R).
  { unfold x. apply round_ge_generic; [apply FLT_exp_valid; reflexivity|apply valid_rnd_N|apply generic_format_0|].
    apply Rmult_le_pos; [apply IZR_le; lia|]. left. apply Rinv_0_lt_compat, IZR_lt; auto. }
  unfold ceil_div_float, ceil_or_overflow. rewrite Rabs_Ropp, (Rabs_pos_eq x x0), Z.abs_opp, !Z.abs_eq by lia.
  destruct (Z.eqb_spec d 0) as [|_]; [lia|]. destruct (Z.eqb_spec n 0) as [|_]; [lia|]. destruct (Z.eqb_spec (- n) 0) as [|_]; [lia|].
  destruct (Z.ltb_spec n 0) as [|_]; [lia|]. destruct (Z.ltb_spec (- n) 0) as [_|]; [|lia]. destruct (Z.ltb_spec d 0) as [|_]; [lia|].
  cbn [Bool.eqb negb]. destruct (fl_div n d) as [m e]. cbn [snd] in SQ. clearbody x. unfold F2R in F. cbn [Fnum Fexp] in F.
  destruct (Z.leb_spec 0 e) as [K|K]; cbn [andb].
  - assert (X : x = IZR (m * 2 ^ e)).
    { rewrite F, mult_IZR. f_equal. change 2 with (radix_val radix2). rewrite IZR_Zpower; auto. }
    rewrite <- (IZR_Zpower radix2 1024) by lia. change (radix_val radix2) with 2. rewrite X.
    destruct (Z.leb_spec (2 ^ 1024) (m * 2 ^ e)) as [L|L].
    + rewrite Rle_bool_true by (apply IZR_le; exact L). split; reflexivity.
    + rewrite Rle_bool_false by (apply IZR_lt; exact L). rewrite <- opp_IZR, !Zceil_IZR.
      split; apply f_equal; lia.
  - rewrite Rle_bool_false.
    2:{ eapply Rle_lt_trans; [apply SQ; exact K|]. apply bpow_lt. lia. }
    assert (P : 0 < 2 ^ (- e)) by (apply two_p_pos; lia).
    assert (X : x = (IZR m / IZR (2 ^ (- e)))%R).
    { rewrite F. unfold Rdiv. f_equal. change 2 with (radix_val radix2). rewrite IZR_Zpower by lia. rewrite <- bpow_opp. f_equal. lia. }
    set (p := 2 ^ (- e)) in *. clearbody p.
    assert (NZ : IZR p <> 0%R) by (apply IZR_neq; lia). split.
    + unfold Zceil. rewrite X. replace (- (IZR m / IZR p))%R with (IZR (- m) / IZR p)%R by (rewrite opp_IZR; field; auto).
      rewrite Zfloor_div by lia. f_equal.
      pose proof (Z.div_mod (m + p - 1) p ltac:(lia)) as A1. pose proof (Z.mod_pos_bound (m + p - 1) p P) as A2.
      pose proof (Z.div_mod (- m) p ltac:(lia)) as B1. pose proof (Z.mod_pos_bound (- m) p P) as B2. nia.
    + unfold Zceil. rewrite Ropp_involutive, X, Zfloor_div by lia. reflexivity.
Qed.
Theorem ceil_div_float_any a b : b <> 0 -> ceil_div_float a b = ceil_or_overflow (rnd (IZR a / IZR b)).
Proof.
  intro Hb.
  assert (O : ceil_div_float (- a) (- b) = ceil_div_float a b).
  { unfold ceil_div_float. rewrite !Z.abs_opp.
    destruct (Z.eqb_spec (- b) 0) as [|_]; [lia|]. destruct (Z.eqb_spec b 0) as [|_]; [lia|].
    destruct (Z.eqb_spec a 0), (Z.eqb_spec (- a) 0); try lia; auto.
    destruct (Z.ltb_spec a 0), (Z.ltb_spec b 0), (Z.ltb_spec (- a) 0), (Z.ltb_spec (- b) 0); try lia; reflexivity. }
  assert (Q : (IZR (- a) / IZR (- b) = IZR a / IZR b)%R) by (rewrite !opp_IZR; field; apply IZR_neq; auto).
  destruct (Z.eq_dec a 0) as [-> |Ha].
  - unfold ceil_div_float. destruct (Z.eqb_spec b 0); [contradiction|]. cbn [Z.eqb].
    replace (0 / IZR b)%R with 0%R by (unfold Rdiv; rewrite Rmult_0_l; reflexivity). rewrite round_0 by apply valid_rnd_N.
    unfold ceil_or_overflow. rewrite Rabs_R0, Rle_bool_false by apply bpow_gt_0. rewrite Zceil_IZR. reflexivity.
  - assert (N : forall x y, 0 < x -> 0 < y -> ceil_div_float (- x) y = ceil_or_overflow (rnd (IZR (- x) / IZR y))).
    { intros x y Hx Hy. rewrite (proj2 (ceil_div_pos x y Hx Hy)). f_equal. rewrite opp_IZR.
      replace (- IZR x / IZR y)%R with (- (IZR x / IZR y))%R by (field; apply IZR_neq; lia).
      symmetry. apply round_NE_opp. }
    destruct (Z.lt_total a 0) as [A|[A|A]]; [|contradiction|]; destruct (Z.lt_total b 0) as [B|[B|B]]; try contradiction.
    + rewrite <- O, <- Q. apply ceil_div_pos; lia.
    + rewrite <- (Z.opp_involutive a). apply N; lia.
    + rewrite <- O, <- Q. apply N; lia.
    + apply ceil_div_pos; lia.
Qed.
