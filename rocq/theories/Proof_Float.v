(** [int(ceil(a / b))] computed through binary64 is the exact ceiling when 0 <= a <= 2^53. *)
From Verif Require Import Base Ops.
Local Open Scope Z_scope.

Lemma rne_bounds n d : 0 < d -> 2 * (rne n d * d - n) <= d /\ 2 * (n - rne n d * d) <= d.
Proof.
  intro Hd. unfold rne. pose proof (Z.div_mod n d ltac:(lia)) as E. pose proof (Z.mod_pos_bound n d Hd) as B.
  destruct (2 * (n mod d) <? d) eqn:E1; [apply Z.ltb_lt in E1; nia|]. apply Z.ltb_ge in E1.
  destruct (d <? 2 * (n mod d)) eqn:E2; [apply Z.ltb_lt in E2; nia|]. apply Z.ltb_ge in E2.
  destruct (Z.even (n / d)); nia.
Qed.
(** rounding does not cross integers *)
Lemma rne_le n d k : 0 < d -> n <= k * d -> rne n d <= k.
Proof.
  intros Hd H. pose proof (Z.div_mod n d ltac:(lia)) as E. pose proof (Z.mod_pos_bound n d Hd) as B.
  unfold rne.
  destruct (2 * (n mod d) <? d) eqn:E1; [apply Z.ltb_lt in E1; nia|]. apply Z.ltb_ge in E1.
  destruct (d <? 2 * (n mod d)) eqn:E2; [apply Z.ltb_lt in E2; nia|]. apply Z.ltb_ge in E2.
  destruct (Z.even (n / d)); nia.
Qed.
Lemma rne_ge n d k : 0 < d -> k * d <= n -> k <= rne n d.
Proof.
  intros Hd H. pose proof (Z.div_mod n d ltac:(lia)) as E. pose proof (Z.mod_pos_bound n d Hd) as B.
  unfold rne.
  destruct (2 * (n mod d) <? d) eqn:E1; [apply Z.ltb_lt in E1; nia|]. apply Z.ltb_ge in E1.
  destruct (d <? 2 * (n mod d)) eqn:E2; [apply Z.ltb_lt in E2; nia|]. apply Z.ltb_ge in E2.
  destruct (Z.even (n / d)); nia.
Qed.

Lemma log2_ratio_spec n d : 0 < n -> 0 < d ->
  let k := log2_ratio n d in
  (0 <= k -> d * 2 ^ k <= n < d * 2 ^ (k + 1)) /\
  (k < 0 -> d <= n * 2 ^ (- k) /\ n * 2 ^ (- k - 1) < d).
Proof.
  intros Hn Hd. cbv zeta. unfold log2_ratio.
  pose proof (Z.log2_spec n Hn) as [N1 N2]. pose proof (Z.log2_spec d Hd) as [D1 D2].
  pose proof (Z.log2_nonneg n) as Ln. pose proof (Z.log2_nonneg d) as Ld.
  set (a := Z.log2 n) in *. set (b := Z.log2 d) in *.
  rewrite Z.pow_succ_r in N2, D2 by lia.
  assert (P : forall x, 0 <= x -> 0 < 2 ^ x) by (intros; apply Z.pow_pos_nonneg; lia).
  pose proof (P a Ln). pose proof (P b Ld).
  destruct (Z.leb_spec 0 (a - b)) as [K|K].
  - assert (E : 2 ^ a = 2 ^ b * 2 ^ (a - b)) by (rewrite <- Z.pow_add_r by lia; f_equal; lia).
    pose proof (P (a - b) K).
    destruct (Z.leb_spec (d * 2 ^ (a - b)) n) as [G|G].
    + split; [intros _|lia]. rewrite Z.pow_add_r by lia. change (2 ^ 1) with 2. nia.
    + split.
      * intro K1. replace (a - b - 1 + 1) with (a - b) by lia. split; [|lia].
        assert (E2 : 2 ^ (a - b) = 2 * 2 ^ (a - b - 1)) by (rewrite <- Z.pow_succ_r by lia; f_equal; lia). nia.
      * intro K1. assert (K0 : a - b = 0) by lia. rewrite K0 in *. change (2 ^ 0) with 1 in *.
        change (- (0 - 1)) with 1. change (2 ^ 1) with 2. change (1 - 1) with 0. change (2 ^ 0) with 1. nia.
  - replace (- (a - b)) with (b - a) by lia.
    assert (E : 2 ^ b = 2 ^ a * 2 ^ (b - a)) by (rewrite <- Z.pow_add_r by lia; f_equal; lia).
    pose proof (P (b - a) ltac:(lia)).
    assert (E2 : 2 ^ (b - a) = 2 * 2 ^ (b - a - 1)) by (rewrite <- Z.pow_succ_r by lia; f_equal; lia).
    destruct (Z.leb_spec d (n * 2 ^ (b - a))) as [G|G].
    + split; [lia|intros _]. replace (- (a - b)) with (b - a) by lia. split; [exact G|]. nia.
    + split; [lia|intros _]. replace (- (a - b - 1)) with (b - a + 1) by lia.
      replace (b - a + 1 - 1) with (b - a) by lia. split; [|lia].
      rewrite Z.pow_add_r by lia. change (2 ^ 1) with 2. nia.
Qed.

Lemma two_p_pos x : 0 <= x -> 0 < 2 ^ x.
Proof. intro; apply Z.pow_pos_nonneg; lia. Qed.

(** the integer ceiling *)
Definition cdiv (n d : Z) : Z := (n + d - 1) / d.
Lemma cdiv_spec n d c : 0 < d -> (c - 1) * d < n -> n <= c * d -> cdiv n d = c.
Proof. intros Hd H1 H2. unfold cdiv. symmetry. apply (Z.div_unique_pos _ _ _ (n + d - 1 - c * d)); nia. Qed.
Lemma cdiv_bounds n d : 0 < d -> (cdiv n d - 1) * d < n /\ n <= cdiv n d * d.
Proof.
  intro Hd. unfold cdiv. pose proof (Z.div_mod (n + d - 1) d ltac:(lia)).
  pose proof (Z.mod_pos_bound (n + d - 1) d Hd). nia.
Qed.

(** core: a significand [m = rne (n * 2^s) d] with enough bits *)
Lemma ceil_scaled n d s c : 0 < n -> n <= 2 ^ 53 -> 0 < d -> 0 <= s ->
  (c - 1) * d < n -> n <= c * d ->
  (2 ^ 52 * d <= n * 2 ^ s \/ (c = 1 /\ d <= n * 2 ^ s)) ->
  (c - 1) * 2 ^ s < rne (n * 2 ^ s) d <= c * 2 ^ s.
Proof.
  intros Hn Hn53 Hd Hs Hc1 Hc2 H. pose proof (two_p_pos s Hs) as P.
  pose proof (rne_bounds (n * 2 ^ s) d Hd) as [B1 B2].
  split; [|apply rne_le; [lia|]; replace (c * 2 ^ s * d) with (c * d * 2 ^ s) by ring; nia].
  destruct H as [H|[-> H]].
  2:{ assert (1 <= rne (n * 2 ^ s) d) by (apply rne_ge; lia). lia. }
  assert (Hc : 1 <= c) by nia.
  destruct (Z.eq_dec c 1) as [->|Hc'].
  { assert (1 <= rne (n * 2 ^ s) d) by (apply rne_ge; nia). lia. }
  (* d <= 2 * 2^s *)
  assert (D2 : d <= 2 * 2 ^ s) by nia.
  assert (L : (c - 1) * d + 1 <= n) by lia.
  destruct (Z.eq_dec d (2 * 2 ^ s)) as [Ed|Nd].
  2:{ (* rne*d >= n*2^s - d/2 > (c-1)*2^s*d *)
      assert (2 * ((c - 1) * 2 ^ s * d) < 2 * (rne (n * 2 ^ s) d * d)) by nia. nia. }
  (* then n = 2^53 and d divides it, so the quotient is exact *)
  assert (En : n = 2 ^ 53) by nia.
  assert (Ed' : d = 2 ^ (s + 1)) by (rewrite Z.pow_add_r by lia; change (2 ^ 1) with 2; lia).
  assert (Hs52 : s + 1 <= 53).
  { destruct (Z.le_gt_cases (s + 1) 53) as [?|G]; [assumption|].
    assert (2 ^ 53 < 2 ^ (s + 1)) by (apply Z.pow_lt_mono_r; lia). nia. }
  assert (Eq : n = 2 ^ (53 - (s + 1)) * d) by (rewrite En, Ed', <- Z.pow_add_r by lia; f_equal; lia).
  set (q := 2 ^ (53 - (s + 1))) in *.
  assert (c - 1 < q) by nia.
  assert (q * 2 ^ s <= rne (n * 2 ^ s) d) by (apply rne_ge; nia). nia.
Qed.

Theorem ceil_div_float_exact a b : 0 <= a <= 2 ^ 53 -> 1 <= b <= 2 ^ 1074 ->
  ceil_div_float a b = Ok (cdiv a b).
Proof.
  intros [Ha Ha'] [Hb Hb']. unfold ceil_div_float.
  destruct (Z.eqb_spec b 0); [lia|]. destruct (Z.eqb_spec a 0) as [->|Na].
  { f_equal. symmetry. apply cdiv_spec; lia. }
  replace (a <? 0) with false by (symmetry; apply Z.ltb_ge; lia).
  replace (b <? 0) with false by (symmetry; apply Z.ltb_ge; lia). cbn [Bool.eqb negb].
  rewrite !Z.abs_eq by lia.
  assert (Pa : 0 < a) by lia. assert (Pb : 0 < b) by lia.
  pose proof (log2_ratio_spec a b Pa Pb) as [L1 L2].
  destruct (cdiv_bounds a b Pb) as [C1 C2].
  unfold fl_div. set (k := log2_ratio a b) in *.
  assert (K : k <= 53).
  { destruct (Z.le_gt_cases k 53); auto. destruct (L1 ltac:(lia)) as [H1 _].
    assert (2 ^ 54 <= 2 ^ k) by (apply Z.pow_le_mono_r; lia). 
    change (2 ^ 54) with (2 * 2 ^ 53) in H0. nia. }
  destruct (Z.leb_spec 0 (Z.max (k - 52) (-1074))) as [E|E].
  - (* e >= 0: k = 52 or 53 *)
    assert (Hk : k = 52 \/ k = 53) by lia. destruct (L1 ltac:(lia)) as [H1 H2].
    assert (Hx : b * 2 ^ (Z.max (k - 52) (-1074)) * 2 ^ 52 <= a).
    { replace (Z.max (k - 52) (-1074)) with (k - 52) by lia. rewrite <- Z.mul_assoc, <- Z.pow_add_r by lia.
      replace (k - 52 + 52) with k by lia. exact H1. }
    set (e := Z.max (k - 52) (-1074)) in *. pose proof (two_p_pos e E) as Pe.
    (* a / (b*2^e): either b = 1,e=0 / e=1, or b = 2, e = 0, a = 2^53 : exact *)
    assert (Hbe : b * 2 ^ e = 1 \/ (b * 2 ^ e = 2 /\ a = 2 ^ 53)).
    { assert (b * 2 ^ e <= 2) by (change (2 ^ 53) with (2 * 2 ^ 52) in *; nia).
      assert (1 <= b * 2 ^ e) by nia.
      destruct (Z.eq_dec (b * 2 ^ e) 1); [left; assumption|right].
      assert (b * 2 ^ e = 2) by lia. split; [assumption|].
      change (2 ^ 53) with (2 * 2 ^ 52) in *. lia. }
    assert (Hm : rne a (b * 2 ^ e) * (b * 2 ^ e) = a).
    { destruct Hbe as [->|[-> Ea]].
      - unfold rne. rewrite Z.div_1_r, Z.mod_1_r. change (2 * 0 <? 1) with true. cbv iota. lia.
      - rewrite Ea. reflexivity. }
    assert (Hlim : (2 ^ 1024 <=? rne a (b * 2 ^ e) * 2 ^ e) = false).
    { apply Z.leb_gt. assert (rne a (b * 2 ^ e) * 2 ^ e <= a) by nia.
      assert (2 ^ 53 < 2 ^ 1024) by (apply Z.pow_lt_mono_r; lia). lia. }
    rewrite Hlim. cbn [andb]. f_equal. rewrite Z.mul_1_l.
    symmetry. apply cdiv_spec; [lia| |]; nia.
  - cbn [andb]. set (e := Z.max (k - 52) (-1074)) in *.
    f_equal. set (s := - e). assert (Hs : 0 <= s) by lia.
    apply (cdiv_spec (rne (a * 2 ^ s) b) (2 ^ s) (cdiv a b)); [apply two_p_pos; lia| |];
    apply (ceil_scaled a b s (cdiv a b)); auto; try lia.
    all: assert (HP := two_p_pos s Hs).
    all: destruct (Z.le_gt_cases (-1074) (k - 52)) as [G|G].
    1,3: left; assert (Es : s = 52 - k) by lia;
      destruct (Z.le_gt_cases 0 k) as [Kp|Kn];
      [ destruct (L1 Kp) as [H1 _]; assert (2 ^ 52 = 2 ^ k * 2 ^ s) by (rewrite <- Z.pow_add_r by lia; f_equal; lia);
        assert (0 < 2 ^ k) by (apply two_p_pos; lia); rewrite H; nia
      | destruct (L2 Kn) as [H1 _]; assert (2 ^ s = 2 ^ (- k) * 2 ^ 52) by (rewrite <- Z.pow_add_r by lia; f_equal; lia);
        rewrite H; nia ].
    1,2: right; assert (Es : s = 1074) by lia.
    1,2: destruct (L2 ltac:(lia)) as [_ H2]; split; [|rewrite Es; nia].
    1,2: assert (a <= b) by (assert (1 <= 2 ^ (- k - 1)) by (pose proof (two_p_pos (-k-1) ltac:(lia)); lia); nia);
       apply cdiv_spec; nia.
Qed.
