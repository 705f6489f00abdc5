(** The rounded division is also exact below zero and for negative divisors (C21). *)
From Verif Require Import Base Types Construct Ops Proof_Float.
Local Open Scope Z_scope.

(** the integer ceiling of a/b, any signs *)
Definition zceil (a b : Z) : Z := - ((- a) / b).
Lemma zceil_cdiv a b : 0 < b -> zceil a b = cdiv a b.
Proof.
  intro Hb. symmetry. unfold zceil. pose proof (Z.div_mod (-a) b ltac:(lia)). pose proof (Z.mod_pos_bound (-a) b Hb).
  apply cdiv_spec; nia.
Qed.
Lemma zceil_opp a b : b <> 0 -> zceil (- a) (- b) = zceil a b.
Proof. intro. unfold zceil. f_equal. rewrite Z.div_opp_opp by auto. reflexivity. Qed.

Lemma floor_scaled n d s q : 0 < d -> 0 <= s -> q * d <= n -> n < (q + 1) * d -> d < 2 * 2 ^ s ->
  q * 2 ^ s <= rne (n * 2 ^ s) d < (q + 1) * 2 ^ s.
Proof.
  intros Hd Hs H1 H2 H3. pose proof (two_p_pos s Hs) as P.
  split; [apply rne_ge; nia|].
  pose proof (rne_bounds (n * 2 ^ s) d Hd) as [B1 _].
  assert (2 * (rne (n * 2 ^ s) d * d) <= 2 * (n * 2 ^ s) + d) by lia.
  assert (n * 2 ^ s + 2 ^ s <= (q + 1) * d * 2 ^ s) by nia.
  assert (2 * (rne (n * 2 ^ s) d * d) < 2 * ((q + 1) * 2 ^ s * d)) by nia. nia.
Qed.
(** opposite signs: the quotient is rounded towards minus infinity and negated *)
Lemma fl_floor a b : 0 < a < 2 ^ 53 -> 1 <= b <= 2 ^ 1074 ->
  let (m, e) := fl_div a b in
  (0 <= e -> m * 2 ^ e = a / b /\ m * 2 ^ e < 2 ^ 1024) /\ (e < 0 -> m / 2 ^ (- e) = a / b).
Proof.
  intros [Pa Ha] [Pb' Hb]. assert (Pb : 0 < b) by lia.
  pose proof (log2_ratio_spec a b Pa Pb) as [L1 L2]. unfold fl_div. set (k := log2_ratio a b) in *.
  pose proof (Z.div_mod a b ltac:(lia)) as DM. pose proof (Z.mod_pos_bound a b Pb) as MB.
  assert (K : k <= 52).
  { destruct (Z.le_gt_cases k 52); auto. destruct (L1 ltac:(lia)) as [H1 _].
    assert (2 ^ 53 <= 2 ^ k) by (apply Z.pow_le_mono_r; lia). nia. }
  destruct (Z.leb_spec 0 (Z.max (k - 52) (-1074))) as [E|E].
  - assert (Hk : k = 52) by lia. split; [|lia]. intros _. destruct (L1 ltac:(lia)) as [H1 _]. rewrite Hk in *.
    change (Z.max (52 - 52) (-1074)) with 0. change (2 ^ 0) with 1. rewrite !Z.mul_1_r.
    assert (Eb : b = 1).
    { change (2 ^ 53) with (2 * 2 ^ 52) in Ha. nia. }
    rewrite Eb, Z.div_1_r. unfold rne. rewrite Z.div_1_r, Z.mod_1_r. change (2 * 0 <? 1) with true. cbv iota.
    split; auto. assert (2 ^ 53 < 2 ^ 1024) by (apply Z.pow_lt_mono_r; lia). lia.
  - split; [lia|]. intros _. set (e := Z.max (k - 52) (-1074)) in *. set (s := - e). assert (Hs : 0 <= s) by lia.
    assert (HP := two_p_pos s Hs).
    assert (D : b < 2 * 2 ^ s).
    { destruct (Z.le_gt_cases (-1074) (k - 52)) as [G|G].
      - assert (Es : s = 52 - k) by lia. destruct (Z.le_gt_cases 0 k) as [Kp|Kn].
        + destruct (L1 Kp) as [H1 _]. assert (X : 2 ^ 52 = 2 ^ k * 2 ^ s) by (rewrite <- Z.pow_add_r by lia; f_equal; lia).
          assert (0 < 2 ^ k) by (apply two_p_pos; lia). change (2 ^ 53) with (2 * 2 ^ 52) in Ha. nia.
        + destruct (L2 Kn) as [H1 _]. assert (X : 2 ^ s = 2 ^ (- k) * 2 ^ 52) by (rewrite <- Z.pow_add_r by lia; f_equal; lia).
          assert (0 < 2 ^ (- k)) by (apply two_p_pos; lia). change (2 ^ 53) with (2 * 2 ^ 52) in Ha. nia.
      - assert (Es : s = 1074) by lia. rewrite Es in *. lia. }
    destruct (floor_scaled a b s (a / b) Pb Hs) as [F1 F2]; [nia|nia|auto|].
    symmetry. apply (Z.div_unique_pos _ _ _ (rne (a * 2 ^ s) b - (a / b) * 2 ^ s)); [lia|ring].
Qed.
Theorem ceil_div_float_exact2 a b : Z.abs a < 2 ^ 53 -> b <> 0 -> Z.abs b <= 2 ^ 1074 ->
  ceil_div_float a b = Ok (zceil a b).
Proof.
  intros Ha Hb0 Hb.
  assert (P : forall a b, 0 <= a < 2 ^ 53 -> 1 <= b <= 2 ^ 1074 -> ceil_div_float a b = Ok (zceil a b)).
  { intros x y Hx Hy. rewrite ceil_div_float_exact by lia. f_equal. symmetry. apply zceil_cdiv; lia. }
  assert (N : forall a b, 0 < a < 2 ^ 53 -> 1 <= b <= 2 ^ 1074 -> forall x y, Z.abs x = a -> Z.abs y = b ->
     (x < 0 <-> 0 < y) -> ceil_div_float x y = Ok (- (a / b))).
  { intros p q Hp Hq x y Ex Ey Hs. unfold ceil_div_float.
    destruct (Z.eqb_spec y 0); [lia|]. destruct (Z.eqb_spec x 0); [lia|]. rewrite Ex, Ey.
    pose proof (fl_floor p q Hp Hq) as F. destruct (fl_div p q) as [m e]. destruct F as [F1 F2].
    replace (negb (Bool.eqb (x <? 0) (y <? 0))) with true by (destruct (Z.ltb_spec x 0), (Z.ltb_spec y 0); auto; lia).
    destruct (Z.leb_spec 0 e) as [E|E].
    - destruct (F1 E) as [G1 G2]. replace (2 ^ 1024 <=? m * 2 ^ e) with false by (symmetry; apply Z.leb_gt; auto).
      cbn [andb]. rewrite G1. reflexivity.
    - cbn [andb]. rewrite (F2 E). reflexivity. }
  destruct (Z.lt_total a 0) as [Sa|[->|Sa]].
  - destruct (Z.lt_total b 0) as [Sb|[->|Sb]]; [|contradiction|].
    + assert (E : ceil_div_float a b = ceil_div_float (- a) (- b)).
      { unfold ceil_div_float. destruct (Z.eqb_spec b 0), (Z.eqb_spec (-b) 0), (Z.eqb_spec a 0), (Z.eqb_spec (-a) 0); try lia.
        rewrite !Z.abs_opp. replace (Bool.eqb (- a <? 0) (- b <? 0)) with (Bool.eqb (a <? 0) (b <? 0)); [reflexivity|].
        destruct (Z.ltb_spec a 0), (Z.ltb_spec b 0), (Z.ltb_spec (-a) 0), (Z.ltb_spec (-b) 0); auto; lia. }
      rewrite E, P by lia. f_equal. apply zceil_opp; auto.
    + rewrite (N (- a) b) by lia. reflexivity.
  - unfold ceil_div_float. destruct (Z.eqb_spec b 0); [contradiction|]. reflexivity.
  - destruct (Z.lt_total b 0) as [Sb|[->|Sb]]; [|contradiction|].
    + rewrite (N a (- b)) by lia. f_equal. rewrite <- zceil_opp by auto. unfold zceil. now rewrite Z.opp_involutive.
    + apply P; lia.
Qed.
