(** Slices: the length computed by the code, for any bounds and steps of either sign. *)
From Verif Require Import Base Types Construct Ops Spec_WF Spec_Ops Proof_WF Proof_Float Proof_Float2 Proof_Slice Proof_Ops.
Local Open Scope Z_scope.

Lemma IsCeil_zceil a b : b <> 0 -> IsCeil a b (zceil a b).
Proof.
  intro Hb. unfold IsCeil, zceil. pose proof (Z.div_mod (-a) b Hb).
  destruct (Z.lt_total b 0) as [S|[S|S]]; [|contradiction|].
  - right. pose proof (Z.mod_neg_bound (-a) b S). split; auto. nia.
  - left. pose proof (Z.mod_pos_bound (-a) b S). split; auto. nia.
Qed.
Lemma IsCeil_fun a b q q' : IsCeil a b q -> IsCeil a b q' -> q = q'.
Proof. unfold IsCeil. intros [[H1 H2]|[H1 H2]] [[H3 H4]|[H3 H4]]; try lia; nia. Qed.

Lemma raw_or n x : 0 <= n -> (let b := or_int x n in if b <? 0 then n + b else b) = raw_bound n n x.
Proof.
  intro Hn. unfold or_int, raw_bound. cbv zeta. destruct x as [v|]; [destruct (Z.eqb_spec v 0)|]; try reflexivity;
  destruct (Z.ltb_spec n 0); lia.
Qed.
Lemma raw_or0 n x : (let b := or_int x 0 in if b <? 0 then n + b else b) = raw_bound n 0 x.
Proof. unfold or_int, raw_bound. cbv zeta. destruct x as [v|]; [destruct (Z.eqb_spec v 0)|]; reflexivity. Qed.
Lemma slice_count_raw n start stop step : 0 <= n ->
  slice_count (FixedT n) start stop step =
  match step with
  | None => Ok (Some (raw_bound n n stop - raw_bound n 0 start))
  | Some s => let! k := ceil_div_float (raw_bound n n stop - raw_bound n 0 start) s in Ok (Some k)
  end.
Proof. intro Hn. rewrite <- (raw_or n stop Hn), <- raw_or0. unfold slice_count. destruct step; reflexivity. Qed.

Lemma slice_sub nm n ps start stop step : WF (DataShapeT nm (FixedT n :: ps)) -> ps <> [] ->
  subshape (IxSlice start stop step) (DataShapeT nm (FixedT n :: ps)) =
  let! k := slice_count (FixedT n) start stop step in
  match k with Some k => if 0 <=? k then Ok (DataShapeT None (FixedT k :: ps)) else Raise ValueErr
  | None => Ok (DataShapeT None (VarT :: ps)) end.
Proof.
  intros W Hps. assert (HO : okps ps).
  { eapply okps_tail; [apply (W _ (Occurs_here _))|auto]. }
  cbn [subshape]. unfold subshape_plain. cbn [ds_head]. destruct (slice_count _ _ _ _) as [[k|]|]; cbn [bind]; auto.
  - rewrite sub1 by (auto; constructor). cbn [bind]. destruct (Z.leb_spec 0 k).
    + apply mul_int_ds; auto.
    + apply mul_int_neg; auto.
  - rewrite sub1 by (auto; constructor). cbn [bind].
    apply mul_ds; [auto|apply Dim_notMeasure; constructor|apply Dim_notLone; constructor].
Qed.

(** magnitudes for which true division is exact *)
Definition small (x : option Z) : Prop := forall v, x = Some v -> Z.abs v <= 2 ^ 51.
Lemma raw_small n x d : 0 <= n <= 2 ^ 51 -> small x -> d = 0 \/ d = n -> Z.abs (raw_bound n d x) <= 2 ^ 51.
Proof.
  intros Hn Hx Hd. unfold raw_bound. destruct x as [v|]; [|lia]. specialize (Hx v eq_refl).
  destruct (Z.eqb_spec v 0); [lia|]. destruct (Z.ltb_spec v 0); lia.
Qed.
Theorem slice_exact nm n ps start stop step c : WF (DataShapeT nm (FixedT n :: ps)) -> ps <> [] ->
  n <= 2 ^ 51 -> small start -> small stop -> step <> 0 -> Z.abs step <= 2 ^ 1074 ->
  IsCeil (raw_bound n n stop - raw_bound n 0 start) step c ->
  subshape (IxSlice start stop (Some step)) (DataShapeT nm (FixedT n :: ps)) =
    if 0 <=? c then Ok (DataShapeT None (FixedT c :: ps)) else Raise ValueErr.
Proof.
  intros W Hps Hn Ha Hb Hs0 Hs HC.
  assert (Hn0 : 0 <= n). { apply (W (FixedT n)). eapply Occurs_in; [left; reflexivity|constructor]. }
  rewrite slice_sub by auto. rewrite slice_count_raw by auto.
  pose proof (raw_small n stop n ltac:(lia) Hb (or_intror eq_refl)).
  pose proof (raw_small n start 0 ltac:(lia) Ha (or_introl eq_refl)).
  assert (2 ^ 53 = 4 * 2 ^ 51) by reflexivity.
  rewrite ceil_div_float_exact2 by (auto; lia). cbn [bind].
  rewrite (IsCeil_fun _ _ _ _ (IsCeil_zceil _ _ Hs0) HC). reflexivity.
Qed.
Theorem slice_exact_nostep nm n ps start stop : WF (DataShapeT nm (FixedT n :: ps)) -> ps <> [] ->
  subshape (IxSlice start stop None) (DataShapeT nm (FixedT n :: ps)) =
    let c := raw_bound n n stop - raw_bound n 0 start in
    if 0 <=? c then Ok (DataShapeT None (FixedT c :: ps)) else Raise ValueErr.
Proof.
  intros W Hps.
  assert (Hn0 : 0 <= n). { apply (W (FixedT n)). eapply Occurs_in; [left; reflexivity|constructor]. }
  rewrite slice_sub by auto. rewrite slice_count_raw by auto. reflexivity.
Qed.
Theorem slice_step_zero nm n ps start stop : WF (DataShapeT nm (FixedT n :: ps)) -> ps <> [] ->
  subshape (IxSlice start stop (Some 0)) (DataShapeT nm (FixedT n :: ps)) = Raise ZeroDivErr.
Proof.
  intros W Hps.
  assert (Hn0 : 0 <= n). { apply (W (FixedT n)). eapply Occurs_in; [left; reflexivity|constructor]. }
  rewrite slice_sub by auto. rewrite slice_count_raw by auto. reflexivity.
Qed.

(** negative steps *)
Lemma SliceLenNeg_zceil n start stop s : 0 <= n -> s < 0 ->
  bound_neg n (-1) stop <= bound_neg n (n - 1) start ->
  SliceLenNeg n start stop s (zceil (bound_neg n (-1) stop - bound_neg n (n - 1) start) s).
Proof.
  intros Hn Hs Hle. unfold SliceLenNeg, SelectedNeg.
  assert (B1 : bound_neg n (n - 1) start <= n - 1) by (unfold bound_neg; destruct start; lia).
  assert (B2 : -1 <= bound_neg n (-1) stop) by (unfold bound_neg; destruct stop; lia).
  set (hi := bound_neg n (n - 1) start) in *. set (lo := bound_neg n (-1) stop) in *.
  destruct (IsCeil_zceil (lo - hi) s ltac:(lia)) as [[? _]|[_ [C1 C2]]]; [lia|].
  set (c := zceil (lo - hi) s) in *.
  assert (Hc : 0 <= c) by nia.
  exists (prog hi s (Z.to_nat c)). split; [|split].
  - unfold prog. apply FinFun.Injective_map_NoDup; [intros x y E; nia|apply seq_NoDup].
  - unfold prog. rewrite map_length, seq_length. lia.
  - intro i. unfold prog. rewrite in_map_iff. split.
    + intros [k [<- Hk]]. apply in_seq in Hk. assert (Z.of_nat k <= c - 1) by lia.
      assert (Z.of_nat k * s >= (c - 1) * s) by nia. split; [nia|]. split; [nia|]. exists (Z.of_nat k); ring.
    + intros [H1 [H2 [k ->]]]. exists (Z.to_nat k). assert (0 <= k) by nia. assert (k < c) by nia.
      rewrite Z2Nat.id by lia. split; [reflexivity|]. apply in_seq. lia.
Qed.
Lemma SliceLenNeg_fun n a b s c c' : SliceLenNeg n a b s c -> SliceLenNeg n a b s c' -> c = c'.
Proof.
  intros [l [N [L H]]] [l' [N' [L' H']]].
  assert (length l = length l').
  { apply Nat.le_antisymm; apply NoDup_incl_length; auto; intros x Hx; [apply H', H|apply H, H']; auto. }
  lia.
Qed.
Theorem slice_negative nm n ps a b s c : WF (DataShapeT nm (FixedT n :: ps)) -> ps <> [] ->
  n <= 2 ^ 51 -> - n <= a < n -> - n <= b < n -> b <> 0 -> - 2 ^ 1074 <= s < 0 ->
  bound_neg n (-1) (Some b) <= bound_neg n (n - 1) (Some a) ->
  SliceLenNeg n (Some a) (Some b) s c ->
  subshape (IxSlice (Some a) (Some b) (Some s)) (DataShapeT nm (FixedT n :: ps)) = Ok (DataShapeT None (FixedT c :: ps)).
Proof.
  intros W Hps Hn Ha Hb Hb0 Hs Hle HL.
  assert (Hn0 : 0 <= n). { apply (W (FixedT n)). eapply Occurs_in; [left; reflexivity|constructor]. }
  pose proof (SliceLenNeg_fun _ _ _ _ _ _ HL (SliceLenNeg_zceil n (Some a) (Some b) s Hn0 ltac:(lia) Hle)) as Ec.
  assert (EA : raw_bound n 0 (Some a) = bound_neg n (n - 1) (Some a)).
  { unfold raw_bound, bound_neg. destruct (Z.eqb_spec a 0) as [->|]; [change (0 <? 0) with false; cbv iota; lia|].
    destruct (Z.ltb_spec a 0); lia. }
  assert (EB : raw_bound n n (Some b) = bound_neg n (-1) (Some b)).
  { unfold raw_bound, bound_neg. destruct (Z.eqb_spec b 0) as [->|]; [contradiction|]. destruct (Z.ltb_spec b 0); lia. }
  rewrite (slice_exact nm n ps (Some a) (Some b) s c); auto; try lia.
  - destruct HL as [l [_ [<- _]]]. destruct (Z.leb_spec 0 (Z.of_nat (length l))); [reflexivity|lia].
  - intros v E; injection E as <-; lia.
  - intros v E; injection E as <-; lia.
  - rewrite EA, EB, Ec. apply IsCeil_zceil. lia.
Qed.
