(** C21 without bounds on sizes: Python's true division is the binary64 number nearest to the
    quotient (ties to even); Flocq's rounding is the reference. The statement is about real
    numbers, hence the axioms of the standard library's reals. *)
From Coq Require Import Reals Lra.
From Flocq Require Import Core Relative.
From Verif Require Import Base Types Construct Ops Spec_WF Spec_Ops Proof_WF Proof_Float Proof_Float2 Proof_Float3 Proof_Slice2 Proof_Ops4 Tests_Parser Prop_Ops.
Local Open Scope Z_scope.

(** the binary64 number nearest to x, ties to even *)
Definition binary64 (x : R) : R := round radix2 (FLT_exp (-1074) 53) ZnearestE x.

(** C21. [ds.subshape[start:stop:step]] on a fixed dimension of any length, any bounds and any
    step: the new length is the ceiling of the binary64 quotient (stop - start) / step, where a
    missing or zero bound stands for the end of the dimension on its side, and a negative bound
    counts from the end. A negative length is a ValueError, a quotient beyond the range of
    binary64 an OverflowError. *)
Theorem C21_any_size : forall nm n ps start stop step, WF (DataShapeT nm (FixedT n :: ps)) -> ps <> [] -> step <> 0 ->
  let x := binary64 (IZR (raw_bound n n stop - raw_bound n 0 start) / IZR step) in
  ((bpow radix2 1024 <= Rabs x)%R /\
   subshape (IxSlice start stop (Some step)) (DataShapeT nm (FixedT n :: ps)) = Raise OverflowErr) \/
  ((Rabs x < bpow radix2 1024)%R /\ 0 <= Zceil x /\
   subshape (IxSlice start stop (Some step)) (DataShapeT nm (FixedT n :: ps)) = Ok (DataShapeT None (FixedT (Zceil x) :: ps))) \/
  ((Rabs x < bpow radix2 1024)%R /\ Zceil x < 0 /\
   subshape (IxSlice start stop (Some step)) (DataShapeT nm (FixedT n :: ps)) = Raise ValueErr).
Proof.
  intros nm n ps start stop step W Hps Hs x.
  assert (Hn0 : 0 <= n). { apply (W (FixedT n)). eapply Occurs_in; [left; reflexivity|constructor]. }
  rewrite slice_sub, slice_count_raw, ceil_div_float_any by auto. fold (binary64 (IZR (raw_bound n n stop - raw_bound n 0 start) / IZR step)).
  fold x. unfold ceil_or_overflow. destruct (Rle_bool_spec (bpow radix2 1024) (Rabs x)) as [H|H]; cbn [bind]; [auto|].
  destruct (Z.leb_spec 0 (Zceil x)); auto.
Qed.
Print Assumptions C21_any_size.
(** How far the length can be off: for a quotient in the normal range, at most one part in
    2^53 of it, before rounding up. *)
Theorem C21_error : forall a b : Z, b <> 0 -> (bpow radix2 (-1022) <= Rabs (IZR a / IZR b))%R ->
  (Rabs (binary64 (IZR a / IZR b) - IZR a / IZR b) <= / 2 * bpow radix2 (-52) * Rabs (IZR a / IZR b))%R.
Proof.
  intros a b Hb H. apply (relative_error_N_FLT radix2 (-1074) 53 ltac:(reflexivity)). exact H.
Qed.
Print Assumptions C21_error.
(** all three outcomes occur *)
Example C21_any_size_case :
  subshape (IxSlice (Some (-3)) None (Some 2)) (arr 10) = Ok (arr 2) /\
  subshape (IxSlice (Some 5) (Some 3) (Some 2)) (arr 10) = Raise ValueErr /\
  subshape (IxSlice None None (Some 1)) (arr (2 ^ 1024)) = Raise OverflowErr /\
  WF (arr (2 ^ 1024)).
Proof.
  split; [vm_compute; reflexivity|]. split; [vm_compute; reflexivity|]. split; [vm_compute; reflexivity|].
  apply wf_WF. vm_compute. reflexivity.
Qed.

(** C22. A slice of a dimension of unknown length (var, ..., a type variable): of known length
    exactly when start and stop are both given without a sign (a missing start is 0). *)
Theorem C22_open_slice : forall nm d ps start stop step, WF (DataShapeT nm (d :: ps)) -> ps <> [] ->
  (forall n, d <> FixedT n) -> (forall fs, d <> RecordT fs) ->
  let a := match start with None => 0 | Some v => v end in
  let sub := subshape (IxSlice start stop step) (DataShapeT nm (d :: ps)) in
  (stop = None \/ a < 0 \/ (exists b, stop = Some b /\ b < 0) -> sub = Ok (DataShapeT None (VarT :: ps))) /\
  (forall b, stop = Some b -> 0 <= a -> 0 <= b ->
    (step = None -> a <= b -> sub = Ok (DataShapeT None (FixedT (b - a) :: ps))) /\
    (step = None -> b < a -> sub = Raise ValueErr) /\
    (step = Some 0 -> sub = Raise ZeroDivErr) /\
    (forall s, step = Some s -> s <> 0 ->
      let x := binary64 (IZR (b - a) / IZR s) in
      ((bpow radix2 1024 <= Rabs x)%R /\ sub = Raise OverflowErr) \/
      ((Rabs x < bpow radix2 1024)%R /\ 0 <= Zceil x /\ sub = Ok (DataShapeT None (FixedT (Zceil x) :: ps))) \/
      ((Rabs x < bpow radix2 1024)%R /\ Zceil x < 0 /\ sub = Raise ValueErr))).
Proof.
  intros nm d ps start stop step W N F R. cbv zeta. rewrite slice_open, slice_count_open by auto.
  set (a := match start with None => 0 | Some v => v end). split.
  - intros [->|[H|[b [-> H]]]]; [reflexivity| |].
    + destruct stop as [b|]; [|reflexivity]. replace (0 <=? a) with false by (symmetry; apply Z.leb_gt; exact H). rewrite andb_false_r. reflexivity.
    + replace (0 <=? b) with false by (symmetry; apply Z.leb_gt; exact H). reflexivity.
  - intros b -> Ha Hb. apply Z.leb_le in Ha, Hb. rewrite Ha, Hb. cbn [andb]. split; [|split; [|split]].
    + intros -> L. cbn [bind]. replace (0 <=? b - a) with true by (symmetry; apply Z.leb_le; lia). reflexivity.
    + intros -> L. cbn [bind]. replace (0 <=? b - a) with false by (symmetry; apply Z.leb_gt; lia). reflexivity.
    + intros ->. reflexivity.
    + intros s -> Hs. rewrite ceil_div_float_any by auto. fold (binary64 (IZR (b - a) / IZR s)).
      unfold ceil_or_overflow. destruct (Rle_bool_spec (bpow radix2 1024) (Rabs (binary64 (IZR (b - a) / IZR s)))) as [H|H]; cbn [bind]; [auto|].
      destruct (Z.leb_spec 0 (Zceil (binary64 (IZR (b - a) / IZR s)))); auto.
Qed.
Print Assumptions C22_open_slice.
Example C22_open_slice_case : let ds d := DataShapeT None [d; int32_t] in
  subshape (IxSlice (Some 1) (Some 7) (Some 2)) (ds VarT) = Ok (ds (FixedT 3)) /\
  subshape (IxSlice None (Some 3) None) (ds (TypeVarT $"A")) = Ok (ds (FixedT 3)) /\
  subshape (IxSlice (Some (-2)) (Some 3) None) (ds VarT) = Ok (ds VarT) /\
  subshape (IxSlice (Some 2) (Some 0) None) (ds VarT) = Raise ValueErr.
Proof. split; [|split; [|split]]; vm_compute; reflexivity. Qed.
