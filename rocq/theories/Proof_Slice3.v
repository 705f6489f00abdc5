(** Python's slices with steps of either sign. *)
From Verif Require Import Base Types Construct Ops Spec_WF Spec_Ops Proof_WF Proof_Slice Proof_Ops.
Local Open Scope Z_scope.

Lemma py_nth_pos {A} (l : list A) i x : 0 <= i -> nth_error l (Z.to_nat i) = Some x -> py_nth l i = Ok x.
Proof.
  intros H E. unfold py_nth. assert (I0 : (i <? 0) = false) by (apply Z.ltb_ge; auto). cbv zeta. rewrite !I0.
  assert (L : (Z.to_nat i < length l)%nat) by (apply nth_error_Some; congruence).
  destruct (Z.leb_spec (Z.of_nat (length l)) i); [lia|]. cbn [orb]. rewrite E. reflexivity.
Qed.
Lemma walk_seq {A} (l : list A) st b a n : forall k j,
  (forall i, (j <= i < j + k)%nat -> 0 <= a + Z.of_nat i * st < Z.of_nat (length l)) ->
  (forall i, (j <= i < j + k)%nat -> (0 < st /\ a + Z.of_nat i * st < b) \/ (st < 0 /\ b < a + Z.of_nat i * st)) ->
  ((0 < st /\ b <= a + Z.of_nat (j + k) * st) \/ (st < 0 /\ a + Z.of_nat (j + k) * st <= b)) -> n = length l ->
  exists r, mapM (fun i => py_nth l (a + Z.of_nat i * st)) (seq j k) = Ok r /\ Walk l st b (a + Z.of_nat j * st) r.
Proof.
  induction k as [|k IH]; intros j H1 H2 H3 En.
  - exists []. split; [reflexivity|]. rewrite Nat.add_0_r in H3. apply Walk_end. exact H3.
  - cbn [seq mapM]. specialize (H1 j ltac:(lia)) as B. destruct (nth_error l (Z.to_nat (a + Z.of_nat j * st))) as [x|] eqn:E.
    2:{ apply nth_error_None in E. lia. }
    rewrite (py_nth_pos l _ x) by (auto; lia). cbn [bind].
    destruct (IH (S j)) as (r & Er & W).
    + intros i Hi. apply H1. lia.
    + intros i Hi. apply H2. lia.
    + replace (S j + k)%nat with (j + S k)%nat by lia. exact H3.
    + auto.
    + rewrite Er. cbn [bind]. exists (x :: r). split; [reflexivity|]. apply Walk_go; [apply H2; lia|lia|exact E|].
      replace (a + Z.of_nat j * st + st) with (a + Z.of_nat (S j) * st) by lia. exact W.
Qed.
Theorem py_slice_walk {A} (l : list A) start stop step : step <> Some 0 ->
  exists r, py_slice l start stop step = Ok r /\ SliceOf l start stop step r.
Proof.
  intro N. unfold py_slice, slice_indices, SliceOf. cbv zeta. set (n := Z.of_nat (length l)).
  set (k := match step with None => 1 | Some s => s end). assert (K : k <> 0) by (unfold k; destruct step; congruence).
  destruct (Z.eqb_spec k 0) as [|_]; [contradiction|]. cbn [bind].
  set (a := match start with None => _ | Some v => _ end). set (b := match stop with None => _ | Some v => _ end).
  assert (n0 : 0 <= n) by (unfold n; lia).
  assert (Ea : a = slice_start n k start /\ (0 < k -> 0 <= a <= n) /\ (k < 0 -> -1 <= a <= n - 1)).
  { unfold a, slice_start. destruct (Z.ltb_spec k 0), (Z.ltb_spec 0 k); try lia; destruct start as [v|]; try (destruct (Z.ltb_spec v 0)); lia. }
  assert (Eb : b = slice_stop n k stop /\ (0 < k -> 0 <= b <= n) /\ (k < 0 -> -1 <= b <= n - 1)).
  { unfold b, slice_stop, slice_start. destruct (Z.ltb_spec k 0), (Z.ltb_spec 0 k); try lia; destruct stop as [v|]; try (destruct (Z.ltb_spec v 0)); lia. }
  clearbody a b. destruct Ea as (<- & A1 & A2), Eb as (<- & B1 & B2).
  destruct (walk_seq l k b a (length l) (Z.to_nat (slice_length a b k)) 0) as (r & Er & W); auto.
  - intros i Hi. fold n. unfold slice_length in Hi. destruct (Z.ltb_spec k 0) as [L|L].
    + destruct (Z.ltb_spec b a) as [Lb|Lb]; [|lia].
      pose proof (Z.mul_div_le (a - b - 1) (- k) ltac:(lia)) as D. assert (Hj : Z.of_nat i <= (a - b - 1) / (- k)) by lia. nia.
    + destruct (Z.ltb_spec a b) as [Lb|Lb]; [|lia].
      pose proof (Z.mul_div_le (b - a - 1) k ltac:(lia)) as D. assert (Hj : Z.of_nat i <= (b - a - 1) / k) by lia. nia.
  - intros i Hi. unfold slice_length in Hi. destruct (Z.ltb_spec k 0) as [L|L].
    + right. destruct (Z.ltb_spec b a) as [Lb|Lb]; [|lia]. split; [auto|].
      pose proof (Z.mul_div_le (a - b - 1) (- k) ltac:(lia)) as D. assert (Hj : Z.of_nat i <= (a - b - 1) / (- k)) by lia. nia.
    + left. destruct (Z.ltb_spec a b) as [Lb|Lb]; [|lia]. split; [lia|].
      pose proof (Z.mul_div_le (b - a - 1) k ltac:(lia)) as D. assert (Hj : Z.of_nat i <= (b - a - 1) / k) by lia. nia.
  - cbn [Nat.add]. unfold slice_length. destruct (Z.ltb_spec k 0) as [L|L].
    + right. split; [auto|]. destruct (Z.ltb_spec b a) as [Lb|Lb]; [|rewrite Z2Nat.inj_0; lia].
      pose proof (Z.mul_succ_div_gt (a - b - 1) (- k) ltac:(lia)) as D.
      assert (P : 0 <= (a - b - 1) / (- k)) by (apply Z.div_pos; lia). rewrite Z2Nat.id by lia. nia.
    + left. split; [lia|]. destruct (Z.ltb_spec a b) as [Lb|Lb]; [|rewrite Z2Nat.inj_0; lia].
      pose proof (Z.mul_succ_div_gt (b - a - 1) k ltac:(lia)) as D.
      assert (P : 0 <= (b - a - 1) / k) by (apply Z.div_pos; lia). rewrite Z2Nat.id by lia. nia.
  - cbn [Z.of_nat Z.mul] in W. rewrite Z.add_0_r in W. exists r. auto.
Qed.
Lemma Walk_unique {A} (l : list A) st b : forall r r' i, Walk l st b i r -> Walk l st b i r' -> r = r'.
Proof.
  induction r as [|x r IH]; intros r' i H H'; inversion H; subst; inversion H'; subst; try lia; [reflexivity|].
  f_equal; [congruence|]. eapply IH; eauto.
Qed.
Lemma option_eq_dec_0 (x : option Z) : x = Some 0 \/ x <> Some 0.
Proof. destruct x as [z|]; [|right; discriminate]. destruct (Z.eq_dec z 0); [left|right]; congruence. Qed.
Theorem py_slice_iff {A} (l : list A) start stop step r : py_slice l start stop step = Ok r <-> SliceOf l start stop step r.
Proof.
  split.
  - intro H. destruct (option_eq_dec_0 step) as [E|E].
    + subst. discriminate.
    + destruct (py_slice_walk l start stop step E) as (r' & E' & S). congruence.
  - intro S. assert (E : step <> Some 0) by (destruct S as [N _]; destruct step; congruence).
    destruct (py_slice_walk l start stop step E) as (r' & E' & S'). rewrite E'. f_equal.
    destruct S as [_ W], S' as [_ W']. eapply Walk_unique; eauto.
Qed.
Lemma py_slice_zero {A} (l : list A) start stop : py_slice l start stop (Some 0) = Raise ValueErr.
Proof. reflexivity. Qed.
Lemma Walk_index {A} (l : list A) st b r i : Walk l st b i r -> forall x, In x r ->
  exists m, 0 <= m /\ 0 <= i + m * st /\ nth_error l (Z.to_nat (i + m * st)) = Some x.
Proof.
  induction 1 as [i _|i x r H I E W IH]; intros y; [intros []|]. intros [<-|Hy].
  - exists 0. rewrite Z.mul_0_l, Z.add_0_r. split; [lia|]. split; [lia|auto].
  - destruct (IH y Hy) as (m & M & P & Ey). exists (m + 1). replace (i + (m + 1) * st) with (i + st + m * st) by lia. split; [lia|auto].
Qed.
Lemma Walk_NoDup {A} (g : A -> str) (l : list A) st b r i : st <> 0 -> NoDup (map g l) -> Walk l st b i r -> NoDup (map g r).
Proof.
  intros St Nd. induction 1 as [i _|i x r H I E W IH]; cbn [map]; [constructor|]. constructor; [|auto].
  intro Hin. apply in_map_iff in Hin as (y & Eg & Hy). destruct (Walk_index _ _ _ _ _ W y Hy) as (m & M & P & Ey).
  rewrite NoDup_nth_error in Nd. assert (Q : Z.to_nat i = Z.to_nat (i + st + m * st)).
  { apply Nd; [rewrite map_length; apply nth_error_Some; congruence|]. rewrite !nth_error_map, E, Ey. cbn. congruence. }
  nia.
Qed.
Lemma Walk_In {A} (l : list A) st b r i : Walk l st b i r -> forall x, In x r -> In x l.
Proof. intros W x Hx. destruct (Walk_index _ _ _ _ _ W x Hx) as (m & _ & _ & E). eapply nth_error_In; eauto. Qed.
(** a slice of the fields of a record *)
Theorem slice_fields n fs a b c sel : WF (DataShapeT n [RecordT fs]) -> SliceOf fs a b c sel ->
  subshape (IxSlice a b c) (DataShapeT n [RecordT fs]) = Ok (DataShapeT None [RecordT sel]).
Proof.
  intros W S. assert (HInv : Inv (RecordT fs)).
  { pose proof (W (RecordT fs)) as H. apply H. eapply Occurs_in; [|apply Occurs_here]. simpl. auto. }
  pose proof HInv as [HNf HLo].
  cbn [subshape]. unfold subshape_plain. cbn [ds_head]. rewrite (proj2 (py_slice_iff fs a b c sel) S). cbn [bind].
  destruct S as [K Wk].
  rewrite (sub_record_ok fs sel).
  - cbn [bind]. apply mk_ds_ok. exists [], (RecordT sel). split; [reflexivity|]. split; [intro X; inversion X|]. split; [intros ? []|].
    intros x [<-|[]] [? [? E]]; discriminate.
  - auto.
  - intros f Hf. eapply Walk_In; eauto.
  - eapply Walk_NoDup; eauto.
Qed.

(** slices inside a list index of a record: no error of their own, but no field either *)
Lemma FieldAt_item fs i f : NoDup (map fst fs) -> FieldAt fs i f ->
  exists j, field_number fs i = Ok j /\ item_at fs j = Ok (inl f).
Proof.
  intros N H. destruct (FieldAt_select fs i f N H) as [j [E1 E2]]. exists j. split; auto.
  destruct j; try discriminate. cbn [item_at field_at] in *. rewrite E2. reflexivity.
Qed.
Theorem slice_in_list n fs l xs : WF (DataShapeT n [RecordT fs]) ->
  Forall2 (fun i x => match x with inl f => FieldAt fs i f
                      | inr sel => exists a b c, i = IxSlice a b c /\ SliceOf fs a b c sel end) l xs ->
  (exists sel, In (inr sel) xs) ->
  ((exists sel, In (inr sel) xs /\ length sel <> 2%nat) ->
     subshape (IxList l) (DataShapeT n [RecordT fs]) = Raise ValueErr) /\
  ((forall sel, In (inr sel) xs -> length sel = 2%nat) ->
     subshape (IxList l) (DataShapeT n [RecordT fs]) = Raise TypeErr).
Proof.
  intros W F X. assert (N : NoDup (map fst fs)).
  { assert (HInv : Inv (RecordT fs)); [|now destruct HInv].
    pose proof (W (RecordT fs)) as H. apply H. eapply Occurs_in; [|apply Occurs_here]. simpl. auto. }
  assert (EX : exists js, mapM (field_number fs) l = Ok js /\ mapM (item_at fs) js = Ok xs).
  { clear X W. induction F as [|i x l xs H F [js [E1 E2]]]; [exists []; split; reflexivity|].
    assert (J : exists j, field_number fs i = Ok j /\ item_at fs j = Ok x).
    { destruct x as [f|sel]; [apply FieldAt_item; auto|]. destruct H as [a [b [c [-> S]]]].
      exists (IxSlice a b c). split; [reflexivity|]. cbn [item_at]. apply py_slice_iff in S. rewrite S. reflexivity. }
    destruct J as [j [J1 J2]]. exists (j :: js). rewrite !mapM_cons, J1, J2, E1, E2. split; reflexivity. }
  destruct EX as [js [E1 E2]]. cbn [subshape]. unfold subshape_plain. cbn [ds_head]. rewrite E1. cbn [bind].
  unfold select_fields. rewrite E2. cbn [bind]. clear E1 E2 F W. split.
  - intros [sel [I L]]. assert (E : forallb unpackable xs = false); [|rewrite E; reflexivity].
    apply Bool.not_true_is_false. intro T. rewrite forallb_forall in T. specialize (T _ I). cbn [unpackable] in T.
    apply Nat.eqb_eq in T. contradiction.
  - intro A. assert (E : forallb unpackable xs = true).
    { apply forallb_forall. intros [f|sel] I; [reflexivity|]. cbn [unpackable]. apply Nat.eqb_eq. auto. }
    rewrite E. assert (M : mapM as_field xs = Raise TypeErr); [|rewrite M; reflexivity].
    destruct X as [sel I]. clear - I. induction xs as [|x xs IH]; [destruct I|]. rewrite mapM_cons.
    destruct x as [f|s]; [|reflexivity]. cbn [as_field bind]. destruct I as [I|I]; [discriminate|]. rewrite (IH I). reflexivity.
Qed.
