(** Slices: lengths and selected indices. *)
From Coq Require Import Sorting.Sorted.
From Verif Require Import Base Types Construct Ops Spec_WF Spec_Ops Proof_Float.
Local Open Scope Z_scope.

Definition prog (lo s : Z) (k : nat) : list Z := map (fun i => lo + Z.of_nat i * s) (seq 0 k).

Lemma prog_sorted lo s k : 1 <= s -> StronglySorted Z.lt (prog lo s k).
Proof.
  intro Hs. unfold prog. generalize 0%nat as b. induction k as [|k IH]; intro b; simpl; constructor; auto.
  apply Forall_forall. intros x Hx. apply in_map_iff in Hx as [i [<- Hi]]. apply in_seq in Hi. nia.
Qed.
Lemma prog_In lo hi s i : 1 <= s ->
  In i (prog lo s (Z.to_nat (cdiv (hi - lo) s))) <-> lo <= i < hi /\ exists k, i = lo + k * s.
Proof.
  intro Hs. unfold prog. rewrite in_map_iff. destruct (cdiv_bounds (hi - lo) s ltac:(lia)) as [C1 C2].
  set (c := cdiv (hi - lo) s) in *. split.
  - intros [k [<- Hk]]. apply in_seq in Hk. split; [|exists (Z.of_nat k); reflexivity]. nia.
  - intros [[H1 H2] [k ->]]. exists (Z.to_nat k). assert (0 <= k) by nia. assert (k < c) by nia.
    rewrite Z2Nat.id by lia. split; [reflexivity|]. apply in_seq. lia.
Qed.
Lemma sorted_NoDup l : StronglySorted Z.lt l -> NoDup l.
Proof.
  induction 1 as [|x l H IH F]; constructor; auto. intro Hx. rewrite Forall_forall in F. specialize (F x Hx). lia.
Qed.
Lemma sorted_ext l : StronglySorted Z.lt l -> forall m, StronglySorted Z.lt m ->
  (forall x, In x l <-> In x m) -> l = m.
Proof.
  induction 1 as [|x l H IH F]; intros m Hm E.
  - destruct m as [|y m]; auto. exfalso. apply (E y). left; auto.
  - destruct Hm as [|y m Hm F']; [exfalso; apply (E x); left; auto|].
    rewrite Forall_forall in F, F'.
    assert (x = y).
    { destruct (proj1 (E x) (or_introl eq_refl)) as [->|Hx]; auto.
      destruct (proj2 (E y) (or_introl eq_refl)) as [->|Hy]; auto. specialize (F y Hy). specialize (F' x Hx). lia. }
    subst y. f_equal. apply IH; auto. intro z. split; intro Hz.
    + destruct (proj1 (E z) (or_intror Hz)) as [<-|]; auto. specialize (F x Hz). lia.
    + destruct (proj2 (E z) (or_intror Hz)) as [<-|]; auto. specialize (F' x Hz). lia.
Qed.

Lemma SliceLen_fun n a b s c c' : SliceLen n a b s c -> SliceLen n a b s c' -> c = c'.
Proof.
  intros [l [N [L H]]] [l' [N' [L' H']]].
  assert (length l = length l').
  { apply Nat.le_antisymm; apply NoDup_incl_length; auto; intros x Hx; [apply H', H|apply H, H']; auto. }
  lia.
Qed.

Definition stepval (step : option Z) : Z := match step with None => 1 | Some s => s end.

Lemma Selected_prog n start stop step : 0 <= n -> (forall s, step = Some s -> 1 <= s) ->
  forall i, In i (prog (bound n 0 start) (stepval step)
     (Z.to_nat (cdiv (bound n n stop - bound n 0 start) (stepval step)))) <-> Selected n start stop step i.
Proof.
  intros Hn Hs i. assert (1 <= stepval step) by (destruct step; simpl; [apply Hs; auto|lia]).
  rewrite prog_In by auto. unfold Selected. fold (stepval step).
  assert (0 <= bound n 0 start) by (unfold bound; destruct start; lia).
  assert (bound n n stop <= n) by (unfold bound; destruct stop; lia).
  split; [intros [H2 H3]; repeat split; auto; lia|tauto].
Qed.

Lemma SliceLen_cdiv n start stop step : 0 <= n -> (forall s, step = Some s -> 1 <= s) ->
  bound n 0 start <= bound n n stop ->
  SliceLen n start stop step (cdiv (bound n n stop - bound n 0 start) (stepval step)).
Proof.
  intros Hn Hs Hle. assert (1 <= stepval step) by (destruct step; simpl; [apply Hs; auto|lia]).
  exists (prog (bound n 0 start) (stepval step)
     (Z.to_nat (cdiv (bound n n stop - bound n 0 start) (stepval step)))).
  split; [apply sorted_NoDup, prog_sorted; auto|].
  split; [|apply Selected_prog; auto].
  unfold prog. rewrite map_length, seq_length.
  destruct (cdiv_bounds (bound n n stop - bound n 0 start) (stepval step) ltac:(lia)). rewrite Z2Nat.id; nia.
Qed.

Lemma slice_count_fixed n start stop step c : 0 <= n <= 2 ^ 53 ->
  (forall a, start = Some a -> - n <= a <= n) ->
  (forall b, stop = Some b -> - n <= b <= n /\ b <> 0) ->
  (forall s, step = Some s -> 1 <= s <= 2 ^ 1074) ->
  bound n 0 start <= bound n n stop ->
  SliceLen n start stop step c ->
  slice_count (FixedT n) start stop step = Ok (Some c) /\ 0 <= c.
Proof.
  intros Hn Ha Hb Hs Hle HL.
  assert (Hs1 : forall s, step = Some s -> 1 <= s) by (intros s E; destruct (Hs s E); lia).
  pose proof (SliceLen_fun _ _ _ _ _ _ HL (SliceLen_cdiv n start stop step ltac:(lia) Hs1 Hle)) as ->.
  unfold slice_count.
  assert (EA : (if or_int start 0 <? 0 then n + or_int start 0 else or_int start 0) = bound n 0 start).
  { unfold or_int, bound. destruct start as [a|]; [|reflexivity]. specialize (Ha a eq_refl).
    destruct (Z.eqb_spec a 0) as [->|]; [simpl; lia|]. destruct (Z.ltb_spec a 0); lia. }
  assert (EB : (if or_int stop n <? 0 then n + or_int stop n else or_int stop n) = bound n n stop).
  { unfold or_int, bound. destruct stop as [b|]; [|destruct (Z.ltb_spec n 0); lia]. specialize (Hb b eq_refl).
    destruct (Z.eqb_spec b 0) as [->|]; [lia|]. destruct (Z.ltb_spec b 0); lia. }
  cbv zeta. rewrite EA, EB.
  assert (B0 : 0 <= bound n 0 start) by (unfold bound; destruct start; lia).
  assert (B1 : bound n n stop <= n) by (unfold bound; destruct stop; lia).
  split.
  - destruct step as [s|]; simpl.
    + rewrite ceil_div_float_exact; [reflexivity|lia|]. apply Hs; auto.
    + f_equal. f_equal. symmetry. apply cdiv_spec; lia.
  - assert (1 <= stepval step) by (destruct step; simpl; [apply Hs1; auto|lia]).
    destruct (cdiv_bounds (bound n n stop - bound n 0 start) (stepval step) ltac:(lia)). nia.
Qed.

Lemma slice_count_var d start b step c : (forall n, d <> FixedT n) ->
  0 <= match start with None => 0 | Some a => a end <= b -> b <= 2 ^ 53 ->
  (forall s, step = Some s -> 1 <= s <= 2 ^ 1074) ->
  SliceLen b start (Some b) step c ->
  slice_count d start (Some b) step = Ok (Some c) /\ 0 <= c.
Proof.
  intros Hd Ha Hb Hs HL. set (a := match start with None => 0 | Some a => a end) in *.
  assert (E : slice_count d start (Some b) step =
    match step with Some s => let! k := ceil_div_float (b - a) s in Ok (Some k) | None => Ok (Some (b - a)) end).
  { unfold slice_count. destruct d; try (exfalso; eapply Hd; reflexivity); cbv zeta;
    (replace (or_int start 0) with a by (unfold a, or_int; destruct start as [v|]; auto; destruct (Z.eqb_spec v 0); auto));
    (replace (0 <=? b) with true by (symmetry; apply Z.leb_le; lia));
    (replace (0 <=? a) with true by (symmetry; apply Z.leb_le; lia)); cbn [andb]; destruct step; reflexivity. }
  assert (Hs1 : forall s, step = Some s -> 1 <= s) by (intros s E'; destruct (Hs s E'); lia).
  assert (EA : bound b 0 start = a) by (unfold bound, a; destruct start as [v|]; [simpl in a; subst a; destruct (Z.ltb_spec v 0); lia|lia]).
  assert (EB : bound b b (Some b) = b) by (unfold bound; destruct (Z.ltb_spec b 0); lia).
  pose proof (SliceLen_cdiv b start (Some b) step ltac:(lia) Hs1 ltac:(lia)) as HL'.
  pose proof (SliceLen_fun _ _ _ _ _ _ HL HL') as ->. rewrite EA, EB in *. rewrite E.
  split.
  - destruct step as [s|]; simpl.
    + rewrite ceil_div_float_exact; [reflexivity|lia|]. apply Hs; auto.
    + f_equal. f_equal. symmetry. apply cdiv_spec; lia.
  - assert (1 <= stepval step) by (destruct step; simpl; [apply Hs1; auto|lia]).
    destruct (cdiv_bounds (b - a) (stepval step) ltac:(lia)). nia.
Qed.

Lemma slice_count_open d start stop step : (forall n, d <> FixedT n) ->
  (stop = None \/ (exists a, start = Some a /\ a < 0) \/ (exists b, stop = Some b /\ b < 0)) ->
  slice_count d start stop step = Ok None.
Proof.
  intros Hd H. unfold slice_count. destruct d; try (exfalso; eapply Hd; reflexivity); cbv zeta;
  (destruct stop as [b|]; [|reflexivity]; destruct H as [H|[[a [-> H]]|[b' [E H]]]]; [discriminate| |];
   [ replace (0 <=? or_int (Some a) 0) with false by (symmetry; apply Z.leb_gt; unfold or_int; destruct (Z.eqb_spec a 0); lia);
     rewrite andb_false_r; reflexivity
   | injection E as <-; replace (0 <=? b) with false by (symmetry; apply Z.leb_gt; lia); reflexivity ]).
Qed.

(** ** Slices of lists *)
Lemma py_nth_Some {A} (l : list A) i x : 0 <= i < Z.of_nat (length l) ->
  nth_error l (Z.to_nat i) = Some x -> py_nth l i = Ok x.
Proof.
  intros Hi E. unfold py_nth. destruct (Z.ltb_spec i 0); [lia|].
  destruct (Z.ltb_spec i 0); [lia|]. destruct (Z.leb_spec (Z.of_nat (length l)) i); [lia|]. simpl. now rewrite E.
Qed.
Lemma nth_error_bound {A} (l : list A) i x : 0 <= i -> nth_error l (Z.to_nat i) = Some x -> i < Z.of_nat (length l).
Proof. intros Hi E. assert (Z.to_nat i < length l)%nat by (apply nth_error_Some; congruence). lia. Qed.

Lemma py_slice_pos {A} (l : list A) start stop step ks (sel : list A) :
  (forall s, step = Some s -> 1 <= s) ->
  StronglySorted Z.lt ks ->
  (forall k, In k ks <-> Selected (Z.of_nat (length l)) start stop step k) ->
  Forall2 (fun k f => nth_error l (Z.to_nat k) = Some f) ks sel ->
  py_slice l start stop step = Ok sel.
Proof.
  intros Hs HS HK HF. set (n := Z.of_nat (length l)) in *.
  assert (1 <= stepval step) by (destruct step; simpl; [apply Hs; auto|lia]).
  assert (E : slice_indices start stop step n = Ok (bound n 0 start, bound n n stop, stepval step)).
  { unfold slice_indices. fold (stepval step). destruct (Z.eqb_spec (stepval step) 0); [lia|].
    replace (stepval step <? 0) with false by (symmetry; apply Z.ltb_ge; lia). f_equal. f_equal. f_equal.
    - unfold bound. destruct start as [v|]; auto. destruct (Z.ltb_spec v 0); lia.
    - unfold bound. destruct stop as [v|]; auto. destruct (Z.ltb_spec v 0); lia. }
  unfold py_slice. fold n. rewrite E. cbn [bind].
  assert (EL : Z.to_nat (slice_length (bound n 0 start) (bound n n stop) (stepval step)) =
     Z.to_nat (cdiv (bound n n stop - bound n 0 start) (stepval step))).
  { unfold slice_length. replace (stepval step <? 0) with false by (symmetry; apply Z.ltb_ge; lia).
    set (lo := bound n 0 start). set (hi := bound n n stop). set (s := stepval step) in *.
    destruct (Z.ltb_spec lo hi).
    - f_equal. symmetry. apply cdiv_spec; [lia| |]; pose proof (Z.div_mod (hi - lo - 1) s ltac:(lia));
      pose proof (Z.mod_pos_bound (hi - lo - 1) s ltac:(lia)); nia.
    - destruct (cdiv_bounds (hi - lo) s ltac:(lia)). assert (cdiv (hi - lo) s <= 0) by nia. lia. }
  rewrite EL.
  set (k := Z.to_nat (cdiv (bound n n stop - bound n 0 start) (stepval step))).
  assert (EK : ks = prog (bound n 0 start) (stepval step) k).
  { apply sorted_ext; auto; [apply prog_sorted; auto|]. intro x. rewrite HK. unfold k.
    rewrite Selected_prog; [reflexivity|lia|auto]. }
  apply mapM_Ok_Forall2. rewrite EK in HF. unfold prog in HF.
  assert (B : forall i, In i (seq 0 k) -> 0 <= bound n 0 start + Z.of_nat i * stepval step < n).
  { intros i Hi. assert (Hin : In (bound n 0 start + Z.of_nat i * stepval step) ks).
    { rewrite EK. unfold prog. apply in_map_iff. eauto. }
    apply HK in Hin. destruct Hin as [Hin _]. exact Hin. }
  clear -HF B. revert sel HF B. induction (seq 0 k) as [|i r IH]; intros sel HF B; inversion HF; subst; constructor.
  - apply py_nth_Some; auto. apply B; left; auto.
  - apply IH; auto. intros; apply B; right; auto.
Qed.
