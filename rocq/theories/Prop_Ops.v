(** C17-C23, C44, C45: pickling, records, [*], subarray, subshape, cat_dshapes, record
    literals, strings. *)
From Coq Require Import Permutation.
From Verif Require Import Base Types Lexer Printer Construct Parser Ops Spec_WF Spec_Ops
  Proof_WF Proof_Eq Proof_Canon Proof_Slice Proof_Ops Proof_Slice3 Proof_Ops2 Proof_Ops3 Proof_Slice2 Proof_Ops4 Tests_Parser.
Local Open Scope Z_scope.

(** ** C17 *)
(** unpickling a pickled object gives the object with registered names forgotten *)
Theorem C17_pickle_restores : forall t, unpickle (pickle t) = Some (forget_names t).
Proof. exact unpickle_pickle. Qed.
Print Assumptions C17_pickle_restores.
(** everything but names is restored exactly: without registered names nothing changes,
    and the restored object has none *)
Theorem C17_pickle_exact : forall t, (forall n l, Occurs (DataShapeT n l) t -> n = None) ->
  unpickle (pickle t) = Some t.
Proof. intros t H. rewrite unpickle_pickle, (forget_id t H). reflexivity. Qed.
Print Assumptions C17_pickle_exact.
Theorem C17_pickle_unnamed : forall t u, unpickle (pickle t) = Some u ->
  forall n l, Occurs (DataShapeT n l) u -> n = None.
Proof. intros t u. rewrite unpickle_pickle. intro H; injection H as <-. apply forget_unnamed. Qed.
Print Assumptions C17_pickle_unnamed.
(** the restored object equals the original, both ways round, and hashes alike *)
Theorem C17_pickle_equal : forall t u, unpickle (pickle t) = Some u ->
  py_eq t u = true /\ py_eq u t = true.
Proof. intros t u. rewrite unpickle_pickle. intro H; injection H as <-. apply py_eq_forget. Qed.
Print Assumptions C17_pickle_equal.
Theorem C17_pickle_hash : forall hstr hint hnone hcls htuple hxor t u, unpickle (pickle t) = Some u ->
  py_hash hstr hint hnone hcls htuple hxor u = py_hash hstr hint hnone hcls htuple hxor t.
Proof. intros hstr hint hnone hcls htuple hxor t u. rewrite unpickle_pickle. intro H; injection H as <-. apply hash_forget. Qed.
Print Assumptions C17_pickle_hash.
Example C17_case : match D $"3 * {a: ?int32, b: (string, 2 * A)}" with
  | Ok t => unpickle (pickle t) = Some t | _ => False end.
Proof. vm_compute. reflexivity. Qed.
Example C17_name_lost :
  unpickle (pickle (RecordT [($"a", DataShapeT (Some $"mytype") [FixedT 3; int32_t])]))
  = Some (RecordT [($"a", DataShapeT None [FixedT 3; int32_t])]).
Proof. reflexivity. Qed.

(** ** C18 *)
(** a Record is built exactly when the names are distinct and every type is laundered *)
Theorem C18_record_constructor : forall dsh fields t, mk_record dsh fields = Ok t <->
  exists types, Forall2 (fun f u => launder dsh (snd f) = Ok u) fields types /\
    NoDup (map fst fields) /\ t = RecordT (combine (map fst fields) types).
Proof. exact mk_record_iff. Qed.
Print Assumptions C18_record_constructor.
Theorem C18_record_order : forall dsh fields t, mk_record dsh fields = Ok t ->
  exists fs, t = RecordT fs /\ rec_names fs = map fst fields /\
    Forall2 (fun f u => launder dsh (snd f) = Ok u) fields (rec_types fs).
Proof.
  intros dsh fields t H. apply mk_record_iff in H. destruct H as [ts [H [N ->]]].
  exists (combine (map fst fields) ts). split; auto. unfold rec_names, rec_types.
  assert (L : length (map fst fields) = length ts) by (rewrite map_length; eapply Forall2_len; eauto).
  rewrite combine_fst, combine_snd by auto. auto.
Qed.
Print Assumptions C18_record_order.
(** duplicate names are rejected with ValueError *)
Theorem C18_record_duplicate : forall dsh fields types,
  Forall2 (fun f u => launder dsh (snd f) = Ok u) fields types -> ~ NoDup (map fst fields) ->
  mk_record dsh fields = Raise ValueErr.
Proof.
  intros dsh fields types H N. unfold mk_record. apply mapM_Ok_Forall2 in H. rewrite H. cbn [bind].
  destruct (nodup_str (map fst fields)) eqn:E; auto. apply nodup_str_NoDup in E. contradiction.
Qed.
Print Assumptions C18_record_duplicate.
(** lookup by name in any constructed record *)
Theorem C18_record_lookup : forall dsh fields fs, mk_record dsh fields = Ok (RecordT fs) ->
  (forall n t, rec_get fs n = Ok t <-> In (n, t) fs) /\
  (forall n p, In (n, p) fields -> exists t, launder dsh p = Ok t /\ rec_get fs n = Ok t) /\
  (forall n, ~ In n (map fst fields) <-> rec_get fs n = Raise KeyErr).
Proof.
  intros dsh fields fs H. destruct (proj1 (mk_record_iff _ _ _) H) as [ts [HF [N E]]]. injection E as ->.
  assert (L : length (map fst fields) = length ts) by (rewrite map_length; eapply Forall2_len; eauto).
  assert (NF : NoDup (map fst (combine (map fst fields) ts))) by (rewrite combine_fst; auto).
  split; [|split].
  - intros n t. apply (rec_get_spec _ n NF).
  - intros n p Hp. assert (G : exists t, launder dsh p = Ok t /\ In (n, t) (combine (map fst fields) ts)).
    { clear H N L NF. revert Hp. induction HF as [|f u fs' us Hfu HF IH]; intro Hp; [destruct Hp|].
      destruct Hp as [->|Hp].
      - exists u. split; [exact Hfu|left; reflexivity].
      - destruct IH as [t [A B]]; auto. exists t. split; auto. right; exact B. }
    destruct G as [t [A B]]. exists t. split; auto. apply (rec_get_spec _ n NF); auto.
  - intro n. rewrite (proj2 (rec_get_spec _ n NF)), combine_fst by auto. reflexivity.
Qed.
Print Assumptions C18_record_lookup.
Example C18_case :
  mk_record no_dsh [($"b", PTy (DataShapeT None [int32_t])); ($"a", PTy int8_t)]
  = Ok (RecordT [($"b", int32_t); ($"a", int8_t)]) /\
  rec_get [($"b", int32_t); ($"a", int8_t)] $"a" = Ok int8_t /\
  mk_record no_dsh [($"b", PTy int32_t); ($"b", PTy int8_t)] = Raise ValueErr.
Proof. repeat split. Qed.

(** ** C19 *)
(** [d * x]: one more leading dimension, same measure. [x] is any object that may be a
    measure, or a DataShape; bare Option objects around an array are excluded *)
Theorem C19_mul_dim : forall dsh d x, WF x -> ~ DimensionClass x -> ~ MeasureClass d -> ~ IsDataShape d ->
  IsDataShape x \/ shape x = [] ->
  exists r, py_mul dsh (PTy d) (PTy x) = Ok r /\ shape r = d :: shape x /\ measure r = measure x /\ IsDataShape r.
Proof. exact mul_dim. Qed.
Print Assumptions C19_mul_dim.
Theorem C19_mul_int : forall dsh z x, 0 <= z -> WF x -> ~ DimensionClass x -> IsDataShape x \/ shape x = [] ->
  exists r, py_mul dsh (PInt z) (PTy x) = Ok r /\ shape r = FixedT z :: shape x /\ measure r = measure x /\ IsDataShape r.
Proof. exact mul_int_dim. Qed.
Print Assumptions C19_mul_int.
(** any number of dimensions: d1 * (d2 * (... * x)) *)
Theorem C19_mul_many : forall dsh dims n ps, WF (DataShapeT n ps) ->
  (forall d, In d dims -> WF d /\ ~ MeasureClass d /\ ~ IsDataShape d) ->
  exists m, mul_all dsh dims (DataShapeT n ps) = Ok (DataShapeT m (dims ++ ps)) /\ WF (DataShapeT m (dims ++ ps)).
Proof. exact mul_all_ok. Qed.
Print Assumptions C19_mul_many.
Theorem C19_negative : forall dsh z x, z < 0 -> py_mul dsh (PInt z) (PTy x) = Raise ValueErr.
Proof. exact mul_int_neg. Qed.
Print Assumptions C19_negative.
Theorem C19_measure_left : forall dsh d x, MeasureClass d -> WF x -> py_mul dsh (PTy d) (PTy x) = Raise TypeErr.
Proof.
  intros dsh d x Hd W. apply mul_measure_left; auto. intros n ->.
  destruct (W _ (Occurs_here _)) as [dims [m [E _]]]. destruct dims; discriminate.
Qed.
Print Assumptions C19_measure_left.
(** a string on the right is parsed first *)
Theorem C19_string_right : forall (dsh : str -> res ty) s d x, dsh s = Ok x ->
  py_mul dsh (PTy d) (PStr s) = py_mul dsh (PTy d) (PTy x).
Proof.
  intros dsh s d x H. unfold py_mul, mono_mul. rewrite H. cbn [bind].
  unfold py_rmul, mono_mul_nostr. destruct x; reflexivity.
Qed.
Print Assumptions C19_string_right.
(** [*] is not associative: a product of two dimensions cannot be formed first *)
Theorem C19_assoc_refuted : exists a b x, 
  (exists r, (let! y := mul_ty b x in mul_ty a y) = Ok r) /\ mul_ty a b = Raise TypeErr.
Proof. exists (FixedT 3), (FixedT 4), int32_t. split; [eexists|]; vm_compute; reflexivity. Qed.
Print Assumptions C19_assoc_refuted.
(** a string on the left of a bare measure: the operands are swapped and the product fails,
    although the same product spelled with objects succeeds *)
Theorem C19_string_left_refuted :
  py_mul D (PStr $"A") (PTy int32_t) = Raise TypeErr /\
  exists a, D $"A" = Ok (DataShapeT None [a]) /\
    py_mul D (PTy a) (PTy int32_t) = Ok (DataShapeT None [a; int32_t]).
Proof. split; [vm_compute; reflexivity|]. exists (TypeVarT $"A"). split; vm_compute; reflexivity. Qed.
Print Assumptions C19_string_left_refuted.
(** a string on the left of a DataShape is parsed first; a lone parameter loses its wrapper *)
Theorem C19_string_left : forall (dsh : str -> res ty) s n ps, ps <> [] ->
  let ds := PTy (DataShapeT n ps) in
  (forall m y, dsh s = Ok (DataShapeT m [y]) -> ~ IsDataShape y -> py_mul dsh (PStr s) ds = py_mul dsh (PTy y) ds) /\
  (forall x, dsh s = Ok x -> shape x <> [] -> py_mul dsh (PStr s) ds = py_mul dsh (PTy x) ds) /\
  (forall e, dsh s = Raise e -> py_mul dsh (PStr s) ds = Raise e).
Proof.
  intros dsh s n ps N. cbv zeta. destruct ps as [|p ps]; [congruence|]. split; [|split].
  - intros m y H L. cbn [py_mul py_rmul mono_mul mono_mul_nostr datashape_rmul mk_datashape map].
    rewrite !mapM_cons. cbn [launder]. rewrite H. cbn [bind].
    replace (launder_ty (DataShapeT m [y])) with y by reflexivity.
    replace (launder_ty y) with y; [reflexivity|].
    destruct y as [| | | | | | | | | | | | | | |k q| | | | | | |]; try reflexivity. exfalso. apply L. red. eauto.
  - intros x H L. cbn [py_mul py_rmul mono_mul mono_mul_nostr datashape_rmul mk_datashape map].
    rewrite !mapM_cons. cbn [launder]. rewrite H. reflexivity.
  - intros e H. cbn [py_mul py_rmul datashape_rmul mk_datashape map].
    rewrite mapM_cons. cbn [launder]. rewrite H. reflexivity.
Qed.
Print Assumptions C19_string_left.
Example C19_string_left_case : D $"A" = Ok (DataShapeT None [TypeVarT $"A"]) /\
  py_mul D (PStr $"A") (PTy (DataShapeT None [VarT; int32_t])) = Ok (DataShapeT None [TypeVarT $"A"; VarT; int32_t]).
Proof. split; vm_compute; reflexivity. Qed.
(** a string on the left of anything else is parsed first, and the operands are swapped *)
Theorem C19_string_swapped : forall (dsh : str -> res ty) s x, ~ IsDataShape x ->
  (forall d, dsh s = Ok d -> py_mul dsh (PStr s) (PTy x) = py_mul dsh (PTy x) (PTy d)) /\
  (forall e, dsh s = Raise e -> py_mul dsh (PStr s) (PTy x) = Raise e).
Proof.
  intros dsh s x N. split; intros d H; destruct x as [| | | | | | | | | | | | | | |k q| | | | | | |];
    try (exfalso; apply N; red; eauto; fail); cbn [py_mul py_rmul]; rewrite H; reflexivity.
Qed.
Print Assumptions C19_string_swapped.
(** an int on the right is a dimension where a measure belongs *)
Theorem C19_int_right : forall dsh x z, (0 <= z -> py_mul dsh (PTy x) (PInt z) = Raise TypeErr) /\
  (z < 0 -> py_mul dsh (PTy x) (PInt z) = Raise ValueErr).
Proof.
  intros dsh x z. split; intro H; cbn [py_mul mono_mul mono_mul_nostr]; unfold mk_fixed.
  - destruct (z <? 0) eqn:L; [apply Z.ltb_lt in L; lia|]. reflexivity.
  - apply Z.ltb_lt in H. rewrite H. reflexivity.
Qed.
Print Assumptions C19_int_right.
(** a whole datashape is accepted on the left; the text of the product is not readable *)
Theorem C19_datashape_left_refuted : exists a b r, D $"2 * int32" = Ok a /\ D $"3 * int32" = Ok b /\
  mul_ty a b = Ok r /\ shape r = [a; FixedT 3] /\ (forall t, D (py_str U0 r) <> Ok t).
Proof.
  eexists _, _, _. split; [vm_compute; reflexivity|]. split; [vm_compute; reflexivity|]. split; [vm_compute; reflexivity|]. split.
  - vm_compute. reflexivity.
  - intros t H. vm_compute in H. discriminate.
Qed.
Print Assumptions C19_datashape_left_refuted.
(** a bare Option of an array keeps its own shape: the new dimension hides it *)
Theorem C19_option_refuted : exists x r, WF x /\ mul_int 2 x = Ok r /\ shape x = [FixedT 3] /\
  shape r = [FixedT 2].
Proof.
  exists (OptionT (DataShapeT None [FixedT 3; int32_t])). eexists. split; [|repeat split; vm_compute; reflexivity].
  apply wf_WF. vm_compute. reflexivity.
Qed.
Print Assumptions C19_option_refuted.
Example C19_case : mul_all no_dsh [VarT; FixedT 3] (DataShapeT None [TypeVarT $"N"; int32_t])
  = Ok (DataShapeT None [VarT; FixedT 3; TypeVarT $"N"; int32_t]).
Proof. vm_compute. reflexivity. Qed.

(** ** C20 *)
(** [subarray(i)] keeps exactly the components from [i] on: the last k-i of the k dimensions,
    and the measure *)
Theorem C20_subarray : forall n dims m i, WF (DataShapeT n (dims ++ [m])) -> 0 <= i <= Z.of_nat (length dims) ->
  subarray (DataShapeT n (dims ++ [m])) i = Ok (DataShapeT None (skipn (Z.to_nat i) dims ++ [m])).
Proof.
  intros n dims m i W Hi. rewrite subarray_ok; [|apply (W _ (Occurs_here _))|rewrite app_length; cbn [length]; lia].
  rewrite skipn_app. replace (Z.to_nat i - length dims)%nat with 0%nat by lia. reflexivity.
Qed.
Print Assumptions C20_subarray.
Theorem C20_subarray_too_many : forall n dims m i, Z.of_nat (length dims) < i ->
  subarray (DataShapeT n (dims ++ [m])) i = Raise IndexErr.
Proof.
  intros n dims m i Hi. unfold subarray. rewrite app_length. cbn [length].
  destruct (Z.leb_spec (Z.of_nat (length dims + 1)) i); [reflexivity|lia].
Qed.
Print Assumptions C20_subarray_too_many.
Theorem C20_subarray_compose : forall n ps i j r, WF (DataShapeT n ps) -> 0 <= i -> 0 <= j ->
  subarray (DataShapeT n ps) i = Ok r -> subarray r j = subarray (DataShapeT n ps) (i + j).
Proof.
  intros n ps i j r W Hi Hj. assert (HO : okps ps) by (apply (W _ (Occurs_here _))).
  destruct (Z.ltb_spec i (Z.of_nat (length ps))) as [L|L].
  - rewrite subarray_ok by (auto; lia). intro E; injection E as <-.
    assert (HO2 : okps (skipn (Z.to_nat i) ps)) by (apply okps_skipn; auto; lia).
    assert (HL : Z.of_nat (length (skipn (Z.to_nat i) ps)) = Z.of_nat (length ps) - i) by (rewrite skipn_length; lia).
    destruct (Z.ltb_spec (i + j) (Z.of_nat (length ps))) as [M|M].
    + rewrite !subarray_ok by (auto; rewrite ?HL; lia). do 2 f_equal.
      rewrite skipn_add. f_equal. lia.
    + unfold subarray. rewrite HL. destruct (Z.leb_spec (Z.of_nat (length ps) - i) j); [|lia].
      destruct (Z.leb_spec (Z.of_nat (length ps)) (i + j)); [reflexivity|lia].
  - unfold subarray. destruct (Z.leb_spec (Z.of_nat (length ps)) i); [discriminate|lia].
Qed.
Print Assumptions C20_subarray_compose.
(** [subarray(1)] undoes [n * ds] *)
Theorem C20_subarray_undoes_mul : forall dsh z n ps r, 0 <= z -> WF (DataShapeT n ps) ->
  py_mul dsh (PInt z) (PTy (DataShapeT n ps)) = Ok r -> subarray r 1 = Ok (DataShapeT None ps).
Proof.
  intros dsh z n ps r Hz W. assert (HO : okps ps) by (apply (W _ (Occurs_here _))).
  rewrite mul_int_ds by auto. intro E; injection E as <-. apply sub1; auto. constructor.
Qed.
Print Assumptions C20_subarray_undoes_mul.
(** a negative count keeps that many components from the end (all of them when there are fewer) *)
Theorem C20_subarray_negative : forall n ps i, WF (DataShapeT n ps) -> i < 0 ->
  exists dropped kept, ps = dropped ++ kept /\ Z.of_nat (length kept) = Z.min (- i) (Z.of_nat (length ps)) /\
    subarray (DataShapeT n ps) i = Ok (DataShapeT None kept).
Proof.
  intros n ps i W Hi. assert (HO : okps ps) by (apply (W _ (Occurs_here _))).
  exists (firstn (Z.to_nat (Z.of_nat (length ps) + i)) ps), (skipn (Z.to_nat (Z.of_nat (length ps) + i)) ps).
  split; [symmetry; apply firstn_skipn|]. split; [rewrite skipn_length; lia|].
  destruct (Z.eqb_spec i (-1)) as [->|N].
  - rewrite subarray_minus1 by auto. rewrite <- (skipn_last ps NullT) by (apply okps_nonnil; auto).
    do 3 f_equal. lia.
  - apply subarray_neg; auto. lia.
Qed.
Print Assumptions C20_subarray_negative.
(** objects that are not DataShapes have no dimension to drop *)
Theorem C20_subarray_bare : forall t i, ~ IsDataShape t ->
  (1 <= i -> subarray t i = Raise IndexErr) /\ (i < 1 -> subarray t i = Ok t).
Proof.
  intros t i H. destruct t; try (split; intro; unfold subarray; destruct (Z.leb_spec 1 i); auto; lia).
  exfalso; apply H; eexists _, _; reflexivity.
Qed.
Print Assumptions C20_subarray_bare.
Example C20_case : WF (DataShapeT None [VarT; FixedT 3; int32_t]) /\
  subarray (DataShapeT None [VarT; FixedT 3; int32_t]) 1 = Ok (DataShapeT None [FixedT 3; int32_t]).
Proof. split; [apply wf_WF|]; vm_compute; reflexivity. Qed.

(** ** C21 *)
(** a slice start:stop:step of a fixed dimension of length [n <= 2^53], bounds in [-n..n] and
    in order, stop not 0, positive step: the new length is the number of selected indices *)
Theorem C21_python_len : forall nm n ps start stop step c,
  WF (DataShapeT nm (FixedT n :: ps)) -> ps <> [] ->
  n <= 2 ^ 53 ->
  (forall a, start = Some a -> - n <= a <= n) ->
  (forall b, stop = Some b -> - n <= b <= n /\ b <> 0) ->
  (forall s, step = Some s -> 1 <= s <= 2 ^ 1074) ->
  bound n 0 start <= bound n n stop ->
  SliceLen n start stop step c ->
  exists r, subshape (IxSlice start stop step) (DataShapeT nm (FixedT n :: ps)) = Ok r /\
    components r = FixedT c :: ps.
Proof.
  intros nm n ps start stop step c W Hps Hn H1 H2 H3 H4 H5.
  apply subshape_single; auto; try discriminate.
  assert (0 <= n). { apply (W (FixedT n)). eapply Occurs_in; [left; reflexivity|constructor]. }
  apply Sel_slice; auto. apply Sel_end; auto.
Qed.
Print Assumptions C21_python_len.
Lemma SliceLen_empty n start stop step :
  0 <= n -> (forall s, step = Some s -> 1 <= s) -> bound n n stop <= bound n 0 start -> SliceLen n start stop step 0.
Proof.
  intros Hn Hs H. exists []. split; [constructor|]. split; [reflexivity|]. intro i. split; [intros []|].
  intros [_ [B _]]. lia.
Qed.
(** the number of selected indices is unique, and always exists *)
Theorem C21_slice_len_exists : forall n start stop step, 0 <= n -> (forall s, step = Some s -> 1 <= s) ->
  exists c, SliceLen n start stop step c /\ forall c', SliceLen n start stop step c' -> c' = c.
Proof.
  intros n a b s H1 H2.
  assert (G : exists c, SliceLen n a b s c).
  { destruct (Z.le_gt_cases (bound n 0 a) (bound n n b)) as [L|L].
    - eexists. apply SliceLen_cdiv; auto.
    - exists 0. apply SliceLen_empty; auto. lia. }
  destruct G as [c G]. exists c. split; auto. intros c' H. eapply SliceLen_fun; [exact H|exact G].
Qed.
Print Assumptions C21_slice_len_exists.

(** a negative step, bounds given, in range and in (descending) order, stop not 0 *)
Theorem C21_python_len_negative : forall nm n ps a b s c, WF (DataShapeT nm (FixedT n :: ps)) -> ps <> [] ->
  n <= 2 ^ 51 -> - n <= a < n -> - n <= b < n -> b <> 0 -> - 2 ^ 1074 <= s < 0 ->
  bound_neg n (-1) (Some b) <= bound_neg n (n - 1) (Some a) ->
  SliceLenNeg n (Some a) (Some b) s c ->
  subshape (IxSlice (Some a) (Some b) (Some s)) (DataShapeT nm (FixedT n :: ps)) = Ok (DataShapeT None (FixedT c :: ps)).
Proof. exact slice_negative. Qed.
Print Assumptions C21_python_len_negative.
(** Exactly what is computed for any bounds: the ceiling of (stop - start) / step, bounds not
    clamped and 0 taken for a missing bound; a negative length raises ValueError. *)
Theorem C21_computed : forall nm n ps start stop step c, WF (DataShapeT nm (FixedT n :: ps)) -> ps <> [] ->
  n <= 2 ^ 51 -> (forall v, start = Some v -> Z.abs v <= 2 ^ 51) -> (forall v, stop = Some v -> Z.abs v <= 2 ^ 51) ->
  step <> 0 -> Z.abs step <= 2 ^ 1074 ->
  IsCeil (raw_bound n n stop - raw_bound n 0 start) step c ->
  subshape (IxSlice start stop (Some step)) (DataShapeT nm (FixedT n :: ps)) =
    if 0 <=? c then Ok (DataShapeT None (FixedT c :: ps)) else Raise ValueErr.
Proof. exact slice_exact. Qed.
Print Assumptions C21_computed.
Theorem C21_computed_without_step : forall nm n ps start stop, WF (DataShapeT nm (FixedT n :: ps)) -> ps <> [] ->
  subshape (IxSlice start stop None) (DataShapeT nm (FixedT n :: ps)) =
    let c := raw_bound n n stop - raw_bound n 0 start in
    if 0 <=? c then Ok (DataShapeT None (FixedT c :: ps)) else Raise ValueErr.
Proof. exact slice_exact_nostep. Qed.
Print Assumptions C21_computed_without_step.
Theorem C21_step_zero : forall nm n ps start stop, WF (DataShapeT nm (FixedT n :: ps)) -> ps <> [] ->
  subshape (IxSlice start stop (Some 0)) (DataShapeT nm (FixedT n :: ps)) = Raise ZeroDivErr.
Proof. exact slice_step_zero. Qed.
Print Assumptions C21_step_zero.

Definition arr (n : Z) : ty := DataShapeT None [FixedT n; int32_t].
Definition leads_with (r : res ty) : option Z :=
  match r with Ok (DataShapeT _ (FixedT c :: _)) => Some c | _ => None end.
(** stop beyond the end is not clamped *)
Theorem C21_clamp_refuted :
  leads_with (subshape (IxSlice (Some 0) (Some 20) None) (arr 10)) = Some 20 /\
  SliceLen 10 (Some 0) (Some 20) None 10.
Proof.
  split; [vm_compute; reflexivity|].
  refine (SliceLen_cdiv 10 (Some 0) (Some 20) None ltac:(lia) _ _); [discriminate|vm_compute; discriminate].
Qed.
Print Assumptions C21_clamp_refuted.
(** [0:0] is treated as [0:n] *)
Theorem C21_stop_zero_refuted :
  leads_with (subshape (IxSlice (Some 0) (Some 0) None) (arr 10)) = Some 10 /\
  SliceLen 10 (Some 0) (Some 0) None 0.
Proof. split; [vm_compute; reflexivity|]. apply SliceLen_empty; [lia|discriminate|vm_compute; discriminate]. Qed.
Print Assumptions C21_stop_zero_refuted.
(** an empty range start > stop raises *)
Theorem C21_empty_refuted :
  subshape (IxSlice (Some 5) (Some 3) None) (arr 10) = Raise ValueErr /\
  SliceLen 10 (Some 5) (Some 3) None 0.
Proof. split; [vm_compute; reflexivity|]. apply SliceLen_empty; [lia|discriminate|vm_compute; discriminate]. Qed.
Print Assumptions C21_empty_refuted.
(** a negative step raises, although Python selects the indices 8, 6, 4, 2, 0; with both
    bounds omitted it raises as well *)
Theorem C21_negative_step_refuted :
  subshape (IxSlice (Some 8) None (Some (-2))) (arr 10) = Raise ValueErr /\
  subshape (IxSlice None None (Some (-1))) (arr 10) = Raise ValueErr /\
  py_slice [0; 1; 2; 3; 4; 5; 6; 7; 8; 9] (Some 8) None (Some (-2)) = Ok [8; 6; 4; 2; 0].
Proof. vm_compute. auto. Qed.
Print Assumptions C21_negative_step_refuted.
Example C21_negative_case :
  subshape (IxSlice (Some 8) (Some (-8)) (Some (-4))) (arr 10) = Ok (arr 2) /\ SliceLenNeg 10 (Some 8) (Some (-8)) (-4) 2 /\
  IsCeil (raw_bound 10 10 (Some (-8)) - raw_bound 10 0 (Some 8)) (-4) 2.
Proof.
  split; [vm_compute; reflexivity|]. split; [apply (SliceLenNeg_zceil 10 (Some 8) (Some (-8)) (-4)); vm_compute; congruence|].
  right. vm_compute. repeat split; congruence.
Qed.
(** above 2^53 true division loses precision *)
Theorem C21_precision_refuted :
  leads_with (subshape (IxSlice None None (Some 1)) (arr (2 ^ 53 + 1))) = Some (2 ^ 53) /\
  SliceLen (2 ^ 53 + 1) None None (Some 1) (2 ^ 53 + 1).
Proof.
  split; [vm_compute; reflexivity|].
  refine (SliceLen_cdiv (2 ^ 53 + 1) None None (Some 1) ltac:(lia) _ _); [intros s E; injection E as <-; lia|vm_compute; discriminate].
Qed.
Print Assumptions C21_precision_refuted.
Example C21_case : leads_with (subshape (IxSlice (Some (-9)) (Some 8) (Some 3)) (arr 10)) = Some 3 /\
  SliceLen 10 (Some (-9)) (Some 8) (Some 3) 3.
Proof.
  split; [vm_compute; reflexivity|].
  refine (SliceLen_cdiv 10 (Some (-9)) (Some 8) (Some 3) ltac:(lia) _ _); [intros s E; injection E as <-; lia|vm_compute; discriminate].
Qed.

(** ** C22 *)
Theorem C22_subshape_tuple : forall n ps ixs qs, WF (DataShapeT n ps) -> Select ps ixs qs ->
  exists r, subshape (IxTuple ixs) (DataShapeT n ps) = Ok r /\ components r = qs.
Proof. exact subshape_select. Qed.
Print Assumptions C22_subshape_tuple.
Theorem C22_subshape_single : forall n ps i qs, WF (DataShapeT n ps) -> (forall l, i <> IxTuple l) -> i <> IxNone ->
  Select ps [i] qs -> exists r, subshape i (DataShapeT n ps) = Ok r /\ components r = qs.
Proof. exact subshape_single. Qed.
Print Assumptions C22_subshape_single.
(** a slice of the fields of a record, with a step of either sign *)
Theorem C22_field_slice : forall n fs a b c sel, WF (DataShapeT n [RecordT fs]) -> SliceOf fs a b c sel ->
  subshape (IxSlice a b c) (DataShapeT n [RecordT fs]) = Ok (DataShapeT None [RecordT sel]).
Proof. exact slice_fields. Qed.
Print Assumptions C22_field_slice.
Example C22_field_slice_case : SliceOf [(1, $"a"); (2, $"b"); (3, $"c")] (Some 5) (Some 0) (Some (-1)) [(3, $"c"); (2, $"b")].
Proof. apply py_slice_iff. vm_compute. reflexivity. Qed.
(** Conversely, tuples of indices without slices only select: whatever is returned is what
    the rules of [Select] say (fields whose type is a bare dimension excluded). *)
Theorem C22_subshape_only_selects : forall n ps ixs r, WF (DataShapeT n ps) -> Forall PlainIx ixs ->
  (forall fs f, In (RecordT fs) ps -> In f fs -> ~ DimensionClass (snd f)) ->
  subshape (IxTuple ixs) (DataShapeT n ps) = Ok r -> Select ps ixs (components r).
Proof. exact subshape_select_inv. Qed.
Print Assumptions C22_subshape_only_selects.
(** records: exactly the named or numbered field, exactly the listed fields, and errors for
    fields that do not exist *)
Theorem C22_field_exact : forall n fs i r, WF (DataShapeT n [RecordT fs]) ->
  (exists z, i = IxInt z) \/ (exists s, i = IxStr s) ->
  (subshape i (DataShapeT n [RecordT fs]) = Ok r <-> exists f, FieldAt fs i f /\ r = snd f).
Proof. exact record_field_exact. Qed.
Print Assumptions C22_field_exact.
Theorem C22_fields_exact : forall n fs l r, WF (DataShapeT n [RecordT fs]) ->
  (subshape (IxList l) (DataShapeT n [RecordT fs]) = Ok r <->
   exists sel, Forall2 (FieldAt fs) l sel /\ NoDup (map fst sel) /\ r = DataShapeT None [RecordT sel]).
Proof. exact record_fields_exact. Qed.
Print Assumptions C22_fields_exact.
Theorem C22_missing_field : forall n fs, WF (DataShapeT n [RecordT fs]) ->
  (forall s, ~ In s (map fst fs) -> subshape (IxStr s) (DataShapeT n [RecordT fs]) = Raise KeyErr) /\
  (forall z, ~ (- Z.of_nat (length fs) <= z < Z.of_nat (length fs)) ->
     subshape (IxInt z) (DataShapeT n [RecordT fs]) = Raise IndexErr).
Proof. exact record_missing. Qed.
Print Assumptions C22_missing_field.
(** which exception for a list of fields: unknown names come first, then numbers out of range,
    then repeated names *)
Theorem C22_fields_raise : forall n fs l, WF (DataShapeT n [RecordT fs]) ->
  (forall i, In i l -> (exists z, i = IxInt z) \/ (exists s, i = IxStr s)) ->
  let ds := DataShapeT n [RecordT fs] in
  let missing := exists s, In (IxStr s) l /\ ~ In s (map fst fs) in
  let outside := exists z, In (IxInt z) l /\ ~ (- Z.of_nat (length fs) <= z < Z.of_nat (length fs)) in
  (missing -> subshape (IxList l) ds = Raise ValueErr) /\
  (~ missing -> outside -> subshape (IxList l) ds = Raise IndexErr) /\
  (forall sel, Forall2 (FieldAt fs) l sel -> ~ NoDup (map fst sel) -> subshape (IxList l) ds = Raise ValueErr).
Proof. exact fields_raise. Qed.
Print Assumptions C22_fields_raise.
(** a slice in a list of names and positions is refused: with TypeError if all slices select two
    fields, otherwise with ValueError *)
Theorem C22_slice_in_list : forall n fs l (xs : list ((str * ty) + list (str * ty))), WF (DataShapeT n [RecordT fs]) ->
  Forall2 (fun i x => match x with inl f => FieldAt fs i f
                      | inr sel => exists a b c, i = IxSlice a b c /\ SliceOf fs a b c sel end) l xs ->
  (exists sel, In (inr sel) xs) ->
  ((exists sel, In (inr sel) xs /\ length sel <> 2%nat) ->
     subshape (IxList l) (DataShapeT n [RecordT fs]) = Raise ValueErr) /\
  ((forall sel, In (inr sel) xs -> length sel = 2%nat) ->
     subshape (IxList l) (DataShapeT n [RecordT fs]) = Raise TypeErr).
Proof. exact slice_in_list. Qed.
Print Assumptions C22_slice_in_list.
Example C22_slice_in_list_case : let rec := DataShapeT None [RecordT [($"a", int32_t); ($"b", int8_t); ($"c", int8_t)]] in
  subshape (IxList [IxStr $"a"; IxSlice (Some 1) None None]) rec = Raise TypeErr /\
  subshape (IxList [IxSlice None None None; IxInt 0]) rec = Raise ValueErr.
Proof. vm_compute. auto. Qed.
(** indices that fit nothing *)
Theorem C22_invalid_index : forall nm d ps,
  subshape IxNone (DataShapeT nm (d :: ps)) = Raise TypeErr /\
  ((forall fs, d <> RecordT fs) -> (forall s, subshape (IxStr s) (DataShapeT nm (d :: ps)) = Raise TypeErr) /\
   (~ Dim d -> (forall z, subshape (IxInt z) (DataShapeT nm (d :: ps)) = Raise TypeErr) /\
               (forall l, subshape (IxList l) (DataShapeT nm (d :: ps)) = Raise TypeErr))).
Proof. exact invalid_index. Qed.
Print Assumptions C22_invalid_index.
Theorem C22_measure_slice : forall nm d a b, WF (DataShapeT nm [d]) -> (forall fs, d <> RecordT fs) ->
  subshape (IxSlice a b None) (DataShapeT nm [d]) = Raise IndexErr.
Proof. exact measure_slice. Qed.
Print Assumptions C22_measure_slice.
Example C22_raise_case : let rec := DataShapeT None [RecordT [($"a", int32_t); ($"b", int8_t)]] in
  subshape (IxList [IxInt 9; IxStr $"z"]) rec = Raise ValueErr /\ subshape (IxList [IxInt 9; IxStr $"a"]) rec = Raise IndexErr /\
  subshape (IxList [IxInt 0; IxStr $"a"]) rec = Raise ValueErr /\ subshape (IxInt 0) (DataShapeT None [TypeVarT $"A"; int32_t]) = Raise TypeErr.
Proof. split; [|split; [|split]]; vm_compute; reflexivity. Qed.
Example C22_case :
  let r := RecordT [($"a", int32_t); ($"b", int8_t); ($"c", DataShapeT None [FixedT 3; int32_t])] in
  WF (DataShapeT None [FixedT 10; VarT; r]) /\
  Select [FixedT 10; VarT; r] [IxInt 0; IxNone; IxList [IxInt 1; IxInt 2]; IxStr $"c"] [FixedT 1; FixedT 2; FixedT 3; int32_t].
Proof.
  split; [apply wf_WF; vm_compute; reflexivity|].
  apply Sel_int; [constructor|]. apply Sel_new. apply (Sel_list VarT _ [IxInt 1; IxInt 2]); [constructor|].
  apply (Sel_field _ (IxStr $"c") ($"c", DataShapeT None [FixedT 3; int32_t])).
  - discriminate.
  - split; [right; right; left; reflexivity|reflexivity].
  - intro H; inversion H.
Qed.
Example C22_case_fields :
  let fs := [($"a", int32_t); ($"b", int8_t); ($"c", JSONT)] in
  Select [RecordT fs] [IxList [IxStr $"c"; IxInt (-3)]] [RecordT [($"c", JSONT); ($"a", int32_t)]] /\
  Select [RecordT fs] [IxSlice (Some (-2)) None None] [RecordT [($"b", int8_t); ($"c", JSONT)]].
Proof.
  split.
  - apply Sel_fields; [|repeat constructor; simpl; intuition discriminate].
    constructor; [split; [right; right; left; reflexivity|reflexivity]|].
    constructor; [|constructor]. split; [simpl; lia|reflexivity].
  - apply (Sel_field_slice _ _ _ _ [1; 2]); [discriminate| | |].
    + repeat constructor.
    + intro k. unfold Selected. cbn [bound length Z.of_nat]. simpl. split.
      * intros [<-|[<-|[]]]; repeat split; try lia; [exists 0|exists 1]; reflexivity.
      * intros [A [B _]]. lia.
    + repeat constructor.
Qed.

(** ** C23 *)
Theorem C23_cat_iff : forall d1 d2 l r, (forall x, In x (d1 :: d2 :: l) -> WF x) ->
  (cat_dshapes (d1 :: d2 :: l) = Ok r <-> Cat (d1 :: d2 :: l) r).
Proof. exact cat_iff. Qed.
Print Assumptions C23_cat_iff.
Theorem C23_cat_singleton : forall d, cat_dshapes [d] = Ok d.
Proof. reflexivity. Qed.
Print Assumptions C23_cat_singleton.
Theorem C23_cat_empty : cat_dshapes [] = Raise ValueErr.
Proof. reflexivity. Qed.
Print Assumptions C23_cat_empty.
(** otherwise it raises *)
Theorem C23_cat_raises : forall d1 d2 l, (forall x, In x (d1 :: d2 :: l) -> WF x) ->
  (forall r, ~ Cat (d1 :: d2 :: l) r) -> exists e, cat_dshapes (d1 :: d2 :: l) = Raise e.
Proof.
  intros d1 d2 l W H. destruct (cat_dshapes (d1 :: d2 :: l)) as [r|e] eqn:E; eauto.
  apply cat_iff in E; auto. destruct (H r E).
Qed.
Print Assumptions C23_cat_raises.
(** which exception: that of the first datashape in the list that does not fit *)
Theorem C23_cat_error : forall d1 d2 l e, (forall x, In x (d1 :: d2 :: l) -> IsDataShape x /\ WF x) ->
  (cat_dshapes (d1 :: d2 :: l) = Raise e <-> CatError d1 (d1 :: d2 :: l) e).
Proof. exact cat_error. Qed.
Print Assumptions C23_cat_error.
Example C23_error_case : let a n t := DataShapeT None [n; t] in
  cat_dshapes [a (FixedT 3) int32_t; a (FixedT 4) int32_t; a VarT int32_t; a (FixedT 4) int8_t] = Raise TypeErr /\
  cat_dshapes [a (FixedT 3) int32_t; a (FixedT 4) int32_t; a (FixedT 4) int8_t; a VarT int32_t] = Raise ValueErr /\
  CatError (a (FixedT 3) int32_t) [a (FixedT 3) int32_t; a (FixedT 4) int8_t] ValueErr.
Proof.
  split; [vm_compute; reflexivity|]. split; [vm_compute; reflexivity|]. apply cat_error; [|vm_compute; reflexivity].
  intros x [<-|[<-|[]]]; (split; [red; eauto|apply wf_WF; vm_compute; reflexivity]).
Qed.
(** concatenating concatenations *)
Theorem C23_cat_assoc : forall l0 a b l1 l2 t r,
  (forall x, In x (l0 ++ (a :: b :: l1) ++ l2) -> WF x) -> l0 ++ l2 <> [] ->
  cat_dshapes (a :: b :: l1) = Ok t ->
  (cat_dshapes (l0 ++ t :: l2) = Ok r <-> cat_dshapes (l0 ++ (a :: b :: l1) ++ l2) = Ok r).
Proof.
  intros l0 a b l1 l2 t r W HN Ht.
  assert (W1 : forall x, In x (a :: b :: l1) -> WF x).
  { intros x Hx. apply W. apply in_or_app. right. apply in_or_app. left; auto. }
  pose proof (proj1 (cat_iff a b l1 t W1) Ht) as HC.
  assert (WT : WF t) by (eapply Cat_WF; eauto).
  rewrite !cat_iff2.
  - apply Cat_assoc; auto.
  - rewrite !app_length. cbn [length app]. lia.
  - exact W.
  - rewrite app_length. destruct l0; [|simpl; lia]. destruct l2; [contradiction|simpl; lia].
  - intros x Hx. apply in_app_or in Hx. destruct Hx as [Hx|[<-|Hx]]; auto; apply W; apply in_or_app; auto.
    right. apply in_or_app; auto.
Qed.
Print Assumptions C23_cat_assoc.
(** the order of the list does not matter, up to equality *)
Theorem C23_cat_perm : forall l l' r, (forall x, In x l -> WF x /\ NoTypeSet x /\ FlatMeasure x) ->
  Permutation l l' -> cat_dshapes l = Ok r -> exists r', cat_dshapes l' = Ok r' /\ py_eq r r' = true.
Proof.
  intros l l' r H P E. destruct l as [|a [|b l]]; [discriminate| |].
  - apply Permutation_length_1_inv in P. subst. injection E as <-. exists a. split; auto. apply py_eq_refl.
  - apply cat_iff in E; [|intros; apply H; auto].
    destruct (Cat_perm _ _ _ H P E) as [r' [HC He]]. exists r'. split; auto.
    apply cat_iff2; auto.
    + rewrite <- (Permutation_length P). simpl. lia.
    + intros x Hx. apply H. eapply Permutation_in; [apply Permutation_sym; exact P|auto].
Qed.
Print Assumptions C23_cat_perm.
Example C23_case :
  cat_dshapes [DataShapeT None [FixedT 2; VarT; int32_t]; DataShapeT None [FixedT 3; VarT; int32_t]; DataShapeT None [FixedT 0; VarT; int32_t]]
  = Ok (DataShapeT None [FixedT 5; VarT; int32_t]).
Proof. reflexivity. Qed.

(** ** C44 *)
Theorem C44_record_literal : forall dsh items fields, Forall2 WellFormedItem items fields ->
  record_literal dsh items = mk_record dsh fields.
Proof. exact record_literal_ok. Qed.
Print Assumptions C44_record_literal.
Theorem C44_record_literal_bad : forall dsh items i, In i items -> (forall f, ~ WellFormedItem i f) ->
  record_literal dsh items = Raise TypeErr.
Proof. exact record_literal_bad. Qed.
Print Assumptions C44_record_literal_bad.
Example C44_case :
  record_literal no_dsh [RSlice (Some (PStr $"a")) (Some (PTy int32_t)) None; RSlice (Some (PStr $"b")) (Some (PTy int8_t)) None]
  = Ok (RecordT [($"a", int32_t); ($"b", int8_t)]) /\
  record_literal no_dsh [RSlice (Some (PStr $"a")) (Some (PTy int32_t)) None; RSlice (Some (PStr $"b")) (Some (PTy int8_t)) (Some (PInt 1))]
  = Raise TypeErr.
Proof. split; reflexivity. Qed.

(** ** C45 *)
Theorem C45_string : forall f e,
  (exists c, Spelling e c /\ mk_string f (Some e) = Ok (StringT f c)) \/
  (e = [] /\ mk_string f (Some e) = Ok (StringT f $"U8")) \/
  (e <> [] /\ (forall c, ~ Spelling e c) /\ mk_string f (Some e) = Raise ValueErr).
Proof. exact mk_string_spec. Qed.
Print Assumptions C45_string.
Theorem C45_canonical : forall f e t, mk_string f e = Ok t -> exists c, t = StringT f c /\ CanonicalEncoding c.
Proof.
  intros f [e|] t H.
  - destruct (mk_string_spec f e) as [[c [A B]]|[[-> B]|[_ [_ B]]]]; rewrite B in H; try discriminate; injection H as <-.
    + exists c. split; auto. eapply Spelling_canonical; eauto.
    + eexists. split; [reflexivity|]. right; left; reflexivity.
  - injection H as <-. eexists. split; [reflexivity|]. right; left; reflexivity.
Qed.
Print Assumptions C45_canonical.
Theorem C45_spellings_equal : forall f e1 e2 c, Spelling e1 c -> Spelling e2 c ->
  mk_string f (Some e1) = mk_string f (Some e2) /\ exists t, mk_string f (Some e1) = Ok t.
Proof.
  assert (G : forall f e c, Spelling e c -> mk_string f (Some e) = Ok (StringT f c)).
  { intros f e c H. destruct (mk_string_spec f e) as [[c' [A B]]|[[-> B]|[_ [N _]]]].
    - apply Spelling_assoc in H. apply Spelling_assoc in A. congruence.
    - apply Spelling_assoc in H. discriminate.
    - destruct (N c H). }
  intros f e1 e2 c H1 H2. rewrite (G f e1 c H1), (G f e2 c H2). split; eauto.
Qed.
Print Assumptions C45_spellings_equal.
(** different encodings give different types *)
Theorem C45_distinct : forall f g c1 c2, py_eq (StringT f c1) (StringT g c2) = true <-> f = g /\ c1 = c2.
Proof.
  intros f g c1 c2. split; [|intros [-> ->]; apply py_eq_refl]. rewrite py_eq_unfold. cbn.
  intro H. apply andb_true_iff in H. destruct H as [H1 H2].
  split; [|apply str_eqb_eq; auto].
  destruct f, g; simpl in H1; try discriminate; auto. apply Z.eqb_eq in H1. congruence.
Qed.
Print Assumptions C45_distinct.
Theorem C45_rebuild : forall f e t c g, mk_string f e = Ok t -> t = StringT g c -> mk_string g (Some c) = Ok t.
Proof.
  intros f e t c g H ->. destruct (C45_canonical f e _ H) as [c' [E HC]]. injection E as -> ->.
  destruct (C45_spellings_equal f c' c' c' (canonical_Spelling c' HC) (canonical_Spelling c' HC)) as [_ [t Ht]].
  rewrite Ht. destruct (mk_string_spec f c') as [[c2 [A B]]|[[-> B]|[_ [N _]]]].
  - rewrite B in Ht. injection Ht as <-. pose proof (canonical_Spelling c' HC) as S.
    apply Spelling_assoc in A. apply Spelling_assoc in S. congruence.
  - apply canonical_Spelling in HC. apply Spelling_assoc in HC. discriminate.
  - destruct (N c' (canonical_Spelling c' HC)).
Qed.
Print Assumptions C45_rebuild.
Example C45_case : mk_string (Some 10) (Some $"utf-8") = Ok (StringT (Some 10) $"U8") /\
  Spelling $"utf-8" $"U8" /\ mk_string None (Some $"latin1") = Raise ValueErr.
Proof. split; [reflexivity|]. split; [apply Sp_U8; simpl; auto|reflexivity]. Qed.
