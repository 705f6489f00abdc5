(** C14, C15, C16: equality and hashing of datashape objects. *)
From Verif Require Import Base Types Lexer Construct Parser Spec_WF Spec_Eq
  Proof_WF Proof_Eq Proof_Canon Tests_Parser.

(** C14. [==] is an equivalence relation. Reflexivity and transitivity hold for all objects,
    symmetry for objects that satisfy the class invariants and contain no TypeSet. *)
Theorem C14_eq_refl : forall t, py_eq t t = true.
Proof. exact py_eq_refl. Qed.
Print Assumptions C14_eq_refl.
Theorem C14_eq_trans : forall a b c, py_eq a b = true -> py_eq b c = true -> py_eq a c = true.
Proof. exact py_eq_trans. Qed.
Print Assumptions C14_eq_trans.
Theorem C14_eq_sym : forall a b, WF a -> WF b -> NoTypeSet a -> NoTypeSet b -> py_eq a b = py_eq b a.
Proof.
  intros a b Wa Wb Ta Tb. apply py_eq_sym; try apply wf_WF; try apply no_typeset_spec; assumption.
Qed.
Print Assumptions C14_eq_sym.
(** [!=] is the negation (Mono.__ne__) *)
Theorem C14_ne : forall a b, py_ne a b = true <-> py_eq a b <> true.
Proof. intros a b. unfold py_ne. destruct (py_eq a b); simpl; split; congruence. Qed.
Print Assumptions C14_ne.
(** with TypeSets, symmetry fails *)
Theorem C14_sym_typeset_refuted : exists a b, py_eq a b = true /\ py_eq b a = false.
Proof.
  exists (DataShapeT None [TypeSetT [int32_t] None]), (TypeSetT [int32_t] None). vm_compute; auto.
Qed.
Print Assumptions C14_sym_typeset_refuted.

(** C15. Two datashapes are equal exactly when they have the same canonical tree; every
    object has exactly one. *)
Theorem C15_eq_canonical : forall a b, WF a -> NoTypeSet a -> WF b -> NoTypeSet b ->
  (py_eq a b = true <-> exists c, Canon a c /\ Canon b c).
Proof. exact py_eq_canon. Qed.
Print Assumptions C15_eq_canonical.
Theorem C15_canonical_unique : forall t, exists c, Canon t c /\ forall c', Canon t c' -> c' = c.
Proof.
  intro t. destruct (canon_total t) as [c Hc]. exists c. split; auto. intros c' H. exact (canon_fun t c' c H Hc).
Qed.
Print Assumptions C15_canonical_unique.
(** in particular: DataShape(x) == x for a lone measure, whatever its registered name *)
Theorem C15_lone_measure : forall n x, shape x = [] -> ~ DimensionClass x -> is_TypeSet x = false ->
  (forall m l, x <> DataShapeT m l) -> py_eq (DataShapeT n [x]) x = true /\ py_eq x (DataShapeT n [x]) = true.
Proof. exact lone_measure. Qed.
Print Assumptions C15_lone_measure.
(** records: same names in the same order, equal types *)
Theorem C15_records : forall fs gs, py_eq (RecordT fs) (RecordT gs) = true <->
  Forall2 (fun f g => fst f = fst g /\ py_eq (snd f) (snd g) = true) fs gs.
Proof. exact record_eq. Qed.
Print Assumptions C15_records.
(** arrays: equal dimensions pairwise and equal measure *)
Theorem C15_arrays : forall n m ds es x y, shape x = [] -> shape y = [] -> 
  (forall k l, x <> DataShapeT k l) -> (forall k l, y <> DataShapeT k l) -> is_TypeSet x = false ->
  (py_eq (DataShapeT n (ds ++ [x])) (DataShapeT m (es ++ [y])) = true <->
   Forall2 (fun d e => py_eq d e = true) ds es /\ py_eq x y = true).
Proof. exact array_eq. Qed.
Print Assumptions C15_arrays.

Example C15_field_order_matters :
  py_eq (RecordT [($"a", int32_t); ($"b", int8_t)]) (RecordT [($"b", int8_t); ($"a", int32_t)]) = false.
Proof. vm_compute; reflexivity. Qed.
Example C15_nonvacuous : exists a b, D $"3 * {a: ?int32, b: (int8, 2 * M)}" = Ok a /\
  D $" 3*{'a' : option[int], b: (int8, 2*M,)}" = Ok b /\ py_eq a b = true /\ wf a = true /\ no_typeset a = true.
Proof. eexists _, _. repeat split; vm_compute; reflexivity. Qed.
(** an oddity of the canonical tree: an Option has the shape of its content, so that
    [dshape('?3 * int32')] and [Option(3 * int32)] differ, and the latter equals
    [dshape('3 * ?3 * int32')] *)
Theorem C15_option_shape_refuted : exists a b c,
  D $"?3 * int32" = Ok a /\ D $"3 * ?3 * int32" = Ok b /\
  mk_option (fun s => dshape E0 s) (PStr $"3 * int32") = Ok c /\
  py_eq a c = false /\ py_eq b c = true.
Proof. eexists _, _, _. repeat split; vm_compute; reflexivity. Qed.
Print Assumptions C15_option_shape_refuted.

(** C16. Whatever Python's primitive hash functions are: equal objects have equal hashes. *)
Theorem C16_hash_consistent : forall hstr hint hnone hcls htuple hxor a b,
  WF a -> WF b -> NoTypeSet a -> NoTypeSet b -> py_eq a b = true ->
  py_hash hstr hint hnone hcls htuple hxor a = py_hash hstr hint hnone hcls htuple hxor b.
Proof.
  intros hstr hint hnone hcls htuple hxor a b Wa Wb Ta Tb.
  apply py_hash_eq; try apply wf_WF; try apply no_typeset_spec; assumption.
Qed.
Print Assumptions C16_hash_consistent.
(** membership in a set (hash first, then [==]) agrees with equality *)
Theorem C16_set_membership : forall hstr hint hnone hcls htuple hxor x l,
  WF x -> NoTypeSet x -> (forall a, In a l -> WF a /\ NoTypeSet a) ->
  let h := py_hash hstr hint hnone hcls htuple hxor in
  (exists a, In a l /\ h x = h a /\ py_eq x a = true) <-> (exists a, In a l /\ py_eq x a = true).
Proof.
  intros hstr hint hnone hcls htuple hxor x l Wx Tx Hl h. split.
  - intros [a [H1 [_ H2]]]; eauto.
  - intros [a [H1 H2]]. exists a. repeat split; auto. destruct (Hl a H1).
    apply C16_hash_consistent; auto.
Qed.
Print Assumptions C16_set_membership.
(** A dimension equals the integer of its length and no other integer. *)
Theorem C14_fixed_int : forall v n, fixed_eq_int v n = true <-> v = n.
Proof. intros v n. apply Z.eqb_eq. Qed.
Print Assumptions C14_fixed_int.
(** [Fixed(3) == 3] but they may hash differently: an int and an equal Fixed are different
    set members *)
Theorem C16_fixed_int_refuted : exists hstr hint hnone hcls htuple hxor,
  fixed_eq_int 3 3 = true /\
  py_hash hstr hint hnone hcls htuple hxor (FixedT 3) <> hint 3%Z.
Proof.
  exists (fun _ => 0%Z), (fun z => z), 0%Z, Z.of_nat, (fun l => fold_right Z.add 1%Z l), Z.lxor.
  split; [reflexivity|]. vm_compute. discriminate.
Qed.
Print Assumptions C16_fixed_int_refuted.
