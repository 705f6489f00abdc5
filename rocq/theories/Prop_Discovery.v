(** C30-C36 and C46: the graph functions and [discover]. [sc] is any schedule (which element a
    set pops, in which order a set iterates), [so] any behaviour of Python's own parsers on
    strings. *)
From Verif Require Import Base Types Lexer Printer Construct Parser Ops Preds Numpy Graph Discovery
  Spec_Eq Spec_WF Spec_Graph Spec_Ops Spec_Discovery Spec_Dicts
  Proof_Graph Proof_Coerce Proof_Discovery Proof_Discovery2 Proof_Discovery3 Proof_Discovery4 Proof_Discovery5
  Tests_Discovery.
From Coq Require Import Permutation.
Local Open Scope Z_scope.

(** C30. The topological sort, for every graph (a dict of sets), every pop order, every
    iteration order (the order of the lists is arbitrary), every type of nodes. *)
Theorem C30_toposort : forall (A : Type) (eqb : A -> A -> bool),
  (forall a b, eqb a b = true <-> a = b) ->
  forall (g : list (A * list A)), DictOfSets g -> forall pop : nat -> nat,
    (exists l, toposort eqb pop g = Ok l /\ TopologicalOrder g l /\ ~ Cyclic g)
    \/ (toposort eqb pop g = Raise ValueErr /\ Cyclic g).
Proof. intros A eqb He g Hg pop. now apply toposort_correct. Qed.
Print Assumptions C30_toposort.
Theorem C30_toposort_raises : forall (A : Type) (eqb : A -> A -> bool),
  (forall a b, eqb a b = true <-> a = b) ->
  forall (g : list (A * list A)), DictOfSets g -> forall pop e,
    (toposort eqb pop g = Raise e <-> Cyclic g /\ e = ValueErr).
Proof.
  intros A eqb He g Hg pop e. destruct (toposort_correct eqb He g Hg pop) as [[l [E [_ N]]]|[E C]]; rewrite E.
  - split; [discriminate|]. intros [C _]. contradiction.
  - split; [intro H; inversion H; auto|]. intros [_ ->]. reflexivity.
Qed.
Print Assumptions C30_toposort_raises.
Example C30_acyclic : DictOfSets [(1%nat, [2; 3]%nat); (2%nat, [4%nat]); (3%nat, [4%nat])] /\
  toposort Nat.eqb (fun _ => 0%nat) [(1%nat, [2; 3]%nat); (2%nat, [4%nat]); (3%nat, [4%nat])] = Ok [1; 2; 3; 4]%nat /\
  toposort Nat.eqb (fun _ => 1%nat) [(1%nat, [2; 3]%nat); (2%nat, [4%nat]); (3%nat, [4%nat])] = Ok [1; 3; 2; 4]%nat.
Proof.
  split; [|vm_compute; auto]. split; [repeat constructor; simpl; intuition discriminate|].
  repeat constructor; simpl; intuition discriminate.
Qed.
Example C30_cyclic : toposort Nat.eqb (fun _ => 0%nat) [(1%nat, [2%nat]); (2%nat, [1%nat])] = Raise ValueErr.
Proof. vm_compute; reflexivity. Qed.
(** with a repeated successor in a tuple the function fails on an acyclic graph *)
Theorem C30_repeated_refuted : exists g : list (nat * list nat),
  ~ Cyclic g /\ forall pop, toposort Nat.eqb pop g = Raise AssertErr.
Proof.
  exists [(1%nat, [2; 2]%nat)]. split.
  - intros [a H].
    assert (E : forall x y, Edge [(1%nat, [2; 2]%nat)] x y -> x = 1%nat /\ y = 2%nat).
    { intros x y [l [[Hl|[]] Hy]]. inversion Hl; subst. simpl in Hy. intuition. }
    assert (F : forall x y, Relation_Operators.clos_trans nat (Edge [(1%nat, [2; 2]%nat)]) x y -> x = 1%nat /\ y = 2%nat).
    { intros x y C. induction C as [x y C|x y z _ [? ?] _ [? ?]]; [auto|]. auto. }
    destruct (F _ _ H). congruence.
  - intro pop. unfold toposort. simpl. unfold pop_at. simpl. reflexivity.
Qed.
Print Assumptions C30_repeated_refuted.

(** C31. descendents is reachability. *)
Theorem C31_descendents : forall (A : Type) (eqb : A -> A -> bool),
  (forall a b, eqb a b = true <-> a = b) ->
  forall (g : list (A * list A)), NoDup (map fst g) -> forall x,
    exists l, descendents eqb g x = Ok l /\ NoDup l /\ forall y, In y l <-> Reaches g x y.
Proof. intros A eqb He g Hg x. now apply descendents_correct. Qed.
Print Assumptions C31_descendents.
Example C31_cycle : descendents Nat.eqb [(1%nat, [2%nat]); (2%nat, [1; 3]%nat)] 2%nat = Ok [2; 1; 3]%nat.
Proof. vm_compute; reflexivity. Qed.

(** C32. The lowest common type: the least upper bound in the coercion order, whatever the
    schedule and the order of the list; ValueError as soon as one of the scalars is outside the
    coercion table. *)
Theorem C32_lowest_common : forall sc ts, ts <> [] -> Forall Known ts ->
  exists u, lowest_common sc ts = Ok u /\ Known u /\ IsLub ts u /\ forall v, IsLub ts v -> v = u.
Proof.
  intros sc ts N K. destruct (lowest_common_lub sc ts N K) as [u [E [Ku L]]]. exists u. repeat split; auto; try apply L.
  intros v Hv. eapply IsLub_unique; eauto.
Qed.
Print Assumptions C32_lowest_common.
Theorem C32_order_schedule : forall sc sc' ts us, ts <> [] -> Forall Known ts -> Permutation ts us ->
  lowest_common sc ts = lowest_common sc' us.
Proof. exact lowest_common_order. Qed.
Print Assumptions C32_order_schedule.
Theorem C32_unknown : forall sc ts, Forall Scalar ts -> ~ Forall Known ts ->
  lowest_common sc ts = Raise ValueErr.
Proof. exact lowest_common_unknown. Qed.
Print Assumptions C32_unknown.
Theorem C32_empty : forall sc, lowest_common sc [] = Raise TypeErr.
Proof. exact lowest_common_empty. Qed.
Print Assumptions C32_empty.
Example C32_cases : lowest_common sc0 [int32_t; float64_t] = Ok float64_t /\
  lowest_common sc1 [DateT; DateTimeT None; DateT] = Ok (DateTimeT None) /\
  lowest_common sc1 [bool_t; int32_t] = Ok string_t /\
  lowest_common sc0 [TimeT None; string_t] = Raise ValueErr.
Proof. vm_compute; auto. Qed.

(** C33. A column of scalar types: n * F where F is the column type of the specification. *)
Theorem C33_unite_base : forall sc ts, Forall Known ts -> exists F,
  unite_base sc ts = Ok (DataShapeT None [FixedT (Z.of_nat (length ts)); F]) /\
  ColumnType ts F /\ forall G, ColumnType ts G -> G = F.
Proof.
  intros sc ts K. destruct (unite_base_column sc (S (lsize ts)) ts K) as [F [E C]]. exists F.
  split; [exact E|]. split; [exact C|]. intros G H. eapply ColumnType_unique; eauto.
Qed.
Print Assumptions C33_unite_base.
Theorem C33_order : forall sc sc' ts us, Forall Known ts -> Permutation ts us ->
  unite_base sc ts = unite_base sc' us.
Proof. exact unite_base_order. Qed.
Print Assumptions C33_order.
Theorem C33_unknown : forall sc ts, Forall Scalar ts -> ~ Forall Known ts ->
  unite_base sc ts = Raise ValueErr.
Proof. exact unite_base_unknown. Qed.
Print Assumptions C33_unknown.
Example C33_cases : unite_base sc1 [int32_t; NullT; int64_t] = Ok (DataShapeT None [FixedT 3; OptionT int64_t]) /\
  unite_base sc1 [NullT; NullT] = Ok (DataShapeT None [FixedT 2; NullT]) /\
  unite_base sc0 [TimeT None; NullT] = Raise ValueErr.
Proof. vm_compute; auto. Qed.

(** C34. One entry per element. *)
Theorem C34_one_per_element : forall sc so k l t, l <> [] -> discover sc so (DSeq k l) = Ok t ->
  (exists r, t = DataShapeT None (FixedT (Z.of_nat (length l)) :: r)) \/
  (exists ds, t = TupleT ds /\ length ds = length l).
Proof. exact discover_one_per_element. Qed.
Print Assumptions C34_one_per_element.
Theorem C34_empty : forall sc so k, discover sc so (DSeq k []) = Ok (DataShapeT None [VarT; string_t]).
Proof. reflexivity. Qed.
Print Assumptions C34_empty.
(** a table: equally long rows of scalars; each column gets its column type, and the result is
    rows * columns * T when all columns have the type T, else rows * (T1, ..., Tw) *)
Theorem C34_table : forall sc so k (rows : list (seqkind * list dval)) w,
  rows <> [] -> Forall (fun r => fst r <> KSet) rows ->
  Forall (fun r => length (snd r) = w) rows ->
  Forall (fun r => Forall (fun v => exists t, discover sc so v = Ok t /\ Known t) (snd r)) rows ->
  exists Fs, length Fs = w /\
    (forall j F, nth_error Fs j = Some F -> exists ts,
       Forall2 (fun row t => exists v, nth_error (snd row) j = Some v /\ discover sc so v = Ok t) rows ts /\
       ColumnType ts F) /\
    ((exists F, Fs <> [] /\ (forall G, In G Fs -> G = F) /\
        discover sc so (DSeq k (map (fun r => DSeq (fst r) (snd r)) rows)) =
          Ok (DataShapeT None [FixedT (Z.of_nat (length rows)); FixedT (Z.of_nat w); F])) \/
     ((forall F, Fs <> [] -> exists G, In G Fs /\ G <> F) /\
        discover sc so (DSeq k (map (fun r => DSeq (fst r) (snd r)) rows)) =
          Ok (DataShapeT None [FixedT (Z.of_nat (length rows)); TupleT (map (fun F => DataShapeT None [F]) Fs)]))).
Proof. exact discover_table. Qed.
Print Assumptions C34_table.
(** discovery can fail on data all of whose elements are discoverable: a column that mixes a
    type outside the coercion table with anything else raises ValueError *)
Theorem C34_mixed_column : forall sc ts, Forall Scalar ts -> ~ Forall Known ts -> Forall WF ts -> Forall NoTypeSet ts ->
  (exists t u, In t ts /\ In u ts /\ py_eq t u = false) ->
  column_type sc (map Ok ts) = Raise ValueErr.
Proof. exact column_unknown. Qed.
Print Assumptions C34_mixed_column.
Theorem C34_total_refuted : exists so, forall sc,
  (exists t, discover sc so (L [DComplex]) = Ok t) /\ (exists t, discover sc so (L [DInt 1]) = Ok t) /\
  discover sc so (L [L [DComplex]; L [DInt 1]]) = Raise ValueErr /\
  discover sc so (L [L [DTime]; L [DNone]]) = Raise ValueErr.
Proof.
  exists so0. intro sc. rewrite !(discover_sched sc sc0). split; [eexists; vm_compute; reflexivity|].
  split; [eexists; vm_compute; reflexivity|]. vm_compute; auto.
Qed.
Print Assumptions C34_total_refuted.
Example C34_cases :
  disc0 (L [DInt 1; DFloat]) = Ok (TupleT [DataShapeT None [int64_t]; DataShapeT None [float64_t]]) /\
  disc0 (L [L [DInt 1]; L [DFloat]; L []]) = Ok (TupleT [DataShapeT None [FixedT 1; int64_t];
        DataShapeT None [FixedT 1; float64_t]; DataShapeT None [VarT; string_t]]) /\
  disc0 (L [L [DInt 1; DInt 2]; L [DInt 3]]) = Ok (DataShapeT None [FixedT 2; VarT; int64_t]).
Proof. vm_compute; auto. Qed.
(** strings on which [discover] raises instead of answering [string] *)
Theorem C34_strings_refuted :
  disc0 (S_ $"1 sss") = Raise IndexErr /\ disc0 (S_ $"99999999999999999999 s") = Raise OverflowErr.
Proof. vm_compute; auto. Qed.
Print Assumptions C34_strings_refuted.

(** C35. Dict order. *)
Theorem C35_order : forall sc so v w, SameData v w -> ValidDicts v -> discover sc so v = discover sc so w.
Proof. exact discover_order. Qed.
Print Assumptions C35_order.
Theorem C35_sorted : forall sc so k l t, k <> KOrdered -> NoDup (map fst l) ->
  discover sc so (DMap k l) = Ok t ->
  exists fs, t = RecordT fs /\ SortedStrs (map fst fs) /\ Permutation (map fst fs) (map fst l).
Proof. exact discover_dict_fields. Qed.
Print Assumptions C35_sorted.
(** an OrderedDict keeps the order of its items *)
Theorem C35_ordered : forall sc so l t, discover sc so (DMap KOrdered l) = Ok t ->
  exists fs, t = RecordT fs /\ map fst fs = map fst l.
Proof. exact discover_ordered_fields. Qed.
Print Assumptions C35_ordered.
(** each field has the type of its value *)
Theorem C35_fields : forall sc so k l t, NoDup (map fst l) ->
  discover sc so (DMap k l) = Ok t ->
  exists fs, t = RecordT fs /\ forall name v, In (name, v) l ->
    exists u F, discover sc so v = Ok u /\ In (name, F) fs /\ (F = u \/ exists n, u = DataShapeT n [F]).
Proof. exact discover_dict_types. Qed.
Print Assumptions C35_fields.
Example C35_case :
  SameData (L [D [($"b", DInt 1); ($"a", DNone)]]) (L [D [($"a", DNone); ($"b", DInt 1)]]) /\
  ValidDicts (L [D [($"b", DInt 1); ($"a", DNone)]]).
Proof.
  split.
  - apply sd_seq. constructor; [|constructor].
    apply sd_map with (l' := [($"a", DNone); ($"b", DInt 1)]); [discriminate|apply perm_swap|].
    repeat constructor.
  - apply vd_seq. repeat constructor; simpl; intuition discriminate.
Qed.

(** C36. Lists of dicts. *)
Theorem C36_list_of_dicts : forall sc so k (ds : list (mapkind * list (str * dval))),
  ds <> [] -> Forall (fun kd => fst kd <> KProxy) ds ->
  Forall (fun kd => NoDup (map fst (snd kd))) ds ->
  Forall (fun kd => Forall (fun kv => exists t, discover sc so (snd kv) = Ok t /\ Known t) (snd kd)) ds ->
  exists fs,
    discover sc so (DSeq k (map (fun kd => DMap (fst kd) (snd kd)) ds)) =
      Ok (DataShapeT None [FixedT (Z.of_nat (length ds)); RecordT fs]) /\
    SortedStrs (map fst fs) /\
    (forall name, In name (map fst fs) <-> exists kd, In kd ds /\ In name (map fst (snd kd))) /\
    (forall name F, In (name, F) fs ->
       exists ts, Forall2 (fun kd t => EntryType (discover sc so) name (snd kd) t) ds ts /\ ColumnType ts F).
Proof. exact discover_list_of_dicts. Qed.
Print Assumptions C36_list_of_dicts.
Example C36_case :
  disc0 (L [D [($"b", DInt 1)]; D [($"a", DFloat); ($"b", DFloat)]]) =
  Ok (DataShapeT None [FixedT 2; RecordT [($"a", OptionT float64_t); ($"b", float64_t)]]).
Proof. vm_compute; reflexivity. Qed.
(** one level down, fields are lost: [[{'a': 1}], [{'b': 1}]] gives 2 * 1 * {a: ?int64} *)
Theorem C36_nested_refuted : exists so, forall sc,
  discover sc so (L [L [D [($"a", DInt 1)]]; L [D [($"b", DInt 1)]]]) =
  Ok (DataShapeT None [FixedT 2; FixedT 1; RecordT [($"a", OptionT int64_t)]]).
Proof. exists so0. intro sc. rewrite (discover_sched sc sc0). vm_compute; reflexivity. Qed.
Print Assumptions C36_nested_refuted.

(** C46. The result of [discover] does not depend on the schedule (hash seeds, pop orders). *)
Theorem C46_schedule : forall sc sc' so v, discover sc so v = discover sc' so v.
Proof. exact discover_sched. Qed.
Print Assumptions C46_schedule.
(** although the order of the types it is computed from does *)
Example C46_orders_differ : toposorted sc0 <> toposorted sc1.
Proof. vm_compute. discriminate. Qed.
(** discovery of a Python set does depend on its iteration order *)
Theorem C46_set_order_refuted : exists a b,
  disc0 (DSeq KSet [a; b]) <> disc0 (DSeq KSet [b; a]).
Proof. exists (DInt 1), DFloat. vm_compute. discriminate. Qed.
Print Assumptions C46_set_order_refuted.
