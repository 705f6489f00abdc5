(** C47: what [discover] returns. [sc], [so]: as in Prop_Discovery.v. *)
From Verif Require Import Base Types Lexer Printer Construct Parser Ops Preds Numpy Graph Discovery
  Spec_WF Spec_Preds Spec_Print Spec_Found Proof_Parser Proof_Discovery6 Proof_Discovery7 Prop_Parser Prop_Grammar
  Tests_Parser Tests_Discovery.
Local Open Scope Z_scope.

(** For every value: a well-formed, concrete type all of whose field names come from the
    value, or one of Python's exceptions; the recursion always ends. *)
Theorem C47_discover_finds : forall sc so v, dates_ok so -> Finds v (discover sc so v).
Proof. exact discover_finds. Qed.
Print Assumptions C47_discover_finds.
(** what is found can be printed and read back *)
Theorem C47_roundtrip : forall sc so E v t, dates_ok so -> disc_ok E ->
  (forall n, KeyOf n v -> PrintableName (e_uni E) n) -> discover sc so v = Ok t ->
  exists t', dshape E (py_str (e_uni E) t) = Ok t' /\ py_eq t' t = true /\ py_eq t t' = true.
Proof. exact discover_roundtrip. Qed.
Print Assumptions C47_roundtrip.
(** ... and is the same object when it is an array *)
Theorem C47_roundtrip_array : forall sc so E v n ps, dates_ok so -> disc_ok E ->
  (forall n, KeyOf n v -> PrintableName (e_uni E) n) -> discover sc so v = Ok (DataShapeT n ps) ->
  dshape E (py_str (e_uni E) (DataShapeT n ps)) = Ok (DataShapeT n ps).
Proof. exact discover_roundtrip_exact. Qed.
Print Assumptions C47_roundtrip_array.
(** a key that cannot be printed breaks the round trip *)
Theorem C47_backslash_refuted :
  let v := DMap KDict [($"a\b", DInt 1)] in
  exists t, disc0 v = Ok t /\
    match dshape E0 (py_str U0 t) with Ok t' => py_eq t' t = false | Raise _ => True end.
Proof.
  exists (RecordT [($"a\b", int64_t)]). split; [vm_compute; reflexivity|].
  vm_compute. first [reflexivity|exact I].
Qed.
Print Assumptions C47_backslash_refuted.

(** The parser with the real [discover] in the place of the oracle: the assumption [disc_ok] of
    the theorems on [dshape] holds. *)
Theorem C47_environment : forall U sc so, dates_ok so -> disc_ok (full_env U sc so).
Proof. exact full_env_ok. Qed.
Print Assumptions C47_environment.
(** so parsing always ends, with a well-formed datashape or an exception... *)
Theorem C47_dshape_total : forall U sc so s, dates_ok so ->
  match dshape (full_env U sc so) s with
  | Ok t => WF t /\ NoTypeSet t /\ IsDataShape t
  | Raise e => e <> OutOfFuel
  end.
Proof.
  intros U sc so s Hso. pose proof (full_env_ok U sc so Hso) as HE.
  pose proof (C04_dshape_total (full_env U sc so) s HE) as H1.
  destruct (dshape (full_env U sc so) s) as [t|e] eqn:E.
  - destruct (C07_parse_wf _ s t HE E) as [? [? ?]]. auto.
  - intros ->. destruct H1 as [[t [H _]]|[e [H N]]]; [discriminate|]. apply N. congruence.
Qed.
Print Assumptions C47_dshape_total.

(** a list of dicts with a missing key, nested lists and an array *)
Definition found_val : dval :=
  L [D [($"name", S_ $"Alice"); ($"xs", L [DInt 1; DFloat])];
     D [($"name", S_ $"Bob"); ($"z z", DArr [2; 3] (NStruct [($"re", ([], NFloat F64)); ($"im", ([2], NSwap (NFloat F64)))]) (fun _ => false))]].
(* the names in a value, as a list, for the example *)
Fixpoint np_names (d : npdt) : list str :=
  match d with
  | NStruct l => flat_map (fun f : str * (list Z * npdt) => fst f :: np_names (snd (snd f))) l
  | NSwap d => np_names d
  | _ => []
  end.
Fixpoint keys (v : dval) : list str :=
  match v with
  | DMap _ l => flat_map (fun kv : str * dval => fst kv :: keys (snd kv)) l
  | DSeq _ l => flat_map keys l
  | DArr _ dt _ | DLike _ dt => np_names dt
  | _ => []
  end.
Lemma np_names_In n d : NpField n d -> In n (np_names d).
Proof.
  induction 1 as [l shp d H|m l shp d H _ IH|d _ IH]; cbn [np_names]; auto; apply in_flat_map.
  - exists (n, (shp, d)). split; auto. left; auto.
  - exists (m, (shp, d)). split; auto. right; auto.
Qed.
Lemma keys_In n v : KeyOf n v -> In n (keys v).
Proof.
  induction 1 as [k l x H|k l m x H _ IH|k l x H _ IH|shp dt strs H|shp dt H]; cbn [keys]; try apply in_flat_map.
  - exists (n, x). split; auto. left; auto.
  - exists (m, x). split; auto. right; auto.
  - exists x. auto.
  - now apply np_names_In.
  - now apply np_names_In.
Qed.
Example C47_case : dates_ok so0 /\ (forall n, KeyOf n found_val -> PrintableName U0 n) /\
  (exists t, disc0 found_val = Ok t /\ is (dshape (full_env U0 sc1 so0) (py_str U0 t)) t = true).
Proof.
  split; [|split].
  - intro s. cbn. destruct (str_eqb _ _); [exact I|]. destruct (str_eqb _ _); exact I.
  - assert (I1 : forall s, forallb (fun c => is_lower c) s = true -> s <> [] -> PrintableName U0 s).
    { intros s H N. left. destruct s as [|c r]; [congruence|]. cbn in H. apply andb_true_iff in H as [H1 H2]. split.
      - constructor; [now rewrite H1|]. apply Forall_forall. intros x Hx. rewrite forallb_forall in H2. specialize (H2 x Hx).
        unfold is_name_char. now rewrite H2.
      - intros [[q E]|[q E]]; injection E as -> _; discriminate. }
    intros n H.
    assert (X : In n [$"name"; $"xs"; $"z z"; $"re"; $"im"]).
    { apply keys_In in H. vm_compute in H. vm_compute. intuition. }
    destruct X as [<-|[<-|[<-|[<-|[<-|[]]]]]]; try (apply I1; [reflexivity|discriminate]).
    right. split; [|split].
    + intro HI. inversion HI as [c r _ H2]; subst. rewrite Forall_forall in H2. specialize (H2 32%N). discriminate H2. simpl; auto.
    + intros m HI. exfalso. assert (X : last $"z z" 0%N = last (m ++ [10%N]) 0%N) by (f_equal; exact HI). rewrite last_last in X. discriminate.
    + apply Forall_forall. intros c [<-|[<-|[<-|[]]]]; left; (split; [split; vm_compute; discriminate|vm_compute; discriminate]).
  - destruct (disc0 found_val) as [t|e] eqn:E; [|vm_compute in E; discriminate].
    exists t. split; [reflexivity|]. vm_compute in E. injection E as <-. vm_compute. reflexivity.
Qed.

(** C48. [discover] never fails on values whose leaves have a type of the coercion graph,
    however they are nested in sequences and mappings, ... *)
From Verif Require Import Spec_Discovery Proof_Discovery8.
Theorem C48_total : forall sc so v, Nested (KnownLeaf sc so) v -> exists t, discover sc so v = Ok t.
Proof. exact discover_total. Qed.
Print Assumptions C48_total.
(** ... such as None, integers, floats, booleans, dates, time differences, *)
Theorem C48_scalars : forall sc so v,
  match v with DNone | DInt _ | DBool _ | DFloat | DDateTime | DDate | DTimeDelta => True | _ => False end ->
  KnownLeaf sc so v.
Proof.
  intros sc so v Hv. destruct v; try contradiction; (eexists; split; [reflexivity|unfold Known; simpl; tauto]).
Qed.
Print Assumptions C48_scalars.
(** and the strings that do not read as a time or as an amount followed by a unit. *)
Theorem C48_strings : forall sc so s,
  so_time so s = false -> (forall a b, words [] s <> [a; b]) ->
  (forall e, so_date so s = Raise e -> e = ValueErr \/ e = OverflowErr) ->
  KnownLeaf sc so (DStr s).
Proof.
  intros sc so s H1 H2 H3.
  unfold KnownLeaf. cbn [discover]. unfold discover_str. destruct s as [|c s]; [eexists; split; [reflexivity|unfold Known; simpl; tauto]|].
  destruct (so_int so _); cbn [or_else]; [eexists; split; [reflexivity|unfold Known; simpl; tauto]|].
  destruct (so_float so _); cbn [or_else]; [eexists; split; [reflexivity|unfold Known; simpl; tauto]|].
  destruct (mem_str _ _); cbn [or_else]; [eexists; split; [reflexivity|unfold Known; simpl; tauto]|].
  assert (E : deltaparse so (c :: s) = Raise ValueErr).
  { unfold deltaparse. destruct (words [] (c :: s)) as [|a [|b [|]]] eqn:E; try reflexivity. exfalso. exact (H2 a b eq_refl). }
  rewrite E. cbn [or_else]. rewrite H1. cbn [or_else].
  destruct (_ || _); [eexists; split; [reflexivity|unfold Known; simpl; tauto]|].
  destruct (so_date so (c :: s)) as [[]|e]; [eexists; split; [reflexivity|unfold Known; simpl; tauto]..|].
  destruct (H3 e eq_refl) as [-> | ->]; (eexists; split; [reflexivity|unfold Known; simpl; tauto]).
Qed.
Print Assumptions C48_strings.
(** On any other value, it returns a type, or raises what one of the leaves raises on its own,
    or raises ValueError because of a leaf whose type is not in the coercion graph. *)
Theorem C48_cause : forall sc so v e, dates_ok so -> Nested (fun _ => True) v -> discover sc so v = Raise e ->
  (exists x, LeafOf x v /\ discover sc so x = Raise e) \/
  (e = ValueErr /\ exists x t, LeafOf x v /\ discover sc so x = Ok t /\ ~ Known t).
Proof. exact discover_cause. Qed.
Print Assumptions C48_cause.
(** The leaves that raise on their own: strings that read as an amount and a unit (IndexError or
    OverflowError) or that dateutil rejects with an exception other than ValueError, arrays whose
    dtype is not supported, objects without a registered [discover]. *)
Theorem C48_leaf_errors : forall sc so v e, IsLeaf v -> discover sc so v = Raise e ->
  match v with
  | DStr s => e = IndexErr \/ e = OverflowErr \/ so_date so s = Raise e
  | DArr _ _ _ | DLike _ _ => True
  | DOther => e = NotImplErr
  | _ => False
  end.
Proof. exact leaf_errors. Qed.
Print Assumptions C48_leaf_errors.
(** strings on which it raises, instead of giving [string] *)
Theorem C48_delta_refuted :
  disc0 (S_ $"5 sss") = Raise IndexErr /\ disc0 (L [S_ $"x"; S_ $"5 sss"]) = Raise IndexErr.
Proof. split; vm_compute; reflexivity. Qed.
Print Assumptions C48_delta_refuted.
(** Not for every value: tables with a complex column entry, a time or a time difference
    beside another scalar make it raise ValueError (instead of giving a tuple, as lists that
    are not tables do), for every schedule. *)
Theorem C48_complex_refuted : forall sc so,
  discover sc so (L [T_ [DInt 1]; T_ [DComplex]]) = Raise ValueErr /\
  discover sc so (L [DInt 1; DComplex]) = Ok (TupleT [DataShapeT None [int64_t]; DataShapeT None [complex128_t]]).
Proof.
  intros sc so. split; [|reflexivity].
  rewrite (Proof_Discovery4.discover_sched sc sc0 so). vm_compute. reflexivity.
Qed.
Print Assumptions C48_complex_refuted.
Theorem C48_times_refuted :
  disc0 (L [T_ [S_ $"12:00:01"]; T_ [DInt 1]]) = Raise ValueErr /\
  disc0 (L [D [($"a", S_ $"5 days")]; D [($"a", S_ $"x")]]) = Raise ValueErr /\
  disc0 (L [D [($"a", S_ $"5 days")]; D [($"a", S_ $"5 hours")]]) = Raise ValueErr.
Proof. split; [|split]; vm_compute; reflexivity. Qed.
Print Assumptions C48_times_refuted.
(** rows of different types, a list of dicts with different keys *)
Definition nested_val : dval := L [T_ [DInt 1; L [D [($"a", DNone)]; D [($"b", S_ $"x y z")]]]; T_ [DFloat; D []]].
Example C48_case : Nested (KnownLeaf sc0 so0) nested_val /\ LeafOf DFloat nested_val /\
  Nested (fun _ => True) (L [T_ [DInt 1]; T_ [DComplex]]) /\ ~ Known complex128_t.
Proof.
  assert (Sc : forall v, match v with DNone | DInt _ | DBool _ | DFloat | DDateTime | DDate | DTimeDelta => True | _ => False end ->
    Nested (KnownLeaf sc0 so0) v).
  { intros v Hv. apply Nested_leaf; [destruct v; try contradiction; exact I|apply C48_scalars; exact Hv]. }
  assert (SX : Nested (KnownLeaf sc0 so0) (S_ $"x y z")).
  { apply Nested_leaf; [exact I|]. apply C48_strings; [reflexivity|intros a b; vm_compute; discriminate|vm_compute; intros e H; injection H as <-; auto]. }
  split; [|split; [|split]].
  - unfold nested_val. repeat first [apply Sc; exact I|exact SX|apply Nested_seq|apply Nested_map|constructor; [simpl; tauto|]|constructor].
  - eapply Leaf_seq; [right; left; reflexivity|]. eapply Leaf_seq; [left; reflexivity|]. constructor. exact I.
  - repeat first [apply Nested_seq|apply Nested_leaf; exact I|constructor].
  - unfold Known. simpl. intuition discriminate.
Qed.

(** C49. Arrays: for every shape, dtype and content of the object columns, [discover] gives
    the dimensions of the array and the type the dtype describes, in which exactly the object
    columns for which [strs] says so have become [string] (Prop_Arrays.v: which ones these are). *)
From Verif Require Import Spec_Numpy Proof_Numpy Proof_Discovery9.
Theorem C49_array : forall sc so shp dt strs m,
  from_numpy [] dt = Ok m -> Forall (fun z => 0 <= z) shp ->
  exists t, discover sc so (DArr shp dt strs) = Ok t /\
    shape t = map FixedT shp /\ Described strs m (measure t).
Proof. exact discover_array. Qed.
Print Assumptions C49_array.
(** In particular for the dtypes that have an exact type (C27), and for NumPy scalars and
    other objects with a shape and a dtype. *)
Theorem C49_exact : forall sc so shp dt strs m, Exact dt m -> Forall (fun z => 0 <= z) shp ->
  exists t, discover sc so (DArr shp dt strs) = Ok t /\
    shape t = map FixedT shp /\ Described strs m (measure t).
Proof.
  intros sc so shp dt strs m H Hs. apply discover_array; [|exact Hs]. exact (proj1 (numpy_roundtrip [] dt m H (Forall_nil _))).
Qed.
Print Assumptions C49_exact.
Theorem C49_like : forall sc so shp dt m, Exact dt m -> Forall (fun z => 0 <= z) shp ->
  discover sc so (DLike shp dt) = Ok (Spec_Numpy.array_of shp m).
Proof. intros sc so shp dt m H Hs. exact (proj1 (numpy_roundtrip shp dt m H Hs)). Qed.
Print Assumptions C49_like.
(** the type is determined *)
Theorem C49_deterministic : forall strs m t t', Described strs m t -> Described strs m t' -> t = t'.
Proof.
  assert (T : forall strs c m t t', text_column strs c m t -> text_column strs c m t' -> t = t').
  { intros strs c m t t' [[A [B ->]]|[A ->]] [[A' [B' ->]]|[A' ->]]; auto; exfalso;
      [rewrite (A' A) in B|rewrite (A A') in B']; discriminate. }
  intros strs m t t' H1 H2. destruct H1 as [fs gs F|m m' N Tm]; inversion H2 as [fs' gs' F'|m0 m1 N' Tm']; subst.
  - f_equal. clear H2. revert gs' F'. induction F as [|f g fs gs [A B] _ IH]; intros gs' F'; inversion F' as [|? g' ? gs2 [A' B'] F2]; subst; auto.
    f_equal; [|auto]. destruct g, g'; cbn in *. subst. f_equal. eapply T; eauto.
  - exfalso. eapply N'; reflexivity.
  - exfalso. eapply N; reflexivity.
  - eapply T; eauto.
Qed.
Print Assumptions C49_deterministic.
Definition arr_dt : npdt := NStruct [($"id", ([], NInt B32)); ($"name", ([], NObject)); ($"blob", ([], NObject))].
Definition arr_strs (c : option str) : bool := match c with Some n => str_eqb n $"name" | None => true end.
Example C49_case : exists m, from_numpy [] arr_dt = Ok m /\ Exact arr_dt m /\
  disc0 (DArr [4; 0] arr_dt arr_strs) =
  Ok (DataShapeT None [FixedT 4; FixedT 0; RecordT [($"id", int32_t); ($"name", string_t); ($"blob", object_t)]]).
Proof.
  exists (RecordT [($"id", int32_t); ($"name", object_t); ($"blob", object_t)]).
  split; [vm_compute; reflexivity|]. split; [|vm_compute; reflexivity].
  apply (ExStruct [$"id"; $"name"; $"blob"] [NInt B32; NObject; NObject] [int32_t; object_t; object_t]).
  - discriminate.
  - apply nodup_str_NoDup. reflexivity.
  - intros [H|[H|[H|[]]]]; discriminate.
  - reflexivity.
  - repeat constructor.
Qed.
