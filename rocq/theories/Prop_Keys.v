(** C72: [discover] on dicts whose keys need not be strings. [sc], [so]: as in Prop_Discovery.v. *)
From Verif Require Import Base Types Lexer Printer Construct Parser Ops Preds Numpy Graph Discovery Keys
  Spec_Discovery Spec_WF Spec_Print Spec_Found Spec_Dicts Spec_Keys Proof_Parser Proof_Keys Proof_Keys2 Proof_Keys3 Proof_Keys4 Tests_Parser Tests_Discovery.
From Coq Require Import Permutation Sorting.Sorted.
Local Open Scope Z_scope.

(** On values all of whose keys are strings this is the [discover] of the other theorems. *)
Theorem C72_string_keys : forall sc so v, kdiscover sc so (lift v) = discover sc so v.
Proof. exact kdiscover_lift. Qed.
Print Assumptions C72_string_keys.
(** A dict (or mapping proxy) whose keys can be compared: one field per key, in ascending order
    of the keys, named by [str(key)] - never a duplicate - and typed by its value; the first
    value in that order that cannot be typed decides the exception. *)
Theorem C72_dict : forall sc so k d,
  k <> KOrdered -> Different (map fst d) -> Sortable (map fst d) ->
  exists d', Permutation d d' /\ StronglySorted KeyLt (map fst d') /\
    ((exists fs, Fields (kdiscover sc so) d' (Ok fs) /\ kdiscover sc so (KMap k d) = Ok (RecordT fs)) \/
     (exists e, Fields (kdiscover sc so) d' (Raise e) /\ kdiscover sc so (KMap k d) = Raise e)).
Proof. exact kdiscover_dict. Qed.
Print Assumptions C72_dict.
(** Two keys that cannot be compared: TypeError, whatever the values. *)
Theorem C72_dict_unsortable : forall sc so k d,
  k <> KOrdered -> ~ Sortable (map fst d) -> kdiscover sc so (KMap k d) = Raise TypeErr.
Proof. exact kdiscover_unsortable. Qed.
Print Assumptions C72_dict_unsortable.
(** The insertion order of a dict does not matter. *)
Theorem C72_insertion_order : forall sc so k d d',
  k <> KOrdered -> Different (map fst d) -> Permutation d d' ->
  kdiscover sc so (KMap k d) = kdiscover sc so (KMap k d').
Proof. exact kdiscover_order. Qed.
Print Assumptions C72_insertion_order.
(** ... at any depth, also in lists of dicts (the order of sequences and OrderedDicts counts). *)
Theorem C72_deep_order : forall sc so v w,
  SameKeyData v w -> ValidKeys v -> kdiscover sc so v = kdiscover sc so w.
Proof. exact kdiscover_deep_order. Qed.
Print Assumptions C72_deep_order.
(** An OrderedDict is not sorted: its own order, any mixture of keys, but a ValueError when two
    keys have the same [str]. *)
Theorem C72_ordered : forall sc so d,
  (exists fs, Fields (kdiscover sc so) d (Ok fs) /\
     ((NoDup (map fst fs) /\ kdiscover sc so (KMap KOrdered d) = Ok (RecordT fs)) \/
      (~ NoDup (map fst fs) /\ kdiscover sc so (KMap KOrdered d) = Raise ValueErr))) \/
  (exists e, Fields (kdiscover sc so) d (Raise e) /\ kdiscover sc so (KMap KOrdered d) = Raise e).
Proof. exact kdiscover_ordered. Qed.
Print Assumptions C72_ordered.
(** A list of dicts of scalars whose keys can all be compared: a record with one field for every
    key, in ascending order; of equal keys the one met first names the field; each column as for
    string keys. *)
Theorem C72_list : forall sc so k (ds : list (mapkind * list (key * kval))),
  ds <> [] -> Forall (fun x => fst x <> KProxy) ds ->
  Sortable (flat_map (fun x => map fst (snd x)) ds) ->
  Forall (fun x => Forall (fun kv => exists t, kdiscover sc so (snd kv) = Ok t /\ Known t) (snd x)) ds ->
  exists keys fs,
    kdiscover sc so (KSeq k (map (fun x => KMap (fst x) (snd x)) ds)) =
      Ok (DataShapeT None [FixedT (Z.of_nat (length ds)); RecordT fs]) /\
    StronglySorted KeyLt keys /\
    (forall x, In x keys <-> FirstOf (flat_map (fun x => map fst (snd x)) ds) x) /\
    Forall2 (fun key f => KeyName key (fst f) /\
      exists ts, Forall2 (fun x t => KeyEntry (kdiscover sc so) key (snd x) t) ds ts /\
        ColumnType ts (snd f)) keys fs.
Proof. exact kdiscover_list. Qed.
Print Assumptions C72_list.
(** ... and TypeError when two of them cannot be compared, also when each dict alone is fine *)
Theorem C72_list_unsortable : forall sc so k (ds : list (mapkind * list (key * kval))),
  ds <> [] -> Forall (fun x => fst x <> KProxy) ds ->
  ~ Sortable (flat_map (fun x => map fst (snd x)) ds) ->
  kdiscover sc so (KSeq k (map (fun x => KMap (fst x) (snd x)) ds)) = Raise TypeErr.
Proof. exact kdiscover_list_unsortable. Qed.
Print Assumptions C72_list_unsortable.
(** Different keys always get different names in such a record, but a name does not tell the
    key: [{1: 5}] and [{'1': 5}] have the same datashape, and [[{True: 5}, {1: 6}]] and
    [[{1: 6}, {True: 5}]] different ones. *)
Theorem C72_same_name : forall sc so z v,
  kdiscover sc so (KMap KDict [(KyInt z, v)]) = kdiscover sc so (KMap KDict [(KyStr (z2s z), v)]).
Proof. intros sc so z v. reflexivity. Qed.
Print Assumptions C72_same_name.
Theorem C72_first_key_refuted : exists so, forall sc,
  kdiscover sc so (KSeq KList [KMap KDict [(KyBool true, KV (DInt 5))]; KMap KDict [(KyInt 1, KV (DInt 6))]]) =
    Ok (DataShapeT None [FixedT 2; RecordT [($"True", int64_t)]]) /\
  kdiscover sc so (KSeq KList [KMap KDict [(KyInt 1, KV (DInt 6))]; KMap KDict [(KyBool true, KV (DInt 5))]]) =
    Ok (DataShapeT None [FixedT 2; RecordT [($"1", int64_t)]]).
Proof. exists so0. intro sc. split; vm_compute; reflexivity. Qed.
Print Assumptions C72_first_key_refuted.

(** Whatever the keys: a well-formed, concrete type all of whose field names are names of keys of
    the value (or of array fields), or one of Python's exceptions. *)
Theorem C72_finds : forall sc so v, dates_ok so -> KFinds v (kdiscover sc so v).
Proof. exact kdiscover_finds. Qed.
Print Assumptions C72_finds.
(** It can be printed and read back when the names can be... *)
Theorem C72_roundtrip : forall sc so E v t, dates_ok so -> disc_ok E ->
  (forall n, KKeyOf n v -> PrintableName (e_uni E) n) -> kdiscover sc so v = Ok t ->
  exists t', dshape E (py_str (e_uni E) t) = Ok t' /\ py_eq t' t = true /\ py_eq t t' = true.
Proof. exact kdiscover_roundtrip. Qed.
Print Assumptions C72_roundtrip.
(** ... which the names of ints and of None always can ... *)
Theorem C72_printable_names : forall U k n, KeyName k n ->
  match k with KyInt _ | KyNone => True | _ => False end -> PrintableName U n.
Proof. intros U k n [z| | |s|] H; try contradiction; [apply number_printable|apply none_printable]. Qed.
Print Assumptions C72_printable_names.
(** ... and those of bools never. *)
Theorem C72_bool_key_refuted : exists so, forall sc b, exists t,
  kdiscover sc so (KMap KDict [(KyBool b, KV (DInt 5))]) = Ok t /\
  match dshape E0 (py_str U0 t) with Raise (SyntaxErr _ _) => True | _ => False end.
Proof.
  exists so0. intros sc b. destruct b.
  - exists (RecordT [($"True", int64_t)]). split; [vm_compute; reflexivity|]. vm_compute. exact Logic.I.
  - exists (RecordT [($"False", int64_t)]). split; [vm_compute; reflexivity|]. vm_compute. exact Logic.I.
Qed.
Print Assumptions C72_bool_key_refuted.

(** ** the hypotheses can be met *)
Example ex_print :
  let v := KMap KDict [(KyInt 10, KV (DInt 1)); (KyInt (-3), KMap KDict [(KyNone, KV DFloat)])] in
  kdiscover sc0 so0 v = Ok (RecordT [($"-3", RecordT [($"None", float64_t)]); ($"10", int64_t)]) /\
  (forall n, KKeyOf n v -> PrintableName U0 n) /\
  py_str U0 (RecordT [($"-3", RecordT [($"None", float64_t)]); ($"10", int64_t)]) = $"{'-3': {None: float64}, '10': int64}".
Proof.
  split; [vm_compute; reflexivity|]. split; [|vm_compute; reflexivity].
  assert (HV : forall n v, KKeyOf n (KV v) -> v = DFloat \/ v = DInt 1 -> PrintableName U0 n).
  { intros n v H E. inversion H as [? K| | |]; subst. destruct E as [-> | ->]; inversion K. }
  intros n H. inversion H as [|? ? a x Hin K|? ? a x Hin K|]; subst.
  - apply (C72_printable_names U0 a n K). destruct Hin as [E|[E|[]]]; injection E as <- _; exact Logic.I.
  - destruct Hin as [E|[E|[]]]; injection E as <- <-; [apply (HV _ _ K); auto|].
    inversion K as [|? ? a x Hin K'|? ? a x Hin K'|]; subst.
    + apply (C72_printable_names U0 a n K'). destruct Hin as [E|[]]; injection E as <- _; exact Logic.I.
    + destruct Hin as [E|[]]; injection E as <- <-. apply (HV _ _ K'); auto.
Qed.
Definition KI (z : Z) : kval := KV (DInt z).
Definition kdisc0 := kdiscover sc0 so0.
Example ex_numbers :
  let d := [(KyInt 10, KI 1); (KyBool true, KV DNone); (KyInt (-3), KMap KDict [(KyStr $"b", KI 1); (KyStr $"a", KV DFloat)])] in
  Different (map fst d) /\ Sortable (map fst d) /\
  kdisc0 (KMap KDict d) = Ok (RecordT [($"-3", RecordT [($"a", float64_t); ($"b", int64_t)]); ($"True", NullT); ($"10", int64_t)]).
Proof.
  intro d. split; [|split; [|vm_compute; reflexivity]].
  - repeat (apply FOP_cons; [repeat (apply Forall_cons; [intro H; apply key_eqb_spec in H; discriminate|]); apply Forall_nil|]). apply FOP_nil.
  - intros a b Ha Hb. apply cmpb_spec. cbn in Ha, Hb.
    repeat (destruct Ha as [<-|Ha]; [repeat (destruct Hb as [<-|Hb]; [reflexivity|]); destruct Hb|]). destruct Ha.
Qed.
Example ex_mixed : ~ Sortable [KyInt 1; KyStr $"a"] /\
  kdisc0 (KMap KDict [(KyInt 1, KV DOther); (KyStr $"a", KI 1)]) = Raise TypeErr /\
  kdisc0 (KMap KOrdered [(KyInt 1, KI 1); (KyStr $"a", KI 1)]) = Ok (RecordT [($"1", int64_t); ($"a", int64_t)]) /\
  kdisc0 (KMap KOrdered [(KyInt 1, KI 1); (KyStr $"1", KI 1)]) = Raise ValueErr.
Proof.
  split; [|split; [|split]; vm_compute; reflexivity].
  intro S. destruct (S (KyInt 1) (KyStr $"a")) as [H|H].
  - now left.
  - right. now left.
  - apply key_eqb_spec in H. discriminate.
  - assert (C : cmpb (KyInt 1) (KyStr $"a") = true) by (apply cmpb_spec; auto). discriminate.
Qed.
Example ex_list :
  kdisc0 (KSeq KList [KMap KDict [(KyInt 2, KI 1); (KyBool false, KI 7)]; KMap KOrdered [(KyInt 0, KV DFloat); (KyInt 1, KI 1)]]) =
  Ok (DataShapeT None [FixedT 2; RecordT [($"False", float64_t); ($"1", OptionT int64_t); ($"2", OptionT int64_t)]]) /\
  kdisc0 (KSeq KList [KMap KDict [(KyInt 2, KI 1)]; KMap KDict [(KyStr $"a", KI 1)]]) = Raise TypeErr.
Proof. split; vm_compute; reflexivity. Qed.

Example ex_deep :
  let d1 := [(KyInt 10, KI 1); (KyBool true, KI 2)] in let d2 := [(KyBool true, KI 2); (KyInt 10, KI 1)] in
  let d3 := [(KyStr $"b", KI 1); (KyStr $"a", KI 2)] in let d4 := [(KyStr $"a", KI 2); (KyStr $"b", KI 1)] in
  let v := KSeq KList [KMap KDict [(KyInt 0, KMap KDict d1)]; KMap KDict [(KyInt 0, KMap KDict d3)]] in
  let w := KSeq KList [KMap KDict [(KyInt 0, KMap KDict d2)]; KMap KDict [(KyInt 0, KMap KDict d4)]] in
  SameKeyData v w /\ ValidKeys v /\ v <> w.
Proof.
  assert (R : forall d : list (key * kval), Forall2 (fun x y => fst x = fst y /\ SameKeyData (snd x) (snd y)) d d).
  { induction d as [|x d IH]; [apply Forall2_nil|]. apply Forall2_cons; [split; [reflexivity|apply skd_refl]|exact IH]. }
  assert (VI : forall z, ValidKeys (KI z)) by (intro z; apply vk_value, vd_atom; exact Logic.I).
  assert (V2 : forall a b x y, key_eqb a b = false -> ValidKeys (KMap KDict [(a, KI x); (b, KI y)])).
  { intros a b x y N. apply vk_map.
    - apply FOP_cons; [|apply FOP_cons; [apply Forall_nil|apply FOP_nil]]. apply Forall_cons; [|apply Forall_nil].
      intro X. apply (proj2 (key_eqb_spec a b)) in X. rewrite X in N. discriminate N.
    - apply Forall_cons; [apply VI|]. apply Forall_cons; [apply VI|apply Forall_nil]. }
  assert (V1 : forall a x, ValidKeys x -> ValidKeys (KMap KDict [(a, x)])).
  { intros a x Hx. apply vk_map; [apply FOP_cons; [apply Forall_nil|apply FOP_nil]|].
    apply Forall_cons; [exact Hx|apply Forall_nil]. }
  assert (S1 : forall a x y, SameKeyData x y -> SameKeyData (KMap KDict [(a, x)]) (KMap KDict [(a, y)])).
  { intros a x y Hx. eapply skd_map; [discriminate|apply Permutation_refl|].
    apply Forall2_cons; [split; [reflexivity|exact Hx]|apply Forall2_nil]. }
  assert (S2 : forall x y, SameKeyData (KMap KDict [x; y]) (KMap KDict [y; x])).
  { intros x y. eapply skd_map; [discriminate|apply perm_swap|apply R]. }
  intros d1 d2 d3 d4 v w. split; [|split].
  - apply skd_seq. apply Forall2_cons; [apply S1, S2|]. apply Forall2_cons; [apply S1, S2|apply Forall2_nil].
  - apply vk_seq. apply Forall_cons; [apply V1, V2; reflexivity|]. apply Forall_cons; [apply V1, V2; reflexivity|apply Forall_nil].
  - discriminate.
Qed.
