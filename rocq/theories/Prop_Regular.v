(** C62: regular data. [discover] finds the datashape one would write down, and [validate]
    accepts the data for it. *)
From Verif Require Import Base Types Lexer Printer Construct Numpy Graph Discovery User Tests_Discovery
  Spec_WF Spec_Ops Spec_User Spec_Discovery Spec_Found Spec_Regular Proof_WF Proof_Regular Proof_Regular2 Proof_Regular3
  Prop_Found Prop_User.
Local Open Scope Z_scope.

(** Equally typed items make an array, items of different types a tuple, a dict a record, at any depth. *)
Theorem C62_recovers : forall sc so t v, dates_ok so ->
  Regular (fun x u => discover sc so x = Ok u) t v -> discover sc so v = Ok t.
Proof. intros sc so t v H1 H2. exact (proj1 (regular_exact sc so H1 t v H2)). Qed.
Print Assumptions C62_recovers.
(** so a value is regular in at most one way *)
Theorem C62_unique : forall sc so t u v, dates_ok so ->
  let Reg := Regular (fun x u => discover sc so x = Ok u) in Reg t v -> Reg u v -> t = u.
Proof. intros sc so t u v H1 Reg H2 H3. pose proof (C62_recovers sc so t v H1 H2). pose proof (C62_recovers sc so u v H1 H3). congruence. Qed.
Print Assumptions C62_unique.
(** Rows of different lengths make a variable dimension. *)
Theorem C62_ragged : forall sc so k t l, dates_ok so -> Ragged (fun x u => discover sc so x = Ok u) t l ->
  discover sc so (DSeq k l) = Ok (DataShapeT None (FixedT (Z.of_nat (length l)) :: VarT :: components t)).
Proof. intros sc so k t l H1 H2. exact (ragged_exact sc so H1 k t l H2). Qed.
Print Assumptions C62_ragged.
(** [validate] on regular data and their own datashape: an answer always, and true exactly for
    the acceptable ones (Spec_Regular.v). *)
Theorem C62_validates : forall sc so np t v, dates_ok so -> NativeNumpy np ->
  let leaf := fun x u => discover sc so x = Ok u in
  Regular leaf t v -> NoLike v -> NoScalarArrays (as_value v) ->
  discover sc so v = Ok t /\ exists b, validate_value np t (as_value v) = Ok b /\ (b = true <-> Acceptable leaf v).
Proof.
  intros sc so np t v H1 H2 leaf H3 H4 H5. split; [now apply C62_recovers|]. exact (regular_validate sc so H1 np H2 t v H3 H4 H5).
Qed.
Print Assumptions C62_validates.
Theorem C62_ragged_validates : forall sc so np k t l, dates_ok so -> NativeNumpy np ->
  let leaf := fun x u => discover sc so x = Ok u in let v := DSeq k l in
  Ragged leaf t l -> NoLike v -> NoScalarArrays (as_value v) ->
  exists d, discover sc so v = Ok d /\ exists b, validate_value np d (as_value v) = Ok b /\
    (b = true <-> k <> KSet /\ forall x, In x l -> Acceptable leaf x).
Proof.
  intros sc so np k t l H1 H2 leaf v H3 H4 H5. eexists. split; [apply C62_ragged; eassumption|].
  exact (ragged_validate sc so H1 np H2 k t l H3 H4 H5).
Qed.
Print Assumptions C62_ragged_validates.

(** ** a case: [{'a': [(1, 2)], 'b': 'abc'}, {'b': 'x', 'a': [(3, 4)]}] *)
Definition leaf0 := fun x u => discover sc0 so0 x = Ok u.
Definition ex62 : dval :=
  DSeq KList [DMap KDict [($"a", DSeq KList [DSeq KTuple [DInt 1; DInt 2]]); ($"b", DStr $"abc")];
              DMap KDict [($"b", DStr $"x"); ($"a", DSeq KList [DSeq KTuple [DInt 3; DInt 4]])]].
Definition ty62 : ty :=
  DataShapeT None [FixedT 2; RecordT [($"a", DataShapeT None [FixedT 1; FixedT 2; int64_t]); ($"b", string_t)]].
Lemma in2 {A} (P : A -> Prop) (a b : A) : P a -> P b -> forall x, In x [a; b] -> P x.
Proof. intros H1 H2 x [<-|[<-|[]]]; auto. Qed.
Lemma in1 {A} (P : A -> Prop) (a : A) : P a -> forall x, In x [a] -> P x.
Proof. intros H1 x [<-|[]]; auto. Qed.
Lemma reg_int z : Regular leaf0 int64_t (DInt z).
Proof. apply R_leaf; [exact I|reflexivity|discriminate]. Qed.
Lemma reg_pair a b : Regular leaf0 (DataShapeT None [FixedT 1; FixedT 2; int64_t]) (DSeq KList [DSeq KTuple [DInt a; DInt b]]).
Proof.
  apply (R_array leaf0 (DataShapeT None [FixedT 2; int64_t]) KList [DSeq KTuple [DInt a; DInt b]]); [discriminate|]. apply in1.
  apply (R_array leaf0 int64_t KTuple [DInt a; DInt b]); [discriminate|]. apply in2; apply reg_int.
Qed.
Lemma reg_word s : discover_str so0 s = Ok string_t -> Regular leaf0 string_t (DStr s).
Proof. intro H. apply R_leaf; [exact I|exact H|discriminate]. Qed.
Lemma ab_sorted : SortedStrs [$"a"; $"b"].
Proof. repeat constructor. Qed.
Ltac pair H := pose proof (f_equal fst H); pose proof (f_equal snd H); clear H; cbn [fst snd] in *; subst.
Lemma reg_ex62 : Regular leaf0 ty62 ex62.
Proof.
  unfold ex62. match goal with |- Regular _ _ (DSeq _ ?l) => 
    change (Regular leaf0 (DataShapeT None (FixedT (Z.of_nat (length l)) :: components (RecordT [($"a", DataShapeT None [FixedT 1; FixedT 2; int64_t]); ($"b", string_t)]))) (DSeq KList l)) end.
  apply R_array; [discriminate|].
  apply in2; (apply R_dict; [exact ab_sorted|apply nodup_str_NoDup; reflexivity|intro n; cbn; tauto|discriminate|]);
    intros n t x [H1|[H1|[]]] [H2|[H2|[]]]; pair H1; pair H2; try discriminate;
    first [apply reg_pair|apply reg_word; vm_compute; reflexivity].
Qed.
Lemma acc_ex62 : Acceptable leaf0 ex62.
Proof.
  assert (AP : forall a b, Acceptable leaf0 (DSeq KList [DSeq KTuple [DInt a; DInt b]])).
  { intros a b. apply A_seq with (t := DataShapeT None [FixedT 2; int64_t]); [discriminate| |].
    - apply in1. apply (R_array leaf0 int64_t KTuple [DInt a; DInt b]); [discriminate|]. apply in2; apply reg_int.
    - apply in1. apply A_seq with (t := int64_t); [discriminate|apply in2; apply reg_int|apply in2; apply A_int]. }
  pose proof reg_ex62 as R. remember ex62 as v eqn:Ev. remember ty62 as T eqn:ET. destruct R as [v t L|t k l NE HI| |]; subst; try discriminate; try contradiction.
  injection Ev as -> ->. apply A_seq with (t := t); [discriminate|exact HI|].
  apply in2; (apply A_map; [discriminate|]); intros n x [H|[H|[]]]; pair H; first [apply AP|apply A_str; vm_compute; reflexivity].
Qed.
(** [np.issubdtype(type(value), dtype)] on the native types *)
Definition np0 (t : ty) (v : value) : res bool :=
  Ok (match v with VInt _ => py_eq t int64_t | VFloat _ => py_eq t float64_t | VBool _ => py_eq t bool_t | _ => false end).
Lemma nl_leaf v : IsLeaf v -> (forall shp dt, v <> DLike shp dt) -> NoLike v.
Proof. intros H1 H2 shp dt H. inversion H; subst; try contradiction. eapply H2; reflexivity. Qed.
Lemma nl_seq k l : (forall x, In x l -> NoLike x) -> NoLike (DSeq k l).
Proof. intros H1 shp dt H. inversion H; subst. eapply H1; eauto. Qed.
Lemma nl_map k l : (forall x, In x l -> NoLike (snd x)) -> NoLike (DMap k l).
Proof. intros H1 shp dt H. inversion H as [| |? ? n y Hy HL]; subst. apply (H1 _ Hy shp dt HL). Qed.
Lemma ns_base v : (forall d, v <> VArray d) -> is_base v = true -> NoScalarArrays v.
Proof. intros H1 H2 d H. inversion H as [|? l y HS| ? ? ? HI]; subst; [destruct (H1 d eq_refl)|destruct HS; discriminate|discriminate]. Qed.
Lemma ns_list l : (forall x, In x l -> NoScalarArrays x) -> NoScalarArrays (VList l).
Proof. intros H1 d H. inversion H as [|? l' y HS Hy HI|]; subst. inversion HS; subst. exact (H1 y Hy d HI). Qed.
Lemma ns_tuple l : (forall x, In x l -> NoScalarArrays x) -> NoScalarArrays (VTuple l).
Proof. intros H1 d H. inversion H as [|? l' y HS Hy HI|]; subst. inversion HS; subst. exact (H1 y Hy d HI). Qed.
Lemma ns_dict l : (forall x, In x l -> NoScalarArrays (snd x)) -> NoScalarArrays (VDict l).
Proof. intros H1 d H. inversion H as [|? l' y HS|? k y Hy HI]; subst; [inversion HS|]. exact (H1 _ Hy d HI). Qed.
Example C62_case : dates_ok so0 /\ NativeNumpy np0 /\ Regular leaf0 ty62 ex62 /\ NoLike ex62 /\ NoScalarArrays (as_value ex62) /\
  Acceptable leaf0 ex62 /\ discover sc0 so0 ex62 = Ok ty62 /\ validate_value np0 ty62 (as_value ex62) = Ok true.
Proof.
  split; [exact (proj1 C47_case)|]. split; [|split; [exact reg_ex62|]].
  { repeat split; try reflexivity. intros t v; eexists; reflexivity. }
  split; [|split; [|split; [exact acc_ex62|split; vm_compute; reflexivity]]].
  - unfold ex62. repeat first [apply nl_seq|apply nl_map|apply nl_leaf; [exact I|discriminate]|apply in2|apply in1|intros ? []].
  - unfold ex62. cbn [as_value map fst snd].
    repeat first [apply ns_list|apply ns_tuple|apply ns_dict|apply ns_base; [discriminate|reflexivity]|apply in2|apply in1].
Qed.
(** [[1], [2, 3]] *)
Example C62_ragged_case : Ragged leaf0 int64_t [DSeq KList [DInt 1]; DSeq KTuple [DInt 2; DInt 3]] /\
  discover sc0 so0 (DSeq KList [DSeq KList [DInt 1]; DSeq KTuple [DInt 2; DInt 3]]) = Ok (DataShapeT None [FixedT 2; VarT; int64_t]).
Proof.
  split; [|vm_compute; reflexivity]. split.
  - exists KList, [DInt 1], KTuple, [DInt 2; DInt 3]. split; [left; auto|]. split; [right; left; auto|discriminate].
  - apply in2; (eexists; eexists; split; [reflexivity|]; split; [discriminate|]); [apply in1; apply reg_int|apply in2; apply reg_int].
Qed.

(** ** what fails outside the acceptable data: [validate] rejects the data for their own datashape *)
Definition own_answer (v : dval) : res bool := let! t := discover sc0 so0 v in validate_value np0 t (as_value v).
(** [1, None], [1, 'a'], [[(1, 'a')]], None, 1j, '5', {1, 2}, and a dict with a missing value *)
Theorem C62_not_accepted_refuted :
  own_answer (DSeq KList [DInt 1; DNone]) = Ok false /\
  own_answer (DSeq KList [DInt 1; DStr $"a"]) = Ok false /\
  own_answer DNone = Ok false /\ own_answer DComplex = Ok false /\ own_answer (DStr $"5") = Ok false /\
  own_answer (DSeq KSet [DInt 1; DInt 2]) = Ok false /\
  own_answer (DSeq KList [DMap KDict [($"a", DInt 1)]; DMap KDict []]) = Ok false.
Proof. vm_compute. repeat split; reflexivity. Qed.
(** an OrderedDict with keys out of order has another type in a list than alone *)
Theorem C62_ordered_dict_refuted :
  let v := DMap KOrdered [($"b", DInt 1); ($"a", DFloat)] in
  discover sc0 so0 v = Ok (RecordT [($"b", int64_t); ($"a", float64_t)]) /\
  discover sc0 so0 (DSeq KList [v]) = Ok (DataShapeT None [FixedT 1; RecordT [($"a", float64_t); ($"b", int64_t)]]).
Proof. vm_compute. split; reflexivity. Qed.
