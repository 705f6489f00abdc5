(** C09, C24, C37, C38, C39, C41, C42, C43: error locations, validation, predicates,
    registry, assert_dshape_equal. *)
From Coq Require Import Sorting.Sorted Sorting.Permutation.
From Verif Require Import Base Types Lexer Construct Parser Ops Preds Spec_WF Spec_Eq Spec_Ops Spec_Preds
  Proof_Eq Proof_WF Proof_Parser Proof_Ops Proof_Preds Proof_Preds2 Proof_Preds3 Proof_Preds4 Proof_Preds5 Tests_Parser Prop_Parser.
Local Open Scope Z_scope.

(** C09. The error raised at [pos] in [text] carries the right line, line number and column. *)
Theorem C09_line_and_column : forall pos text, (pos <= length text)%nat ->
  let e := mk_syntax_error pos text in
  exists start, LineAt text (err_lineno e) (err_line e) start /\
    (start <= pos)%nat /\ err_col e = Z.of_nat (pos - start) /\ (pos - start <= length (err_line e))%nat.
Proof. exact syntax_error_spec. Qed.
Print Assumptions C09_line_and_column.
(** every syntax error [dshape] raises satisfies the hypothesis *)
Theorem C09_dshape_errors : forall E s p m, disc_ok E -> dshape E s = Raise (SyntaxErr p m) ->
  let e := mk_syntax_error p s in
  exists start, LineAt s (err_lineno e) (err_line e) start /\
    (start <= p)%nat /\ err_col e = Z.of_nat (p - start) /\ (p - start <= length (err_line e))%nat.
Proof. intros E s p m HE H. apply C09_line_and_column. apply (C08_error_positions E s p m HE H). Qed.
Print Assumptions C09_dshape_errors.
Example C09_example : let s := $"{" ++ nl ++ $" a: int32," ++ nl ++ $" b: int33 }" in
  dshape E0 s = Raise (SyntaxErr 17 MFieldDatashape) /\
  mk_syntax_error 17 s = {| err_lineno := 3; err_line := $" b: int33 }"; err_col := 4 |}.
Proof. split; vm_compute; reflexivity. Qed.
(** position = length of the text, and text ending in a newline *)
Example C09_example_end : mk_syntax_error 2 ($"3" ++ nl) = {| err_lineno := 2; err_line := []; err_col := 0 |}.
Proof. vm_compute; reflexivity. Qed.

(** C24. Every array reached from an accepted datashape has at most one ellipsis, and never as
    its measure; validation fails exactly when that is not so. *)
Theorem C24_parse_validated : forall E s t, dshape E s = Ok t -> AllGood t.
Proof.
  intros E s t H. unfold dshape in H. cbn [dshape_str] in H.
  destruct (parse _ _) as [u|] eqn:EP; [|discriminate]. cbn [bind] in H.
  destruct (validate_spec u) as [[HV HG]|[HV HG]]; rewrite HV in H; [|discriminate].
  cbn [bind] in H. injection H as <-. exact HG.
Qed.
Print Assumptions C24_parse_validated.
Theorem C24_validate : forall t, (validate t = Ok tt <-> AllGood t) /\ (validate t = Raise TypeErr <-> ~ AllGood t).
Proof. intro t. destruct (validate_spec t) as [[H G]|[H G]]; rewrite H; split; split; intro; try discriminate; try contradiction; auto. Qed.
Print Assumptions C24_validate.
(** inside record fields and tuple items the check is not made *)
Theorem C24_record_refuted : exists t f ps, dshape E0 $"{a: ... * ... * int32}" = Ok t /\
  Occurs (RecordT [(f, DataShapeT None ps)]) t /\ ~ OneEllipsis ps.
Proof.
  eexists _, _, _. split; [vm_compute; reflexivity|]. split; [eapply Occurs_in; [left; reflexivity|constructor]|].
  intro H. discriminate (H 0%nat 1%nat None None eq_refl eq_refl).
Qed.
Theorem C24_tuple_refuted : exists t ps, dshape E0 $"(... * ... * int32, int8)" = Ok t /\
  Occurs (DataShapeT None ps) t /\ ~ OneEllipsis ps.
Proof.
  eexists _, _. split; [vm_compute; reflexivity|]. split; [eapply Occurs_in; [left; reflexivity|eapply Occurs_in; [left; reflexivity|constructor]]|].
  intro H. discriminate (H 0%nat 1%nat None None eq_refl eq_refl).
Qed.
Example C24_nonvacuous : exists t, dshape E0 $"3 * ... * ?(... * int32)" = Ok t \/ dshape E0 $"... * 3 * int32" = Ok t.
Proof. eexists. right. vm_compute; reflexivity. Qed.
Example C24_rejects : dshape E0 $"?... * A... * int32" = Raise TypeErr.
Proof. vm_compute; reflexivity. Qed.

(** C37. *)
Theorem C37_has_ellipsis : forall t, has_ellipsis t = true <-> exists o, Occurs (EllipsisT o) t.
Proof.
  intro t. unfold has_ellipsis. rewrite has_spec by reflexivity. split.
  - intros [u [H1 H2]]. destruct u; try discriminate. eauto.
  - intros [o H]. exists (EllipsisT o). auto.
Qed.
Print Assumptions C37_has_ellipsis.
Theorem C37_has_var_dim : forall t, has_var_dim t = true <-> Occurs VarT t \/ exists o, Occurs (EllipsisT o) t.
Proof.
  intro t. unfold has_var_dim. rewrite has_spec by reflexivity. split.
  - intros [u [H1 H2]]. destruct u; try discriminate; eauto.
  - intros [H|[o H]]; [exists VarT|exists (EllipsisT o)]; auto.
Qed.
Print Assumptions C37_has_var_dim.
Example C37_example : exists t, dshape E0 $"3 * {a: ?(int32, map[string, (5 * int8, A... * real) -> var * {b: int32}])}" = Ok t /\
  has_ellipsis t = true /\ has_var_dim t = true.
Proof. eexists. split; [vm_compute; reflexivity|]. split; reflexivity. Qed.

(** C38. On arrays and records without ellipses, options, tuples, ... [isfixed] answers True
    exactly when neither a variable dimension nor a type variable occurs. *)
Theorem C38_plain : forall t, Plain t -> WF t -> ~ DimensionClass t ->
  exists o, isfixed t = Ok o /\ (o = Some true <-> AllFixed t).
Proof. intros t HP HW HD. apply isfixed_spec; auto. pose proof (tsize_pos t). lia. Qed.
Print Assumptions C38_plain.
(** On every well-formed datashape: the answer is True exactly when no variable dimension or
    type variable is among the parts that are looked at (components of arrays, types of record
    fields; nothing below options, tuples, functions, maps, ellipses, ...), and there is an
    answer whenever the field types are acceptable to [dshape]. *)
Theorem C38_isfixed : forall t, WF t ->
  (forall o, isfixed t = Ok o -> (o = Some true <-> SeenFixed t)) /\
  (~ DimensionClass t -> AllGood t -> FieldsOk t -> exists o, isfixed t = Ok o).
Proof. intros t HW. apply isfixed_all; auto. lia. Qed.
Print Assumptions C38_isfixed.
(** "isfixed implies no variable dimension" itself is false *)
Theorem C38_ellipsis_refuted : exists t o, dshape E0 $"... * int32" = Ok t /\ Occurs (EllipsisT o) t /\ isfixed t = Ok (Some true).
Proof. eexists _, _. split; [vm_compute; reflexivity|]. split; [eapply Occurs_in; [left; reflexivity|constructor]|reflexivity]. Qed.
Theorem C38_option_refuted : exists t, dshape E0 $"?var * int32" = Ok t /\ Occurs VarT t /\ isfixed t = Ok (Some true).
Proof. eexists. split; [vm_compute; reflexivity|]. split; [|reflexivity].
  eapply Occurs_in; [left; reflexivity|]. eapply Occurs_in; [left; reflexivity|]. eapply Occurs_in; [left; reflexivity|constructor]. Qed.
Theorem C38_tuple_refuted : exists t, dshape E0 $"(var * int32, int8)" = Ok t /\ Occurs VarT t /\ isfixed t = Ok (Some true).
Proof. eexists. split; [vm_compute; reflexivity|]. split; [|reflexivity].
  eapply Occurs_in; [left; reflexivity|]. eapply Occurs_in; [left; reflexivity|]. eapply Occurs_in; [left; reflexivity|constructor]. Qed.
Ltac plain := first
  [ apply Plain_leaf; [reflexivity|intros; discriminate|intros; discriminate]
  | apply Plain_record; intros ? HH; cbn in HH; repeat (destruct HH as [<-|HH]; [split; [plain|intro QQ; inversion QQ]|]); contradiction
  | apply Plain_array; [discriminate|]; intros ? HH; cbn in HH;
    repeat (destruct HH as [<-|HH]; [split; [plain|intros [? [? QQ]]; discriminate QQ]|]); contradiction ].
Example C38_nonvacuous : exists t, dshape E0 $"3 * {a: int32, b: {c: 2 * string, d: M}}" = Ok t /\
  Plain t /\ ~ DimensionClass t /\ isfixed t = Ok (Some false).
Proof. eexists. split; [vm_compute; reflexivity|]. split; [plain|]. split; [intro H; inversion H|reflexivity]. Qed.

Example C38_isfixed_example : exists t, dshape E0 $"3 * {a: ?var * int32, b: (M, int8)}" = Ok t /\
  SeenFixed t /\ FieldsOk t /\ isfixed t = Ok (Some true).
Proof.
  eexists. split; [vm_compute; reflexivity|]. split; [|split; [|reflexivity]].
  { assert (L : forall v, ~ IsDataShape v -> (forall fs, v <> RecordT fs) -> v <> VarT -> (forall s, v <> TypeVarT s) ->
      forall u, Seen u v -> u <> VarT /\ forall s, u <> TypeVarT s).
    { intros v H1 H2 H3 H4 u Hu. destruct Hu; auto; exfalso; [apply H1; red; eauto|eapply H2; reflexivity]. }
    assert (LL : forall v, ~ IsDataShape v -> (forall fs, v <> RecordT fs) -> v <> VarT -> (forall s, v <> TypeVarT s) -> SeenFixed v).
    { intros v H1 H2 H3 H4 u Hu. eapply L; eauto. }
    apply SeenFixed_array. intros c [<-|[<-|[]]] _; [apply LL; [intros [? [? Q]]; discriminate|discriminate..]|].
    apply SeenFixed_record. intros f [<-|[<-|[]]]; (apply LL; [intros [? [? Q]]; discriminate|discriminate..]). }
  intros fs f H Hf.
  inversion H as [|? ? c Hc Nc Hs|]; subst. cbn in Hc. destruct Hc as [<-|[<-|[]]]; [inversion Hs|].
  inversion Hs as [|? ? ? ? ? ?|? g Hg Hs']; subst.
  - cbn in Hf. destruct Hf as [<-|[<-|[]]]; cbn [snd]; (split; [intro Q; inversion Q|]).
    + intros n ps HR. inversion HR as [| | |? HR'| | |]; subst.
      inversion HR' as [|? ? ? Hc HR''| | | | |]; subst.
      * split; [|intros [o Ho]; discriminate]. intros [|[|[|]]] [|[|[|]]] a b Ha Hb; discriminate.
      * cbn in Hc. destruct Hc as [<-|[<-|[]]]; inversion HR''.
    + intros n ps HR. inversion HR.
  - cbn in Hg. destruct Hg as [<-|[<-|[]]]; inversion Hs'.
Qed.

(** C39. *)
Definition registers_only {V} (o : reg_op V) : Prop :=
  match o with OpRegister _ _ _ | OpCType _ _ _ => True | _ => False end.
Theorem C39_register_keeps : forall (V : Type) (history : list (reg_op V)) (before : registry V) name v,
  Forall registers_only history -> reg_lookup V name before = Ok v ->
  reg_lookup V name (reg_run V history before) = Ok v.
Proof.
  intros V h r k v HF HL. apply reg_run_keep; auto. intros o Ho. rewrite Forall_forall in HF. specialize (HF o Ho).
  destruct o; auto; contradiction.
Qed.
Print Assumptions C39_register_keeps.
(** more generally, class statements and named DataShapes included, a name keeps its meaning as
    long as no class and no DataShape of that name is created *)
Theorem C39_keeps_unless_same_name : forall (V : Type) (history : list (reg_op V)) (before : registry V) name v,
  (forall w, ~ In (OpClass V name w false) history) ->
  (forall w, ~ In (OpDataShape V (Some name) w) history) ->
  reg_lookup V name before = Ok v -> reg_lookup V name (reg_run V history before) = Ok v.
Proof.
  intros V h r k v H1 H2 HL. apply reg_run_keep; auto. intros o Ho. destruct o as [| |k' w ab|nm w]; auto.
  - intros -> ->. apply (H1 w); auto.
  - left. intros ->. apply (H2 w); auto.
Qed.
Print Assumptions C39_keeps_unless_same_name.
(** the lookup of a name that was never assigned raises KeyError and the name can be registered,
    after which it is found; any other name is found and registering it raises TypeError *)
Theorem C39_register_result : forall (V : Type) (r : registry V) name v,
  (~ In name (map fst r) -> reg_lookup V name r = Raise KeyErr /\
     exists r', reg_register V name v r = Ok r' /\ reg_lookup V name r' = Ok v) /\
  (In name (map fst r) -> (exists w, reg_lookup V name r = Ok w /\ In (name, w) r) /\ reg_register V name v r = Raise TypeErr).
Proof.
  intros V r k v. unfold reg_lookup, reg_register. destruct (assoc k r) eqn:E; split; intro H.
  - apply Proof_Ops.assoc_None in H. congruence.
  - split; [|reflexivity]. eexists. split; [reflexivity|]. now apply Proof_Ops.assoc_In.
  - split; [reflexivity|]. eexists. split; [reflexivity|]. unfold reg_set. cbn [assoc]. rewrite str_eqb_refl. reflexivity.
  - apply Proof_Ops.assoc_None in E. contradiction.
Qed.
Print Assumptions C39_register_result.
(** a name is found after a history iff it was there before or some step assigns it; otherwise
    the lookup raises KeyError *)
Theorem C39_found_iff : forall (V : Type) (history : list (reg_op V)) (before : registry V) name,
  let after := reg_run V history before in
  let assigned := In name (map fst before) \/
    exists v, In (OpRegister V name v) history \/ In (OpCType V name v) history \/
      In (OpClass V name v false) history \/ (name <> [] /\ In (OpDataShape V (Some name) v) history) in
  (assigned -> exists w, reg_lookup V name after = Ok w) /\ (~ assigned -> reg_lookup V name after = Raise KeyErr).
Proof.
  intros V h before name after assigned.
  assert (G : In name (map fst after) <-> assigned).
  { unfold after, assigned. clear. revert before. induction h as [|o h IH]; intro b.
    - cbn [reg_run fold_left]. split; [auto|]. intros [H|[v H]]; [exact H|]. cbn [In] in H. tauto.
    - change (reg_run V (o :: h) b) with (reg_run V h (match reg_step V o b with Ok r' => r' | Raise _ => b end)).
      rewrite IH. clear IH.
      assert (K : In name (map fst (match reg_step V o b with Ok r' => r' | Raise _ => b end)) <->
        In name (map fst b) \/ exists v, OpRegister V name v = o \/ OpCType V name v = o \/
          OpClass V name v false = o \/ (name <> [] /\ OpDataShape V (Some name) v = o)).
      { assert (RG : forall k v, In name (map fst (match reg_register V k v b with Ok r' => r' | Raise _ => b end)) <->
                       In name (map fst b) \/ name = k).
        { intros k v. unfold reg_register. destruct (assoc k b) eqn:E; cbn [reg_set map fst In].
          - split; [auto|]. intros [H| ->]; [exact H|]. apply Proof_Ops.assoc_In in E. now apply (in_map fst) in E.
          - intuition auto. }
        destruct o as [k v|k v|k v ab|[nm|] v]; cbn [reg_step].
        - rewrite RG. split; (intros [H|H]; [auto|right]).
          + subst k. exists v. auto.
          + destruct H as [w [H|[H|[H|[_ H]]]]]; congruence.
        - rewrite RG. split; (intros [H|H]; [auto|right]).
          + subst k. exists v. auto.
          + destruct H as [w [H|[H|[H|[_ H]]]]]; congruence.
        - destruct ab; cbn [reg_set map fst In].
          + split; [auto|]. intros [H|[w [H|[H|[H|[_ H]]]]]]; congruence.
          + split.
            * intros [H|H]; [|auto]. right. exists v. subst k. auto.
            * intros [H|[w [H|[H|[H|[_ H]]]]]]; [auto|congruence|congruence|left; congruence|congruence].
        - destruct nm as [|c nm]; cbn [reg_set map fst In].
          + split; [auto|]. intros [H|[w [H|[H|[H|[Hn H]]]]]]; congruence.
          + split.
            * intros [H|H]; [|auto]. right. exists v. subst name. right; right; right. split; [discriminate|reflexivity].
            * intros [H|[w [H|[H|[H|[Hn H]]]]]]; [auto|congruence|congruence|congruence|left; congruence].
        - split; [auto|]. intros [H|[w [H|[H|[H|[_ H]]]]]]; congruence. }
      rewrite K. cbn [In]. split.
      + intros [[H|[v H]]|[v H]]; [auto| |]; right; exists v; intuition auto.
      + intros [H|[v H]]; [auto|]. 
        destruct H as [[H|H]|[[H|H]|[[H|H]|[Hn [H|H]]]]];
          try (right; exists v; tauto); left; right; exists v; auto. }
  unfold reg_lookup. split; intro H.
  - apply G in H. destruct (assoc name after) as [w|] eqn:E; [eauto|]. apply Proof_Ops.assoc_None in E. contradiction.
  - destruct (assoc name after) as [w|] eqn:E; [|reflexivity]. exfalso. apply H, G.
    apply Proof_Ops.assoc_In in E. now apply (in_map fst) in E.
Qed.
Print Assumptions C39_found_iff.
Example C39_found_nonvacuous :
  reg_lookup nat $"b" (reg_run nat [OpCType nat $"b" 2%nat; OpDataShape nat None 4%nat; OpClass nat $"C" 3%nat true] []) = Ok 2%nat /\
  reg_lookup nat $"C" (reg_run nat [OpCType nat $"b" 2%nat; OpDataShape nat None 4%nat; OpClass nat $"C" 3%nat true] []) = Raise KeyErr.
Proof. split; reflexivity. Qed.
Theorem C39_named_datashape_refuted : exists (history : list (reg_op nat)) before,
  reg_lookup nat $"int32" before = Ok 1%nat /\ reg_lookup nat $"int32" (reg_run nat history before) = Ok 2%nat.
Proof. exists [OpDataShape nat (Some $"int32") 2%nat], [($"int32", 1%nat)]. split; reflexivity. Qed.
Theorem C39_class_refuted : exists (history : list (reg_op nat)) before,
  reg_lookup nat $"String" before = Ok 1%nat /\ reg_lookup nat $"String" (reg_run nat history before) = Ok 2%nat.
Proof. exists [OpClass nat $"String" 2%nat false], [($"String", 1%nat)]. split; reflexivity. Qed.
Example C39_nonvacuous : let h := [OpRegister nat $"a" 1%nat; OpCType nat $"b" 2%nat; OpRegister nat $"a" 3%nat] in
  Forall registers_only h /\ reg_lookup nat $"a" (reg_run nat h []) = Ok 1%nat /\ reg_lookup nat $"b" (reg_run nat h []) = Ok 2%nat.
Proof. split; [repeat constructor|]. split; reflexivity. Qed.

(** C41. Equal datashapes are accepted, whatever is checked (no Units inside)... *)
Theorem C41_accepts_equal : forall F a b, WF a -> WF b -> NoUnits a -> py_eq a b = true ->
  assert_dshape_equal F a b = Ok tt.
Proof. intros F a b Wa Wb HU H. apply assert_complete; auto. Qed.
Print Assumptions C41_accepts_equal.
(** ... accepted datashapes are equal, if corresponding arrays have the same number of
    dimensions and no array is the measure of an array ... *)
Theorem C41_accepted_are_equal : forall a b, WF a -> WF b -> FlatArrays a -> FlatArrays b -> SameRank a b ->
  assert_dshape_equal default_flags a b = Ok tt -> py_eq a b = true.
Proof. intros a b Wa Wb Fa Fb HR H. eapply assert_sound; eauto. Qed.
Print Assumptions C41_accepted_are_equal.
(** ... and switching checks off never rejects more. *)
Theorem C41_relaxing_accepts : forall F a b,
  assert_dshape_equal default_flags a b = Ok tt -> assert_dshape_equal F a b = Ok tt.
Proof. intros F a b. apply assert_relax. Qed.
Print Assumptions C41_relaxing_accepts.
(** What is accepted, exactly, under any choice of checks: [Accepts] (Spec_Preds). *)
Theorem C41_exact : forall F a b, WF a -> WF b -> (assert_dshape_equal F a b = Ok tt <-> Accepts F a b).
Proof. intros F a b Wa Wb. apply assert_exact; auto. Qed.
Print Assumptions C41_exact.
(** e.g. records with permuted fields, without check_record_order *)
Example C41_exact_example : exists a b, dshape E0 $"3 * {a: int32, b: ?string[3]}" = Ok a /\
  dshape E0 $"3 * 4 * {b: ?string[3], a: int32}" = Ok b /\
  Accepts {| check_dim := true; check_tz := true; check_timedelta_unit := true;
     check_str_encoding := true; check_str_fixlen := true; check_record_order := false |} a b /\
  ~ Accepts default_flags a b.
Proof.
  eexists _, _. split; [vm_compute; reflexivity|]. split; [vm_compute; reflexivity|]. split.
  - refine (Acc_array _ None None [_] [_; _] _ _ _ _).
    + intros _ i d e Hd He. destruct i; [|destruct i; discriminate]. injection Hd as <-. injection He as <-. reflexivity.
    + eapply Acc_record; [apply perm_swap|discriminate|]. constructor; [split; [reflexivity|apply Acc_equal; [left; intros []|reflexivity]]|].
      constructor; [split; [reflexivity|]|constructor]. cbn [snd]. apply Acc_option. apply Acc_string; reflexivity.
  - intro H. remember (DataShapeT None _) as a eqn:Ha in H. remember (DataShapeT None _) as b eqn:Hb in H.
    destruct H as [n m ds es x y _ H| | | | | | | | |? ? [X|X] _]; try discriminate; subst; try (apply X; reflexivity); try (apply X; exact I).
    injection Ha as _ Ha. injection Hb as _ Hb. apply (f_equal (fun l => last l NullT)) in Ha, Hb.
    rewrite last_last in Ha, Hb. cbn in Ha, Hb. subst.
    inversion H as [| | | | | |fs gs hs P O HF| | |? ? [X|X] _]; subst; try (apply X; reflexivity); try (apply X; exact I).
    rewrite (O eq_refl) in HF. inversion HF as [|? ? ? ? [E _]]. discriminate.
Qed.
Theorem C41_rank_refuted : exists a b, dshape E0 $"3 * int32" = Ok a /\ dshape E0 $"3 * 4 * int32" = Ok b /\
  assert_dshape_equal default_flags a b = Ok tt /\ py_eq a b = false.
Proof. eexists _, _. split; [vm_compute; reflexivity|]. split; [vm_compute; reflexivity|]. split; reflexivity. Qed.
Theorem C41_units_refuted : exists a, dshape E0 $"units['kg', int32]" = Ok a /\ py_eq a a = true /\
  assert_dshape_equal default_flags a a = Raise AttributeErr.
Proof. eexists. split; [vm_compute; reflexivity|]. split; reflexivity. Qed.
(** a wrong exception: strings with and without a length raise TypeError, not AssertionError *)
Theorem C41_fixlen_error_refuted : exists a b, dshape E0 $"string" = Ok a /\ dshape E0 $"string[10]" = Ok b /\
  assert_dshape_equal default_flags a b = Raise TypeErr.
Proof. eexists _, _. split; [vm_compute; reflexivity|]. split; [vm_compute; reflexivity|]. reflexivity. Qed.
Ltac samerank := cbn [snd]; first
  [ apply SR_leaf; intros; discriminate
  | apply SR_option; samerank
  | apply SR_record; repeat (first [apply Forall2_nil | apply Forall2_cons; [samerank|]])
  | apply SR_tuple; repeat (first [apply Forall2_nil | apply Forall2_cons; [samerank|]])
  | apply SR_function; repeat (first [apply Forall2_nil | apply Forall2_cons; [samerank|]])
  | eapply (SR_array _ _ [] [] _ _); [reflexivity|samerank]
  | eapply (SR_array _ _ [_] [_] _ _); [reflexivity|samerank] ].
Example C41_nonvacuous : exists a b, dshape E0 $"3 * {a: ?(int32, time), b: (string[3]) -> M}" = Ok a /\
  dshape E0 $"3 * {a: ?(int32, time), b: (string[4]) -> M}" = Ok b /\ SameRank a b /\
  assert_dshape_equal default_flags a a = Ok tt /\ assert_dshape_equal default_flags a b = Raise AssertErr /\
  assert_dshape_equal {| check_dim := true; check_tz := true; check_timedelta_unit := true;
     check_str_encoding := true; check_str_fixlen := false; check_record_order := true |} a b = Ok tt.
Proof.
  eexists _, _. split; [vm_compute; reflexivity|]. split; [vm_compute; reflexivity|]. split; [|split; [reflexivity|split; reflexivity]].
  samerank.
Qed.

(** C42. [collect]: the values are those at the positions of the outermost matches, in
    left-to-right order, without omission. *)
Theorem C42_collect : forall pred v l, collect pred v = Ok l ->
  exists ps, StronglySorted LexLt ps /\ Forall2 (OuterAt pred v) ps l /\
    (forall p x, OuterAt pred v p x -> In p ps).
Proof. exact collect_positions. Qed.
Print Assumptions C42_collect.
(** it fails (TypeError) only when some non-datashape, non-tuple parameter that is outside
    every match is reached *)
Theorem C42_collect_fails : forall pred v, (exists l, collect pred v = Ok l) \/
  (collect pred v = Raise TypeErr /\ exists p x, At v p x /\ pred x = false /\ (forall t, x <> PvTy t) /\ (forall l, x <> PvTup l) /\
     forall q r y, p = q ++ r -> At v q y -> pred y = false).
Proof.
  intros pred v. destruct (collect_ok pred v) as [H|[HB H]]; [left; auto|]. right. split; auto. clear H.
  induction HB as [v H1 H2|v c H1 H2 H3 [p [x [A [B [C [D1 E]]]]]]].
  - exists [], v. repeat split; auto; try (intros; destruct v; discriminate || congruence).
    + constructor.
    + intros q r y Hq HA. destruct q; [|discriminate]. apply At_nil in HA. subst; auto.
  - apply In_nth_error in H2. destruct H2 as [k Hk]. exists (k :: p), x. repeat split; auto.
    + econstructor; eauto.
    + intros q r y Hq HA. destruct q as [|j q]; [apply At_nil in HA; subst; auto|]. injection Hq as <- Hq.
      inversion HA as [|? ? c' ? ? Hn HA']; subst. rewrite Hk in Hn. injection Hn as <-. eapply E; eauto.
Qed.
Print Assumptions C42_collect_fails.
(** [ishomogeneous]: TypeError exactly when a bare ellipsis is reached without passing through a
    scalar; otherwise True exactly when there is exactly one dtype (up to ==) *)
Theorem C42_ishomogeneous : forall t d, dshape_ty t = Ok d -> WF d -> NoTypeSet d ->
  (Exposed (EllipsisT None) d /\ ishomogeneous t = Raise TypeErr) \/
  (~ Exposed (EllipsisT None) d /\ exists b, ishomogeneous t = Ok b /\
    (b = true <-> (exists x, Dtype d x) /\ forall x y, Dtype d x -> Dtype d y -> py_eq x y = true)).
Proof. exact ishomogeneous_exact. Qed.
Print Assumptions C42_ishomogeneous.
Theorem C42_ellipsis_refuted : exists t, dshape E0 $"... * int32" = Ok t /\ ishomogeneous t = Raise TypeErr.
Proof. eexists. split; [vm_compute; reflexivity|reflexivity]. Qed.
(** a symbolic dimension counts as a dtype *)
Theorem C42_typevar_refuted : exists t, dshape E0 $"N * int32" = Ok t /\ ishomogeneous t = Ok false.
Proof. eexists. split; [vm_compute; reflexivity|reflexivity]. Qed.
Example C42_nonvacuous : exists t u, dshape E0 $"3 * {a: int32, b: var * ?int32}" = Ok t /\ ishomogeneous t = Ok false /\
  dshape E0 $"3 * {a: int32, b: var * int32}" = Ok u /\ ishomogeneous u = Ok true.
Proof. eexists _, _. split; [vm_compute; reflexivity|]. split; [reflexivity|]. split; [vm_compute; reflexivity|reflexivity]. Qed.

(** C43. *)
Theorem C43_isscalar : forall t, isscalar t = true <-> exists u, Inside t u /\ ScalarClass u.
Proof. exact isscalar_spec. Qed.
Print Assumptions C43_isscalar.
Theorem C43_isrecord : forall t, isrecord t = true <-> exists fs, Inside t (RecordT fs).
Proof. exact isrecord_spec. Qed.
Print Assumptions C43_isrecord.
Theorem C43_inside_unique : forall t, exists u, Inside t u /\ forall v, Inside t v -> v = u.
Proof.
  intro t. eexists. split; [apply Inside_spec; reflexivity|]. intros v Hv. apply Inside_spec in Hv. exact Hv.
Qed.
Print Assumptions C43_inside_unique.
Theorem C43_istabular : forall n ps, (istabular (DataShapeT n ps) = Ok true <->
    exists d m fs, ps = [d; m] /\ Inside m (RecordT fs)) /\ exists b, istabular (DataShapeT n ps) = Ok b.
Proof. intros. split; [apply istabular_spec|apply istabular_total]. Qed.
Print Assumptions C43_istabular.
(** nothing that is not a DataShape is tabular: it is refused when dshape refuses it *)
Theorem C43_istabular_bare : forall t, ~ IsDataShape t ->
  (forall d, dshape_ty t = Ok d -> istabular t = Ok false) /\
  (forall e, dshape_ty t = Raise e -> istabular t = Raise e).
Proof.
  intros t N. unfold istabular. split; intros x H; rewrite H; cbn [bind]; [|reflexivity].
  assert (K : x = t \/ x = DataShapeT None [t]).
  { assert (E : dshape_ty t = let wrap := is_Unit t || match t with RecordT _ | JSONT => true | _ => false end in
       let! d := if wrap then mk_ds [t] else Ok t in let! _ := validate d in Ok d)
      by (destruct t; try reflexivity; exfalso; apply N; eexists; eexists; reflexivity).
    rewrite E in H. cbv zeta in H. destruct (is_Unit t || _)%bool.
    - destruct (mk_ds [t]) as [d|] eqn:M; cbn [bind] in H; [|discriminate].
      destruct (validate d); [|discriminate]. injection H as <-. right.
      unfold mk_ds, mk_datashape in M. cbn [map mapM bind] in M.
      assert (LT : launder no_dsh (PTy t) = Ok t) by (destruct t; try reflexivity; exfalso; apply N; eexists; eexists; reflexivity).
      rewrite LT in M. cbn [bind] in M. unfold check_datashape in M.
      destruct (negb _); [discriminate|]. destruct (forallb _ _); [|discriminate]. now injection M as <-.
    - cbn [bind] in H. destruct (validate t); [|discriminate]. injection H as <-. now left. }
  destruct K as [-> | ->]; [|reflexivity].
  destruct t; try reflexivity; try (exfalso; apply N; eexists; eexists; reflexivity).
  destruct (isrecord (measure (OptionT t))) eqn:R; [|now rewrite Bool.andb_false_r].
  apply isrecord_spec in R as [fs R]. cbn [measure] in R. inversion R; subst; try congruence; reflexivity.
Qed.
Print Assumptions C43_istabular_bare.
Theorem C43_iscollection : forall n p ps, exists b, iscollection (DataShapeT n (p :: ps)) = Ok b /\ (b = true <-> Dim p).
Proof. exact iscollection_spec. Qed.
Print Assumptions C43_iscollection.
(** ... on a bare measure or dimension too, except that a bare record raises KeyError *)
Theorem C43_iscollection_bare : forall t, ~ IsDataShape t ->
  ((exists fs, t = RecordT fs) -> iscollection t = Raise KeyErr) /\
  ((forall fs, t <> RecordT fs) -> exists b, iscollection t = Ok b /\ (b = true <-> Dim t)).
Proof.
  intros t N. split.
  - intros [fs ->]. reflexivity.
  - intro H. exists (is_dimension t). split; [|apply is_dimension_Dim].
    destruct t; try reflexivity; [destruct N; red; eauto|destruct (H fields); auto].
Qed.
Print Assumptions C43_iscollection_bare.
Theorem C43_isdimension : forall t, is_dimension t = true <-> Dim t.
Proof. exact is_dimension_Dim. Qed.
Print Assumptions C43_isdimension.
(** ... and on any parameter of a datashape: Python ints (and booleans) count as dimensions *)
Theorem C43_isdimension_any : forall v, isdimension_pv v = true <->
  (exists t, v = PvTy t /\ Dim t) \/ (exists z, v = PvInt z) \/ (exists b, v = PvBool b).
Proof.
  intros v. split.
  - destruct v; cbn; intro H; try discriminate; eauto. left. eexists. split; auto. apply is_dimension_Dim. auto.
  - intros [[t [-> H]]|[[z ->]|[b ->]]]; auto. cbn. apply is_dimension_Dim. auto.
Qed.
Print Assumptions C43_isdimension_any.
(** a scalar is neither a record nor (for anything [dshape] returns) a collection or a table *)
Theorem C43_scalar_exclusive : forall n p ps, WF (DataShapeT n (p :: ps)) -> isscalar (DataShapeT n (p :: ps)) = true ->
  isrecord (DataShapeT n (p :: ps)) = false /\ iscollection (DataShapeT n (p :: ps)) = Ok false /\
  istabular (DataShapeT n (p :: ps)) = Ok false.
Proof.
  intros n p ps HW HS. assert (ps = []) as ->.
  { destruct ps; auto. cbn in HS. discriminate. }
  assert (HND : ~ DimensionClass p).
  { destruct (HW _ (Occurs_here _)) as [ds [m [E [H _]]]]. destruct ds as [|d ds]; [injection E as <-; auto|].
    destruct ds; discriminate. }
  split; [|split; [|reflexivity]].
  - unfold isrecord. unfold isscalar in HS. destruct (strip_option _); auto; discriminate.
  - cbn. destruct p; auto; try discriminate; exfalso; apply HND; constructor.
Qed.
Print Assumptions C43_scalar_exclusive.
(** [isreal], [isboolean], [isdatelike] look at the measure, or at what is optional there *)
Inductive Looked : ty -> ty -> Prop :=
| LK_array n ps m : ps <> [] -> last ps NullT = m -> (forall u, m <> OptionT u) -> Looked (DataShapeT n ps) m
| LK_array_option n ps m : last ps NullT = OptionT m -> Looked (DataShapeT n ps) m
| LK_bare m : ~ IsDataShape m -> (forall u, m <> OptionT u) -> Looked m m
| LK_option m : Looked (OptionT m) m.
Lemma Looked_spec t m : (forall n, t <> DataShapeT n []) -> Looked t m <-> plaunder t = m.
Proof.
  intro NE. assert (SO : forall x, (forall u, x <> OptionT u) -> strip_option x = x) by (intros x H; destruct x; try reflexivity; edestruct H; reflexivity).
  unfold plaunder. split.
  - intros [n ps m' H1 H2 H3|n ps m' H1|m' H1 H2|m']; cbn [measure].
    + destruct ps as [|p ps]; [contradiction|]. rewrite last_indep with (e := NullT) by discriminate. rewrite H2. auto.
    + destruct ps as [|p ps]; [discriminate|]. rewrite last_indep with (e := NullT) by discriminate. rewrite H1. reflexivity.
    + destruct m'; try (apply SO; auto; fail). elim H1. red; eauto.
    + reflexivity.
  - intros <-. assert (O : forall x, (exists u, x = OptionT u) \/ (forall u, x <> OptionT u)) by (intros []; try (right; discriminate); left; eauto).
    destruct (is_DataShape t) eqn:Ed.
    + destruct t; try discriminate. match goal with |- context[DataShapeT _ ?l] => rename l into ps end. cbn [measure]. destruct ps as [|p ps]; [edestruct NE; eauto|].
      rewrite last_indep with (e := NullT) by discriminate. destruct (O (last (p :: ps) NullT)) as [[u Hu]|Hu].
      * rewrite Hu. apply LK_array_option. exact Hu.
      * rewrite SO by auto. apply LK_array; auto. discriminate.
    + assert (N : ~ IsDataShape t) by (intros [a [b ->]]; discriminate).
      assert (match t with DataShapeT _ _ => measure t | _ => t end = t) as -> by (destruct t; auto; discriminate).
      destruct (O t) as [[u ->]|Hu]; [apply LK_option|rewrite SO by auto; apply LK_bare; auto].
Qed.
Lemma WF_nonempty t : WF t -> forall n, t <> DataShapeT n [].
Proof. intros H n ->. apply wf_WF in H. discriminate. Qed.
Theorem C43_looked : forall t, WF t -> exists m, Looked t m /\ forall m', Looked t m' -> m' = m.
Proof.
  intros t HW. pose proof (WF_nonempty _ HW) as H. exists (plaunder t). split; [apply Looked_spec; auto|]. intros m' X. apply Looked_spec in X; auto.
Qed.
Print Assumptions C43_looked.
(** a part of a well-formed type that is a datashape has dimensions *)
Lemma Looked_array t m : WF t -> Looked t m -> ~ IsDataShape m \/ shape m <> [].
Proof.
  intros HW HL. apply wf_WF in HW.
  assert (X : laundered m = true -> wf m = true -> ~ IsDataShape m \/ shape m <> []).
  { intros H1 H2. destruct m; try (left; intros [a [b Hab]]; discriminate). right. cbn in *.
    match goal with |- context[removelast ?l] => destruct l as [|p [|q ps]]; try discriminate end. }
  destruct HL as [n ps m H1 H2 H3|n ps m H1|m H1 H2|m]; auto.
  - cbn [wf] in HW. rewrite !andb_true_iff in HW. destruct HW as [_ HW]. rewrite forallb_forall in HW.
    assert (In m ps) by (subst m; apply last_In; auto). apply HW in H. apply andb_true_iff in H as [? ?]. auto.
  - cbn [wf] in HW. rewrite !andb_true_iff in HW. destruct HW as [_ HW]. rewrite forallb_forall in HW.
    assert (In (OptionT m) ps) by (rewrite <- H1; apply last_In; intros ->; discriminate). apply HW in H. apply andb_true_iff in H as [_ H].
    cbn [wf] in H. apply andb_true_iff in H as [? ?]. auto.
  - cbn [wf] in HW. apply andb_true_iff in HW as [? ?]. auto.
Qed.
Definition leaf (c : ty) : Prop := (exists n i a, c = CType n i a) \/ c = DateT \/ c = DateTimeT None.
Lemma leaf_eq c m : leaf c -> ~ IsDataShape m \/ shape m <> [] -> (py_eq c m = true <-> m = c) /\ (py_eq m c = true <-> m = c).
Proof.
  intros HC HM. assert (R : py_eq c c = true) by apply py_eq_refl.
  assert (A : py_eq c m = true -> m = c).
  { intro H. rewrite py_eq_unfold in H. destruct HC as [[n [i [a ->]]]|[->| ->]]; cbn in H; apply andb_true_iff in H as [H1 H2];
      (destruct HM as [HM|HM]; [|destruct (shape m); [congruence|discriminate]]);
      destruct m; try discriminate; try (elim HM; red; eauto; fail); cbn in H2.
    - rewrite !andb_true_iff in H2. destruct H2 as [[E1 E2] E3]. apply str_eqb_eq in E1. apply Z.eqb_eq in E2, E3. subst; auto.
    - reflexivity.
    - destruct tz; [discriminate|reflexivity]. }
  assert (B : py_eq m c = true -> m = c).
  { intro H. apply py_eq_split in H as [[v [-> Hc]]|[[ts [n [us [-> [Hc _]]]]]|[_ [H1 H2]]]];
      [destruct HC as [[n [i [a Ec]]]|[Ec|Ec]]; congruence|destruct HC as [[k [i [a Ec]]]|[Ec|Ec]]; congruence|].
    assert (S : shape c = [] /\ measure c = c) by (destruct HC as [[n [i [a ->]]]|[->| ->]]; auto). destruct S as [S1 S2]. rewrite S1 in H1. rewrite S2 in H2.
    assert (shape m = []) as Sm by (destruct (shape m); [auto|discriminate]). destruct HM as [HM|HM]; [|contradiction].
    assert (measure m = m) as Mm by (destruct m; auto; elim HM; red; eauto). rewrite Mm in H2.
    destruct HC as [[n [i [a ->]]]|[->| ->]]; destruct m; try discriminate; cbn in H2.
    - rewrite !andb_true_iff in H2. destruct H2 as [[E1 E2] E3]. apply str_eqb_eq in E1. apply Z.eqb_eq in E2, E3. subst; auto.
    - reflexivity.
    - destruct tz; [discriminate|reflexivity]. }
  split; (split; [auto|intros ->; auto]).
Qed.
Theorem C43_isreal : forall t m, WF t -> Looked t m -> isreal t = true <-> m = CType $"float32" 4 4 \/ m = CType $"float64" 8 8.
Proof.
  intros t m HW HL. pose proof (Looked_array _ _ HW HL) as HA. apply Looked_spec in HL; [|apply WF_nonempty; auto].
  unfold isreal. rewrite HL. cbn [in_types floating_types existsb]. rewrite andb_true_iff, !orb_true_iff.
  unfold ct. rewrite !(fun c H => proj1 (leaf_eq c m H HA)) by (left; eauto). split.
  - intros [_ [H|[H|H]]]; auto; discriminate.
  - intros [->| ->]; auto.
Qed.
Print Assumptions C43_isreal.
Theorem C43_isboolean : forall t m, WF t -> Looked t m -> isboolean t = true <-> m = CType $"bool" 1 1.
Proof.
  intros t m HW HL. pose proof (Looked_array _ _ HW HL) as HA. apply Looked_spec in HL; [|apply WF_nonempty; auto].
  unfold isboolean. rewrite HL. cbn [in_types boolean_types existsb]. rewrite orb_true_iff.
  unfold ct. rewrite (proj1 (leaf_eq _ m ltac:(left; eauto) HA)). split; [intros [H|H]; [auto|discriminate]|auto].
Qed.
Print Assumptions C43_isboolean.
Theorem C43_isdatelike : forall t m, WF t -> Looked t m -> isdatelike t = true <-> m = DateT \/ m = DateTimeT None.
Proof.
  intros t m HW HL. pose proof (Looked_array _ _ HW HL) as HA. apply Looked_spec in HL; [|apply WF_nonempty; auto].
  unfold isdatelike. rewrite HL, orb_true_iff.
  rewrite (proj2 (leaf_eq DateT m ltac:(right; left; auto) HA)), (proj2 (leaf_eq (DateTimeT None) m ltac:(right; right; auto) HA)). reflexivity.
Qed.
Print Assumptions C43_isdatelike.
(** surprising answers: iscollection of a bare record raises; isreal is False of float16;
    isdatelike is False of datetimes with a time zone *)
Example C43_iscollection_record : iscollection (RecordT [($"a", int32_t)]) = Raise KeyErr. Proof. reflexivity. Qed.
Example C43_isreal_float16 : exists t, dshape E0 $"float16" = Ok t /\ isreal t = false.
Proof. eexists. split; [vm_compute; reflexivity|reflexivity]. Qed.
Example C43_isdatelike_tz : exists t, dshape E0 $"datetime[tz='UTC']" = Ok t /\ isdatelike t = false.
Proof. eexists. split; [vm_compute; reflexivity|reflexivity]. Qed.
Example C43_nonvacuous : exists t u, dshape E0 $"?{a: int32}" = Ok t /\ isrecord t = true /\
  dshape E0 $"var * ?{a: int32}" = Ok u /\ istabular u = Ok true /\ iscollection u = Ok true.
Proof. eexists _, _. split; [vm_compute; reflexivity|]. split; [reflexivity|]. split; [vm_compute; reflexivity|]. split; reflexivity. Qed.
