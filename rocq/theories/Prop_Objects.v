(** C50-C55, C09 (the caret): datashape objects as Python objects. *)
From Verif Require Import Base Types Lexer Printer Construct Parser Ops Preds Numpy User Objects
  Spec_WF Spec_Eq Spec_Preds Spec_Print Spec_Numpy Spec_Objects
  Proof_WF Proof_Eq Proof_Parser Proof_Preds Proof_Preds2 Proof_Canon Proof_Promote Proof_Objects Spec_Ops Proof_Slice3 Proof_Repr Proof_Objects2
  Proof_Print Proof_Grammar Proof_Grammar2 Proof_Grammar3 Proof_Print2 Proof_Print3 Proof_Print4 Tests_Parser Prop_Parser Prop_Preds Prop_Eq Prop_Print.
Local Open Scope Z_scope.

(** ** C50. [type(t)( *t.parameters) == t] *)
Theorem C50_reconstructable : forall U reg t, WF t ->
  (forall n i a, t <> CType n i a) -> (forall l n, t <> TypeSetT l n) ->
  (forall s, t = TypeVarT s -> isupper U (hd 0%N s) = true) ->
  (forall c u o, t = CategoricalT c u o -> ~ IsDataShape u) ->
  exists t', rebuild U reg t = Ok t' /\ py_eq t' t = true /\ py_eq t t' = true /\
    (t' = t \/ exists n ps, t = DataShapeT n ps /\ t' = DataShapeT None ps).
Proof.
  intros U reg t H1 H2 H3 H4 H5. exists (unnamed t). destruct (unnamed_eqs t H1) as [X Y].
  split; [|split; [exact X|split; [exact Y|destruct t; eauto]]].
  apply rebuild_ok; auto. intros c u o E. destruct (is_DataShape u) eqn:D; auto. exfalso. apply (H5 c u o E).
  destruct u; try discriminate. red. eauto.
Qed.
Print Assumptions C50_reconstructable.
(** A CType cannot be rebuilt: its name is registered when it is created. *)
Theorem C50_ctype_refuted : forall U reg reg' n i a,
  reg_register ty n (CType n i a) reg = Ok reg' -> rebuild U reg' (CType n i a) = Raise TypeErr.
Proof.
  intros U reg reg' n i a H. destruct (C39_register_result ty reg' n (CType n i a)) as [_ X].
  cbn [rebuild]. rewrite (proj2 (X ltac:(
    unfold reg_register in H; destruct (assoc n reg); [discriminate|]; injection H as <-; left; reflexivity))). reflexivity.
Qed.
Print Assumptions C50_ctype_refuted.
(** nor a Categorical over an array: it becomes a Categorical over the array's measure *)
Theorem C50_categorical_refuted : exists t t', WF t /\ rebuild U0 [] t = Ok t' /\ py_eq t' t = false.
Proof.
  exists (CategoricalT [LInt 1] (DataShapeT None [FixedT 2; int64_t]) false), (CategoricalT [LInt 1] int64_t false).
  split; [apply wf_WF; vm_compute; reflexivity|split; vm_compute; reflexivity].
Qed.
Print Assumptions C50_categorical_refuted.
Definition big_type : ty :=
  DataShapeT (Some $"T") [VarT; RecordT [($"a b", OptionT (DataShapeT None [FixedT 3; StringT (Some 4) $"A"]));
    ($"f", FunctionT [DataShapeT None [TypeVarT $"M"]; DataShapeT None [TupleT [DataShapeT None [DecimalT 11 2]]]])]].
Example C50_example : WF big_type /\ (forall c u o, big_type <> CategoricalT c u o) /\
  rebuild U0 [] big_type = Ok (DataShapeT None (match big_type with DataShapeT _ ps => ps | _ => [] end)).
Proof. split; [apply wf_WF; vm_compute; reflexivity|split; [discriminate|vm_compute; reflexivity]]. Qed.

(** ** C51. Datashapes as sequences *)
Theorem C51_datashape : forall n ps, WF (DataShapeT n ps) ->
  let ds := DataShapeT n ps in let all := shape ds ++ [measure ds] in
  py_len ds = length all /\ py_iter ds = Ok all /\
  (forall i x, py_getitem ds i = Ok x <-> ItemAt all i x) /\
  (forall i e, py_getitem ds i = Raise e -> e = IndexErr) /\
  (forall a b c, py_getslice ds a b c = py_slice all a b c).
Proof. exact seq_datashape. Qed.
Print Assumptions C51_datashape.
(** slices, with steps of either sign *)
Theorem C51_slice : forall n ps a b c, WF (DataShapeT n ps) ->
  let ds := DataShapeT n ps in let all := shape ds ++ [measure ds] in
  (forall r, py_getslice ds a b c = Ok r <-> SliceOf all a b c r) /\
  (c = Some 0 -> py_getslice ds a b c = Raise ValueErr) /\
  (c <> Some 0 -> exists r, SliceOf all a b c r).
Proof.
  intros n ps a b c W ds all. destruct (C51_datashape n ps W) as (_ & _ & _ & _ & E). split; [|split].
  - intro r. unfold ds. rewrite E. apply py_slice_iff.
  - intros ->. unfold ds. rewrite E. reflexivity.
  - intro N. destruct (py_slice_walk all a b c N) as (r & _ & S). eauto.
Qed.
Print Assumptions C51_slice.
Example C51_slice_case : let ds := DataShapeT None [FixedT 3; VarT; int32_t] in
  py_getslice ds None None (Some (-1)) = Ok [int32_t; VarT; FixedT 3] /\
  SliceOf [FixedT 3; VarT; int32_t] None None (Some (-1)) [int32_t; VarT; FixedT 3] /\
  py_getslice ds (Some 7) (Some (-9)) (Some (-2)) = Ok [int32_t; FixedT 3].
Proof.
  split; [vm_compute; reflexivity|]. split; [|vm_compute; reflexivity]. apply py_slice_iff. vm_compute. reflexivity.
Qed.
(** [DataShape( *ds) == ds] *)
Theorem C51_unpack : forall n ps l, WF (DataShapeT n ps) -> py_iter (DataShapeT n ps) = Ok l ->
  exists d, mk_ds l = Ok d /\ py_eq d (DataShapeT n ps) = true /\ py_eq (DataShapeT n ps) d = true.
Proof.
  intros n ps l H E. injection E as <-. exists (DataShapeT None ps).
  split; [|destruct (unnamed_eqs _ H); auto].
  apply (rebuild_ok U0 [] (DataShapeT n ps)); auto; discriminate.
Qed.
Print Assumptions C51_unpack.
(** other objects are sequences of length one, themselves; records are not sequences *)
Theorem C51_measure : forall t, is_DataShape t = false -> is_Record t = false -> is_TypeSet t = false ->
  py_len t = 1%nat /\ py_iter t = Ok [t] /\
  (forall i x, py_getitem t i = Ok x <-> (i = 0 \/ i = -1) /\ x = t) /\
  (forall i e, py_getitem t i = Raise e -> e = IndexErr) /\
  (forall a b c r, py_getslice t a b c = Ok r <-> SliceOf [t] a b c r) /\
  (forall a b c e, py_getslice t a b c = Raise e <-> c = Some 0 /\ e = ValueErr).
Proof.
  intros t H1 H2 H3. destruct (seq_measure t H1 H2 H3) as (L & I & G & R & Sl).
  split; [exact L|]. split; [exact I|]. split; [exact G|]. split; [exact R|]. split.
  - intros a b c r. rewrite Sl. apply py_slice_iff.
  - intros a b c e. rewrite Sl. split.
    + intro H. destruct (option_eq_dec_0 c) as [->|N]; [split; auto; injection H; auto|].
      destruct (py_slice_walk [t] a b c N) as (r & E & _). congruence.
    + intros [-> ->]. reflexivity.
Qed.
Print Assumptions C51_measure.
Theorem C51_record_refuted : forall fs i a b c, py_getitem (RecordT fs) i = Raise KeyErr /\ py_iter (RecordT fs) = Raise KeyErr /\
  py_getslice (RecordT fs) a b c = Raise TypeErr.
Proof. intros. split; [reflexivity|split; reflexivity]. Qed.
Print Assumptions C51_record_refuted.
Example C51_example : let ds := DataShapeT None [FixedT 3; VarT; int32_t] in
  py_getitem ds 1 = Ok VarT /\ py_getitem ds (-1) = Ok int32_t /\ py_getitem ds (-3) = Ok (FixedT 3) /\
  py_getitem ds 3 = Raise IndexErr /\ py_getitem ds (-4) = Raise IndexErr /\
  py_getslice ds (Some 1) None None = Ok [VarT; int32_t].
Proof. repeat apply conj; vm_compute; reflexivity. Qed.

(** ** C52. [dshape] on any object *)
(** A datashape object is unchanged up to [==]: a measure is wrapped, a DataShape returned. *)
Theorem C52_object : forall E t, WF t -> is_TypeSet t = false -> ~ DimensionClass t -> AllGood t ->
  exists d, dshape_any E (ATy t) = Ok d /\ py_eq d t = true /\ py_eq t d = true /\ shape d = shape t /\ measure d = measure t.
Proof. intros E. exact dshape_object. Qed.
Print Assumptions C52_object.
(** the objects refused: bare dimensions, and objects with an array of two ellipses or with an
    ellipsis as measure; always with TypeError *)
Theorem C52_object_raises : forall E t e, WF t -> is_TypeSet t = false ->
  (dshape_any E (ATy t) = Raise e <-> e = TypeErr /\ ~ IsDataShape t /\ (DimensionClass t \/ ~ AllGood t)).
Proof. intros E. exact dshape_object_raises. Qed.
Print Assumptions C52_object_raises.
(** [dshape(dshape(o))] is [dshape(o)], whatever [o] was *)
Theorem C52_idempotent : forall E o d, disc_ok E -> dshape_any E o = Ok d -> dshape_any E (ATy d) = Ok d.
Proof. exact dshape_any_idem. Qed.
Print Assumptions C52_idempotent.
(** a list of ints and a measure is the array with these dimensions *)
Theorem C52_list : forall E dims s m, disc_ok E -> dims <> [] -> Forall (fun z => 0 <= z) dims ->
  dshape_any E (AStr s) = Ok (DataShapeT None [m]) ->
  dshape_any E (AList (map PInt dims ++ [PStr s])) = Ok (DataShapeT None (map FixedT dims ++ [m])).
Proof. intros E dims s m. exact (dshape_of_list E dims s m). Qed.
Print Assumptions C52_list.
(** ... but not if the text is an array itself *)
Theorem C52_list_refuted : exists d d', dshape_any E0 (AList [PInt 3; PStr $"2 * int32"]) = Ok d /\
  dshape_any E0 (AStr $"3 * 2 * int32") = Ok d' /\ py_eq d d' = false.
Proof.
  exists (DataShapeT None [FixedT 3; DataShapeT None [FixedT 2; int32_t]]), (DataShapeT None [FixedT 3; FixedT 2; int32_t]).
  split; [vm_compute; reflexivity|split; vm_compute; reflexivity].
Qed.
Print Assumptions C52_list_refuted.
Theorem C52_other : forall E, dshape_any E AOther = Raise TypeErr.
Proof. reflexivity. Qed.
Print Assumptions C52_other.
(** [dshapes(a, b, ...)] is [[dshape(a), dshape(b), ...]]; the first failure is the result *)
Theorem C52_dshapes : forall E l,
  (forall r, dshapes E l = Ok r <-> Forall2 (fun o d => dshape_any E o = Ok d) l r) /\
  (forall e, dshapes E l = Raise e <->
     exists pre o post r, l = pre ++ o :: post /\ Forall2 (fun o d => dshape_any E o = Ok d) pre r /\ dshape_any E o = Raise e).
Proof.
  intros E l. unfold dshapes. set (f := dshape_any E). clearbody f. induction l as [|o l [IH1 IH2]]; split.
  - intro r. cbn [mapM]. split; [intro H; injection H as <-; constructor|inversion 1; reflexivity].
  - intro e. cbn [mapM]. split; [discriminate|]. intros [pre [o [post [r [H _]]]]]. destruct pre; discriminate.
  - intro r. rewrite mapM_cons. split.
    + destruct (f o) as [d|] eqn:Eo; [|discriminate]. cbn [bind]. destruct (mapM f l) as [ds|] eqn:El; [|discriminate].
      cbn [bind]. intro H; injection H as <-. constructor; auto. apply IH1. reflexivity.
    + inversion 1; subst. rewrite H2. cbn [bind]. apply IH1 in H4. rewrite H4. reflexivity.
  - intro e. rewrite mapM_cons. split.
    + destruct (f o) as [d|e'] eqn:Eo.
      * cbn [bind]. destruct (mapM f l) as [ds|e'] eqn:El; [discriminate|]. cbn [bind]. intro H; injection H as <-.
        destruct (proj1 (IH2 e')) as [pre [o' [post [r [-> [H1 H2]]]]]]; [reflexivity|].
        exists (o :: pre), o', post, (d :: r). split; [reflexivity|]. split; auto.
      * cbn [bind]. intro H; injection H as <-. exists [], o, l, []. split; [reflexivity|]. split; auto.
    + intros [pre [o' [post [r [H [H1 H2]]]]]]. destruct pre as [|x pre].
      * injection H as <- _. rewrite H2. reflexivity.
      * injection H as <- ->. inversion H1; subst. rewrite H3. cbn [bind].
        assert (X : mapM f (pre ++ o' :: post) = Raise e) by (apply IH2; exists pre, o', post, l'; auto). rewrite X. reflexivity.
Qed.
Print Assumptions C52_dshapes.
Example C52_example :
  dshape_any E0 (AStr $"string") = Ok (DataShapeT None [string_t]) /\
  dshape_any E0 (AList [PInt 2; PInt 5; PStr $"string"]) = Ok (DataShapeT None [FixedT 2; FixedT 5; string_t]) /\
  dshape_any E0 (ATy (RecordT [($"a", int32_t)])) = Ok (DataShapeT None [RecordT [($"a", int32_t)]]) /\
  dshapes E0 [AStr $"3 * int32"; ATy int8_t] = Ok [DataShapeT None [FixedT 3; int32_t]; DataShapeT None [int8_t]] /\
  dshapes E0 [AStr $"3 * int32"; AOther; AStr $"*"] = Raise TypeErr.
Proof. repeat apply conj; vm_compute; reflexivity. Qed.

(** ** C09. The message shows the line with the error, and below it a caret under the
    offending character. *)
Theorem C09_caret : forall filename msg pos text c, nth_error text pos = Some c -> c <> 10%N ->
  exists before shown pointer after k,
    err_str filename msg (mk_syntax_error pos text) = before ++ [10%N] ++ shown ++ [10%N] ++ pointer ++ [10%N] ++ after /\
    before = [10; 10]%N ++ $"  File " ++ filename ++ $", line " ++ z2s (Z.of_nat (err_lineno (mk_syntax_error pos text))) /\
    after = [10%N] ++ $"DataShapeSyntaxError: " ++ msg ++ [10%N] /\
    NoNewline shown /\ NoNewline pointer /\
    nth_error shown k = Some c /\ nth_error pointer k = Some 94%N /\
    (forall j, nth_error pointer j = Some 94%N -> j = k) /\
    exists start, shown = $"    " ++ err_line (mk_syntax_error pos text) /\
      LineAt text (err_lineno (mk_syntax_error pos text)) (err_line (mk_syntax_error pos text)) start /\ k = (4 + (pos - start))%nat.
Proof. exact caret_spec. Qed.
Print Assumptions C09_caret.

(** ** C53. [eval(repr(ds)) == ds] for arrays, records and tuples whose texts need no escapes *)
Definition shown_by_dshape (t : ty) : Prop :=
  (exists n ps, t = DataShapeT n ps) \/ (exists fs, t = RecordT fs) \/ (exists l, t = TupleT l).
Theorem C53_eval_repr : forall E t, disc_ok E -> shown_by_dshape t -> Printable (e_uni E) t -> AllGood t ->
  Quiet (e_uni E) t ->
  exists lit text t', py_repr (e_uni E) t = $"dshape(" ++ lit ++ $")" /\ Literal lit text /\
    dshape E text = Ok t' /\ py_eq t' t = true /\ py_eq t t' = true.
Proof.
  intros E t HE HC HP HA HQ. set (U := e_uni E) in *.
  assert (X : exists m, py_repr U t = $"dshape(" ++ in_quotes (pp U m t) ++ $")").
  { destruct HC as [[n [ps ->]]|[[fs ->]|[l ->]]]; [exists (MPp 80)|exists MStr|exists MStr]; reflexivity. }
  destruct X as [m X].
  exists (in_quotes (pp U m t)), (pp U m t), (asds (norm t)).
  split; [exact X|]. split; [apply in_quotes_Literal; apply Quiet_Bare; auto|].
  assert (HM : IsMeasure t \/ IsDataShape t).
  { destruct HC as [[n [ps ->]]|[[fs ->]|[l ->]]]; [right; red; eauto| |]; left; (split; [intros [? [? ?]]; discriminate|split; [apply may_be_measure_spec; reflexivity|discriminate]]). }
  assert (HS : IsMeasure t -> shape t = []).
  { intros [Y _]. destruct HC as [[n [ps ->]]|[[fs ->]|[l ->]]]; [exfalso; apply Y; red; eauto|reflexivity|reflexivity]. }
  split; [apply (print_parse E t m); auto|]. destruct (print_parse_eq E t) as [H1 H2]; auto.
Qed.
Print Assumptions C53_eval_repr.
(** a field name with an apostrophe is printed in double quotes inside double quotes, so that
    what stands between the parentheses is no literal *)
Theorem C53_quote_refuted : let t := RecordT [($"it's", int32_t)] in
  WF t /\ AllGood t /\ dshape E0 (py_str U0 t) = Ok (DataShapeT None [t]) /\
  forall lit text, Literal lit text -> py_repr U0 t <> $"dshape(" ++ lit ++ $")".
Proof.
  intro t. split; [apply wf_WF; vm_compute; reflexivity|]. split.
  { intros n ps H. inversion H. }
  split; [vm_compute; reflexivity|]. intros lit text HL H.
  assert (E : lit = [34%N] ++ ($"{" ++ [34%N] ++ $"it's" ++ [34%N] ++ $": int32}") ++ [34%N]).
  { assert (H' : $"dshape(" ++ ([34%N] ++ ($"{" ++ [34%N] ++ $"it's" ++ [34%N] ++ $": int32}") ++ [34%N]) ++ $")" = $"dshape(" ++ lit ++ $")")
      by (rewrite <- H; vm_compute; reflexivity).
    apply app_inv_head, app_inv_tail in H'. symmetry. exact H'. }
  destruct HL as [s HB HN|s HB].
  - apply app_inv_head, app_inv_tail in E.
    subst s. unfold Bare in HB. rewrite Forall_forall in HB. destruct (HB 34%N) as [X _]; [vm_compute; auto|]. congruence.
  - discriminate.
Qed.
Print Assumptions C53_quote_refuted.
Example C53_example : let t := DataShapeT None [VarT; RecordT [($"amount", OptionT int64_t); ($"name", string_t)]] in
  Printable U0 t /\ AllGood t /\ Quiet U0 t /\
  py_repr U0 t = $"dshape(" ++ [34%N] ++ $"var * {amount: ?int64, name: string}" ++ [34%N] ++ $")".
Proof.
  intro t. assert (HD : dshape E0 $"var * {amount: ?int64, name: string}" = Ok t) by (vm_compute; reflexivity).
  destruct (C07_parse_wf _ _ _ disc_ok_E0 HD) as [_ [HW _]].
  pose proof HD as HA. apply dshape_exact in HA as [_ [_ [_ HA]]]; [|exact disc_ok_E0].
  assert (HO : forall u, Occurs u t -> In u [t; VarT; RecordT [($"amount", OptionT int64_t); ($"name", string_t)];
     OptionT int64_t; int64_t; string_t]).
  { apply occurs_dec; [simpl; auto|]. intros c [<-|[<-|[]]].
    - apply occurs_dec; [simpl; auto|intros ? []].
    - apply occurs_dec; [simpl; auto|]. intros c [<-|[<-|[]]].
      + apply occurs_dec; [simpl; auto|]. intros c [<-|[]]. apply occurs_dec; [simpl; auto 10|intros ? []].
      + apply occurs_dec; [simpl; auto 10|intros ? []]. }
  assert (M : forall t, is_DataShape t = false -> may_be_measure t = true -> is_Ellipsis t = false -> IsMeasure t).
  { intros x H1 H2 H3. split; [intros [? [? ->]]; discriminate|]. split; [apply may_be_measure_spec; auto|].
    intros o ->. discriminate. }
  split; [|split; [exact HA|split]].
  - split; [exact HW|]. intros u Hu. apply HO in Hu.
    destruct Hu as [<-|[<-|[<-|[<-|[<-|[<-|[]]]]]]].
    + split; [left; reflexivity|]. exists [VarT], (RecordT [($"amount", OptionT int64_t); ($"name", string_t)]).
      split; [reflexivity|]. split; [intros d [<-|[]]; right; left; reflexivity|apply M; reflexivity].
    + exact I.
    + intros n u [H|[H|[]]]; injection H as <- <-; (split; [|left; apply M; reflexivity]); left;
        (split; [constructor; [reflexivity|apply Forall_forall; intros c Hc; revert c Hc; apply Forall_forall; repeat constructor]|intros [[q H]|[q H]]; discriminate]).
    + split; [left; apply M; reflexivity|discriminate].
    + simpl; auto 20.
    + exact I.
  - intros u s Hu Hs. apply HO in Hu.
    assert (Q : forall x, forallb (fun c => (32 <=? c) && (c <=? 126) && negb (N.eqb c 34) && negb (N.eqb c 39) && negb (N.eqb c 92))%N x = true -> QuietText U0 x).
    { intros x Hx. apply Forall_forall. intros c Hc. rewrite forallb_forall in Hx. specialize (Hx c Hc). left.
      rewrite !andb_true_iff, !negb_true_iff, !N.eqb_neq, !N.leb_le in Hx. tauto. }
    destruct Hu as [<-|[<-|[<-|[<-|[<-|[<-|[]]]]]]]; cbn [texts map fst snd In t] in Hs; try contradiction;
      repeat (destruct Hs as [<-|Hs]; [apply Q; reflexivity|]); contradiction.
  - vm_compute. reflexivity.
Qed.

(** ** C54. Type sets *)
(** the number of distinct types *)
Theorem C54_len : forall l n, (forall x, In x l -> WF x /\ NoTypeSet x) ->
  exists r, py_len (TypeSetT l n) = length r /\ incl r l /\
    (forall i j a b, nth_error r i = Some a -> nth_error r j = Some b -> py_eq a b = true -> i = j) /\
    forall x, In x l -> exists y, In y r /\ py_eq y x = true.
Proof.
  intros l n H. destruct (mkset_spec l) as [r [H1 [H2 [H3 H4]]]].
  { intros a b Ha Hb. destruct (H a Ha), (H b Hb). apply C14_eq_sym; auto. }
  exists r. cbn [py_len]. rewrite H1, map_length. auto.
Qed.
Print Assumptions C54_len.
(** [x in (a | b)] iff [x in a] or [x in b] *)
Theorem C54_or : forall l n m k, exists u, ts_or (TypeSetT l n) (TypeSetT m k) = Ok (TypeSetT u None) /\
  forall x, in_typeset x u = true <-> in_typeset x l = true \/ in_typeset x m = true.
Proof.
  intros l n m k. exists (l ++ m). split; [reflexivity|]. intro x. unfold in_typeset. rewrite existsb_app. apply orb_true_iff.
Qed.
Print Assumptions C54_or.
Theorem C54_contains : forall x l, in_typeset x l = true <-> exists y, In y l /\ py_eq y x = true.
Proof. intros x l. apply existsb_exists. Qed.
Print Assumptions C54_contains.
(** equality is that of the sequences of types, not of the sets *)
Theorem C54_order_refuted : exists a b, (forall x, in_typeset x a = in_typeset x b) /\
  py_eq (TypeSetT a None) (TypeSetT b None) = false.
Proof.
  exists [int8_t; int16_t], [int16_t; int8_t]. split; [|vm_compute; reflexivity].
  intro x. unfold in_typeset. cbn [existsb]. destruct (py_eq int8_t x), (py_eq int16_t x); reflexivity.
Qed.
Print Assumptions C54_order_refuted.
(** matching a measure against a type set is membership... *)
Theorem C54_matches_measure : forall t x sig, WF t -> NoTypeSet t -> WF x -> NoTypeSet x ->
  is_DataShape t = false -> is_Record t = false ->
  matches_typeset t (x :: sig) = Ok (in_typeset t (x :: sig)).
Proof.
  intros t x sig W1 N1 W2 N2 D R. unfold matches_typeset. destruct (in_typeset t (x :: sig)) eqn:E; auto.
  assert (HI : py_iter t = Ok [t]).
  { destruct t; try reflexivity; try discriminate. exfalso. apply (N1 order name). constructor. }
  rewrite HI. cbn [bind match_zip].
  unfold in_typeset in E. cbn [existsb] in E. apply orb_false_iff in E as [E _].
  assert (X : (match x with TypeSetT l _ => in_typeset t l | _ => negb (py_ne t x) end) = false).
  { replace (match x with TypeSetT l _ => in_typeset t l | _ => negb (py_ne t x) end) with (negb (py_ne t x)).
    - unfold py_ne. rewrite negb_involutive. rewrite C14_eq_sym; auto.
    - destruct x; try reflexivity. exfalso. apply (N2 order name). constructor. }
  rewrite X. reflexivity.
Qed.
Print Assumptions C54_matches_measure.
(** ... matching two type sets is a comparison by position as far as both go *)
Theorem C54_matches_typesets : forall ts n sig, Forall (fun b => is_TypeSet b = false) sig ->
  matches_typeset (TypeSetT ts n) sig = Ok true <->
  (in_typeset (TypeSetT ts n) sig = true \/
   forall i a b, nth_error ts i = Some a -> nth_error sig i = Some b -> py_eq a b = true).
Proof.
  intros ts n sig HS. unfold matches_typeset. destruct (in_typeset _ _); [split; auto|]. cbn [py_iter bind].
  assert (X : match_zip ts sig = true <-> forall i a b, nth_error ts i = Some a -> nth_error sig i = Some b -> py_eq a b = true).
  { clear n. revert ts. induction HS as [|b sig Hb HS IH]; intros ts.
    - split; [intros _ [|i] ? ? _ H; discriminate|destruct ts; reflexivity].
    - destruct ts as [|a ts]; [split; [intros _ [|i] ? ? H; discriminate|reflexivity]|]. cbn [match_zip].
      replace (match b with TypeSetT l _ => in_typeset a l | _ => negb (py_ne a b) end) with (py_eq a b)
        by (destruct b; try discriminate; unfold py_ne; rewrite negb_involutive; reflexivity).
      rewrite andb_true_iff, IH. split.
      + intros [H1 H2] [|i] x y Hx Hy; [injection Hx as <-; injection Hy as <-; auto|eapply H2; eauto].
      + intro H. split; [apply (H O); reflexivity|]. intros i x y Hx Hy. apply (H (S i)); auto. }
  split.
  - intro H. injection H as H. right. apply X; auto.
  - intros [H|H]; [discriminate|]. apply X in H. rewrite H. reflexivity.
Qed.
Print Assumptions C54_matches_typesets.
Theorem C54_matches_refuted : (forall x, In x floating_l -> In x real_l) /\
  matches_typeset (TypeSetT floating_l (Some $"floating")) real_l = Ok false /\
  In complex64_t numeric_l /\ ~ In complex64_t integral_l /\
  matches_typeset (TypeSetT numeric_l (Some $"numeric")) integral_l = Ok true.
Proof.
  split; [intros x H; unfold real_l; apply in_app_iff; auto|]. split; [vm_compute; reflexivity|].
  split; [vm_compute; auto 20|]. split; [|vm_compute; reflexivity].
  cbn. intuition discriminate.
Qed.
Print Assumptions C54_matches_refuted.
(** [supertype] finds the family of a numeric type or of an optional one *)
Theorem C54_supertype : forall (opt : bool) m fam, In fam families -> In m fam ->
  supertype (if opt then OptionT m else m) = Ok fam.
Proof.
  intros opt m fam Hf Hm. unfold families in Hf. cbn [In] in Hf.
  repeat (destruct Hf as [<-|Hf]; [cbn [In] in Hm; repeat (destruct Hm as [<-|Hm]; [destruct opt; vm_compute; reflexivity|]); contradiction|]).
  contradiction.
Qed.
Print Assumptions C54_supertype.
(** ... and raises for everything else *)
Lemma no_match m : ~ IsDataShape m -> in_typeset m scalar_l = false -> match_zip [m] scalar_l = false.
Proof.
  intros D E. unfold scalar_l, boolean_l. cbn [app match_zip]. unfold py_ne. rewrite negb_involutive.
  assert (X : py_eq m bool_t = py_eq bool_t m).
  { destruct (py_eq bool_t m) eqn:Y.
    - unfold in_typeset in E. unfold scalar_l, boolean_l in E. cbn [app existsb] in E. rewrite Y in E. discriminate.
    - destruct (py_eq m bool_t) eqn:Y2; auto. exfalso. rewrite py_eq_unfold in Y2.
      destruct m; try discriminate; try (apply andb_true_iff in Y2 as [_ Y2]); try discriminate.
      + cbn [measure info_eqb bool_t] in Y2. rewrite !andb_true_iff in Y2. destruct Y2 as [[Z1 Z2] Z3].
        apply str_eqb_eq in Z1. apply Z.eqb_eq in Z2, Z3. subst. vm_compute in Y. discriminate.
      + apply D; red; eauto. }
  rewrite X. unfold in_typeset in E. unfold scalar_l, boolean_l in E. cbn [app existsb] in E.
  apply orb_false_iff in E as [-> _]. reflexivity.
Qed.
Theorem C54_supertype_raises : forall (opt : bool) m, ~ IsDataShape m -> is_TypeSet m = false ->
  (opt = false -> is_Option m = false) -> (forall fam, In fam families -> ~ In m fam) ->
  supertype (if opt then OptionT m else m) = Raise (match m with RecordT _ => KeyErr | _ => AssertErr end).
Proof.
  intros opt m D T O N.
  assert (E : supertype (if opt then OptionT m else m) =
              let! ok := matches_typeset m scalar_l in if ok then map_get m supertype_map else Raise AssertErr).
  { unfold supertype. destruct opt; [reflexivity|]. replace (get_ty m) with m; [reflexivity|].
    specialize (O eq_refl). destruct m; try reflexivity; discriminate. }
  rewrite E. clear E. destruct (in_typeset m scalar_l) eqn:I.
  - exfalso. apply in_scalar in I; [|intro X; apply D; destruct X as [n [x ->]]; red; eauto].
    apply in_concat in I as [fam [H1 H2]]. exact (N fam H1 H2).
  - unfold matches_typeset. rewrite I. destruct (is_Record m) eqn:R; [destruct m; try discriminate; reflexivity|].
    assert (P : py_iter m = Ok [m]) by (destruct m; try discriminate; try reflexivity; exfalso; apply D; red; eauto).
    rewrite P. cbn [bind]. rewrite no_match by assumption. destruct m; try discriminate; reflexivity.
Qed.
Print Assumptions C54_supertype_raises.
Theorem C54_supertype_only : forall (opt : bool) m fam, ~ IsDataShape m -> (opt = false -> is_Option m = false) ->
  supertype (if opt then OptionT m else m) = Ok fam -> In fam families /\ In m fam.
Proof.
  intros opt m fam D O H.
  assert (H' : (let! ok := matches_typeset m scalar_l in if ok then map_get m supertype_map else Raise AssertErr) = Ok fam).
  { unfold supertype in H. destruct opt; [exact H|]. replace (get_ty m) with m in H; [exact H|].
    specialize (O eq_refl). destruct m; try reflexivity; discriminate. }
  clear H. destruct (in_typeset m scalar_l) eqn:E.
  - apply in_scalar in E.
    + unfold families in E. cbn [concat app In] in E.
      repeat (destruct E as [<-|E]; [vm_compute in H'; injection H' as <-; vm_compute; auto 20|]). contradiction.
    + intro X. apply D. destruct X as [n [x ->]]. red. eauto.
  - unfold matches_typeset in H'. rewrite E in H'. destruct (is_TypeSet m) eqn:T.
    + destruct m; try discriminate. cbn [py_iter bind] in H'. rewrite map_get_typeset in H'. destruct (match_zip _ _); discriminate.
    + destruct (py_iter m) as [ts|] eqn:I; [|discriminate].
      assert (ts = [m]) as -> by (destruct m; try discriminate; try (injection I as <-; reflexivity); exfalso; apply D; red; eauto).
      cbn [bind] in H'. rewrite no_match in H' by assumption. discriminate.
Qed.
Print Assumptions C54_supertype_only.
Theorem C54_float16_refuted : supertype float16_t = Raise AssertErr /\ map_get float16_t supertype_map = Ok floating_l.
Proof. split; vm_compute; reflexivity. Qed.
Print Assumptions C54_float16_refuted.
(** a name means the first type set made with it; making another one raises TypeError *)
Theorem C54_names : forall pre l n post reg, n <> [] -> ts_getitem n reg = Raise KeyErr ->
  (forall p, In p pre -> snd p <> Some n) ->
  ts_getitem n (ts_run (pre ++ (l, Some n) :: post) reg) = Ok (TypeSetT l (Some n)).
Proof. exact ts_run_first. Qed.
Print Assumptions C54_names.
Theorem C54_name_taken : forall l n reg t, n <> [] -> ts_getitem n reg = Ok t -> ts_new l (Some n) reg = Raise TypeErr.
Proof.
  intros l n reg t Hn H. unfold ts_getitem in H. unfold ts_new. destruct n; [congruence|].
  destruct (assoc _ reg); [reflexivity|discriminate].
Qed.
Print Assumptions C54_name_taken.
Example C54_example :
  py_len (TypeSetT [int8_t; int16_t; int8_t] None) = 2%nat /\
  ts_or (TypeSetT boolean_l None) (TypeSetT floating_l None) = Ok (TypeSetT [bool_t; float32_t; float64_t] None) /\
  ts_getitem $"signed" (ts_run [(boolean_l, Some $"boolean"); (signed_l, Some $"signed"); (unsigned_l, Some $"signed")] [])
    = Ok (TypeSetT signed_l (Some $"signed")).
Proof. repeat apply conj; vm_compute; reflexivity. Qed.

(** ** C55. issubschema on any two objects: equality of the DataShapes they stand for *)
Theorem C55_equality : forall E a b x y depth, dshape_any E a = Ok x -> dshape_any E b = Ok y ->
  IsDataShape x -> IsDataShape y -> issubschema_any E (S (S depth)) a b = Ok (py_eq x y).
Proof.
  intros E a b x y n H1 H2 [? [? ->]] [? [? ->]]. apply issub_ok; auto.
Qed.
Print Assumptions C55_equality.
(** strings always stand for DataShapes, so for strings the comparison never fails to end *)
Theorem C55_strings : forall E s s' x y depth, disc_ok E -> dshape E s = Ok x -> dshape E s' = Ok y ->
  issubschema_any E (S (S depth)) (AStr s) (AStr s') = Ok (py_eq x y).
Proof.
  intros E s s' x y n HE H1 H2. apply C55_equality; auto.
  - apply (C07_parse_wf E s x HE H1).
  - apply (C07_parse_wf E s' y HE H2).
Qed.
Print Assumptions C55_strings.
(** ... but an object that [dshape] leaves as it is sends it into an endless recursion *)
Theorem C55_recursion_refuted : forall E a b x y depth, disc_ok E -> dshape_any E a = Ok x -> dshape_any E b = Ok y ->
  ~ IsDataShape x \/ ~ IsDataShape y -> issubschema_any E depth a b = Raise OutOfFuel.
Proof.
  intros E a b x y n HE H1 H2 HD. apply (issub_loop E n a b x y); auto.
  destruct HD as [HD|HD]; [left|right]; destruct (is_DataShape _) eqn:X; auto; exfalso; apply HD;
    apply isds_form in X as [? [? ->]]; red; eauto.
Qed.
Print Assumptions C55_recursion_refuted.
Example C55_example : issubschema_any E0 2 (AStr $"2 * int32") (AList [PInt 2; PStr $"int32"]) = Ok true /\
  issubschema_any E0 2 (AStr $"2 * int32") (AStr $"3 * int32") = Ok false /\
  (forall depth, issubschema_any E0 depth (ATy (OptionT int32_t)) (ATy (OptionT int32_t)) = Raise OutOfFuel).
Proof.
  split; [vm_compute; reflexivity|]. split; [vm_compute; reflexivity|]. intro n.
  apply (C55_recursion_refuted E0 _ _ (OptionT int32_t) (OptionT int32_t) n disc_ok_E0); try (vm_compute; reflexivity).
  left. intros [? [? ?]]. discriminate.
Qed.
