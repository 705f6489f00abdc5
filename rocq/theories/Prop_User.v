(** C40: validate. *)
From Verif Require Import Base Types Lexer Construct Parser Ops Preds User Spec_WF Spec_Preds Spec_User
  Proof_WF Proof_Ops Proof_Preds3 Proof_User Proof_User2 Tests_Parser.
Local Open Scope Z_scope.

(** [validate] says yes exactly to the valid values: for every schema (ellipses included), every
    value and whatever numpy answers. *)
Theorem C40_exact : forall np t v, WF t -> (validate_value np t v = Ok true <-> Valid np t v).
Proof. intros np t v HW. apply (proj1 (validate_good np t v HW)). Qed.
Print Assumptions C40_exact.
(** It raises only if the schema has an ellipsis (TypeError), the value holds a numpy array without
    dimensions (infinite recursion), or numpy's test of a scalar raises. *)
Theorem C40_raises : forall np t v e, WF t -> validate_value np t v = Raise e ->
  (e = TypeErr /\ exists o, Occurs (EllipsisT o) t) \/
  (e = RecursionErr /\ exists d, Inside (VArray d) v /\ ~ IsDataShape d) \/
  (exists n i a x, Occurs (CType n i a) t /\ np (CType n i a) x = Raise e).
Proof. intros np t v e HW. apply (proj2 (validate_good np t v HW)). Qed.
Print Assumptions C40_raises.

(** For every schema without ellipsis and every value, [validate] answers, and it answers true
    exactly for the valid values (numpy arrays without dimensions aside, see below). The numpy test on scalars is any function that does not raise. *)
Theorem C40_validate : forall np, (forall t v, exists b, np t v = Ok b) ->
  forall t v, WF t -> (forall o, ~ Occurs (EllipsisT o) t) -> NoScalarArrays v ->
  exists b, validate_value np t v = Ok b /\ (b = true <-> Valid np t v).
Proof. intros np Hnp t v HW HE HV. apply valid_spec; auto. Qed.
Print Assumptions C40_validate.

(** fixed dimensions: the right number of valid elements (whatever the rest of the schema and
    whatever numpy answers) *)
Theorem C40_fixed : forall np n k rest v items, let schema := DataShapeT n (FixedT k :: rest) in
  rest <> [] -> WF schema -> Seq v items ->
  (validate_value np schema v = Ok true <->
   Z.of_nat (length items) = k /\
   forall item, In item items -> validate_value np (DataShapeT None rest) item = Ok true).
Proof.
  intros np n k rest v items schema Hr HW HS. unfold schema in *. rewrite (validate_dim np n (FixedT k) rest v items); eauto.
  split; intros [H1 H2]; split; auto. intros k' E. injection E as <-. auto.
Qed.
Print Assumptions C40_fixed.
(** variable dimensions: any number of valid elements *)
Theorem C40_var : forall np n rest v items, let schema := DataShapeT n (VarT :: rest) in
  rest <> [] -> WF schema -> Seq v items ->
  (validate_value np schema v = Ok true <->
   forall item, In item items -> validate_value np (DataShapeT None rest) item = Ok true).
Proof.
  intros np n rest v items schema Hr HW HS. unfold schema in *. rewrite (validate_dim np n VarT rest v items); eauto.
  split; [tauto|]. intro H. split; auto. intros; discriminate.
Qed.
Print Assumptions C40_var.
(** records and dicts: every field's value ([None] for a missing field) validates *)
Theorem C40_record_dict : forall np fs d, WF (RecordT fs) ->
  (validate_value np (RecordT fs) (VDict d) = Ok true <->
   forall k t, In (k, t) fs ->
     validate_value np t (match assoc k d with Some v => v | None => VNone end) = Ok true).
Proof.
  intros np fs d HW. unfold validate_value at 1. cbn [validF]. rewrite allM_true. split.
  - intros H k t Hin. specialize (H (k, t) Hin). cbn [snd fst] in H. rewrite validate_fuel in H; auto.
    + rewrite tsize_Record. apply fsize_In in Hin. cbn [snd] in Hin. lia.
    + eapply WF_child; [exact HW|]. apply (in_map snd) in Hin. exact Hin.
  - intros H [k t] Hin. specialize (H k t Hin). cbn [snd fst]. rewrite validate_fuel; auto.
    + rewrite tsize_Record. apply fsize_In in Hin. cbn [snd] in Hin. lia.
    + eapply WF_child; [exact HW|]. apply (in_map snd) in Hin. exact Hin.
Qed.
Print Assumptions C40_record_dict.
(** nothing accepts None, not even an option *)
Theorem C40_none_never : forall np t, validate_value np t VNone = Ok false.
Proof. intros np t. apply validF_none. lia. Qed.
Print Assumptions C40_none_never.
(** a tuple of schemas accepts what one of them accepts, a string is parsed first *)
Theorem C40_tuple_schema : forall np isinst E l v,
  (forall s, In s l -> exists b, validate_schema np isinst E s v = Ok b) ->
  (validate_schema np isinst E (SchTuple l) v = Ok true <-> exists s, In s l /\ validate_schema np isinst E s v = Ok true).
Proof.
  intros np isinst E l v. induction l as [|s l IH]; intro H.
  - simpl. split; [discriminate|]. intros [? [[] _]].
  - destruct (H s (or_introl eq_refl)) as [b Hb].
    assert (IH' := IH (fun s Hs => H s (or_intror Hs))). clear IH.
    change (validate_schema np isinst E (SchTuple (s :: l)) v) with
      (let! b := validate_schema np isinst E s v in if b then Ok true else validate_schema np isinst E (SchTuple l) v).
    rewrite Hb. cbn [bind]. destruct b.
    + split; auto. intros _. exists s. split; [left|]; auto.
    + rewrite IH'. split.
      * intros [s' [H1 H2]]. exists s'. split; [right|]; auto.
      * intros [s' [[<-|H1] H2]]; [congruence|]. eauto.
Qed.
Print Assumptions C40_tuple_schema.

(** a record accepts a tuple of another length: fields without item and items without field are
    not checked *)
Definition np_int (t : ty) (v : value) : res bool :=
  Ok (match t, v with CType n _ _, VInt _ => str_eqb n $"int64" || str_eqb n $"int32" | _, _ => false end).
Theorem C40_short_tuple_refuted : exists t, dshape E0 $"{x: int64, y: int64}" = Ok t /\
  validate_value np_int t (VTuple [VInt 1]) = Ok true /\ validate_value np_int t (VTuple [VInt 1; VInt 2; VNone]) = Ok true.
Proof. eexists. split; [vm_compute; reflexivity|]. split; reflexivity. Qed.
(** options accept nothing, ellipses raise *)
Theorem C40_option_refuted : exists t, dshape E0 $"?int64" = Ok t /\ validate_value np_int t (VInt 1) = Ok false.
Proof. eexists. split; [vm_compute; reflexivity|]. reflexivity. Qed.
Theorem C40_ellipsis_refuted : exists t, dshape E0 $"... * int64" = Ok t /\ validate_value np_int t (VList [VInt 1]) = Raise TypeErr.
Proof. eexists. split; [vm_compute; reflexivity|]. reflexivity. Qed.
(** the datashape of an array without dimensions is no DataShape, and issubschema recurses for ever *)
Theorem C40_scalar_array_refuted : forall np n m i a, validate_value np (DataShapeT n [m]) (VArray (CType $"int64" i a)) = Raise RecursionErr.
Proof. reflexivity. Qed.
Example np_int_total : forall t v, exists b, np_int t v = Ok b.
Proof. intros; eexists; reflexivity. Qed.
Example C40_nonvacuous : exists t, dshape E0 $"2 * var * {x: int64, y: string}" = Ok t /\
  validate_value np_int t (VList [VTuple [VDict [($"y", VString $"a"); ($"x", VInt 1)]]; VList []]) = Ok true /\
  validate_value np_int t (VList [VTuple [VDict [($"y", VString $"a")]]; VList []]) = Ok false /\
  validate_value np_int t (VList [VList []]) = Ok false.
Proof. eexists. split; [vm_compute; reflexivity|]. repeat split; reflexivity. Qed.
