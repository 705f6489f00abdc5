(** C68: the messages of assert_dshape_equal (Messages.v, Spec_Messages.v). *)
From Verif Require Import Base Types Lexer Printer Construct Parser Ops Preds Objects Spec_WF Spec_Ops Spec_Preds Report Spec_Report
  Messages Spec_Messages Proof_Report Proof_Messages Tests_Parser.
Local Open Scope Z_scope.

(** C68. The message of an AssertionError is a headline that describes a difference, and a line
    with the path (C56): the first part [r] of the path leads from both arguments to two objects
    [x] and [y], and the headline says in which respect [s] they differ. The only messages without
    a path are those about a datetime beside a time. *)
Theorem C68_message : forall U F a b m, WF a -> WF b -> assert_msg U F a b = Fails m ->
  exists p, assert_at F a b = FailAt p /\
  ((exists r s x y h, p = r ++ s /\ Follow (PvTy a) r (PvTy x) /\ Follow (PvTy b) r (PvTy y) /\ Says U F x y s h /\
      m = h ++ newline ++ fmt_path U p) \/
   (p = [] /\ exists r x y, Follow (PvTy a) r (PvTy x) /\ Follow (PvTy b) r (PvTy y) /\
      m = py_str U x ++ $" != " ++ py_str U y ++ newline /\
      match x, y with DateTimeT _, TimeT _ | TimeT _, DateTimeT _ => True | _, _ => False end)).
Proof.
  intros U F a b m Wa Wb H. pose proof (msg_lock U F (Datatypes.S (tsize a)) [] a b Wa Wb) as L.
  unfold assert_msg in H. rewrite H in L. unfold assert_at. destruct (assert_atF _ _ _ _ _) as [|p|e]; try contradiction.
  exists p. split; auto.
Qed.
Print Assumptions C68_message.

(** this is the same [assert_dshape_equal] as in C41 *)
Theorem C68_same : forall U F a b, WF a -> WF b -> assert_dshape_equal F a b =
  match assert_msg U F a b with Passes => Ok tt | Fails _ => Raise AssertErr | Raises e => Raise e end.
Proof.
  intros U F a b Wa Wb. pose proof (msg_lock U F (Datatypes.S (tsize a)) [] a b Wa Wb) as L.
  unfold assert_dshape_equal. rewrite <- (erase_assert F _ []). unfold assert_msg.
  destruct (msgF _ _ _ _ _ _), (assert_atF _ _ _ _ _); try contradiction; cbn [erase]; auto. simpl in L. congruence.
Qed.
Print Assumptions C68_same.

Definition said (s u : str) : option str :=
  match dshape E0 s, dshape E0 u with
  | Ok a, Ok b => match assert_msg U0 default_flags a b with Fails m => Some m | _ => None end
  | _, _ => None
  end.
Example C68_case :
  said $"3 * 4 * int32" $"3 * 5 * int32" =
    Some ($"dimensions do not match: 4 != 5" ++ newline ++ $"3 * 4 != 3 * 5" ++ newline ++ $"path: _.shape[1]") /\
  said $"{a: (int8, decimal[9, 2])}" $"{a: (int8, decimal[9, 3])}" =
    Some ($"decimal scales do not match: 2 != 3" ++ newline ++ $"path: _.measure['a'].dshapes[1].measure.scale") /\
  said $"{a: int32, b: int32}" $"{a: int32, c: int32}" =
    Some ($"record field name at position 1 does not match: 'b' != 'c'" ++ newline ++ $"path: _.measure") /\
  said $"{a: int32}" $"{a: int32, c: int32}" =
    Some ($"records have mismatched field counts: 1 != 2" ++ newline ++ $"['a'] != ['a', 'c']" ++ newline ++ $"path: _.measure") /\
  said $"?int32" $"?date" = Some ($"int32 != date" ++ newline ++ $"path: _.measure.ty") /\
  said $"categorical[['a'], type=string]" $"categorical[['b', 'c'], type=string]" =
    Some ($"categorical categoriess do not match: ('a',) != ('b', 'c')" ++ newline ++ $"path: _.measure.categories").
Proof. repeat split; vm_compute; reflexivity. Qed.
