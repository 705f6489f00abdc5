(** C56: the paths reported by assert_dshape_equal (Report.v, Spec_Report.v). *)
From Coq Require Import Sorting.Permutation.
From Verif Require Import Base Types Lexer Printer Construct Parser Ops Preds Spec_WF Spec_Ops Spec_Preds Report Spec_Report
  Proof_Report Tests_Parser.
Local Open Scope Z_scope.

(** C56. Whenever AssertionError is raised, the path in the message can be followed from both
    arguments, leads to two different values, and leads as far as possible (to a dimension, to
    an attribute, or to two objects with nothing left to compare). The one exception: the
    message about a datetime beside a time has no path. *)
Theorem C56_path : forall F a b p, WF a -> WF b -> assert_at F a b = FailAt p ->
  (exists x y, Follow (PvTy a) p x /\ Follow (PvTy b) p y /\ ~ Same x y /\ Deep F p x y) \/
  (p = [] /\ exists r z w,
     (Follow (PvTy a) r (PvTy (DateTimeT z)) /\ Follow (PvTy b) r (PvTy (TimeT w))) \/
     (Follow (PvTy a) r (PvTy (TimeT z)) /\ Follow (PvTy b) r (PvTy (DateTimeT w)))).
Proof.
  intros F a b p Wa Wb H. apply assert_found in H as [H|[r [x [y [-> H]]]]]; auto. left. exists x, y. exact H.
Qed.
Print Assumptions C56_path.
(** this is the same [assert_dshape_equal] as in C41 *)
Theorem C56_same : forall F a b, assert_dshape_equal F a b =
  match assert_at F a b with Pass => Ok tt | FailAt _ => Raise AssertErr | Other e => Raise e end.
Proof. intros. symmetry. apply (erase_assert F). Qed.
Print Assumptions C56_same.
(** the places are determined: with distinct field names a path leads to one value only *)
Theorem C56_follow_unique : forall p t x y, WF t -> Follow (PvTy t) p x -> Follow (PvTy t) p y -> x = y.
Proof. exact Follow_unique. Qed.
Print Assumptions C56_follow_unique.

Definition report (s u : str) : option str :=
  match dshape E0 s, dshape E0 u with
  | Ok a, Ok b => match assert_at default_flags a b with FailAt p => Some (fmt_path U0 p) | _ => None end
  | _, _ => None
  end.
Example C56_paths :
  report $"3 * {a: int32, b: ?(int32, 4 * string['A'])}" $"3 * {a: int32, b: ?(int32, 4 * string)}"
    = Some $"path: _.measure['b'].ty.dshapes[1].measure.encoding" /\
  report $"(int8, 3 * decimal[9, 2]) -> int8" $"(int8, 3 * decimal[9, 3]) -> int8" = Some $"path: _.measure.argtypes[1].measure.scale" /\
  report $"3 * 4 * int32" $"3 * 5 * int32" = Some $"path: _.shape[1]".
Proof. vm_compute. auto. Qed.
(** the exception does occur, at any depth *)
Theorem C56_clock_refuted : exists a b x y, dshape E0 $"3 * {a: datetime}" = Ok a /\ dshape E0 $"3 * {a: time}" = Ok b /\
  assert_at default_flags a b = FailAt [] /\
  Follow (PvTy a) [StAttr $"measure"; StKey $"a"] x /\ Follow (PvTy b) [StAttr $"measure"; StKey $"a"] y /\ ~ Same x y.
Proof.
  eexists _, _, (PvTy (DateTimeT None)), (PvTy (TimeT None)).
  split; [vm_compute; reflexivity|]. split; [vm_compute; reflexivity|]. split; [reflexivity|].
  split; [|split].
  - econstructor; [apply (Get_measure None [FixedT 3] _)|]. econstructor; [apply Get_field; left; reflexivity|constructor].
  - econstructor; [apply (Get_measure None [FixedT 3] _)|]. econstructor; [apply Get_field; left; reflexivity|constructor].
  - intro H. inversion H; discriminate.
Qed.
Print Assumptions C56_clock_refuted.
