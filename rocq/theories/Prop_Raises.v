(** C71: every exception that [dshape] raises on a text, other than DataShapeSyntaxError, has its
    cause in the text, in one construct that is refused with this exception. *)
From Verif Require Import Base Types Lexer Printer Construct Parser Spec_Preds Spec_Grammar Spec_Constr Spec_Syntax Spec_Raises
  Proof_Parser Proof_Raises2 Proof_Raises3 Proof_Raises4 Proof_Raises5 Tests_Parser.

Theorem C71_cause : forall E s e, disc_ok E -> dshape E s = Raise e -> (forall p m, e <> SyntaxErr p m) ->
  Cause E (dshape E) s e.
Proof. exact dshape_cause. Qed.
Print Assumptions C71_cause.

(** the exceptions of a constructor *)
Theorem C71_call : forall E dsh n ps c args kw e, In (n, ps) signatures -> constr_fun E dsh n = Some c -> NoDup (map fst kw) ->
  c args kw = Raise e ->
  (e = TypeErr /\ forall b, ~ Bound ps args kw b) \/
  exists b, Bound ps args kw b /\ (Refuses E dsh n b e \/ (e = NotModelled /\ Odd n b)).
Proof. exact constr_refused. Qed.
Print Assumptions C71_call.
(** and nothing that the table refuses is accepted *)
Theorem C71_call_refused : forall E dsh n ps c args kw b e, In (n, ps) signatures -> constr_fun E dsh n = Some c -> NoDup (map fst kw) ->
  Bound ps args kw b -> Refuses E dsh n b e -> exists e', c args kw = Raise e'.
Proof. exact constr_refuses. Qed.
Print Assumptions C71_call_refused.
Theorem C71_string : forall E dsh c args kw, constr_fun E dsh $"string" = Some c ->
  (forall e, args <> [] \/ kw <> [] -> c args kw = Raise e -> RefusesString args kw e \/ (e = NotModelled /\ OddString args /\ kw = [])) /\
  (forall e, RefusesString args kw e -> exists e', c args kw = Raise e').
Proof. intros E dsh c args kw H. split; [intros e; apply (string_refused E dsh c args kw e H)|intros e; apply (string_refuses E dsh); exact H]. Qed.
Print Assumptions C71_string.

(** Exceptions that no reader of a text expects come only from constructs of these names, in the
    text or in a string argument read as a text; or from [discover] on the categories. *)
Theorem C71_names : forall E s e, disc_ok E -> dshape E s = Raise e -> In e [IndexErr; AttributeErr; UnboundErr; NotImplErr] ->
  exists u b n a, Within s u /\ map kv (fst (lex u)) = b ++ (KLower, VStr n) :: tok KLBk :: a /\
    (In n (culprits e) \/ (n = $"categorical" /\ exists l, e_disc E l = Raise e)).
Proof. exact culprits_found. Qed.
Print Assumptions C71_names.

(** every exception occurs *)
Example C71_occurs :
  dshape E0 $"string[int32]" = Raise UnboundErr /\
  dshape E0 $"categorical[['a'], type='x']" = Raise AttributeErr /\
  dshape E0 $"fixed[3] * int32" = Raise NotImplErr /\
  dshape E0 $"timedelta['']" = Raise IndexErr /\
  dshape E0 $"{a: int32, a: int32}" = Raise ValueErr /\
  dshape E0 $"-3 * int32" = Raise ValueErr /\
  dshape E0 $"3 * option['-3 * int32']" = Raise ValueErr /\
  dshape E0 $"decimal['a']" = Raise NotModelled /\
  dshape E0 $"... * ... * int32" = Raise TypeErr.
Proof. vm_compute. repeat split; reflexivity. Qed.
Example C71_case : Refused E0 (dshape E0) ((KLower, VStr $"string") :: tok KLBk :: [(KLower, VStr $"int32")] ++ [tok KRBk]) UnboundErr.
Proof.
  apply X_string with [ADs (DataShapeT None [CType $"int32" 4 4])] [].
  - apply A_one, AR_ds, DS_plain. eapply NO_dtype; [apply DT_type; reflexivity| |reflexivity].
    intros [n [c [v [r [X _]]]]]. discriminate.
  - left. discriminate.
  - left. apply RS_argument. eauto.
Qed.
Example C71_call_case : exists c, constr_fun E0 (dshape E0) $"timedelta" = Some c /\ c [AStr $"sss"] [] = Raise IndexErr.
Proof. eexists. split; [reflexivity|vm_compute; reflexivity]. Qed.
