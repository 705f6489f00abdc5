(** C13: reading, printing and reading again. The environment is the real one: Categorical
    without a type calls [discover] (C47). [U]: Unicode properties; [sc], [so]: as in Prop_Discovery.v. *)
From Verif Require Import Base Types Lexer Printer Construct Parser Ops Preds Numpy Graph Discovery
  Spec_Lexer Spec_WF Spec_Preds Spec_Print Spec_Found Proof_Discovery7 Prop_Print Proof_Reads Tests_Parser Tests_Discovery.

(** Every text that [dshape] accepts denotes a datashape that is printed as a text with the
    same meaning, provided it is [Writable] (Spec_Print.v). *)
Theorem C13_parse_print_parse : forall U sc so s t, dates_ok so ->
  dshape (full_env U sc so) s = Ok t -> Writable U t ->
  exists t', dshape (full_env U sc so) (py_str U t) = Ok t' /\ py_eq t' t = true /\ py_eq t t' = true.
Proof.
  intros U sc so s t Hso H HW. apply (parse_print_lexable (full_env U sc so) s t); auto; [apply full_env_ok; auto|].
  intros u Hu. apply reads_lexable; [|apply HW; auto]. exact (PDS_PP _ (dshape_PDS _ _ _ _ _ Hso H) u Hu).
Qed.
Print Assumptions C13_parse_print_parse.
(** Without that condition the statement is false. *)
Definition NotReadBack (s : str) : Prop :=
  exists t, dshape E0 s = Ok t /\ (exists e, dshape E0 (py_str U0 t) = Raise e).
Definition ReadDifferently (s : str) : Prop :=
  exists t t', dshape E0 s = Ok t /\ dshape E0 (py_str U0 t) = Ok t' /\ py_eq t' t = false.
Ltac nrb := eexists; split; [vm_compute; reflexivity|eexists; vm_compute; reflexivity].
(** field names that begin with [True] or [False] *)
Theorem C13_true_refuted : NotReadBack $"{'True': int32}" /\ NotReadBack $"{'Falsehood': int32}".
Proof. split; nrb. Qed.
Print Assumptions C13_true_refuted.
(** an identifier followed by a newline loses the newline *)
Theorem C13_newline_refuted : ReadDifferently $"{'abc\n': int32}".
Proof. eexists. eexists. split; [vm_compute; reflexivity|split; vm_compute; reflexivity]. Qed.
Print Assumptions C13_newline_refuted.
(** backspace, form feed, backslash, unprintable characters below 256 *)
Theorem C13_escape_refuted : NotReadBack $"{'a\b': int32}" /\ NotReadBack $"{'a\f': int32}" /\
  NotReadBack $"{'a\u005cb': int32}" /\ NotReadBack $"{'\u0080': int32}".
Proof. repeat split; nrb. Qed.
Print Assumptions C13_escape_refuted.
(** options of options, dimensions as element types *)
Theorem C13_option_refuted : NotReadBack $"option[option[int32]]" /\ NotReadBack $"option[5]" /\
  NotReadBack $"struct[['a'], [5]]".
Proof. repeat split; nrb. Qed.
Print Assumptions C13_option_refuted.
(** more than ten categories *)
Theorem C13_categories_refuted :
  NotReadBack $"categorical[[0, 1, 2, 3, 4, 5, 6, 7, 8, 9, 10], type=int64]".
Proof. nrb. Qed.
Print Assumptions C13_categories_refuted.

(** strings other than field names: time zones, units, categories *)
Theorem C13_strings_refuted : NotReadBack $"time['\u0080']" /\ NotReadBack $"datetime[tz='a\b']" /\
  NotReadBack $"units['\u005c']" /\ NotReadBack $"categorical[['a\f'], type=string]".
Proof. repeat split; nrb. Qed.
Print Assumptions C13_strings_refuted.
(** dimensions and ellipses as fields, tuple items and parameters of functions; an item after
    the first is even dropped silently *)
Theorem C13_dimension_refuted : NotReadBack $"struct[['a'], ... * int32]" /\ NotReadBack $"struct[['a'], var * int32]" /\
  NotReadBack $"tuple[... * int32]" /\ NotReadBack $"funcproto[3 * int32, int32]" /\
  NotReadBack $"funcproto[... * int32, int32]".
Proof. repeat split; nrb. Qed.
Print Assumptions C13_dimension_refuted.
(** a parameter that is an option of an array is read back as an array *)
Theorem C13_parameter_refuted : ReadDifferently $"funcproto[?2 * int32, int32]".
Proof. eexists. eexists. split; [vm_compute; reflexivity|split; vm_compute; reflexivity]. Qed.
Print Assumptions C13_parameter_refuted.
(** type variables whose name is not the name of a type variable *)
Theorem C13_typevar_refuted : NotReadBack $"var typevar['A b']" /\ NotReadBack $"var typevar['True']".
Proof. split; nrb. Qed.
Print Assumptions C13_typevar_refuted.
(** numbers are no types, but as parts of a map they are read back *)
Example C13_map : exists t, dshape (full_env U0 sc1 so0) $"map[5, map[?6, int32]]" = Ok t /\ Writable U0 t /\
  dshape (full_env U0 sc1 so0) (py_str U0 t) = Ok t.
Proof.
  eexists. split; [vm_compute; reflexivity|]. split; [|vm_compute; reflexivity].
  Ltac wr := refine (occurs_dec (WritablePart U0) _ _ _); [first [exact I|discriminate|intros ? X; vm_compute in X; discriminate]|
    let c := fresh "c" in let H := fresh "H" in intros c H; cbn in H; repeat (destruct H as [<-|H]); [wr ..|contradiction]].
  wr.
Qed.
(** a nested datashape, with a categorical whose type is discovered *)
Example C13_nested : exists t, dshape (full_env U0 sc1 so0) $"3 * {a: ?int32, b: categorical[['x', 'y']], 'c': (A... * Key, units['m']) -> map[string['A'], N * date]}" = Ok t /\
  Writable U0 t /\ dshape (full_env U0 sc1 so0) (py_str U0 t) = Ok t.
Proof.
  eexists. split; [vm_compute; reflexivity|]. split; [|vm_compute; reflexivity].
  assert (HI : forall t, may_be_measure t = true -> is_Ellipsis t = false -> IsType t).
  { intros t H1 H2. split; [apply Proof_WF.may_be_measure_spec; auto|intros o ->; discriminate]. }
  assert (HQ : forall c, (97 <=? c)%N && (c <=? 122)%N = true -> Quotable U0 [c]).
  { intros c Hc. apply andb_true_iff in Hc as [H1 H2]. apply N.leb_le in H1, H2. constructor; [left; lia|constructor]. }
  assert (HN : forall c, (97 <=? c)%N && (c <=? 122)%N = true -> PrintableName U0 [c]).
  { intros c Hc. left. split; [constructor; [apply orb_true_intro; left; apply orb_true_intro; left; exact Hc|constructor]|].
    intros [[q H]|[q H]]; destruct q; discriminate. }
  assert (HU : forall s, match s with c :: r => is_upper c && forallb is_name_char r | [] => false end = true ->
    (forall q, s <> $"True" ++ q) -> (forall q, s <> $"False" ++ q) -> UpperName s).
  { intros [|c r] H H1 H2; [discriminate|]. apply andb_true_iff in H as [Hc Hr]. split.
    - constructor; auto. apply Forall_forall. intros x Hx. rewrite forallb_forall in Hr. auto.
    - intros [[q H]|[q H]]; [apply (H1 q)|apply (H2 q)]; auto. }
  Ltac one HI HQ HN HU := first [exact I|discriminate|intros ? X; vm_compute in X; discriminate
    |apply HU; [reflexivity|discriminate..]|apply HQ; reflexivity
    |split; [apply HI; reflexivity|discriminate]
    |split; [cbn; lia|intros ? H; repeat (destruct H as [H|H]; [injection H as <-; apply HQ; reflexivity|]); contradiction]
    |intros ? ? H; repeat (destruct H as [H|H]; [injection H as <- <-; split; [apply HN; reflexivity|apply HI; reflexivity]|]); contradiction
    |intros ? H; repeat (destruct H as [<-|H]; [split; [apply HI; reflexivity|left; red; eauto]|]); contradiction].
  Ltac wr2 HI HQ HN HU := refine (occurs_dec (WritablePart U0) _ _ _); [one HI HQ HN HU|
    let c := fresh "c" in let H := fresh "H" in intros c H; cbn in H; repeat (destruct H as [<-|H]); [wr2 HI HQ HN HU ..|contradiction]].
  wr2 HI HQ HN HU.
Qed.
