(** C57: parsing with a symbol table of one's own. *)
From Verif Require Import Base Types Lexer Printer Construct Parser Spec_Lexer Proof_Lexer Spec_Grammar Proof_Grammar Proof_Grammar3 Proof_Parser
  Spec_Symbols Proof_Symbols Tests_Parser.

(** C57. The outcome of [parse(s, sym)] (result or error) depends only on the bindings of the
    names the text mentions and on those behind the special syntax. *)
Theorem C57_local : forall s sym sym', AgreeSugar sym sym' -> (forall name, Mentions s name -> Agree sym sym' name) ->
  parse s sym = parse s sym'.
Proof. exact parse_local. Qed.
Print Assumptions C57_local.
(** So binding a name does not affect texts that do not mention it. *)
Theorem C57_new_name : forall s sym name t c, ~ Mentions s name -> ~ In name sugar_names ->
  parse s (set_dtype sym name t) = parse s sym /\ parse s (set_dim sym name t) = parse s sym /\
  parse s (set_dtype_constr sym name c) = parse s sym.
Proof.
  intros s sym name t c HM HS.
  assert (N : forall n, n <> name -> str_eqb n name = false).
  { intros n Hn. destruct (str_eqb n name) eqn:E; auto. apply str_eqb_eq in E. contradiction. }
  repeat split; apply C57_local; intros n Hn; unfold Agree, set_dtype, set_dim, set_dtype_constr; cbn;
    try rewrite N by (intros ->; contradiction); auto.
Qed.
Print Assumptions C57_new_name.
(** A text consisting of the new name is the type it was bound to ... *)
Theorem C57_alias : forall sym name t ds, NameText is_lower name -> st_dim sym name = None -> mk_ds [t] = Ok ds ->
  (forall n d, st_dim sym n = Some d -> st_dtype sym n = None) ->
  parse name (set_dtype sym name t) = Ok ds.
Proof.
  intros sym name t ds HN HD HM HX. apply parse_complete with (l := [(KLower, VStr name)]).
  - intros n d H. cbn in *. destruct (str_eqb n name) eqn:E; [|eauto]. apply str_eqb_eq in E. congruence.
  - pose proof (Layout_tok [] KLower name (VStr name) [] []) as HL. rewrite app_nil_r in HL. cbn in HL. apply HL.
    + constructor.
    + constructor; auto.
    + discriminate.
    + exact I.
    + constructor. constructor.
  - constructor. econstructor; [| |exact HM].
    + apply DT_type. cbn. rewrite str_eqb_refl. reflexivity.
    + intros [n [c [v [r [H _]]]]]. discriminate.
Qed.
Print Assumptions C57_alias.
(** ... and in general the texts accepted with a table, and what they mean, are given by the
    grammar over that table. *)
Theorem C57_grammar : forall s sym t, (forall n d, st_dim sym n = Some d -> st_dtype sym n = None) ->
  parse s sym = Ok t <-> exists l, Layout l s /\ Implemented sym l t.
Proof.
  intros s sym t HX. split; [apply parse_sound|]. intros [l [H1 H2]]. eapply parse_complete; eauto.
Qed.
Print Assumptions C57_grammar.

(** e.g. the name [point] for a record type, added to the table [dshape] uses *)
Definition points : symtab := set_dtype (default_sym E0 (dshape E0)) $"point" (RecordT [($"x", float64_t); ($"y", float64_t)]).
Example C57_case : parse $"3 * {p: point, int: ?point}" points =
    Ok (DataShapeT None [FixedT 3; RecordT [($"p", RecordT [($"x", float64_t); ($"y", float64_t)]);
      ($"int", OptionT (RecordT [($"x", float64_t); ($"y", float64_t)]))]]) /\
  NameText is_lower $"point" /\ st_dim points $"point" = None /\ ~ Mentions $"3 * int32" $"point".
Proof.
  split; [vm_compute; reflexivity|]. split; [|split; [vm_compute; reflexivity|]].
  - constructor; [reflexivity|]. repeat constructor.
  - intros [t [H [K V]]]. vm_compute in H. destruct H as [<-|[<-|[<-|[]]]]; discriminate.
Qed.
