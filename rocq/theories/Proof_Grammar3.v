(** The parser accepts exactly the implemented grammar; the documented grammar is part of
    it, and the two agree on tidy texts. *)
From Verif Require Import Base Types Lexer Printer Construct Parser Ops Preds Spec_Lexer Spec_WF Spec_Preds
  Proof_Lexer Proof_WF Proof_ParserRel Proof_Parser Proof_Preds Proof_Preds2 Spec_Grammar Proof_Grammar Proof_Grammar2.

Lemma lax_all sym :
  (forall w t, DS sym false w t -> DS sym true w t).
Proof.
  apply (DS_mind sym false (DS sym true) (NoOpt sym true) (Dtype sym true) (FieldList sym true) (Fields sym true)
    (TupleType sym true) (Items sym true) (Args sym true) (Kwargs sym true) (Arg sym true) (ListArg sym true));
  intros; try discriminate;
  try (econstructor; eauto; fail).
  - apply A_kwargs; auto. destruct H as [->|[H _]]; [left; auto|discriminate].
  - apply AR_literal; auto. destruct H as [->|[H _]]; [left; auto|discriminate].
  - apply AR_list; auto. destruct H as [->|[H _]]; [left; auto|discriminate].
Qed.

(** ** token streams of a text *)
Lemma TokText_VTok k w v : TokText k w v -> VTok (k, v).
Proof. destruct 1; simpl; eauto. Qed.
Lemma Layout_VTok l s : Layout l s -> Forall VTok l.
Proof. induction 1; constructor; auto. eapply TokText_VTok; eauto. Qed.
Lemma Spans_VTok s ts err : forall a, Spans s a ts err -> Forall (fun t => VTok (kind_val t)) ts.
Proof.
  induction ts as [|t ts IH]; intros a H; constructor; simpl in H.
  - destruct H as [_ [_ [_ [_ [H _]]]]]. eapply TokText_VTok; eauto.
  - eapply IH. apply H.
Qed.
Lemma stream_app ts err e : exists m, stream ts err e = map PTok ts ++ [m] /\
  match err with Some x => m = PErr x | None => exists p, m = PEnd p end.
Proof.
  revert e. induction ts as [|t ts IH]; intro e; simpl.
  - eexists. split; [reflexivity|]. destruct err; eauto.
  - destruct (IH (tk_end t)) as [m [H1 H2]]. exists m. rewrite H1. auto.
Qed.
Lemma map_PTok_app u1 u2 : forall m r, map PTok u1 ++ [m] = map PTok u2 ++ r -> (forall t, m <> PTok t) ->
  at_end r = true -> u1 = u2 /\ r = [m].
Proof.
  revert u2. induction u1 as [|x u1 IH]; intros [|y u2] m r H Hm Hr; simpl in H.
  - auto.
  - inversion H. congruence.
  - subst r. discriminate.
  - injection H as Hx H. subst y. destruct (IH _ _ _ H Hm Hr). subst; auto.
Qed.

Lemma parse_sound s sym t : parse s sym = Ok t -> exists l, Layout l s /\ DS sym true l t.
Proof.
  unfold parse. destruct (lex s) as [ts err] eqn:El. intro H.
  destruct (stream_app ts err 0) as [m [Hs Hm]]. rewrite Hs in H.
  assert (Hv : vtoks (map PTok ts ++ [m])).
  { apply Forall_app. split.
    - apply Forall_map. eapply Forall_impl; [|eapply Spans_VTok, lex_Spans; exact El]. auto.
    - constructor; [|constructor]. destruct err; [subst; exact I|destruct Hm; subst; exact I]. }
  assert (Hm' : forall t, m <> PTok t) by (intros x ->; destruct err; [discriminate|destruct Hm; discriminate]).
  unfold parse_toks in H.
  assert (H' : (let! (ds, r) := parse_datashape sym (S (length (map PTok ts ++ [m]))) (map PTok ts ++ [m]) in
      match ds with None => raise_error r MInvalid | Some t => if at_end r then Ok t else raise_error r MUnexpected end) = Ok t).
  { destruct ts; simpl in H; [destruct m; [exact H|exact H|discriminate]|exact H]. }
  clear H. destruct (parse_datashape _ _ _) as [[ds r]|] eqn:EP; cbn [bind] in H'; [|discriminate].
  apply parse_datashape_sound in EP; auto. destruct ds as [t'|]; [|discriminate].
  destruct (at_end r) eqn:Er; [|discriminate]. injection H' as ->.
  destruct EP as [w [[u [Hu Hw]] HD]]. destruct (map_PTok_app _ _ _ _ Hu Hm' Er) as [-> ->].
  destruct err as [e|]; [subst m; discriminate|].
  exists w. split; auto. apply lex_Layout. eauto.
Qed.
Lemma parse_complete s sym l t : (forall n d, st_dim sym n = Some d -> st_dtype sym n = None) ->
  Layout l s -> DS sym true l t -> parse s sym = Ok t.
Proof.
  intros Hdisj HL HD. apply lex_Layout in HL as [ts [El Hm]]. unfold parse. rewrite El.
  destruct (stream_app ts None 0) as [m [Hs [p ->]]]. rewrite Hs.
  assert (Ha : Ate l (map PTok ts ++ [PEnd p]) [PEnd p]) by (exists ts; auto).
  destruct (datashape_complete sym Hdisj l t HD (S (length (map PTok ts ++ [PEnd p])))) as [_ HC].
  { rewrite app_length, map_length, <- Hm, map_length. lia. }
  specialize (HC _ _ Ha). unfold parse_toks.
  rewrite HC by (split; exact I). destruct ts; simpl; reflexivity.
Qed.

Lemma default_disjoint E dsh n d : st_dim (default_sym E dsh) n = Some d -> st_dtype (default_sym E dsh) n = None.
Proof.
  change (assoc n dim_table = Some d -> assoc n dtype_table = None). intro H.
  assert (X : n = $"var" \/ n = $"ellipsis").
  { unfold dim_table in H. cbn [assoc] in H. destruct (str_eqb n $"var") eqn:E1; [left; apply str_eqb_eq; auto|].
    destruct (str_eqb n $"ellipsis") eqn:E2; [right; apply str_eqb_eq; auto|]. inversion H. }
  destruct X; subst; reflexivity.
Qed.
(* no keyword of a constructor is the name of a dtype or of a dimension *)

(** the knot: the text [s] is parsed with the symbol table whose nested strings are
    parsed by [dshape] itself *)
Lemma dshape_unfold E s t : disc_ok E ->
  dshape E s = Ok t <-> parse s (default_sym E (dshape E)) = Ok t /\ AllGood t.
Proof.
  intro HE. assert (HP : RV (inside (length s)) gds (parse s (default_sym E (dshape_str E (length s)))) (parse s (default_sym E (dshape E)))).
  { apply parse_self; auto. intros s' Hs'. apply dshape_str_rel; auto. }
  unfold dshape at 1. cbn [dshape_str].
  destruct (parse s (default_sym E (dshape_str E (length s)))) as [u|e];
    destruct (parse s (default_sym E (dshape E))) as [u'|e']; simpl in HP; try contradiction.
  - destruct HP as [<- _]. cbn [bind]. destruct (validate_spec u) as [[HV HG]|[HV HG]]; rewrite HV; cbn [bind].
    + split; [intro H; injection H as <-; auto|intros [H _]; exact H].
    + split; [discriminate|]. intros [H1 H2]. injection H1 as ->. contradiction.
  - cbn [bind]. split; [discriminate|intros [H _]; discriminate].
Qed.

Lemma dshape_invalid E s t : disc_ok E -> parse s (default_sym E (dshape E)) = Ok t ->
  ~ AllGood t -> dshape E s = Raise TypeErr.
Proof.
  intros HE HP1 HN. assert (HP : RV (inside (length s)) gds (parse s (default_sym E (dshape_str E (length s)))) (parse s (default_sym E (dshape E)))).
  { apply parse_self; auto. intros s' Hs'. apply dshape_str_rel; auto. }
  unfold dshape at 1. cbn [dshape_str]. rewrite HP1 in HP.
  destruct (parse s (default_sym E (dshape_str E (length s)))) as [u|e]; simpl in HP; try contradiction.
  destruct HP as [<- _]. cbn [bind]. destruct (validate_spec u) as [[HV HG]|[HV HG]]; rewrite HV; [contradiction|reflexivity].
Qed.

Theorem dshape_exact E s t : disc_ok E ->
  dshape E s = Ok t <-> exists l, Layout l s /\ Implemented (default_sym E (dshape E)) l t /\ AllGood t.
Proof.
  intro HE. rewrite dshape_unfold by auto. split.
  - intros [H HG]. apply parse_sound in H as [l [H1 H2]]. exists l. auto.
  - intros [l [H1 [H2 HG]]]. split; auto. eapply parse_complete; eauto. apply default_disjoint.
Qed.
Theorem documented_complete E l s t : disc_ok E -> Layout l s ->
  Documented (default_sym E (dshape E)) l t -> AllGood t -> dshape E s = Ok t.
Proof. intros HE HL HD HG. apply dshape_exact; auto. exists l. split; auto. split; auto. apply lax_all; auto. Qed.

Theorem grammar_unambiguous E dsh l t1 t2 :
  Implemented (default_sym E dsh) l t1 -> Implemented (default_sym E dsh) l t2 -> t1 = t2.
Proof.
  intros H1 H2. set (sym := default_sym E dsh) in *.
  pose proof (datashape_complete sym (default_disjoint E dsh) l t1 H1 (length l) (le_n _)) as [_ C1].
  pose proof (datashape_complete sym (default_disjoint E dsh) l t2 H2 (length l) (le_n _)) as [_ C2].
  set (u := map (fun x => {| tk_kind := fst x; tk_val := snd x; tk_start := 0; tk_end := 0 |}) l).
  assert (Ha : Ate l (map PTok u ++ [PEnd 0]) [PEnd 0]).
  { exists u. split; auto. unfold u. rewrite map_map. clear. induction l as [|[k v] l IH]; [reflexivity|]. cbn [map]. rewrite IH. reflexivity. }
  specialize (C1 _ _ Ha). specialize (C2 _ _ Ha). rewrite C1 in C2 by (split; exact I).
  assert (HF : follow [PEnd 0]) by (split; exact I). specialize (C2 HF). injection C2 as <-. reflexivity.
Qed.
