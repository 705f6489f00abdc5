(** The refused constructs of a text (C71). *)
From Verif Require Import Base Types Lexer Printer Construct Parser Ops Preds Spec_Lexer Spec_WF Spec_Preds Spec_Time Spec_Grammar Spec_Constr Spec_Places
  Spec_Syntax Spec_Raises Proof_Lexer Proof_ParserRel Proof_Parser Proof_Grammar Proof_Grammar2 Proof_Grammar3 Proof_Preds Proof_Preds2 Proof_Errors2
  Proof_Constr Proof_Constr2 Proof_Constr3 Proof_Raises Proof_Raises2.
Local Open Scope Z_scope.

(** ** what sentences of the grammar denote *)
Definition isM (t : ty) : Prop := is_DataShape t = false /\ may_be_measure t = true.
Definition isD (t : ty) : Prop := is_DataShape t = false /\ may_be_dim t = true.
Definition Shaped (t : ty) : Prop := exists ps, t = DataShapeT None ps /\
  Forall (fun p => is_DataShape p = false) ps /\ ps <> [] /\
  may_be_measure (last ps NullT) = true /\ forallb may_be_dim (removelast ps) = true.
Lemma ds_measure t : isM t -> mk_ds [t] = Ok (DataShapeT None [t]).
Proof. intros [H1 H2]. apply Proof_Errors.mk_ds_measure; auto. Qed.
Lemma shaped_measure t : isM t -> Shaped (DataShapeT None [t]).
Proof. intros [H1 H2]. exists [t]. repeat split; auto. discriminate. Qed.
Lemma ds_dim d t : isD d -> Shaped t -> exists u, mk_ds (d :: ds_params t) = Ok u /\ Shaped u.
Proof.
  intros [H M] [ps [-> [F [N [L R]]]]]. cbn [ds_params]. unfold mk_ds.
  assert (F' : Forall (fun p => is_DataShape p = false) (d :: ps)) by (constructor; auto).
  unfold mk_datashape. cbn [map]. change (PTy d :: map PTy ps) with (map PTy (d :: ps)).
  rewrite mapM_launder_PTy, (Proof_Errors.map_launder _ F'). cbn [bind]. unfold check_datashape.
  destruct ps as [|x ps]; [congruence|].
  change (last (d :: x :: ps) NullT) with (last (x :: ps) NullT). change (removelast (d :: x :: ps)) with (d :: removelast (x :: ps)).
  rewrite L. cbn [negb forallb]. rewrite M, R. cbn [andb]. eexists. split; [reflexivity|].
  exists (d :: x :: ps). split; auto. split; auto. split; [discriminate|]. split; [exact L|].
  change (removelast (d :: x :: ps)) with (d :: removelast (x :: ps)); cbn [forallb]; rewrite M; exact R.
Qed.

Section Shapes.
  Variable sym : symtab.
  Hypothesis Hc : forall n c args kw t, st_dtype_constr sym n = Some c -> NoDup (map fst kw) -> c args kw = Ok t -> isM t.
  Hypothesis Ht : forall n t, st_dtype sym n = Some t -> isM t.
  Hypothesis Hd : forall u d, Dim sym u d -> isD d.
  Lemma shapes :
    (forall w t, DS sym true w t -> Shaped t) /\ (forall w t, NoOpt sym true w t -> Shaped t) /\
    (forall w t, Dtype sym true w t -> isM t) /\ (forall w l, FieldList sym true w l -> Forall (fun f => Shaped (snd f)) l) /\
    (forall w l, Fields sym true w l -> Forall (fun f => Shaped (snd f)) l) /\ (forall w l, TupleType sym true w l -> Forall Shaped l) /\
    (forall w l, Items sym true w l -> Forall Shaped l) /\ (forall w (l : list targ) (kw : list (str * targ)), Args sym true w l kw -> True) /\
    (forall w (kw : list (str * targ)), Kwargs sym true w kw -> True) /\ (forall w a, Arg sym true w a -> True) /\
    (forall w (l : list targ), ListArg sym true w l -> True).
  Proof.
    assert (ND : NoDup (map fst (@nil (str * targ)))) by constructor.
    assert (NK : forall kw, NoDup (map fst (dict_of kw))) by (intro kw; apply (dict_of_Latest kw)).
    apply grammar_mind; intros; auto.
    - pose proof (Hc _ _ _ _ _ H1 ND H2) as H4. clear H2. rename H4 into H2. rewrite (ds_measure _ H2) in H3. injection H3 as <-. apply shaped_measure; auto.
    - destruct (ds_dim d t) as [v [H3 H4]]; [eauto|auto|]. congruence.
    - rewrite (ds_measure _ H0) in H2. injection H2 as <-. apply shaped_measure; auto.
    - rewrite (ds_measure _ H2) in H3. injection H3 as <-. apply shaped_measure; auto.
    - eauto.
    - eauto.
    - eauto.
    - eauto.
    - eauto.
    - eauto.
  Qed.
End Shapes.

Section Default.
  Variable E : env.
  Variable dsh : str -> res ty.
  Notation sym := (default_sym E dsh).

  Lemma d_constr n c args kw t : constr_fun E dsh n = Some c -> NoDup (map fst kw) -> c args kw = Ok t -> isM t.
  Proof.
    intros H ND K. assert (N : constr_fun E dsh n <> None) by congruence. apply constr_names in N as [->|N].
    - apply (string_spec E dsh) in K as [_ K]; auto. destruct (StringMeaning_measure _ _ K) as [K1 K2].
      split; auto. clear - K. destruct K; reflexivity.
    - apply in_map_iff in N as [[n' ps] [En N]]. cbn [fst] in En. subst n'.
      destruct (proj1 (constr_spec E dsh n ps c args kw t N H ND) K) as [b [_ K']]. clear K. rename K' into K.
      destruct (Meaning_measure _ _ _ _ _ K) as [K1 K2]. split; auto. clear - K. destruct K; reflexivity.
  Qed.
  Lemma d_type n t : st_dtype sym n = Some t -> isM t.
  Proof.
    change (assoc n dtype_table = Some t -> isM t). intro H. apply Proof_Time.assoc_In in H. unfold dtype_table in H. cbn [In] in H.
    repeat (destruct H as [H|H]; [inversion H; subst; split; reflexivity|]). contradiction.
  Qed.
  Lemma mk_typevar_ok U s t : mk_typevar U s = Ok t -> t = TypeVarT s.
  Proof. destruct s; cbn [mk_typevar]; [discriminate|]. destruct (isupper _ _); [|discriminate]. intro H. injection H as <-. reflexivity. Qed.
  Lemma dcf n : n = $"fixed" \/ n = $"typevar" \/ n = $"ellipsis" \/ dim_constr_fun E n = None.
  Proof.
    unfold dim_constr_fun. destruct (str_eqb n $"fixed") eqn:E1; [apply str_eqb_eq in E1; auto|].
    destruct (str_eqb n $"typevar") eqn:E2; [apply str_eqb_eq in E2; auto|].
    destruct (str_eqb n $"ellipsis") eqn:E3; [apply str_eqb_eq in E3; auto|]. auto.
  Qed.
  Lemma d_dim u d : Dim sym u d -> isD d.
  Proof.
    destruct 1 as [u d H|s c d H1 H2|z c d H1 H2].
    - destruct H as [n d H|d H|s c d H1 H2].
      + change (assoc n dim_table = Some d) in H. apply Proof_Time.assoc_In in H. unfold dim_table in H. cbn [In] in H.
        repeat (destruct H as [H|H]; [inversion H; subst; split; reflexivity|]). contradiction.
      + injection H as <-. split; reflexivity.
      + injection H1 as <-. unfold mk_ellipsis in H2. destruct (mk_typevar (e_uni E) s) as [t|]; cbn [bind] in H2; [|discriminate].
        injection H2 as <-. split; reflexivity.
    - injection H1 as <-. cbn [c_typevar] in H2. apply mk_typevar_ok in H2. subst. split; reflexivity.
    - injection H1 as <-. unfold mk_fixed in H2. destruct (z <? 0); [discriminate|]. injection H2 as <-. split; reflexivity.
  Qed.
  Definition upper1 (s : str) : Prop := exists c r, s = c :: r /\ is_upper c = true.
  Lemma upper_typevar s : upper1 s -> mk_typevar (e_uni E) s = Ok (TypeVarT s).
  Proof.
    intros [c [r [-> U]]]. unfold mk_typevar, isupper.
    assert (C : (c <? 128)%N = true). { unfold is_upper, in_range in U. apply andb_true_iff in U as [_ U]. apply N.leb_le in U. apply N.ltb_lt. lia. }
    rewrite C, U. reflexivity.
  Qed.
  Lemma struct_noerr fs e : Forall (fun f => Shaped (snd f)) fs ->
    c_struct E dsh (AList (map (fun f => AStr (fst f)) fs)) (AList (map (fun f => ADs (snd f)) fs)) = Raise e ->
    e = ValueErr /\ ~ NoDup (map fst fs).
  Proof.
    intros _ H. unfold c_struct in H. cbn [targ_iter bind] in H.
    assert (C : combine (map (fun f => AStr (fst f)) fs) (map (fun f => ADs (snd f)) fs) = map (fun f : str * ty => (AStr (fst f), ADs (snd f))) fs).
    { clear. induction fs; cbn; congruence. }
    rewrite C in H.
    assert (M1 : mapM (fun p : targ * targ => targ_str E (fst p)) (map (fun f : str * ty => (AStr (fst f), ADs (snd f))) fs) = Ok (map fst fs)).
    { clear. induction fs; [reflexivity|]. cbn [map]. rewrite mapM_cons, IHfs. reflexivity. }
    assert (M2 : mapM (fun p : targ * targ => targ_launder dsh (snd p)) (map (fun f : str * ty => (AStr (fst f), ADs (snd f))) fs) = Ok (map (fun f => launder_ty (snd f)) fs)).
    { clear. induction fs; [reflexivity|]. cbn [map]. rewrite mapM_cons, IHfs. reflexivity. }
    rewrite M1 in H. cbn [bind] in H. rewrite M2 in H. cbn [bind] in H.
    destruct (nodup_str (map fst fs)) eqn:En; [discriminate|]. injection H as <-. split; auto. rewrite <- nodup_str_NoDup. congruence.
  Qed.
  Lemma tuple_ok l : Forall Shaped l -> c_tuple dsh (AList (map ADs l)) = Ok (TupleT l).
  Proof.
    intro F. unfold c_tuple, mk_tuple. cbn [targ_iter bind]. rewrite !mapM_map.
    assert (M : mapM (fun t => tuple_item dsh (targ_parg (ADs t))) l = Ok l).
    { induction F as [|t l [ps [-> _]] F IH]; [reflexivity|]. rewrite mapM_cons, IH. reflexivity. }
    rewrite M. reflexivity.
  Qed.
  Lemma func_ok l r : c_funcproto (AList (map ADs l)) (ADs r) = Ok (FunctionT (l ++ [r])).
  Proof.
    unfold c_funcproto. cbn [targ_iter bind]. rewrite mapM_map. assert (M : mapM (fun t => targ_ds (ADs t)) l = Ok l).
    { clear. induction l; [reflexivity|]. rewrite mapM_cons, IHl. reflexivity. }
    rewrite M. reflexivity.
  Qed.
  Lemma dict_nil kw : dict_of kw = [] -> kw = [].
  Proof.
    intro K. destruct kw as [|p kw] using rev_ind; auto. exfalso. pose proof (dict_of_Latest (kw ++ [p])) as [_ LK]. rewrite K in LK.
    destruct p as [n a]. apply (LK n a). exists kw, []. split; auto.
  Qed.
  Lemma refused w e : (forall s, In (KUpper, VStr s) w -> upper1 s) -> RaisesG sym w e -> Refused E dsh w e.
  Proof.
    intros HU HG. destruct (shapes sym) as [S1 [S2 [S3 [S4 [S5 [S6 [S7 _]]]]]]].
    { intros n c args kw t H. apply (d_constr n c args kw t). exact H. }
    { apply d_type. }
    { apply d_dim. }
    destruct HG as [n c w args kw e H1 H2 H3 H4|w fs c e H1 H2 H3|w l c e H1 H2 H3|w l v r c e H1 H2 H3 H4|s c e H1 H2 H3|w t c e H1 H2 H3
      |w t c o e H1 H2 H3 H4|s c e H1 H2 H3|s c e H1 H2 H3|z c e H1 H2|u d w t e H1 H2 H3|w t e H1 H2|n c w args kw H1 H2].
    - change (constr_fun E dsh n = Some c) in H1. assert (N : constr_fun E dsh n <> None) by congruence. apply constr_names in N as [->|N].
      + assert (K : args <> [] \/ dict_of kw <> []) by (destruct H3 as [H3|H3]; [auto|right; intro K; apply H3, dict_nil, K]).
        apply X_string with args kw; auto. destruct (string_refused E dsh c args (dict_of kw) e H1 K H4) as [X|[-> [X Y]]].
        * left. clear - X. destruct kw as [|p kw]; [exact X|]. inversion X; subst; try (symmetry in H0; apply dict_nil in H0; discriminate).
          { apply RS_keyword. discriminate. }
          all: match goal with Y : dict_of _ = [] |- _ => apply dict_nil in Y; discriminate | Y : [] = dict_of _ |- _ => symmetry in Y; apply dict_nil in Y; discriminate end.
        * right. split; auto. split; auto. apply dict_nil; auto.
      + apply in_map_iff in N as [[n' ps] [<- N]]. cbn [fst] in *. pose proof (dict_of_Latest kw) as LK.
        apply X_call with ps args kw (dict_of kw); auto. apply (constr_refused E dsh n' ps c); auto. apply LK.
    - injection H2 as <-. change (c_struct E dsh (AList (map (fun f => AStr (fst f)) fs)) (AList (map (fun f => ADs (snd f)) fs)) = Raise e) in H3.
      apply struct_noerr in H3 as [-> H3]; eauto. apply X_record with fs; auto.
    - exfalso. injection H2 as <-. change (c_tuple dsh (AList (map ADs l)) = Raise e) in H3. rewrite tuple_ok in H3; eauto. discriminate.
    - exfalso. injection H3 as <-. change (c_funcproto (AList (map ADs l)) (ADs r) = Raise e) in H4. rewrite func_ok in H4. discriminate.
    - exfalso. injection H2 as <-. change (mk_typevar (e_uni E) s = Raise e) in H3. rewrite upper_typevar in H3; [discriminate|]. apply HU. left. reflexivity.
    - exfalso. injection H2 as <-. discriminate H3.
    - exfalso. injection H2 as <-. change (Ok (OptionT (launder_ty t)) = Ok o) in H3. injection H3 as <-. rewrite ds_measure in H4; [discriminate|]. split; reflexivity.
    - exfalso. injection H2 as <-. unfold mk_ellipsis in H3. rewrite upper_typevar in H3; [discriminate|]. apply HU. left. reflexivity.
    - exfalso. injection H2 as <-. change (mk_typevar (e_uni E) s = Raise e) in H3. rewrite upper_typevar in H3; [discriminate|]. apply HU. left. reflexivity.
    - injection H1 as <-. unfold mk_fixed in H2. destruct (Z.ltb_spec z 0); [|discriminate]. injection H2 as <-. apply X_size; auto.
    - exfalso. apply d_dim in H1. destruct (ds_dim d t H1) as [v [X _]]; eauto. congruence.
    - exfalso. rewrite ds_measure in H2; eauto. discriminate.
    - apply X_dimension with args kw; auto. change (dim_constr_fun E n = Some c) in H1.
      destruct (dcf n) as [->|[->|[->|X]]]; [cbn; auto|cbn; auto|cbn; auto|congruence].
  Qed.
End Default.

(** ** texts *)
Lemma stream_kv ts err : forall e w a, Ate w (stream ts err e) a -> exists tb ta, ts = tb ++ ta /\ map kv tb = w.
Proof.
  intros e w a [u [Hu <-]]. revert ts e Hu. induction u as [|x u IH]; intros ts e Hu; cbn [map app] in Hu.
  - exists [], ts. auto.
  - destruct ts as [|t ts]; cbn [stream] in Hu; [destruct err; discriminate|]. injection Hu as -> Hu.
    destruct (IH _ _ Hu) as [tb [ta [-> H2]]]. exists (x :: tb), ta. split; auto. cbn [map]. rewrite <- H2. reflexivity.
Qed.
Lemma dshape_cause E s e : disc_ok E -> dshape E s = Raise e -> (forall p m, e <> SyntaxErr p m) -> Cause E (dshape E) s e.
Proof.
  intros HE H NS.
  assert (HP : RV (inside (length s)) gds (parse s (default_sym E (dshape_str E (length s)))) (parse s (default_sym E (dshape E)))).
  { apply parse_self; auto. intros s' Hs'. apply dshape_str_rel; auto. }
  assert (NF : e <> OutOfFuel).
  { destruct (dshape_outcome E s HE) as [[t [H1 _]]|[[p [m [H1 _]]]|[e' [H1 P]]]]; rewrite H in H1; [discriminate|injection H1 as ->; discriminate|].
    injection H1 as <-. intros ->. exact P. }
  unfold dshape in H. cbn [dshape_str] in H.
  destruct (parse s (default_sym E (dshape_str E (length s)))) as [t|e1] eqn:EP; cbn [bind] in H.
  - destruct (parse s (default_sym E (dshape E))) as [t'|] eqn:EQ; simpl in HP; [|contradiction]. destruct HP as [<- _].
    right; right. destruct (validate_spec t) as [[V _]|[V NG]]; rewrite V in H; cbn [bind] in H; [discriminate|]. injection H as <-. split; auto.
    exists t. apply parse_sound in EQ as [l [HL HD]]. apply lex_Layout in HL as [ts [El <-]]. rewrite El. auto.
  - injection H as ->. destruct (parse s (default_sym E (dshape E))) as [t'|e'] eqn:EQ; simpl in HP; [contradiction|].
    assert (e' = e) as ->. { destruct e; simpl in HP; try congruence; try contradiction. }
    unfold parse in EQ. destruct (lex s) as [ts err] eqn:El. pose proof (lex_Spans _ _ _ El) as Sp.
    destruct (parse_toks_Eo (default_sym E (dshape E)) (stream ts err 0)) with (e := e) as [[p [m ->]]|[->|[X|[b [w [a [Ha HG]]]]]]]; auto.
    + clear - Sp. apply Spans_VTok in Sp. generalize 0%nat. induction Sp as [|t ts Ht Sp IH]; intro e; cbn [stream]; [destruct err; repeat constructor|].
      constructor; [exact Ht|apply IH].
    + destruct (NS _ _ eq_refl).
    + congruence.
    + left. apply stream_In in X as [[u [X _]]|[[x [X Hx]]|[q X]]]; try discriminate. injection X as <-. subst err.
      pose proof (Spans_ends _ _ _ _ Sp) as [_ He]. rewrite El. cbn [snd]. destruct e; try (subst; discriminate He); try contradiction; auto.
      destruct (NS _ _ eq_refl).
    + right; left. destruct (stream_kv _ _ _ _ _ Ha) as [tb [ta [Hts Hw]]]. exists b, w, (map kv ta).
      rewrite El. cbn [fst]. subst ts. rewrite map_app, Hw, <- app_assoc. split; auto. apply refused; auto.
      intros s' Hin. apply Spans_tok in Sp. assert (Hin' : In (KUpper, VStr s') (map kv tb)) by (rewrite Hw; apply in_or_app; auto).
      apply in_map_iff in Hin' as [t [Hk Ht]]. rewrite Forall_forall in Sp. destruct (Sp t) as [x Hx]; [apply in_or_app; auto|].
      injection Hk as K1 K2. destruct (tok_upper t x Hx K1) as [c [r [K3 K4]]]. exists c, r. split; auto. congruence.
Qed.
