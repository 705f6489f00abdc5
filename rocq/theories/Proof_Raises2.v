(** The refusals of the constructors (C71). *)
From Verif Require Import Base Types Lexer Printer Construct Parser Spec_Time Spec_Preds Spec_Grammar Spec_Constr Spec_Raises
  Proof_WF Proof_Time Proof_ParserRel Proof_Constr Proof_Constr2.
Local Open Scope Z_scope.

Section C.
  Variable E : env.
  Variable dsh : str -> res ty.
  Notation refuses n b e := (Refuses E dsh n b e \/ (e = NotModelled /\ Odd n b)).

  Lemma mapM_raise {A B} (f : A -> res B) l e : mapM f l = Raise e -> exists x i, nth_error l i = Some x /\ f x = Raise e.
  Proof.
    induction l as [|a l IH]; [discriminate|]. rewrite mapM_cons. destruct (f a) as [b|e'] eqn:Ea; cbn [bind].
    - destruct (mapM f l) as [bs|e'] eqn:El; cbn [bind]; [discriminate|]. intro H. injection H as ->.
      destruct (IH eq_refl) as [x [i [H1 H2]]]. exists x, (S i). auto.
    - intro H. injection H as ->. exists a, 0%nat. auto.
  Qed.
  Lemma iter_raise a e : targ_iter a = Raise e -> (e = TypeErr /\ NoSequence a) \/
    (e = NotModelled /\ exists t, a = ADs t /\ ((exists fs, t = RecordT fs) \/ exists ts n, t = TypeSetT ts n)).
  Proof.
    destruct a as [z|b|s|t|l]; cbn [targ_iter]; try discriminate.
    - intro H. injection H as <-. left. split; auto. left; eauto.
    - intro H. injection H as <-. left. split; auto. right; eauto.
    - destruct t; try discriminate; intro H; injection H as <-; right; split; auto; eexists; split; eauto.
  Qed.
  Lemma launder_raise a e : targ_launder dsh a = Raise e -> NoType dsh a e.
  Proof.
    destruct a as [z|b|s|t|l]; cbn [targ_launder launder].
    - unfold mk_fixed. destruct (Z.ltb_spec z 0); [|discriminate]. intro H'. injection H' as <-. constructor; auto.
    - destruct b; discriminate.
    - destruct (dsh s) as [t|e'] eqn:Ed; cbn [bind]; [discriminate|]. intro H. injection H as ->. constructor; auto.
    - discriminate.
    - intro H. injection H as <-. constructor.
  Qed.
  Lemma item_raise a e : tuple_item dsh (targ_parg a) = Raise e -> NoItem a e.
  Proof.
    destruct a as [z|b|s|t|l]; cbn [targ_parg tuple_item].
    - unfold mk_datashape. cbn [mapM launder]. unfold mk_fixed. destruct (Z.ltb_spec z 0); cbn [bind].
      + intro H'. injection H' as <-. constructor; auto.
      + cbn. intro H'. injection H' as <-. constructor; auto.
    - destruct b; cbn; intro H'; injection H' as <-; constructor.
    - cbn. intro H'; injection H' as <-; constructor.
    - destruct (is_DataShape t) eqn:Ed; [discriminate|]. unfold mk_datashape. cbn [mapM launder bind].
      assert (launder_ty t = t) as -> by (destruct t; auto; discriminate). unfold check_datashape. cbn [last removelast forallb].
      destruct (may_be_measure t) eqn:Em; cbn [negb]; [discriminate|]. intro H. injection H as <-. constructor; auto.
    - cbn. intro H'; injection H' as <-; constructor.
  Qed.
  Lemma str_raise a e : targ_str E a = Raise e -> e = NotModelled /\ exists l, a = AList l.
  Proof. destruct a; cbn; try discriminate. intro H. injection H as <-. eauto. Qed.
  Lemma combine_nth {A B} (l : list A) (m : list B) i p : nth_error (combine l m) i = Some p ->
    nth_error l i = Some (fst p) /\ nth_error m i = Some (snd p).
  Proof.
    revert m i. induction l as [|a l IH]; intros [|b m] [|i] H; cbn in *; try discriminate; auto. injection H as <-. auto.
  Qed.

  Lemma r_struct a b e : c_struct E dsh a b = Raise e -> refuses $"struct" [Some a; Some b] e.
  Proof.
    unfold c_struct. destruct (targ_iter a) as [l|e'] eqn:Ea; cbn [bind].
    2:{ intro H. injection H as ->. apply iter_raise in Ea as [[-> H]|[-> [t [-> H]]]]; [left; apply RF_struct_names; auto|].
        right. split; auto. eapply O_sequence; [left; reflexivity|exact H|left; reflexivity]. }
    destruct (targ_iter b) as [m|e'] eqn:Eb; cbn [bind].
    2:{ intro H. injection H as ->. apply iter_raise in Eb as [[-> H]|[-> [t [-> H]]]]; [left; apply RF_struct_types; auto|].
        right. split; auto. eapply O_sequence; [left; reflexivity|exact H|right; left; reflexivity]. }
    apply Elements_spec in Ea, Eb.
    destruct (mapM (fun p => targ_str E (fst p)) _) as [ns|e'] eqn:E1; cbn [bind].
    2:{ intro H. injection H as ->. apply mapM_raise in E1 as [p [i [H1 H2]]]. apply combine_nth in H1 as [H1 _].
        apply str_raise in H2 as [-> [x H2]]. rewrite H2 in H1. right. split; auto. eapply O_name; eauto. eapply nth_error_In; eauto. }
    destruct (mapM (fun p => targ_launder dsh (snd p)) _) as [ts|e'] eqn:E2; cbn [bind].
    2:{ intro H. injection H as ->. apply mapM_raise in E2 as [p [i [H1 H2]]]. apply combine_nth in H1 as [H1 H3].
        apply launder_raise in H2. left. eapply RF_struct_type; eauto. apply nth_error_Some. congruence. }
    destruct (nodup_str ns) eqn:En; [discriminate|]. intro H. injection H as <-. left.
    assert (L : length ns = length ts) by (apply mapM_length in E1, E2; congruence).
    assert (F1 : map fst (combine ns ts) = ns) by (clear - L; revert ts L; induction ns; intros [|? ?] L; cbn in *; try discriminate; auto; f_equal; auto).
    assert (F2 : map snd (combine ns ts) = ts) by (clear - L; revert ts L; induction ns; intros [|? ?] L; cbn in *; try discriminate; auto; f_equal; auto).
    apply RF_struct_twice with l m (combine ns ts); auto.
    - apply Pairs_spec. rewrite F1, F2. auto.
    - rewrite F1. rewrite <- nodup_str_NoDup. congruence.
  Qed.
  Lemma r_tuple a e : c_tuple dsh a = Raise e -> refuses $"tuple" [Some a] e.
  Proof.
    unfold c_tuple, mk_tuple. destruct (targ_iter a) as [l|e'] eqn:Ea; cbn [bind].
    2:{ intro H. injection H as ->. apply iter_raise in Ea as [[-> H]|[-> [t [-> H]]]]; [left; apply RF_tuple; auto|].
        right. split; auto. eapply O_sequence; [right; left; reflexivity|exact H|left; reflexivity]. }
    rewrite mapM_map. destruct (mapM _ l) as [ts|e'] eqn:E1; cbn [bind]; [discriminate|]. intro H. injection H as ->.
    apply mapM_raise in E1 as [x [i [H1 H2]]]. apply item_raise in H2. left. apply Elements_spec in Ea.
    apply (RF_tuple_item E dsh a l x e); auto. eapply nth_error_In; eauto.
  Qed.
  Lemma ds_raise a e : targ_ds a = Raise e -> e = NotModelled /\ forall t, a <> ADs t.
  Proof. destruct a; cbn; try discriminate; intro H; injection H as <-; split; auto; discriminate. Qed.
  Lemma r_funcproto a b e : c_funcproto a b = Raise e -> refuses $"funcproto" [Some a; Some b] e.
  Proof.
    unfold c_funcproto. destruct (targ_iter a) as [l|e'] eqn:Ea; cbn [bind].
    2:{ intro H. injection H as ->. apply iter_raise in Ea as [[-> H]|[-> [t [-> H]]]]; [left; apply RF_funcproto; auto|].
        right. split; auto. eapply O_sequence; [right; right; left; reflexivity|exact H|left; reflexivity]. }
    apply Elements_spec in Ea. destruct (mapM targ_ds l) as [ts|e'] eqn:E1; cbn [bind].
    2:{ intro H. injection H as ->. apply mapM_raise in E1 as [x [i [H1 H2]]]. apply ds_raise in H2 as [-> H2].
        right. split; auto. eapply O_parameter; eauto. apply in_or_app. left. eapply nth_error_In; eauto. }
    destruct (targ_ds b) as [r|e'] eqn:E2; cbn [bind]; [discriminate|]. intro H. injection H as ->. apply ds_raise in E2 as [-> H2].
    right. split; auto. eapply O_parameter; eauto. apply in_or_app. right. left. reflexivity.
  Qed.
  Lemma r_typevar a e : c_typevar E a = Raise e -> refuses $"typevar" [Some a] e.
  Proof.
    destruct a as [z|b|s|t|l]; cbn [c_typevar].
    - intro H. injection H as <-. left. apply RF_typevar_number. left; eauto.
    - intro H. injection H as <-. left. apply RF_typevar_number. right; eauto.
    - destruct s as [|c s]; cbn [mk_typevar]; [intro H; injection H as <-; left; apply RF_typevar_empty; auto|].
      destruct (isupper (e_uni E) c) eqn:Eu; [discriminate|]. intro H. injection H as <-. left. apply RF_typevar.
      rewrite <- upper_spec. congruence.
    - assert (X : (exists n p ps, t = DataShapeT n (p :: ps)) \/ (forall n p ps, t <> DataShapeT n (p :: ps))).
      { destruct t; try (right; discriminate). destruct parameters; [right; discriminate|left; eauto]. }
      destruct X as [[n [p [ps ->]]]|X].
      + intro H. injection H as <-. left. constructor.
      + intro H. right. split; [|constructor; exact X]. destruct t; try (injection H as <-; reflexivity).
        destruct parameters as [|p ps]; [injection H as <-; reflexivity|]. destruct (X _ _ _ eq_refl).
    - destruct l as [|x l]; [intro H; injection H as <-; left; apply RF_typevar_empty; auto|].
      destruct x as [z|b|s|t|m]; intro H; injection H as <-;
        try (left; apply RF_typevar_list; discriminate); right; (split; [reflexivity|]); constructor; eauto.
  Qed.
  Lemma r_timedelta a e : c_timedelta E (Some a) = Raise e -> refuses $"timedelta" [Some a] e.
  Proof.
    assert (X : (exists l, a = AList l) \/ c_timedelta E (Some a) = let! s := targ_str E a in mk_timedelta s).
    { destruct a; cbn; eauto. }
    destruct X as [[l ->]|X]; [cbn; intro H; injection H as <-; left; constructor|]. rewrite X.
    destruct (targ_str E a) as [s|e'] eqn:Es; cbn [bind].
    2:{ apply str_raise in Es as [-> [l ->]]. discriminate X. }
    apply AsText_spec in Es. unfold mk_timedelta. destruct (normalize_time_unit s) as [u|e'] eqn:Eu; cbn [bind]; [discriminate|].
    intro H. injection H as ->. left. pose proof (normalize_index s) as I. pose proof (normalize_errors s) as T. rewrite Eu in *.
    destruct T as [->| ->].
    - apply RF_timedelta with s; auto; [intro O; apply I in O; discriminate|]. intros u U. apply normalize_UnitOf in U. congruence.
    - apply RF_timedelta_blank with s; auto. apply I. reflexivity.
  Qed.
  Lemma r_complex a e : c_complex a = Raise e -> refuses $"complex" [Some a] e.
  Proof.
    intro H. left. assert (e = TypeErr) as ->.
    { unfold c_complex in H. destruct a; try congruence. destruct (py_eq _ _); try discriminate. destruct (py_eq _ _); congruence. }
    apply RF_complex. intros t ->. unfold c_complex in H. change (c_type $"float32" 4 4) with float32_t. change (c_type $"float64" 8 8) with float64_t.
    destruct (py_eq t (DataShapeT None [float32_t])); [discriminate|]. destruct (py_eq t (DataShapeT None [float64_t])); [discriminate|]. auto.
  Qed.
  Lemma r_option a e : c_option dsh a = Raise e -> refuses $"option" [Some a] e.
  Proof.
    unfold c_option. destruct (targ_launder dsh a) as [t|e'] eqn:Ea; cbn [bind]; [discriminate|]. intro H. injection H as ->.
    left. apply RF_option. apply launder_raise. auto.
  Qed.
  Lemma r_map a b e : c_map dsh a b = Raise e -> refuses $"map" [Some a; Some b] e.
  Proof.
    unfold c_map. destruct (targ_launder dsh a) as [t|e'] eqn:Ea; cbn [bind].
    2:{ intro H. injection H as ->. left. apply RF_map_key. apply launder_raise. auto. }
    destruct (targ_launder dsh b) as [u|e'] eqn:Eb; cbn [bind]; [discriminate|].
    intro H. injection H as ->. left. apply RF_map_value. apply launder_raise. auto.
  Qed.
  Lemma r_time n mk a e : In n [$"time"; $"datetime"] -> c_time mk a = Raise e -> refuses n [a] e.
  Proof.
    intros Hn H. left. destruct a as [[| | | |]|]; cbn in H; try discriminate; injection H as <-; apply RF_time; auto; discriminate.
  Qed.
  Lemma r_units a b e : c_units a b = Raise e -> refuses $"units" [Some a; b] e.
  Proof.
    intro H. left. destruct a as [| |s| |]; try (injection H as <-; apply RF_units; discriminate).
    destruct b as [[| | |t|]|]; try discriminate; try (injection H as <-; apply RF_units_type; discriminate).
    cbn in H. destruct (is_DataShape t) eqn:Et; [discriminate|]. injection H as <-. apply RF_units_type. intros n ps X. injection X as ->. discriminate.
  Qed.
  Lemma r_decimal a b e : c_decimal a b = Raise e -> refuses $"decimal" [Some a; b] e.
  Proof.
    intro H. right. destruct a; try (injection H as <-; split; [reflexivity|apply O_precision; discriminate]).
    destruct b as [[]|]; try discriminate; injection H as <-; (split; [reflexivity|apply O_scale; discriminate]).
  Qed.
  Lemma r_categorical a b c e : c_categorical E a b c = Raise e -> refuses $"categorical" [Some a; b; c] e.
  Proof.
    unfold c_categorical. destruct (targ_iter a) as [l|e'] eqn:Ea; cbn [bind].
    2:{ intro H. injection H as ->. apply iter_raise in Ea as [[-> H]|[-> [t [-> H]]]]; [left; apply RF_categories; auto|].
        right. split; auto. eapply O_sequence; [do 3 right; left; reflexivity|exact H|left; reflexivity]. }
    apply Elements_spec in Ea. destruct (mapM targ_lit l) as [lits|e'] eqn:E1; cbn [bind].
    2:{ intro H. injection H as ->. apply mapM_raise in E1 as [x [i [H1 H2]]]. right.
        assert (Y : e = NotModelled /\ ((exists t, x = ADs t) \/ exists m, x = AList m)).
        { destruct x; try discriminate; injection H2 as <-; split; eauto. }
        destruct Y as [-> Y]. split; auto. eapply O_category; eauto. eapply nth_error_In; eauto. }
    apply mapM_Ok_Forall2 in E1.
    assert (FL : Forall2 AsLiteral l lits) by (clear - E1; induction E1; constructor; auto; apply AsLiteral_spec; auto).
    clear E1. match goal with |- bind ?m _ = _ -> _ => destruct m as [t|e'] eqn:Em end; cbn [bind].
    - intro H. right. destruct c as [[]|]; try discriminate; injection H as <-; (split; [reflexivity|]); apply O_ordered; discriminate.
    - intro H. injection H as ->. left.
      assert (D : forall e, (let! t := e_disc E lits in Ok (measure t)) = Raise e -> e_disc E lits = Raise e).
      { clear. intros e H. destruct (e_disc E lits); cbn in H; congruence. }
      destruct b as [x|].
      + assert (Y : (falsy x = true /\ (let! t := e_disc E lits in Ok (measure t)) = Raise e) \/
                    (falsy x = false /\ (forall t, x <> ADs t) /\ e = AttributeErr)).
        { destruct x; try discriminate; match type of Em with (if ?f then _ else _) = _ => destruct f eqn:Ef end; auto;
            right; (split; [auto|]); (split; [discriminate|congruence]). }
        destruct Y as [[F Y]|[F [Y ->]]].
        * apply D in Y. eapply RF_discover; eauto. right. exists x. split; auto. apply Falsy_spec; auto.
        * apply RF_category_type; auto. rewrite Falsy_spec. congruence.
      + apply D in Em. eapply RF_discover; eauto.
  Qed.
  Lemma mk_string_raise n s e : mk_string n (Some s) = Raise e -> e = ValueErr /\ forall c, ~ Encoding s c.
  Proof.
    assert (X : mk_string n (Some s) = match assoc (match s with [] => $"U8" | _ => s end) string_encodings with
                                        | Some c => Ok (StringT n c) | None => Raise ValueErr end) by (destruct s; reflexivity).
    rewrite X. destruct (assoc _ _) as [c|] eqn:Ec; [discriminate|]. intro H. injection H as <-. split; auto. intros c Hc.
    apply Encoding_spec in Hc. congruence.
  Qed.
  Lemma r_string args kw e : args <> [] \/ kw <> [] -> (match kw with [] => c_string args | _ => Raise TypeErr end) = Raise e ->
    RefusesString args kw e \/ (e = NotModelled /\ OddString args /\ kw = []).
  Proof.
    intros N H. destruct kw as [|k kw]; [|injection H as <-; left; apply RS_keyword; discriminate].
    destruct args as [|a [|b [|c l]]].
    - destruct N as [N|N]; destruct (N eq_refl).
    - destruct a; cbn [c_string] in H.
      + discriminate.
      + injection H as <-. right. split; auto. split; auto. constructor.
      + apply mk_string_raise in H as [-> H]. left. constructor; auto.
      + injection H as <-. left. constructor. eauto.
      + injection H as <-. left. constructor. eauto.
    - assert (X : c_string [a; b] = let! t := match b with
                  | AStr s => mk_string None (Some s)
                  | AInt z => if z =? 0 then mk_string None None else Raise ValueErr
                  | ABool b => if b then Raise ValueErr else mk_string None None
                  | ADs _ => Raise ValueErr
                  | AList [] => mk_string None None
                  | AList _ => Raise TypeErr
                  end in match a, t with AInt z, StringT _ c => Ok (StringT (Some z) c) | _, _ => Raise NotModelled end) by (destruct a; reflexivity).
      rewrite X in H. clear X.
      match type of H with bind ?m _ = _ => destruct m as [t|e'] eqn:Em end; cbn [bind] in H.
      + right. assert (exists o c, t = StringT o c) as [o [c ->]].
        { clear H. destruct b as [z|b|s|d|[|? ?]]; try discriminate.
          - destruct (z =? 0); [|discriminate]. injection Em as <-. eauto.
          - destruct b; [discriminate|]. injection Em as <-. eauto.
          - apply mk_string_spec in Em as [c [_ ->]]. eauto.
          - injection Em as <-. eauto. }
        destruct a; try discriminate; injection H as <-; (split; [reflexivity|split; [apply OS_length; discriminate|reflexivity]]).
      + injection H as ->. left. destruct b as [z|b|s|d|[|? ?]]; try discriminate.
        * destruct (Z.eqb_spec z 0); [discriminate|]. injection Em as <-. apply RS_no_encoding; try discriminate. intros [X|[X|[X|X]]]; congruence.
        * destruct b; [|discriminate]. injection Em as <-. apply RS_no_encoding; try discriminate. intros [X|[X|[X|X]]]; congruence.
        * apply mk_string_raise in Em as [-> H]. apply RS_encoding2; auto.
        * injection Em as <-. apply RS_no_encoding; try discriminate. intros [X|[X|[X|X]]]; congruence.
        * injection Em as <-. apply RS_list.
    - assert (e = UnboundErr) as -> by (destruct a; cbn in H; congruence). left. apply RS_many.
  Qed.

  Lemma entry_raise ps f n args kw e : NoDup (map fst ps) -> NoDup (map fst kw) ->
    (forall b, length b = length ps -> (forall i m, nth_error ps i = Some (m, true) -> exists a, nth_error b i = Some (Some a)) ->
       f (nth 0 b None) (nth 1 b None) (nth 2 b None) = Raise e -> refuses n b e) ->
    entry ps f args kw = Raise e ->
    (e = TypeErr /\ forall b, ~ Bound ps args kw b) \/ exists b, Bound ps args kw b /\ refuses n b e.
  Proof.
    intros NP NK H. unfold entry. pose proof (call_bind_err ps args kw) as He. destruct (call_bind ps args kw) as [b|e'] eqn:Eb; cbn [bind].
    - apply call_bind_spec in Eb; auto. intro Hf. right. exists b. split; auto. apply H; auto; [exact (B_length _ _ _ _ Eb)|].
      intros i m Hi. eapply Bound_required; eauto.
    - intro X. injection X as ->. left. split; auto. intros b Hb. apply call_bind_spec in Hb; auto. congruence.
  Qed.
  Definition Refusing (n : str) (ps : list (str * bool)) : Prop :=
    forall c args kw e, constr_fun E dsh n = Some c -> NoDup (map fst kw) -> c args kw = Raise e ->
    (e = TypeErr /\ forall b, ~ Bound ps args kw b) \/ exists b, Bound ps args kw b /\ refuses n b e.
  Ltac begin f := let c := fresh "c" in let H := fresh in let NK := fresh "NK" in intros c args kw e H NK;
    match goal with |- _ -> _ \/ exists b, Bound ?ps _ _ b /\ _ => change (Some (entry ps f) = Some c) in H; injection H as <-;
      apply (entry_raise ps f); [apply nodup2; reflexivity|exact NK|] end;
    let b := fresh "b" in let Hl := fresh "Hl" in let Hr := fresh "Hr" in intros b Hl Hr;
    destruct b as [|o [|o2 [|o3 [|? ?]]]]; cbn in Hl; try discriminate; clear Hl;
    let a := fresh "a" in let a2 := fresh "a2" in let Ha := fresh "Ha" in
    try (destruct (Hr 1%nat _ eq_refl) as [a2 Ha]; cbn in Ha; injection Ha as ->);
    try (destruct (Hr 0%nat _ eq_refl) as [a Ha]; cbn in Ha; injection Ha as ->); clear Hr; cbn [nth req].
  Theorem constr_refused n ps c args kw e : In (n, ps) signatures -> constr_fun E dsh n = Some c -> NoDup (map fst kw) ->
    c args kw = Raise e ->
    (e = TypeErr /\ forall b, ~ Bound ps args kw b) \/ exists b, Bound ps args kw b /\ refuses n b e.
  Proof.
    intros Hin. revert c args kw e. change (Refusing n ps). cbn [signatures In] in Hin.
    destruct Hin as [H|Hin]; [injection H; intros; subst; clear; begin (fun a _ _ : option targ => req a c_complex); apply r_complex|].
    destruct Hin as [H|Hin]; [injection H; intros; subst; clear; begin (fun a b _ : option targ => req a (fun a => req b (fun b => c_struct E dsh a b))); apply r_struct|].
    destruct Hin as [H|Hin]; [injection H; intros; subst; clear; begin (fun a _ _ : option targ => req a (c_tuple dsh)); apply r_tuple|].
    destruct Hin as [H|Hin]; [injection H; intros; subst; clear; begin (fun a b _ : option targ => req a (fun a => req b (fun b => c_funcproto a b))); apply r_funcproto|].
    destruct Hin as [H|Hin]; [injection H; intros; subst; clear; begin (fun a _ _ : option targ => req a (c_typevar E)); apply r_typevar|].
    destruct Hin as [H|Hin]; [injection H; intros; subst; clear; begin (fun a _ _ : option targ => req a (c_option dsh)); apply r_option|].
    destruct Hin as [H|Hin]; [injection H; intros; subst; clear; begin (fun a b _ : option targ => req a (fun a => req b (fun b => c_map dsh a b))); apply r_map|].
    destruct Hin as [H|Hin]; [injection H; intros; subst; clear; begin (fun a _ _ : option targ => c_time TimeT a); apply r_time; cbn; auto|].
    destruct Hin as [H|Hin]; [injection H; intros; subst; clear; begin (fun a _ _ : option targ => c_time DateTimeT a); apply r_time; cbn; auto|].
    destruct Hin as [H|Hin]; [injection H; intros; subst; clear; begin (fun a _ _ : option targ => c_timedelta E a); destruct o; [apply r_timedelta|discriminate]|].
    destruct Hin as [H|Hin]; [injection H; intros; subst; clear; begin (fun a b _ : option targ => req a (fun a => c_units a b)); apply r_units|].
    destruct Hin as [H|Hin]; [injection H; intros; subst; clear; begin (fun a b _ : option targ => req a (fun a => c_decimal a b)); apply r_decimal|].
    destruct Hin as [H|Hin]; [injection H; intros; subst; clear; begin (fun a b c : option targ => req a (fun a => c_categorical E a b c)); apply r_categorical|].
    destruct Hin.
  Qed.
  Theorem string_refused c args kw e : constr_fun E dsh $"string" = Some c -> args <> [] \/ kw <> [] -> c args kw = Raise e ->
    RefusesString args kw e \/ (e = NotModelled /\ OddString args /\ kw = []).
  Proof. intro H. cbn in H. injection H as <-. apply r_string. Qed.
End C.
