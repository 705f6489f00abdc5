(** Printed text, continued: composite types. *)
From Verif Require Import Base Types Lexer Printer Construct Parser Ops Spec_Lexer Spec_WF Spec_Print
  Proof_Lexer Proof_WF Proof_Eq Proof_Ops Proof_Print Spec_Grammar Proof_Print2.
Local Open Scope N_scope.

Ltac pch := apply P_ch; [reflexivity|constructor|discriminate|].
Ltac psp := apply P_blank; [auto|].
Ltac pname := apply P_name; [reflexivity|reflexivity|].
Ltac nodim := let H := fresh in intro H; destruct H as [[? ?]|[?|[[? ?]|[? ?]]]]; discriminate.
Ltac nds := let X := fresh in intros [? [? X]]; discriminate X.
Ltac nofix := first [intros [? ?]; discriminate|discriminate|intros ? ?; discriminate].
Ltac side := first [nodim | nofix | nds | reflexivity | (right; discriminate) | (left; discriminate)].

Section Composite.
  Variable E : env.
  Variable dsh : str -> res ty.
  Notation U := (e_uni E).
  Notation sym := (default_sym E dsh).
  Notation G := (G E dsh).
  (** usable as a whole datashape *)
  Definition Whole (t : ty) : Prop := IsMeasure t \/ IsDataShape t.

  Lemma G_words (P : ty -> Prop) l : (forall t, In t l -> exists w, G t w) -> exists ws, Forall2 G l ws.
  Proof.
    induction l as [|t l IH]; intro H; [exists []; constructor|].
    destruct (H t (or_introl eq_refl)) as [w Hw]. destruct IH as [ws Hws]; [intros; apply H; right; auto|].
    exists (w :: ws). constructor; auto.
  Qed.
  Lemma G_texts m l ws : Forall2 G l ws -> Forall2 Pieces ws (map (pp U m) l).
  Proof. induction 1 as [|t w l ws H _ IH]; constructor; auto. apply (g_text _ _ _ _ H). Qed.
  Lemma G_items l ws : Forall2 G l ws -> l <> [] -> (forall t, In t l -> Whole t) ->
    Items sym true (jw ws) (map (fun t => asds (norm t)) l).
  Proof.
    induction 1 as [|t w l ws H HF IH]; intros N HW; [congruence|].
    assert (HD : DS sym true w (asds (norm t))) by (apply (g_ds _ _ _ _ H), HW; left; auto).
    inversion HF as [|t' w' l' ws' H' HF']; subst; [apply I_one; auto|].
    change (jw (w :: w' :: ws')) with (w ++ tok KComma :: jw (w' :: ws')). cbn [map]. apply I_more; auto.
    apply IH; [discriminate|]. intros; apply HW; right; auto.
  Qed.
  Lemma G_tupletype l ws : Forall2 G l ws -> (forall t, In t l -> Whole t) ->
    TupleType sym true (tok KLP :: jw ws ++ [tok KRP]) (map (fun t => asds (norm t)) l).
  Proof.
    intros HF HW. destruct l as [|t l].
    - inversion HF; subst. apply TT_empty.
    - apply TT_items. apply G_items; auto. discriminate.
  Qed.

  (** ** tuples *)
  Lemma mapM_tuple_items l : (forall t, In t l -> IsDataShape t) ->
    mapM (tuple_item dsh) (map targ_parg (map ADs l)) = Ok l.
  Proof.
    intro H. induction l as [|t l IH]; [reflexivity|]. cbn [map]. rewrite mapM_cons. cbn [targ_parg tuple_item].
    assert (is_DataShape t = true) as -> by (apply IsDataShape_b; apply H; left; auto). cbn [bind].
    rewrite IH; [reflexivity|]. intros; apply H; right; auto.
  Qed.
  Lemma map_asds_ds l : (forall t, In t l -> IsDataShape t) -> map (fun t => asds (norm t)) l = map norm l.
  Proof. intro H. apply map_ext_in. intros t Ht. apply norm_ds. auto. Qed.
  Lemma G_tuple l ws : Forall2 G l ws -> (forall t, In t l -> IsDataShape t) ->
    G (TupleT l) (tok KLP :: jw ws ++ [tok KRP]).
  Proof.
    intros HF HD. apply G_measure; try side.
    - intro m. pose proof (fun m => G_texts m l ws HF) as HT.
      destruct m as [|w|r w]; cbn [pp].
      + pch. apply Pieces_app; [apply Pieces_join; auto|pch; constructor|reflexivity].
      + apply Pieces_layout; auto; try discriminate; constructor.
      + apply Pieces_layout; auto; try discriminate; constructor.
    - intros _. split.
      + eapply DT_tuple; [apply G_tupletype; eauto; intros; right; auto|reflexivity|].
        rewrite map_asds_ds by auto.
        change (mk_tuple dsh (map targ_parg (map ADs (map norm l))) = Ok (TupleT (map norm l))).
        unfold mk_tuple. rewrite mapM_tuple_items; [reflexivity|].
        intros t Ht. apply in_map_iff in Ht as [u [<- Hu]]. apply norm_IsDataShape. auto.
      + intros [a [b [v [d [X _]]]]]. discriminate.
  Qed.

  (** ** functions *)
  Lemma mapM_targ_ds l : mapM targ_ds (map ADs l) = Ok l.
  Proof. induction l as [|t l IH]; [reflexivity|]. cbn [map]. rewrite mapM_cons, IH. reflexivity. Qed.
  Lemma G_function l ws r v : Forall2 G l ws -> G r v -> (forall t, In t l -> Whole t) -> Whole r ->
    G (FunctionT (l ++ [r])) ((tok KLP :: jw ws ++ [tok KRP]) ++ tok KArrow :: v).
  Proof.
    intros HF HG HW HR. apply G_measure; try side.
    - intro m. cbn [pp]. rewrite map_app. cbn [map]. rewrite removelast_last, last_last.
      change ((tok KLP :: jw ws ++ [tok KRP]) ++ tok KArrow :: v) with (tok KLP :: (jw ws ++ [tok KRP]) ++ tok KArrow :: v).
      rewrite <- app_assoc. change ($"(" ++ ?x) with (40 :: x). pch.
      apply Pieces_app; [apply Pieces_join; auto; apply G_texts; auto| |reflexivity].
      change ($") -> " ++ pp U MStr r) with (41 :: 32 :: $"->" ++ 32 :: pp U MStr r).
      change ([tok KRP] ++ tok KArrow :: v) with (tok KRP :: tok KArrow :: v). pch. psp.
      apply P_tok; [constructor|discriminate|simpl; intuition discriminate|exact I|]. psp. apply (g_text _ _ _ _ HG).
    - intros _. split.
      + eapply DT_funcproto; [apply G_tupletype; eauto|apply (g_ds _ _ _ _ HG); auto|reflexivity|].
        change (c_funcproto (AList (map ADs (map (fun t => asds (norm t)) l))) (ADs (asds (norm r))) = Ok (norm (FunctionT (l ++ [r])))).
        unfold c_funcproto. cbn [targ_iter bind]. rewrite mapM_targ_ds. cbn [bind targ_ds norm]. rewrite map_app. reflexivity.
      + intros [a [b [c [d [X _]]]]]. discriminate.
  Qed.

  (** ** maps, options, units *)
  Lemma map_part t w : G t w -> (IsMeasure t \/ IsDataShape t \/ exists z, t = FixedT z) -> ~ Lone t -> Inv t ->
    exists w' a, (forall m, Pieces w' (pp U m t)) /\ Arg sym true w' a /\ targ_launder dsh a = Ok (norm t).
  Proof.
    intros Ht HW HL HI.
    assert (X : Whole t -> exists w' a, (forall m, Pieces w' (pp U m t)) /\ Arg sym true w' a /\ targ_launder dsh a = Ok (norm t)).
    { intro Wt. exists w, (ADs (asds (norm t))). split; [apply (g_text _ _ _ _ Ht)|]. split; [apply AR_ds, (g_ds _ _ _ _ Ht); auto|].
      unfold targ_launder, launder. rewrite launder_asds by auto. reflexivity. }
    destruct HW as [HW|[HW|[z ->]]]; [apply X; left; auto|apply X; right; auto|].
    exists [(KInt, VInt z)], (AInt z). split; [apply (g_text _ _ _ _ (G_fixed E dsh z HI))|].
    split; [apply (AR_literal sym true []); [left; reflexivity|constructor]|].
    cbn. unfold mk_fixed. cbn in HI. destruct (Z.ltb_spec z 0); [lia|reflexivity].
  Qed.
  Lemma G_map k v wk wv : G k wk -> G v wv ->
    (forall u, u = k \/ u = v -> IsMeasure u \/ IsDataShape u \/ exists z, u = FixedT z) -> ~ Lone k -> ~ Lone v -> Inv k -> Inv v ->
    exists w, G (MapT k v) w.
  Proof.
    intros Hk Hv HW Lk Lv Ik Iv.
    destruct (map_part k wk Hk (HW k (or_introl eq_refl)) Lk Ik) as [wk' [ak [Tk [Ak Rk]]]].
    destruct (map_part v wv Hv (HW v (or_intror eq_refl)) Lv Iv) as [wv' [av [Tv [Av Rv]]]].
    exists ((KLower, VStr $"map") :: tok KLBk :: (wk' ++ tok KComma :: wv') ++ [tok KRBk]).
    eapply G_constr with (args := [ak; av]) (kw := []); try side.
    - intro m. cbn [pp]. change ($"map[" ++ ?x) with ($"map" ++ 91 :: x). pname. pch. rewrite <- app_assoc.
      apply Pieces_app; [apply Tk| |reflexivity].
      change ($", " ++ ?x) with (44 :: 32 :: x). cbn [app]. pch. psp.
      apply Pieces_app; [apply Tv|pch; constructor|reflexivity].
    - apply A_more; [exact Ak|]. apply A_one, Av.
    - change (c_map dsh ak av = Ok (norm (MapT k v))).
      unfold c_map. rewrite Rk. cbn [bind]. rewrite Rv. reflexivity.
  Qed.
  Lemma G_option t w : G t w -> Whole t -> ~ Lone t -> NotOption t -> G (OptionT t) (tok KQ :: w).
  Proof.
    intros H HW HL HO.
    assert (HD : DS sym true (tok KQ :: w) (DataShapeT None [OptionT (norm t)])).
    { eapply DS_option with (o := OptionT (norm t)); [apply (g_noopt _ _ _ _ H); auto|reflexivity| |].
      - change (c_option dsh (ADs (asds (norm t))) = Ok (OptionT (norm t))).
        unfold c_option, targ_launder, launder. rewrite launder_asds by auto. reflexivity.
      - reflexivity. }
    constructor.
    - intro m. cbn [pp]. change ($"?" ++ ?x) with (63 :: x). pch. apply (g_text _ _ _ _ H).
    - nodim.
    - intros _ X. exfalso. exact (X t eq_refl).
    - intros _ X. exfalso. exact (X t eq_refl).
    - intros _. exact HD.
  Qed.
  Lemma float64_norm t : IsDataShape t -> Lexable U t -> is_DS_float64 t = true -> norm t = DataShapeT None [float64_t].
  Proof.
    intros [n [ps ->]] [_ [dims [m [-> [Hd Hm]]]]] H. unfold is_DS_float64 in H. rewrite py_eq_unfold in H.
    apply andb_true_iff in H as [H1 H2]. simpl shape in H1. rewrite removelast_last in H1.
    destruct dims as [|d dims]; [|simpl in H1; discriminate].
    simpl measure in H2. destruct m; try discriminate. simpl in H2. rewrite !andb_true_iff in H2.
    destruct H2 as [[H2 H3] H4]. apply str_eqb_eq in H2. apply Z.eqb_eq in H3. apply Z.eqb_eq in H4. subst. reflexivity.
  Qed.
  Lemma G_units u t w : G t w -> IsDataShape t -> Lexable U t -> Quotable U u -> exists w', G (UnitsT u t) w'.
  Proof.
    intros H HD HL Hu. destruct (is_DS_float64 t) eqn:E64.
    - exists ((KLower, VStr $"units") :: tok KLBk :: [(KStr, VStr u)] ++ [tok KRBk]).
      eapply G_constr with (args := [AStr u]) (kw := []); try side.
      + intro m. cbn [pp]. rewrite E64. change ($"units[" ++ ?x) with ($"units" ++ 91 :: x). cbn [app]. pname. pch.
        apply P_repr; [auto|reflexivity|]. pch. constructor.
      + apply A_one, Arg_str.
      + change (mk_units u None = Ok (UnitsT u (norm t))). rewrite (float64_norm t) by auto. reflexivity.
    - exists ((KLower, VStr $"units") :: tok KLBk :: ([(KStr, VStr u)] ++ tok KComma :: w) ++ [tok KRBk]).
      eapply G_constr with (args := [AStr u; ADs (norm t)]) (kw := []); try side.
      + intro m. cbn [pp]. rewrite E64. change ($"units[" ++ ?x) with ($"units" ++ 91 :: x). cbn [app]. pname. pch.
        apply P_repr; [auto|reflexivity|]. change ($", " ++ ?x) with (44 :: 32 :: x). cbn [app]. pch. psp.
        apply Pieces_app; [apply (g_text _ _ _ _ H)|pch; constructor|reflexivity].
      + apply A_more; [apply Arg_str|]. apply A_one, AR_ds. rewrite <- (norm_ds t) by auto. apply (g_ds _ _ _ _ H). right; auto.
      + change (mk_units u (Some (norm t)) = Ok (UnitsT u (norm t))). unfold mk_units.
        rewrite norm_is_DataShape. assert (is_DataShape t = true) as -> by (apply IsDataShape_b; auto). reflexivity.
  Qed.

  (** ** arrays *)
  Fixpoint dw (ds : list word) (w : word) : word :=
    match ds with [] => w | d :: r => d ++ tok KAst :: dw r w end.
  Lemma pp_array m n dims x : n = None \/ n = Some [] ->
    exists m', pp U m (DataShapeT n (dims ++ [x])) = flat_map (fun d => pp U MStr d ++ $" * ") dims ++ pp U m' x.
  Proof.
    intro Hn.
    assert (HS : join $" * " (map (pp U MStr) (dims ++ [x])) = flat_map (fun d => pp U MStr d ++ $" * ") dims ++ pp U MStr x).
    { clear. induction dims as [|d dims IH]; [reflexivity|]. cbn [app map flat_map]. rewrite <- !app_assoc, <- IH.
      destruct dims; reflexivity. }
    destruct m as [|w|r w].
    - exists MStr. cbn [pp]. destruct Hn as [-> | ->]; exact HS.
    - set (go := fix go (acc : str) (l : list ty) : str :=
             match l with
             | [] => acc
             | x :: r =>
                 match r with
                 | [] => acc ++ pp U (MBody (Z.of_nat (length acc)) w) x
                 | _ => go (acc ++ pp U MStr x ++ $" * ") r
                 end
             end).
      assert (HG : forall dims acc, exists m', go acc (dims ++ [x]) = acc ++ flat_map (fun d => pp U MStr d ++ $" * ") dims ++ pp U m' x).
      { clear. induction dims as [|d dims IH]; intro acc.
        - eexists. reflexivity.
        - cbn [app]. destruct (IH (acc ++ pp U MStr d ++ $" * ")) as [m' H]. exists m'.
          cbn [flat_map]. rewrite <- !app_assoc in *. rewrite <- H. destruct dims; reflexivity. }
      destruct (HG dims []) as [m' H]. exists m'. exact H.
    - exists MStr. cbn [pp]. destruct Hn as [-> | ->]; exact HS.
  Qed.
  Lemma G_array n dims x ds w : n = None \/ n = Some [] -> Forall2 G dims ds -> G x w ->
    (forall d, In d dims -> IsDim d) -> IsMeasure x -> G (DataShapeT n (dims ++ [x])) (dw ds w).
  Proof.
    intros Hn HF HG HD HM.
    assert (HDS : DS sym true (dw ds w) (DataShapeT None (map norm (dims ++ [x]))) /\
                  (dims <> [] -> NoOpt sym true (dw ds w) (DataShapeT None (map norm (dims ++ [x]))))).
    { clear Hn. induction HF as [|d wd dims ds Hd HF IH].
      - split; [|congruence]. cbn [app map dw]. rewrite <- norm_nonds by (apply HM). apply (g_ds _ _ _ _ HG). left; auto.
      - destruct IH as [IH _]; [intros; apply HD; right; auto|].
        assert (X : NoOpt sym true (dw (wd :: ds) w) (DataShapeT None (map norm ((d :: dims) ++ [x])))).
        { cbn [dw]. eapply NO_dim; [apply (g_dim _ _ _ _ Hd), HD; left; auto|exact IH|].
          cbn [ds_params app map]. apply mk_ds_ok.
          exists (map norm (d :: dims)), (norm x). split; [rewrite map_app; reflexivity|]. split; [|split].
          - intro Y. apply (proj1 (norm_Dimension x)) in Y. destruct HM as [_ [A _]]. contradiction.
          - intros y Hy. apply in_map_iff in Hy as [z [<- Hz]]. specialize (HD _ Hz). rewrite norm_dim by auto.
            destruct HD as [[? ->]|[->|[[? ->]|[? ->]]]]; intro Y; inversion Y.
          - intros y Hy HL. rewrite <- (map_app norm (d :: dims) [x]) in Hy || idtac.
            change (In y (norm d :: map norm (dims ++ [x]))) in Hy.
            assert (Hy' : exists z, norm z = y /\ (In z (d :: dims) \/ z = x)).
            { destruct Hy as [<-|Hy]; [exists d; split; [auto|left; left; auto]|].
              apply in_map_iff in Hy as [z [<- Hz]]. exists z. split; auto. apply in_app_iff in Hz as [Hz|[Hz|[]]]; auto.
              left; right; auto. }
            destruct Hy' as [z [<- Hz]]. apply (proj1 (norm_Lone z)) in HL. destruct HL as [k [q ->]].
            destruct Hz as [Hz|<-].
            + specialize (HD _ Hz). destruct HD as [[? X]|[X|[[? X]|[? X]]]]; discriminate.
            + destruct HM as [A _]. apply A. eexists; eexists; reflexivity. }
        split; [apply DS_plain; exact X|auto]. }
    assert (NM : ~ IsMeasure (DataShapeT n (dims ++ [x]))).
    { intros [A _]. apply A. eexists; eexists; reflexivity. }
    constructor.
    - intro m. destruct (pp_array m n dims x Hn) as [m' ->]. clear HDS NM HD.
      induction HF as [|d wd dims ds Hd HF IH]; [apply (g_text _ _ _ _ HG)|].
      cbn [flat_map dw]. rewrite <- !app_assoc. apply Pieces_app; [apply (g_text _ _ _ _ Hd)| |reflexivity].
      change ($" * " ++ ?x) with (32 :: 42 :: 32 :: x). psp. pch. psp. exact IH.
    - nodim.
    - intro; contradiction.
    - intros _ _ HL. destruct HDS as [_ X]. apply X. intros ->. apply HL. eexists; eexists; reflexivity.
    - intros _. apply HDS.
  Qed.

  (** ** records *)
  Definition fw (f : kind * tval) (w : word) : word := f :: tok KColon :: w.
  Lemma G_fields fs : (forall n u, In (n, u) fs -> PrintableName U n /\ Whole u /\ exists w, G u w) ->
    exists l, Forall2 (fun f p => FieldTok (fst f) (fst p) /\ Pieces [fst p] (field_name U (fst f)) /\ G (snd f) (snd p)) fs l.
  Proof.
    induction fs as [|[n u] fs IH]; intro H; [exists []; constructor|].
    destruct (H n u (or_introl eq_refl)) as [H1 [_ [w Hw]]]. destruct (Pieces_field U n H1) as [t [Ht HP]].
    destruct IH as [l Hl]; [intros; apply H; right; auto|]. exists ((t, w) :: l). constructor; auto.
  Qed.
  Lemma FieldTok_name n f : FieldTok n f -> FieldName f n.
  Proof. destruct f as [k v]. intros [H1 H2]. simpl in H1. subst v. apply FN. exact H2. Qed.
  Lemma fields_grammar fs l :
    Forall2 (fun f p => FieldTok (fst f) (fst p) /\ Pieces [fst p] (field_name U (fst f)) /\ G (snd f) (snd p)) fs l ->
    fs <> [] -> (forall n u, In (n, u) fs -> Whole u) ->
    Fields sym true (jw (map (fun p => fw (fst p) (snd p)) l)) (map (fun f => (fst f, asds (norm (snd f)))) fs).
  Proof.
    induction 1 as [|[n u] [t w] fs l H HF IH]; intros N HW; [congruence|].
    cbn [fst snd] in H. destruct H as [H1 [_ H3]].
    assert (HD : DS sym true w (asds (norm u))) by (apply (g_ds _ _ _ _ H3), (HW n); left; auto).
    apply FieldTok_name in H1.
    inversion HF as [|f' p' fs' l' H' HF']; subst; [apply F_one; auto|].
    change (jw (map (fun p => fw (fst p) (snd p)) ((t, w) :: p' :: l'))) with
      (t :: tok KColon :: w ++ tok KComma :: jw (map (fun p => fw (fst p) (snd p)) (p' :: l'))).
    cbn [map fst snd]. apply F_more; auto. apply IH; [discriminate|]. intros; eapply HW; right; eauto.
  Qed.
  Lemma struct_ok fs : NoDup (map fst fs) -> (forall n u, In (n, u) fs -> ~ Lone u) ->
    c_struct E dsh (AList (map (fun f => AStr (fst f)) (map (fun f => (fst f, asds (norm (snd f)))) fs)))
                   (AList (map (fun f => ADs (snd f)) (map (fun f : str * ty => (fst f, asds (norm (snd f)))) fs)))
    = Ok (norm (RecordT fs)).
  Proof.
    intros HN HL. unfold c_struct. cbn [targ_iter bind].
    set (pairs := combine _ _).
    assert (HP : pairs = map (fun f => (AStr (fst f), ADs (asds (norm (snd f))))) fs).
    { unfold pairs. clear. induction fs as [|f fs IH]; [reflexivity|]. cbn [map combine fst snd]. f_equal. exact IH. }
    rewrite HP. clear pairs HP.
    assert (H1 : mapM (fun p => targ_str E (fst p)) (map (fun f => (AStr (fst f), ADs (asds (norm (snd f))))) fs) = Ok (map fst fs)).
    { clear. induction fs as [|f fs IH]; [reflexivity|]. cbn [map]. rewrite mapM_cons, IH. reflexivity. }
    assert (H2 : mapM (fun p : targ * targ => targ_launder dsh (snd p)) (map (fun f => (AStr (fst f), ADs (asds (norm (snd f))))) fs) =
                 Ok (map (fun f => norm (snd f)) fs)).
    { clear - HL. induction fs as [|[n u] fs IH]; [reflexivity|]. cbn [map]. rewrite mapM_cons, IH.
      - cbn [snd targ_launder launder bind]. rewrite launder_asds by (apply (HL n); left; auto). reflexivity.
      - intros n' u' Hi. apply (HL n'). right; auto. }
    rewrite H1. cbn [bind]. rewrite H2. cbn [bind].
    assert (nodup_str (map fst fs) = true) as -> by (apply nodup_str_NoDup; auto).
    cbn [norm]. do 2 f_equal. clear. induction fs as [|[n u] fs IH]; [reflexivity|]. cbn [map combine fst snd]. f_equal. exact IH.
  Qed.
  Lemma G_record fs : NoDup (map fst fs) ->
    (forall n u, In (n, u) fs -> PrintableName U n /\ Whole u /\ exists w, G u w) ->
    (forall n u, In (n, u) fs -> ~ Lone u) -> exists w, G (RecordT fs) w.
  Proof.
    intros HN HA HL. destruct (G_fields fs HA) as [l Hl].
    exists (tok KLBc :: jw (map (fun p => fw (fst p) (snd p)) l) ++ [tok KRBc]).
    apply G_measure; try side.
    - assert (HT : forall k, Forall2 Pieces (map (fun p => fw (fst p) (snd p)) l)
        (map (fun f => field_name U (fst f) ++ $": " ++ pp U (k f) (snd f)) fs)).
      { intro k. clear HN HA HL. induction Hl as [|[n u] [t w] fs l H HF IH]; constructor; auto.
        cbn [fst snd] in *. destruct H as [_ [H2 H3]]. change (fw t w) with ([t] ++ tok KColon :: w).
        apply Pieces_app; [exact H2| |reflexivity]. change ($": " ++ ?x) with (58 :: 32 :: x). pch. psp.
        apply (g_text _ _ _ _ H3). }
      intro m. cbn [pp].
      destruct m as [|w|r w]; (apply Pieces_layout; [reflexivity|constructor|discriminate|reflexivity|constructor|discriminate|reflexivity|apply HT]).
    - intros _. split; [|intros [a [b [v [d [X _]]]]]; discriminate].
      eapply DT_struct with (fs := map (fun f => (fst f, asds (norm (snd f)))) fs).
      + destruct fs as [|f fs].
        * inversion Hl; subst. apply FL_empty. reflexivity.
        * apply FL_fields. apply fields_grammar; auto; [discriminate|]. intros n u Hi. destruct (HA n u Hi) as [_ [X _]]. exact X.
      + reflexivity.
      + apply (struct_ok fs HN HL).
  Qed.

  (** ** categoricals *)
  Definition lit_tok (l : pylit) : kind * tval :=
    match l with LInt z => (KInt, VInt z) | LBool b => (KBool, VBool b) | LStr s => (KStr, VStr s) end.
  Definition lit_arg (l : pylit) : targ :=
    match l with LInt z => AInt z | LBool b => ABool b | LStr s => AStr s end.
  Lemma lit_list c : SameKind c -> ListArg sym true (jw (map (fun l => [lit_tok l]) c)) (map lit_arg c).
  Proof.
    intro H. destruct c as [|x c]; [apply LA_nil|].
    assert (HK : exists k, forall l, In l (x :: c) -> fst (lit_tok l) = k).
    { destruct H as [H|[H|H]]; [exists KInt|exists KStr|exists KBool]; intros l Hl; destruct (H l Hl) as [? ->]; reflexivity. }
    destruct HK as [k HK]. apply (LA_literals sym true k). clear H.
    assert (HL : forall l, Literal (lit_tok l) (lit_arg l)) by (intros []; constructor).
    revert x HK. induction c as [|y c IH]; intros x HK.
    - apply LL_one; auto. apply HK; left; auto.
    - change (jw (map (fun l => [lit_tok l]) (x :: y :: c))) with (lit_tok x :: tok KComma :: jw (map (fun l => [lit_tok l]) (y :: c))).
      cbn [map]. apply LL_more; auto; [apply HK; left; auto|]. apply IH. intros l Hl. apply HK. right; auto.
  Qed.
  Lemma Pieces_lit l : (forall s, l = LStr s -> Quotable U s) -> Pieces [lit_tok l] (repr_lit U l).
  Proof.
    intro H. destruct l as [z|b|s]; cbn [lit_tok repr_lit].
    - apply Pieces_int.
    - rewrite <- (app_nil_r (bool_str b)). apply P_bool. constructor.
    - apply Pieces_repr. auto.
  Qed.
  Lemma G_categorical c t o w : (length c <= 10)%nat -> SameKind c -> (forall s, In (LStr s) c -> Quotable U s) ->
    IsMeasure t -> G t w -> exists w', G (CategoricalT c t o) w'.
  Proof.
    intros HL HK HQ HM HG.
    exists ((KLower, VStr $"categorical") :: tok KLBk ::
      ((tok KLBk :: jw (map (fun l => [lit_tok l]) c) ++ [tok KRBk]) ++ tok KComma ::
        (KLower, VStr $"type") :: tok KEq :: w ++ tok KComma :: (KLower, VStr $"ordered") :: tok KEq :: [(KBool, VBool o)]) ++ [tok KRBk]).
    eapply G_constr with (args := [AList (map lit_arg c)])
      (kw := [($"type", ADs (DataShapeT None [norm t])); ($"ordered", ABool o)]); try side.
    - intro m. cbn [pp]. unfold format_categories.
      rewrite firstn_all2 by auto. assert (Nat.ltb 10 (length c) = false) as -> by (apply Nat.ltb_ge; auto).
      change ($"categorical[" ++ ?x) with ($"categorical" ++ 91 :: x). cbn [app]. pname. pch.
      rewrite <- ?app_assoc. cbn [app]. change ($"[" ++ ?x) with (91 :: x). pch. rewrite <- !app_assoc. cbn [app].
      apply Pieces_app; [| |reflexivity].
      + apply Pieces_join; auto. clear HL HK HM. induction c as [|l c IH]; constructor.
        * apply Pieces_lit. intros s ->. apply HQ. left; auto.
        * apply IH. intros s Hs. apply HQ. right; auto.
      + change ($"]" ++ $", type=" ++ ?x) with (93 :: 44 :: 32 :: $"type" ++ 61 :: x). pch. pch. psp. pname. pch.
        rewrite <- ?app_assoc. cbn [app]. apply Pieces_app; [apply (g_text _ _ _ _ HG)| |reflexivity].
        change ($", ordered=" ++ ?x) with (44 :: 32 :: $"ordered" ++ 61 :: x). pch. psp. pname. pch. apply P_bool.
        change $"]" with [93]. pch. constructor.
    - apply A_more.
      + apply (AR_list sym true []); [left; reflexivity| |apply lit_list; auto].
        intros [p [n X]]. destruct p; discriminate.
      + apply Args_kw; try reflexivity. apply K_more.
        * apply AR_ds. rewrite <- norm_nonds by (apply HM). apply (g_ds _ _ _ _ HG). left; auto.
        * apply K_one. apply Arg_bool.
    - change (c_categorical E (AList (map lit_arg c)) (Some (ADs (DataShapeT None [norm t]))) (Some (ABool o)) = Ok (CategoricalT c (norm t) o)).
      unfold c_categorical. cbn [targ_iter bind].
      assert (mapM targ_lit (map lit_arg c) = Ok c) as ->.
      { clear. induction c as [|l c IH]; [reflexivity|]. cbn [map]. rewrite mapM_cons, IH. destruct l; reflexivity. }
      reflexivity.
  Qed.

  (** ** all together *)
  Theorem printable_G t : Printable U t -> exists w, G t w.
  Proof.
    induction t as [t IH] using children_ind. intros [HW HX].
    assert (IH' : forall c, In c (children t) -> exists w, G c w).
    { intros c Hc. apply IH; auto. split; intros u Hu; [apply HW|apply HX]; eapply Occurs_in; eauto. }
    assert (LX : forall c, In c (children t) -> Lexable U c).
    { intros c Hc. apply HX. eapply Occurs_in; eauto. constructor. }
    assert (HI' : forall c, In c (children t) -> Inv c) by (intros c Hc; apply HW; eapply Occurs_in; eauto; constructor).
    clear IH. specialize (HW t (Occurs_here t)). specialize (HX t (Occurs_here t)).
    destruct t; cbn [Inv Lexable children] in *.
    - apply G_ctype; auto.
    - eexists. apply (G_plain E dsh NullT $"null"); try side.
    - contradiction.
    - eexists. apply (G_plain E dsh DateT $"date"); try side.
    - eexists. apply (G_plain E dsh JSONT $"json"); try side.
    - eexists. apply G_var.
    - destruct tz as [z|].
      + eexists. apply (G_tz E dsh false); auto.
      + eexists. apply (G_plain E dsh (TimeT None) $"time"); try side.
    - destruct tz as [z|].
      + eexists. apply (G_tz E dsh true); auto.
      + eexists. apply (G_plain E dsh (DateTimeT None) $"datetime"); try side.
    - eexists. apply G_timedelta; auto.
    - destruct (IH' _ (or_introl eq_refl)) as [w Hw]. eapply G_units; eauto. apply LX. left; auto.
    - apply G_string; auto.
    - eexists. apply G_decimal.
    - eexists. apply G_fixed; auto.
    - eexists. apply G_typevar; auto.
    - apply G_ellipsis. intros s ->. exact HX.
    - destruct HX as [Hn [dims [m [-> [Hd Hm]]]]].
      destruct (G_words (fun _ => True) dims) as [ds Hds]; [intros; apply IH', in_app_iff; auto|].
      destruct (IH' m) as [w Hw]; [apply in_app_iff; right; left; auto|]. eexists. apply G_array; eauto.
    - destruct (IH' _ (or_introl eq_refl)) as [w Hw]. destruct HX as [H1 H2]. eexists. apply G_option; eauto.
    - destruct (list_rev_case parameters) as [->|[l [r ->]]]; [congruence|].
      destruct (G_words (fun _ => True) l) as [ws Hws]; [intros; apply IH', in_app_iff; auto|].
      destruct (IH' r) as [w Hw]; [apply in_app_iff; right; left; auto|]. eexists. apply G_function; eauto.
      + intros t Ht. destruct (HX t) as [[H _]|H]; [apply in_app_iff; auto|left; auto|right; auto].
      + destruct (HX r) as [[H _]|H]; [apply in_app_iff; right; left; auto|left; auto|right; auto].
    - destruct (IH' _ (or_introl eq_refl)) as [w1 Hw1]. destruct (IH' _ (or_intror (or_introl eq_refl))) as [w2 Hw2].
      destruct HW as [HW1 HW2]. eapply G_map; eauto; apply HI'; simpl; auto.
    - destruct HW as [HN HL]. apply G_record; auto.
      + intros n u Hi. destruct (HX n u Hi) as [A B]. split; auto. split; auto. apply IH'.
        apply in_map_iff. exists (n, u). auto.
      + intros n u Hi. apply HL. apply in_map_iff. exists (n, u). auto.
    - destruct HX as [H1 [H2 [H3 H4]]]. destruct (IH' _ (or_introl eq_refl)) as [w Hw]. eapply G_categorical; eauto.
    - destruct (G_words (fun _ => True) dshapes) as [ws Hws]; [intros; apply IH'; auto|]. eexists. apply G_tuple; eauto.
    - contradiction.
  Qed.
End Composite.
