(** Printed text is a sentence of the grammar and denotes the printed datashape. *)
From Verif Require Import Base Types Lexer Printer Construct Parser Ops Spec_Lexer Spec_WF Spec_Print
  Proof_Lexer Proof_WF Proof_Eq Proof_Ops Proof_Print Spec_Grammar.
Local Open Scope N_scope.

(** ** what is read back: no names, parameters of functions wrapped *)
Definition asds (t : ty) : ty := if is_DataShape t then t else DataShapeT None [t].
Fixpoint norm (t : ty) : ty :=
  match t with
  | UnitsT u x => UnitsT u (norm x)
  | OptionT x => OptionT (norm x)
  | CategoricalT c x o => CategoricalT c (norm x) o
  | DataShapeT _ ps => DataShapeT None (map norm ps)
  | FunctionT ps => FunctionT (map (fun p => asds (norm p)) ps)
  | TupleT ps => TupleT (map norm ps)
  | MapT k v => MapT (norm k) (norm v)
  | RecordT fs => RecordT (map (fun f => (fst f, norm (snd f))) fs)
  | _ => t
  end.
Lemma norm_IsDataShape t : IsDataShape (norm t) <-> IsDataShape t.
Proof. split; intros [n [l H]]; destruct t; try discriminate; eexists; eexists; reflexivity. Qed.
Lemma norm_is_DataShape t : is_DataShape (norm t) = is_DataShape t.
Proof. destruct t; reflexivity. Qed.
Lemma norm_Dimension t : DimensionClass (norm t) <-> DimensionClass t.
Proof. split; intro H; destruct t; simpl in *; try exact H; inversion H. Qed.
Lemma norm_Measure t : MeasureClass (norm t) <-> MeasureClass t.
Proof. split; intro H; destruct t; simpl in *; try exact H; try (inversion H; fail); constructor. Qed.
Lemma norm_Lone t : Lone (norm t) <-> Lone t.
Proof.
  split; intros [n [x H]]; destruct t; try discriminate.
  - simpl in H. injection H as _ H. destruct parameters as [|y [|]]; try discriminate. eexists; eexists; reflexivity.
  - injection H as -> ->. eexists; eexists; reflexivity.
Qed.
Lemma norm_dim t : IsDim t -> norm t = t.
Proof. intros [[n ->]|[->|[[s ->]|[o ->]]]]; reflexivity. Qed.
Lemma norm_nonds t : ~ IsDataShape t -> asds (norm t) = DataShapeT None [norm t].
Proof. intro H. unfold asds. rewrite norm_is_DataShape. destruct (is_DataShape t) eqn:E; auto. exfalso. apply H. apply IsDataShape_b; auto. Qed.
Lemma norm_ds t : IsDataShape t -> asds (norm t) = norm t.
Proof. intro H. unfold asds. rewrite norm_is_DataShape. apply IsDataShape_b in H. rewrite H. auto. Qed.
Lemma launder_asds t : ~ Lone t -> launder_ty (asds (norm t)) = norm t.
Proof.
  intro H. unfold asds. destruct (is_DataShape (norm t)) eqn:E; [|reflexivity].
  apply notLone_launder. rewrite norm_Lone. auto.
Qed.

(** ** text helpers *)
Definition plain_kind (k : kind) : bool := match k with KLower | KUpper | KOther | KInt | KStr => false | _ => true end.
Lemma P_ch k c w s : plain_kind k = true -> TokText k [c] VNone -> c <> 10 -> Pieces w s -> Pieces (tok k :: w) (c :: s).
Proof.
  intros Hk Ht Hc H. apply (P_tok k VNone [c]); auto.
  - intros ->. discriminate.
  - intros [E|[]]. congruence.
  - destruct k; try discriminate; exact I.
Qed.
Ltac pch := apply P_ch; [reflexivity|constructor|discriminate|].
Ltac psp := apply P_blank; [auto|].
Lemma P_name n w s : lower_name n = true -> clean s -> Pieces w s -> Pieces ((KLower, VStr n) :: w) (n ++ s).
Proof.
  intros H C HP. change ((KLower, VStr n) :: w) with ([(KLower, VStr n)] ++ w).
  apply Pieces_app; auto. apply Pieces_lower. apply lower_name_spec. auto.
Qed.
Ltac pname := apply P_name; [reflexivity|reflexivity|].
Lemma P_bool b w s : Pieces w s -> Pieces ((KBool, VBool b) :: w) (bool_str b ++ s).
Proof.
  intro H. apply P_tok; auto.
  - destruct b; constructor.
  - discriminate.
  - destruct b; intros X; simpl in X; intuition discriminate.
  - exact I.
Qed.

Fixpoint jw (ws : list word) : word :=
  match ws with [] => [] | [w] => w | w :: r => w ++ tok KComma :: jw r end.
Lemma Pieces_join c ws ss : c = 32 \/ c = 10 -> Forall2 Pieces ws ss -> Pieces (jw ws) (join [44; c] ss).
Proof.
  intros Hc H. induction H as [|w s ws ss Hw H IH]; [constructor|].
  inversion H as [|w' s' ws' ss' Hw' H']; subst; [exact Hw|].
  change (jw (w :: w' :: ws')) with (w ++ tok KComma :: jw (w' :: ws')).
  change (join [44; c] (s :: s' :: ss')) with (s ++ 44 :: c :: join [44; c] (s' :: ss')).
  apply Pieces_app; [auto| |reflexivity]. pch. apply P_blank; auto.
Qed.
Lemma Pieces_layout r w op cl kop kcl ws ss :
  plain_kind kop = true -> TokText kop [op] VNone -> op <> 10 ->
  plain_kind kcl = true -> TokText kcl [cl] VNone -> cl <> 10 -> is_name_char cl = false ->
  Forall2 Pieces ws ss -> Pieces (tok kop :: jw ws ++ [tok kcl]) (layout r w op cl ss).
Proof.
  intros O1 O2 O3 C1 C2 C3 C4 H. unfold layout.
  assert (HC : Pieces [tok kcl] [cl]) by (apply P_ch; auto; constructor).
  destruct (_ <? w)%Z.
  - apply P_ch; auto. apply Pieces_app; auto. apply Pieces_join; auto.
  - apply Pieces_indent. apply P_ch; auto. apply P_blank; auto. apply Pieces_app; [apply Pieces_join; auto| |reflexivity].
    apply P_blank; auto.
Qed.

Section Main.
  Variable E : env.
  Variable dsh : str -> res ty.
  Notation U := (e_uni E).
  Notation sym := (default_sym E dsh).

  Definition NotOption (t : ty) : Prop := forall v, t <> OptionT v.
  (** the word [w] is what [t] is printed as, and it denotes [norm t] *)
  Record G (t : ty) (w : word) : Prop := {
    g_text : forall m, Pieces w (pp U m t);
    g_dim : IsDim t -> Dim sym w (norm t);
    g_dtype : IsMeasure t -> NotOption t -> Dtype sym true w (norm t) /\ ~ starts_dim_constr sym w;
    g_noopt : IsMeasure t \/ IsDataShape t -> NotOption t -> ~ Lone t -> NoOpt sym true w (asds (norm t));
    g_ds : IsMeasure t \/ IsDataShape t -> DS sym true w (asds (norm t)) }.

  Lemma mk_ds_measure t : IsMeasure t -> mk_ds [norm t] = Ok (DataShapeT None [norm t]).
  Proof.
    intros [H1 [H2 H3]]. apply mk_ds_ok. exists [], (norm t). split; [reflexivity|]. split; [intro X; apply (proj1 (norm_Dimension t)) in X; contradiction|]. split.
    - intros x [].
    - intros x [<-|[]] HL. apply (proj1 (norm_Lone t)) in HL. destruct HL as [n [y ->]]. apply H1. eexists; eexists; reflexivity.
  Qed.

  (** a measure that is not an option: everything follows from its [Dtype] *)
  Lemma G_measure t w : (forall m, Pieces w (pp U m t)) -> ~ (exists n, t = FixedT n) -> t <> VarT ->
    (IsDim t -> Dim sym w (norm t)) -> NotOption t -> ~ IsDataShape t ->
    (IsMeasure t -> Dtype sym true w (norm t) /\ ~ starts_dim_constr sym w) -> G t w.
  Proof.
    intros HT HF HV HD HO HN HDt.
    assert (HNo : IsMeasure t \/ IsDataShape t -> NoOpt sym true w (asds (norm t))).
    { intros [HM|HM]; [|contradiction]. destruct (HDt HM) as [H1 H2]. rewrite norm_nonds by auto.
      eapply NO_dtype; eauto. apply mk_ds_measure; auto. }
    constructor; auto. intro H. apply DS_plain. auto.
  Qed.
  Ltac nofix := first [intros [? ?]; discriminate|discriminate|intros ? ?; discriminate].
  Lemma dims_not (t : ty) : is_DataShape t = false -> ~ IsDataShape t.
  Proof. intros H X. apply IsDataShape_b in X. congruence. Qed.

  (** types without arguments *)
  Lemma G_plain t n : assoc n dtype_table = Some t -> lower_name n = true -> (forall m, pp U m t = n) ->
    norm t = t -> ~ IsDim t -> NotOption t -> ~ IsDataShape t -> G t [(KLower, VStr n)].
  Proof.
    intros H1 H2 H3 H4 H5 H6 H7. apply G_measure; auto.
    - intro m. rewrite H3. apply Pieces_lower. apply lower_name_spec. auto.
    - intros [z ->]. apply H5. left. eauto.
    - intros ->. apply H5. right. auto.
    - intro. contradiction.
    - intros _. rewrite H4. split; [apply DT_type; exact H1|]. intros [a [b [c [d [X _]]]]]. discriminate.
  Qed.
  Ltac isdim H := destruct H as [[? ?]|[?|[[? ?]|[? ?]]]]; discriminate.
  Ltac nds := let X := fresh in intros [? [? X]]; discriminate X.
  Ltac nodim := let H := fresh in intro H; isdim H.

  (** constructors with arguments *)
  Lemma G_constr t n c w args kw : (forall m, Pieces ((KLower, VStr n) :: tok KLBk :: w ++ [tok KRBk]) (pp U m t)) ->
    ~ IsDim t -> NotOption t -> ~ IsDataShape t ->
    constr_fun E dsh n = Some c -> dim_constr_fun E n = None ->
    Args sym true w args kw -> args <> [] \/ kw <> [] -> c args (dict_of kw) = Ok (norm t) ->
    G t ((KLower, VStr n) :: tok KLBk :: w ++ [tok KRBk]).
  Proof.
    intros HT H5 H6 H7 Hc Hd HA Hne Hok. apply G_measure; auto.
    - intros [z ->]. apply H5. left. eauto.
    - intros ->. apply H5. right. auto.
    - intro. contradiction.
    - intros _. split; [eapply DT_constr; eauto|]. intros [a [b [v [d [X Y]]]]]. injection X as <- _ _.
      change (dim_constr_fun E n = Some b) in Y. congruence.
  Qed.
  Lemma Arg_str s : Arg sym true [(KStr, VStr s)] (AStr s).
  Proof. apply (AR_literal sym true []); [left; reflexivity|constructor]. Qed.
  Lemma Arg_int z : Arg sym true [(KInt, VInt z)] (AInt z).
  Proof. apply (AR_literal sym true []); [left; reflexivity|constructor]. Qed.
  Lemma Arg_bool b : Arg sym true [(KBool, VBool b)] (ABool b).
  Proof. apply (AR_literal sym true []); [left; reflexivity|constructor]. Qed.
  Lemma Args_kw n w kw : Kwargs sym true ((KLower, VStr n) :: tok KEq :: w) kw -> assoc n dtype_table = None ->
    assoc n dim_table = None -> Args sym true ((KLower, VStr n) :: tok KEq :: w) [] kw.
  Proof. intros H H1 H2. apply (A_kwargs sym true []); auto. left; reflexivity. Qed.

  Lemma P_repr s w r : Quotable U s -> clean r -> Pieces w r -> Pieces ((KStr, VStr s) :: w) (repr_str U s ++ r).
  Proof. intros. change ((KStr, VStr s) :: w) with ([(KStr, VStr s)] ++ w). apply Pieces_app; auto. apply Pieces_repr; auto. Qed.
  Lemma P_int z w r : clean r -> Pieces w r -> Pieces ((KInt, VInt z) :: w) (z2s z ++ r).
  Proof. intros. change ((KInt, VInt z) :: w) with ([(KInt, VInt z)] ++ w). apply Pieces_app; auto. apply Pieces_int. Qed.
  Lemma quotable_ascii s : forallb (fun c => (32 <=? c) && (c <=? 126) && negb (c =? 92)) s = true -> Quotable U s.
  Proof.
    rewrite forallb_forall. intro H. apply Forall_forall. intros c Hc. specialize (H c Hc).
    rewrite !andb_true_iff, negb_true_iff, N.eqb_neq, !N.leb_le in H. left. split; [lia|tauto].
  Qed.

  Lemma G_tz (dt : bool) z : Quotable U z ->
    G (if dt then DateTimeT (Some z) else TimeT (Some z))
      ((KLower, VStr (if dt then $"datetime" else $"time")) :: tok KLBk ::
        [(KLower, VStr $"tz"); tok KEq; (KStr, VStr z)] ++ [tok KRBk]).
  Proof.
    intro Hz. destruct dt.
    - eapply G_constr with (args := []) (kw := [($"tz", AStr z)]).
      + intro m. cbn [pp].
        change ($"datetime[tz=" ++ repr_str U z ++ $"]") with ($"datetime" ++ 91 :: $"tz" ++ 61 :: repr_str U z ++ 93 :: []).
        cbn [app]. pname. pch. pname. pch. apply P_repr; [auto|reflexivity|]. pch. constructor.
      + nodim.
      + nofix.
      + nds.
      + reflexivity.
      + reflexivity.
      + apply Args_kw; try reflexivity. apply K_one. apply Arg_str.
      + right; discriminate.
      + reflexivity.
    - eapply G_constr with (args := []) (kw := [($"tz", AStr z)]).
      + intro m. cbn [pp].
        change ($"time[tz=" ++ repr_str U z ++ $"]") with ($"time" ++ 91 :: $"tz" ++ 61 :: repr_str U z ++ 93 :: []).
        cbn [app]. pname. pch. pname. pch. apply P_repr; [auto|reflexivity|]. pch. constructor.
      + nodim.
      + nofix.
      + nds.
      + reflexivity.
      + reflexivity.
      + apply Args_kw; try reflexivity. apply K_one. apply Arg_str.
      + right; discriminate.
      + reflexivity.
  Qed.

  Ltac side := first [nodim | nofix | nds | reflexivity | (right; discriminate) | (left; discriminate)].

  Lemma G_timedelta u : CanonicalUnit u -> G (TimeDeltaT u)
    ((KLower, VStr $"timedelta") :: tok KLBk :: [(KLower, VStr $"unit"); tok KEq; (KStr, VStr u)] ++ [tok KRBk]).
  Proof.
    intro Hu. eapply G_constr with (args := []) (kw := [($"unit", AStr u)]); try side.
    - intro m. cbn [pp].
      change ($"timedelta[unit=" ++ repr_str U u ++ $"]") with ($"timedelta" ++ 91 :: $"unit" ++ 61 :: repr_str U u ++ 93 :: []).
      cbn [app]. pname. pch. pname. pch. apply P_repr; [|reflexivity|pch; constructor].
      apply quotable_ascii. unfold CanonicalUnit in Hu. simpl in Hu.
      repeat (destruct Hu as [<-|Hu]; [reflexivity|]). contradiction.
    - apply Args_kw; try reflexivity. apply K_one. apply Arg_str.
    - change (mk_timedelta u = Ok (TimeDeltaT u)). unfold CanonicalUnit in Hu. simpl in Hu.
      repeat (destruct Hu as [<-|Hu]; [reflexivity|]). contradiction.
  Qed.
  Lemma G_decimal p s : G (DecimalT p s)
    ((KLower, VStr $"decimal") :: tok KLBk ::
      [(KLower, VStr $"precision"); tok KEq; (KInt, VInt p); tok KComma; (KLower, VStr $"scale"); tok KEq; (KInt, VInt s)] ++ [tok KRBk]).
  Proof.
    eapply G_constr with (args := []) (kw := [($"precision", AInt p); ($"scale", AInt s)]); try side.
    - intro m. cbn [pp].
      change ($"decimal[precision=" ++ z2s p ++ $", scale=" ++ z2s s ++ $"]") with
        ($"decimal" ++ 91 :: $"precision" ++ 61 :: z2s p ++ 44 :: 32 :: $"scale" ++ 61 :: z2s s ++ 93 :: []).
      cbn [app]. pname. pch. pname. pch. apply P_int; [reflexivity|]. pch. psp. pname. pch. apply P_int; [reflexivity|].
      pch. constructor.
    - apply Args_kw; try reflexivity. apply (K_more sym true $"precision" [(KInt, VInt p)]); [apply Arg_int|].
      apply K_one. apply Arg_int.
  Qed.
  Lemma canonical_quotable e : CanonicalEncoding e -> Quotable U e /\ assoc e string_encodings = Some e /\ e <> [].
  Proof.
    intro H. unfold CanonicalEncoding in H. simpl in H.
    repeat (destruct H as [<-|H]; [split; [apply quotable_ascii; reflexivity|split; [reflexivity|discriminate]]|]). contradiction.
  Qed.
  Lemma G_string f e : CanonicalEncoding e -> exists w, G (StringT f e) w.
  Proof.
    intro He. destruct (canonical_quotable e He) as [Hq [Ha Hn]]. destruct f as [n|].
    - destruct (str_eqb e $"U8") eqn:E8.
      + apply str_eqb_eq in E8. subst e. exists ((KLower, VStr $"string") :: tok KLBk :: [(KInt, VInt n)] ++ [tok KRBk]).
        eapply G_constr with (args := [AInt n]) (kw := []); try side.
        * intro m. cbn [pp]. change (str_eqb $"U8" $"U8") with true. cbn iota.
          change ($"string[" ++ z2s n ++ $"]") with ($"string" ++ 91 :: z2s n ++ 93 :: []).
          cbn [app]. pname. pch. apply P_int; [reflexivity|]. pch. constructor.
        * apply A_one. apply Arg_int.
      + exists ((KLower, VStr $"string") :: tok KLBk :: [(KInt, VInt n); tok KComma; (KStr, VStr e)] ++ [tok KRBk]).
        eapply G_constr with (args := [AInt n; AStr e]) (kw := []); try side.
        * intro m. cbn [pp]. rewrite E8.
          change ($"string[" ++ z2s n ++ $", " ++ repr_str U e ++ $"]") with ($"string" ++ 91 :: z2s n ++ 44 :: 32 :: repr_str U e ++ 93 :: []).
          cbn [app]. pname. pch. apply P_int; [reflexivity|]. pch. psp. apply P_repr; [auto|reflexivity|]. pch. constructor.
        * apply (A_more sym true [(KInt, VInt n)]); [apply Arg_int|]. apply A_one. apply Arg_str.
        * change (c_string [AInt n; AStr e] = Ok (StringT (Some n) e)). unfold c_string, mk_string.
          destruct e as [|c e]; [congruence|]. rewrite Ha. reflexivity.
    - destruct (str_eqb e $"U8") eqn:E8.
      + apply str_eqb_eq in E8. subst e. exists [(KLower, VStr $"string")]. apply G_plain; try side.
      + exists ((KLower, VStr $"string") :: tok KLBk :: [(KStr, VStr e)] ++ [tok KRBk]).
        eapply G_constr with (args := [AStr e]) (kw := []); try side.
        * intro m. cbn [pp]. rewrite E8.
          change ($"string[" ++ repr_str U e ++ $"]") with ($"string" ++ 91 :: repr_str U e ++ 93 :: []).
          cbn [app]. pname. pch. apply P_repr; [auto|reflexivity|]. pch. constructor.
        * apply A_one. apply Arg_str.
        * change (c_string [AStr e] = Ok (StringT None e)). unfold c_string, mk_string.
          destruct e as [|c e]; [congruence|]. rewrite Ha. reflexivity.
  Qed.
  Lemma G_complex f (b : ty) c : In (f, b, c) [($"float32", float32_t, complex64_t); ($"float64", float64_t, complex128_t)] ->
    G c ((KLower, VStr $"complex") :: tok KLBk :: [(KLower, VStr f)] ++ [tok KRBk]).
  Proof.
    intro H.
    assert (X : forall f b, lower_name f = true -> assoc f dtype_table = Some b -> IsMeasure b -> norm b = b ->
      Args sym true [(KLower, VStr f)] [ADs (DataShapeT None [b])] []).
    { intros f' b' H1 H2 H3 H4. apply A_one. apply AR_ds. apply DS_plain. eapply NO_dtype; [apply DT_type; exact H2| |].
      - intros [x [y [v [d [X _]]]]]. discriminate.
      - rewrite <- H4 at 1. rewrite mk_ds_measure by auto. rewrite H4. reflexivity. }
    assert (M : forall n i a, IsMeasure (CType n i a)).
    { intros n i a. split; [nds|split; [intro Y; inversion Y|discriminate]]. }
    destruct H as [H|[H|[]]]; injection H as <- <- <-.
    - eapply G_constr with (args := [ADs (DataShapeT None [float32_t])]) (kw := []); try side.
      + intro m. cbn [pp complex64_t]. change $"complex[float32]" with ($"complex" ++ 91 :: $"float32" ++ 93 :: []).
        cbn [app]. pname. pch. pname. pch. constructor.
      + apply X; auto; apply M.
    - eapply G_constr with (args := [ADs (DataShapeT None [float64_t])]) (kw := []); try side.
      + intro m. cbn [pp complex128_t]. change $"complex[float64]" with ($"complex" ++ 91 :: $"float64" ++ 93 :: []).
        cbn [app]. pname. pch. pname. pch. constructor.
      + apply X; auto; apply M.
  Qed.
  Lemma G_ctype t : In t KnownCTypes -> exists w, G t w.
  Proof.
    intro H. unfold KnownCTypes in H. simpl in H.
    repeat (destruct H as [<-|H];
      [first [match goal with |- exists w, G ?t w => exists [(KLower, VStr (pp U MStr t))] end; apply G_plain; [reflexivity|reflexivity|intro; reflexivity|reflexivity|nodim|nofix|nds]
             |eexists; eapply (G_complex _ _ complex64_t); left; reflexivity
             |eexists; eapply (G_complex _ _ complex128_t); right; left; reflexivity]|]).
    contradiction.
  Qed.

  (** dimensions and type variables *)
  Lemma upper_typevar s : UpperName s -> mk_typevar U s = Ok (TypeVarT s).
  Proof.
    intros [[c r Hc _] _]. unfold mk_typevar, isupper. unfold is_upper, in_range in *.
    apply andb_true_iff in Hc as [H1 H2]. rewrite H1, H2. apply N.leb_le in H2. destruct (N.ltb_spec c 128); [reflexivity|lia].
  Qed.
  Lemma G_typevar s : UpperName s -> G (TypeVarT s) [(KUpper, VStr s)].
  Proof.
    intro H. apply G_measure; try side.
    - intro m. cbn [pp]. apply Pieces_upper; auto.
    - intros _. eapply D_typevar; [reflexivity|]. change (mk_typevar U s = Ok (TypeVarT s)). apply upper_typevar; auto.
    - intros _. split.
      + eapply DT_typevar; [reflexivity|]. change (mk_typevar U s = Ok (TypeVarT s)). apply upper_typevar; auto.
      + intros [a [b [v [d [X _]]]]]. discriminate.
  Qed.
  Lemma G_onlydim t w : (forall m, Pieces w (pp U m t)) -> Dim sym w (norm t) -> DimensionClass t \/ (exists o, t = EllipsisT o) -> G t w.
  Proof.
    intros H1 H2 H3. assert (N : ~ IsMeasure t).
    { intros [_ [A B]]. destruct H3 as [H3|[o H3]]; [contradiction|exact (B o H3)]. }
    assert (N' : ~ IsDataShape t).
    { intros [? [? ->]]. destruct H3 as [H3|[o H3]]; [inversion H3|discriminate]. }
    constructor; auto; intros; tauto.
  Qed.
  Lemma G_fixed n : (0 <= n)%Z -> G (FixedT n) [(KInt, VInt n)].
  Proof.
    intro H. apply G_onlydim.
    - intro m. cbn [pp]. apply Pieces_int.
    - eapply D_integer; [reflexivity|]. change (mk_fixed n = Ok (FixedT n)). unfold mk_fixed.
      destruct (Z.ltb_spec n 0); [lia|reflexivity].
    - left; constructor.
  Qed.
  Lemma G_var : G VarT [(KLower, VStr $"var")].
  Proof.
    apply G_onlydim.
    - intro m. apply Pieces_lower. apply lower_name_spec. reflexivity.
    - apply D_name, DN_name. reflexivity.
    - left; constructor.
  Qed.
  Lemma Pieces_ell : Pieces [tok KEll] $"...".
  Proof. apply Pieces_tok; [constructor|discriminate|simpl; intuition discriminate]. Qed.
  Lemma G_ellipsis o : (forall s, o = Some s -> UpperName s) -> exists w, G (EllipsisT o) w.
  Proof.
    intro H. destruct o as [s|].
    - exists ([(KUpper, VStr s)] ++ [tok KEll]). apply G_onlydim.
      + intro m. cbn [pp]. apply Pieces_app; [apply Pieces_upper; auto|apply Pieces_ell|reflexivity].
      + apply D_name. eapply DN_ellipsis_typevar; [reflexivity|].
        change (mk_ellipsis U s = Ok (EllipsisT (Some s))). unfold mk_ellipsis. rewrite upper_typevar by auto. reflexivity.
      + right; eauto.
    - exists [tok KEll]. apply G_onlydim.
      + intro m. apply Pieces_ell.
      + apply D_name, DN_ellipsis. reflexivity.
      + right; eauto.
  Qed.
End Main.
