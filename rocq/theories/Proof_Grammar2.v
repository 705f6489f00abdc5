(** Completeness of the parser: every sentence of the implemented grammar is parsed, to the
    object it denotes. *)
From Verif Require Import Base Types Lexer Printer Construct Parser Spec_Lexer Spec_Grammar
  Proof_ParserRel Proof_Grammar.

Scheme DS_mind := Minimality for DS Sort Prop
  with NoOpt_mind := Minimality for NoOpt Sort Prop
  with Dtype_mind := Minimality for Dtype Sort Prop
  with FieldList_mind := Minimality for FieldList Sort Prop
  with Fields_mind := Minimality for Fields Sort Prop
  with TupleType_mind := Minimality for TupleType Sort Prop
  with Items_mind := Minimality for Items Sort Prop
  with Args_mind := Minimality for Args Sort Prop
  with Kwargs_mind := Minimality for Kwargs Sort Prop
  with Arg_mind := Minimality for Arg Sort Prop
  with ListArg_mind := Minimality for ListArg Sort Prop.
Combined Scheme grammar_mind from DS_mind, NoOpt_mind, Dtype_mind, FieldList_mind, Fields_mind,
  TupleType_mind, Items_mind, Args_mind, Kwargs_mind, Arg_mind, ListArg_mind.

Lemma Ate_cons k v w ts r : Ate ((k, v) :: w) ts r ->
  exists t ts', ts = PTok t :: ts' /\ tk_kind t = k /\ tk_val t = v /\ Ate w ts' r.
Proof.
  intros [u [-> H]]. destruct u as [|t u]; [discriminate|]. inversion H as [[H1 H2 H3]].
  exists t, (map PTok u ++ r). repeat split; auto. exists u. auto.
Qed.
Lemma Ate_nil ts r : Ate [] ts r -> ts = r.
Proof. intros [u [-> H]]. destruct u; [reflexivity|discriminate]. Qed.
Lemma Ate_app w1 w2 ts r : Ate (w1 ++ w2) ts r -> exists m, Ate w1 ts m /\ Ate w2 m r.
Proof.
  intros [u [-> H]]. apply map_eq_app in H as [u1 [u2 [-> [H1 H2]]]].
  exists (map PTok u2 ++ r). split; [exists u1|exists u2]; rewrite ?map_app, <- ?app_assoc; auto.
Qed.
Lemma Ate_live w ts r : Ate w ts r -> live r -> live ts.
Proof. intros [u [-> H]] L. destruct u; simpl; auto. Qed.
Lemma Ate_length w ts r : Ate w ts r -> length ts = (length w + length r)%nat.
Proof. intros [u [-> <-]]. rewrite app_length, !map_length. lia. Qed.
Lemma advance_live t r : live r -> advance (PTok t :: r) = Ok r.
Proof. destruct r as [|[]]; simpl; intro H; auto. contradiction. Qed.
Lemma kind_is_tok k t r : kind_is k (PTok t :: r) = kind_beq k (tk_kind t).
Proof. reflexivity. Qed.

(** what may follow a datashape *)
Definition follow (r : toks) : Prop :=
  live r /\ match tok_kind r with
            | None | Some KComma | Some KRBk | Some KRBc | Some KRP => True
            | _ => False
            end.
Lemma follow_tok t r : In (tk_kind t) [KComma; KRBk; KRBc; KRP] -> follow (PTok t :: r).
Proof. intro H. split; [exact I|]. simpl in *. destruct H as [<-|[<-|[<-|[<-|[]]]]]; exact I. Qed.
Lemma follow_kind r k : follow r -> In k [KLBk; KAst; KEll; KArrow; KEq; KColon; KInt; KStr; KBool; KLower] -> kind_is k r = false.
Proof.
  intros [_ H] Hk. unfold kind_is. destruct (tok_kind r) as [k'|]; [|reflexivity].
  destruct k'; try contradiction; simpl in Hk; destruct Hk as [<-|[<-|[<-|[<-|[<-|[<-|[<-|[<-|[<-|[<-|[]]]]]]]]]]]; reflexivity.
Qed.

(** a successful item parser *)
Definition Comp {A} (p : toks -> P A) (w : word) (x : A) : Prop :=
  w <> [] /\ forall ts r, Ate w ts r -> follow r -> p ts = Ok (Some x, r).

Lemma Sep_length {A} (p : toks -> P A) w l : Sep (Comp p) w l -> (length l <= length w)%nat.
Proof.
  induction 1 as [w x [H _]|w x w' l [H _] Hs IH]; simpl.
  - destruct w; [congruence|simpl; lia].
  - rewrite app_length. simpl. lia.
Qed.
Lemma hom_loop_complete {A} (p : toks -> P A) tr sv w l : Sep (Comp p) w l ->
  forall k acc ts r, Ate w ts r -> follow r ->
  hom_loop p (length l + k) KComma tr sv acc ts =
  if kind_is KComma r then let! r2 := advance r in hom_loop p k KComma tr sv (acc ++ l) r2
  else Ok (Some (acc ++ l), r).
Proof.
  induction 1 as [w x [Hw H]|w x w' l [Hw H] Hs IH]; intros k acc ts r Ha Hf; cbn [length Nat.add hom_loop].
  - rewrite (H _ _ Ha Hf). cbn [bind]. reflexivity.
  - apply Ate_app in Ha as [m [Ha1 Ha2]]. apply Ate_cons in Ha2 as [t [ts' [-> [Hk [_ Ha2]]]]].
    rewrite (H _ _ Ha1) by (apply follow_tok; rewrite Hk; simpl; auto). cbn [bind].
    rewrite kind_is_tok, Hk. cbn [kind_beq].
    rewrite advance_live by (eapply Ate_live; [exact Ha2|apply Hf]). cbn [bind].
    rewrite (IH k (acc ++ [x]) ts' r Ha2 Hf). rewrite <- app_assoc. reflexivity.
Qed.
(** a list that is not followed by a separator *)
Lemma hom_list_complete {A} (p : toks -> P A) tr w l ts r : Sep (Comp p) w l ->
  Ate w ts r -> follow r -> kind_is KComma r = false -> hom_list p KComma tr ts = Ok (Some l, r).
Proof.
  intros Hs Ha Hf Hc. unfold hom_list. pose proof (Sep_length _ _ _ Hs) as Hl. pose proof (Ate_length _ _ _ Ha) as Hlen.
  replace (S (length ts)) with (length l + (S (length ts) - length l))%nat by lia.
  rewrite (hom_loop_complete p tr ts w l Hs _ [] ts r Ha Hf), Hc. reflexivity.
Qed.
(** a list followed by a separator where no item follows *)
Lemma hom_list_trailing {A} (p : toks -> P A) w l ts r r1 r2 t : Sep (Comp p) w l ->
  Ate w ts r -> r = PTok t :: r1 -> tk_kind t = KComma -> live r1 -> p r1 = Ok (None, r2) ->
  hom_list p KComma Trailing ts = Ok (Some l, r2).
Proof.
  intros Hs Ha -> Hk L Hp. unfold hom_list. pose proof (Sep_length _ _ _ Hs) as Hl. pose proof (Ate_length _ _ _ Ha) as Hlen.
  simpl in Hlen.
  replace (S (length ts)) with (length l + S (length ts - length l))%nat by lia.
  rewrite (hom_loop_complete p Trailing ts w l Hs _ [] ts _ Ha) by (apply follow_tok; rewrite Hk; simpl; auto).
  rewrite kind_is_tok, Hk. cbn [kind_beq]. rewrite advance_live by auto. cbn [bind hom_loop].
  rewrite Hp. cbn [bind app]. destruct l; [inversion Hs|reflexivity].
Qed.
Lemma hom_list_none {A} (p : toks -> P A) tr ts r : p ts = Ok (None, r) -> hom_list p KComma tr ts = Ok (None, ts).
Proof. intro H. unfold hom_list. cbn [hom_loop]. rewrite H. reflexivity. Qed.

Section Complete.
  Variable sym : symtab.
  Hypothesis Hdisj : forall n d, st_dim sym n = Some d -> st_dtype sym n = None.

  Lemma DimName_nonempty u d : DimName sym u d -> (0 < length u)%nat.
  Proof. destruct 1; simpl; lia. Qed.
  Lemma Dim_nonempty u d : Dim sym u d -> (0 < length u)%nat.
  Proof. destruct 1; simpl; try lia. eapply DimName_nonempty; eauto. Qed.
  Lemma Dtype_nonempty lax w t : Dtype sym lax w t -> (0 < length w)%nat.
  Proof.
    destruct 1 as [| | | |w l c t H|w l v r c t H]; simpl; try lia;
      destruct H; simpl; try rewrite app_length; simpl; lia.
  Qed.

  (** *** dimensions *)
  Lemma dimname_complete rec u d ts r : DimName sym u d -> Ate u ts r -> live r ->
    (kind_is KLBk r = true -> ~ ends_with_name u) ->
    parse_dim sym rec ts = Ok (Some d, r).
  Proof.
    intros H Ha L Hb. destruct H as [n d H|d H|s c d Hc H].
    - apply Ate_cons in Ha as [t [ts' [-> [Hk [Hv Ha]]]]]. apply Ate_nil in Ha as ->.
      unfold parse_dim. simpl tok_kind. rewrite Hk. rewrite advance_live by auto. cbn [bind].
      destruct (kind_is KLBk r); [exfalso; apply Hb; auto; exists [], n; auto|].
      simpl. rewrite Hv. simpl. rewrite H. reflexivity.
    - apply Ate_cons in Ha as [t [ts' [-> [Hk [Hv Ha]]]]]. apply Ate_nil in Ha as ->.
      unfold parse_dim. simpl tok_kind. rewrite Hk. rewrite advance_live by auto. cbn [bind]. unfold sugar; rewrite H; reflexivity.
    - apply Ate_cons in Ha as [t [ts' [-> [Hk [Hv Ha]]]]].
      apply Ate_cons in Ha as [t2 [ts2 [-> [Hk2 [Hv2 Ha]]]]]. apply Ate_nil in Ha as ->.
      unfold parse_dim. simpl tok_kind. rewrite Hk. rewrite advance_live by exact I. cbn [bind].
      rewrite kind_is_tok, Hk2. cbn [kind_beq]. rewrite advance_live by auto. cbn [bind]. unfold sugar; rewrite Hc; cbn [bind].
      simpl. rewrite Hv. simpl. rewrite H. reflexivity.
  Qed.
  Lemma dim_complete rec u d ts r : Dim sym u d -> Ate u ts r -> live r -> kind_is KAst r = true ->
    parse_dim sym rec ts = Ok (Some d, r).
  Proof.
    intros H Ha L Hast. destruct H as [u d H|s c d Hc H|z c d Hc H].
    - eapply dimname_complete; eauto. apply kind_is_inv in Hast as [t [r' [-> Hk]]]. rewrite kind_is_tok, Hk. discriminate.
    - apply Ate_cons in Ha as [t [ts' [-> [Hk [Hv Ha]]]]]. apply Ate_nil in Ha as ->.
      unfold parse_dim. simpl tok_kind. rewrite Hk. rewrite advance_live by auto. cbn [bind].
      apply kind_is_inv in Hast as [t' [r' [-> Hk']]]. rewrite !kind_is_tok, Hk'. cbn [kind_beq]. unfold sugar; rewrite Hc; cbn [bind].
      simpl. rewrite Hv. simpl. rewrite H. reflexivity.
    - apply Ate_cons in Ha as [t [ts' [-> [Hk [Hv Ha]]]]]. apply Ate_nil in Ha as ->.
      unfold parse_dim. simpl tok_kind. rewrite Hk. rewrite advance_live by auto. cbn [bind]. rewrite Hast; unfold sugar; rewrite Hc; cbn [bind].
      simpl. rewrite Hv. simpl. rewrite H. reflexivity.
  Qed.
  (** no dimension at the start of a dtype *)
  Lemma dtype_no_dim lax rec w t ts r : Dtype sym lax w t -> ~ starts_dim_constr sym w ->
    Ate w ts r -> follow r -> parse_dim sym rec ts = Ok (None, ts).
  Proof.
    intros H Hn Ha Hf. destruct H as [s c t Hc H|n t H|n c w args kw t Hc HA Hne H|w fs c t Hfs Hc H|w l c t Ht Hc H|w l v rr c t Ht Hd Hc H].
    - apply Ate_cons in Ha as [t' [ts' [-> [Hk [Hv Ha]]]]]. apply Ate_nil in Ha as ->.
      unfold parse_dim. simpl tok_kind. rewrite Hk. rewrite advance_live by apply Hf. cbn [bind].
      rewrite !(follow_kind r) by (auto; simpl; tauto). reflexivity.
    - apply Ate_cons in Ha as [t' [ts' [-> [Hk [Hv Ha]]]]]. apply Ate_nil in Ha as ->.
      unfold parse_dim. simpl tok_kind. rewrite Hk. rewrite advance_live by apply Hf. cbn [bind].
      rewrite !(follow_kind r) by (auto; simpl; tauto). simpl. rewrite Hv. simpl.
      destruct (st_dim sym n) eqn:E; [|reflexivity]. apply Hdisj in E. congruence.
    - apply Ate_cons in Ha as [t' [ts' [-> [Hk [Hv Ha]]]]]. apply Ate_cons in Ha as [t2 [ts2 [-> [Hk2 [Hv2 Ha]]]]].
      unfold parse_dim. simpl tok_kind. rewrite Hk. rewrite advance_live by exact I. cbn [bind].
      rewrite !kind_is_tok, Hk2. cbn [kind_beq]. simpl. rewrite Hv. simpl.
      destruct (st_dim_constr sym n) eqn:E; [|reflexivity]. exfalso. apply Hn. do 4 eexists. eauto.
    - apply Ate_cons in Ha as [t' [ts' [-> [Hk [Hv Ha]]]]]. unfold parse_dim. simpl tok_kind. rewrite Hk. reflexivity.
    - assert (exists v w', w = (KLP, v) :: w') as [v [w' ->]] by (destruct Ht; simpl; eauto).
      apply Ate_cons in Ha as [t' [ts' [-> [Hk [Hv Ha]]]]]. unfold parse_dim. simpl tok_kind. rewrite Hk. reflexivity.
    - assert (exists v w', w = (KLP, v) :: w') as [v' [w' ->]] by (destruct Ht; simpl; eauto).
      apply Ate_cons in Ha as [t' [ts' [-> [Hk [Hv Ha]]]]]. unfold parse_dim. simpl tok_kind. rewrite Hk. reflexivity.
  Qed.
  (** the tokens after a dimension name that is dropped before a dtype *)
  Lemma dtype_start lax w t ts r : Dtype sym lax w t -> Ate w ts r ->
    kind_is KAst ts = false /\ kind_is KLBk ts = false /\ live ts.
  Proof.
    intros H Ha.
    assert (exists k v w', w = (k, v) :: w' /\ In k [KUpper; KLower; KLBc; KLP]) as [k [v [w' [-> Hk]]]].
    { destruct H as [s c t Hc H|n t H|n c w args kw t Hc HA Hne H|w fs c t Hfs Hc H|w l c t Ht Hc H|w l v rr c t Ht Hd Hc H];
        try destruct Ht; simpl; do 3 eexists; (split; [reflexivity|simpl; auto]). }
    apply Ate_cons in Ha as [t' [ts' [-> [Hk' [Hv Ha]]]]]. rewrite !kind_is_tok, Hk'.
    simpl in Hk. destruct Hk as [<-|[<-|[<-|[<-|[]]]]]; repeat split; reflexivity.
  Qed.

  (** *** tokens that are dropped *)
  Definition Blocked (j : word) (r : toks) : Prop :=
    live r /\
    ((match tok_kind r with
      | None | Some KComma | Some KRBk | Some KRBc | Some KRP | Some KStr | Some KBool => True
      | _ => False
      end) \/
     (exists t r', r = PTok t :: r' /\ tk_kind t = KInt /\ live r' /\ kind_is KAst r' = false) \/
     (kind_is KLBk r = true /\ ~ ends_with_name j) \/
     (exists t t' r' n, r = PTok t :: PTok t' :: r' /\ tk_kind t = KLower /\ tk_val t = VStr n /\ tk_kind t' = KEq /\
        st_dtype sym n = None /\ (st_dim sym n = None \/ has_dim sym j))).
  Lemma Blocked_kinds j r : Blocked j r -> kind_is KAst r = false /\ kind_is KQ r = false /\
    (kind_is KLBk r = true -> ~ ends_with_name j).
  Proof.
    intros [L [H|[[t [r' [-> [Hk _]]]]|[[H1 H2]|[t [t' [r' [n [-> [Hk _]]]]]]]]]].
    - unfold kind_is. destruct (tok_kind r) as [k|]; [|repeat split; discriminate].
      destruct k; try contradiction; repeat split; discriminate.
    - rewrite !kind_is_tok, Hk. repeat split; discriminate.
    - apply kind_is_inv in H1 as [t [r' [-> Hk]]]. rewrite !kind_is_tok, Hk. repeat split; auto.
    - rewrite !kind_is_tok, Hk. repeat split; discriminate.
  Qed.
  Lemma Blocked_dtype rec j r : Blocked j r -> parse_dtype sym rec r = Ok (None, r).
  Proof.
    intros [L [H|[[t [r' [-> [Hk _]]]]|[[H1 H2]|[t [t' [r' [n [-> [Hk [Hv [Hk' [Hd _]]]]]]]]]]]]]; unfold parse_dtype.
    - destruct (tok_kind r) as [k|]; [|reflexivity]. destruct k; try contradiction; reflexivity.
    - simpl. rewrite Hk. reflexivity.
    - apply kind_is_inv in H1 as [t [r' [-> Hk]]]. simpl. rewrite Hk. reflexivity.
    - simpl tok_kind. rewrite Hk. rewrite advance_live by exact I. cbn [bind]. rewrite kind_is_tok, Hk'. cbn [kind_beq].
      simpl. rewrite Hv. simpl. rewrite Hd. reflexivity.
  Qed.
  Lemma Blocked_dim rec j r : Blocked j r -> ~ has_dim sym j -> parse_dim sym rec r = Ok (None, r).
  Proof.
    intros [L [H|[[t [r' [-> [Hk [L' H]]]]]|[[H1 H2]|[t [t' [r' [n [-> [Hk [Hv [Hk' [_ Hd]]]]]]]]]]]]] Hj; unfold parse_dim.
    - destruct (tok_kind r) as [k|]; [|reflexivity]. destruct k; try contradiction; reflexivity.
    - simpl tok_kind. rewrite Hk. rewrite advance_live by auto. cbn [bind]. rewrite H. reflexivity.
    - apply kind_is_inv in H1 as [t [r' [-> Hk]]]. simpl. rewrite Hk. reflexivity.
    - simpl tok_kind. rewrite Hk. rewrite advance_live by exact I. cbn [bind]. rewrite kind_is_tok, Hk'. cbn [kind_beq].
      simpl. rewrite Hv. simpl. destruct Hd as [->|Hd]; [reflexivity|contradiction].
  Qed.
  Lemma nodim_nil : ~ has_dim sym [].
  Proof. intros [u [d [p [H E]]]]. apply DimName_nonempty in H. destruct p, u; simpl in *; try discriminate; lia. Qed.
  Lemma nodim_q : ~ has_dim sym [tok KQ].
  Proof.
    intros [u [d [p [H E]]]]. pose proof (DimName_nonempty _ _ H).
    destruct p as [|x p]; simpl in E; [|destruct p, u; simpl in *; try discriminate; lia].
    subst u. inversion H.
  Qed.

  Lemma nooption_none rec j r : Blocked j r -> ~ has_dim sym j -> parse_nooption sym rec r = Ok (None, r).
  Proof.
    intros H Hj. unfold parse_nooption. rewrite (Blocked_dim _ _ _ H Hj). cbn [bind]. rewrite (Blocked_dtype _ _ _ H). reflexivity.
  Qed.
  Lemma nooption_dim_none rec j u d ts r : Blocked j r -> DimName sym u d -> (ends_with_name u -> ends_with_name j) ->
    Ate u ts r -> parse_nooption sym rec ts = Ok (None, r).
  Proof.
    intros H Hd Hj Ha. destruct (Blocked_kinds _ _ H) as [H1 [H2 H3]].
    unfold parse_nooption. rewrite (dimname_complete rec u d ts r Hd Ha); [|apply H|tauto].
    cbn [bind]. rewrite H1, (Blocked_dtype _ _ _ H). reflexivity.
  Qed.
  Lemma DimName_noq u d ts r : DimName sym u d -> Ate u ts r -> kind_is KQ ts = false.
  Proof.
    intros H Ha. destruct H; apply Ate_cons in Ha as [t [ts' [-> [Hk [Hv Ha]]]]]; rewrite kind_is_tok, Hk; reflexivity.
  Qed.
  Lemma junk_none n j ts r : (1 <= n)%nat -> Junk sym j -> Ate j ts r -> Blocked j r ->
    parse_datashape sym n ts = Ok (None, r).
  Proof.
    intros Hn HJ Ha Hb. destruct n as [|n]; [lia|]. cbn [parse_datashape]. unfold parse_datashape_step.
    destruct (Blocked_kinds _ _ Hb) as [H1 [H2 H3]].
    destruct HJ as [| |u d Hd|u d Hd].
    - apply Ate_nil in Ha as ->. rewrite H2. apply nooption_none with (j := []); auto. apply nodim_nil.
    - apply Ate_cons in Ha as [t [ts' [-> [Hk [Hv Ha]]]]]. apply Ate_nil in Ha as ->.
      rewrite kind_is_tok, Hk. cbn [kind_beq]. rewrite advance_live by apply Hb. cbn [bind].
      rewrite (nooption_none _ _ _ Hb nodim_q). reflexivity.
    - rewrite (DimName_noq _ _ _ _ Hd Ha). eapply nooption_dim_none; eauto.
    - apply Ate_cons in Ha as [t [ts' [-> [Hk [Hv Ha]]]]].
      rewrite kind_is_tok, Hk. cbn [kind_beq]. rewrite advance_live by (eapply Ate_live; [exact Ha|apply Hb]). cbn [bind].
      rewrite (nooption_dim_none _ _ _ _ _ _ Hb Hd); [reflexivity| |exact Ha].
      intros [p [m ->]]. exists (tok KQ :: p), m. reflexivity.
  Qed.
  Lemma follow_Blocked j r : follow r -> Blocked j r.
  Proof.
    intros [L H]. split; auto. left. destruct (tok_kind r) as [k|]; auto. destruct k; auto.
  Qed.
  Lemma Dropped_Junk lax j : Dropped sym lax j -> Junk sym j.
  Proof. intros [->|[_ H]]; auto. constructor. Qed.

  (** *** the four-way list of [parse_type_arg] *)
  Definition list_args (rec : toks -> P ty) (ts2 : toks) : P (list targ) :=
    let! (v1, ts3) := hom_list (rec_targ rec) KComma (Complain MAnotherDatashape) ts2 in
    let! (v2, ts4) := match v1 with
                      | Some _ => Ok (v1, ts3)
                      | None => hom_list (parse_tokval KInt val_targ) KComma (Complain (another KInt)) ts3
                      end in
    let! (v3, ts5) := match v2 with
                      | Some _ => Ok (v2, ts4)
                      | None => hom_list (parse_tokval KStr val_targ) KComma (Complain (another KStr)) ts4
                      end in
    match v3 with
    | Some _ => Ok (v3, ts5)
    | None => hom_list (parse_tokval KBool val_targ) KComma (Complain (another KBool)) ts5
    end.
  Lemma type_arg_list_run rec ts ts1 ts2 o r r' :
    rec ts = Ok (None, ts1) -> kind_is KLBk ts1 = true -> advance ts1 = Ok ts2 ->
    list_args rec ts2 = Ok (o, r) -> kind_is KRBk r = true -> advance r = Ok r' ->
    parse_type_arg rec ts = Ok (Some (AList (opt_list o)), r').
  Proof.
    intros H1 Hk H2 H3 H4 H5. unfold parse_type_arg. rewrite H1. cbn [bind].
    apply kind_is_inv in Hk as [t [rr [-> Hk]]]. rewrite !kind_is_tok, Hk. cbn [kind_beq orb]. rewrite H2. cbn [bind].
    unfold list_args in H3.
    destruct (hom_list (rec_targ rec) KComma (Complain MAnotherDatashape) ts2) as [[v1 t3]|]; cbn [bind] in *; [|discriminate].
    match goal with |- context [bind ?x _] => destruct x as [[v2 t4]|] end; cbn [bind] in *; [|discriminate].
    match goal with |- context [bind ?x _] => destruct x as [[v3 t5]|] end; cbn [bind] in *; [|discriminate].
    rewrite H3. cbn [bind]. rewrite H4, H5. reflexivity.
  Qed.
  Lemma type_arg_none rec ts ts1 : rec ts = Ok (None, ts1) ->
    kind_is KInt ts1 = false -> kind_is KStr ts1 = false -> kind_is KBool ts1 = false -> kind_is KLBk ts1 = false ->
    parse_type_arg rec ts = Ok (None, ts1).
  Proof. intros H H1 H2 H3 H4. unfold parse_type_arg. rewrite H. cbn [bind]. rewrite H1, H2, H3, H4. reflexivity. Qed.

  Lemma tokval_none k f ts : kind_is k ts = false -> parse_tokval k f ts = Ok (None, ts).
  Proof. intro H. unfold parse_tokval. rewrite H. reflexivity. Qed.
  Lemma lit_Comp k t a : Literal t a -> fst t = k -> Comp (parse_tokval k val_targ) [t] a.
  Proof.
    intros H Hk. split; [discriminate|]. intros ts r Ha Hf. destruct t as [k' v]. simpl in Hk. subst k'.
    apply Ate_cons in Ha as [t [ts' [-> [Hk [Hv Ha]]]]]. apply Ate_nil in Ha as ->.
    unfold parse_tokval. rewrite kind_is_tok, Hk. rewrite internal_kind_dec_lb by reflexivity.
    rewrite advance_live by apply Hf. cbn [bind]. simpl. rewrite Hv. inversion H; reflexivity.
  Qed.
  Lemma LiteralList_Sep k w l : LiteralList k w l -> Sep (Comp (parse_tokval k val_targ)) w l.
  Proof.
    induction 1 as [t a H Hk|t a w l H Hk Hs IH].
    - constructor. apply lit_Comp; auto.
    - apply (Sep_more _ [t] a w l); auto. apply lit_Comp; auto.
  Qed.
  Lemma LiteralList_kind k w l : LiteralList k w l -> In k [KInt; KStr; KBool].
  Proof. destruct 1 as [t a H <-|t a w l H <-]; destruct H; simpl; auto. Qed.
  Lemma LiteralList_head k w l ts r : LiteralList k w l -> Ate w ts r -> live r -> kind_is KAst r = false ->
    exists t ts', ts = PTok t :: ts' /\ tk_kind t = k /\ live ts' /\ kind_is KAst ts' = false.
  Proof.
    intros H Ha L Hr. destruct H as [[k0 v0] a H <-|[k0 v0] a w l H <- Hs]; simpl;
      apply Ate_cons in Ha as [t1 [ts' [-> [Hk [Hv Ha]]]]].
    - apply Ate_nil in Ha as ->. exists t1, r. auto.
    - apply Ate_cons in Ha as [t2 [ts2 [-> [Hk2 [Hv2 Ha]]]]]. exists t1. eexists. split; [reflexivity|]. split; auto.
      split; [exact I|]. rewrite kind_is_tok, Hk2. reflexivity.
  Qed.
  Lemma rec_targ_none rec ts r : rec ts = Ok (None, r) -> rec_targ rec ts = Ok (None, r).
  Proof. intro H. unfold rec_targ. rewrite H. reflexivity. Qed.
  Lemma Sep_rec_targ rec w l : Sep (Comp rec) w l -> Sep (Comp (rec_targ rec)) w (map ADs l).
  Proof.
    assert (X : forall w t, Comp rec w t -> Comp (rec_targ rec) w (ADs t)).
    { intros w0 t [H1 H2]. split; auto. intros ts r Ha Hf. unfold rec_targ. rewrite (H2 _ _ Ha Hf). reflexivity. }
    induction 1; simpl; constructor; auto.
  Qed.
  Lemma RBk_follow r : live r -> kind_is KRBk r = true -> follow r /\ kind_is KComma r = false.
  Proof.
    intros L H. apply kind_is_inv in H as [t [r' [-> Hk]]]. split; [apply follow_tok; rewrite Hk; simpl; auto|].
    rewrite kind_is_tok, Hk. reflexivity.
  Qed.
  Lemma RB_tail k r : live r -> (forall t r', r = PTok t :: r' -> live r') -> kind_is k r = true -> exists r', advance r = Ok r'.
  Proof. intros L H Hk. apply kind_is_inv in Hk as [t [r' [-> _]]]. exists r'. apply advance_live. eapply H; eauto. Qed.

  Notation rc := (parse_datashape sym).
  Definition P_DS w t := forall n, (length w <= n)%nat -> Comp (rc n) w t.
  Definition P_NoOpt w t := forall n, (length w <= S n)%nat ->
    Comp (parse_nooption sym (rc n)) w t /\ (forall ts r, Ate w ts r -> kind_is KQ ts = false).
  Definition P_Dtype w t := forall n, (length w <= S n)%nat -> Comp (parse_dtype sym (rc n)) w t.
  Definition P_FieldList w fs := forall n, (length w <= n)%nat -> forall ts r, Ate w ts r -> live r -> kind_is KRBc r = true ->
    exists o, hom_list (parse_struct_field (rc n)) KComma Trailing ts = Ok (o, r) /\ opt_list o = fs.
  Definition P_Fields w fs := forall n, (length w <= n)%nat -> Sep (Comp (parse_struct_field (rc n))) w fs.
  Definition P_TupleType w l := forall n, (length w <= S n)%nat -> forall ts r, Ate w ts r -> live r ->
    exists ts1 o ts2, tok_kind ts = Some KLP /\ advance ts = Ok ts1 /\
      hom_list (rc n) KComma Trailing ts1 = Ok (o, ts2) /\ opt_list o = l /\ kind_is KRP ts2 = true /\ advance ts2 = Ok r.
  Definition P_Items w l := forall n, (length w <= n)%nat -> Sep (Comp (rc n)) w l.
  Definition P_Args w args kw := forall n, (length w <= n)%nat -> (1 <= n)%nat -> forall k acc ts r,
    (length w < k)%nat -> Ate w ts r -> live r -> kind_is KRBk r = true ->
    arg_loop (rc n) k acc ts = Ok (acc ++ args, dict_of kw, r).
  Definition P_Kwargs w kw := forall n, (length w <= n)%nat -> Sep (Comp (parse_type_kwarg (rc n))) w kw.
  Definition P_Arg w a := forall n, (length w <= n)%nat -> Comp (parse_type_arg (rc n)) w a.
  Definition P_ListArg w l := forall n, (length w <= n)%nat -> (1 <= n)%nat -> forall ts r, Ate w ts r -> live r -> kind_is KRBk r = true ->
    exists o, list_args (rc n) ts = Ok (o, r) /\ opt_list o = l.

  Lemma complete_DS_plain w t : NoOpt sym true w t -> P_NoOpt w t -> P_DS w t.
  Proof.
    intros _ H n Hn. destruct n as [|n].
    { destruct (H 0%nat ltac:(lia)) as [[Hne _] _]. destruct w; [congruence|simpl in Hn; lia]. }
    destruct (H n Hn) as [[Hne HC] Hq]. split; auto. intros ts r Ha Hf. cbn [parse_datashape]. unfold parse_datashape_step.
    rewrite (Hq _ _ Ha). apply HC; auto.
  Qed.
  Lemma complete_DS_option w t c o d : NoOpt sym true w t -> P_NoOpt w t ->
    st_dtype_constr sym $"option" = Some c -> c [ADs t] [] = Ok o -> mk_ds [o] = Ok d -> P_DS (tok KQ :: w) d.
  Proof.
    intros _ H Hc Ho Hd n Hn. destruct n as [|n]; [simpl in Hn; lia|]. simpl in Hn.
    destruct (H n ltac:(lia)) as [[Hne HC] _]. split; [discriminate|]. intros ts r Ha Hf.
    apply Ate_cons in Ha as [t' [ts' [-> [Hk [_ Ha]]]]].
    cbn [parse_datashape]. unfold parse_datashape_step. rewrite kind_is_tok, Hk. cbn [kind_beq].
    rewrite advance_live by (eapply Ate_live; [exact Ha|apply Hf]). cbn [bind].
    rewrite (HC _ _ Ha Hf). cbn [bind]. unfold sugar; rewrite Hc; cbn [bind]. rewrite Ho. cbn [bind]. rewrite Hd. reflexivity.
  Qed.
  Lemma Dim_noq u d w ts r : Dim sym u d -> Ate (u ++ w) ts r -> kind_is KQ ts = false.
  Proof.
    intros H Ha. destruct H as [u d H| |]; [destruct H| |]; simpl in Ha;
      apply Ate_cons in Ha as [t [ts' [-> [Hk _]]]]; rewrite kind_is_tok, Hk; reflexivity.
  Qed.
  Lemma complete_NO_dim u d w t t' : Dim sym u d -> DS sym true w t -> P_DS w t ->
    mk_ds (d :: ds_params t) = Ok t' -> P_NoOpt (u ++ tok KAst :: w) t'.
  Proof.
    intros Hd _ H Hm n Hn. pose proof (Dim_nonempty _ _ Hd) as Hu. rewrite app_length in Hn. simpl in Hn.
    destruct (H n ltac:(lia)) as [Hne HC]. split; [split|].
    - destruct u; discriminate.
    - intros ts r Ha Hf. apply Ate_app in Ha as [m [Ha1 Ha2]]. apply Ate_cons in Ha2 as [tt' [ts' [-> [Hk [_ Ha2]]]]].
      unfold parse_nooption. assert (Hast : kind_is KAst (PTok tt' :: ts') = true) by (rewrite kind_is_tok, Hk; reflexivity).
      rewrite (dim_complete _ _ _ _ _ Hd Ha1 I Hast). cbn [bind]. rewrite Hast.
      rewrite advance_live by (eapply Ate_live; [exact Ha2|apply Hf]). cbn [bind].
      rewrite (HC _ _ Ha2 Hf). cbn [bind]. rewrite Hm. reflexivity.
    - intros ts r Ha. eapply Dim_noq; eauto.
  Qed.
  Lemma Dtype_noq lax w t ts r : Dtype sym lax w t -> Ate w ts r -> kind_is KQ ts = false.
  Proof.
    intros H Ha. destruct H as [s c t Hc H|n t H|n c w args kw t Hc HA Hne H|w fs c t Hfs Hc H|w l c t Ht Hc H|w l v rr c t Ht Hd Hc H];
      try destruct Ht; simpl in Ha; apply Ate_cons in Ha as [t' [ts' [-> [Hk _]]]]; rewrite kind_is_tok, Hk; reflexivity.
  Qed.
  Lemma complete_NO_dtype w t t' : Dtype sym true w t -> P_Dtype w t -> ~ starts_dim_constr sym w ->
    mk_ds [t] = Ok t' -> P_NoOpt w t'.
  Proof.
    intros HD H Hs Hm n Hn. destruct (H n Hn) as [Hne HC]. split; [split; auto|].
    - intros ts r Ha Hf. unfold parse_nooption. rewrite (dtype_no_dim _ _ _ _ _ _ HD Hs Ha Hf). cbn [bind].
      rewrite (HC _ _ Ha Hf). cbn [bind]. rewrite Hm. reflexivity.
    - intros ts r Ha. eapply Dtype_noq; eauto.
  Qed.
  Lemma complete_NO_dropped u d w t t' : DimName sym u d -> Dtype sym true w t -> P_Dtype w t ->
    mk_ds [t] = Ok t' -> P_NoOpt (u ++ w) t'.
  Proof.
    intros Hd HD H Hm n Hn. pose proof (DimName_nonempty _ _ Hd) as Hu. rewrite app_length in Hn.
    destruct (H n ltac:(lia)) as [Hne HC]. split; [split; [destruct u; simpl in *; [lia|discriminate]|]|].
    - intros ts r Ha Hf. apply Ate_app in Ha as [m [Ha1 Ha2]]. destruct (dtype_start _ _ _ _ _ HD Ha2) as [X1 [X2 X3]].
      unfold parse_nooption. rewrite (dimname_complete _ _ _ _ _ Hd Ha1) by congruence. cbn [bind]. rewrite X1.
      rewrite (HC _ _ Ha2 Hf). cbn [bind]. rewrite Hm. reflexivity.
    - intros ts r Ha. eapply Dim_noq; [apply D_name; eauto|eauto].
  Qed.
  Lemma complete_DT_typevar s c t : st_dtype_constr sym $"typevar" = Some c -> c [AStr s] [] = Ok t ->
    P_Dtype [(KUpper, VStr s)] t.
  Proof.
    intros Hc H n Hn. split; [discriminate|]. intros ts r Ha Hf.
    apply Ate_cons in Ha as [t' [ts' [-> [Hk [Hv Ha]]]]]. apply Ate_nil in Ha as ->.
    unfold parse_dtype. simpl tok_kind. rewrite Hk. rewrite advance_live by apply Hf. cbn [bind]. unfold sugar; rewrite Hc; cbn [bind].
    simpl tok_value. rewrite Hv. simpl val_targ. rewrite H. reflexivity.
  Qed.
  Lemma complete_DT_type m t : st_dtype sym m = Some t -> P_Dtype [(KLower, VStr m)] t.
  Proof.
    intros H n Hn. split; [discriminate|]. intros ts r Ha Hf.
    apply Ate_cons in Ha as [t' [ts' [-> [Hk [Hv Ha]]]]]. apply Ate_nil in Ha as ->.
    unfold parse_dtype. simpl tok_kind. rewrite Hk. rewrite advance_live by apply Hf. cbn [bind].
    rewrite (follow_kind r) by (auto; simpl; tauto). simpl. rewrite Hv. simpl. rewrite H. reflexivity.
  Qed.
  Lemma dict_set_ne k v d : dict_set k v d <> [].
  Proof. destruct d as [|[k' v'] d]; simpl; [discriminate|]. destruct (str_eqb k k'); discriminate. Qed.
  Lemma dict_of_ne kw : kw <> [] -> dict_of kw <> [].
  Proof.
    unfold dict_of. intro H. assert (X : forall l d, d <> [] -> fold_left (fun d p => dict_set (fst p) (snd p) d) l d <> []).
    { induction l as [|p l IH]; intros d Hd; simpl; auto. apply IH, dict_set_ne. }
    destruct kw as [|p kw]; [congruence|]. simpl. apply X. discriminate.
  Qed.
  Lemma complete_DT_constr m c w args kw t : st_dtype_constr sym m = Some c ->
    Args sym true w args kw -> P_Args w args kw -> args <> [] \/ kw <> [] -> c args (dict_of kw) = Ok t ->
    P_Dtype ((KLower, VStr m) :: tok KLBk :: w ++ [tok KRBk]) t.
  Proof.
    intros Hc _ HA Hne H n Hn. split; [discriminate|]. intros ts r Ha Hf. simpl in Hn. rewrite app_length in Hn. simpl in Hn.
    apply Ate_cons in Ha as [t1 [ts1 [-> [Hk1 [Hv1 Ha]]]]]. apply Ate_cons in Ha as [t2 [ts2 [-> [Hk2 [_ Ha]]]]].
    apply Ate_app in Ha as [m' [Ha Hb]]. apply Ate_cons in Hb as [t3 [ts3 [-> [Hk3 [_ Hb]]]]]. apply Ate_nil in Hb as ->.
    unfold parse_dtype. simpl tok_kind. rewrite Hk1. rewrite advance_live by exact I. cbn [bind].
    rewrite kind_is_tok, Hk2. cbn [kind_beq]. simpl tok_value. rewrite Hv1. simpl vstr. rewrite Hc.
    rewrite advance_live by (eapply Ate_live; [exact Ha|exact I]). cbn [bind].
    assert (Hk : kind_is KRBk (PTok t3 :: r) = true) by (rewrite kind_is_tok, Hk3; reflexivity).
    unfold parse_type_arg_list. pose proof (Ate_length _ _ _ Ha) as HL. simpl in HL.
    rewrite (HA n ltac:(lia) ltac:(lia) (S (length ts2)) [] _ _ ltac:(lia) Ha I Hk). cbn [bind app]. rewrite Hk.
    rewrite advance_live by apply Hf. cbn [bind].
    destruct args as [|x args].
    - destruct Hne as [Hne|Hne]; [congruence|]. apply dict_of_ne in Hne. destruct (dict_of kw); [congruence|].
      rewrite H. reflexivity.
    - rewrite H. reflexivity.
  Qed.
  Lemma complete_DT_struct w fs c t : FieldList sym true w fs -> P_FieldList w fs ->
      st_dtype_constr sym $"struct" = Some c ->
      c [AList (map (fun f => AStr (fst f)) fs); AList (map (fun f => ADs (snd f)) fs)] [] = Ok t ->
      P_Dtype (tok KLBc :: w ++ [tok KRBc]) t.
  Proof.
    intros _ HF Hc H n Hn. split; [discriminate|]. intros ts r Ha Hf. simpl in Hn. rewrite app_length in Hn. simpl in Hn.
    apply Ate_cons in Ha as [t1 [ts1 [-> [Hk1 [Hv1 Ha]]]]].
    apply Ate_app in Ha as [m' [Ha Hb]]. apply Ate_cons in Hb as [t3 [ts3 [-> [Hk3 [_ Hb]]]]]. apply Ate_nil in Hb as ->.
    unfold parse_dtype. simpl tok_kind. rewrite Hk1. unfold parse_struct_type.
    rewrite advance_live by (eapply Ate_live; [exact Ha|exact I]). cbn [bind].
    assert (Hk : kind_is KRBc (PTok t3 :: r) = true) by (rewrite kind_is_tok, Hk3; reflexivity).
    destruct (HF n ltac:(lia) _ _ Ha I Hk) as [o [Ho <-]]. rewrite Ho. cbn [bind]. rewrite Hk.
    rewrite advance_live by apply Hf. cbn [bind]. unfold sugar; rewrite Hc; cbn [bind]. rewrite H. reflexivity.
  Qed.
  Lemma complete_DT_tuple w l c t : TupleType sym true w l -> P_TupleType w l ->
      st_dtype_constr sym $"tuple" = Some c -> c [AList (map ADs l)] [] = Ok t -> P_Dtype w t.
  Proof.
    intros HT HP Hc H n Hn. split; [destruct HT; discriminate|]. intros ts r Ha Hf.
    destruct (HP n Hn _ _ Ha (proj1 Hf)) as [ts1 [o [ts2 [H1 [H2 [H3 [<- [H5 H6]]]]]]]].
    unfold parse_dtype. rewrite H1. unfold parse_funcproto_or_tuple. rewrite H2. cbn [bind]. rewrite H3. cbn [bind].
    rewrite H5, H6. cbn [bind]. rewrite (follow_kind r) by (auto; simpl; tauto). unfold sugar; rewrite Hc; cbn [bind]. rewrite H. reflexivity.
  Qed.
  Lemma complete_DT_funcproto w l v rt c t : TupleType sym true w l -> P_TupleType w l -> DS sym true v rt -> P_DS v rt ->
      st_dtype_constr sym $"funcproto" = Some c -> c [AList (map ADs l); ADs rt] [] = Ok t ->
      P_Dtype (w ++ tok KArrow :: v) t.
  Proof.
    intros HT HP _ HD Hc H n Hn. rewrite app_length in Hn. simpl in Hn.
    split; [destruct HT; discriminate|]. intros ts r Ha Hf.
    apply Ate_app in Ha as [m' [Ha Hb]]. apply Ate_cons in Hb as [t3 [ts3 [-> [Hk3 [_ Hb]]]]].
    destruct (HP n ltac:(lia) _ _ Ha I) as [ts1 [o [ts2 [H1 [H2 [H3 [<- [H5 H6]]]]]]]].
    unfold parse_dtype. rewrite H1. unfold parse_funcproto_or_tuple. rewrite H2. cbn [bind]. rewrite H3. cbn [bind].
    rewrite H5, H6. cbn [bind]. rewrite kind_is_tok, Hk3. cbn [kind_beq].
    rewrite advance_live by (eapply Ate_live; [exact Hb|apply Hf]). cbn [bind].
    assert (0 < length w)%nat by (destruct HT; simpl; lia).
    destruct (HD n ltac:(lia)) as [_ HC]. rewrite (HC _ _ Hb Hf). cbn [bind]. unfold sugar; rewrite Hc; cbn [bind]. rewrite H. reflexivity.
  Qed.
  Lemma field_none rec r : kind_is KRBc r = true -> parse_struct_field rec r = Ok (None, r).
  Proof. intro H. apply kind_is_inv in H as [t [r' [-> Hk]]]. unfold parse_struct_field. rewrite !kind_is_tok, Hk. reflexivity. Qed.
  Lemma RBc_follow r : live r -> kind_is KRBc r = true -> follow r /\ kind_is KComma r = false.
  Proof.
    intros L H. apply kind_is_inv in H as [t [r' [-> Hk]]]. split; [apply follow_tok; rewrite Hk; simpl; auto|].
    rewrite kind_is_tok, Hk. reflexivity.
  Qed.
  Lemma complete_FL_fields w fs : Fields sym true w fs -> P_Fields w fs -> P_FieldList w fs.
  Proof.
    intros _ H n Hn ts r Ha L Hk. destruct (RBc_follow _ L Hk). exists (Some fs). split; auto.
    eapply hom_list_complete; eauto.
  Qed.
  Lemma complete_FL_comma w fs : Fields sym true w fs -> P_Fields w fs -> P_FieldList (w ++ [tok KComma]) fs.
  Proof.
    intros _ H n Hn ts r Ha L Hk. rewrite app_length in Hn. apply Ate_app in Ha as [m [Ha Hb]].
    apply Ate_cons in Hb as [t3 [ts3 [-> [Hk3 [_ Hb]]]]]. apply Ate_nil in Hb as ->.
    exists (Some fs). split; auto. eapply hom_list_trailing; [apply H; lia|exact Ha|reflexivity|auto|auto|apply field_none; auto].
  Qed.
  Lemma complete_FL_empty : P_FieldList [] [].
  Proof.
    intros n Hn ts r Ha L Hk. apply Ate_nil in Ha as ->. exists None. split; auto.
    eapply hom_list_none. apply field_none; auto.
  Qed.
  Lemma field_Comp f m w t n : FieldName f m -> Comp (rc n) w t -> Comp (parse_struct_field (rc n)) (f :: tok KColon :: w) (m, t).
  Proof.
    intros Hn [Hne HC]. split; [discriminate|]. intros ts r Ha Hf. destruct Hn as [k s Hk0].
    apply Ate_cons in Ha as [t1 [ts1 [-> [Hk1 [Hv1 Ha]]]]]. apply Ate_cons in Ha as [t2 [ts2 [-> [Hk2 [_ Ha]]]]].
    unfold parse_struct_field. rewrite !kind_is_tok, Hk1.
    replace (kind_beq KLower k || kind_beq KUpper k || kind_beq KOther k || kind_beq KStr k) with true
      by (simpl in Hk0; destruct Hk0 as [<-|[<-|[<-|[<-|[]]]]]; reflexivity).
    rewrite advance_live by exact I. cbn [bind]. rewrite kind_is_tok, Hk2. cbn [kind_beq].
    rewrite advance_live by (eapply Ate_live; [exact Ha|apply Hf]). cbn [bind].
    rewrite (HC _ _ Ha Hf). cbn [bind]. simpl. rewrite Hv1. reflexivity.
  Qed.
  Lemma complete_F_one f m w t : FieldName f m -> DS sym true w t -> P_DS w t -> P_Fields (f :: tok KColon :: w) [(m, t)].
  Proof. intros Hn _ H n Hl. simpl in Hl. constructor. apply field_Comp; auto. apply H. lia. Qed.
  Lemma complete_F_more f m w t w' fs : FieldName f m -> DS sym true w t -> P_DS w t -> Fields sym true w' fs -> P_Fields w' fs ->
      P_Fields (f :: tok KColon :: w ++ tok KComma :: w') ((m, t) :: fs).
  Proof.
    intros Hn _ H _ H' n Hl. simpl in Hl. rewrite app_length in Hl. simpl in Hl.
    apply (Sep_more _ (f :: tok KColon :: w) (m, t) w' fs); [|apply H'; lia]. apply field_Comp; auto. apply H. lia.
  Qed.
  Lemma RP_follow r : live r -> kind_is KRP r = true -> follow r /\ kind_is KComma r = false.
  Proof.
    intros L H. apply kind_is_inv in H as [t [r' [-> Hk]]]. split; [apply follow_tok; rewrite Hk; simpl; auto|].
    rewrite kind_is_tok, Hk. reflexivity.
  Qed.
  Lemma complete_TT_items w l : Items sym true w l -> P_Items w l -> P_TupleType (tok KLP :: w ++ [tok KRP]) l.
  Proof.
    intros _ H n Hn ts r Ha L. simpl in Hn. rewrite app_length in Hn. simpl in Hn.
    apply Ate_cons in Ha as [t1 [ts1 [-> [Hk1 [_ Ha]]]]]. apply Ate_app in Ha as [m [Ha Hb]].
    apply Ate_cons in Hb as [t3 [ts3 [-> [Hk3 [_ Hb]]]]]. apply Ate_nil in Hb as ->.
    assert (Hk4 : kind_is KRP (PTok t3 :: r) = true) by (rewrite kind_is_tok, Hk3; reflexivity).
    destruct (RP_follow (PTok t3 :: r) I Hk4) as [F1 F2].
    exists ts1, (Some l), (PTok t3 :: r). split; [simpl; congruence|].
    split; [apply advance_live; eapply Ate_live; [exact Ha|exact I]|].
    split; [eapply hom_list_complete; eauto; apply H; lia|]. split; [reflexivity|]. split; [auto|]. apply advance_live; auto.
  Qed.
  Lemma complete_TT_dropped w l j : Items sym true w l -> P_Items w l -> Junk sym j ->
    P_TupleType (tok KLP :: w ++ tok KComma :: j ++ [tok KRP]) l.
  Proof.
    intros _ H HJ n Hn ts r Ha L. simpl in Hn. rewrite !app_length in Hn. simpl in Hn. rewrite app_length in Hn. simpl in Hn.
    apply Ate_cons in Ha as [t1 [ts1 [-> [Hk1 [_ Ha]]]]]. apply Ate_app in Ha as [m [Ha Hb]].
    apply Ate_cons in Hb as [t2 [ts2 [-> [Hk2 [_ Hb]]]]]. apply Ate_app in Hb as [m' [Hb Hd]].
    apply Ate_cons in Hd as [t3 [ts3 [-> [Hk3 [_ Hd]]]]]. apply Ate_nil in Hd as ->.
    assert (Hk4 : kind_is KRP (PTok t3 :: r) = true) by (rewrite kind_is_tok, Hk3; reflexivity).
    destruct (RP_follow (PTok t3 :: r) I Hk4) as [F1 F2].
    exists ts1, (Some l), (PTok t3 :: r). split; [simpl; congruence|].
    split; [apply advance_live; eapply Ate_live; [exact Ha|exact I]|].
    split.
    { eapply hom_list_trailing; [apply H; lia|exact Ha|reflexivity|auto|eapply Ate_live; [exact Hb|exact I]|].
      eapply junk_none; eauto; [lia|]. apply follow_Blocked; auto. }
    split; [reflexivity|]. split; [auto|]. apply advance_live; auto.
  Qed.
  Lemma complete_TT_empty : P_TupleType [tok KLP; tok KRP] [].
  Proof.
    intros n Hn ts r Ha L. simpl in Hn.
    apply Ate_cons in Ha as [t2 [ts2 [-> [Hk2 [_ Hb]]]]].
    apply Ate_cons in Hb as [t3 [ts3 [-> [Hk3 [_ Hd]]]]]. apply Ate_nil in Hd as ->.
    assert (Hk4 : kind_is KRP (PTok t3 :: r) = true) by (rewrite kind_is_tok, Hk3; reflexivity).
    destruct (RP_follow (PTok t3 :: r) I Hk4) as [F1 F2].
    exists (PTok t3 :: r), None, (PTok t3 :: r). split; [simpl; congruence|].
    split; [apply advance_live; exact I|]. split.
    { eapply hom_list_none. eapply (junk_none n []); [lia|constructor|apply Ate_refl|apply follow_Blocked; auto]. }
    split; [reflexivity|]. split; [auto|]. apply advance_live; auto.
  Qed.
  Lemma complete_I_one w t : DS sym true w t -> P_DS w t -> P_Items w [t].
  Proof. intros _ H n Hl. constructor. apply H; auto. Qed.
  Lemma complete_I_more w t w' l : DS sym true w t -> P_DS w t -> Items sym true w' l -> P_Items w' l ->
    P_Items (w ++ tok KComma :: w') (t :: l).
  Proof. intros _ H _ H' n Hl. rewrite app_length in Hl. simpl in Hl. constructor; [apply H|apply H']; lia. Qed.

  Lemma complete_A_one w a : Arg sym true w a -> P_Arg w a -> P_Args w [a] [].
  Proof.
    intros _ H n Hn Hn1 k acc ts r Hk Ha L Hr. destruct k as [|k]; [lia|]. cbn [arg_loop].
    destruct (RBk_follow _ L Hr) as [F1 F2]. destruct (H n Hn) as [_ HC]. rewrite (HC _ _ Ha F1). cbn [bind]. rewrite F2. reflexivity.
  Qed.
  Lemma complete_A_more w a w' l kw : Arg sym true w a -> P_Arg w a -> Args sym true w' l kw -> P_Args w' l kw ->
    P_Args (w ++ tok KComma :: w') (a :: l) kw.
  Proof.
    intros _ H _ H' n Hn Hn1 k acc ts r Hk Ha L Hr. rewrite app_length in Hn, Hk. simpl in Hn, Hk. destruct k as [|k]; [lia|]. cbn [arg_loop].
    apply Ate_app in Ha as [m [Ha Hb]]. apply Ate_cons in Hb as [t2 [ts2 [-> [Hk2 [_ Hb]]]]].
    destruct (H n ltac:(lia)) as [_ HC]. rewrite (HC _ _ Ha) by (apply follow_tok; rewrite Hk2; simpl; auto). cbn [bind].
    rewrite kind_is_tok, Hk2. cbn [kind_beq]. rewrite advance_live by (eapply Ate_live; [exact Hb|exact L]). cbn [bind].
    rewrite (H' n ltac:(lia) Hn1 k (acc ++ [a]) ts2 r ltac:(lia) Hb L Hr). rewrite <- app_assoc. reflexivity.
  Qed.
  Lemma complete_A_kwargs j m v w kw : Dropped sym true j ->
      Kwargs sym true ((KLower, VStr m) :: v :: w) kw -> P_Kwargs ((KLower, VStr m) :: v :: w) kw ->
      st_dtype sym m = None -> st_dim sym m = None \/ has_dim sym j ->
      P_Args (j ++ (KLower, VStr m) :: v :: w) [] kw.
  Proof.
    intros HJ HK H Hdt Hdm n Hn Hn1 k acc ts r Hk Ha L Hr. rewrite app_length in Hn, Hk. simpl in Hn, Hk.
    destruct k as [|k]; [lia|]. cbn [arg_loop]. apply Ate_app in Ha as [mm [Ha Hb]]. pose proof Hb as Hb'.
    destruct v as [kv vv]. assert (kv = KEq) as -> by (inversion HK; reflexivity).
    apply Ate_cons in Hb as [t1 [ts1 [-> [Hk1 [Hv1 Hb]]]]]. apply Ate_cons in Hb as [t2 [ts2 [-> [Hk2 [_ Hb]]]]].
    rewrite (type_arg_none (rc n) ts (PTok t1 :: PTok t2 :: ts2)); try (rewrite kind_is_tok, Hk1; reflexivity).
    - cbn [bind]. destruct (RBk_follow _ L Hr) as [F1 F2].
      rewrite (hom_list_complete _ _ _ _ _ _ (H n ltac:(simpl; lia)) Hb' F1 F2). cbn [bind]. rewrite app_nil_r. reflexivity.
    - eapply junk_none; eauto. { eapply Dropped_Junk; eauto. } split; [exact I|]. right; right; right.
      exists t1, t2, ts2, m. auto 8.
  Qed.
  Lemma kwarg_none rec r : kind_is KRBk r = true -> parse_type_kwarg rec r = Ok (None, r).
  Proof. intro H. apply kind_is_inv in H as [t [r' [-> Hk]]]. unfold parse_type_kwarg. rewrite !kind_is_tok, Hk. reflexivity. Qed.
  Lemma complete_A_trailing j : Junk sym j -> P_Args j [] [].
  Proof.
    intros HJ n Hn Hn1 k acc ts r Hk Ha L Hr. destruct k as [|k]; [lia|]. cbn [arg_loop].
    destruct (RBk_follow _ L Hr) as [F1 F2].
    rewrite (type_arg_none (rc n) ts r); try (apply follow_kind; auto; simpl; tauto).
    - cbn [bind]. rewrite (hom_list_none _ _ r r (kwarg_none _ _ Hr)). cbn [bind]. rewrite app_nil_r. reflexivity.
    - eapply junk_none; eauto. apply follow_Blocked; auto.
  Qed.
  Lemma kwarg_Comp m w a n : Comp (parse_type_arg (rc n)) w a ->
    Comp (parse_type_kwarg (rc n)) ((KLower, VStr m) :: tok KEq :: w) (m, a).
  Proof.
    intros [Hne HC]. split; [discriminate|]. intros ts r Ha Hf.
    apply Ate_cons in Ha as [t1 [ts1 [-> [Hk1 [Hv1 Ha]]]]]. apply Ate_cons in Ha as [t2 [ts2 [-> [Hk2 [_ Ha]]]]].
    unfold parse_type_kwarg. rewrite !kind_is_tok, Hk1. cbn [kind_beq].
    rewrite advance_live by exact I. cbn [bind]. rewrite kind_is_tok, Hk2. cbn [kind_beq].
    rewrite advance_live by (eapply Ate_live; [exact Ha|apply Hf]). cbn [bind].
    rewrite (HC _ _ Ha Hf). cbn [bind]. simpl. rewrite Hv1. reflexivity.
  Qed.
  Lemma complete_K_one m w a : Arg sym true w a -> P_Arg w a -> P_Kwargs ((KLower, VStr m) :: tok KEq :: w) [(m, a)].
  Proof. intros _ H n Hl. simpl in Hl. constructor. apply kwarg_Comp. apply H. lia. Qed.
  Lemma complete_K_more m w a w' kw : Arg sym true w a -> P_Arg w a -> Kwargs sym true w' kw -> P_Kwargs w' kw ->
      P_Kwargs ((KLower, VStr m) :: tok KEq :: w ++ tok KComma :: w') ((m, a) :: kw).
  Proof.
    intros _ H _ H' n Hl. simpl in Hl. rewrite app_length in Hl. simpl in Hl.
    apply (Sep_more _ ((KLower, VStr m) :: tok KEq :: w) (m, a) w' kw); [|apply H'; lia]. apply kwarg_Comp. apply H. lia.
  Qed.
  Lemma complete_AR_ds w t : DS sym true w t -> P_DS w t -> P_Arg w (ADs t).
  Proof.
    intros _ H n Hn. destruct (H n Hn) as [Hne HC]. split; auto. intros ts r Ha Hf.
    unfold parse_type_arg. rewrite (HC _ _ Ha Hf). reflexivity.
  Qed.
  Lemma complete_AR_literal j t a : Dropped sym true j -> Literal t a -> P_Arg (j ++ [t]) a.
  Proof.
    intros HJ H n Hn. rewrite app_length in Hn. simpl in Hn. split; [destruct j; discriminate|]. intros ts r Ha Hf.
    apply Ate_app in Ha as [m [Ha Hb]]. destruct t as [k v].
    apply Ate_cons in Hb as [t1 [ts1 [-> [Hk1 [Hv1 Hb]]]]]. apply Ate_nil in Hb as ->.
    unfold parse_type_arg. rewrite (junk_none n j ts (PTok t1 :: r)); [|lia|eapply Dropped_Junk; eauto|auto|].
    - cbn [bind]. rewrite !kind_is_tok, Hk1.
      replace (kind_beq KInt k || kind_beq KStr k || kind_beq KBool k) with true by (inversion H; reflexivity).
      rewrite advance_live by apply Hf. cbn [bind]. simpl. rewrite Hv1. inversion H; reflexivity.
    - split; [exact I|].
      assert (Hc : k = KInt \/ k = KStr \/ k = KBool) by (inversion H; auto). destruct Hc as [-> | [-> | -> ] ].
      + right; left. exists t1, r. split; [reflexivity|]. split; [auto|]. split; [apply Hf|]. apply follow_kind; auto. simpl; auto.
      + left. simpl tok_kind. rewrite Hk1. exact I.
      + left. simpl tok_kind. rewrite Hk1. exact I.
  Qed.
  Lemma complete_AR_list j w l : Dropped sym true j -> ~ ends_with_name j -> ListArg sym true w l -> P_ListArg w l ->
    P_Arg (j ++ tok KLBk :: w ++ [tok KRBk]) (AList l).
  Proof.
    intros HJ He _ H n Hn. rewrite app_length in Hn. simpl in Hn. rewrite app_length in Hn. simpl in Hn.
    split; [destruct j; discriminate|]. intros ts r Ha Hf. apply Ate_app in Ha as [m [Ha Hb]].
    apply Ate_cons in Hb as [t1 [ts1 [-> [Hk1 [Hv1 Hb]]]]]. apply Ate_app in Hb as [m' [Hb Hc]].
    apply Ate_cons in Hc as [t3 [ts3 [-> [Hk3 [_ Hc]]]]]. apply Ate_nil in Hc as ->.
    assert (Hk : kind_is KRBk (PTok t3 :: r) = true) by (rewrite kind_is_tok, Hk3; reflexivity).
    destruct (H n ltac:(lia) ltac:(lia) _ _ Hb I Hk) as [o [Ho <-]].
    assert (Hkb : kind_is KLBk (PTok t1 :: ts1) = true) by (rewrite kind_is_tok, Hk1; reflexivity).
    eapply type_arg_list_run; [eapply (junk_none n j); eauto| | |exact Ho|exact Hk|apply advance_live; apply Hf].
    - lia.
    - eapply Dropped_Junk; eauto.
    - split; [exact I|]. right; right; left. split; auto.
    - exact Hkb.
    - apply advance_live. eapply Ate_live; [exact Hb|exact I].
  Qed.
  Lemma complete_LA_nil : P_ListArg [] [].
  Proof.
    intros n Hn Hn1 ts r Ha L Hk. apply Ate_nil in Ha as ->. destruct (RBk_follow _ L Hk) as [F1 F2].
    exists None. split; auto. unfold list_args.
    rewrite (hom_list_none _ _ r r)
      by (apply rec_targ_none, (junk_none n []); [lia|constructor|apply Ate_refl|apply follow_Blocked; auto]).
    cbn [bind]. rewrite (hom_list_none _ _ r r) by (apply tokval_none, follow_kind; simpl; auto 10).
    cbn [bind]. rewrite (hom_list_none _ _ r r) by (apply tokval_none, follow_kind; simpl; auto 10).
    cbn [bind]. rewrite (hom_list_none _ _ r r) by (apply tokval_none, follow_kind; simpl; auto 10). reflexivity.
  Qed.
  Lemma complete_LA_ds w l : Items sym true w l -> P_Items w l -> P_ListArg w (map ADs l).
  Proof.
    intros _ H n Hn Hn1 ts r Ha L Hk. destruct (RBk_follow _ L Hk) as [F1 F2].
    exists (Some (map ADs l)). split; auto. unfold list_args.
    rewrite (hom_list_complete _ _ _ _ _ _ (Sep_rec_targ _ _ _ (H n Hn)) Ha F1 F2). reflexivity.
  Qed.
  Lemma complete_LA_literals k w l : LiteralList k w l -> P_ListArg w l.
  Proof.
    intros H n Hn Hn1 ts r Ha L Hr. destruct (RBk_follow _ L Hr) as [F1 F2].
    exists (Some l). split; auto. unfold list_args.
    destruct (LiteralList_head _ _ _ _ _ H Ha L) as [t [ts' [-> [Hk [L' Hast]]]]]; [apply follow_kind; simpl; auto|].
    pose proof (LiteralList_kind _ _ _ H) as Hin.
    rewrite (hom_list_none _ _ (PTok t :: ts') (PTok t :: ts')).
    2:{ apply rec_targ_none, (junk_none n []); [lia|constructor|apply Ate_refl|]. split; [exact I|].
        simpl in Hin. destruct Hin as [<-|[<-|[<-|[]]]].
        - right; left. exists t, ts'. auto.
        - left. simpl. rewrite Hk. exact I.
        - left. simpl. rewrite Hk. exact I. }
    cbn [bind]. pose proof (hom_list_complete _ (Complain (another k)) _ _ _ _ (LiteralList_Sep _ _ _ H) Ha F1 F2) as HL.
    assert (Hno : forall k', k' <> k -> hom_list (parse_tokval k' val_targ) KComma (Complain (another k')) (PTok t :: ts') = Ok (None, PTok t :: ts')).
    { intros k' Hne. eapply hom_list_none. apply tokval_none. rewrite kind_is_tok, Hk.
      destruct (kind_beq k' k) eqn:E; auto. apply internal_kind_dec_bl in E. congruence. }
    simpl in Hin. destruct Hin as [<-|[<-|[<-|[]]]].
    - rewrite HL. reflexivity.
    - rewrite (Hno KInt) by discriminate. cbn [bind]. rewrite HL. reflexivity.
    - rewrite (Hno KInt) by discriminate. cbn [bind]. rewrite (Hno KStr) by discriminate. cbn [bind]. rewrite HL. reflexivity.
  Qed.

  Theorem datashape_complete w t : DS sym true w t -> P_DS w t.
  Proof.
    revert w t. apply (DS_mind sym true P_DS P_NoOpt P_Dtype P_FieldList P_Fields P_TupleType P_Items P_Args P_Kwargs P_Arg P_ListArg).
    - exact complete_DS_plain.
    - exact complete_DS_option.
    - exact complete_NO_dim.
    - exact complete_NO_dtype.
    - intros u d w t t' _. apply complete_NO_dropped.
    - exact complete_DT_typevar.
    - exact complete_DT_type.
    - exact complete_DT_constr.
    - exact complete_DT_struct.
    - exact complete_DT_tuple.
    - exact complete_DT_funcproto.
    - exact complete_FL_fields.
    - exact complete_FL_comma.
    - intros _. exact complete_FL_empty.
    - exact complete_F_one.
    - exact complete_F_more.
    - exact complete_TT_items.
    - intros w l HI HP. exact (complete_TT_dropped w l [] HI HP (J_nil sym)).
    - exact complete_TT_empty.
    - intros w l j _. apply complete_TT_dropped.
    - exact complete_I_one.
    - exact complete_I_more.
    - exact complete_A_one.
    - exact complete_A_more.
    - exact complete_A_kwargs.
    - intros j _. apply complete_A_trailing.
    - exact complete_K_one.
    - exact complete_K_more.
    - exact complete_AR_ds.
    - exact complete_AR_literal.
    - exact complete_AR_list.
    - exact complete_LA_nil.
    - exact complete_LA_ds.
    - exact complete_LA_literals.
  Qed.
End Complete.
