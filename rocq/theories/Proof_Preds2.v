From Coq Require Import Sorting.Sorted.
From Verif Require Import Base Types Lexer Construct Parser Ops Preds Spec_WF Spec_Ops Spec_Preds Spec_Eq
  Proof_WF Proof_Eq Proof_Canon Proof_Ops Proof_Ops2 Proof_Preds.
Local Open Scope Z_scope.

(** ** ishomogeneous *)
Fixpoint good (v : pv) : Prop :=
  match v with
  | PvTy t => WF t /\ NoTypeSet t
  | PvTup l => (fix go (l : list pv) : Prop := match l with [] => True | x :: r => good x /\ go r end) l
  | _ => True
  end.
Lemma good_tup l : good (PvTup l) <-> forall x, In x l -> good x.
Proof.
  change ((fix go (l : list pv) : Prop := match l with [] => True | x :: r => good x /\ go r end) l <-> forall x, In x l -> good x).
  induction l as [|x l IH]; simpl; [tauto|]. rewrite IH. split.
  - intros [A B] y [<-|Hy]; auto.
  - intro H. split; [|intros]; apply H; auto.
Qed.
Lemma good_child t c : WF t -> NoTypeSet t -> In c (children t) -> good (PvTy c).
Proof.
  intros W N Hc. assert (Occurs c t) by (eapply Occurs_in; [exact Hc|constructor]).
  split; [eapply Occurs_WF|eapply Occurs_NoTypeSet]; eauto.
Qed.
Lemma good_items v c : good v -> In c (items v) -> good c.
Proof.
  destruct v as [t|l|z|s|b|]; cbn [items]; try contradiction; [|intros H; apply good_tup; auto].
  intros [W N] Hc. pose proof (good_child t) as G.
  destruct t; cbn [params In] in Hc; cbn [children] in G;
    try (repeat (destruct Hc as [<-|Hc]; [try (destruct tz); try (destruct fixlen); first [exact I | apply G; auto; simpl; auto]|]); contradiction).
  - destruct typevar as [s|]; simpl in Hc; destruct Hc as [<-|[]]; [|exact I]. split.
    + intros u Hu. inversion Hu as [|? ? Hc]; subst; [|destruct Hc]. apply (W _ (Occurs_here _)).
    + intros a n Hu. inversion Hu as [|? ? Hc]; subst. destruct Hc.
  - apply in_map_iff in Hc. destruct Hc as [x [<- Hx]]. apply G; auto.
  - apply in_map_iff in Hc. destruct Hc as [x [<- Hx]]. apply G; auto.
  - apply in_map_iff in Hc. destruct Hc as [x [<- Hx]]. apply G; auto. apply in_map; auto.
  - destruct Hc as [<-|[<-|[<-|[]]]]; [|apply G; simpl; auto|exact I].
    apply good_tup. intros x Hx. apply in_map_iff in Hx. destruct Hx as [l [<- _]]. destruct l; exact I.
  - destruct Hc as [<-|[]]. apply good_tup. intros x Hx. apply in_map_iff in Hx. destruct Hx as [l [<- Hl]]. apply G; auto.
  - exfalso. apply (N order name). constructor.
Qed.
Lemma good_Outer pred v x : Outer pred v x -> good v -> good x.
Proof. induction 1; auto. intro G. apply IHOuter. eapply good_items; eauto. Qed.

Lemma scalar_leaf v : isscalar_pv v = true -> exists t, v = PvTy t.
Proof. destruct v; simpl; try discriminate. eauto. Qed.
(** only a bare ellipsis makes [collect isscalar] fail *)
Fixpoint ellipsis_free (v : pv) : Prop :=
  match v with
  | PvTy t => ~ Occurs (EllipsisT None) t
  | PvTup l => (fix go (l : list pv) : Prop := match l with [] => True | x :: r => ellipsis_free x /\ go r end) l
  | _ => False
  end.
Lemma ellipsis_free_tup l : ellipsis_free (PvTup l) <-> forall x, In x l -> ellipsis_free x.
Proof.
  change ((fix go (l : list pv) : Prop := match l with [] => True | x :: r => ellipsis_free x /\ go r end) l <-> forall x, In x l -> ellipsis_free x).
  induction l as [|x l IH]; simpl; [tauto|]. rewrite IH. split.
  - intros [A B] y [<-|Hy]; auto.
  - intro H. split; [|intros]; apply H; auto.
Qed.
Lemma isscalar_bare t : is_Unit t || is_Categorical t = true -> isscalar t = true.
Proof. destruct t; simpl; try discriminate; auto. Qed.
Lemma ellipsis_free_items v c : ellipsis_free v -> isscalar_pv v = false -> In c (items v) -> ellipsis_free c.
Proof.
  destruct v as [t|l|z|s|b|]; cbn [items isscalar_pv]; try contradiction; [|intros H _; apply ellipsis_free_tup; auto].
  intros HE HS Hc.
  assert (G : forall c, In c (children t) -> ellipsis_free (PvTy c)).
  { intros d Hd Ho. apply HE. eapply Occurs_in; eauto. }
  assert (HU : is_Unit t || is_Categorical t = false).
  { destruct (is_Unit t || is_Categorical t) eqn:E; auto. rewrite (isscalar_bare t E) in HS. discriminate. }
  destruct t; try discriminate HU; cbn [params In children] in *; try contradiction;
    try (repeat (destruct Hc as [<-|Hc]; [apply G; simpl; auto|]); contradiction);
    try (apply in_map_iff in Hc; destruct Hc as [x [<- Hx]]; apply G; auto; apply in_map; auto; fail).
  - destruct typevar as [s|]; simpl in Hc; destruct Hc as [<-|[]].
    + intro Ho. inversion Ho as [|? ? Hx]; subst. destruct Hx.
    + exfalso. apply HE. constructor.
  - destruct Hc as [<-|[]]. apply ellipsis_free_tup. intros x Hx. apply in_map_iff in Hx. destruct Hx as [l [<- Hl]]. apply G; auto.
Qed.
Lemma no_Bad v : ellipsis_free v -> ~ Bad isscalar_pv v.
Proof.
  intros HE HB. induction HB as [v H1 H2|v c H1 H2 H3 IH]; [destruct v; simpl in *; discriminate||contradiction|].
  apply IH. eapply ellipsis_free_items; eauto.
Qed.
Lemma homogeneous_list d l : WF d -> NoTypeSet d -> collect isscalar_pv (PvTy d) = Ok l ->
  (Nat.eqb (length (mkset (filter (fun v => negb (isdimension_pv v)) l))) 1 = true <->
   (exists x, Dtype d x) /\ forall x y, Dtype d x -> Dtype d y -> py_eq x y = true).
Proof.
  intros W N Hl.
  pose proof (collect_In _ _ _ Hl) as HI.
  set (fl := filter _ l).
  assert (HF : forall v, In v fl <-> exists x, v = PvTy x /\ Dtype d x).
  { intro v. unfold fl. rewrite filter_In, HI, negb_true_iff. split.
    - intros [HO HD]. assert (HS : isscalar_pv v = true) by (clear -HO; induction HO; auto).
      destruct (scalar_leaf v HS) as [x ->]. exists x. split; auto. split; auto.
      cbn [isdimension_pv] in HD. rewrite <- is_dimension_Dim, HD. discriminate.
    - intros [x [-> [HO HD]]]. split; auto. cbn [isdimension_pv]. rewrite <- is_dimension_Dim in HD.
      destruct (is_dimension x); auto. exfalso; auto. }
  rewrite Nat.eqb_eq, mkset_one. split.
  - intros [y [r [E HR]]]. destruct (proj1 (HF y)) as [y0 [-> Hy]]; [rewrite E; left; auto|].
    split; [eauto|].
    assert (A : forall x, Dtype d x -> py_eq y0 x = true).
    { intros x Hx. assert (Hin : In (PvTy x) fl) by (apply HF; eauto). rewrite E in Hin. destruct Hin as [Hq|Hin].
      - injection Hq as <-. apply py_eq_refl.
      - apply (HR _ Hin). }
    assert (GW : forall x, Dtype d x -> WF x /\ NoTypeSet x).
    { intros x [HO _]. apply (good_Outer _ _ _ HO). split; auto. }
    intros x z Hx Hz. eapply py_eq_trans; [|apply A; exact Hz].
    destruct (GW x Hx), (GW y0 Hy). rewrite py_eq_sym; try apply wf_WF; try apply no_typeset_spec; auto.
  - intros [[x Hx] HA]. destruct fl as [|y r] eqn:E.
    + assert (Hin : In (PvTy x) []) by (apply HF; eauto). destruct Hin.
    + exists y, r. split; auto. intros z Hz. destruct (proj1 (HF y) (or_introl eq_refl)) as [y0 [-> Hy]].
      destruct (proj1 (HF z) (or_intror Hz)) as [z0 [-> Hz0]]. apply HA; auto.
Qed.

Lemma ishomogeneous_spec t d : dshape_ty t = Ok d -> WF d -> NoTypeSet d -> ~ Occurs (EllipsisT None) d ->
  exists b, ishomogeneous t = Ok b /\
    (b = true <-> (exists x, Dtype d x) /\ forall x y, Dtype d x -> Dtype d y -> py_eq x y = true).
Proof.
  intros Hd W N HE. unfold ishomogeneous. rewrite Hd. cbn [bind].
  destruct (collect_ok isscalar_pv (PvTy d)) as [[l Hl]|[HB _]]; [|exfalso; apply (no_Bad (PvTy d)); auto].
  rewrite Hl. cbn [bind]. eexists. split; [reflexivity|]. apply homogeneous_list; auto.
Qed.

(** ** C38 *)
Lemma AllFixed_step t : AllFixed t <-> (t <> VarT /\ forall s, t <> TypeVarT s) /\ forall c, In c (children t) -> AllFixed c.
Proof.
  split.
  - intro H. split; [apply H; constructor|]. intros c Hc u Hu. apply H. eapply Occurs_in; eauto.
  - intros [H1 H2] u Hu. inversion Hu as [|c ? Hc Ho]; subst; auto. apply (H2 c Hc); auto.
Qed.
Lemma mk_ds_lone t : ~ DimensionClass t -> ~ Lone t -> mk_ds [t] = Ok (DataShapeT None [t]).
Proof.
  intros H1 H2. apply mk_ds_ok. exists [], t. split; auto. split; auto. split; [intros ? []|]. intros x [<-|[]]; auto.
Qed.
Lemma all_map_spec {A} (f : A -> res (option bool)) (Q : A -> Prop) l :
  (forall x, In x l -> exists o, f x = Ok o /\ (o = Some true <-> Q x)) ->
  exists b, all_map f l = Ok b /\ (b = true <-> forall x, In x l -> Q x).
Proof.
  induction l as [|x l IH]; intro H; simpl; [exists true; split; auto; split; auto; contradiction|].
  destruct (H x (or_introl eq_refl)) as [o [-> Ho]]. cbn [bind].
  destruct IH as [b [Hb HB]]; [intros; apply H; right; auto|].
  destruct (truthy o) eqn:E.
  - exists b. split; auto. rewrite HB. assert (o = Some true) by (destruct o as [[]|]; simpl in E; congruence || discriminate).
    apply Ho in H0. split; intros G z; [intros [<-|Hz]; auto|intro Hz; apply G; auto].
  - exists false. split; auto. split; [discriminate|]. intro G. assert (Q x) by (apply G; auto).
    apply Ho in H0. subst. discriminate.
Qed.
Lemma isfixed_spec n : forall t, (tsize t < n)%nat -> Plain t -> WF t -> ~ DimensionClass t ->
  exists o, isfixedF n t = Ok o /\ (o = Some true <-> AllFixed t).
Proof.
  induction n as [|n IH]; intros t Hn HP HW HD; [lia|]. cbn [isfixedF].
  assert (HREC : forall fs, (tsize (RecordT fs) <= tsize t)%nat -> Plain (RecordT fs) -> WF (RecordT fs) ->
    exists o, (let! b := all_map (fun f => isfixedF n (snd f)) fs in Ok (Some b)) = Ok o /\ (o = Some true <-> AllFixed (RecordT fs))).
  { intros fs Hs HPf HWf.
    assert (HFs : forall t, In t (map snd fs) -> Plain t /\ ~ DimensionClass t).
    { inversion HPf as [? Hc|? Hc|]; subst; auto. cbn [children] in Hc. rewrite Hc. intros ? []. }
    destruct (all_map_spec (fun f => isfixedF n (snd f)) (fun f => AllFixed (snd f)) fs) as [b [Hb HB]].
    - intros f Hf. destruct (HFs (snd f) (in_map snd _ _ Hf)) as [P1 P2]. apply IH; auto.
      + rewrite tsize_Record in Hs. pose proof (fsize_In f fs Hf). lia.
      + eapply Occurs_WF; [exact HWf|]. eapply Occurs_in; [|constructor]. apply in_map; auto.
    - rewrite Hb. exists (Some b). split; auto. rewrite AllFixed_step. cbn [children].
      assert (HE : (Some b = Some true) <-> b = true) by (split; congruence). rewrite HE, HB. split.
      + intro H. split; [split; [discriminate|intros; discriminate]|]. intros c Hc. apply in_map_iff in Hc.
        destruct Hc as [f [<- Hf]]. auto.
      + intros [_ H] f Hf. apply H. apply in_map; auto. }
  assert (HLEAF : children t = [] -> t <> VarT -> (forall s, t <> TypeVarT s) -> AllFixed t).
  { intros HC H1 H2. apply AllFixed_step. split; auto. rewrite HC. intros ? []. }
  destruct HP as [t HC HE HDS|fs HF|nm ps Hne Hps].
  - (* leaf *)
    assert (HTV : forall s, t = TypeVarT s -> exists o : option bool, Ok (None : option bool) = Ok o /\ (o = Some true <-> AllFixed t)).
    { intros s ->. eexists. split; [reflexivity|]. split; [discriminate|]. intro H. exfalso.
      apply (proj2 (H _ (Occurs_here _)) s). reflexivity. }
    destruct t; cbn [children] in HC; try discriminate HC; try (apply map_eq_nil in HC); try subst;
      first [ exfalso; apply HD; constructor; fail | exfalso; eapply HE; reflexivity | exfalso; eapply HDS; reflexivity
            | exfalso; apply (HW _ (Occurs_here _)); reflexivity
            | cbn; eapply HTV; reflexivity
            | cbn; eexists; split; [reflexivity|]; split; [intros _; apply HLEAF; auto; intros; discriminate|reflexivity] ].
  - (* record *)
    assert (Hd : dshape_ty (RecordT fs) = Ok (DataShapeT None [RecordT fs])).
    { unfold dshape_ty. cbn [is_Unit orb]. rewrite mk_ds_lone; [reflexivity|exact HD|intros [? [? E]]; discriminate]. }
    rewrite Hd. cbn [bind seq_head]. apply HREC; auto. apply Plain_record; auto.
  - (* array *)
    cbn [dshape_ty bind]. destruct ps as [|p ps]; [contradiction|]. cbn [seq_head bind].
    destruct (Hps p (or_introl eq_refl)) as [Pp Np].
    assert (Wp : WF p) by (eapply Occurs_WF; [exact HW|]; eapply Occurs_in; [left; reflexivity|constructor]).
    pose proof (HW _ (Occurs_here _)) as HO. fold (okps (p :: ps)) in HO.
    assert (Hmain : (forall s, p <> TypeVarT s) -> p <> VarT -> (forall fs, p <> RecordT fs) ->
      exists o, (if Nat.ltb 1 (py_len (DataShapeT nm (p :: ps))) then let! s := subarray (DataShapeT nm (p :: ps)) 1 in isfixedF n s
         else Ok (Some true)) = Ok o /\ (o = Some true <-> AllFixed (DataShapeT nm (p :: ps)))).
    { intros N1 N2 N3. assert (Ap : AllFixed p).
      { inversion Pp as [? HC' ? ?|? ?|? ? ? ?]; subst.
        - apply AllFixed_step. split; auto. rewrite HC'. intros ? [].
        - exfalso; eapply N3; reflexivity.
        - exfalso; apply Np; eexists _, _; reflexivity. }
      cbn [py_len length]. destruct ps as [|q ps].
      - cbn. eexists. split; [reflexivity|]. split; [|reflexivity]. intros _. apply AllFixed_step.
        split; [split; [discriminate|intros; discriminate]|]. intros c [<-|[]]; auto.
      - change (Nat.ltb 1 (length (p :: q :: ps))) with true. cbn iota.
        rewrite subarray_ok by (auto; cbn [length]; lia). cbn [bind].
        change (skipn (Z.to_nat 1) (p :: q :: ps)) with (q :: ps).
        destruct (IH (DataShapeT None (q :: ps))) as [o [Ho HQ]].
        + rewrite tsize_DataShape in *. cbn [lsize fold_right] in *. pose proof (tsize_pos p). lia.
        + apply Plain_array; [discriminate|]. intros; apply Hps; right; auto.
        + apply WF_DataShape; [eapply okps_tail; [exact HO|discriminate]|].
          intros x Hx. eapply Occurs_WF; [exact HW|]. eapply Occurs_in; [right; exact Hx|constructor].
        + intro HDD; inversion HDD.
        + exists o. split; auto. rewrite HQ, (AllFixed_step (DataShapeT nm _)), (AllFixed_step (DataShapeT None _)).
          cbn [children]. split; intros [_ H]; (split; [split; [discriminate|intros; discriminate]|]); intros c Hc.
          * destruct Hc as [<-|Hc]; auto.
          * apply H. right; auto. }
    destruct p; try (apply Hmain; (discriminate || (intros; discriminate))).
    + (* Var *) eexists. split; [reflexivity|]. split; [discriminate|]. intro H. exfalso.
      assert (Q : Occurs VarT (DataShapeT nm (VarT :: ps))) by (eapply Occurs_in; [left; reflexivity|constructor]).
      apply (proj1 (H _ Q)). reflexivity.
    + eexists. split; [reflexivity|]. split; [discriminate|]. intro H. exfalso.
      assert (Q : Occurs (TypeVarT symbol) (DataShapeT nm (TypeVarT symbol :: ps))) by (eapply Occurs_in; [left; reflexivity|constructor]).
      apply (proj2 (H _ Q) symbol). reflexivity.
    + (* Record: it must be the last component *)
      assert (ps = []).
      { destruct HO as [dims [m [E [_ [HM _]]]]]. destruct dims as [|d dims].
        - injection E as _ E. auto.
        - exfalso. injection E as E1 _. apply (HM d (or_introl eq_refl)). subst d. constructor. }
      subst ps. destruct (HREC fields) as [o [Ho HQ]]; auto.
      * rewrite tsize_DataShape. cbn [lsize fold_right]. lia.
      * exists o. split; auto. rewrite HQ, (AllFixed_step (DataShapeT nm _)). cbn [children]. split.
        -- intro H. split; [split; [discriminate|intros; discriminate]|]. intros c [<-|[]]; auto.
        -- intros [_ H]. apply H. left; auto.
Qed.

(** ** C43 *)
Lemma Inside_spec t u : Inside t u <-> u = strip_option (strip_lone t).
Proof.
  split.
  - destruct 1 as [t H1 H2|u|n t H|n u].
    + assert (strip_lone t = t) as ->.
      { destruct t; auto. destruct parameters as [|x [|y l]]; auto. exfalso. apply H1. eexists _, _; reflexivity. }
      destruct t; auto. exfalso; eapply H2; reflexivity.
    + reflexivity.
    + simpl. destruct t; auto. exfalso; eapply H; reflexivity.
    + reflexivity.
  - intros ->. destruct (laundered t) eqn:E.
    + assert (HL : ~ Lone t) by (apply not_Lone; auto).
      assert (strip_lone t = t) as ->.
      { destruct t; auto. destruct parameters as [|x [|y l]]; auto. exfalso. apply HL. eexists _, _; reflexivity. }
      destruct t; cbn [strip_option]; try (apply In_bare; auto; intros; discriminate). apply In_option.
    + assert (HL : Lone t).
      { destruct t; try discriminate. destruct parameters as [|x [|y l]]; try discriminate. eexists _, _; reflexivity. }
      destruct HL as [n [x ->]]. cbn [strip_lone]. destruct x; cbn [strip_option]; try (apply In_lone; intros; discriminate).
      apply In_lone_option.
Qed.
Lemma isscalar_spec t : isscalar t = true <-> exists u, Inside t u /\ ScalarClass u.
Proof.
  unfold isscalar. set (u := strip_option (strip_lone t)).
  assert (H : is_Unit u || is_Categorical u = true <-> ScalarClass u).
  { split; [destruct u; simpl; try discriminate; constructor|intros []; reflexivity]. }
  rewrite H. split.
  - intro HS. exists u. split; auto. apply Inside_spec. reflexivity.
  - intros [v [HI HS]]. apply Inside_spec in HI. subst v. exact HS.
Qed.
Lemma isrecord_spec t : isrecord t = true <-> exists fs, Inside t (RecordT fs).
Proof.
  unfold isrecord. split.
  - intro H. destruct (strip_option (strip_lone t)) eqn:E; try discriminate. exists fields. apply Inside_spec. auto.
  - intros [fs HI]. apply Inside_spec in HI. rewrite <- HI. reflexivity.
Qed.
Lemma istabular_spec n ps : istabular (DataShapeT n ps) = Ok true <->
  exists d m fs, ps = [d; m] /\ Inside m (RecordT fs).
Proof.
  unfold istabular. cbn [dshape_ty bind shape measure]. split.
  - intro H. injection H as H. apply andb_true_iff in H. destruct H as [H1 H2]. apply Nat.eqb_eq in H1.
    destruct ps as [|d [|m [|x l]]]; try discriminate H1.
    + cbn [last] in H2. apply isrecord_spec in H2. destruct H2 as [fs H2]. exists d, m, fs. auto.
  - intros [d [m [fs [-> HI]]]]. assert (H : isrecord m = true) by (apply isrecord_spec; eauto).
    cbn [removelast length Nat.eqb last]. cbn [last]. rewrite H. reflexivity.
Qed.
Lemma istabular_total n ps : exists b, istabular (DataShapeT n ps) = Ok b.
Proof. eexists; reflexivity. Qed.
Lemma iscollection_spec n p ps : exists b, iscollection (DataShapeT n (p :: ps)) = Ok b /\ (b = true <-> Dim p).
Proof. eexists. split; [reflexivity|]. apply is_dimension_Dim. Qed.

(** ** C09 *)
Lemma rfind_spec s : match rfind_nl s with
  | None => NoNewline s
  | Some k => exists pre r, s = pre ++ 10%N :: r /\ length pre = k /\ NoNewline r
  end.
Proof.
  induction s as [|c s IH]; simpl; [intros []|]. destruct (rfind_nl s) as [k|].
  - destruct IH as [pre [r [-> [<- H]]]]. exists (c :: pre), r. auto.
  - destruct (N.eqb_spec c 10) as [->|Hc].
    + exists [], s. auto.
    + intros [->|H]; [contradiction|apply IH; auto].
Qed.
Lemma find_spec s : match find_nl s with
  | None => NoNewline s
  | Some k => exists a r, s = a ++ 10%N :: r /\ length a = k /\ NoNewline a
  end.
Proof.
  induction s as [|c s IH]; simpl; [intros []|]. destruct (N.eqb_spec c 10) as [->|Hc].
  - exists [], s. repeat split; auto. intros [].
  - destruct (find_nl s) as [k|]; simpl.
    + destruct IH as [a [r [-> [<- H]]]]. exists (c :: a), r. repeat split; auto. intros [->|Hi]; [contradiction|apply H; auto].
    + intros [->|H]; [contradiction|apply IH; auto].
Qed.
Lemma count_nl_app a b : count_nl (a ++ b) = (count_nl a + count_nl b)%nat.
Proof. unfold count_nl. rewrite filter_app, app_length. reflexivity. Qed.
Lemma count_nl_none s : NoNewline s -> count_nl s = O.
Proof.
  unfold count_nl. induction s as [|c s IH]; intro H; [reflexivity|]. cbn [filter].
  destruct (N.eqb_spec 10 c) as [<-|Hc]; [exfalso; apply H; left; auto|]. apply IH. intro Hi; apply H; right; auto.
Qed.
Lemma Lines_count_aux n : forall s, (length s <= n)%nat -> Lines (count_nl (s ++ [10%N])) (s ++ [10%N]).
Proof.
  induction n as [|n IH]; intros s Hn.
  - destruct s; [|simpl in Hn; lia]. apply (Lines_cons 0 [] []); [intros []|constructor].
  - pose proof (find_spec s) as HF. destruct (find_nl s) as [k|].
    + destruct HF as [a [r [-> [<- H]]]]. rewrite <- app_assoc, count_nl_app, (count_nl_none a H).
      cbn [app]. change (0 + count_nl (10%N :: r ++ [10%N]))%nat with (S (count_nl (r ++ [10%N]))).
      apply Lines_cons; auto. apply IH. rewrite app_length in Hn. simpl in Hn. lia.
    + rewrite count_nl_app, count_nl_none by auto. apply (Lines_cons 0 s []); auto. constructor.
Qed.
Lemma syntax_error_spec pos text : (pos <= length text)%nat ->
  let e := mk_syntax_error pos text in
  exists start, LineAt text (err_lineno e) (err_line e) start /\
    (start <= pos)%nat /\ err_col e = Z.of_nat (pos - start) /\ (pos - start <= length (err_line e))%nat.
Proof.
  intros Hp e. unfold e, mk_syntax_error; clear e. cbn [err_lineno err_line err_col].
  assert (HL : length (firstn pos text) = pos) by (apply firstn_length_le; auto).
  pose proof (rfind_spec (firstn pos text)) as HR. pose proof (find_spec (skipn pos text)) as HF.
  pose proof (firstn_skipn pos text) as HT.
  assert (G : exists pre r, firstn pos text = pre ++ r /\ NoNewline r /\ Lines (count_nl (firstn pos text)) pre /\
     match rfind_nl (firstn pos text) with None => O | Some k => S k end = length pre).
  { destruct (rfind_nl (firstn pos text)) as [k|].
    - destruct HR as [pre [r [E [<- H]]]]. exists (pre ++ [10%N]), r. rewrite E, <- app_assoc. split; [reflexivity|].
      split; auto. split.
      + replace (pre ++ 10%N :: r) with ((pre ++ [10%N]) ++ r) by (rewrite <- app_assoc; reflexivity).
        rewrite (count_nl_app (pre ++ [10%N]) r), (count_nl_none r H), Nat.add_0_r. eapply Lines_count_aux. reflexivity.
      + rewrite app_length. simpl. lia.
    - exists [], (firstn pos text). rewrite count_nl_none by auto. repeat split; auto. constructor. }
  destruct G as [pre [r [E1 [Hr [HLn HS]]]]]. rewrite HS.
  assert (G2 : exists a post, skipn pos text = a ++ post /\ NoNewline a /\ (post = [] \/ exists r, post = 10%N :: r) /\
     match find_nl (skipn pos text) with None => length text | Some k => (pos + k)%nat end = (pos + length a)%nat).
  { destruct (find_nl (skipn pos text)) as [k|].
    - destruct HF as [a [r2 [E [<- H]]]]. exists a, (10%N :: r2). repeat split; auto. right; eauto.
    - exists (skipn pos text), []. rewrite app_nil_r. repeat split; auto. rewrite skipn_length. lia. }
  destruct G2 as [a [post [E2 [Ha [Hpost HEnd]]]]]. rewrite HEnd.
  assert (ET : text = pre ++ (r ++ a) ++ post) by (rewrite <- HT, E1, E2; rewrite <- !app_assoc; reflexivity).
  assert (HLp : pos = (length pre + length r)%nat) by (rewrite <- HL, E1, app_length; reflexivity).
  assert (ELine : firstn (pos + length a - length pre) (skipn (length pre) text) = r ++ a).
  { rewrite ET at 1. rewrite skipn_app, skipn_all, Nat.sub_diag. cbn [app skipn].
    replace (pos + length a - length pre)%nat with (length (r ++ a)) by (rewrite app_length; lia).
    rewrite firstn_app, firstn_all, Nat.sub_diag. cbn [firstn]. apply app_nil_r. }
  rewrite ELine. exists (length pre). split; [|repeat split].
  - exists pre, post. repeat split; auto.
    + replace (S (count_nl (firstn pos text)) - 1)%nat with (count_nl (firstn pos text)) by lia. auto.
    + lia.
    + intro Hi. apply in_app_or in Hi. destruct Hi; [apply Hr|apply Ha]; auto.
  - lia.
  - lia.
  - rewrite app_length. lia.
Qed.

(** ** C24 *)
Lemma filter_two {A} (f : A -> bool) l : (1 < length (filter f l))%nat <->
  exists i j x y, i <> j /\ nth_error l i = Some x /\ nth_error l j = Some y /\ f x = true /\ f y = true.
Proof.
  split.
  - induction l as [|a l IH]; simpl; [lia|]. destruct (f a) eqn:E.
    + simpl. intro H. destruct (filter f l) as [|b r] eqn:EF; [simpl in H; lia|].
      assert (Hb : In b (filter f l)) by (rewrite EF; left; auto). apply filter_In in Hb. destruct Hb as [Hb Fb].
      apply In_nth_error in Hb. destruct Hb as [k Hk]. exists O, (S k), a, b. repeat split; auto.
    + intro H. destruct (IH H) as [i [j [x [y [A1 [B [C [D1 D2]]]]]]]]. exists (S i), (S j), x, y. repeat split; auto.
  - assert (G : forall l i j x y, (i < j)%nat -> nth_error l i = Some x -> nth_error l j = Some y -> f x = true -> f y = true ->
      (1 < length (filter f l))%nat).
    { clear l. induction l as [|a l IH]; intros i j x y Hij Hi Hj Fx Fy; [destruct i; discriminate|].
      destruct j as [|j]; [lia|]. simpl in Hj. destruct i as [|i]; simpl in Hi.
      - injection Hi as ->. simpl. rewrite Fx. simpl. assert (Hin : In y (filter f l)) by (apply filter_In; split; auto; eapply nth_error_In; eauto).
        destruct (filter f l); [destruct Hin|simpl; lia].
      - simpl. assert (1 < length (filter f l))%nat by (eapply (IH i j); eauto; lia). destruct (f a); simpl; lia. }
    intros [i [j [x [y [Hn [Hi [Hj [Fx Fy]]]]]]]]. destruct (Nat.lt_total i j) as [L|[L|L]]; [|contradiction|]; eauto.
Qed.
Lemma is_Ellipsis_spec t : is_Ellipsis t = true <-> IsEllipsis t.
Proof. destruct t; simpl; split; try discriminate; try (intros [? E]; discriminate); [eexists; reflexivity|auto]. Qed.
Lemma validate_ds_spec n ps : (validate_ds (DataShapeT n ps) = Ok tt /\ GoodArray ps) \/
  (validate_ds (DataShapeT n ps) = Raise TypeErr /\ ~ GoodArray ps).
Proof.
  cbn [validate_ds]. destruct (Nat.ltb_spec 1 (length (filter is_Ellipsis ps))) as [H|H].
  - right. split; auto. intros [HO _]. apply filter_two in H. destruct H as [i [j [x [y [A [B [C [D1 D2]]]]]]]].
    apply is_Ellipsis_spec in D1, D2. destruct D1 as [o ->], D2 as [o' ->]. apply A. eapply HO; eauto.
  - destruct (is_Ellipsis (last ps NullT)) eqn:E.
    + right. split; auto. intros [_ HN]. apply HN. apply is_Ellipsis_spec; auto.
    + left. split; auto. split.
      * intros i j a b Hi Hj. destruct (Nat.eq_dec i j); auto. exfalso.
        assert (1 < length (filter is_Ellipsis ps))%nat; [|lia]. apply filter_two. exists i, j, (EllipsisT a), (EllipsisT b). auto.
      * rewrite <- is_Ellipsis_spec, E. discriminate.
Qed.
Lemma validate_mapM l : (forall x, In x l -> validate x = Ok tt \/ validate x = Raise TypeErr) ->
  (exists us, mapM validate l = Ok us /\ forall x, In x l -> validate x = Ok tt) \/
  (mapM validate l = Raise TypeErr /\ exists x, In x l /\ validate x = Raise TypeErr).
Proof.
  induction l as [|x l IH]; intro H; [left; exists []; split; auto; contradiction|]. rewrite mapM_cons.
  destruct (H x (or_introl eq_refl)) as [E|E]; rewrite E; cbn [bind].
  - destruct IH as [[us [-> HA]]|[-> [y [A B]]]]; [intros; apply H; right; auto| |]; cbn [bind].
    + left. eexists. split; [reflexivity|]. intros y [<-|Hy]; auto.
    + right. split; auto. exists y. split; [right|]; auto.
  - right. split; auto. exists x. split; [left|]; auto.
Qed.
Lemma validate_spec t : (validate t = Ok tt /\ AllGood t) \/ (validate t = Raise TypeErr /\ ~ AllGood t).
Proof.
  induction t as [t IH] using children_ind.
  destruct t; try (left; split; [reflexivity|]; intros n ps H; inversion H; fail).
  - (* DataShape *) cbn [validate]. cbn [children] in IH.
    destruct (validate_mapM parameters) as [[us [-> HA]]|[-> [x [A B]]]].
    { intros x Hx. destruct (IH x Hx) as [[? _]|[? _]]; auto. }
    + cbn [bind]. destruct (validate_ds_spec name parameters) as [[-> HG]|[-> HG]].
      * left. split; auto. intros n ps H. inversion H as [|? ? c Hc Ho| | | | |]; subst; auto.
        destruct (IH c Hc) as [[_ Hg]|[Hv _]]; [eapply Hg; eauto|]. rewrite HA in Hv; auto. discriminate.
      * right. split; auto. intro HAll. apply HG. apply (HAll name). constructor.
    + cbn [bind]. right. split; auto. intro HAll. destruct (IH x A) as [[Hv _]|[_ HN]]; [congruence|].
      apply HN. intros n ps Ho. apply (HAll n ps). eapply R_array; eauto.
  - (* Option *) cbn [validate]. cbn [children] in IH. destruct (IH t (or_introl eq_refl)) as [[-> H]|[-> H]].
    + left. split; auto. intros n ps Ho. inversion Ho; subst. eapply H; eauto.
    + right. split; auto. intro HA. apply H. intros n ps Ho. apply (HA n ps). apply R_option; auto.
  - (* Function *) cbn [validate]. cbn [children] in IH.
    destruct (validate_mapM parameters) as [[us [-> HA]]|[-> [x [A B]]]].
    { intros x Hx. destruct (IH x Hx) as [[? _]|[? _]]; auto. }
    + cbn [bind validate_ds]. left. split; auto. intros n ps H. inversion H as [| |? c Hc Ho| | | |]; subst.
      destruct (IH c Hc) as [[_ Hg]|[Hv _]]; [eapply Hg; eauto|]. rewrite HA in Hv; auto. discriminate.
    + cbn [bind]. right. split; auto. intro HAll. destruct (IH x A) as [[Hv _]|[_ HN]]; [congruence|].
      apply HN. intros n ps Ho. apply (HAll n ps). eapply R_function; eauto.
  - (* Map *) cbn [validate]. cbn [children] in IH. destruct (IH t1 (or_introl eq_refl)) as [[-> H1]|[-> H1]]; cbn [bind].
    + destruct (IH t2 (or_intror (or_introl eq_refl))) as [[-> H2]|[-> H2]].
      * left. split; auto. intros n ps Ho. inversion Ho; subst; [eapply H1|eapply H2]; eauto.
      * right. split; auto. intro HA. apply H2. intros n ps Ho. apply (HA n ps). apply R_value; auto.
    + right. split; auto. intro HA. apply H1. intros n ps Ho. apply (HA n ps). apply R_key; auto.
  - (* Categorical *) cbn [validate]. cbn [children] in IH. destruct (IH t (or_introl eq_refl)) as [[-> H]|[-> H]].
    + left. split; auto. intros n ps Ho. inversion Ho; subst. eapply H; eauto.
    + right. split; auto. intro HA. apply H. intros n ps Ho. apply (HA n ps). apply R_cat; auto.
Qed.

(** ** C39 *)
Lemma reg_step_keep {V} (k : str) (v : V) o r r' :
  match o with OpRegister _ _ _ | OpCType _ _ _ => True | OpClass _ k' _ ab => ab = false -> k' <> k
   | OpDataShape _ nm _ => nm <> Some k \/ k = [] end ->
  reg_lookup V k r = Ok v -> reg_step V o r = Ok r' -> reg_lookup V k r' = Ok v.
Proof.
  unfold reg_lookup. intros HO HL. destruct o as [k' v'|k' v'|k' v' ab|nm v']; cbn [reg_step]; intro H.
  3: { injection H as <-. destruct ab; auto. unfold reg_set; cbn [assoc].
    destruct (str_eqb k k') eqn:EK; auto. apply str_eqb_eq in EK. subst. exfalso. apply HO; auto. }
  3: { injection H as <-. destruct nm as [[|c n]|]; auto. unfold reg_set; cbn [assoc].
    destruct (str_eqb k (c :: n)) eqn:EK; auto. apply str_eqb_eq in EK. subst. exfalso.  destruct HO as [H|H]; [apply H; auto|discriminate].  }
  all: unfold reg_register in H; destruct (assoc k' r) eqn:E; [discriminate|]; injection H as <-;
    unfold reg_set; cbn [assoc]; destruct (str_eqb k k') eqn:EK; [|exact HL];
    apply str_eqb_eq in EK; subst; rewrite E in HL; discriminate.
Qed.
