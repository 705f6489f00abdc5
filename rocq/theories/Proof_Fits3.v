(** Proofs for C61, part 3: sequences and mappings. *)
From Verif Require Import Base Types Lexer Printer Construct Parser Ops Preds Numpy Graph Discovery
  Spec_WF Spec_Preds Spec_Eq Spec_Ops Spec_Print Spec_Discovery Spec_Found Spec_Fits
  Proof_WF Proof_Eq Proof_Canon Proof_Ops Proof_Preds Proof_Preds3 Proof_Coerce Proof_Discovery Proof_Discovery2 Proof_Discovery4
  Proof_Discovery5 Proof_Discovery6 Proof_Discovery7 Proof_Discovery8 Proof_Fits Proof_Fits2.
From Coq Require Import Permutation.
Local Open Scope Z_scope.

Section Leaf.
Variable leaf : dval -> ty -> Prop.
Hypothesis leaf_none : leaf DNone NullT.
Notation Fits := (Fits leaf).

Lemma Fits_unwrap t v : Fits (DataShapeT None [t]) v -> Fits t v.
Proof.
  intro H. remember (DataShapeT None [t]) as u eqn:E. destruct H; try discriminate.
  - subst u. eapply Fits_leaf; eauto. eapply W_trans; [eassumption|apply W_unwrap].
  - injection E as _ ->. congruence.
  - injection E as _ ->. congruence.
  - injection E as ->. auto.
Qed.
Lemma Fits_leaf_inv t v : IsLeaf v -> Fits t v -> exists t0, leaf v t0 /\ Widens t0 t.
Proof.
  intros HL H. induction H as [v t u L1 L2 W| | | | |t v H IH|t v H IH]; try contradiction; eauto.
  - destruct (IH HL) as [t0 [I1 I2]]. exists t0. split; auto. eapply W_trans; [exact I2|apply W_some].
  - destruct (IH HL) as [t0 [I1 I2]]. exists t0. split; auto. eapply W_trans; [exact I2|apply W_wrap].
Qed.
Lemma components_DM t : DM t -> components t = [t].
Proof. intro H. destruct (DM_facts _ _ t H) as [E _]. destruct t; try reflexivity; discriminate. Qed.
Lemma Fits_components t v : D t -> (Fits (DataShapeT None (components t)) v <-> Fits t v).
Proof.
  intros [H|[ps [-> _]]]; [|reflexivity]. rewrite components_DM by auto.
  split; [apply Fits_unwrap|apply Fits_one].
Qed.
Lemma Fits_launder t v : D t -> Fits t v -> Fits (launder_ty t) v.
Proof.
  intros H F. change launder_ty with unpack. destruct (D_unpack_cases t H) as [[->|E] _]; auto. rewrite E in F. now apply Fits_unwrap.
Qed.
Lemma Fits_tovar d q v : DDim d -> q <> [] -> Fits (DataShapeT None (d :: q)) v -> Fits (DataShapeT None (VarT :: q)) v.
Proof.
  intros Hd Hq H. remember (DataShapeT None (d :: q)) as u eqn:E. destruct H; try discriminate.
  - subst u. eapply Fits_leaf; eauto. eapply W_trans; [eassumption|]. destruct Hd; [now apply W_var|apply W_refl].
  - injection E as <- ->. now apply Fits_var.
  - injection E as <- ->. now apply Fits_var.
  - injection E as <- <-. congruence.
Qed.

(** the types of sequences: arrays and tuples *)
Definition SeqType (t : ty) : Prop := (exists d e r, t = DataShapeT None (d :: e :: r)) \/ exists ds, t = TupleT ds.
(** the type is that of the value itself, no fields dropped *)
Inductive Full : ty -> dval -> Prop :=
| Full_leaf v t0 t : IsLeaf v -> leaf v t0 -> Widens t0 t -> Full t v
| Full_seq k l t : SeqType t -> Fits t (DSeq k l) -> Full t (DSeq k l)
| Full_map k d fs : NoDup (map fst fs) ->
    (forall n x, assoc n d = Some x -> Full (getf fs n) x) ->
    (forall n, assoc n d = None -> getf fs n = NullT) -> Full (RecordT fs) (DMap k d).
Lemma Full_null : Full NullT DNone.
Proof. eapply Full_leaf; [exact I|exact leaf_none|constructor]. Qed.
Lemma U_Fits t v : Full t v -> forall F, U t F -> Fits F v.
Proof.
  induction 1 as [v t0 t HL H0 HW|k l t HS HF|k d fs ND HK IH HM]; intros F HU.
  - eapply Fits_leaf; eauto. eapply W_trans; [exact HW|now apply U_Widens].
  - induction HU as [t|t F HU IH|t F K N C|F|t F HU IH|fs gs HU]; auto.
    + destruct HS as [(d & e & r & E)|[ds E]]; discriminate.
    + exfalso. unfold Known in K. cbn [In] in K. destruct HS as [(d & e & r & E)|[ds E]]; subst t; intuition discriminate.
    + exfalso. destruct HS as [(d & e & r & E)|[ds E]]; discriminate.
    + apply Fits_option; auto.
    + exfalso. destruct HS as [(d & e & r & E)|[ds E]]; discriminate.
  - assert (X : forall gs, (forall n g, In (n, g) gs -> U (getf fs n) g) -> Fits (RecordT gs) (DMap k d)).
    { intros gs HG. constructor. intros n t Hn. specialize (HG n t Hn). destruct (assoc n d) as [x|] eqn:E.
      - eapply IH; eauto.
      - rewrite (HM n E) in HG. eapply Fits_leaf; [exact I|exact leaf_none|]. now apply U_Widens. }
    remember (RecordT fs) as t eqn:Et. induction HU as [t|t F HU IHU|t F K N C|F|t F HU IHU|fs' gs HU]; subst; try discriminate.
    + apply X. intros n g Hg. rewrite (getf_In fs n g) by auto. constructor.
    + exfalso. unfold Known in K. cbn [In] in K. intuition discriminate.
    + apply Fits_option; auto.
    + injection Et as ->. apply X. auto.
Qed.
Lemma Full_Fits t v : Full t v -> Fits t v.
Proof. intro H. eapply U_Fits; eauto. constructor. Qed.
Lemma Full_launder t v : D t -> Full t v -> Full (launder_ty t) v.
Proof.
  intros H F. change launder_ty with unpack. destruct (D_unpack_cases t H) as [[->|E] _]; auto. rewrite E in F.
  remember (DataShapeT None [unpack t]) as u eqn:Eu. destruct F as [v t0 u HL H0 HW|k l u HS HF|]; try discriminate.
  - eapply Full_leaf; eauto. subst u. eapply W_trans; [exact HW|apply W_unwrap].
  - exfalso. destruct HS as [(d & e & r & E')|[ds E']]; subst; discriminate.
Qed.

(** ** unite_identical, unite_merge, Tuple *)
Lemma mul_D n t : D t -> 0 <= n -> mul_int n t = Ok (DataShapeT None (FixedT n :: components t)).
Proof. apply mul_int_D; auto. Qed.
Lemma comps_nonnil t : D t -> components t <> [].
Proof. intros H E. destruct (D_parts t H) as (dims & m & X & _). rewrite E in X. destruct dims; discriminate. Qed.
Lemma identical_inv l r : Forall D l -> unite_identical l = Ok (Some r) ->
  exists x, In x l /\ (forall t, In t l -> components t = components x) /\ r = DataShapeT None (FixedT (len l) :: components x).
Proof.
  intros HD H. unfold unite_identical in H. destruct (all_same l) eqn:E; [|discriminate].
  destruct l as [|x l]; [discriminate|]. pose proof (Forall_inv HD) as Hx.
  rewrite mul_D in H by (auto; unfold len; lia). injection H as <-. exists x. split; [left; auto|]. split; auto.
  intros t [<-|Ht]; auto. cbn [all_same] in E. rewrite forallb_forall in E. apply D_eq; auto. rewrite Forall_forall in HD. apply HD; right; auto.
Qed.
Lemma sub0 d q : DDim d -> DA q -> subshape (IxInt 0) (DataShapeT None (d :: q)) = Ok (DataShapeT None q).
Proof.
  intros Hd Hq. cbn [subshape]. unfold subshape_plain. cbn [ds_head].
  replace (is_dimension d) with true by (symmetry; apply is_dimension_Dim; apply DDim_Dim; auto).
  apply sub1; [eapply DA_okps; eauto|apply DDim_Dim; auto].
Qed.
Lemma D_dimhead t : D t -> is_DataShape t && is_dimension (ds_head t) = true -> exists d q, t = DataShapeT None (d :: q) /\ DDim d /\ DA q.
Proof.
  intros [H|[ps [-> H]]] E; apply andb_true_iff in E as [E1 E2].
  - destruct (DM_facts _ _ t H) as [X _]. congruence.
  - destruct (DA_split _ _ _ H) as [[m [-> Hm]]|[d [qs [-> [Hd Hq]]]]]; [|eauto].
    cbn [ds_head] in E2. destruct (DM_facts _ _ m Hm) as [_ [_ [_ X]]]. congruence.
Qed.
Lemma DDim_eq d e : DDim d -> DDim e -> py_eq d e = true -> d = e.
Proof.
  intros Hd He H. apply py_eq_canon in H as [c [C1 C2]].
  - eapply canon_DDim; eauto.
  - destruct Hd; intros u O; inversion O; subst; try contradiction; cbn; auto.
  - destruct Hd; intros l0 n0 O; inversion O; subst; contradiction.
  - destruct He; intros u O; inversion O; subst; try contradiction; cbn; auto.
  - destruct He; intros l0 n0 O; inversion O; subst; contradiction.
Qed.
Lemma DA_nonnil q : DA q -> q <> [].
Proof. intros [dims [m [-> _]]] E. destruct dims; discriminate. Qed.
Lemma merge_inv l r : Forall D l -> unite_merge l = Ok (Some r) ->
  exists q d, DDim d /\ DA q /\ r = DataShapeT None (FixedT (len l) :: d :: q) /\
    forall t, In t l -> exists e, DDim e /\ t = DataShapeT None (e :: q) /\ (d = VarT \/ e = d).
Proof.
  intros HD H. unfold unite_merge in H. destruct (forallb _ l) eqn:EF; [|discriminate].
  rewrite forallb_forall in EF. rewrite Forall_forall in HD.
  destruct (mapM (subshape (IxInt 0)) l) as [subs|] eqn:ES; [|discriminate]. cbn [bind] in H.
  apply mapM_Ok_Forall2 in ES.
  assert (FS : Forall2 (fun t s => exists d q, t = DataShapeT None (d :: q) /\ DDim d /\ DA q /\ s = DataShapeT None q) l subs).
  { eapply Forall2_In_impl; [|exact ES]. intros t s Ht _ E. cbv beta in E. destruct (D_dimhead t (HD t Ht) (EF t Ht)) as (d & q & -> & Hd & Hq).
    rewrite sub0 in E by auto. injection E as <-. eauto 10. }
  destruct (unite_identical subs) as [[b|]|] eqn:EI; try discriminate. cbn [bind] in H.
  assert (DS : Forall D subs).
  { clear -FS. induction FS as [|t s l m (d & q & _ & _ & Hq & ->) _ IH]; constructor; auto. right; eauto. }
  destruct (identical_inv subs b DS EI) as (x & Hx & HC & ->).
  assert (X : exists q, x = DataShapeT None q /\ DA q).
  { clear -FS Hx. induction FS as [|t s l m (d & q & _ & _ & Hq & ->) _ IH]; [destruct Hx|]. destruct Hx as [<-|Hx]; eauto. }
  destruct X as [q [-> Hq]]. cbn [components] in H, HC. rewrite sub0 in H by (auto; constructor; unfold len; lia).
  cbn [bind] in H.
  assert (IN : forall t, In t l -> exists e, DDim e /\ t = DataShapeT None (e :: q)).
  { clear -FS HC. induction FS as [|t s l m (d & q' & -> & Hd & _ & ->) _ IH]; intros u Hu; [destruct Hu|].
    destruct Hu as [<-|Hu].
    - specialize (HC _ (or_introl eq_refl)). cbn [components] in HC. subst q'. eauto.
    - apply IH; auto. intros s Hs. apply HC; right; auto. }
  assert (MD : forall d, DDim d -> mul_ty d (DataShapeT None q) = Ok (DataShapeT None (d :: q))).
  { intros d Hd. unfold mul_ty. apply mul_ds; [eapply DA_okps; eauto|apply Dim_notMeasure, DDim_Dim; auto|apply Dim_notLone, DDim_Dim; auto]. }
  destruct l as [|t0 l].
  { inversion FS; subst. destruct Hx. }
  destruct (IN t0 (or_introl eq_refl)) as (d0 & Hd0 & E0).
  assert (FIN : forall d, DDim d -> mul_int (len (t0 :: l)) (DataShapeT None (d :: q)) = Ok (DataShapeT None (FixedT (len (t0 :: l)) :: d :: q))).
  { intros d Hd. rewrite mul_D; [reflexivity| |unfold len; lia]. right. eexists. split; [reflexivity|]. apply DA_cons; auto. }
  destruct (all_same (map ds_head (t0 :: l))) eqn:EA.
  - cbn [map hd] in H. rewrite E0 in H at 1. cbn [ds_head] in H. rewrite MD in H by auto. cbn [bind] in H.
    rewrite FIN in H by auto. injection H as <-. exists q, d0. split; auto. split; auto. split; auto.
    intros t Ht. destruct (IN t Ht) as (e & He & ->). exists e. split; auto. split; auto. right.
    cbn [map all_same] in EA. rewrite forallb_forall in EA. destruct Ht as [Ht|Ht].
    + rewrite Ht in E0. injection E0 as ->. reflexivity.
    + rewrite E0 in EA. cbn [ds_head] in EA. apply DDim_eq; auto. apply (EA e). apply in_map_iff. exists (DataShapeT None (e :: q)). auto.
  - rewrite MD in H by constructor. cbn [bind] in H. rewrite FIN in H by constructor. injection H as <-.
    exists q, VarT. split; [constructor|]. split; auto. split; auto. intros t Ht. destruct (IN t Ht) as (e & He & ->). eauto 10.
Qed.

Lemma SeqType_NER t : SeqType t -> NER t.
Proof. intros [(d & e & r & ->)|[ds ->]]; constructor; intros fs E; discriminate. Qed.
Definition wrapc (t : ty) : ty := DataShapeT None (components t).
Lemma tuple_inv l : Forall D l -> tuple_of l = Ok (Some (TupleT (map wrapc l))).
Proof.
  intro H. unfold tuple_of, mk_tuple.
  assert (E : mapM (tuple_item no_dsh) (map PTy l) = Ok (map wrapc l)).
  { induction H as [|t l Ht _ IH]; auto. cbn [map]. rewrite mapM_cons. rewrite IH.
    replace (tuple_item no_dsh (PTy t)) with (Ok (wrapc t)); [reflexivity|]. symmetry. unfold wrapc.
    destruct Ht as [Hm|[ps [-> Hp]]]; [|reflexivity]. rewrite components_DM by auto.
    cbn [tuple_item]. destruct (DM_facts _ _ t Hm) as [-> _]. change [PTy t] with (map PTy [t]).
    apply mk_datashape_ok. eapply DA_okps, DA_single; eauto. }
  rewrite E. reflexivity.
Qed.
Lemma D_wrapc t : D t -> D (wrapc t).
Proof. intro H. right. eexists. split; [reflexivity|]. now apply DA_components. Qed.
Lemma Forall2_In_l {A B} (R : A -> B -> Prop) l m x : Forall2 R l m -> In x m -> exists y, In y l /\ R y x.
Proof. induction 1 as [|a b l m H _ IH]; intros []; [subst; exists a; split; auto; left; auto|]. destruct IH as [y [Y1 Y2]]; auto. exists y. split; auto. right; auto. Qed.
Lemma Forall2_nth {A B} (R : A -> B -> Prop) l m i x y : Forall2 R l m -> nth_error l i = Some x -> nth_error m i = Some y -> R x y.
Proof.
  intro H. revert i. induction H; intros [|i] H1 H2; cbn in *; try discriminate; [congruence|eauto].
Qed.
Lemma F2_len {A B} (R : A -> B -> Prop) l m : Forall2 R l m -> length l = length m.
Proof. induction 1; cbn; congruence. Qed.
Lemma len_length {A} (l : list A) : len l = Z.of_nat (length l). Proof. reflexivity. Qed.

Lemma identical_fits ts vs r k : Forall D ts -> Forall2 Fits ts vs -> unite_identical ts = Ok (Some r) ->
  D r /\ SeqType r /\ Fits r (DSeq k vs) /\ exists q, DA q /\ r = DataShapeT None (FixedT (len ts) :: q) /\ forall v, In v vs -> Fits (DataShapeT None q) v.
Proof.
  intros HD HF H. destruct (identical_inv ts r HD H) as (x & Hx & HC & ->).
  rewrite Forall_forall in HD. pose proof (DA_components _ _ x (HD x Hx)) as HA.
  assert (FV : forall v, In v vs -> Fits (DataShapeT None (components x)) v).
  { intros v Hv. destruct (Forall2_In_l _ _ _ v HF Hv) as [t [Ht HT]]. rewrite <- (HC t Ht). apply Fits_components; auto. }
  split; [|split; [|split; [|exists (components x); auto]]].
  - right. eexists. split; [reflexivity|]. apply DA_cons; auto. constructor. unfold len; lia.
  - left. pose proof (DA_nonnil _ HA). destruct (components x); [congruence|]. eauto.
  - rewrite len_length, (F2_len _ _ _ HF). apply Fits_fixed; [now apply DA_nonnil|auto].
Qed.
Lemma unite_final_fits ts vs r k : Forall D ts -> Forall2 Fits ts vs -> unite_final ts = Ok r ->
  D r /\ SeqType r /\ Fits r (DSeq k vs).
Proof.
  intros HD HF H. unfold unite_final in H. cbn [do_one] in H.
  destruct (unite_identical ts) as [[r0|]|] eqn:EI; [|cbn [bind] in H|discriminate].
  { injection H as <-. destruct (identical_fits ts vs r0 k HD HF EI) as (X1 & X2 & X3 & _). auto. }
  destruct (unite_merge ts) as [[r0|]|] eqn:EM; [|cbn [bind] in H|discriminate].
  { injection H as <-. destruct (merge_inv ts r0 HD EM) as (q & d & Hd & Hq & -> & HT).
    split; [|split].
    - right. eexists. split; [reflexivity|]. apply DA_cons; [constructor; unfold len; lia|]. apply DA_cons; auto.
    - left. eauto.
    - rewrite len_length, (F2_len _ _ _ HF). apply Fits_fixed; [discriminate|]. intros v Hv.
      destruct (Forall2_In_l _ _ _ v HF Hv) as [t [Ht HFt]]. destruct (HT t Ht) as (e & He & -> & [EE|EE]); subst; auto.
      eapply Fits_tovar; eauto. now apply DA_nonnil. }
  rewrite tuple_inv in H by auto. injection H as <-. split; [|split].
  - left. apply DM_tuple. intros t Ht. apply in_map_iff in Ht as [u [<- Hu]]. rewrite Forall_forall in HD.
    destruct (DA_components _ _ u (HD u Hu)) as (dims & m & E & Y1 & Y2). exists dims, m. unfold wrapc. rewrite E. auto.
  - right. eauto.
  - apply Fits_tuple; [rewrite map_length; eapply F2_len; eauto|]. intros i t x Ht Hx. rewrite nth_error_map in Ht.
    destruct (nth_error ts i) as [u|] eqn:Eu; [|discriminate]. injection Ht as <-. unfold wrapc. apply Fits_components.
    + rewrite Forall_forall in HD. apply HD. eapply nth_error_In; eauto.
    + eapply Forall2_nth; eauto.
Qed.

Section Sched.
Variable sc : sched.
Lemma column_fits col ts vs r : mapM (fun r => r) col = Ok ts -> Forall D ts -> Forall NER ts -> Forall2 Full ts vs -> column_type sc col = Ok r ->
  D r /\ forall v, In v vs -> Fits r v.
Proof.
  intros HC HD HN HF H. unfold column_type in H. rewrite HC in H. cbn [bind do_one] in H.
  assert (HF' : Forall2 Fits ts vs) by (eapply Forall2_In_impl; [|exact HF]; intros; now apply Full_Fits).
  destruct (unite_identical ts) as [[r0|]|] eqn:EI; [|cbn [bind] in H|discriminate].
  { cbn [bind] in H. destruct (identical_fits ts vs r0 KList HD HF' EI) as (_ & _ & _ & q & Hq & -> & X).
    rewrite sub0 in H by (auto; constructor; unfold len; lia). injection H as <-. split; auto. right; eauto. }
  destruct (unite_base sc ts) as [u|] eqn:EB; [|discriminate]. cbn [bind] in H.
  unfold unite_base in EB. destruct (unite_U sc _ ts u HD HN EB) as (F & F1 & F2 & -> & F4).
  rewrite sub0_eq in H by (auto; unfold len; lia). injection H as <-. split.
  - right. eexists. split; [reflexivity|]. now apply DA_single.
  - intros v Hv. destruct (Forall2_In_l _ _ _ v HF Hv) as [t [Ht HFt]]. apply Fits_one. eapply U_Fits; eauto.
Qed.
End Sched.
End Leaf.
