(** Pickling, records, record literals, cat_dshapes. *)
From Coq Require Import Sorting.Permutation.
From Verif Require Import Base Types Construct Parser Ops Spec_WF Spec_Eq Spec_Ops Proof_WF Proof_Eq Proof_Canon
  Proof_Parser Proof_Ops.
Local Open Scope Z_scope.

(** ** C17 *)
Lemma sequence_map {A B} (f : A -> option B) (g : A -> B) l : (forall x, In x l -> f x = Some (g x)) ->
  sequence (map f l) = Some (map g l).
Proof.
  induction l as [|x l IH]; intro H; simpl; auto. rewrite H by (left; auto).
  rewrite IH by (intros; apply H; right; auto). reflexivity.
Qed.
Lemma u_v_lit l : u_lit (v_lit l) = Some l.
Proof. destruct l; reflexivity. Qed.
Lemma u_v_ostr o : u_ostr (v_ostr o) = Some o.
Proof. destruct o; reflexivity. Qed.
Lemma u_v_oint o : u_oint (v_oint o) = Some o.
Proof. destruct o; reflexivity. Qed.
Lemma seq_pickle l : Forall (fun t => unpickle (pickle t) = Some (forget_names t)) l ->
  sequence (map unpickle (map pickle l)) = Some (map forget_names l).
Proof. intro H. rewrite map_map. apply sequence_map. rewrite Forall_forall in H. auto. Qed.

Lemma unpickle_pickle t : unpickle (pickle t) = Some (forget_names t).
Proof.
  induction t using ty_ind'; cbn [pickle class_ix unpickle forget_names];
    rewrite ?u_v_ostr, ?u_v_oint; try reflexivity.
  - rewrite IHt; reflexivity.
  - destruct o; reflexivity.
  - rewrite seq_pickle by auto; reflexivity.
  - rewrite IHt; reflexivity.
  - rewrite seq_pickle by auto; reflexivity.
  - rewrite IHt1, IHt2; reflexivity.
  - rewrite map_map. rewrite (sequence_map _ (fun f => (fst f, forget_names (snd f)))); [reflexivity|].
    rewrite Forall_forall in H. intros f Hf. rewrite (H f Hf). reflexivity.
  - rewrite map_map, (sequence_map _ (fun l => l)) by (intros; apply u_v_lit). rewrite map_id, IHt. reflexivity.
  - rewrite seq_pickle by auto; reflexivity.
  - rewrite seq_pickle by auto; reflexivity.
Qed.

Lemma shape_forget t : shape (forget_names t) = map forget_names (shape t).
Proof.
  induction t using ty_ind'; cbn [forget_names shape]; try reflexivity; [|exact IHt].
  clear. induction ps as [|x [|y r] IH]; [reflexivity|reflexivity|].
  cbn [map removelast] in *. rewrite IH. reflexivity.
Qed.
Lemma last_map {A B} (f : A -> B) l d : last (map f l) (f d) = f (last l d).
Proof. induction l as [|x [|y r] IH]; simpl in *; auto. Qed.
Lemma measure_forget t : measure (forget_names t) = forget_names (measure t).
Proof.
  destruct t; try reflexivity. cbn [forget_names measure].
  destruct (list_rev_case parameters) as [->|[l [x ->]]]; [reflexivity|].
  rewrite map_app. cbn [map]. rewrite !last_last. reflexivity.
Qed.
Lemma list_eqb_map_r {A} (f : A -> A -> bool) (g : A -> A) l :
  (forall x, In x l -> f x (g x) = true) -> list_eqb f l (map g l) = true.
Proof. induction l as [|x l IH]; intro H; simpl; auto. rewrite H, IH; simpl; auto; intros; apply H; right; auto. Qed.
Lemma list_eqb_map_l {A} (f : A -> A -> bool) (g : A -> A) l :
  (forall x, In x l -> f (g x) x = true) -> list_eqb f (map g l) l = true.
Proof. induction l as [|x l IH]; intro H; simpl; auto. rewrite H, IH; simpl; auto; intros; apply H; right; auto. Qed.
Lemma ostr_eqb_refl o : ostr_eqb o o = true.
Proof. apply ostr_eqb_eq; auto. Qed.
Lemma oZ_eqb_refl o : oZ_eqb o o = true.
Proof. apply oZ_eqb_eq; auto. Qed.

Lemma info_forget f t : (forall x, In x (comps t) -> f x (forget_names x) = true) -> info_eqb f t (forget_names t) = true.
Proof.
  intro H; destruct t; cbn [forget_names info_eqb]; cbn [comps] in H;
    rewrite ?str_eqb_refl, ?Z.eqb_refl, ?eqb_reflx, ?ostr_eqb_refl, ?oZ_eqb_refl; auto;
    repeat rewrite H by (simpl; auto); auto;
    try (apply list_eqb_map_r; auto; fail).
  - apply (list_eqb_map_r (field_eqb f) (fun f => (fst f, forget_names (snd f)))). intros [n x] Hx.
    unfold field_eqb; simpl. rewrite str_eqb_refl. apply H. apply in_map_iff. exists (n, x); auto.
  - rewrite (list_eqb_refl lit_eqb) by (intros; apply lit_eqb_refl). auto.
  - rewrite list_eqb_map_r; auto.
Qed.
Lemma info_forget_l f t : (forall x, In x (comps t) -> f (forget_names x) x = true) -> info_eqb f (forget_names t) t = true.
Proof.
  intro H; destruct t; cbn [forget_names info_eqb]; cbn [comps] in H;
    rewrite ?str_eqb_refl, ?Z.eqb_refl, ?eqb_reflx, ?ostr_eqb_refl, ?oZ_eqb_refl; auto;
    repeat rewrite H by (simpl; auto); auto;
    try (apply list_eqb_map_l; auto; fail).
  - apply (list_eqb_map_l (field_eqb f) (fun f => (fst f, forget_names (snd f)))). intros [n x] Hx.
    unfold field_eqb; simpl. rewrite str_eqb_refl. apply H. apply in_map_iff. exists (n, x); auto.
  - rewrite (list_eqb_refl lit_eqb) by (intros; apply lit_eqb_refl). auto.
  - rewrite list_eqb_map_l; auto.
Qed.
Lemma py_eq_forget t : py_eq t (forget_names t) = true /\ py_eq (forget_names t) t = true.
Proof.
  induction t as [t IH] using tsize_strong. rewrite !py_eq_unfold.
  assert (Hs : list_eqb py_eq (shape t) (shape (forget_names t)) = true /\ list_eqb py_eq (shape (forget_names t)) (shape t) = true).
  { rewrite shape_forget. split; [apply list_eqb_map_r|apply list_eqb_map_l]; intros x Hx; apply IH, shape_size; auto. }
  assert (Hm : info_eqb py_eq (measure t) (measure (forget_names t)) = true /\ info_eqb py_eq (measure (forget_names t)) (measure t) = true).
  { rewrite measure_forget. split; [apply info_forget|apply info_forget_l]; intros x Hx; apply IH;
    apply comps_size in Hx; pose proof (measure_size t); lia. }
  destruct Hs as [Hs1 Hs2], Hm as [Hm1 Hm2].
  destruct t; try (cbn [forget_names] in *; rewrite ?Hs1, ?Hm1, ?Hs2, ?Hm2; auto; fail).
  - cbn [forget_names]. rewrite ostr_eqb_refl. cbn [andb].
    split; [apply list_eqb_map_r|apply list_eqb_map_l]; intros x Hx; apply IH; apply comps_size; exact Hx.
Qed.

Section Hash.
  Variable hstr : str -> Z.
  Variable hint : Z -> Z.
  Variable hnone : Z.
  Variable hcls : nat -> Z.
  Variable htuple : list Z -> Z.
  Variable hxor : Z -> Z -> Z.
  Notation h := (py_hash hstr hint hnone hcls htuple hxor).
  Lemma map_forget_hash l : (forall x, In x l -> h (forget_names x) = h x) -> map h (map forget_names l) = map h l.
  Proof. intro H. rewrite map_map. apply map_ext_in; auto. Qed.
  Lemma hash_forget t : h (forget_names t) = h t.
  Proof.
    induction t as [t IH] using tsize_strong. rewrite !py_hash_unfold, shape_forget, measure_forget.
    assert (Hs : map h (map forget_names (shape t)) = map h (shape t)).
    { apply map_forget_hash. intros x Hx. apply IH, shape_size; auto. }
    assert (Hm : info_hash hstr hint hnone hcls htuple hxor h (forget_names (measure t)) =
                 info_hash hstr hint hnone hcls htuple hxor h (measure t)).
    { assert (HC : forall x, In x (comps (measure t)) -> h (forget_names x) = h x).
      { intros x Hx. apply IH. apply comps_size in Hx. pose proof (measure_size t). lia. }
      unfold info_hash. f_equal. f_equal; [destruct (measure t); reflexivity|]. f_equal. f_equal.
      destruct (measure t); cbn [forget_names params_hash]; cbn [comps] in HC; auto;
        repeat rewrite HC by (simpl; auto); auto; try (rewrite ?map_forget_hash by auto; auto; fail).
      f_equal. f_equal. rewrite map_map. apply map_ext_in. intros [n x] Hx. simpl.
      rewrite HC; auto. apply in_map_iff. exists (n, x); auto. }
    destruct t; cbn [forget_names] in *; try (rewrite Hs, Hm; reflexivity).
    rewrite map_forget_hash; auto. intros x Hx. apply IH. apply comps_size. exact Hx.
  Qed.
End Hash.

(** no DataShape in [forget_names t] has a name *)
Lemma children_forget t : children (forget_names t) = map forget_names (children t).
Proof. destruct t; cbn [forget_names children]; try reflexivity. rewrite !map_map. reflexivity. Qed.
Lemma forget_unnamed t : forall n l, Occurs (DataShapeT n l) (forget_names t) -> n = None.
Proof.
  induction t as [t IH] using children_ind. intros n l H. inversion H as [E|c u Hc Ho]; subst.
  - destruct t; try discriminate. injection E as <- _. reflexivity.
  - rewrite children_forget in Hc. apply in_map_iff in Hc as [x [<- Hx]]. eapply IH; eauto.
Qed.
Lemma forget_id t : (forall n l, Occurs (DataShapeT n l) t -> n = None) -> forget_names t = t.
Proof.
  assert (ML : forall l, Forall (fun t => (forall n l, Occurs (DataShapeT n l) t -> n = None) -> forget_names t = t) l ->
     (forall x, In x l -> forall n l, Occurs (DataShapeT n l) x -> n = None) -> map forget_names l = l).
  { intros l Hl Hx. rewrite <- (map_id l) at 2. apply map_ext_in. rewrite Forall_forall in Hl. eauto. }
  induction t using ty_ind'; intro Ho; cbn [forget_names]; try reflexivity.
  - f_equal. apply IHt. intros n l X. apply (Ho n l). eapply Occurs_in; [left; reflexivity|auto].
  - pose proof (Ho n ps (Occurs_here _)) as ->. f_equal. apply ML; auto. intros x Hx m l X. apply (Ho m l). eapply Occurs_in; eauto.
  - f_equal. apply IHt. intros n l X. apply (Ho n l). eapply Occurs_in; [left; reflexivity|auto].
  - f_equal. apply ML; auto. intros x Hx m l X. apply (Ho m l). eapply Occurs_in; eauto.
  - f_equal; [apply IHt1|apply IHt2]; intros n l X; apply (Ho n l); (eapply Occurs_in; [|eauto]); simpl; auto.
  - f_equal. rewrite <- (map_id fs) at 2. apply map_ext_in. rewrite Forall_forall in H. intros [n x] Hx. simpl. f_equal.
    apply (H (n, x) Hx). intros m l X. apply (Ho m l). eapply Occurs_in; [|eauto]. cbn [children]. apply in_map_iff.
    exists (n, x); auto.
  - f_equal. apply IHt. intros n l X. apply (Ho n l). eapply Occurs_in; [left; reflexivity|auto].
  - f_equal. apply ML; auto. intros x Hx m l X. apply (Ho m l). eapply Occurs_in; eauto.
  - f_equal. apply ML; auto. intros x Hx m l X. apply (Ho m l). eapply Occurs_in; eauto.
Qed.

(** ** C18, C44 *)
Lemma mk_record_iff dsh fields t : mk_record dsh fields = Ok t <->
  exists types, Forall2 (fun f u => launder dsh (snd f) = Ok u) fields types /\ NoDup (map fst fields) /\
    t = RecordT (combine (map fst fields) types).
Proof.
  unfold mk_record. split.
  - destruct (mapM _ fields) as [types|e] eqn:E; cbn [bind]; [|discriminate].
    destruct (nodup_str _) eqn:N; [|discriminate]. intro H; injection H as <-.
    exists types. split; [apply mapM_Ok_Forall2; auto|]. split; auto. apply nodup_str_NoDup; auto.
  - intros [types [H1 [H2 ->]]]. apply mapM_Ok_Forall2 in H1. rewrite H1. cbn [bind].
    apply nodup_str_NoDup in H2. rewrite H2. reflexivity.
Qed.
Lemma combine_fst {A B} (l : list A) (m : list B) : length l = length m -> map fst (combine l m) = l.
Proof. revert m; induction l as [|x l IH]; intros [|y m] H; simpl in *; try discriminate; auto. f_equal; auto. Qed.
Lemma combine_snd {A B} (l : list A) (m : list B) : length l = length m -> map snd (combine l m) = m.
Proof. revert m; induction l as [|x l IH]; intros [|y m] H; simpl in *; try discriminate; auto. f_equal; auto. Qed.

Lemma rec_get_spec fs n : NoDup (map fst fs) ->
  (forall t, rec_get fs n = Ok t <-> In (n, t) fs) /\ (rec_get fs n = Raise KeyErr <-> ~ In n (map fst fs)).
Proof.
  intro N. unfold rec_get. rewrite assoc_rev_NoDup by auto. split.
  - intro t. split.
    + destruct (assoc n fs) eqn:E; [|discriminate]. intro H; injection H as <-. apply assoc_In; auto.
    + intro H. rewrite (assoc_NoDup n fs t); auto.
  - rewrite <- assoc_None. destruct (assoc n fs); split; congruence.
Qed.

(** ** C23 *)
Lemma cat_loop_ok inner acc l n : cat_loop inner acc l = Ok n ->
  exists ns, Forall2 (fun ds k => exists h, seq_head ds = Ok h /\ h = FixedT k /\ seq_eqb (seq_tail ds) inner = true) l ns /\
    n = acc + fold_right Z.add 0 ns.
Proof.
  revert acc; induction l as [|d l IH]; intro acc; cbn [cat_loop].
  - intro H; injection H as <-. exists []. split; [constructor|simpl; lia].
  - destruct (seq_head d) as [h|] eqn:E1; cbn [bind]; [|discriminate].
    destruct (py_index h) as [k|] eqn:E2; cbn [bind]; [|discriminate].
    destruct (seq_eqb _ _) eqn:E3; [|discriminate]. intro H. destruct (IH _ H) as [ns [H1 H2]].
    exists (k :: ns). split; [constructor; auto|simpl; lia]. exists h. split; auto. split; auto.
    destruct h; try discriminate. injection E2 as ->. reflexivity.
Qed.
Lemma cat_loop_conv inner acc l ns :
  Forall2 (fun ds k => exists h, seq_head ds = Ok h /\ h = FixedT k /\ seq_eqb (seq_tail ds) inner = true) l ns ->
  cat_loop inner acc l = Ok (acc + fold_right Z.add 0 ns).
Proof.
  intro H; revert acc; induction H as [|d k l ns [h [H1 [-> H3]]] H IH]; intro acc; cbn [cat_loop].
  - simpl. f_equal; lia.
  - rewrite H1. cbn [bind py_index]. rewrite H3, IH. f_equal. simpl. lia.
Qed.

Lemma Leads_inv ds n rest : WF ds -> Leads ds n rest -> 0 <= n /\ okps (FixedT n :: rest) /\ rest <> [] /\ okps rest.
Proof.
  intros W [nm ->]. assert (H : okps (FixedT n :: rest)) by (apply (W _ (Occurs_here _))).
  assert (HR : rest <> []).
  { intros ->. destruct H as [ds [m [E [H _]]]]. destruct ds as [|x [|y r]]; try discriminate. injection E as <-.
    apply H. constructor. }
  split; [|split; [auto|split; auto; eapply okps_tail; eauto]].
  apply (W (FixedT n)). eapply Occurs_in; [left; reflexivity|constructor].
Qed.
Lemma head_leads ds n rest0 : WF ds -> seq_head ds = Ok (FixedT n) -> seq_eqb (seq_tail ds) (true, rest0) = true ->
  exists rest, Leads ds n rest /\ EqTails rest rest0.
Proof.
  intros W H1 H2. destruct ds; cbn [seq_tail seq_head] in *; try discriminate.
  destruct parameters as [|x ps]; [discriminate|]. injection H1 as ->. cbn [seq_eqb fst snd tl] in H2.
  exists ps. split; [eexists; reflexivity|]. unfold seq_eqb in H2. simpl in H2. apply list_eqb_Forall2 in H2. exact H2.
Qed.

Lemma EqTails_refl l : EqTails l l.
Proof. apply list_eqb_Forall2. apply list_eqb_refl. intros; apply py_eq_refl. Qed.

Lemma sum_nonneg (l : list ty) ns (R : ty -> Z -> Prop) : Forall2 R l ns -> (forall d n, R d n -> In d l -> 0 <= n) -> 0 <= fold_right Z.add 0 ns.
Proof.
  induction 1 as [|d n l ns H HF IH]; intro P; simpl; [lia|].
  assert (0 <= n) by (apply (P d n); auto; left; auto).
  assert (0 <= fold_right Z.add 0 ns) by (apply IH; intros; eapply P; eauto; right; auto). lia.
Qed.

Lemma cat_iff d1 d2 l r : (forall x, In x (d1 :: d2 :: l) -> WF x) ->
  (cat_dshapes (d1 :: d2 :: l) = Ok r <-> Cat (d1 :: d2 :: l) r).
Proof.
  intro W. cbn [cat_dshapes]. set (l2 := d2 :: l) in *. split.
  - destruct (seq_head d1) as [h|] eqn:E1; cbn [bind]; [|discriminate].
    destruct (py_index h) as [n|] eqn:E2; cbn [bind]; [|discriminate].
    destruct h; try discriminate. cbn [py_index] in E2. injection E2 as ->.
    destruct (cat_loop (seq_tail d1) n l2) as [tot|] eqn:E3; cbn [bind]; [|discriminate].
    unfold mk_fixed. destruct (Z.ltb_spec tot 0); [discriminate|]. cbn [bind].
    destruct (cat_loop_ok _ _ _ _ E3) as [ns [H1 ->]].
    (* d1 must be a DataShape *)
    (* (for a bare Fixed the result would end in a dimension) *)
    destruct d1; cbn [seq_head seq_tail snd] in *; try discriminate.
    + destruct parameters as [|x ps]; [discriminate|]. injection E1 as ->. cbn [tl] in *.
      assert (HL : Leads (DataShapeT name (FixedT n :: ps)) n ps) by (eexists; reflexivity).
      destruct (Leads_inv _ _ _ (W _ (or_introl eq_refl)) HL) as [Hn [HO [HR HOr]]].
      rewrite mk_ds_ok.
      2:{ apply okps_dim; auto. constructor. }
      intro HH; injection HH as <-. exists ps, (n :: ns). split; [exists (DataShapeT name (FixedT n :: ps)), l2; split; eauto|]. split.
      * constructor; [exists ps; split; auto; apply EqTails_refl|].
        assert (W2 : forall x, In x l2 -> WF x) by (intros; apply W; right; auto). clear -H1 W2.
        induction H1 as [|d k l3 ns [h [A [-> B]]] H IH]; constructor.
        -- apply head_leads; auto. apply W2; left; auto.
        -- apply IH. intros; apply W2; right; auto.
      * simpl. reflexivity.
  - intros [rest [ns [[d [l' [E [n Hn]]]] [HF ->]]]]. injection E as <- <-.
    inversion HF as [|? k ? ns' [rest' [HL HE]] HF']; subst. destruct Hn as [nm Hd]. 
    assert (k = n /\ rest' = rest) as [-> ->] by (destruct HL as [nm' HL]; rewrite Hd in HL; injection HL; auto).
    destruct (Leads_inv d1 n rest) as [Hn [HO [HR HOr]]]; [apply W; left; auto|exists nm; auto|].
    rewrite Hd. cbn [seq_head seq_tail bind py_index tl snd].
    rewrite (cat_loop_conv (true, rest) n l2 ns').
    2:{ clear -HF'. induction HF' as [|d k l3 ns [r' [[m ->] HE]] H IH]; constructor; auto.
        exists (FixedT k). split; [reflexivity|]. split; auto. unfold seq_eqb. simpl. apply list_eqb_Forall2. exact HE. }
    cbn [bind].
    assert (0 <= fold_right Z.add 0 ns').
    { apply (sum_nonneg l2 ns' _ HF'). intros d k [r' [HL' _]] Hin. eapply Leads_inv; [|exact HL']. apply W; right; auto. }
    unfold mk_fixed. destruct (Z.ltb_spec (n + fold_right Z.add 0 ns') 0); [lia|]. cbn [bind fold_right].
    apply mk_ds_ok. apply okps_dim; auto. constructor.
Qed.

Lemma EqTails_trans a b c : EqTails a b -> EqTails b c -> EqTails a c.
Proof.
  unfold EqTails. intro H; revert c; induction H as [|x y a b Hxy H IH]; intros c H2; inversion H2; subst; constructor.
  - eapply py_eq_trans; eauto.
  - apply IH; auto.
Qed.
Lemma EqTails_sym a b : (forall x, In x a -> WF x /\ NoTypeSet x) -> (forall x, In x b -> WF x /\ NoTypeSet x) ->
  EqTails a b -> EqTails b a.
Proof.
  unfold EqTails. intros Ha Hb H. induction H as [|x y a b Hxy H IH]; constructor; auto.
  - destruct (Ha x (or_introl eq_refl)), (Hb y (or_introl eq_refl)). rewrite py_eq_sym; auto; try apply wf_WF; try apply no_typeset_spec; auto.
  - apply IH; intros; [apply Ha|apply Hb]; right; auto.
Qed.
Lemma Occurs_WF u t : WF t -> Occurs u t -> WF u.
Proof.
  intros W H v Hv. apply W. clear W. induction H as [|c t Hc H IH]; auto. eapply Occurs_in; eauto.
Qed.
Lemma Occurs_NoTypeSet u t : NoTypeSet t -> Occurs u t -> NoTypeSet u.
Proof.
  intros W H l n Hv. apply (W l n). clear W. induction H as [|c t Hc H IH]; auto. eapply Occurs_in; eauto.
Qed.
Lemma Leads_tail_ok ds n rest : WF ds /\ NoTypeSet ds -> Leads ds n rest -> forall x, In x rest -> WF x /\ NoTypeSet x.
Proof.
  intros [W T] [nm ->] x Hx. assert (Occurs x (DataShapeT nm (FixedT n :: rest))) by (eapply Occurs_in; [right; exact Hx|constructor]).
  split; [eapply Occurs_WF|eapply Occurs_NoTypeSet]; eauto.
Qed.

Lemma Cat_perm l l' r : (forall x, In x l -> WF x /\ NoTypeSet x /\ FlatMeasure x) -> Permutation l l' -> Cat l r ->
  exists r', Cat l' r' /\ py_eq r r' = true.
Proof.
  intros HW HP [rest [ns [[d [l1 [E [n Hn]]]] [HF ->]]]].
  destruct (Permutation_Forall2 HP HF) as [ns' [HPn HF']].
  destruct l' as [|d' l1']. { apply Permutation_sym in HP. apply Permutation_nil in HP. subst. discriminate. }
  inversion HF' as [|? n' ? ns1 [rest' [HL HE]] HF1]; subst.
  assert (Hd' : In d' (d :: l1)) by (eapply Permutation_in; [apply Permutation_sym; exact HP|left; auto]).
  assert (HER : EqTails rest rest').
  { apply EqTails_sym; auto; [exact (Leads_tail_ok _ _ _ (conj (proj1 (HW d' Hd')) (proj1 (proj2 (HW d' Hd')))) HL)|].
    destruct (HW d (or_introl eq_refl)) as [A1 [A2 _]]. exact (Leads_tail_ok _ _ _ (conj A1 A2) Hn). }
  exists (DataShapeT None (FixedT (fold_right Z.add 0 (n' :: ns1)) :: rest')). split.
  - exists rest', (n' :: ns1). split; [exists d', l1'; split; eauto|]. split; auto.
    eapply Forall2_impl; [|exact HF']. intros x k [r' [H1 H2]]. exists r'. split; auto. eapply EqTails_trans; eauto.
  - assert (ES : fold_right Z.add 0 ns = fold_right Z.add 0 (n' :: ns1)).
    { clear -HPn. induction HPn; simpl in *; lia. }
    rewrite ES. rewrite py_eq_unfold. cbn [shape measure].
    destruct (Leads_inv d n rest) as [_ [_ [HR _]]]; [apply HW; left; auto|auto|].
    destruct (list_rev_case rest) as [->|[a [x ->]]]; [contradiction|].
    destruct (list_rev_case rest') as [->|[b [y ->]]]; [inversion HER; destruct a; discriminate|].
    apply Forall2_app_inv_l in HER as [b1 [b2 [H1 [H2 E2]]]].
    inversion H2 as [|? ? ? ? H3 H4]; subst. inversion H4; subst. apply app_inj_tail in E2 as [<- <-].
    rewrite !app_comm_cons, !removelast_last, !last_last. cbn [app list_eqb].
    rewrite (py_eq_refl (FixedT _)). cbn [andb].
    apply andb_true_iff. split; [apply list_eqb_Forall2; exact H1|].
    assert (FX : FlatMeasure d) by (apply HW; left; auto). assert (FY : FlatMeasure d') by (apply HW; auto).
    destruct Hn as [nm ->], HL as [nm' ->]. unfold FlatMeasure in FX, FY. cbn [measure] in FX, FY.
    rewrite !app_comm_cons, !last_last in FX, FY. destruct FX as [FX1 FX2], FY as [FY1 FY2].
    destruct (py_eq_split _ _ H3) as [[v [-> ->]]|[[ts [m [us [-> [-> K]]]]]|[P [_ Q]]]].
    + apply info_eqb_refl. intros z [].
    + destruct (HW _ (or_introl eq_refl)) as [_ [T _]]. exfalso. apply (T ts m). eapply Occurs_in; [|constructor].
      right. apply in_or_app. right. left. auto.
    + destruct x; try (exfalso; apply FX2; eexists _, _; reflexivity); destruct y; try (exfalso; apply FY2; eexists _, _; reflexivity); exact Q.
Qed.

Lemma Leads_fun ds n rest n' rest' : Leads ds n rest -> Leads ds n' rest' -> n = n' /\ rest = rest'.
Proof. intros [a ->] [b E]. injection E; auto. Qed.
Definition CatAll (l : list ty) (ns : list Z) (rest : list ty) : Prop :=
  Forall2 (fun ds n => exists rest', Leads ds n rest' /\ EqTails rest' rest) l ns.
Lemma CatAll_app l m ns rest : CatAll (l ++ m) ns rest <->
  exists n1 n2, ns = n1 ++ n2 /\ CatAll l n1 rest /\ CatAll m n2 rest.
Proof.
  unfold CatAll. split.
  - intro H. apply Forall2_app_inv_l in H as [n1 [n2 [H1 [H2 ->]]]]. eauto 10.
  - intros [n1 [n2 [-> [H1 H2]]]]. apply Forall2_app; auto.
Qed.
Lemma CatAll_trans l ns a b : CatAll l ns a -> EqTails a b -> CatAll l ns b.
Proof.
  intros H E. unfold CatAll. eapply Forall2_impl; [|exact H]. intros d n [r [H1 H2]]. exists r. split; auto.
  eapply EqTails_trans; eauto.
Qed.
Lemma CatAll_self l ns rest : CatAll l ns rest -> forall d n r, In d l -> Leads d n r -> EqTails r rest.
Proof.
  induction 1 as [|d n l ns [r [H1 H2]] H IH]; intros d' n' r' Hin HL; [contradiction|].
  destruct Hin as [<-|Hin]; [|eapply IH; eauto]. destruct (Leads_fun _ _ _ _ _ H1 HL) as [_ <-]. auto.
Qed.
(** tails equal to [rest1] and [rest1] equal to [rest]: conversely through the first element *)
Lemma CatAll_fun l n1 n2 a b : CatAll l n1 a -> CatAll l n2 b -> n1 = n2.
Proof.
  intro H; revert n2; induction H as [|d n l ns [r [H1 H2]] H IH]; intros n2 K; inversion K as [|? m ? ms [r' [K1 K2]] K3]; subst; auto.
  destruct (Leads_fun _ _ _ _ _ H1 K1) as [-> _]. f_equal. apply IH; auto.
Qed.
Lemma sum_app a b : fold_right Z.add 0 (a ++ b) = fold_right Z.add 0 a + fold_right Z.add 0 b.
Proof. induction a; simpl; lia. Qed.

Lemma Cat_assoc l0 l1 l2 t r : Cat l1 t ->
  (Cat (l0 ++ t :: l2) r <-> Cat (l0 ++ l1 ++ l2) r).
Proof.
  intros [rest1 [n1 [[d1 [l1' [-> [k1 Hk1]]]] [HF1 ->]]]]. fold (CatAll (d1 :: l1') n1 rest1) in HF1.
  set (t := DataShapeT None (FixedT (fold_right Z.add 0 n1) :: rest1)).
  assert (Ht : Leads t (fold_right Z.add 0 n1) rest1) by (eexists; reflexivity).
  split.
  - intros [rest [ns [[d [l' [E [n Hn]]]] [HF ->]]]]. fold (CatAll (l0 ++ t :: l2) ns rest) in HF.
    apply CatAll_app in HF as [a [b [-> [H0 H]]]]. inversion H as [|? s ? n2 [r' [HL HE]] H2]; subst.
    destruct (Leads_fun _ _ _ _ _ Ht HL) as [<- <-].
    exists rest, (a ++ n1 ++ n2). split; [|split].
    + destruct l0 as [|d0 l0]; cbn [app] in *.
      * injection E as <- _. destruct (Leads_fun _ _ _ _ _ Ht Hn) as [_ <-]. eauto 10.
      * injection E as <- _. eauto 10.
    + fold (CatAll (l0 ++ (d1 :: l1') ++ l2) (a ++ n1 ++ n2) rest). apply CatAll_app. exists a, (n1 ++ n2). split; auto. split; auto.
      apply CatAll_app. exists n1, n2. split; auto. split; auto. eapply CatAll_trans; eauto.
    + f_equal. f_equal. f_equal. rewrite !sum_app. simpl. lia.
  - intros [rest [ns [[d [l' [E [n Hn]]]] [HF ->]]]]. fold (CatAll (l0 ++ (d1 :: l1') ++ l2) ns rest) in HF.
    apply CatAll_app in HF as [a [b [-> [H0 H]]]]. apply CatAll_app in H as [n1' [n2 [-> [H1 H2]]]].
    pose proof (CatAll_fun _ _ _ _ _ HF1 H1) as <-.
    exists rest, (a ++ fold_right Z.add 0 n1 :: n2). split; [|split].
    + destruct l0 as [|d0 l0]; cbn [app] in *.
      * injection E as <- _. destruct (Leads_fun _ _ _ _ _ Hk1 Hn) as [_ <-]. eauto 10.
      * injection E as <- _. eauto 10.
    + fold (CatAll (l0 ++ t :: l2) (a ++ fold_right Z.add 0 n1 :: n2) rest). apply CatAll_app.
      exists a, (fold_right Z.add 0 n1 :: n2). split; auto. split; auto. constructor; auto. exists rest1. split; auto.
      apply (CatAll_self _ _ _ H1 d1 k1); [left; reflexivity|auto].
    + f_equal. f_equal. f_equal. rewrite !sum_app. simpl. lia.
Qed.

(** ** C45 *)
Lemma Spelling_assoc e c : Spelling e c <-> assoc e string_encodings = Some c.
Proof.
  split.
  - intros [? H|? H|? H|? H]; repeat (destruct H as [<-|H]; [vm_compute; reflexivity|]); destruct H.
  - intro H. apply assoc_In in H. unfold string_encodings in H.
    repeat (destruct H as [H|H]; [injection H as <- <-;
       first [apply Sp_A; simpl; tauto|apply Sp_U8; simpl; tauto|apply Sp_U16; simpl; tauto|apply Sp_U32; simpl; tauto]|]).
    destruct H.
Qed.
Lemma Spelling_canonical e c : Spelling e c -> CanonicalEncoding c.
Proof. intros []; unfold CanonicalEncoding; simpl; auto. Qed.
Lemma canonical_Spelling c : CanonicalEncoding c -> Spelling c c.
Proof.
  unfold CanonicalEncoding. intros [<-|[<-|[<-|[<-|[]]]]]; [apply Sp_A|apply Sp_U8|apply Sp_U16|apply Sp_U32]; simpl; auto.
Qed.
Lemma mk_string_spec f e : (exists c, Spelling e c /\ mk_string f (Some e) = Ok (StringT f c)) \/
  (e = [] /\ mk_string f (Some e) = Ok (StringT f $"U8")) \/
  (e <> [] /\ (forall c, ~ Spelling e c) /\ mk_string f (Some e) = Raise ValueErr).
Proof.
  destruct e as [|x r]; [right; left; split; reflexivity|].
  destruct (assoc (x :: r) string_encodings) as [c|] eqn:E.
  - left. exists c. split; [apply Spelling_assoc; auto|]. unfold mk_string. rewrite E. reflexivity.
  - right; right. split; [discriminate|]. split.
    + intros c H. apply Spelling_assoc in H. congruence.
    + unfold mk_string. rewrite E. reflexivity.
Qed.

(** ** C44 *)
Lemma unpack_ok i f : unpack_slice i = Ok f <-> WellFormedItem i f.
Proof.
  unfold WellFormedItem. split.
  - destruct i as [a b c|]; [|discriminate]. destruct a as [[| n | |]|]; try discriminate.
    destruct b as [b|], c as [c|]; try discriminate. simpl. intro H; injection H as <-. reflexivity.
  - intros ->. destruct f; reflexivity.
Qed.
Lemma unpack_err i : (exists f, unpack_slice i = Ok f) \/ unpack_slice i = Raise TypeErr.
Proof.
  destruct i as [a b c|]; simpl; auto. destruct a as [[| n | |]|]; auto. destruct b, c; eauto.
Qed.
Lemma record_literal_ok dsh items fields : Forall2 WellFormedItem items fields ->
  record_literal dsh items = mk_record dsh fields.
Proof.
  intro H. unfold record_literal.
  assert (E : mapM unpack_slice items = Ok fields).
  { apply mapM_Ok_Forall2. eapply Forall2_impl; [|exact H]. intros; apply unpack_ok; auto. }
  rewrite E. reflexivity.
Qed.
Lemma record_literal_bad dsh items i : In i items -> (forall f, ~ WellFormedItem i f) ->
  record_literal dsh items = Raise TypeErr.
Proof.
  intros Hi Hb. unfold record_literal.
  assert (E : mapM unpack_slice items = Raise TypeErr).
  { revert Hi; induction items as [|j items IH]; [contradiction|]. intro Hi. rewrite mapM_cons.
    destruct (unpack_err j) as [[f Hf]|Hf]; rewrite Hf; cbn [bind]; auto.
    destruct Hi as [->|Hi]; [exfalso; apply (Hb f); apply unpack_ok; auto|].
    rewrite (IH Hi). reflexivity. }
  rewrite E. reflexivity.
Qed.

(** ** C19, C20: statements in terms of shape and measure *)
Lemma components_shape d x : IsDataShape x \/ shape x = [] -> WF x ->
  shape (DataShapeT None (d :: components x)) = d :: shape x /\ measure (DataShapeT None (d :: components x)) = measure x.
Proof.
  intros H W. destruct x; try (destruct H as [[? [? E]]|H]; [discriminate|cbn [components shape measure removelast last] in *; rewrite ?H; auto; fail]).
  cbn [components shape measure]. pose proof (okps_nonnil _ (W _ (Occurs_here _))).
  destruct parameters as [|p ps]; [contradiction|]. split; [reflexivity|]. 
  change (last (d :: p :: ps) (DataShapeT None (d :: p :: ps))) with (last (p :: ps) (DataShapeT None (d :: p :: ps))).
  apply last_indep. discriminate.
Qed.
Lemma mul_dim dsh d x : WF x -> ~ DimensionClass x -> ~ MeasureClass d -> ~ IsDataShape d -> IsDataShape x \/ shape x = [] ->
  exists r, py_mul dsh (PTy d) (PTy x) = Ok r /\ shape r = d :: shape x /\ measure r = measure x /\ IsDataShape r.
Proof.
  intros W H1 H2 H3 H4. exists (DataShapeT None (d :: components x)).
  assert (HL : ~ Lone d) by (intros [n [y ->]]; apply H3; eexists _, _; reflexivity).
  split; [|pose proof (components_shape d x H4 W) as [A B]; repeat split; auto; eexists _, _; reflexivity].
  destruct x; try (apply mul_ok; auto; [apply (W _ (Occurs_here _))|intros [? [? E]]; discriminate]).
  apply mul_ds; auto. apply (W _ (Occurs_here _)).
Qed.
Lemma mul_int_dim dsh z x : 0 <= z -> WF x -> ~ DimensionClass x -> IsDataShape x \/ shape x = [] ->
  exists r, py_mul dsh (PInt z) (PTy x) = Ok r /\ shape r = FixedT z :: shape x /\ measure r = measure x /\ IsDataShape r.
Proof.
  intros Hz W H1 H4. exists (DataShapeT None (FixedT z :: components x)).
  split; [|pose proof (components_shape (FixedT z) x H4 W) as [A B]; repeat split; auto; eexists _, _; reflexivity].
  apply mul_int_ok; auto. apply (W _ (Occurs_here _)).
Qed.
Lemma WF_DataShape n ps : okps ps -> (forall x, In x ps -> WF x) -> WF (DataShapeT n ps).
Proof.
  intros H HW u Hu. inversion Hu as [|c t Hc Ho]; subst; auto. apply (HW c Hc); auto.
Qed.
Lemma mul_all_ok dsh dims n ps : WF (DataShapeT n ps) ->
  (forall d, In d dims -> WF d /\ ~ MeasureClass d /\ ~ IsDataShape d) ->
  exists m, mul_all dsh dims (DataShapeT n ps) = Ok (DataShapeT m (dims ++ ps)) /\ WF (DataShapeT m (dims ++ ps)).
Proof.
  intros W. induction dims as [|d dims IH]; intro HD; [exists n; split; auto|].
  destruct IH as [m [E WE]]; [intros; apply HD; right; auto|].
  destruct (HD d (or_introl eq_refl)) as [D1 [D2 D3]]. exists None. cbn [mul_all]. rewrite E. cbn [bind].
  assert (HL : ~ Lone d) by (intros [k [y ->]]; apply D3; eexists _, _; reflexivity).
  assert (HO : okps (dims ++ ps)) by (apply (WE _ (Occurs_here _))).
  rewrite mul_ds by auto. split; [reflexivity|]. apply WF_DataShape; [apply okps_cons; auto|].
  intros x [<-|Hx]; auto. eapply Occurs_WF; [exact WE|]. eapply Occurs_in; [exact Hx|constructor].
Qed.

Lemma cat_iff2 l r : (2 <= length l)%nat -> (forall x, In x l -> WF x) -> (cat_dshapes l = Ok r <-> Cat l r).
Proof. intros H W. destruct l as [|a [|b l]]; try (simpl in H; lia). apply cat_iff; auto. Qed.
Lemma Cat_WF l r : (forall x, In x l -> WF x) -> Cat l r -> WF r.
Proof.
  intros W [rest [ns [[d [l' [-> [n Hn]]]] [HF ->]]]].
  assert (Wd : WF d) by (apply W; left; auto).
  destruct (Leads_inv d n rest Wd Hn) as [_ [HO [Hne HR]]].
  assert (0 <= fold_right Z.add 0 ns).
  { eapply sum_nonneg; [exact HF|]. intros e m [rest' [HL _]] He. apply (Leads_inv e m rest' (W e He) HL). }
  apply WF_DataShape.
  - apply okps_cons; auto; [intro X; inversion X|intros [? [? E]]; discriminate].
  - destruct Hn as [nm ->]. intros x [<-|Hx].
    + intros u Hu. inversion Hu as [|c t Hc Ho]; subst; [exact H|destruct Hc].
    + eapply Occurs_WF; [exact Wd|]. eapply Occurs_in; [right; exact Hx|constructor].
Qed.
Lemma Forall2_len {A B} (R : A -> B -> Prop) l m : Forall2 R l m -> length l = length m.
Proof. induction 1; simpl; auto. Qed.
Lemma skipn_add {A} i j (l : list A) : skipn j (skipn i l) = skipn (i + j) l.
Proof. revert l; induction i as [|i IH]; intro l; [reflexivity|]. destruct l; simpl; auto. destruct j; reflexivity. Qed.
