From Verif Require Import Base Types Spec_WF Spec_Eq Proof_Eq Proof_WF.

Lemma comps_children t : comps t = children t.
Proof. destruct t; reflexivity. Qed.

Lemma canon_total t : exists c, Canon t c.
Proof.
  induction t as [t IH] using tsize_strong.
  assert (L : forall l, (forall x, In x l -> (tsize x < tsize t)%nat) -> exists cs, Forall2 Canon l cs).
  { induction l as [|x l IHl]; intro H; [eexists; constructor|].
    destruct (IH x (H x (or_introl eq_refl))) as [c Hc]. destruct IHl as [cs Hcs]; [intros; apply H; right; auto|].
    exists (c :: cs). constructor; auto. }
  destruct (L (shape t)) as [ds Hds]; [intros x Hx; apply shape_size; auto|].
  destruct (L (children (measure t))) as [ks Hks].
  { intros x Hx. rewrite <- comps_children in Hx. apply comps_size in Hx. pose proof (measure_size t). lia. }
  eexists. constructor; eauto.
Qed.

Lemma canon_fun t : forall c c', Canon t c -> Canon t c' -> c = c'.
Proof.
  induction t as [t IH] using tsize_strong.
  assert (L : forall l, (forall x, In x l -> (tsize x < tsize t)%nat) -> forall cs cs', Forall2 Canon l cs -> Forall2 Canon l cs' -> cs = cs').
  { intros l Hl cs cs' H1. revert cs'. induction H1 as [|x c l cs Hx H1 IHl]; intros cs' H2; inversion H2; subst; auto.
    f_equal; [|apply IHl; auto; intros; apply Hl; right; auto]. apply (IH x); auto. apply Hl; left; auto. }
  intros c c' H1 H2. inversion H1 as [? d1 k1 A1 B1]; inversion H2 as [? d2 k2 A2 B2]; subst. f_equal.
  - eapply L; eauto. intros x Hx; apply shape_size; auto.
  - eapply L; eauto. intros x Hx. rewrite <- comps_children in Hx. apply comps_size in Hx. pose proof (measure_size t). lia.
Qed.

Lemma lit_eqb_value a b : lit_eqb a b = true <-> lit_value a = lit_value b.
Proof.
  destruct a, b; unfold lit_eqb; cbn; rewrite ?Z.eqb_eq, ?str_eqb_eq; split; intro H;
    try discriminate; try (inversion H; auto; fail); try congruence.
Qed.
Lemma list_eqb_Forall2 {A} (f : A -> A -> bool) l m : list_eqb f l m = true <-> Forall2 (fun x y => f x y = true) l m.
Proof.
  revert m; induction l as [|x l IH]; intros [|y m]; simpl; split; intro H; auto; try discriminate; try (inversion H; fail).
  - apply andb_true_iff in H as [H1 H2]. constructor; auto. apply IH; auto.
  - inversion H; subst. apply andb_true_iff. split; auto. apply IH; auto.
Qed.
Lemma lits_value l m : list_eqb lit_eqb l m = true <-> map lit_value l = map lit_value m.
Proof.
  revert m; induction l as [|x l IH]; intros [|y m]; simpl; split; intro H; auto; try discriminate.
  - apply andb_true_iff in H as [H1 H2]. f_equal; [apply lit_eqb_value|apply IH]; auto.
  - inversion H. apply andb_true_iff. split; [apply lit_eqb_value|apply IH]; auto.
Qed.
Lemma fields_eqb (f : ty -> ty -> bool) l m : list_eqb (field_eqb f) l m = true <->
  map fst l = map fst m /\ Forall2 (fun x y => f x y = true) (map snd l) (map snd m).
Proof.
  revert m; induction l as [|[n x] l IH]; intros [|[n' y] m]; simpl; split; intro H; auto; try discriminate;
    try (destruct H as [H1 H2]; discriminate).
  - apply andb_true_iff in H as [H1 H2]. unfold field_eqb in H1. simpl in H1. apply andb_true_iff in H1 as [H1 H3].
    apply str_eqb_eq in H1. apply IH in H2 as [H2 H4]. split; [congruence|constructor; auto].
  - destruct H as [H1 H2]. inversion H1; inversion H2; subst. unfold field_eqb; simpl. rewrite str_eqb_refl. simpl.
    apply andb_true_iff. split; auto. apply IH; auto.
Qed.

(** same class, plain data and parts *)
Lemma info_label f a b : info_eqb f a b = true <->
  label_of a = label_of b /\ Forall2 (fun x y => f x y = true) (children a) (children b).
Proof.
  assert (N : Forall2 (fun x y => f x y = true) [] []) by constructor.
  assert (One : forall x y, Forall2 (fun x y => f x y = true) [x] [y] <-> f x y = true).
  { intros x y. split; [intro H; inversion H; auto|intro; constructor; auto]. }
  destruct a, b; cbn [info_eqb label_of children];
  try (split; [discriminate|intros [H _]; discriminate]);
  rewrite ?andb_true_iff, ?str_eqb_eq, ?Z.eqb_eq, ?ostr_eqb_eq, ?oZ_eqb_eq, ?lits_value, ?fields_eqb, ?list_eqb_Forall2, ?One, ?eqb_true_iff.
  all: try (split; [intros; split; [try reflexivity|]; intuition congruence|intros [H1 H2]; inversion H1; intuition congruence]).
  all: try (split; [intro H; intuition congruence|intros [H1 H2]; inversion H1; intuition congruence]).
  - split; [intros [H1 H2]; split; [reflexivity|repeat constructor; auto]|].
    intros [_ H]. inversion H as [|? ? ? ? H1 H2]; inversion H2; subst; auto.
Qed.

Lemma Forall2_ex {A B} (R : A -> B -> Prop) l m cs ds (f : A -> A -> bool) :
  Forall2 R l cs -> Forall2 R m ds ->
  (forall x y c d, In x l -> In y m -> R x c -> R y d -> (f x y = true <-> c = d)) ->
  (Forall2 (fun x y => f x y = true) l m <-> cs = ds).
Proof.
  intro H1. revert m ds. induction H1 as [|x c l cs Hx H1 IH]; intros m ds H2 HR.
  - inversion H2; subst; split; intro K; auto; inversion K.
  - inversion H2 as [|y d m' ds' Hy H2']; subst; split; intro K; try (inversion K; fail).
    + inversion K; subst. f_equal.
      * apply (HR x y); simpl; auto.
      * apply (IH m' ds'); auto. intros; apply HR; simpl; auto.
    + inversion K; subst. constructor.
      * apply (HR x y d d); simpl; auto.
      * apply (IH m' ds'); auto. intros; apply HR; simpl; auto.
Qed.

Lemma py_eq_canon_ok a : forall b c d, eqok a = true -> eqok b = true -> Canon a c -> Canon b d ->
  (py_eq a b = true <-> c = d).
Proof.
  induction a as [a IH] using tsize_strong. intros b c d Ha Hb Ca Cb.
  rewrite py_eq_eqok by auto. rewrite info_label, list_eqb_Forall2.
  inversion Ca as [? d1 k1 A1 B1]; inversion Cb as [? d2 k2 A2 B2]; subst.
  rewrite (Forall2_ex _ _ _ _ _ py_eq A1 A2).
  2:{ intros x y c d Hx Hy. apply IH; [now apply shape_size|exact (eqok_shape _ _ Ha Hx)|exact (eqok_shape _ _ Hb Hy)]. }
  rewrite (Forall2_ex _ _ _ _ _ py_eq B1 B2).
  2:{ intros x y c d Hx Hy. rewrite <- comps_children in Hx, Hy. apply IH.
      - apply comps_size in Hx. pose proof (measure_size a). lia.
      - eapply eqok_comps; [|exact Hx]. now apply eqok_measure.
      - eapply eqok_comps; [|exact Hy]. now apply eqok_measure. }
  split; [intros [-> [-> ->]]; reflexivity|intro H; inversion H; auto].
Qed.

Lemma py_eq_canon a b : WF a -> NoTypeSet a -> WF b -> NoTypeSet b ->
  (py_eq a b = true <-> exists c, Canon a c /\ Canon b c).
Proof.
  intros Wa Ta Wb Tb. apply wf_WF in Wa. apply wf_WF in Wb. apply no_typeset_spec in Ta. apply no_typeset_spec in Tb.
  pose proof (wf_eqok _ Wa Ta) as Ea. pose proof (wf_eqok _ Wb Tb) as Eb. split.
  - intro H. destruct (canon_total a) as [c Hc]. destruct (canon_total b) as [d Hd]. exists c. split; auto.
    apply (py_eq_canon_ok a b c d) in H; auto. subst; auto.
  - intros [c [H1 H2]]. apply (py_eq_canon_ok a b c c); auto.
Qed.

Lemma lone_measure n x : shape x = [] -> ~ DimensionClass x -> is_TypeSet x = false ->
  (forall m l, x <> DataShapeT m l) -> py_eq (DataShapeT n [x]) x = true /\ py_eq x (DataShapeT n [x]) = true.
Proof.
  intros Hs Hd Ht Hn.
  assert (Hm : measure x = x) by (destruct x; try reflexivity; exfalso; eapply Hn; reflexivity).
  assert (Hi : info_eqb py_eq x x = true).
  { apply info_eqb_refl. intros; apply py_eq_refl. }
  split; rewrite py_eq_unfold.
  - cbn [shape removelast measure last]. rewrite Hs, Hm. simpl. exact Hi.
  - destruct x; try (cbn [shape removelast measure last list_eqb andb] in *; rewrite ?Hs; simpl list_eqb; exact Hi);
      try discriminate; try (exfalso; apply Hd; constructor; fail); try (exfalso; eapply Hn; reflexivity).
Qed.
Lemma Forall2_split {A} (P : A -> A -> Prop) (Q : A -> A -> Prop) l m :
  Forall2 (fun x y => P x y /\ Q x y) l m <-> Forall2 P l m /\ Forall2 Q l m.
Proof.
  split.
  - induction 1 as [|x y l m [H1 H2] H [I1 I2]]; split; constructor; auto.
  - intros [H1 H2]. induction H1 as [|x y l m H H1 IH]; inversion H2; constructor; auto.
Qed.
Lemma Forall2_impl {A B} (P Q : A -> B -> Prop) l m :
  (forall x y, P x y -> Q x y) -> Forall2 P l m -> Forall2 Q l m.
Proof. intro H. induction 1; constructor; auto. Qed.
Lemma record_eq fs gs : py_eq (RecordT fs) (RecordT gs) = true <->
  Forall2 (fun f g => fst f = fst g /\ py_eq (snd f) (snd g) = true) fs gs.
Proof.
  rewrite py_eq_unfold. cbn [shape list_eqb measure info_eqb andb]. rewrite list_eqb_Forall2.
  split; intro H; (eapply Forall2_impl; [|exact H]); intros [n x] [m y]; unfold field_eqb; cbn [fst snd];
    rewrite andb_true_iff, str_eqb_eq; tauto.
Qed.
Lemma array_eq n m ds es x y : shape x = [] -> shape y = [] -> 
  (forall k l, x <> DataShapeT k l) -> (forall k l, y <> DataShapeT k l) -> is_TypeSet x = false ->
  (py_eq (DataShapeT n (ds ++ [x])) (DataShapeT m (es ++ [y])) = true <->
   Forall2 (fun d e => py_eq d e = true) ds es /\ py_eq x y = true).
Proof.
  intros Sx Sy Dx Dy Tx.
  assert (Mx : measure x = x) by (destruct x; try reflexivity; exfalso; eapply Dx; reflexivity).
  assert (My : measure y = y) by (destruct y; try reflexivity; exfalso; eapply Dy; reflexivity).
  rewrite (py_eq_unfold (DataShapeT _ _)). cbn [shape measure]. rewrite !removelast_last, !last_last, andb_true_iff, list_eqb_Forall2.
  assert (E : py_eq x y = info_eqb py_eq x y).
  { rewrite py_eq_unfold. rewrite Sx, Sy, Mx, My. destruct x; try reflexivity; discriminate. }
  rewrite E. reflexivity.
Qed.
