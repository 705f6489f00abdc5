(** Equality and hashing: fuel independence, equivalence, hash consistency. *)
From Verif Require Import Base Types.

Lemma shape_size x t : In x (shape t) -> (tsize x < tsize t)%nat.
Proof.
  induction t using ty_ind'; cbn [shape]; try (simpl; tauto).
  - intro Hin. rewrite tsize_DataShape.
    destruct (list_rev_case ps) as [->|[l [y ->]]]; [destruct Hin|].
    rewrite removelast_last in Hin. apply lsize_In in Hin. rewrite lsize_app. simpl. lia.
  - intro Hin. apply IHt in Hin. rewrite tsize_Option. lia.
Qed.

Lemma measure_size t : (tsize (measure t) <= tsize t)%nat.
Proof.
  destruct t; simpl measure; try lia.
  rewrite tsize_DataShape.
  destruct (list_rev_case parameters) as [->|[l [y ->]]]; [simpl; lia|].
  rewrite last_last, lsize_app. simpl. lia.
Qed.

Lemma list_eqb_ext {A} (f g : A -> A -> bool) l m :
  (forall x y, In x l -> f x y = g x y) -> list_eqb f l m = list_eqb g l m.
Proof.
  revert m; induction l as [|x l IH]; intros [|y m] H; simpl; auto.
  rewrite H by (simpl; auto). rewrite IH; auto. intros; apply H; simpl; auto.
Qed.

(** immediate components *)
Definition comps (t : ty) : list ty :=
  match t with
  | UnitsT _ t' | OptionT t' | CategoricalT _ t' _ => [t']
  | DataShapeT _ ps | FunctionT ps | TupleT ps | TypeSetT ps _ => ps
  | MapT k v => [k; v]
  | RecordT fs => map snd fs
  | _ => []
  end.

Lemma comps_size x t : In x (comps t) -> (tsize x < tsize t)%nat.
Proof.
  destruct t; cbn [comps]; intro H; try (simpl in H; tauto).
  - destruct H as [->|[]]. rewrite tsize_Units; lia.
  - rewrite tsize_DataShape. apply lsize_In in H. lia.
  - destruct H as [->|[]]. rewrite tsize_Option; lia.
  - rewrite tsize_Function. apply lsize_In in H. lia.
  - rewrite tsize_Map. destruct H as [->|[->|[]]]; lia.
  - rewrite tsize_Record. apply in_map_iff in H as [f [<- H]]. apply fsize_In in H. lia.
  - destruct H as [->|[]]. rewrite tsize_Categorical; lia.
  - rewrite tsize_Tuple. apply lsize_In in H. lia.
  - rewrite tsize_TypeSet. apply lsize_In in H. lia.
Qed.

Lemma info_eqb_ext f g a b :
  (forall x y, In x (comps a) -> f x y = g x y) -> info_eqb f a b = info_eqb g a b.
Proof.
  intro H. destruct a; destruct b; simpl; auto; cbn [comps] in H;
    repeat rewrite H by (simpl; auto); auto; try (apply list_eqb_ext; auto; fail).
  - apply list_eqb_ext. intros [n x] [m y] Hin. unfold field_eqb; simpl.
    rewrite H; auto. apply in_map_iff. exists (n, x). auto.
  - rewrite (list_eqb_ext f g); auto.
Qed.

Lemma py_eqF_fuel n : forall m a b, (tsize a < n)%nat -> (tsize a < m)%nat ->
  py_eqF n a b = py_eqF m a b.
Proof.
  induction n as [|n IH]; intros m a b Hn Hm; [lia|].
  destruct m as [|m]; [lia|]. cbn [py_eqF].
  assert (Hsh : list_eqb (py_eqF n) (shape a) (shape b) = list_eqb (py_eqF m) (shape a) (shape b)).
  { apply list_eqb_ext. intros x y Hx. apply shape_size in Hx. apply IH; lia. }
  assert (Hme : info_eqb (py_eqF n) (measure a) (measure b) = info_eqb (py_eqF m) (measure a) (measure b)).
  { apply info_eqb_ext. intros x y Hx. apply comps_size in Hx.
    pose proof (measure_size a). apply IH; lia. }
  destruct a; try (rewrite Hsh, Hme; reflexivity); try reflexivity.
  destruct b; auto. f_equal. apply list_eqb_ext. intros x y Hx.
  rewrite tsize_TypeSet in *. apply lsize_In in Hx. apply IH; lia.
Qed.

(** The defining equations of [==], without fuel. *)
Lemma py_eq_unfold a b :
  py_eq a b =
    match a with
    | FixedT v => match b with FixedT v' => Z.eqb v v' | _ => false end
    | TypeSetT ts nm =>
        match b with
        | TypeSetT us nm' => ostr_eqb nm nm' && list_eqb py_eq ts us
        | _ => false
        end
    | _ => list_eqb py_eq (shape a) (shape b) && info_eqb py_eq (measure a) (measure b)
    end.
Proof.
  unfold py_eq at 1. cbn [py_eqF].
  assert (Hsh : list_eqb (py_eqF (tsize a)) (shape a) (shape b) = list_eqb py_eq (shape a) (shape b)).
  { apply list_eqb_ext. intros x y Hx. apply shape_size in Hx. apply py_eqF_fuel; lia. }
  assert (Hme : info_eqb (py_eqF (tsize a)) (measure a) (measure b) = info_eqb py_eq (measure a) (measure b)).
  { apply info_eqb_ext. intros x y Hx. apply comps_size in Hx.
    pose proof (measure_size a). apply py_eqF_fuel; lia. }
  destruct a; try (rewrite Hsh, Hme; reflexivity); try reflexivity.
  destruct b; auto. f_equal. apply list_eqb_ext. intros x y Hx.
  apply lsize_In in Hx. apply py_eqF_fuel; rewrite ?tsize_TypeSet; lia.
Qed.

Lemma lit_eqb_refl l : lit_eqb l l = true.
Proof. destruct l; unfold lit_eqb; simpl; rewrite ?Z.eqb_refl, ?str_eqb_refl; auto. Qed.
Lemma lit_eqb_sym a b : lit_eqb a b = lit_eqb b a.
Proof. destruct a, b; unfold lit_eqb; simpl; try apply Z.eqb_sym; auto using str_eqb_sym. Qed.
Lemma lit_eqb_trans a b c : lit_eqb a b = true -> lit_eqb b c = true -> lit_eqb a c = true.
Proof.
  destruct a, b, c; unfold lit_eqb; simpl; intros; try discriminate;
  repeat match goal with H : Z.eqb _ _ = true |- _ => apply Z.eqb_eq in H
                       | H : str_eqb _ _ = true |- _ => apply str_eqb_eq in H end;
  try (apply Z.eqb_eq; congruence); try (apply str_eqb_eq; congruence).
Qed.

Lemma list_eqb_refl {A} (f : A -> A -> bool) l :
  (forall x, In x l -> f x x = true) -> list_eqb f l l = true.
Proof. induction l as [|x l IH]; simpl; intro H; auto. rewrite H by auto. apply IH; auto. Qed.
Lemma list_eqb_sym {A} (f : A -> A -> bool) l m :
  (forall x y, In x l -> In y m -> f x y = true -> f y x = true) ->
  list_eqb f l m = true -> list_eqb f m l = true.
Proof.
  revert m; induction l as [|x l IH]; intros [|y m] H; simpl; auto; try discriminate.
  intro E. apply andb_true_iff in E as [E1 E2]. apply andb_true_iff. split.
  - apply H; simpl; auto.
  - apply IH; auto. intros; apply H; simpl; auto.
Qed.
Lemma list_eqb_trans {A} (f : A -> A -> bool) l m k :
  (forall x y z, In x l -> In y m -> In z k -> f x y = true -> f y z = true -> f x z = true) ->
  list_eqb f l m = true -> list_eqb f m k = true -> list_eqb f l k = true.
Proof.
  revert m k; induction l as [|x l IH]; intros [|y m] [|z k] H; simpl; auto; try discriminate.
  intros E F. apply andb_true_iff in E as [E1 E2]. apply andb_true_iff in F as [F1 F2].
  apply andb_true_iff. split.
  - apply (H x y z); simpl; auto.
  - apply (IH m k); auto. intros x' y' z' ? ? ?; apply H; simpl; auto.
Qed.

Lemma info_eqb_refl f t : (forall x, In x (comps t) -> f x x = true) -> info_eqb f t t = true.
Proof.
  intro H; destruct t; simpl; cbn [comps] in H; auto;
    repeat rewrite H by (simpl; auto);
    rewrite ?str_eqb_refl, ?Z.eqb_refl, ?eqb_reflx; auto;
    repeat match goal with |- context [ostr_eqb ?o ?o] => rewrite (proj2 (ostr_eqb_eq o o) eq_refl)
      | |- context [oZ_eqb ?o ?o] => rewrite (proj2 (oZ_eqb_eq o o) eq_refl) end; auto;
    try (apply list_eqb_refl; auto; fail).
  - apply list_eqb_refl. intros [n x] Hx. unfold field_eqb; simpl. rewrite str_eqb_refl. apply H.
    apply in_map_iff. exists (n, x); auto.
  - rewrite (list_eqb_refl lit_eqb) by (intros; apply lit_eqb_refl). auto.
  - rewrite (list_eqb_refl f) by auto. auto.
Qed.

Lemma tsize_strong (P : ty -> Prop) :
  (forall t, (forall u, (tsize u < tsize t)%nat -> P u) -> P t) -> forall t, P t.
Proof.
  intros H t. remember (tsize t) as n eqn:E. revert t E.
  induction n as [n IH] using lt_wf_ind. intros t ->. apply H. intros u Hu. eapply IH; eauto.
Qed.

Lemma py_eq_refl t : py_eq t t = true.
Proof.
  induction t as [t IH] using tsize_strong. rewrite py_eq_unfold.
  assert (Hsh : list_eqb py_eq (shape t) (shape t) = true).
  { apply list_eqb_refl. intros x Hx. apply IH. now apply shape_size. }
  assert (Hme : info_eqb py_eq (measure t) (measure t) = true).
  { apply info_eqb_refl. intros x Hx. apply IH. apply comps_size in Hx.
    pose proof (measure_size t); lia. }
  destruct t; try (rewrite Hsh, Hme; reflexivity).
  - apply Z.eqb_refl.
  - rewrite (proj2 (ostr_eqb_eq _ _) eq_refl). apply list_eqb_refl.
    intros x Hx. apply IH. apply comps_size. exact Hx.
Qed.

(** The condition that makes [==] symmetric: no DataShape in the term has a Fixed
    (excluded by [wf]) or a TypeSet as its measure. *)
Definition plain_measure (t : ty) : bool :=
  match t with FixedT _ | TypeSetT _ _ => false | _ => true end.
Fixpoint eqok (t : ty) : bool :=
  match t with
  | UnitsT _ t' | OptionT t' | CategoricalT _ t' _ => eqok t'
  | FunctionT ps | TupleT ps | TypeSetT ps _ => forallb eqok ps
  | DataShapeT _ ps => plain_measure (last ps NullT) && forallb eqok ps
  | MapT k v => eqok k && eqok v
  | RecordT fs => forallb (fun f => eqok (snd f)) fs
  | _ => true
  end.

Lemma eqok_comps t x : eqok t = true -> In x (comps t) -> eqok x = true.
Proof.
  destruct t; cbn [comps]; intros H Hx; try (simpl in Hx; tauto); simpl in H;
    repeat match goal with
    | H : _ && _ = true |- _ => apply andb_true_iff in H as [? ?]
    | H : In _ [_] |- _ => destruct H as [->|[]]
    | H : forallb eqok ?l = true, I : In ?x ?l |- _ => apply forallb_forall with (x:=x) in H; [|exact I]
    end; auto.
  - destruct Hx as [->|[->|[]]]; auto.
  - apply in_map_iff in Hx as [f [<- Hf]]. rewrite forallb_forall in H. now apply H.
Qed.

Lemma last_indep {A} (l : list A) d e : l <> [] -> last l d = last l e.
Proof.
  intro H. destruct (list_rev_case l) as [->|[l' [x ->]]]; [congruence|]. now rewrite !last_last.
Qed.

Lemma eqok_measure t : eqok t = true -> eqok (measure t) = true.
Proof.
  intro H. destruct t; auto. simpl measure.
  destruct (list_rev_case parameters) as [->|[l [x ->]]]; [exact H|].
  rewrite last_last. eapply eqok_comps; eauto. simpl. apply in_or_app; simpl; auto.
Qed.
Lemma in_removelast {A} (x : A) l : In x (removelast l) -> In x l.
Proof.
  destruct (list_rev_case l) as [->|[l' [y ->]]]; simpl; auto.
  rewrite removelast_last. intro. apply in_or_app; auto.
Qed.
Lemma eqok_shape t x : eqok t = true -> In x (shape t) -> eqok x = true.
Proof.
  revert x; induction t using ty_ind'; cbn [shape]; intros x Hok Hx; try (simpl in Hx; tauto).
  - eapply eqok_comps; eauto. simpl. now apply in_removelast.
  - apply IHt; auto.
Qed.

Lemma info_eqb_sym f a b :
  (forall x y, In x (comps a) -> In y (comps b) -> f x y = true -> f y x = true) ->
  info_eqb f a b = true -> info_eqb f b a = true.
Proof.
  intros H. destruct a; destruct b; simpl; auto; try discriminate; cbn [comps] in H; intro E;
    repeat match goal with
    | H : _ && _ = true |- _ => apply andb_true_iff in H as [? ?]
    end;
    repeat match goal with
    | H : str_eqb _ _ = true |- _ => apply str_eqb_eq in H; subst
    | H : Z.eqb _ _ = true |- _ => apply Z.eqb_eq in H; subst
    | H : ostr_eqb _ _ = true |- _ => apply ostr_eqb_eq in H; subst
    | H : oZ_eqb _ _ = true |- _ => apply oZ_eqb_eq in H; subst
    | H : Bool.eqb _ _ = true |- _ => apply eqb_prop in H; subst
    end;
    rewrite ?str_eqb_refl, ?Z.eqb_refl, ?eqb_reflx; simpl; auto;
    repeat match goal with |- context [ostr_eqb ?o ?o] => rewrite (proj2 (ostr_eqb_eq o o) eq_refl)
      | |- context [oZ_eqb ?o ?o] => rewrite (proj2 (oZ_eqb_eq o o) eq_refl) end; simpl; auto;
    repeat (apply andb_true_iff; split); auto;
    try (apply H; simpl; auto; fail);
    try (eapply list_eqb_sym; [|eassumption]; auto; fail).
  - eapply list_eqb_sym; [|eassumption]. intros [n x] [m y] Hx Hy. unfold field_eqb; simpl.
    intro E2. apply andb_true_iff in E2 as [E1 E2]. rewrite str_eqb_sym, E1. simpl. apply H; auto;
    apply in_map_iff; eexists; (split; [|eassumption]); auto.
  - eapply list_eqb_sym; [|eassumption]. intros; now rewrite lit_eqb_sym.
Qed.

Lemma info_eqb_trans f a b c :
  (forall x y z, In x (comps a) -> In y (comps b) -> In z (comps c) ->
     f x y = true -> f y z = true -> f x z = true) ->
  info_eqb f a b = true -> info_eqb f b c = true -> info_eqb f a c = true.
Proof.
  intros H. destruct a; destruct b; simpl; try discriminate; destruct c; simpl; try discriminate; auto;
    cbn [comps] in H; intros E F;
    repeat match goal with
    | H : _ && _ = true |- _ => apply andb_true_iff in H as [? ?]
    end;
    repeat match goal with
    | H : str_eqb _ _ = true |- _ => apply str_eqb_eq in H; subst
    | H : Z.eqb _ _ = true |- _ => apply Z.eqb_eq in H; subst
    | H : ostr_eqb _ _ = true |- _ => apply ostr_eqb_eq in H; subst
    | H : oZ_eqb _ _ = true |- _ => apply oZ_eqb_eq in H; subst
    | H : Bool.eqb _ _ = true |- _ => apply eqb_prop in H; subst
    end;
    rewrite ?str_eqb_refl, ?Z.eqb_refl, ?eqb_reflx; simpl; auto;
    repeat match goal with |- context [ostr_eqb ?o ?o] => rewrite (proj2 (ostr_eqb_eq o o) eq_refl)
      | |- context [oZ_eqb ?o ?o] => rewrite (proj2 (oZ_eqb_eq o o) eq_refl) end; simpl; auto;
    repeat (apply andb_true_iff; split); auto;
    try (eapply H; eauto; simpl; auto; fail);
    try (eapply list_eqb_trans; [|eassumption|eassumption]; auto; fail).
  - eapply list_eqb_trans; [|eassumption|eassumption].
    intros [n x] [m y] [k z] Hx Hy Hz. unfold field_eqb; simpl.
    intros E2 F2. apply andb_true_iff in E2 as [E1 E2]. apply andb_true_iff in F2 as [F1 F2].
    apply str_eqb_eq in E1, F1; subst. rewrite str_eqb_refl. simpl.
    eapply H; [..|exact E2|exact F2];
    apply in_map_iff; eexists; (split; [|eassumption]); auto.
  - eapply list_eqb_trans; [|eassumption|eassumption]. intros; eapply lit_eqb_trans; eauto.
Qed.

Lemma info_fixed f a v : info_eqb f a (FixedT v) = true -> a = FixedT v.
Proof. destruct a; simpl; try discriminate. intro H; apply Z.eqb_eq in H; now subst. Qed.
Lemma info_typeset f a ts n : info_eqb f a (TypeSetT ts n) = true -> exists us m, a = TypeSetT us m.
Proof. destruct a; simpl; try discriminate. eauto. Qed.

Lemma measure_plain t : eqok t = true -> is_DataShape t = true -> plain_measure (measure t) = true.
Proof.
  destruct t; try discriminate. intros H _. simpl measure. simpl in H. apply andb_true_iff in H as [H _].
  destruct (list_rev_case parameters) as [->|[l [x ->]]]; [reflexivity|]. now rewrite last_last in *.
Qed.

(** On [eqok] objects [==] is the uniform structural test. *)
Lemma py_eq_eqok a b : eqok a = true -> eqok b = true ->
  (py_eq a b = true <->
   list_eqb py_eq (shape a) (shape b) = true /\ info_eqb py_eq (measure a) (measure b) = true).
Proof.
  intros Ha Hb. rewrite py_eq_unfold. destruct a; try apply andb_true_iff.
  - split.
    + destruct b; try discriminate. simpl. auto.
    + intros [H1 H2].
      assert (is_DataShape b = true \/ measure b = b) as [D|D] by (destruct b; simpl; auto).
      * pose proof (measure_plain _ Hb D) as P. destruct (measure b); simpl in *; discriminate.
      * rewrite D in H2. destruct b; simpl in *; try discriminate; auto.
  - split.
    + destruct b; try discriminate. simpl. rewrite andb_true_iff. intros [? ?]. split; auto.
      rewrite H, H0. auto.
    + intros [H1 H2].
      assert (is_DataShape b = true \/ measure b = b) as [D|D] by (destruct b; simpl; auto).
      * pose proof (measure_plain _ Hb D) as P. destruct (measure b); simpl in *; discriminate.
      * rewrite D in H2. destruct b; simpl in *; try discriminate; auto.
        apply andb_true_iff in H2 as [-> ->]. auto.
Qed.

Lemma py_eq_sym_ok a : forall b, eqok a = true -> eqok b = true -> py_eq a b = true -> py_eq b a = true.
Proof.
  induction a as [a IH] using tsize_strong. intros b Ha Hb H.
  apply py_eq_eqok in H as [H1 H2]; auto. apply py_eq_eqok; auto. split.
  - eapply list_eqb_sym; [|exact H1]. intros x y Hx Hy E. apply IH; auto.
    + now apply shape_size. + exact (eqok_shape _ _ Ha Hx). + exact (eqok_shape _ _ Hb Hy).
  - eapply info_eqb_sym; [|exact H2]. intros x y Hx Hy E. apply IH; auto.
    + apply comps_size in Hx. pose proof (measure_size a). lia.
    + eapply eqok_comps; [|exact Hx]. now apply eqok_measure.
    + eapply eqok_comps; [|exact Hy]. now apply eqok_measure.
Qed.

(** Transitivity holds for all datashape objects. *)
Lemma py_eq_split a b : py_eq a b = true ->
  (exists v, a = FixedT v /\ b = FixedT v)
  \/ (exists ts n us, a = TypeSetT ts n /\ b = TypeSetT us n /\ list_eqb py_eq ts us = true)
  \/ (plain_measure a = true /\ list_eqb py_eq (shape a) (shape b) = true
      /\ info_eqb py_eq (measure a) (measure b) = true).
Proof.
  rewrite py_eq_unfold. destruct a; try (rewrite andb_true_iff; intros [H1 H2]; right; right; simpl plain_measure; auto; fail).
  - destruct b; try discriminate. intro H; apply Z.eqb_eq in H; subst. eauto.
  - destruct b; try discriminate. intro H; apply andb_true_iff in H as [H1 H2].
    apply ostr_eqb_eq in H1; subst. right; left. eauto 10.
Qed.

Lemma py_eq_trans a : forall b c, py_eq a b = true -> py_eq b c = true -> py_eq a c = true.
Proof.
  induction a as [a IH] using tsize_strong. intros b c H K.
  apply py_eq_split in H as [[v [-> ->]]|[[ts [n [us [-> [-> H]]]]]|[P [H1 H2]]]].
  - exact K.
  - apply py_eq_split in K as [[v [K _]]|[[ts' [n' [us' [K1 [-> K]]]]]|[P _]]]; try discriminate.
    inversion K1; subst. rewrite py_eq_unfold.
    rewrite (proj2 (ostr_eqb_eq _ _) eq_refl). simpl.
    eapply list_eqb_trans; [|exact H|exact K]. intros x y z Hx _ _. apply IH.
    apply comps_size. exact Hx.
  - assert (L : forall l m k, list_eqb py_eq l m = true -> list_eqb py_eq m k = true ->
             (forall x, In x l -> (tsize x < tsize a)%nat) -> list_eqb py_eq l k = true).
    { intros l m k E F G. eapply list_eqb_trans; [|exact E|exact F]. intros x y z Hx _ _. apply IH. now apply G. }
    assert (M : forall x y z, In x (comps (measure a)) -> py_eq x y = true -> py_eq y z = true -> py_eq x z = true).
    { intros x y z Hx. apply IH. apply comps_size in Hx. pose proof (measure_size a). lia. }
    assert (G : list_eqb py_eq (shape a) (shape c) = true /\ info_eqb py_eq (measure a) (measure c) = true).
    { apply py_eq_split in K as [[v [-> ->]]|[[ts' [n' [us' [-> [-> K]]]]]|[P' [K1 K2]]]].
      - split; auto.
      - apply info_typeset in H2 as E. destruct E as [us [m E]]. rewrite E in *. simpl in H1, H2 |- *.
        split; auto. apply andb_true_iff in H2 as [H2 H3]. rewrite H3.
        rewrite andb_true_r. eapply list_eqb_trans; [|exact H2|exact K].
        intros x y z Hx _ _. apply M. exact Hx.
      - split.
        + eapply L; eauto. intros. now apply shape_size.
        + eapply info_eqb_trans; [|exact H2|exact K2]. intros x y z Hx _ _. now apply M. }
    destruct G as [G1 G2]. rewrite py_eq_unfold. destruct a; try (rewrite G1, G2; reflexivity); discriminate.
Qed.

Lemma wf_eqok t : wf t = true -> no_typeset t = true -> eqok t = true.
Proof.
  induction t using ty_ind'; simpl; intros W N; auto;
    repeat match goal with
    | H : _ && _ = true |- _ => apply andb_true_iff in H as [? ?]
    end; auto; try discriminate.
  - apply andb_true_iff; split.
    + destruct (list_rev_case ps) as [->|[l [x ->]]]; [reflexivity|]. rewrite last_last in *.
      rewrite forallb_app in H1, N. simpl in H1, N.
      destruct x; simpl in *; auto; try discriminate.
      rewrite andb_false_r in N. discriminate.
    + apply forallb_forall. intros x Hx. rewrite Forall_forall in H. rewrite forallb_forall in H1, N.
      specialize (H1 x Hx). apply andb_true_iff in H1 as [? ?]. apply H; auto.
  - apply forallb_forall. intros x Hx. rewrite Forall_forall in H. rewrite forallb_forall in N, H1.
    apply H; auto.
  - rewrite IHt1, IHt2; auto.
  - apply forallb_forall. intros x Hx. rewrite Forall_forall in H. rewrite forallb_forall in N, H1.
    specialize (H1 x Hx). apply andb_true_iff in H1 as [? ?]. apply H; auto.
  - apply forallb_forall. intros x Hx. rewrite Forall_forall in H. rewrite forallb_forall in N, W.
    specialize (W x Hx). apply andb_true_iff in W as [? ?]. apply H; auto.
Qed.

Lemma py_eq_sym a b : wf a = true -> wf b = true -> no_typeset a = true -> no_typeset b = true ->
  py_eq a b = py_eq b a.
Proof.
  intros Wa Wb Na Nb. pose proof (wf_eqok _ Wa Na). pose proof (wf_eqok _ Wb Nb).
  destruct (py_eq a b) eqn:E; symmetry.
  - apply py_eq_sym_ok; auto.
  - destruct (py_eq b a) eqn:F; auto. apply py_eq_sym_ok in F; auto. congruence.
Qed.

(** ** hash *)
Section Hash.
  Variable hstr : str -> Z.
  Variable hint : Z -> Z.
  Variable hnone : Z.
  Variable hcls : nat -> Z.
  Variable htuple : list Z -> Z.
  Variable hxor : Z -> Z -> Z.
  Notation py_hashF := (py_hashF hstr hint hnone hcls htuple hxor).
  Notation py_hash := (py_hash hstr hint hnone hcls htuple hxor).
  Notation info_hash := (info_hash hstr hint hnone hcls htuple hxor).
  Notation params_hash := (params_hash hstr hint hnone hcls htuple hxor).

  Lemma map_ext_In {A B} (f g : A -> B) l : (forall x, In x l -> f x = g x) -> map f l = map g l.
  Proof. induction l as [|x l IH]; simpl; intro H; auto. rewrite H by auto. rewrite IH; auto. Qed.

  Lemma params_hash_ext f g t : (forall x, In x (comps t) -> f x = g x) -> params_hash f t = params_hash g t.
  Proof.
    intro H; destruct t; simpl; cbn [comps] in H; auto; repeat rewrite H by (simpl; auto); auto;
      try (rewrite (map_ext_In f g); auto).
    f_equal. f_equal. apply map_ext_In. intros [n x] Hx. simpl. rewrite H; auto.
    apply in_map_iff. exists (n, x); auto.
  Qed.

  Lemma py_hashF_fuel n : forall m t, (tsize t < n)%nat -> (tsize t < m)%nat -> py_hashF n t = py_hashF m t.
  Proof.
    induction n as [|n IH]; intros m t Hn Hm; [lia|]. destruct m as [|m]; [lia|]. cbn [Types.py_hashF].
    assert (Hsh : map (py_hashF n) (shape t) = map (py_hashF m) (shape t)).
    { apply map_ext_In. intros x Hx. apply shape_size in Hx. apply IH; lia. }
    assert (Hme : params_hash (py_hashF n) (measure t) = params_hash (py_hashF m) (measure t)).
    { apply params_hash_ext. intros x Hx. apply comps_size in Hx. pose proof (measure_size t). apply IH; lia. }
    unfold Types.info_hash.
    destruct t; try (rewrite Hsh, Hme; reflexivity).
    rewrite (map_ext_In (py_hashF n) (py_hashF m)); auto. intros x Hx.
    rewrite tsize_TypeSet in *. apply lsize_In in Hx. apply IH; lia.
  Qed.

  Lemma py_hash_unfold t :
    py_hash t = match t with
                | TypeSetT ts nm => htuple [hostr hstr hnone nm; htuple (map py_hash ts)]
                | _ => hxor (htuple (map py_hash (shape t))) (info_hash py_hash (measure t))
                end.
  Proof.
    unfold Types.py_hash at 1. cbn [Types.py_hashF].
    assert (Hsh : map (py_hashF (tsize t)) (shape t) = map py_hash (shape t)).
    { apply map_ext_In. intros x Hx. apply shape_size in Hx. apply py_hashF_fuel; lia. }
    assert (Hme : params_hash (py_hashF (tsize t)) (measure t) = params_hash py_hash (measure t)).
    { apply params_hash_ext. intros x Hx. apply comps_size in Hx. pose proof (measure_size t). apply py_hashF_fuel; lia. }
    unfold Types.info_hash.
    destruct t; try (rewrite Hsh, Hme; reflexivity).
    rewrite (map_ext_In (py_hashF _) py_hash); auto. intros x Hx.
    apply lsize_In in Hx. apply py_hashF_fuel; rewrite ?tsize_TypeSet; lia.
  Qed.

  Lemma list_eqb_map {A B} (f : A -> A -> bool) (h : A -> B) l m :
    (forall x y, In x l -> In y m -> f x y = true -> h x = h y) -> list_eqb f l m = true -> map h l = map h m.
  Proof.
    revert m; induction l as [|x l IH]; intros [|y m] H; simpl; auto; try discriminate.
    intro E. apply andb_true_iff in E as [E1 E2]. f_equal.
    - apply H; simpl; auto. - apply IH; auto. intros; apply H; simpl; auto.
  Qed.

  Lemma hlit_eq a b : lit_eqb a b = true -> hlit hstr hint a = hlit hstr hint b.
  Proof.
    destruct a, b; unfold lit_eqb, hlit, hbool; simpl; try discriminate; intro H;
      try (apply Z.eqb_eq in H; congruence). apply str_eqb_eq in H. congruence.
  Qed.

  Lemma info_hash_eq a b :
    (forall x y, In x (comps a) -> In y (comps b) -> py_eq x y = true -> py_hash x = py_hash y) ->
    info_eqb py_eq a b = true -> info_hash py_hash a = info_hash py_hash b.
  Proof.
    intros H E. unfold Types.info_hash.
    destruct a; destruct b; simpl in E; try discriminate; auto; cbn [comps] in H;
    repeat match goal with
    | H : _ && _ = true |- _ => apply andb_true_iff in H as [? ?]
    end;
    repeat match goal with
    | H : str_eqb _ _ = true |- _ => apply str_eqb_eq in H; subst
    | H : Z.eqb _ _ = true |- _ => apply Z.eqb_eq in H; subst
    | H : ostr_eqb _ _ = true |- _ => apply ostr_eqb_eq in H; subst
    | H : oZ_eqb _ _ = true |- _ => apply oZ_eqb_eq in H; subst
    | H : Bool.eqb _ _ = true |- _ => apply eqb_prop in H; subst
    | H : list_eqb lit_eqb _ _ = true |- _ => apply (list_eqb_map _ (hlit hstr hint)) in H; [|intros; now apply hlit_eq]
    | H : list_eqb py_eq ?l _ = true |- _ => apply (list_eqb_map _ py_hash) in H; [|auto; fail]
    end; simpl;
    try (match goal with H : map _ _ = map _ _ |- _ => rewrite H end); auto;
    repeat match goal with E : py_eq ?a ?b = true |- _ => apply H in E; [|simpl; auto; fail|simpl; auto; fail]; rewrite E end; auto.
    - do 6 f_equal. eapply list_eqb_map; [|exact E]. intros [n x] [m y] Hx Hy. unfold field_eqb; simpl.
      intro E2. apply andb_true_iff in E2 as [E1 E2]. apply str_eqb_eq in E1; subst. do 3 f_equal.
      apply H; auto; apply in_map_iff; eexists; (split; [|eassumption]); auto.
  Qed.

  Lemma py_hash_eq_ok a : forall b, eqok a = true -> eqok b = true -> py_eq a b = true -> py_hash a = py_hash b.
  Proof.
    induction a as [a IH] using tsize_strong. intros b Ha Hb H.
    assert (Hp : plain_measure a = true -> plain_measure b = true).
    { destruct (py_eq_split _ _ (py_eq_sym_ok _ _ Ha Hb H)) as [[v [-> ->]]|[[ts [n [us [-> [-> K]]]]]|[P _]]]; auto. }
    rewrite !py_hash_unfold.
    destruct (py_eq_split _ _ H) as [[v [-> ->]]|[[ts [n [us [-> [-> K]]]]]|[P [H1 H2]]]]; auto.
    - rewrite (list_eqb_map py_eq py_hash ts us); auto. intros x y Hx Hy E.
      apply IH; auto.
      + apply comps_size; exact Hx.
      + eapply (eqok_comps _ _ Ha); exact Hx.
      + eapply (eqok_comps _ _ Hb); exact Hy.
    - specialize (Hp P).
      assert (E1 : map py_hash (shape a) = map py_hash (shape b)).
      { eapply list_eqb_map; [|exact H1]. intros x y Hx Hy E. apply IH; auto.
        - now apply shape_size. - exact (eqok_shape _ _ Ha Hx). - exact (eqok_shape _ _ Hb Hy). }
      assert (E2 : info_hash py_hash (measure a) = info_hash py_hash (measure b)).
      { apply info_hash_eq; auto. intros x y Hx Hy E. apply IH; auto.
        - apply comps_size in Hx. pose proof (measure_size a). lia.
        - eapply eqok_comps; [|exact Hx]. now apply eqok_measure.
        - eapply eqok_comps; [|exact Hy]. now apply eqok_measure. }
      rewrite E1, E2. destruct a, b; try discriminate; reflexivity.
  Qed.
  Lemma py_hash_eq a b : wf a = true -> wf b = true -> no_typeset a = true -> no_typeset b = true ->
    py_eq a b = true -> py_hash a = py_hash b.
  Proof. intros. apply py_hash_eq_ok; auto using wf_eqok. Qed.
End Hash.
