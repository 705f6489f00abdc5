(** Proofs for C61, part 1: equality of the types that [discover] finds. *)
From Verif Require Import Base Types Lexer Printer Construct Parser Ops Preds Numpy Graph Discovery
  Spec_WF Spec_Preds Spec_Eq Spec_Ops Spec_Print Spec_Discovery Spec_Found Spec_Fits
  Proof_WF Proof_Eq Proof_Canon Proof_Ops Proof_Preds Proof_Preds3 Proof_Coerce Proof_Discovery Proof_Discovery2 Proof_Discovery4
  Proof_Discovery6 Proof_Discovery7 Proof_Discovery8.
Local Open Scope Z_scope.

Notation AnyN := (fun _ : str => True).
Notation AnyT := (fun _ : ty => True).
Notation D := (Proof_Discovery6.D AnyN AnyT).
Notation DM := (Proof_Discovery6.DM AnyN AnyT).
Notation DA := (Proof_Discovery6.DA AnyN AnyT).
Notation Dl := (Proof_Discovery6.Dl AnyN AnyT).
Lemma KK : forall t, Known t -> AnyT t. Proof. intros; exact I. Qed.

Lemma D_parts t : D t -> exists dims m, components t = dims ++ [m] /\ Forall DDim dims /\ DM m /\
  shape t = dims /\ measure t = m.
Proof.
  intros [H|[ps [-> [dims [m [-> [H1 H2]]]]]]].
  - exists [], t. destruct (DM_facts _ _ t H) as [E _]. pose proof (DM_shape _ t H) as S.
    split; [destruct t; try reflexivity; discriminate|]. split; [constructor|]. split; auto. split; auto.
    destruct t; try reflexivity; discriminate.
  - exists dims, m. split; [reflexivity|]. split; auto. split; auto. cbn [shape measure].
    split; [apply removelast_last|apply last_last].
Qed.
Lemma canon_DDim d e c : DDim d -> DDim e -> Canon d c -> Canon e c -> d = e.
Proof.
  intros [n _|] [m _|] H1 H2; inversion H1; subst; inversion H2; subst; cbn in *; try congruence.
Qed.
(** components determine the laundered form *)
Lemma Dl_components t u : Dl t -> Dl u -> components t = components u -> t = u.
Proof.
  intros Ht Hu E. assert (X : forall t, Dl t -> (exists m, t = m /\ DM m /\ components t = [m]) \/
     (exists d dims m, t = DataShapeT None (d :: dims ++ [m]) /\ components t = d :: dims ++ [m])).
  { clear. intros t [H|[dims [m [N [-> [H1 H2]]]]]].
    - left. exists t. destruct (DM_facts _ _ t H) as [E _]. split; auto. split; auto. destruct t; try reflexivity; discriminate.
    - right. destruct dims as [|d dims]; [contradiction|]. exists d, dims, m. split; reflexivity. }
  destruct (X t Ht) as [(m & Em & _ & C)|(d & dims & m & Em & C)], (X u Hu) as [(m' & Em' & _ & C')|(d' & dims' & m' & Em' & C')];
    rewrite C, C' in E.
  - congruence.
  - injection E as -> E. destruct dims'; discriminate.
  - injection E as -> E. destruct dims; discriminate.
  - rewrite Em, Em'. f_equal. exact E.
Qed.

Lemma Forall2_same {A B C} (R : A -> C -> Prop) (S : B -> C -> Prop) l m c :
  Forall2 R l c -> Forall2 S m c -> Forall2 (fun x y => exists z, R x z /\ S y z) l m.
Proof.
  intro H. revert m. induction H; intros m' H'; inversion H'; subst; constructor; eauto.
Qed.
Lemma Forall2_eq {A} (l m : list A) : Forall2 eq l m -> l = m.
Proof. induction 1; congruence. Qed.
Lemma Forall2_In_impl {A B} (R S : A -> B -> Prop) l m : (forall x y, In x l -> In y m -> R x y -> S x y) -> Forall2 R l m -> Forall2 S l m.
Proof.
  intros H F. induction F; constructor.
  - apply H; auto; left; auto.
  - apply IHF. intros a b Ha Hb. apply H; right; auto.
Qed.
Lemma combine_eq {A B} (l m : list (A * B)) : map fst l = map fst m -> map snd l = map snd m -> l = m.
Proof.
  revert m. induction l as [|[a b] l IH]; intros [|[a' b'] m] H1 H2; try discriminate; auto.
  cbn in *. injection H1 as -> H1. injection H2 as -> H2. f_equal. auto.
Qed.
Lemma D_canon n : forall t u c, (tsize t <= n)%nat -> D t -> D u -> Canon t c -> Canon u c -> components t = components u.
Proof.
  induction n as [|n IH]; intros t u c Hn Ht Hu Ct Cu; [destruct t; cbn in Hn; lia|].
  destruct (D_parts t Ht) as (dims & m & E1 & F1 & M1 & S1 & T1), (D_parts u Hu) as (dims' & m' & E2 & F2 & M2 & S2 & T2).
  inversion Ct as [t' ds ps A1 A2]; subst t'. subst c. inversion Cu as [t' ds' ps' B1 B2 X]; subst t'. subst ds' ps'.
  rewrite S1, T1 in *. rewrite S2, T2 in *. rewrite E1, E2.
  assert (Ed : dims = dims').
  { apply Forall2_eq. eapply Forall2_In_impl; [|exact (Forall2_same _ _ _ _ _ A1 B1)].
    intros x y Hx Hy (z & X1 & X2). rewrite Forall_forall in F1, F2. eapply canon_DDim; eauto. }
  assert (Hm : (tsize m <= S n)%nat).
  { clear - T1 Hn Ht. destruct t; cbn [measure] in T1; subst m; try exact Hn. destruct Ht as [Ht|[ps0 [X0 [di [mm [X1 _]]]]]]; [exfalso; eapply DM_not_ds; eauto|].
    injection X0 as -> ->. subst ps0. cbn [last]. rewrite last_last.
    pose proof (Proof_Preds3.child_size (DataShapeT None (di ++ [mm])) mm ltac:(cbn [children]; apply in_app_iff; right; left; auto)) as HC. lia. }
  assert (CH : Forall2 (fun x y => components x = components y) (children m) (children m')).
  { eapply Forall2_In_impl; [|exact (Forall2_same _ _ _ _ _ A2 B2)]. intros x y Hx Hy (z & X1 & X2).
    apply (IH x y z); auto.
    - pose proof (Proof_Preds3.child_size m x Hx). lia.
    - eapply DM_child; [exact M1|exact Hx].
    - eapply DM_child; [exact M2|exact Hy]. }
  rename H0 into X. f_equal; auto. f_equal.
  destruct M1 as [c Hc Hl| | | | |u0 Hu0 Hl|f e He Hl|x Hx Ho|fs N NP Hf|dl Hd].
  - destruct (known_CType c Hc) as (nm & i & a & ->). cbn in X. destruct m'; cbn in X; try discriminate. congruence.
  - destruct m'; cbn in X; try discriminate; congruence.
  - destruct m'; cbn in X; try discriminate; congruence.
  - destruct m'; cbn in X; try discriminate; congruence.
  - destruct m'; cbn in X; try discriminate; congruence.
  - destruct m'; cbn in X; try discriminate; congruence.
  - destruct m'; cbn in X; try discriminate; congruence.
  - destruct m'; cbn in X; try discriminate. cbn [children] in CH. inversion CH as [|? ? ? ? C1 _]; subst. f_equal.
    inversion M2; subst; try discriminate; [destruct (known_CType _ H) as (? & ? & ? & ?); discriminate|].
    apply Dl_components; auto; left; auto.
  - destruct m'; cbn in X; try discriminate. injection X as X. f_equal. apply combine_eq; [symmetry; exact X|].
    cbn [children] in CH. apply Forall2_eq. eapply Forall2_In_impl; [|exact CH]. intros a b Ha Hb Hab.
    apply in_map_iff in Ha as [[na ta] [<- Ha]]. apply in_map_iff in Hb as [[nb tb] [<- Hb]]. cbn [snd] in *.
    apply Dl_components; auto.
    + apply (Hf _ _ Ha).
    + inversion M2 as [? X0| | | | | | | |? ? ? Hf'|]; subst; [destruct (known_CType _ X0) as (? & ? & ? & ?); discriminate|]. apply (Hf' _ _ Hb).
  - destruct m'; cbn in X; try discriminate. f_equal. cbn [children] in CH.
    apply Forall2_eq. eapply Forall2_In_impl; [|exact CH]. intros a b Ha Hb Hab.
    assert (Hd' : forall t, In t dshapes -> exists dims m, t = DataShapeT None (dims ++ [m]) /\ Forall DDim dims /\ DM m).
    { inversion M2 as [? X0| | | | | | | | |? Hd']; subst; [destruct (known_CType _ X0) as (? & ? & ? & ?); discriminate|]. auto. }
    destruct (Hd a Ha) as (da & ma & -> & _), (Hd' b Hb) as (db & mb & -> & _). cbn [components] in Hab. congruence.
Qed.
Lemma D_eq t u : D t -> D u -> py_eq t u = true -> components t = components u.
Proof.
  intros Ht Hu E. apply py_eq_canon in E as [c [C1 C2]]; eauto using D_WF, D_typeset.
  eapply (D_canon (tsize t)); eauto.
Qed.
