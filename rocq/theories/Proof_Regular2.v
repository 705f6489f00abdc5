(** Proofs for C62, part 2: lists of lists of different lengths; [validate]. *)
From Verif Require Import Base Types Lexer Printer Construct Parser Ops Preds Numpy Graph Discovery User
  Spec_WF Spec_Preds Spec_Eq Spec_Ops Spec_Print Spec_User Spec_Discovery Spec_Found Spec_Fits Spec_Regular
  Proof_WF Proof_Eq Proof_Canon Proof_Ops Proof_Preds Proof_Preds3 Proof_User Proof_Coerce Proof_Discovery Proof_Discovery2 Proof_Discovery4
  Proof_Discovery5 Proof_Discovery6 Proof_Discovery7 Proof_Discovery8 Proof_Fits Proof_Fits2 Proof_Fits3 Proof_Fits4 Proof_Regular.
From Coq Require Import Permutation.
Local Open Scope Z_scope.

Section Main.
Variables (sc : sched) (so : strings).
Hypothesis Hso : dates_ok so.
Notation disc := (discover sc so).
Notation leafd := (fun x u => disc x = Ok u).
Notation Regular := (Regular leafd).

Theorem ragged_exact k t l : Ragged leafd t l -> disc (DSeq k l) = Ok (DataShapeT None (FixedT (Z.of_nat (length l)) :: VarT :: components t)).
Proof.
  intros [(k1 & l1 & k2 & l2 & H1 & H2 & HL) HR].
  set (len1 := fun x => match x with DSeq _ q => Z.of_nat (length q) | _ => 0 end).
  assert (Dt : Dl t).
  { destruct (HR _ H1) as (k' & q & E & NE & HQ). destruct q as [|y q]; [congruence|]. apply (regular_exact sc so Hso t y). apply HQ. left; auto. }
  pose proof (Dl_D _ _ t Dt) as DDt.
  assert (ED : forall x, In x l -> disc x = Ok (DataShapeT None (FixedT (len1 x) :: components t)) /\ dict_of sc so x = None).
  { intros x Hx. destruct (HR x Hx) as (k' & q & -> & NE & HQ). split; [|reflexivity]. apply (regular_exact sc so Hso). now apply R_array. }
  set (T := fun x => DataShapeT None (FixedT (len1 x) :: components t)) in *.
  assert (EO : mapM (fun r : res ty => r) (map disc l) = Ok (map T l)).
  { clear -ED. induction l as [|x l IH]; auto. cbn [map]. rewrite mapM_cons, IH by (intros; apply ED; right; auto).
    destruct (ED x (or_introl eq_refl)) as [-> _]. reflexivity. }
  assert (DT : forall x, D (T x)).
  { intro x. unfold T. apply Dl_D. apply Dl_array; auto. destruct x; cbn; lia. }
  assert (NI : unite_identical (map T l) = Ok None).
  { unfold unite_identical. destruct (all_same (map T l)) eqn:EA; [|reflexivity]. exfalso. apply HL.
    assert (X : forall x, In x l -> len1 x = len1 (hd (DSeq KList []) l)).
    { destruct l as [|y l]; [destruct H1|]. cbn [map all_same hd] in *. rewrite forallb_forall in EA. intros x [<-|Hx]; auto.
      assert (E : components (T x) = components (T y)) by (apply D_eq; auto; apply EA; now apply in_map).
      cbn in E. injection E as E. exact E. }
    pose proof (X _ H1) as X1. pose proof (X _ H2) as X2. cbn [len1] in X1, X2. lia. }
  assert (UM : unite_merge (map T l) = Ok (Some (DataShapeT None (FixedT (len l) :: VarT :: components t)))).
  { unfold unite_merge.
    assert (E1 : forallb (fun t => is_DataShape t && is_dimension (ds_head t)) (map T l) = true).
    { apply forallb_forall. intros u Hu. apply in_map_iff in Hu as [x [<- _]]. reflexivity. }
    rewrite E1.
    assert (E2 : mapM (subshape (IxInt 0)) (map T l) = Ok (map (fun _ => wrapc t) l)).
    { clear -DDt. induction l as [|x l IH]; auto. cbn [map]. rewrite mapM_cons, IH. unfold T at 1.
      rewrite sub0; [reflexivity|constructor; destruct x; cbn; lia|now apply DA_components]. }
    rewrite E2. cbn [bind]. assert (NE : l <> []) by (intros ->; destruct H1).
    rewrite (identical_const _ (wrapc t)); [|destruct l; [congruence|discriminate]|intros u Hu; apply in_map_iff in Hu as [? [<- _]]; auto|now apply D_wrapc].
    cbn [bind]. rewrite components_wrapc. rewrite sub0; [|constructor; unfold len; lia|now apply DA_components]. cbn [bind].
    assert (E3 : all_same (map ds_head (map T l)) = false).
    { destruct (all_same (map ds_head (map T l))) eqn:EA; [|reflexivity]. exfalso. apply HL.
      assert (X : forall x, In x l -> len1 x = len1 (hd (DSeq KList []) l)).
      { destruct l as [|y l]; [congruence|]. cbn [map all_same hd] in *. rewrite forallb_forall in EA. intros x [<-|Hx]; auto.
        assert (E : ds_head (T x) = ds_head (T y)).
        { apply DDim_eq; [constructor; destruct x; cbn; lia|constructor; destruct y; cbn; lia|]. apply EA. apply in_map. now apply in_map. }
        cbn in E. injection E as E. exact E. }
      pose proof (X _ H1) as X1. pose proof (X _ H2) as X2. cbn [len1] in X1, X2. lia. }
    rewrite E3. unfold mul_ty.
    rewrite mul_ds; [|eapply DA_okps; apply DA_components; eauto|apply Dim_notMeasure, DDim_Dim; constructor|apply Dim_notLone, DDim_Dim; constructor].
    cbn [bind]. rewrite mul_D; [unfold len; rewrite map_length; reflexivity| |unfold len; lia].
    right. eexists. split; [reflexivity|]. apply DA_cons; [constructor|now apply DA_components]. }
  rewrite discover_seq_eq. unfold discover_seq. destruct (map disc l) as [|o0 ol] eqn:Eo; [destruct l; [destruct H1|discriminate]|]. rewrite <- Eo in *.
  rewrite EO. cbn [bind]. unfold unite_final. cbn [do_one]. rewrite NI. cbn [bind]. rewrite UM. cbn [bind]. cbv zeta.
  rewrite (all_some_None (dict_of sc so) l (DSeq k1 l1) H1) by reflexivity.
  destruct (all_some (map (row_of sc so) l)) as [rs|] eqn:EA; [|reflexivity]. apply all_some_map in EA.
  replace (same_lengths rs) with false; [reflexivity|]. symmetry. destruct (same_lengths rs) eqn:ES; [|reflexivity]. exfalso. apply HL.
  assert (X : forall x, In x l -> len1 x = len (hd [] rs)).
  { intros x Hx. destruct (HR x Hx) as (k' & q & -> & _). cbn [len1].
    assert (Y : In (map disc q) rs).
    { clear -EA Hx. induction EA as [|x y l rs E _ IH]; [destruct Hx|]. destruct Hx as [->|Hx]; [left|right; auto]. destruct k'; cbn in E; congruence. }
    assert (Z : length (map disc q) = length (hd [] rs)).
    { destruct rs as [|r0 rs]; [destruct Y|]. cbn [hd]. destruct Y as [<-|Y]; auto. cbn [same_lengths] in ES. rewrite forallb_forall in ES. apply Nat.eqb_eq. auto. }
    rewrite map_length in Z. unfold len. congruence. }
  pose proof (X _ H1) as X1. pose proof (X _ H2) as X2. cbn [len1] in X1, X2. lia.
Qed.

(** ** [validate] *)
Definition StrKind (t : ty) : Prop :=
  In t [int64_t; float64_t; bool_t] \/ match t with NullT | DateT | TimeT _ | DateTimeT _ | TimeDeltaT _ => True | _ => False end \/ t = string_t.
Lemma or_else_kind r k : (forall t, r = Ok t -> StrKind t) -> (forall t, k = Ok t -> StrKind t) -> forall t, or_else r k = Ok t -> StrKind t.
Proof. intros H1 H2 t. destruct r as [u|[]]; cbn; auto; discriminate. Qed.
Lemma deltaparse_kind s t : deltaparse so s = Ok t -> StrKind t.
Proof.
  unfold deltaparse. destruct (words [] s) as [|v [|u [|]]]; try discriminate. destruct (so_float so v) as [[z|]|]; try discriminate.
  destruct (normalize_time_unit u) as [u'|]; [|discriminate]. cbn [bind]. destruct (_ && _); [|discriminate].
  unfold from_numpy. destruct (np_measure _) as [m|] eqn:E; [|discriminate]. cbn [bind]. unfold np_array. intro H; injection H as <-.
  change (np_measure (NTimedelta u' 1)) with (match assoc (np_name (NTimedelta u' 1)) type_registry with Some t => Ok t | None => mk_timedelta u' end) in E.
  replace (assoc (np_name (NTimedelta u' 1)) type_registry) with (@None ty) in E by reflexivity.
  right. left. unfold mk_timedelta in E. destruct (normalize_time_unit u') as [w|]; [|discriminate]. injection E as <-. exact I.
Qed.
Lemma str_kind s t : discover_str so s = Ok t -> StrKind t.
Proof.
  assert (K1 : forall t u, Ok u = Ok t -> StrKind u -> StrKind t) by (intros ? ? E; injection E as ->; auto).
  assert (KI : StrKind int64_t) by (left; cbn; auto). assert (KF : StrKind float64_t) by (left; cbn; auto).
  assert (KB : StrKind bool_t) by (left; cbn; auto). assert (KS : StrKind string_t) by (right; right; auto).
  unfold discover_str. destruct s as [|c s]; [intro H; injection H as <-; right; left; exact I|]. revert t.
  apply or_else_kind; [destruct (so_int so (c :: s)); intros t H; [eapply K1; eauto|discriminate]|].
  apply or_else_kind; [destruct (so_float so (c :: s)); intros t H; [eapply K1; eauto|discriminate]|].
  apply or_else_kind; [destruct (mem_str _ _); intros t H; [eapply K1; eauto|discriminate]|].
  apply or_else_kind; [intro t; apply deltaparse_kind|].
  apply or_else_kind; [destruct (so_time so (c :: s)); intros t H; [eapply K1; [exact H|]; right; left; exact I|discriminate]|].
  destruct (so_alpha so (c :: s) || _); [intros t H; eapply K1; eauto|].
  destruct (so_date so (c :: s)) as [[]|[]]; intros t H; try discriminate; (eapply K1; [exact H|]); auto; right; left; exact I.
Qed.
End Main.
