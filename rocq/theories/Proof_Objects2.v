(** Type sets as sets; issubschema on any objects; repr of arrays, records and tuples. *)
From Verif Require Import Base Types Lexer Printer Construct Parser Ops Preds Numpy User Objects
  Spec_WF Spec_Eq Spec_Objects Spec_Preds Spec_Print Proof_Eq Proof_Parser Proof_Objects Proof_Repr Prop_Parser Prop_Eq Prop_Print.
Local Open Scope Z_scope.

(** ** sets *)
Lemma set_add_in x l : exists y, In y (set_add (PvTy x) l) /\ (y = PvTy x \/ pv_eqb y (PvTy x) = true).
Proof.
  induction l as [|y l IH]; cbn [set_add].
  - exists (PvTy x). split; [left; auto|auto].
  - destruct (pv_eqb y (PvTy x)) eqn:E.
    + exists y. split; [left; auto|auto].
    + destruct IH as [z [H1 H2]]. exists z. split; [right; auto|auto].
Qed.
Lemma set_add_keep x l : incl l (set_add x l).
Proof.
  induction l as [|y l IH]; [intros ? []|]. cbn [set_add]. destruct (pv_eqb y x); [apply incl_refl|].
  intros z [<-|Hz]; [left; auto|right; apply IH; auto].
Qed.
Lemma set_add_new x l y : In y (set_add x l) -> In y l \/ y = x.
Proof.
  induction l as [|z l IH]; cbn [set_add]; [intros [<-|[]]; auto|].
  destruct (pv_eqb z x); [auto|]. intros [<-|H]; [left; left; auto|]. destruct (IH H); auto. left; right; auto.
Qed.
Lemma tys_of x l : (forall y, In y l -> exists t, y = PvTy t) -> forall y, In y (set_add (PvTy x) l) -> exists t, y = PvTy t.
Proof. intros H y Hy. apply set_add_new in Hy as [Hy| ->]; eauto. Qed.

(** the members of the set built from [l] *)
Definition distinct_types (l : list ty) : Prop :=
  forall i j a b, nth_error l i = Some a -> nth_error l j = Some b -> py_eq a b = true -> i = j.
Lemma distinct_snoc l x : distinct_types l -> (forall y, In y l -> py_eq y x = false) -> (forall y, In y l -> py_eq x y = false) ->
  distinct_types (l ++ [x]).
Proof.
  intros H H1 H2 i j a b Ha Hb E.
  destruct (Nat.lt_ge_cases i (length l)) as [Hi|Hi]; destruct (Nat.lt_ge_cases j (length l)) as [Hj|Hj].
  - rewrite nth_error_app1 in Ha, Hb by lia. eapply H; eauto.
  - rewrite nth_error_app1 in Ha by lia. rewrite nth_error_app2 in Hb by lia.
    destruct (j - length l)%nat as [|k] eqn:Ej; [|destruct k; discriminate]. injection Hb as <-.
    rewrite H1 in E; [discriminate|]. eapply nth_error_In; eauto.
  - rewrite nth_error_app1 in Hb by lia. rewrite nth_error_app2 in Ha by lia.
    destruct (i - length l)%nat as [|k] eqn:Ei; [|destruct k; discriminate]. injection Ha as <-.
    rewrite H2 in E; [discriminate|]. eapply nth_error_In; eauto.
  - rewrite nth_error_app2 in Ha, Hb by lia.
    destruct (i - length l)%nat as [|k] eqn:Ei; [|destruct k; discriminate].
    destruct (j - length l)%nat as [|k] eqn:Ej; [|destruct k; discriminate]. lia.
Qed.
Lemma set_add_snoc x l : (exists y, In y l /\ pv_eqb y x = true) /\ set_add x l = l \/
  (forall y, In y l -> pv_eqb y x = false) /\ set_add x l = l ++ [x].
Proof.
  induction l as [|y l IH]; cbn [set_add].
  - right. split; [intros ? []|reflexivity].
  - destruct (pv_eqb y x) eqn:E.
    + left. split; auto. exists y. split; [left; auto|auto].
    + destruct IH as [[[z [Hz Ez]] ->]|[H ->]].
      * left. split; auto. exists z. split; [right; auto|auto].
      * right. split; auto. intros z [<-|Hz]; auto.
Qed.
Lemma mkset_spec l : (forall a b, In a l -> In b l -> py_eq a b = py_eq b a) ->
  exists r, mkset (map PvTy l) = map PvTy r /\ incl r l /\ distinct_types r /\
    forall x, In x l -> exists y, In y r /\ py_eq y x = true.
Proof.
  unfold mkset. intro HS.
  assert (G : forall l0 r0, incl l0 l -> incl r0 l -> distinct_types r0 ->
    exists r, fold_left (fun s x => set_add x s) (map PvTy l0) (map PvTy r0) = map PvTy r /\ incl r l /\ distinct_types r /\
      incl r0 r /\ forall x, In x l0 -> exists y, In y r /\ py_eq y x = true).
  { induction l0 as [|x l0 IH]; intros r0 Hl Hr Hd; cbn [map fold_left].
    - exists r0. split; [reflexivity|]. split; auto. split; auto. split; [apply incl_refl|]. intros x [].
    - destruct (set_add_snoc (PvTy x) (map PvTy r0)) as [[[y [Hy Ey]] ->]|[HN ->]].
      + destruct (IH r0) as [r [E [H1 [H2 [H3 H4]]]]]; auto; [intros z Hz; apply Hl; right; auto|].
        exists r. split; auto. split; auto. split; auto. split; auto. intros z [<-|Hz]; auto.
        apply in_map_iff in Hy as [t [<- Ht]]. exists t. split; auto.
      + replace (map PvTy r0 ++ [PvTy x]) with (map PvTy (r0 ++ [x])) by (rewrite map_app; reflexivity).
        assert (HNN : forall y, In y r0 -> py_eq y x = false).
        { intros y Hy. exact (HN (PvTy y) (in_map PvTy _ _ Hy)). }
        destruct (IH (r0 ++ [x])) as [r [E [H1 [H2 [H3 H4]]]]].
        * intros z Hz; apply Hl; right; auto.
        * intros z Hz. apply in_app_iff in Hz as [Hz|[<-|[]]]; [auto|apply Hl; left; auto].
        * apply distinct_snoc; auto. intros y Hy. rewrite HS; auto. apply Hl; left; auto.
        * exists r. split; auto. split; auto. split; auto. split; [intros z Hz; apply H3, in_app_iff; auto|].
          intros z [<-|Hz]; auto. exists x. split; [apply H3, in_app_iff; right; left; auto|apply py_eq_refl]. }
  destruct (G l []) as [r [H1 [H2 [H3 [_ H4]]]]]; [apply incl_refl|intros ? []|intros [|i] j a b Ha; discriminate|].
  exists r. split; auto.
Qed.

(** ** issubschema *)
Lemma isds_form t : is_DataShape t = true -> exists n ps, t = DataShapeT n ps.
Proof. destruct t; try discriminate; eauto. Qed.
Lemma issub_dd E n x y : is_DataShape x = true -> is_DataShape y = true ->
  issubschema_any E (S n) (ATy x) (ATy y) = Ok (py_eq x y).
Proof. intros H1 H2. apply isds_form in H1 as [a [b ->]]. apply isds_form in H2 as [c [d ->]]. reflexivity. Qed.
Lemma issub_step E n a b x y : dshape_any E a = Ok x -> dshape_any E b = Ok y ->
  (exists t u, a = ATy t /\ b = ATy u /\ is_DataShape t = true /\ is_DataShape u = true) \/
  issubschema_any E (S n) a b = issubschema_any E n (ATy x) (ATy y).
Proof.
  intros H1 H2.
  destruct a as [s|t|l|], b as [s'|u|l'|]; try discriminate;
    try (right; cbn [issubschema_any]; rewrite H1, H2; reflexivity);
    try (right; cbn [issubschema_any]; destruct t; rewrite H1, H2; reflexivity).
  destruct (is_DataShape t) eqn:Et; [destruct (is_DataShape u) eqn:Eu; [left; exists t, u; auto|]|];
    right; cbn [issubschema_any]; [destruct t; try discriminate; destruct u; try discriminate|destruct t; try discriminate];
    rewrite H1, H2; reflexivity.
Qed.
Lemma dshape_ty_ds t : is_DataShape t = true -> dshape_ty t = Ok t.
Proof. intro H. apply isds_form in H as [n [l ->]]. reflexivity. Qed.
Lemma issub_ok E a b x y n : dshape_any E a = Ok x -> dshape_any E b = Ok y ->
  is_DataShape x = true -> is_DataShape y = true -> issubschema_any E (S (S n)) a b = Ok (py_eq x y).
Proof.
  intros H1 H2 D1 D2. destruct (issub_step E (S n) a b x y H1 H2) as [[t [u [-> [-> [T1 T2]]]]]|H].
  - cbn [dshape_any] in *. rewrite dshape_ty_ds in H1, H2 by auto. injection H1 as ->. injection H2 as ->. apply issub_dd; auto.
  - rewrite H. apply issub_dd; auto.
Qed.
Lemma issub_loop E n a b x y : disc_ok E -> dshape_any E a = Ok x -> dshape_any E b = Ok y ->
  is_DataShape x = false \/ is_DataShape y = false -> issubschema_any E n a b = Raise OutOfFuel.
Proof.
  intro HE. revert a b. induction n as [|n IH]; intros a b H1 H2 HD; [reflexivity|].
  destruct (issub_step E n a b x y H1 H2) as [[t [u [-> [-> [T1 T2]]]]]|H].
  - cbn [dshape_any] in *. rewrite dshape_ty_ds in H1, H2 by auto. injection H1 as ->. injection H2 as ->. destruct HD; congruence.
  - rewrite H. apply IH; auto; eapply dshape_any_idem; eauto.
Qed.

(** ** repr *)
Lemma repr_text U t m : Bare (pp U m t) -> exists lit, in_quotes (pp U m t) = lit /\ Literal lit (pp U m t).
Proof. intro H. eexists. split; [reflexivity|]. apply in_quotes_Literal; auto. Qed.

(** ** the registry of type sets *)
Lemma ts_new_keep l n k t r r' v : ts_new l n r = Ok (v, r') -> assoc k r = Some t -> assoc k r' = Some t.
Proof.
  unfold ts_new. destruct n as [[|c n]|]; intros H Hk; try (injection H as _ <-; exact Hk).
  destruct (assoc (c :: n) r) eqn:E; [discriminate|]. injection H as _ <-. unfold reg_set. cbn [assoc].
  destruct (str_eqb k (c :: n)) eqn:Ek; [|exact Hk]. apply str_eqb_eq in Ek. subst. congruence.
Qed.
Lemma ts_run_keep h r k t : assoc k r = Some t -> assoc k (ts_run h r) = Some t.
Proof.
  unfold ts_run. revert r. induction h as [|p h IH]; intros r H; cbn [fold_left]; auto. apply IH.
  destruct (ts_new (fst p) (snd p) r) as [[v r']|] eqn:E; auto. eapply ts_new_keep; eauto.
Qed.
Lemma ts_run_first pre l n post reg : n <> [] -> ts_getitem n reg = Raise KeyErr ->
  (forall p, In p pre -> snd p <> Some n) ->
  ts_getitem n (ts_run (pre ++ (l, Some n) :: post) reg) = Ok (TypeSetT l (Some n)).
Proof.
  intros Hn H0 Hp. unfold ts_getitem in *.
  assert (H1 : assoc n (ts_run pre reg) = None).
  { assert (HN : assoc n reg = None) by (destruct (assoc n reg); [discriminate|auto]). clear H0. revert reg HN.
    induction pre as [|p pre IH]; intros reg HN; auto. unfold ts_run. cbn [fold_left]. apply IH; [intros q Hq; apply Hp; right; auto|].
    destruct (ts_new (fst p) (snd p) reg) as [[v r']|] eqn:E; auto.
    assert (Hpn := Hp p (or_introl eq_refl)). unfold ts_new in E. destruct (snd p) as [[|c m]|]; try (injection E as _ <-; exact HN).
    destruct (assoc (c :: m) reg) eqn:E1; [discriminate|]. injection E as _ <-. unfold reg_set. cbn [assoc].
    destruct (str_eqb n (c :: m)) eqn:Ek; [|exact HN]. apply str_eqb_eq in Ek. congruence. }
  unfold ts_run. rewrite fold_left_app. cbn [fold_left fst snd]. fold (ts_run pre reg).
  set (r0 := ts_run pre reg) in *. clearbody r0.
  assert (H2 : ts_new l (Some n) r0 = Ok (TypeSetT l (Some n), reg_set ty n (TypeSetT l (Some n)) r0)).
  { unfold ts_new. destruct n; [congruence|]. rewrite H1. reflexivity. }
  rewrite H2. fold (ts_run post (reg_set ty n (TypeSetT l (Some n)) r0)).
  rewrite (ts_run_keep post _ n (TypeSetT l (Some n))); auto. unfold reg_set. cbn [assoc]. rewrite str_eqb_refl. reflexivity.
Qed.
