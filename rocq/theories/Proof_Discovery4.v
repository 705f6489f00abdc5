(** Columns with a type outside the coercion table; independence of order and schedule. *)
From Verif Require Import Base Types Lexer Printer Construct Parser Ops Preds Numpy Graph Discovery
  Spec_Eq Spec_WF Spec_Graph Spec_Ops Spec_Discovery Spec_Dicts Proof_WF Proof_Eq Proof_Ops Proof_Graph
  Proof_Coerce Proof_Discovery Proof_Discovery2.
From Coq Require Import Permutation Sorting.Sorted.

Lemma unpack_Scalar t : Scalar t -> unpack t = t.
Proof. intro H; destruct H; reflexivity. Qed.
Lemma isnull_Scalar t : Scalar t -> isnull t = true -> Known t.
Proof.
  intros S H. unfold isnull in H. apply orb_true_iff in H as [H|H].
  - apply (unit_eq_l t nNull) in H; [|now apply Scalar_is_Unit]. subst. apply Known_nd. now exists nNull.
  - assert (H' : py_eq t NullT = true).
    { eapply py_eq_trans; [exact H|]. reflexivity. }
    apply (unit_eq_l t nNull) in H'; [|now apply Scalar_is_Unit]. subst. apply Known_nd. now exists nNull.
Qed.
Lemma unite_base_unknown sc ts : Forall Scalar ts -> ~ Forall Known ts -> unite_base sc ts = Raise ValueErr.
Proof.
  intros S K. unfold unite_base. cbn [unite_baseF].
  assert (E : map unpack ts = ts).
  { clear K. induction S as [|t ts H _ IH]; simpl; [reflexivity|]. now rewrite IH, unpack_Scalar. }
  rewrite E. unfold groupby_bool.
  assert (KG : ~ Forall Known (filter (fun x => negb (isnull x)) ts)).
  { intro HG. apply K. rewrite Forall_forall in *. intros t Ht. destruct (isnull t) eqn:En.
    - apply isnull_Scalar; auto.
    - apply HG. apply filter_In. now rewrite En. }
  assert (SG : Forall Scalar (filter (fun x => negb (isnull x)) ts)).
  { rewrite Forall_forall in *. intros t Ht. apply filter_In in Ht as [Ht _]; auto. }
  destruct (filter (fun x => negb (isnull x)) ts) as [|g0 gr] eqn:Eg; [exfalso; apply KG; constructor|].
  rewrite <- Eg in *.
  replace (forallb is_Unit (filter (fun x => negb (isnull x)) ts)) with true.
  2:{ symmetry. apply forallb_forall. intros t Ht. rewrite Forall_forall in SG. now apply Scalar_is_Unit, SG. }
  rewrite lowest_common_unknown by assumption. reflexivity.
Qed.
Lemma column_unknown sc ts : Forall Scalar ts -> ~ Forall Known ts -> Forall WF ts -> Forall NoTypeSet ts ->
  (exists t u, In t ts /\ In u ts /\ py_eq t u = false) ->
  column_type sc (map Ok ts) = Raise ValueErr.
Proof.
  intros S K W NT [t [u [Ht [Hu D1]]]]. unfold column_type. rewrite mapM_id_Ok. cbn [bind do_one]. unfold unite_identical at 1.
  destruct (all_same ts) eqn:E.
  - exfalso. destruct ts as [|x ts]; [destruct Ht|]. cbn [all_same] in E. rewrite forallb_forall in E.
    assert (Hx : forall y, In y (x :: ts) -> py_eq y x = true) by (intros y [<-|Hy]; [apply py_eq_refl|auto]).
    rewrite Forall_forall in W, NT.
    rewrite (py_eq_trans t x u) in D1; [discriminate|auto|].
    rewrite py_eq_sym; auto; try apply wf_WF; try apply no_typeset_spec; try (apply W); try (apply NT); auto; now left.
  - rewrite unite_base_unknown by assumption. reflexivity.
Qed.

(** the least upper bound does not depend on the order *)
Lemma IsLub_perm ts us u : Permutation ts us -> IsLub ts u -> IsLub us u.
Proof.
  intros P [H1 H2]. split.
  - intros t Ht. apply H1. eapply Permutation_in; [apply Permutation_sym; eassumption|exact Ht].
  - intros v Hv. apply H2. intros t Ht. apply Hv. eapply Permutation_in; eassumption.
Qed.
Lemma lowest_common_order sc sc' ts us : ts <> [] -> Forall Known ts -> Permutation ts us ->
  lowest_common sc ts = lowest_common sc' us.
Proof.
  intros Hne K P. destruct (lowest_common_lub sc ts Hne K) as [u [E1 [K1 L1]]].
  assert (Hne' : us <> []) by (intros ->; apply Permutation_sym, Permutation_nil in P; congruence).
  assert (K' : Forall Known us) by (eapply Permutation_Forall; eauto).
  destruct (lowest_common_lub sc' us Hne' K') as [v [E2 [K2 L2]]]. rewrite E1, E2. f_equal.
  apply (IsLub_unique us); auto. eapply IsLub_perm; eauto.
Qed.
Lemma IsLubOf_unique (P : ty -> Prop) u v : Known u -> Known v -> IsLubOf P u -> IsLubOf P v -> u = v.
Proof.
  intros Ku Kv [U1 U2] [V1 V2]. apply Known_nd in Ku as [a ->]. apply Known_nd in Kv as [b ->].
  f_equal. apply nle_antisym; apply Coerces_nle; auto.
Qed.
Lemma ColumnType_unique ts F G : ColumnType ts F -> ColumnType ts G -> F = G.
Proof.
  intros [[H1 ->]|[T [K [L [[t [Ht1 Ht2]] H]]]]] [[H2 ->]|[T' [K' [L' [[t' [Ht1' Ht2']] H']]]]].
  - reflexivity.
  - destruct (Ht2' (H1 _ Ht1')).
  - destruct (Ht2 (H2 _ Ht1)).
  - assert (T = T') by (eapply IsLubOf_unique; eauto). subst.
    destruct H as [[N ->]|[N ->]]; destruct H' as [[N' ->]|[N' ->]]; auto; contradiction.
Qed.
Lemma ColumnType_perm ts us F : Permutation ts us -> ColumnType ts F -> ColumnType us F.
Proof.
  intros P.
  assert (I : forall t, In t ts <-> In t us).
  { intro t. split; intro H; (eapply Permutation_in; [|exact H]); auto. now apply Permutation_sym. }
  intros [[H1 ->]|[T [K [[L1 L2] [[t [Ht1 Ht2]] H]]]]].
  - left. split; [|reflexivity]. intros t Ht. apply H1, I, Ht.
  - right. exists T. split; [exact K|]. split; [|split].
    + split; [intros x [Hx Hn]; apply L1; rewrite I; auto|]. intros v Hv. apply L2. intros x [Hx Hn]. apply Hv. rewrite <- I; auto.
    + exists t. rewrite <- I. auto.
    + rewrite <- I. exact H.
Qed.
Lemma unite_base_order sc sc' ts us : Forall Known ts -> Permutation ts us ->
  unite_base sc ts = unite_base sc' us.
Proof.
  intros K P. assert (K' : Forall Known us) by (eapply Permutation_Forall; eauto).
  unfold unite_base. destruct (unite_base_column sc (S (lsize ts)) ts K) as [F [E1 C1]].
  destruct (unite_base_column sc' (S (lsize us)) us K') as [G [E2 C2]]. rewrite E1, E2.
  rewrite (Permutation_length P). do 4 f_equal. f_equal.
  apply (ColumnType_unique us); auto. eapply ColumnType_perm; eauto.
Qed.

(** ** The schedule of the topological sort is not observable *)
Lemma lowest_common_sched sc sc' l : forallb is_Unit l = true -> l <> [] ->
  lowest_common sc l = lowest_common sc' l.
Proof.
  intros U N.
  assert (D : Forall Known l \/ ~ Forall Known l).
  { clear. induction l as [|x l [IH|IH]]; [left; constructor| |right; intro H; apply IH; now inversion H].
    destruct (Known_dec x); [left; now constructor|right; intro H0; apply H; now inversion H0]. }
  destruct D as [K|K]; [now apply lowest_common_order|].
  assert (S : Forall Scalar l).
  { apply Forall_forall. intros t Ht. apply Scalar_is_Unit. rewrite forallb_forall in U. auto. }
  now rewrite !lowest_common_unknown.
Qed.
Lemma mapM_ext_In {A B} (f g : A -> res B) l : (forall x, In x l -> f x = g x) -> mapM f l = mapM g l.
Proof.
  induction l as [|x l IH]; intro H; [reflexivity|]. rewrite !mapM_cons, (H x) by now left.
  rewrite IH; [reflexivity|]. intros y Hy. apply H. now right.
Qed.
Lemma unite_baseF_sched sc sc' n : forall l, unite_baseF sc n l = unite_baseF sc' n l.
Proof.
  induction n as [|n IH]; intro l; [reflexivity|]. cbn [unite_baseF].
  destruct (groupby_bool isnull (map unpack l)) as [good nulls]. destruct good as [|g0 gr]; [reflexivity|].
  destruct (forallb is_Unit (g0 :: gr)) eqn:U.
  - now rewrite (lowest_common_sched sc sc').
  - assert (EM : forall fs, mapM (fun f : str * ty =>
      let! col := mapM (dict_get_null (fst f)) (g0 :: gr) in
      let! u := unite_baseF sc n col in let! s := subshape (IxInt 0) u in Ok (fst f, PTy s)) fs =
      mapM (fun f : str * ty =>
      let! col := mapM (dict_get_null (fst f)) (g0 :: gr) in
      let! u := unite_baseF sc' n col in let! s := subshape (IxInt 0) u in Ok (fst f, PTy s)) fs).
    { intro fs. apply mapM_ext_In. intros f _. destruct (mapM _ _); [|reflexivity]. cbn [bind]. now rewrite IH. }
    destruct g0; first [rewrite EM; reflexivity | reflexivity].
Qed.
Lemma column_sched sc sc' col : column_type sc col = column_type sc' col.
Proof.
  unfold column_type. destruct (mapM (fun r => r) col); [|reflexivity]. cbn [bind do_one]. unfold unite_base.
  now rewrite (unite_baseF_sched sc sc').
Qed.
Lemma discover_seq_sched sc sc' own rows dicts :
  discover_seq sc own rows dicts = discover_seq sc' own rows dicts.
Proof.
  unfold discover_seq. destruct own as [|o own]; [reflexivity|].
  assert (ED : forall ds, discover_dicts sc ds = discover_dicts sc' ds).
  { intro ds. unfold discover_dicts. now rewrite (mapM_ext_In _ (fun key => column_type sc' (map (get_or_null key) ds)))
      by (intros; apply column_sched). }
  assert (ER : forall rs, discover_rows sc rs = discover_rows sc' rs).
  { intro rs. unfold discover_rows. now rewrite (mapM_ext_In _ (column_type sc')) by (intros; apply column_sched). }
  destruct (all_some dicts), (all_some rows); try rewrite ED; try rewrite ER; reflexivity.
Qed.
Theorem discover_sched sc sc' so v : discover sc so v = discover sc' so v.
Proof.
  enough (H : discover sc so v = discover sc' so v /\
    match v with
    | DSeq _ l => map (discover sc so) l = map (discover sc' so) l
    | DMap _ d => map (fun kv => (fst kv, discover sc so (snd kv))) d = map (fun kv => (fst kv, discover sc' so (snd kv))) d
    | _ => True
    end) by apply H.
  induction v as [v Hv|k l H|k l H] using dval_ind'.
  - destruct v; try contradiction; split; auto.
  - assert (E : map (discover sc so) l = map (discover sc' so) l).
    { induction H as [|x l [Hx _] _ IH]; simpl; congruence. }
    split; [|exact E]. rewrite !discover_seq_eq, E.
    assert (ER : map (row_of sc so) l = map (row_of sc' so) l).
    { clear E. induction H as [|x l [_ Hx] _ IH]; cbn [map]; [reflexivity|]. apply (f_equal2 cons); [|exact IH].
      destruct x; cbn [row_of]; first [rewrite Hx; destruct k0; exact eq_refl|exact eq_refl]. }
    assert (EDD : map (dict_of sc so) l = map (dict_of sc' so) l).
    { clear E ER. induction H as [|x l [_ Hx] _ IH]; cbn [map]; [reflexivity|]. apply (f_equal2 cons); [|exact IH].
      destruct x; cbn [dict_of]; unfold items; first [rewrite Hx; destruct k0; exact eq_refl|exact eq_refl]. }
    rewrite ER, EDD. apply discover_seq_sched.
  - assert (E : map (fun kv => (fst kv, discover sc so (snd kv))) l = map (fun kv => (fst kv, discover sc' so (snd kv))) l).
    { induction H as [|x l [Hx _] _ IH]; simpl; congruence. }
    split; [|exact E]. cbn [discover]. now rewrite E.
Qed.
