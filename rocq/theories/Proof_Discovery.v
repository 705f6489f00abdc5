(** Columns of scalars (C33), one entry per element (C34). *)
From Verif Require Import Base Types Lexer Printer Construct Parser Ops Preds Numpy Graph Discovery
  Spec_Discovery Proof_Coerce Spec_WF Proof_WF Proof_Ops.
From Coq Require Import Relations Permutation.
Local Open Scope Z_scope.

(** ** multiplication by an int and [.subshape[0]] *)
Lemma mk_datashape_shape n l t : mk_datashape no_dsh n (map PTy l) = Ok t ->
  t = DataShapeT n (map launder_ty l) /\ l <> [].
Proof.
  intro H. assert (Hne : l <> []) by (intro; subst; discriminate H). split; [|exact Hne].
  rewrite mk_datashape_PTy in H by exact Hne.
  unfold check_datashape in H. destruct (negb (may_be_measure _)); [discriminate|].
  destruct (forallb may_be_dim _); inversion H; reflexivity.
Qed.
Lemma mul_int_inv n t u : mul_int n t = Ok u ->
  0 <= n /\ u = DataShapeT None (FixedT n :: map launder_ty (match t with DataShapeT _ ps => ps | _ => [t] end)).
Proof.
  unfold mul_int, py_mul, py_rmul, datashape_rmul, mk_fixed. destruct (Z.ltb_spec n 0) as [L|L].
  - destruct t; cbn [bind]; discriminate.
  - split; [exact L|]. destruct t; cbn [bind] in *;
    (match goal with H : mk_datashape _ _ ?l = Ok _ |- _ = DataShapeT _ (_ :: map launder_ty ?ps) =>
       change l with (map PTy (FixedT n :: ps)) in H end);
    apply mk_datashape_shape in H as [-> _]; reflexivity.
Qed.

Lemma unit_col n t : is_Unit t = true -> ~ DimensionClass t -> 0 <= n ->
  mul_int n t = Ok (DataShapeT None [FixedT n; t]).
Proof.
  intros U D Hn. unfold mul_int, py_mul, py_rmul, mk_fixed. destruct (Z.ltb_spec n 0); [lia|].
  destruct t; try discriminate U; cbn [bind]; try (exfalso; apply D; constructor); reflexivity.
Qed.
Lemma option_col n t : 0 <= n -> mul_int n (OptionT t) = Ok (DataShapeT None [FixedT n; OptionT t]).
Proof.
  intro Hn. unfold mul_int, py_mul, py_rmul, mk_fixed. destruct (Z.ltb_spec n 0); [lia|]. reflexivity.
Qed.

(** ** C33 *)
Definition null_in (l : list ty) : bool := existsb isnull l.
Lemma isnull_nd a : isnull (nd a) = node_eqb a nNull.
Proof. destruct a; vm_compute; reflexivity. Qed.
Lemma unpack_nd a : unpack (nd a) = nd a.
Proof. destruct a; reflexivity. Qed.
Lemma Known_unit t : Known t -> is_Unit t = true /\ ~ DimensionClass t /\ unpack t = t /\ launder_ty t = t.
Proof.
  intro K. apply Known_nd in K as [a ->].
  split; [destruct a; reflexivity|]. split; [destruct a; intro H; inversion H|]. split; destruct a; reflexivity.
Qed.
Lemma isnull_Known t : Known t -> (isnull t = true <-> t = NullT).
Proof.
  intro K. apply Known_nd in K as [a ->]. rewrite isnull_nd, node_eqb_spec. split; [intros ->; reflexivity|].
  intro H. apply (nd_inj a nNull). exact H.
Qed.
Lemma map_unpack_Known ts : Forall Known ts -> map unpack ts = ts.
Proof. induction 1 as [|t ts K _ IH]; simpl; [reflexivity|]. rewrite IH. f_equal. now apply Known_unit. Qed.

Lemma unite_base_known sc n ts : Forall Known ts -> unite_baseF sc (S n) ts =
  Ok (DataShapeT None [FixedT (Z.of_nat (length ts)); NullT]) /\ (forall t, In t ts -> t = NullT)
  \/ exists T, Known T /\ IsLubOf (fun t => In t ts /\ t <> NullT) T /\ (exists t, In t ts /\ t <> NullT) /\
     ((In NullT ts /\ unite_baseF sc (S n) ts = Ok (DataShapeT None [FixedT (Z.of_nat (length ts)); OptionT T])) \/
      (~ In NullT ts /\ unite_baseF sc (S n) ts = Ok (DataShapeT None [FixedT (Z.of_nat (length ts)); T]))).
Proof.
  intro K. cbn [unite_baseF]. rewrite map_unpack_Known by exact K. unfold groupby_bool.
  assert (Hnull : forall t, In t ts -> (isnull t = true <-> t = NullT)).
  { intros t Ht. apply isnull_Known. rewrite Forall_forall in K; auto. }
  remember (filter (fun x => negb (isnull x)) ts) as good eqn:Eg.
  assert (Hg : forall t, In t good <-> In t ts /\ t <> NullT).
  { intro t. subst good. rewrite filter_In, negb_true_iff. split; intros [H1 H2]; split; auto.
    - intro E. apply Hnull in E; [congruence|exact H1].
    - destruct (isnull t) eqn:E; [|reflexivity]. apply Hnull in E; [contradiction|exact H1]. }
  destruct good as [|g0 gr] eqn:Egood.
  - left. split.
    + unfold len. apply unit_col; [reflexivity|intro H; inversion H|lia].
    + intros t Ht. destruct (isnull t) eqn:E; [now apply Hnull|]. exfalso. apply (proj2 (Hg t)).
      split; [exact Ht|]. intro; subst t. rewrite (proj2 (Hnull NullT Ht) eq_refl) in E. discriminate.
  - right. rewrite <- Egood in *.
    assert (KG : Forall Known good).
    { apply Forall_forall. intros t Ht. apply Hg in Ht as [Ht _]. rewrite Forall_forall in K; auto. }
    replace (forallb is_Unit good) with true.
    2:{ symmetry. apply forallb_forall. intros t Ht. rewrite Forall_forall in KG. now apply Known_unit, KG. }
    destruct (lowest_common_lub sc good) as [T [L1 [L2 L3]]]; [rewrite Egood; discriminate|exact KG|].
    exists T. split; [exact L2|]. split.
    { destruct L3 as [L3 L4]. split.
      - intros t Ht. apply L3, Hg, Ht.
      - intros v Hv. apply L4. intros t Ht. apply Hv, Hg, Ht. }
    split. { exists g0. apply Hg. rewrite Egood. now left. }
    rewrite L1. cbn [bind].
    destruct (filter isnull ts) as [|x nulls] eqn:En.
    + right. split.
      * intro H. assert (In NullT (filter isnull ts)) by (apply filter_In; split; [auto|now apply Hnull]).
        rewrite En in H0. destruct H0.
      * cbn [bind]. destruct (Known_unit T L2) as [U [D _]]. unfold len. apply unit_col; auto. lia.
    + left. assert (Hx : In x ts /\ isnull x = true) by (apply filter_In; rewrite En; now left).
      destruct Hx as [Hx1 Hx2]. split; [apply Hnull in Hx2; now subst|].
      cbn [mk_option launder bind]. destruct (Known_unit T L2) as [_ [_ [_ ->]]]. apply option_col. unfold len; lia.
Qed.

Lemma unite_base_column sc n ts : Forall Known ts -> exists F,
  unite_baseF sc (S n) ts = Ok (DataShapeT None [FixedT (Z.of_nat (length ts)); F]) /\ ColumnType ts F.
Proof.
  intro K. destruct (unite_base_known sc n ts K) as [[H1 H2]|[T [H1 [H2 [H3 [[H4 H5]|[H4 H5]]]]]]].
  - exists NullT. split; [exact H1|]. left; auto.
  - exists (OptionT T). split; [exact H5|]. right. exists T. auto 8.
  - exists T. split; [exact H5|]. right. exists T. auto 8.
Qed.
Lemma ColumnType_simple ts F : ColumnType ts F -> is_DataShape F = false /\ ~ DimensionClass F /\ ~ Lone F.
Proof.
  intros [[_ ->]|[T [K [_ [_ [[_ ->]|[_ ->]]]]]]].
  - split; [reflexivity|]. split; [intro H; inversion H|intros [? [? E]]; discriminate].
  - split; [reflexivity|]. split; [intro H; inversion H|intros [? [? E]]; discriminate].
  - apply Known_nd in K as [a ->]. split; [destruct a; reflexivity|].
    split; [destruct a; intro H; inversion H|intros [? [? E]]; destruct a; discriminate].
Qed.
Lemma subshape0_col n F : ~ DimensionClass F -> ~ Lone F ->
  subshape (IxInt 0) (DataShapeT None [FixedT n; F]) = Ok (DataShapeT None [F]).
Proof.
  intros D L. change (subshape (IxInt 0) (DataShapeT None [FixedT n; F])) with (subarray (DataShapeT None [FixedT n; F]) 1).
  apply sub1; [|constructor]. exists [], F. split; [reflexivity|]. split; [exact D|]. split; [intros ? []|].
  intros x [<-|[]]. exact L.
Qed.
Lemma mapM_id_Ok {A} (l : list A) : mapM (fun r => r) (map Ok l) = Ok l.
Proof. induction l as [|x l IH]; [reflexivity|]. cbn [map]. rewrite mapM_cons, IH. reflexivity. Qed.

Lemma IsLubOf_self (P : ty -> Prop) t : P t -> (forall u, P u -> u = t) -> IsLubOf P t.
Proof.
  intros H1 H2. split.
  - intros u Hu. rewrite (H2 u Hu). apply rt_refl.
  - intros v Hv. auto.
Qed.
Lemma column_known sc ts : ts <> [] -> Forall Known ts -> exists F,
  column_type sc (map Ok ts) = Ok (DataShapeT None [F]) /\ ColumnType ts F.
Proof.
  intros Hne K. unfold column_type. rewrite mapM_id_Ok. cbn [bind do_one]. unfold unite_identical at 1.
  destruct (all_same ts) eqn:E.
  - destruct ts as [|x ts]; [congruence|].
    assert (Kx : Known x) by now inversion K.
    assert (HS : forall t, In t (x :: ts) -> t = x).
    { intros t [<-|Ht]; [reflexivity|]. cbn [all_same] in E. rewrite forallb_forall in E. specialize (E t Ht).
      assert (Kt : Known t) by (rewrite Forall_forall in K; apply K; now right).
      apply Known_nd in Kx as [a ->]. apply Known_nd in Kt as [b ->]. rewrite nd_eqb in E.
      apply node_eqb_spec in E. now subst. }
    assert (C : ColumnType (x :: ts) x).
    { assert (D : x = NullT \/ x <> NullT).
      { pose proof (isnull_Known x Kx) as I. destruct (isnull x) eqn:En; [left; now apply I|].
        right. intro H. apply I in H. discriminate. }
      destruct D as [D|D].
      - left. split; [|exact D]. intros t Ht. now rewrite (HS t Ht).
      - right. exists x. split; [exact Kx|]. split.
        + apply IsLubOf_self; [split; [now left|exact D]|]. intros u [Hu _]. auto.
        + split; [exists x; split; [now left|exact D]|]. right. split; [|reflexivity].
          intro H. apply HS in H. congruence. }
    destruct (Known_unit x Kx) as [U [D _]].
    rewrite unit_col by (auto; unfold len; lia). cbn [bind].
    exists x. split; [|exact C]. apply ColumnType_simple in C as [_ [_ L]]. now apply subshape0_col.
  - destruct (unite_base_column sc (S (lsize ts)) ts K) as [F [H1 H2]]. unfold unite_base. rewrite H1. cbn [bind].
    exists F. split; [|exact H2]. apply ColumnType_simple in H2 as [_ [D L]]. now apply subshape0_col.
Qed.

(** ** C34 *)
Lemma mapM_length {A B} (f : A -> res B) l l' : mapM f l = Ok l' -> length l' = length l.
Proof.
  intro H. apply mapM_Ok_Forall2 in H. induction H; simpl; congruence.
Qed.
Definition one_per_element (n : nat) (t : ty) : Prop :=
  (exists r, t = DataShapeT None (FixedT (Z.of_nat n) :: r)) \/ (exists ds, t = TupleT ds /\ length ds = n).
Lemma mul_len {A} (l : list A) x t : mul_int (len l) x = Ok t -> one_per_element (length l) t.
Proof. intro H. apply mul_int_inv in H as [_ ->]. left. eauto. Qed.
Lemma unite_identical_len l t : unite_identical l = Ok (Some t) -> one_per_element (length l) t.
Proof.
  unfold unite_identical. destruct (all_same l); [|discriminate]. destruct l as [|x r]; [discriminate|].
  destruct (mul_int (len (x :: r)) x) eqn:E; [|discriminate]. cbn [bind]. intro H; inversion H; subst.
  eapply mul_len; eauto.
Qed.
Lemma unite_merge_len l t : unite_merge l = Ok (Some t) -> one_per_element (length l) t.
Proof.
  unfold unite_merge. destruct (forallb _ l); [|discriminate].
  destruct (mapM (subshape (IxInt 0)) l) as [subs|]; [|discriminate]. cbn [bind].
  destruct (unite_identical subs) as [[b|]|]; cbn [bind]; try discriminate.
  destruct (subshape (IxInt 0) b) as [s|]; [|discriminate]. cbn [bind].
  destruct (if all_same (map ds_head l) then mul_ty (hd VarT (map ds_head l)) s else mul_ty VarT s) as [i|]; [|discriminate].
  cbn [bind]. destruct (mul_int (len l) i) eqn:E; [|discriminate]. cbn [bind]. intro H; inversion H; subst.
  eapply mul_len; eauto.
Qed.
Lemma unite_final_len l t : unite_final l = Ok t -> one_per_element (length l) t.
Proof.
  unfold unite_final. cbn [do_one].
  destruct (unite_identical l) as [[a|]|] eqn:E1; cbn [bind]; try discriminate.
  - intro H; inversion H; subst. now apply unite_identical_len.
  - destruct (unite_merge l) as [[b|]|] eqn:E2; cbn [bind]; try discriminate.
    + intro H; inversion H; subst. now apply unite_merge_len.
    + unfold tuple_of, mk_tuple. destruct (mapM (tuple_item no_dsh) (map PTy l)) as [ds|] eqn:E3; cbn [bind]; [|discriminate].
      intro H; inversion H; subst. right. exists ds. split; [reflexivity|].
      apply mapM_length in E3. now rewrite map_length in E3.
Qed.
Lemma all_some_length {B} (l : list (option B)) l' : all_some l = Some l' -> length l' = length l.
Proof.
  revert l'; induction l as [|[x|] l IH]; intros l'; simpl; try discriminate.
  - intro H; inversion H; reflexivity.
  - destruct (all_some l); [|discriminate]. intro H; inversion H; subst. simpl. f_equal. auto.
Qed.
Lemma discover_seq_len sc own rows dicts t : own <> [] ->
  length rows = length own -> length dicts = length own ->
  discover_seq sc own rows dicts = Ok t -> one_per_element (length own) t.
Proof.
  intros Hne H1 H2. unfold discover_seq.
  assert (F : forall t, (let! types := mapM (fun r => r) own in unite_final types) = Ok t -> one_per_element (length own) t).
  { intros u H. destruct (mapM (fun r => r) own) as [ts|] eqn:E; [|discriminate]. cbn [bind] in H.
    apply mapM_length in E. rewrite <- E. now apply unite_final_len. }
  remember (let! types := mapM (fun r => r) own in unite_final types) as fb eqn:Efb. clear Efb.
  destruct own as [|o own']; [congruence|]. remember (o :: own') as own.
  assert (G : forall t, match all_some dicts with Some ds => on_attribute_error (discover_dicts sc ds) fb | None => fb end = Ok t ->
              one_per_element (length own) t).
  { intros u H. destruct (all_some dicts) as [ds|] eqn:E; [|now apply F].
    destruct (discover_dicts sc ds) as [r|e] eqn:Ed.
    - cbn [on_attribute_error] in H. inversion H; subst r. unfold discover_dicts in Ed.
      destruct (mapM _ _) as [types|]; [|discriminate]. cbn [bind] in Ed.
      destruct (mk_record no_dsh _) as [rc|]; [|discriminate]. cbn [bind] in Ed.
      apply mul_len in Ed. apply all_some_length in E. rewrite E, H2 in Ed. exact Ed.
    - destruct e; try discriminate H; now apply F. }
  destruct (all_some rows) as [rs|] eqn:E; [|now apply G].
  destruct (same_lengths rs); [|now apply G].
  intro H. destruct (discover_rows sc rs) as [r|e] eqn:Ed.
  - cbn [on_attribute_error] in H. inversion H; subst r. unfold discover_rows in Ed.
    destruct (mapM _ _) as [types|]; [|discriminate]. cbn [bind] in Ed.
    destruct (unite_final types) as [rc|]; [|discriminate]. cbn [bind] in Ed.
    apply mul_len in Ed. apply all_some_length in E. rewrite E, H1 in Ed. exact Ed.
  - destruct e; try discriminate H; now apply G.
Qed.
Theorem discover_one_per_element sc so k l t : l <> [] -> discover sc so (DSeq k l) = Ok t ->
  one_per_element (length l) t.
Proof.
  intros Hne H. cbn [discover] in H. apply discover_seq_len in H; rewrite ?map_length in *; auto.
  intro E. apply map_eq_nil in E. contradiction.
Qed.
