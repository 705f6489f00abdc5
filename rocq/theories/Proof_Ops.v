(** Proofs for [*], subarray, subshape. *)
From Coq Require Import Sorting.Sorted Sorting.Permutation.
From Verif Require Import Base Types Construct Parser Ops Spec_WF Spec_Ops Proof_WF Proof_Eq Proof_Parser Proof_Slice.
Local Open Scope Z_scope.

(** component lists of well-formed DataShapes *)
Definition okps (ps : list ty) : Prop := Inv (DataShapeT None ps).
Lemma okps_spec ps : okps ps <->
  exists dims m, ps = dims ++ [m] /\ ~ DimensionClass m /\
        (forall d, In d dims -> ~ MeasureClass d) /\ (forall x, In x ps -> ~ Lone x).
Proof. reflexivity. Qed.
Lemma okps_nonnil ps : okps ps -> ps <> [].
Proof. intros [d [m [-> _]]] H. destruct d; discriminate. Qed.
Lemma okps_cons d ps : okps ps -> ~ MeasureClass d -> ~ Lone d -> okps (d :: ps).
Proof.
  intros [ds [m [-> [H1 [H2 H3]]]]] Hd HL. exists (d :: ds), m. split; [reflexivity|]. split; auto. split.
  - intros x [<-|Hx]; auto.
  - intros x [<-|Hx]; auto.
Qed.
Lemma okps_tail d ps : okps (d :: ps) -> ps <> [] -> okps ps.
Proof.
  intros [ds [m [E [H1 [H2 H3]]]]] N. destruct ds as [|x ds].
  { injection E as _ ->. contradiction. }
  injection E as -> ->. exists ds, m. split; [reflexivity|]. split; auto. split.
  - intros y Hy; apply H2; right; auto.
  - intros y Hy; apply H3; right; auto.
Qed.

Lemma map_launder_id l : (forall x, In x l -> ~ Lone x) -> map launder_ty l = l.
Proof.
  intro H. rewrite <- (map_id l) at 2. apply map_ext_in. intros x Hx. apply launder_id. apply not_Lone; auto.
Qed.
Lemma mk_datashape_PTy dsh n ps : ps <> [] ->
  mk_datashape dsh n (map PTy ps) = check_datashape n (map launder_ty ps).
Proof.
  intro H. assert (E : mk_datashape dsh n (map PTy ps) = let! l := mapM (launder dsh) (map PTy ps) in check_datashape n l).
  { destruct ps as [|x [|y r]]; [contradiction| |]; reflexivity. }
  rewrite E, mapM_launder_PTy. reflexivity.
Qed.
Lemma check_datashape_ok n ps : okps ps -> check_datashape n ps = Ok (DataShapeT n ps).
Proof.
  intros [ds [m [-> [H1 [H2 H3]]]]]. unfold check_datashape. rewrite last_last, removelast_last.
  replace (may_be_measure m) with true by (symmetry; apply may_be_measure_spec; auto). simpl.
  replace (forallb may_be_dim ds) with true; [reflexivity|]. symmetry. apply forallb_forall. intros d Hd.
  apply may_be_dim_spec; auto.
Qed.
Lemma mk_datashape_ok dsh n ps : okps ps -> mk_datashape dsh n (map PTy ps) = Ok (DataShapeT n ps).
Proof.
  intro H. rewrite mk_datashape_PTy by (apply okps_nonnil; auto).
  rewrite map_launder_id; [apply check_datashape_ok; auto|]. destruct H as [? [? [_ [_ [_ H]]]]]; auto.
Qed.
Lemma mk_ds_ok ps : okps ps -> mk_ds ps = Ok (DataShapeT None ps).
Proof. apply mk_datashape_ok. Qed.

Lemma okps_components t : Inv t -> ~ DimensionClass t -> okps (components t).
Proof.
  intros HI HD. destruct t; try (exists [], ltac:(match goal with |- ty => idtac end);
    fail); try exact HI; 
  match goal with |- okps (components ?t) => exists [], t; split; [reflexivity|]; split; [exact HD|]; split; [intros ? []|];
    intros x [<-|[]] [? [? E]]; discriminate end.
Qed.
Lemma okps_inv n ps : Inv (DataShapeT n ps) -> okps ps.
Proof. exact (fun H => H). Qed.

(** ** [*] *)
Lemma Dim_notMeasure d : Dim d -> ~ MeasureClass d.
Proof. intros [] H; inversion H. Qed.
Lemma Dim_notLone d : Dim d -> ~ Lone d.
Proof. intros [] [? [? E]]; discriminate. Qed.
Lemma notLone_launder t : ~ Lone t -> launder_ty t = t.
Proof. intro H. apply launder_id, not_Lone; auto. Qed.

Lemma datashape_rmul_ok dsh ps d : okps ps -> ~ MeasureClass d -> ~ Lone d ->
  datashape_rmul dsh ps (PTy d) = Ok (DataShapeT None (d :: ps)).
Proof.
  intros H1 H2 H3. unfold datashape_rmul. change (PTy d :: map PTy ps) with (map PTy (d :: ps)).
  apply mk_datashape_ok. apply okps_cons; auto.
Qed.
(** a datashape object times a datashape *)
Lemma mul_ok dsh d x : Inv x -> ~ DimensionClass x -> ~ MeasureClass d -> ~ Lone d -> ~ Lone x ->
  py_mul dsh (PTy d) (PTy x) = Ok (DataShapeT None (d :: components x)).
Proof.
  intros H1 H2 H3 H4 H5. assert (HO : okps (components x)) by (apply okps_components; auto).
  unfold py_mul, mono_mul, mono_mul_nostr.
  destruct x; try (change [PTy d; PTy ?x] with (map PTy [d; x]); apply mk_datashape_ok; apply (okps_cons d [_]); auto).
  apply datashape_rmul_ok; auto.
Qed.
Lemma mul_ds dsh d n ps : okps ps -> ~ MeasureClass d -> ~ Lone d ->
  py_mul dsh (PTy d) (PTy (DataShapeT n ps)) = Ok (DataShapeT None (d :: ps)).
Proof. intros. apply datashape_rmul_ok; auto. Qed.
Lemma mul_int_ok dsh z x : 0 <= z -> Inv x -> ~ DimensionClass x ->
  py_mul dsh (PInt z) (PTy x) = Ok (DataShapeT None (FixedT z :: components x)).
Proof.
  intros Hz H1 H2. assert (HO : okps (components x)) by (apply okps_components; auto).
  assert (HF : mk_fixed z = Ok (FixedT z)) by (unfold mk_fixed; destruct (Z.ltb_spec z 0); [lia|reflexivity]).
  assert (HC : okps (FixedT z :: components x)).
  { apply okps_cons; auto; [intro H; inversion H|intros [? [? E]]; discriminate]. }
  unfold py_mul, py_rmul.
  destruct x; rewrite ?HF; cbn [bind]; unfold datashape_rmul; rewrite ?HF; cbn [bind components] in *;
    (match goal with |- mk_datashape _ _ ?l = Ok (DataShapeT None ?ps) => change l with (map PTy ps) end);
    apply mk_datashape_ok; auto.
Qed.
Lemma mul_int_ds dsh z n ps : 0 <= z -> okps ps ->
  py_mul dsh (PInt z) (PTy (DataShapeT n ps)) = Ok (DataShapeT None (FixedT z :: ps)).
Proof. intros Hz H. apply mul_int_ok; auto. intro HD; inversion HD. Qed.
Lemma mul_int_neg dsh z x : z < 0 -> py_mul dsh (PInt z) (PTy x) = Raise ValueErr.
Proof.
  intro Hz. unfold py_mul, py_rmul, datashape_rmul, mk_fixed. destruct (Z.ltb_spec z 0); [|lia].
  destruct x; reflexivity.
Qed.
Lemma MeasureClass_b t : MeasureClass t -> may_be_dim t = false.
Proof. intros []; reflexivity. Qed.
Lemma check_bad_dim n d ps : MeasureClass d -> ps <> [] -> exists e, check_datashape n (d :: ps) = Raise e /\ e = TypeErr.
Proof.
  intros Hd Hp. exists TypeErr. split; auto. unfold check_datashape.
  destruct (negb (may_be_measure (last (d :: ps) NullT))); auto.
  destruct ps as [|p ps]; [contradiction|]. cbn [removelast forallb]. rewrite MeasureClass_b by auto. reflexivity.
Qed.
Lemma MeasureClass_notLone d : MeasureClass d -> ~ Lone d.
Proof. intros [] [? [? E]]; discriminate. Qed.
Lemma mul_measure_left dsh d x : MeasureClass d -> (forall n, x <> DataShapeT n []) ->
  py_mul dsh (PTy d) (PTy x) = Raise TypeErr.
Proof.
  intros Hd Hx. pose proof (MeasureClass_notLone d Hd) as HL.
  assert (G : forall l, l <> [] -> mk_datashape dsh None (map PTy (d :: l)) = Raise TypeErr).
  { intros l Hl. rewrite mk_datashape_PTy by discriminate. cbn [map]. rewrite (notLone_launder d HL).
    destruct (check_bad_dim None d (map launder_ty l) Hd) as [e [H ->]]; auto.
    destruct l; [contradiction|discriminate]. }
  unfold py_mul, mono_mul, mono_mul_nostr.
  destruct x; try (change [PTy d; PTy ?x] with (map PTy [d; x]); apply G; discriminate).
  unfold datashape_rmul. destruct parameters as [|p ps]; [exfalso; eapply Hx; reflexivity|].
  apply (G (p :: ps)). discriminate.
Qed.

(** ** subarray *)
Lemma okps_skipn k ps : okps ps -> (k < length ps)%nat -> okps (skipn k ps).
Proof.
  revert ps; induction k as [|k IH]; intros ps H Hk; [exact H|]. destruct ps as [|x ps]; [simpl in Hk; lia|].
  cbn [skipn length] in *. apply IH; [|lia]. eapply okps_tail; eauto. intros ->; simpl in Hk; lia.
Qed.
Lemma skipn_last {A} (l : list A) d : l <> [] -> skipn (length l - 1) l = [last l d].
Proof.
  intro H. destruct (list_rev_case l) as [->|[l' [x ->]]]; [contradiction|].
  rewrite last_last, app_length, skipn_app. cbn [length].
  replace (length l' + 1 - 1)%nat with (length l') by lia. rewrite skipn_all, Nat.sub_diag. reflexivity.
Qed.
Lemma slice_from_nonneg {A} (l : list A) i : 0 <= i <= Z.of_nat (length l) -> slice_from l i = skipn (Z.to_nat i) l.
Proof. intro H. unfold slice_from. destruct (Z.ltb_spec i 0); [lia|]. rewrite Z.min_l by lia. reflexivity. Qed.

Lemma subarray_ok n ps i : okps ps -> 0 <= i < Z.of_nat (length ps) ->
  subarray (DataShapeT n ps) i = Ok (DataShapeT None (skipn (Z.to_nat i) ps)).
Proof.
  intros H Hi. unfold subarray. destruct (Z.leb_spec (Z.of_nat (length ps)) i); [lia|].
  assert (HS : okps (skipn (Z.to_nat i) ps)) by (apply okps_skipn; [auto|lia]).
  destruct (Z.eqb_spec i (Z.of_nat (length ps) - 1)) as [E|E].
  - simpl. rewrite <- (skipn_last ps NullT) by (apply okps_nonnil; auto).
    replace (length ps - 1)%nat with (Z.to_nat i) by lia. apply mk_ds_ok; auto.
  - destruct (Z.eqb_spec i (-1)); [lia|]. simpl. rewrite slice_from_nonneg by lia. apply mk_ds_ok; auto.
Qed.
Lemma subarray_minus1 n ps : okps ps ->
  subarray (DataShapeT n ps) (-1) = Ok (DataShapeT None [last ps NullT]).
Proof.
  intro H. unfold subarray. destruct (Z.leb_spec (Z.of_nat (length ps)) (-1)); [lia|].
  rewrite Z.eqb_refl, orb_true_r. apply mk_ds_ok. pose proof (okps_nonnil ps H).
  rewrite <- (skipn_last ps NullT) by auto. apply okps_skipn; auto.
  destruct ps; [contradiction|simpl; lia].
Qed.
(** negative counts below -1 keep the last components *)
Lemma subarray_neg n ps i : okps ps -> i < -1 ->
  subarray (DataShapeT n ps) i = Ok (DataShapeT None (skipn (Z.to_nat (Z.of_nat (length ps) + i)) ps)).
Proof.
  intros H Hi. unfold subarray. destruct (Z.leb_spec (Z.of_nat (length ps)) i); [lia|].
  pose proof (okps_nonnil ps H). assert (0 < length ps)%nat by (destruct ps; [contradiction|simpl; lia]).
  destruct (Z.eqb_spec i (Z.of_nat (length ps) - 1)); [lia|]. destruct (Z.eqb_spec i (-1)); [lia|]. simpl.
  unfold slice_from. destruct (Z.ltb_spec i 0); [|lia].
  replace (Z.to_nat (Z.max 0 (Z.of_nat (length ps) + i))) with (Z.to_nat (Z.of_nat (length ps) + i)) by lia.
  apply mk_ds_ok. apply okps_skipn; auto. lia.
Qed.

(** ** subshape *)
Lemma is_dimension_Dim t : is_dimension t = true <-> Dim t.
Proof. split; [destruct t; try discriminate; constructor|intros []; reflexivity]. Qed.
Lemma Dim_notRecord d fs : Dim d -> d <> RecordT fs.
Proof. intros [] E; discriminate. Qed.

Lemma assoc_app {A} k (l m : list (str * A)) :
  assoc k (l ++ m) = match assoc k l with Some v => Some v | None => assoc k m end.
Proof. induction l as [|[a b] l IH]; simpl; auto. destruct (str_eqb k a); auto. Qed.
Lemma assoc_In {A} k (l : list (str * A)) v : assoc k l = Some v -> In (k, v) l.
Proof.
  induction l as [|[a b] l IH]; simpl; [discriminate|]. destruct (str_eqb k a) eqn:E.
  - intro H; injection H as ->. apply str_eqb_eq in E as ->. auto.
  - auto.
Qed.
Lemma assoc_NoDup {A} k (l : list (str * A)) v : NoDup (map fst l) -> In (k, v) l -> assoc k l = Some v.
Proof.
  induction l as [|[a b] l IH]; simpl; [tauto|]. intros N [E|H].
  - injection E as -> ->. rewrite str_eqb_refl. reflexivity.
  - inversion N; subst. destruct (str_eqb k a) eqn:E; [|auto]. apply str_eqb_eq in E as ->.
    exfalso. apply H2. apply in_map_iff. exists (a, v); auto.
Qed.
Lemma assoc_None {A} k (l : list (str * A)) : assoc k l = None <-> ~ In k (map fst l).
Proof.
  induction l as [|[a b] l IH]; simpl; [split; auto|]. destruct (str_eqb k a) eqn:E.
  - split; [discriminate|]. intro H. exfalso. apply H. left. symmetry. apply str_eqb_eq; auto.
  - apply str_eqb_neq in E. rewrite IH. split; [intros H [H'|H']; auto|intros H H'; apply H; auto].
Qed.
Lemma assoc_rev_NoDup {A} k (l : list (str * A)) : NoDup (map fst l) -> assoc k (rev l) = assoc k l.
Proof.
  intro N. destruct (assoc k l) as [v|] eqn:E.
  - apply assoc_NoDup; [rewrite map_rev; apply NoDup_rev; auto|]. apply -> in_rev. apply assoc_In; auto.
  - apply assoc_None. rewrite map_rev. intro H. apply in_rev in H. apply assoc_None in E. auto.
Qed.

Lemma str_index_spec x l k : str_index x l = Some k -> nth_error l k = Some x.
Proof.
  revert k; induction l as [|y l IH]; intros k; simpl; [discriminate|]. destruct (str_eqb y x) eqn:E.
  - intro H; injection H as <-. apply str_eqb_eq in E as ->. reflexivity.
  - destruct (str_index x l); simpl; [|discriminate]. intro H; injection H as <-. simpl. auto.
Qed.
Lemma str_index_In x l : In x l -> exists k, str_index x l = Some k.
Proof.
  induction l as [|y l IH]; simpl; [tauto|]. intro H. destruct (str_eqb y x) eqn:E; [eauto|].
  destruct H as [->|H]; [rewrite str_eqb_refl in E; discriminate|]. destruct (IH H) as [k ->]. simpl; eauto.
Qed.

(** the field selected by an index, through its number *)
(** selection by names and positions only *)
Definition field_at (fs : list (str * ty)) (i : index) : res (str * ty) :=
  match i with IxInt z => py_nth fs z | _ => Raise TypeErr end.
Lemma select_ok fs js : forall sel, mapM (field_at fs) js = Ok sel -> select_fields fs js = Ok sel.
Proof.
  enough (K : forall sel, mapM (field_at fs) js = Ok sel -> mapM (item_at fs) js = Ok (map inl sel)).
  { intros sel H. unfold select_fields. rewrite (K _ H). cbn [bind]. clear.
    assert (E : forallb unpackable (map inl sel) = true) by (induction sel; auto). rewrite E.
    clear E. induction sel as [|f sel IH]; [reflexivity|]. cbn [map]. rewrite mapM_cons, IH. reflexivity. }
  induction js as [|i js IH]; intros sel; [intro H; inversion H; reflexivity|]. rewrite !mapM_cons.
  destruct i; try discriminate. cbn [field_at item_at]. destruct (py_nth fs z); [|discriminate]. cbn [bind].
  destruct (mapM (field_at fs) js) as [q|]; [|discriminate]. cbn [bind]. intro H. inversion H. subst.
  rewrite (IH _ eq_refl). reflexivity.
Qed.
Lemma select_inv fs js : forall sel, select_fields fs js = Ok sel -> mapM (field_at fs) js = Ok sel.
Proof.
  unfold select_fields. induction js as [|i js IH]; intros sel; [intro H; inversion H; reflexivity|]. rewrite !mapM_cons.
  destruct (item_at fs i) as [x|] eqn:E; [|discriminate]. cbn [bind]. destruct (mapM (item_at fs) js) as [xs|]; [|discriminate].
  cbn [bind] in *. cbn [forallb]. destruct (unpackable x) eqn:U; [|discriminate]. cbn [andb].
  destruct (forallb unpackable xs); [|discriminate]. rewrite mapM_cons.
  destruct x as [f|]; [|discriminate]. cbn [as_field bind]. destruct (mapM as_field xs) as [q|]; [|discriminate]. cbn [bind].
  intro H. inversion H. subst. rewrite (IH _ eq_refl).
  destruct i; try discriminate; cbn [item_at field_at] in *.
  - destruct (py_nth fs z); [|discriminate]. cbn [bind] in *. inversion E. reflexivity.
  - destruct (py_slice fs start stop step); discriminate.
Qed.
Lemma select_ints fs js : (forall i, In i js -> exists z, i = IxInt z) -> select_fields fs js = mapM (field_at fs) js.
Proof.
  intro H. destruct (mapM (field_at fs) js) as [sel|e] eqn:E; [now apply select_ok|].
  unfold select_fields. assert (K : mapM (item_at fs) js = Raise e); [|rewrite K; reflexivity].
  revert e E. induction js as [|i js IH]; intros e; [discriminate|]. rewrite !mapM_cons.
  destruct (H i (or_introl eq_refl)) as [z ->]. cbn [field_at item_at]. destruct (py_nth fs z); cbn [bind]; [|congruence].
  destruct (mapM (field_at fs) js); [discriminate|]. cbn [bind]. intro X.
  rewrite (IH (fun i I => H i (or_intror I)) _ eq_refl). cbn [bind]. congruence.
Qed.
Lemma FieldAt_select fs i f : NoDup (map fst fs) -> FieldAt fs i f ->
  exists j, field_number fs i = Ok j /\ field_at fs j = Ok f.
Proof.
  intros N H. destruct i; simpl in H; try contradiction.
  - destruct H as [B E]. exists (IxInt z). split; auto. unfold field_at, py_nth.
    destruct (Z.ltb_spec z 0); cbv zeta.
    + destruct (Z.ltb_spec (Z.of_nat (length fs) + z) 0); [lia|].
      destruct (Z.leb_spec (Z.of_nat (length fs)) (Z.of_nat (length fs) + z)); [lia|]. simpl. now rewrite E.
    + destruct (Z.ltb_spec z 0); [lia|]. destruct (Z.leb_spec (Z.of_nat (length fs)) z); [lia|]. simpl. now rewrite E.
  - destruct H as [HI <-]. destruct (str_index_In (fst f) (map fst fs)) as [k Hk]; [apply in_map; auto|].
    exists (IxInt (Z.of_nat k)). cbn [field_number]. rewrite Hk. split; auto.
    pose proof (str_index_spec _ _ _ Hk) as Hn. rewrite nth_error_map in Hn.
    destruct (nth_error fs k) as [g|] eqn:Eg; [|discriminate]. injection Hn as Hn.
    assert (g = f).
    { destruct f as [a b], g as [c d]. simpl in *. subst c. f_equal.
      pose proof (assoc_NoDup _ _ _ N (nth_error_In _ _ Eg)). pose proof (assoc_NoDup _ _ _ N HI). congruence. }
    subst g. cbn [field_at]. apply py_nth_Some; [|rewrite Nat2Z.id; auto].
    assert (k < length fs)%nat by (apply nth_error_Some; congruence). lia.
Qed.
Lemma FieldAt_In fs i f : FieldAt fs i f -> In f fs.
Proof. destruct i; simpl; try tauto. intros [_ H]. eapply nth_error_In; eauto. Qed.

Lemma sub_record_ok fs sel : Inv (RecordT fs) -> (forall f, In f sel -> In f fs) -> NoDup (map fst sel) ->
  sub_record sel = Ok (RecordT sel).
Proof.
  intros [N HL] HI HN. unfold sub_record, mk_record. rewrite !map_map. cbn [fst].
  assert (E : mapM (fun f => launder no_dsh (snd f)) (map (fun f => (fst f, PTy (snd f))) sel) = Ok (map snd sel)).
  { apply mapM_Ok_Forall2. clear HN. induction sel as [|f sel IH]; simpl; constructor.
    - simpl. f_equal. apply notLone_launder. apply HL. apply in_map. apply HI; left; auto.
    - apply IH. intros; apply HI; right; auto. }
  rewrite E. cbn [bind]. change (map (fun x : str * ty => fst x) sel) with (map fst sel).
  replace (nodup_str (map fst sel)) with true by (symmetry; apply nodup_str_NoDup; auto).
  cbn [bind]. f_equal. f_equal. clear. induction sel as [|[a b] l IH]; simpl; [reflexivity|]. now rewrite IH.
Qed.

(** results of a selection are components of datashapes *)
Definition subresult (r : ty) (qs : list ty) : Prop :=
  components r = qs /\ Inv r /\ ~ DimensionClass r /\ ~ Lone r \/
  (exists m, r = DataShapeT m qs) /\ okps qs.
Lemma subresult_comp r qs : subresult r qs -> components r = qs /\ okps qs.
Proof.
  intros [[<- [H1 [H2 _]]]|[[m ->] H]]; [split; auto; apply okps_components; auto|split; auto].
Qed.
Lemma subresult_mul d r qs : subresult r qs -> Dim d -> mul_ty d r = Ok (DataShapeT None (d :: qs)).
Proof.
  intros H HD. destruct H as [[<- [H1 [H2 H3]]]|[[m ->] H]].
  - apply mul_ok; auto; [apply Dim_notMeasure|apply Dim_notLone]; auto.
  - apply mul_ds; auto; [apply Dim_notMeasure|apply Dim_notLone]; auto.
Qed.
Lemma subresult_mul_int z r qs : subresult r qs -> 0 <= z -> mul_int z r = Ok (DataShapeT None (FixedT z :: qs)).
Proof.
  intros H Hz. destruct H as [[<- [H1 [H2 _]]]|[[m ->] H]]; [apply mul_int_ok|apply mul_int_ds]; auto.
Qed.

Definition go_sub := fix go (l : list index) (t : ty) {struct l} : res ty :=
         match l with
         | [] => Ok t
         | i0 :: r =>
             match i0 with
             | IxNone => let! s := go r t in mul_int 1 s
             | _ =>
                 match r with
                 | [] => subshape i0 t
                 | _ =>
                     let! sub := subarray t 1 in
                     let! ds := go r sub in
                     let! full := mul_ty (ds_head t) ds in
                     subshape i0 full
                 end
             end
         end.
Lemma subshape_tuple l t : subshape (IxTuple l) t = go_sub l t.
Proof. reflexivity. Qed.

(** one index on the leading dimension [d] *)
Lemma okps_dim d ps : okps ps -> Dim d -> okps (d :: ps).
Proof. intros; apply okps_cons; auto; [apply Dim_notMeasure|apply Dim_notLone]; auto. Qed.
Lemma sub1 n d ps : okps ps -> Dim d -> subarray (DataShapeT n (d :: ps)) 1 = Ok (DataShapeT None ps).
Proof.
  intros H HD. rewrite subarray_ok; [reflexivity|apply okps_dim; auto|].
  pose proof (okps_nonnil ps H). destruct ps; [contradiction|]. cbn [length]. lia.
Qed.

(** apply a non-tuple index, given what it yields on the leading dimension *)
Inductive DimStep : ty -> index -> list ty -> Prop :=
| DS_int d z : Dim d -> DimStep d (IxInt z) []
| DS_list d l : Dim d -> DimStep d (IxList l) [FixedT (Z.of_nat (length l))]
| DS_slice d a b c k : Dim d -> slice_count d a b c = Ok (Some k) -> 0 <= k -> DimStep d (IxSlice a b c) [FixedT k]
| DS_open d a b c : Dim d -> slice_count d a b c = Ok None -> DimStep d (IxSlice a b c) [VarT].
Lemma DimStep_Dim d i out : DimStep d i out -> Dim d.
Proof. destruct 1; auto. Qed.
Lemma dimstep_sub n d i out ps : DimStep d i out -> okps ps ->
  subshape i (DataShapeT n (d :: ps)) = Ok (DataShapeT None (out ++ ps)) /\ okps (out ++ ps).
Proof.
  intros H HO. pose proof (DimStep_Dim _ _ _ H) as HD.
  destruct H as [d z _|d l _|d a b c k _ Hc Hk|d a b c _ Hc]; cbn [subshape app]; unfold subshape_plain; cbn [ds_head].
  - replace (is_dimension d) with true by (symmetry; apply is_dimension_Dim; auto). rewrite sub1 by auto. auto.
  - split; [|apply okps_dim; auto; constructor].
    destruct d; try (exfalso; inversion HD; fail);
    (replace (is_dimension _) with true by (symmetry; apply is_dimension_Dim; auto)); rewrite sub1 by auto; cbn [bind];
    apply mul_int_ds; auto; lia.
  - split; [|apply okps_dim; auto; constructor].
    destruct d; try (exfalso; inversion HD; fail); rewrite Hc; cbn [bind]; rewrite sub1 by auto; cbn [bind];
    apply mul_int_ds; auto.
  - split; [|apply okps_dim; auto; constructor].
    destruct d; try (exfalso; inversion HD; fail); rewrite Hc; cbn [bind]; rewrite sub1 by auto; cbn [bind];
    (apply mul_ds; [auto|apply Dim_notMeasure; constructor|apply Dim_notLone; constructor]).
Qed.
Lemma dimstep_go n d i out ps ixs qs r : DimStep d i out -> okps ps ->
  (ixs = [] -> qs = ps) -> go_sub ixs (DataShapeT None ps) = Ok r -> subresult r qs ->
  exists r', go_sub (i :: ixs) (DataShapeT n (d :: ps)) = Ok r' /\ subresult r' (out ++ qs).
Proof.
  intros H HO Hn Hr HR. pose proof (DimStep_Dim _ _ _ H) as HD.
  assert (E : go_sub (i :: ixs) (DataShapeT n (d :: ps)) =
    match ixs with [] => subshape i (DataShapeT n (d :: ps))
    | _ => let! sub := subarray (DataShapeT n (d :: ps)) 1 in let! ds := go_sub ixs sub in
           let! full := mul_ty d ds in subshape i full end)
    by (destruct H; reflexivity).
  rewrite E. destruct (subresult_comp _ _ HR) as [_ HQ]. destruct ixs as [|i1 ixs].
  - rewrite (Hn eq_refl). destruct (dimstep_sub n d i out ps H HO) as [H1 H2]. rewrite H1.
    eexists; split; eauto. right; eauto.
  - rewrite sub1 by auto. cbn [bind]. rewrite Hr. cbn [bind]. rewrite (subresult_mul d r qs) by auto. cbn [bind].
    destruct (dimstep_sub None d i out qs H HQ) as [H1 H2]. rewrite H1. eexists; split; eauto. right; eauto.
Qed.

Lemma Select_nonnil ps ixs qs : Select ps ixs qs -> ps <> [].
Proof. induction 1; auto; discriminate. Qed.

Lemma select_go : forall ps ixs qs, Select ps ixs qs -> forall n, okps ps ->
  (forall x, In x ps -> Inv x) -> (forall fs f, In (RecordT fs) ps -> In f fs -> Inv (snd f)) ->
  (ixs = [] -> qs = ps) /\ exists r, go_sub ixs (DataShapeT n ps) = Ok r /\ subresult r qs.
Proof.
  assert (STEP : forall d ps i out ixs qs n, DimStep d i out -> Select ps ixs qs ->
    (forall n, okps ps -> (forall x, In x ps -> Inv x) ->
       (forall fs f, In (RecordT fs) ps -> In f fs -> Inv (snd f)) ->
       (ixs = [] -> qs = ps) /\ exists r, go_sub ixs (DataShapeT n ps) = Ok r /\ subresult r qs) ->
    okps (d :: ps) -> (forall x, In x (d :: ps) -> Inv x) ->
    (forall fs f, In (RecordT fs) (d :: ps) -> In f fs -> Inv (snd f)) ->
    exists r, go_sub (i :: ixs) (DataShapeT n (d :: ps)) = Ok r /\ subresult r (out ++ qs)).
  { intros d ps i out ixs qs n HD HS IH HO HI HR.
    assert (HO' : okps ps) by (eapply okps_tail; [eauto|eapply Select_nonnil; eauto]).
    destruct (IH None HO') as [Hn [r [Hr Hs]]]; [intros; apply HI; right; auto|intros; eapply HR; [right|]; eauto|].
    eapply dimstep_go; eauto. }
  induction 1 as [ps Hne|ps ixs qs HS IH|d ps z ixs qs HD HS IH|d ps l ixs qs HD HS IH
    |m ps a b c k ixs qs Hm Ha Hb Hc Hle HL HS IH
    |d ps a b c ixs qs HD HF Ho HS IH
    |d ps a b c k ixs qs HD HF Hab Hb Hc HL HS IH
    |fs i f Hi HA HM|fs l sel HF HN|fs a b c ks sel Hc HSort HK HF];
    intros n HO HI HR.
  - split; auto. eexists; split; [reflexivity|]. right; split; eauto.
  - split; [discriminate|]. destruct (IH n HO HI HR) as [_ [r [Hr Hs]]].
    exists (DataShapeT None (FixedT 1 :: qs)). cbn [go_sub]. rewrite Hr. cbn [bind].
    rewrite (subresult_mul_int 1 r qs) by (auto; lia). split; auto. right. split; eauto.
    apply okps_dim; [apply (subresult_comp _ _ Hs)|constructor].
  - split; [discriminate|]. apply (STEP d ps (IxInt z) []); auto. constructor; auto.
  - split; [discriminate|]. apply (STEP d ps (IxList l) [_]); auto. constructor; auto.
  - split; [discriminate|]. destruct (slice_count_fixed m a b c k Hm Ha Hb Hc Hle HL) as [E1 E2].
    apply (STEP (FixedT m) ps (IxSlice a b c) [FixedT k]); auto. constructor; auto. constructor.
  - split; [discriminate|]. apply (STEP d ps (IxSlice a b c) [VarT]); auto. apply DS_open; auto.
    apply slice_count_open; auto.
  - split; [discriminate|]. destruct (slice_count_var d a b c k HF Hab Hb Hc HL) as [E1 E2].
    apply (STEP d ps (IxSlice a (Some b) c) [FixedT k]); auto. constructor; auto.
  - split; [discriminate|].
    pose proof (HI (RecordT fs) (or_introl eq_refl)) as [HN HLo].
    exists (snd f). pose proof (FieldAt_In _ _ _ HA) as Hin. split.
    + destruct i; simpl in HA; try contradiction; cbn [go_sub subshape]; unfold subshape_plain; cbn [ds_head is_dimension].
      * destruct (FieldAt_select fs (IxInt z) f HN HA) as [j [E1 E2]]. injection E1 as <-. cbn in E2.
        cbn. rewrite E2. reflexivity.
      * destruct HA as [_ <-]. rewrite assoc_rev_NoDup by auto.
        rewrite (assoc_NoDup (fst f) fs (snd f)); auto. destruct f; auto.
    + left. repeat split; auto.
      * eapply HR; [left; reflexivity|auto].
      * apply HLo. apply in_map; auto.
  - split; [discriminate|].
    pose proof (HI (RecordT fs) (or_introl eq_refl)) as HInv. pose proof HInv as [HNf HLo].
    assert (HS : forall f, In f sel -> In f fs).
    { intros f Hf. clear -HF Hf. induction HF; [contradiction|]. destruct Hf as [<-|Hf]; auto. eapply FieldAt_In; eauto. }
    assert (HOr : okps [RecordT sel]).
    { exists [], (RecordT sel). split; [reflexivity|]. split; [intro X; inversion X|]. split; [intros ? []|].
      intros x [<-|[]] [? [? E]]; discriminate. }
    exists (DataShapeT None [RecordT sel]). split; [|right; eauto].
    cbn [go_sub subshape]. unfold subshape_plain. cbn [ds_head].
    assert (EX : exists js, Forall2 (fun i j => field_number fs i = Ok j) l js /\ Forall2 (fun j f => field_at fs j = Ok f) js sel).
    { clear -HF HNf. induction HF as [|i f l sel H HF [js [IH1 IH2]]]; [exists []; split; constructor|].
      destruct (FieldAt_select fs i f HNf H) as [j [E1 E2]]. exists (j :: js). split; constructor; auto. }
    destruct EX as [js [E1 E2]]. apply mapM_Ok_Forall2 in E1, E2. rewrite E1. cbn [bind]. rewrite (select_ok _ _ _ E2). cbn [bind].
    rewrite (sub_record_ok fs sel) by auto. cbn [bind]. apply mk_ds_ok; auto.
  - split; [discriminate|].
    pose proof (HI (RecordT fs) (or_introl eq_refl)) as HInv. pose proof HInv as [HNf HLo].
    assert (HS : forall f, In f sel -> In f fs).
    { intros f Hf. clear -HF Hf. induction HF; [contradiction|]. destruct Hf as [<-|Hf]; auto. eapply nth_error_In; eauto. }
    assert (HOr : okps [RecordT sel]).
    { exists [], (RecordT sel). split; [reflexivity|]. split; [intro X; inversion X|]. split; [intros ? []|].
      intros x [<-|[]] [? [? E]]; discriminate. }
    exists (DataShapeT None [RecordT sel]). split; [|right; eauto].
    cbn [go_sub subshape]. unfold subshape_plain. cbn [ds_head].
    rewrite (py_slice_pos fs a b c ks sel) by auto. cbn [bind].
    enough (HN' : NoDup (map fst sel)) by (rewrite (sub_record_ok fs sel) by auto; cbn [bind]; apply mk_ds_ok; auto).
    (* distinct fields have distinct names *)
    assert (B : forall k, In k ks -> 0 <= k).
    { intros k Hk. apply HK in Hk. destruct Hk as [Hk _]. lia. }
    pose proof (sorted_NoDup ks HSort) as NK. clear -HF NK HNf B.
    induction HF as [|k f ks sel H HF IH]; [constructor|]. cbn [map]. inversion NK as [|? ? N1 N2]; subst.
    constructor; [|apply IH; auto; intros; apply B; right; auto].
    intro Hin. apply in_map_iff in Hin as [g [Eg Hg]].
    assert (exists k', In k' ks /\ nth_error fs (Z.to_nat k') = Some g).
    { clear -HF Hg. induction HF; [contradiction|]. destruct Hg as [<-|Hg]; [eexists; split; [left|]; eauto|].
      destruct (IHHF Hg) as [k' [H1 H2]]. exists k'; split; [right|]; auto. }
    destruct H0 as [k' [Hk' Ek']].
    assert (Z.to_nat k = Z.to_nat k').
    { rewrite NoDup_nth_error in HNf. apply HNf.
      - rewrite map_length. apply nth_error_Some. congruence.
      - rewrite !nth_error_map, H, Ek'. simpl. congruence. }
    assert (0 <= k) by (apply B; left; auto). assert (0 <= k') by (apply B; right; auto).
    assert (k = k') by lia. subst. contradiction.
Qed.

Theorem subshape_select n ps ixs qs : WF (DataShapeT n ps) -> Select ps ixs qs ->
  exists r, subshape (IxTuple ixs) (DataShapeT n ps) = Ok r /\ components r = qs.
Proof.
  intros W HS. destruct (select_go ps ixs qs HS n) as [_ [r [Hr Hs]]].
  - apply (W _ (Occurs_here _)).
  - intros x Hx. apply W. eapply Occurs_in; [|constructor]. exact Hx.
  - intros fs f Hfs Hf. apply W. eapply Occurs_in; [exact Hfs|]. eapply Occurs_in; [|constructor].
    cbn [children]. apply in_map; auto.
  - exists r. rewrite subshape_tuple. split; auto. apply (subresult_comp _ _ Hs).
Qed.
(** an index that is not a tuple behaves as the 1-tuple *)
Lemma subshape_single n ps i qs : WF (DataShapeT n ps) -> (forall l, i <> IxTuple l) -> i <> IxNone -> Select ps [i] qs ->
  exists r, subshape i (DataShapeT n ps) = Ok r /\ components r = qs.
Proof.
  intros W H1 H2 HS. destruct (subshape_select n ps [i] qs W HS) as [r [Hr Hc]]. exists r. split; auto.
  rewrite subshape_tuple in Hr. destruct i; try exact Hr; contradiction.
Qed.
