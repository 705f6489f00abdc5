(** Proofs about NumPy conversions (C26, C27). *)
From Verif Require Import Base Types Lexer Printer Construct Preds Numpy Spec_Numpy Proof_Eq.
Local Open Scope Z_scope.

(** ** Decimal (C26) *)
Lemma decimal_spec p : 1 <= p ->
  (exists s, npmeth (DecimalT p 0) = Ok (NInt s)
     /\ (forall z, decimal_int p z -> fits_int s z)
     /\ (forall s', ibits s' < ibits s -> exists z, decimal_int p z /\ ~ fits_int s' z)
     /\ (forall s', ibits s' <= ibits s -> exists z, decimal_int p z /\ ~ fits_uint s' z))
  \/ (npmeth (DecimalT p 0) = Raise TypeErr
     /\ (forall s, exists z, decimal_int p z /\ ~ fits_int s z)
     /\ (forall s, exists z, decimal_int p z /\ ~ fits_uint s z)).
Proof.
  intro Hp. unfold npmeth. cbn [npmethF tsize]. unfold decimal_to_numpy. cbn [Z.eqb].
  assert (Hneg : forall s, exists z, decimal_int p z /\ ~ fits_uint s z).
  { intro s. exists (-1). split.
    - unfold decimal_int. change (Z.abs (-1)) with 1. apply Z.pow_gt_1; lia.
    - unfold fits_uint. lia. }
  assert (Hmono : forall a, a <= p -> forall z, Z.abs z < 10 ^ a -> Z.abs z < 10 ^ p).
  { intros a Ha z Hz. eapply Z.lt_le_trans; [exact Hz|]. apply Z.pow_le_mono_r; lia. }
  assert (Hub : forall a, p <= a -> forall z, Z.abs z < 10 ^ p -> Z.abs z < 10 ^ a).
  { intros a Ha z Hz. eapply Z.lt_le_trans; [exact Hz|]. apply Z.pow_le_mono_r; lia. }
  assert (W8 : 2 ^ (ibits B8 - 1) = 128) by reflexivity.
  assert (W16 : 2 ^ (ibits B16 - 1) = 32768) by reflexivity.
  assert (W32 : 2 ^ (ibits B32 - 1) = 2147483648) by reflexivity.
  assert (W64 : 2 ^ (ibits B64 - 1) = 9223372036854775808) by reflexivity.
  unfold decimal_int, fits_int.
  destruct (Z.leb_spec p 2).
  { left. exists B8. split; [reflexivity|]. split; [|split; [|intros; apply Hneg]].
    - intros z Hz. apply (Hub 2) in Hz; [|lia]. rewrite W8.
      change (10 ^ 2) with 100 in Hz. lia.
    - intros [] Hs; exfalso; vm_compute in Hs; discriminate Hs. }
  destruct (Z.leb_spec p 4).
  { left. exists B16. split; [reflexivity|]. split; [|split; [|intros; apply Hneg]].
    - intros z Hz. apply (Hub 4) in Hz; [|lia]. rewrite W16.
      change (10 ^ 4) with 10000 in Hz. lia.
    - intros [] Hs; try (exfalso; vm_compute in Hs; discriminate Hs).
      exists 999. split; [|rewrite W8; lia].
      apply (Hmono 3); [lia|]. change (10 ^ 3) with 1000. lia. }
  destruct (Z.leb_spec p 9).
  { left. exists B32. split; [reflexivity|]. split; [|split; [|intros; apply Hneg]].
    - intros z Hz. apply (Hub 9) in Hz; [|lia]. rewrite W32.
      change (10 ^ 9) with 1000000000 in Hz. lia.
    - intros [] Hs; try (exfalso; vm_compute in Hs; discriminate Hs);
        exists 99999; (split; [|rewrite ?W8, ?W16; lia]);
        apply (Hmono 5); try lia; change (10 ^ 5) with 100000; lia. }
  destruct (Z.leb_spec p 18).
  { left. exists B64. split; [reflexivity|]. split; [|split; [|intros; apply Hneg]].
    - intros z Hz. apply (Hub 18) in Hz; [|lia]. rewrite W64.
      change (10 ^ 18) with 1000000000000000000 in Hz. lia.
    - intros [] Hs; try (exfalso; vm_compute in Hs; discriminate Hs);
        exists 9999999999; (split; [|rewrite ?W8, ?W16, ?W32; lia]);
        apply (Hmono 10); try lia; change (10 ^ 10) with 10000000000; lia. }
  right. split; [reflexivity|]. split; [|exact Hneg].
  intro s. exists 9999999999999999999. split; [|destruct s; rewrite ?W8, ?W16, ?W32, ?W64; lia].
  apply (Hmono 19); [lia|]. change (10 ^ 19) with 10000000000000000000. lia.
Qed.
Lemma decimal_scaled p s : s <> 0 -> npmeth (DecimalT p s) = Ok (NFloat F64).
Proof.
  intro H. unfold npmeth. cbn [npmethF tsize]. unfold decimal_to_numpy.
  destruct (Z.eqb_spec s 0); [contradiction|reflexivity].
Qed.

(** ** Fuel *)
Lemma Forall2_len {A B} (R : A -> B -> Prop) l m : Forall2 R l m -> length l = length m.
Proof. induction 1; simpl; congruence. Qed.
Lemma tnw_ext (m1 m2 : ty -> res npdt) ds :
  (forall x, (tsize x <= tsize ds)%nat -> m1 x = m2 x) ->
  to_numpy_with m1 ds = to_numpy_with m2 ds.
Proof.
  intro H. unfold to_numpy_with. destruct ds; try (rewrite H by lia; reflexivity).
  rewrite H; [reflexivity|]. rewrite tsize_DataShape.
  destruct (list_rev_case parameters) as [->|(l & x & ->)]; [simpl; lia|].
  rewrite last_last, lsize_app. simpl. lia.
Qed.
Lemma tndw_ext (m1 m2 : ty -> res npdt) ds :
  (forall x, (tsize x <= tsize ds)%nat -> m1 x = m2 x) ->
  to_numpy_dtype_with m1 ds = to_numpy_dtype_with m2 ds.
Proof.
  intro H. unfold to_numpy_dtype_with.
  pose proof (measure_size ds) as Hm.
  rewrite (tnw_ext m1 m2); [reflexivity|]. intros x Hx. apply H.
  destruct (measure ds) as [| | | | | | | | | | | | | | | | | |k v| | | |] eqn:E; try (rewrite E in *; lia).
  rewrite tsize_Map in Hm. pose proof (measure_size k). lia.
Qed.
Lemma npF_fuel : forall n m t, (tsize t < n)%nat -> (tsize t < m)%nat -> npmethF n t = npmethF m t.
Proof.
  induction n as [|n IH]; intros [|m] t Hn Hm; try lia.
  cbn [npmethF].
  assert (F : forall ds, (tsize ds < tsize t)%nat ->
            to_numpy_dtype_with (npmethF n) ds = to_numpy_dtype_with (npmethF m) ds).
  { intros ds Hd. apply tndw_ext. intros x Hx. apply IH; lia. }
  destruct t; try reflexivity.
  - (* Option *) rewrite tsize_Option in *. destruct t; try reflexivity; apply IH; lia.
  - (* Map *) rewrite tsize_Map in *. unfold to_numpy_dtype_with. cbn [measure].
    rewrite (tnw_ext (npmethF n) (npmethF m)); [reflexivity|].
    intros x Hx. pose proof (measure_size t1). apply IH; lia.
  - (* Record *) rewrite tsize_Record in *.
    replace (mapM (fun g : str * ty => to_numpy_dtype_with (npmethF n) (snd g)) fields)
      with (mapM (fun g : str * ty => to_numpy_dtype_with (npmethF m) (snd g)) fields); [reflexivity|].
    assert (G : forall f, In f fields -> (tsize (snd f) < S (fsize fields))%nat).
    { intros f Hf. apply fsize_In in Hf. lia. }
    clear Hn Hm. induction fields as [|f l IHl]; [reflexivity|].
    rewrite !mapM_cons, F by (apply G; left; reflexivity).
    destruct (to_numpy_dtype_with (npmethF m) (snd f)); [|reflexivity].
    simpl bind. rewrite IHl; [reflexivity| |].
    + intros ds Hd. apply F. simpl. lia.
    + intros g Hg. apply fsize_In in Hg. lia.
  - (* Tuple *) rewrite tsize_Tuple in *.
    replace (mapM (to_numpy_dtype_with (npmethF n)) dshapes)
      with (mapM (to_numpy_dtype_with (npmethF m)) dshapes); [reflexivity|].
    assert (G : forall f, In f dshapes -> (tsize f < S (lsize dshapes))%nat).
    { intros f Hf. apply lsize_In in Hf. lia. }
    clear Hn Hm. induction dshapes as [|f l IHl]; [reflexivity|].
    rewrite !mapM_cons, F by (apply G; left; reflexivity).
    destruct (to_numpy_dtype_with (npmethF m) f); [|reflexivity].
    simpl bind. rewrite IHl; [reflexivity| |].
    + intros ds Hd. apply F. simpl. lia.
    + intros g Hg. apply lsize_In in Hg. lia.
Qed.
Lemma npF_npmeth n t : (tsize t < n)%nat -> npmethF n t = npmeth t.
Proof. intro H. apply npF_fuel; [exact H|lia]. Qed.

Lemma mapM_ext_in {A B} (f g : A -> res B) l : (forall x, In x l -> f x = g x) -> mapM f l = mapM g l.
Proof.
  induction l as [|x l IH]; intro H; [reflexivity|].
  rewrite !mapM_cons, (H x) by (left; reflexivity). rewrite IH; [reflexivity|].
  intros y Hy. apply H. right. exact Hy.
Qed.
(** the methods, without fuel *)
Lemma npmeth_Record fs :
  npmeth (RecordT fs) =
  let! ds := mapM (fun g => to_numpy_dtype (snd g)) fs in mk_struct (map fst fs) ds.
Proof.
  unfold npmeth. cbn [npmethF]. rewrite tsize_Record.
  erewrite mapM_ext_in; [reflexivity|].
  intros f Hf. apply tndw_ext. intros x Hx. apply npF_npmeth.
  apply fsize_In in Hf. lia.
Qed.
Lemma npmeth_Tuple l :
  npmeth (TupleT l) =
  let! ds := mapM to_numpy_dtype l in
  mk_struct (map (fun i => 102%N :: z2s (Z.of_nat i)) (seq 0 (length l))) ds.
Proof.
  unfold npmeth. cbn [npmethF]. rewrite tsize_Tuple.
  erewrite mapM_ext_in; [reflexivity|].
  intros f Hf. apply tndw_ext. intros x Hx. apply npF_npmeth.
  apply lsize_In in Hf. lia.
Qed.
Lemma npmeth_Map k v : npmeth (MapT k v) = to_numpy_dtype (MapT k v).
Proof.
  unfold npmeth at 1. cbn [npmethF]. unfold to_numpy_dtype, to_numpy_dtype_with. cbn [measure].
  erewrite tnw_ext; [reflexivity|]. intros x Hx. apply npF_npmeth.
  rewrite tsize_Map. pose proof (measure_size k). lia.
Qed.
Lemma npmeth_Option t :
  npmeth (OptionT t) = match t with
                       | DateT | DateTimeT _ | TimeDeltaT _ => npmeth t
                       | _ => Raise TypeErr end.
Proof. destruct t; reflexivity. Qed.

(** ** The exact fragment (C27) *)
Section ExactInd.
  Variable P : npdt -> ty -> Prop.
  Hypothesis Hs : forall d t, ExactScalar d t -> P d t.
  Hypothesis Hst : forall names ds ts,
    names <> [] -> NoDup names -> ~ In [] names -> length ds = length names ->
    Forall2 Exact ds ts -> Forall2 P ds ts ->
    P (NStruct (combine names (map (fun d => ([], d)) ds))) (RecordT (combine names ts)).
  Fixpoint Exact_ind' d t (H : Exact d t) : P d t :=
    match H with
    | ExScalar d t h => Hs d t h
    | ExStruct names ds ts a b c e f =>
        Hst names ds ts a b c e f
          ((fix go ds ts (h : Forall2 Exact ds ts) : Forall2 P ds ts :=
              match h with
              | Forall2_nil _ => Forall2_nil _
              | @Forall2_cons _ _ _ x y l l' hx hl => Forall2_cons x y (Exact_ind' x y hx) (go l l' hl)
              end) ds ts f)
    end.
End ExactInd.

Definition np_field (f : str * (list Z * npdt)) : res (str * parg) :=
  match f with (n, (shp, b)) =>
    let! m := np_measure b in let! t := np_array shp m in Ok (n, PTy t) end.
Lemma np_measure_struct f fs :
  np_measure (NStruct (f :: fs)) =
  let! rec := mapM np_field (f :: fs) in mk_record no_dsh rec.
Proof. reflexivity. Qed.

Definition plain (t : ty) : Prop := is_DataShape t = false /\ is_Map t = false.

Lemma np_names_id i l : ~ In [] l -> np_names i l = l.
Proof.
  revert i; induction l as [|n l IH]; intros i H; [reflexivity|]. cbn [np_names].
  rewrite IH by (intro; apply H; right; assumption).
  destruct n; [exfalso; apply H; left; reflexivity|reflexivity].
Qed.

Lemma map_fst_combine {A B} (l : list A) (m : list B) :
  length l = length m -> map fst (combine l m) = l.
Proof.
  revert m; induction l as [|x l IH]; intros [|y m] H; simpl in *; try lia; [reflexivity|].
  f_equal. apply IH. lia.
Qed.
Lemma map_snd_combine {A B} (l : list A) (m : list B) :
  length l = length m -> map snd (combine l m) = m.
Proof.
  revert m; induction l as [|x l IH]; intros [|y m] H; simpl in *; try lia; [reflexivity|].
  f_equal. apply IH. lia.
Qed.

Lemma plain_tnd t : plain t -> to_numpy_dtype t = npmeth t.
Proof.
  intros [H1 H2]. unfold to_numpy_dtype, to_numpy_dtype_with, to_numpy_with.
  destruct t; try discriminate; cbn [measure];
    match goal with |- context [npmeth ?x] => destruct (npmeth x); reflexivity end.
Qed.
Lemma plain_tn t : plain t -> to_numpy t = let! d := npmeth t in Ok ([], d).
Proof. intros [H1 H2]. destruct t; try discriminate; reflexivity. Qed.

Lemma exact_scalar_ok d t : ExactScalar d t ->
  np_measure d = Ok t /\ npmeth t = Ok d /\ plain t.
Proof.
  intro H. destruct H.
  1-18: vm_compute; repeat split; reflexivity.
  - simpl in H. repeat destruct H as [<-|H]; try contradiction; vm_compute; repeat split; reflexivity.
  - cbn [np_measure]. split; [reflexivity|]. split; [|split; reflexivity].
    unfold npmeth. cbn [npmethF tsize]. unfold string_to_numpy.
    destruct (Z.eqb_spec n 0); [lia|]. destruct (Z.ltb_spec n 0); [lia|].
    destruct (Z.ltb_spec np_maxlen n); [lia|]. reflexivity.
  - cbn [np_measure]. split; [reflexivity|]. split; [|split; reflexivity].
    unfold npmeth. cbn [npmethF tsize]. unfold string_to_numpy.
    destruct (Z.eqb_spec n 0); [lia|]. destruct (Z.ltb_spec n 0); [lia|].
    destruct (Z.ltb_spec np_maxlen n); [lia|]. reflexivity.
Qed.

Lemma launder_plain t : is_DataShape t = false -> launder no_dsh (PTy t) = Ok t.
Proof. destruct t; try discriminate; reflexivity. Qed.

Lemma exact_ok d t : Exact d t -> np_measure d = Ok t /\ npmeth t = Ok d /\ plain t.
Proof.
  intro H. induction H as [d t H|names ds ts Hne Hnd Hemp Hlen Hf IH] using Exact_ind'.
  { now apply exact_scalar_ok. }
  assert (Hlt : length ts = length names).
  { rewrite <- Hlen. symmetry. eapply Forall2_len; eassumption. }
  split; [|split; [|split; reflexivity]].
  - assert (HR : mapM np_field (combine names (map (fun d => ([], d)) ds))
                 = Ok (combine names (map PTy ts))).
    { clear Hne Hnd Hemp Hf. revert names Hlen Hlt.
      induction IH as [|d t ds ts [Hd _] _ IHl]; intros [|n names] Hlen Hlt; simpl in *; try lia; [reflexivity|].
      rewrite Hd. simpl. rewrite IHl by lia. reflexivity. }
    destruct names as [|n names]; [contradiction|]. destruct ds as [|d ds]; [discriminate|].
    cbn [combine map]. rewrite np_measure_struct.
    change ((n, ([], d)) :: combine names (map (fun d0 => ([], d0)) ds))
      with (combine (n :: names) (map (fun d0 : npdt => (@nil Z, d0)) (d :: ds))).
    rewrite HR. unfold bind at 1. unfold mk_record.
    assert (HM : mapM (fun f => launder no_dsh (snd f)) (combine (n :: names) (map PTy ts)) = Ok ts).
    { apply mapM_Ok_Forall2. clear HR Hne Hnd Hemp Hf Hlen. revert Hlt.
      generalize (n :: names). intro ns. revert ns.
      induction IH as [|d' t ds' ts [_ [_ [Hp _]]] _ IHl]; intros [|n' ns] Hlt; simpl in *; try lia; constructor.
      - cbn. destruct t; try discriminate; reflexivity.
      - apply IHl. lia. }
    rewrite HM. unfold bind.
    rewrite map_fst_combine by (rewrite map_length; exact (eq_sym Hlt)).
    apply nodup_str_NoDup in Hnd. rewrite Hnd. reflexivity.
  - rewrite npmeth_Record.
    assert (HM : mapM (fun g : str * ty => to_numpy_dtype (snd g)) (combine names ts) = Ok ds).
    { apply mapM_Ok_Forall2. clear Hne Hnd Hemp Hf. revert names Hlen Hlt.
      induction IH as [|d t ds ts [_ [Hm Hp]] _ IHl]; intros [|n ns] Hlen Hlt; simpl in *; try lia; constructor.
      - cbn. rewrite plain_tnd by assumption. exact Hm.
      - apply IHl; lia. }
    rewrite HM. unfold bind. unfold mk_struct.
    rewrite map_fst_combine by exact (eq_sym Hlt). rewrite np_names_id by assumption.
    apply nodup_str_NoDup in Hnd. rewrite Hnd. reflexivity.
Qed.

Lemma exact_measure_cls d t : Exact d t -> may_be_measure t = true.
Proof. intro H. destruct H as [d t H|]; [destruct H; reflexivity|reflexivity]. Qed.
Lemma np_dims_fixed shp : mapM np_dim (map FixedT shp) = Ok shp.
Proof. induction shp as [|z l IH]; [reflexivity|]. cbn. rewrite IH. reflexivity. Qed.
Lemma mk_fixed_all shp : Forall (fun z => 0 <= z) shp -> mapM mk_fixed shp = Ok (map FixedT shp).
Proof.
  induction 1 as [|z l Hz _ IH]; [reflexivity|]. rewrite mapM_cons, IH. unfold mk_fixed.
  destruct (Z.ltb_spec z 0); [lia|reflexivity].
Qed.
Lemma mapM_launder_plain l : Forall (fun t => is_DataShape t = false) l ->
  mapM (launder no_dsh) (map PTy l) = Ok l.
Proof.
  induction 1 as [|t l Ht _ IH]; [reflexivity|]. cbn [map]. rewrite mapM_cons, IH, launder_plain by assumption.
  reflexivity.
Qed.

Lemma mk_ds_plain ps : ps <> [] -> Forall (fun t => is_DataShape t = false) ps ->
  mk_ds ps = check_datashape None ps.
Proof.
  intros Hne H. unfold mk_ds, mk_datashape. pose proof (mapM_launder_plain ps H) as HL.
  destruct ps as [|p [|q ps]]; [contradiction| |]; cbn [map] in *; rewrite HL; reflexivity.
Qed.
Lemma np_array_ok shp m : Forall (fun z => 0 <= z) shp -> is_DataShape m = false ->
  may_be_measure m = true -> np_array shp m = Ok (array_of shp m).
Proof.
  intros Hs Hd Hm. unfold np_array, array_of. destruct shp as [|z shp]; [reflexivity|].
  rewrite mk_fixed_all by assumption. unfold bind. rewrite mk_ds_plain.
  - unfold check_datashape. rewrite last_last, Hm. cbn [negb]. cbv iota. rewrite removelast_last.
    replace (forallb may_be_dim (map FixedT (z :: shp))) with true; [reflexivity|].
    symmetry. apply forallb_forall. intros t Ht. apply in_map_iff in Ht as (x & <- & _). reflexivity.
  - discriminate.
  - apply Forall_app. split; [|repeat constructor; assumption].
    apply Forall_forall. intros t Ht. apply in_map_iff in Ht as (x & <- & _). reflexivity.
Qed.

Lemma numpy_roundtrip shp d t : Exact d t -> Forall (fun z => 0 <= z) shp ->
  from_numpy shp d = Ok (array_of shp t) /\ to_numpy (array_of shp t) = Ok (shp, d).
Proof.
  intros He Hs. destruct (exact_ok d t He) as (Hm & Hn & Hp). split.
  - unfold from_numpy. rewrite Hm. simpl bind.
    apply np_array_ok; [assumption|apply Hp|eapply exact_measure_cls; eassumption].
  - unfold array_of. destruct shp as [|z shp].
    + rewrite plain_tn by assumption. rewrite Hn. reflexivity.
    + unfold to_numpy, to_numpy_with. rewrite removelast_last, last_last, np_dims_fixed.
      simpl bind. rewrite Hn. reflexivity.
Qed.

(** every array datashape over the fragment, whatever its name, also with no dimension *)
Lemma numpy_roundtrip_ds nm shp d t : Exact d t -> Forall (fun z => 0 <= z) shp ->
  to_numpy (DataShapeT nm (map FixedT shp ++ [t])) = Ok (shp, d)
  /\ exists r, from_numpy shp d = Ok r /\ py_eq r (DataShapeT nm (map FixedT shp ++ [t])) = true.
Proof.
  intros He Hs. destruct (exact_ok d t He) as (Hm & Hn & Hp). split.
  - unfold to_numpy, to_numpy_with. rewrite removelast_last, last_last, np_dims_fixed.
    simpl bind. rewrite Hn. reflexivity.
  - exists (array_of shp t). split; [apply numpy_roundtrip; assumption|].
    assert (Hcase : shape t = [] /\ measure t = t /\ is_Fixed t = false /\ is_TypeSet t = false).
    { destruct He as [d t H|]; [|repeat split; reflexivity]. destruct H; repeat split; reflexivity. }
    destruct Hcase as (Hsh & Hme & Hf & Hts).
    assert (HI : info_eqb py_eq t t = true).
    { apply info_eqb_refl. intros. apply py_eq_refl. }
    destruct shp as [|z shp].
    + rewrite py_eq_unfold. cbn [array_of].
      assert (G : list_eqb py_eq (shape t) (shape (DataShapeT nm (map FixedT [] ++ [t])))
                  && info_eqb py_eq (measure t) (measure (DataShapeT nm (map FixedT [] ++ [t]))) = true).
      { rewrite Hsh, Hme. cbn. exact HI. }
      destruct t; try discriminate; exact G.
    + rewrite py_eq_unfold. cbn [array_of]. cbn [shape measure]. rewrite removelast_last, !last_last, HI.
      rewrite list_eqb_refl; [reflexivity|]. intros. apply py_eq_refl.
Qed.

(** ** Shape and field names in general *)
Lemma to_numpy_shape t shp d : to_numpy t = Ok (shp, d) ->
  Forall2 (fun dim n => dim = FixedT n \/ (exists s, dim = TypeVarT s /\ n = -1))
          (match t with DataShapeT _ ps => removelast ps | _ => [] end) shp.
Proof.
  unfold to_numpy, to_numpy_with. intro H.
  assert (Hd : forall dims shp, mapM np_dim dims = Ok shp ->
     Forall2 (fun dim n => dim = FixedT n \/ (exists s, dim = TypeVarT s /\ n = -1)) dims shp).
  { intros dims shp' Hm. apply mapM_Ok_Forall2 in Hm. induction Hm as [|a b l l' Hab _ IH]; constructor; auto.
    destruct a; simpl in Hab; try discriminate; inversion Hab; subst; eauto. }
  destruct t; try (destruct (npmeth _); inversion H; constructor).
  destruct (mapM np_dim (removelast parameters)) eqn:E; [|discriminate].
  simpl in H. destruct (npmeth _); inversion H; subst. now apply Hd.
Qed.
