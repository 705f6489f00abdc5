(** [discover] on arrays (C49). *)
From Verif Require Import Base Types Lexer Printer Construct Parser Ops Preds Numpy Graph Discovery
  Spec_Eq Spec_WF Spec_Ops Spec_Discovery Spec_Found Spec_Print Spec_Numpy Proof_WF Proof_Eq Proof_Parser Proof_Ops Proof_Ops2
  Proof_Discovery6 Proof_Numpy.
Local Open Scope Z_scope.
Definition TT1 {A} (x : A) : Prop := True.
Notation DM0 := (DM TT1 TT1).
Notation Dl0 := (Dl TT1 TT1).
Lemma obj_eq_DM t : DM0 t -> py_eq t object_t = true -> t = object_t.
Proof.
  intros H E. rewrite py_eq_unfold in E.
  destruct H as [c Hc _| | | | | | | | | ]; cbn in E; try discriminate.
  - unfold KnownCTypes in Hc. repeat (destruct Hc as [<-|Hc]; [first [reflexivity|vm_compute in E; discriminate]|]). contradiction.
  - destruct (list_eqb _ _ _); discriminate.
Qed.
Lemma obj_eq_Dl t : Dl0 t -> py_eq t object_t = true -> t = object_t.
Proof.
  intros [H|[dims [m [Hne [-> _]]]]] E; [eapply obj_eq_DM; eauto|].
  rewrite py_eq_unfold in E. cbn [shape] in E. rewrite removelast_last in E.
  destruct dims; [congruence|discriminate].
Qed.
Lemma text_dec strs c t : Dl0 t ->
  text_column strs c t (if py_eq t object_t && strs c then string_t else t).
Proof.
  intro H. destruct (py_eq t object_t) eqn:E; cbn [andb].
  - apply obj_eq_Dl in E; auto. subst t. destruct (strs c) eqn:S; [left; auto|right; auto].
  - right. split; auto. intros ->. rewrite py_eq_refl in E. discriminate.
Qed.
Lemma Dl_launder t : Dl0 t -> launder_ty t = t.
Proof.
  intro H. apply notLone_launder. destruct H as [H|[dims [m [Hne [-> _]]]]]; [eapply DM_notLone; eauto|].
  intros [n [x E]]. injection E as _ E. destruct dims as [|? [|]]; [congruence|discriminate|discriminate].
Qed.
Lemma rec_text strs fs : DM0 (RecordT fs) ->
  exists gs, mk_record no_dsh (map (fun f => (fst f, PTy (if py_eq (snd f) object_t && strs (Some (fst f)) then string_t else snd f))) fs)
    = Ok (RecordT gs) /\ Described strs (RecordT fs) (RecordT gs).
Proof.
  intro H. inversion H as [c Hc _| | | | | | | |fs' N _ Hf|]; subst.
  { apply known_CType in Hc as [? [? [? E]]]. discriminate. }
  exists (map (fun f => (fst f, if py_eq (snd f) object_t && strs (Some (fst f)) then string_t else snd f)) fs). split.
  - apply mk_record_iff. exists (map (fun f => if py_eq (snd f) object_t && strs (Some (fst f)) then string_t else snd f) fs).
    split; [|split].
    + assert (X : forall f, In f fs -> Dl0 (snd f)) by (intros [n t] Hin; apply (Hf n t Hin)). clear -X.
      induction fs as [|f fs IH]; [constructor|]. cbn [map]. constructor; [|apply IH; intros; apply X; right; auto].
      cbn [snd launder]. f_equal. destruct (_ && _); [reflexivity|]. apply Dl_launder, X. left; auto.
    + rewrite map_map. cbn [fst]. exact N.
    + f_equal. rewrite map_map. cbn [fst]. clear. induction fs as [|f fs IH]; [reflexivity|]. cbn [map combine]. f_equal. exact IH.
  - apply Described_record. assert (X : forall f, In f fs -> Dl0 (snd f)) by (intros [n t] Hin; apply (Hf n t Hin)). clear -X.
    induction fs as [|f fs IH]; [constructor|]. cbn [map]. constructor; [|apply IH; intros; apply X; right; auto].
    cbn [fst snd]. split; auto. apply text_dec, X. left; auto.
Qed.
Lemma no_obj strs fs : DM0 (RecordT fs) -> existsb (fun f => py_eq (snd f) object_t) fs = false -> Described strs (RecordT fs) (RecordT fs).
Proof.
  intros _ E. apply Described_record. induction fs as [|f fs IH]; [constructor|]. cbn [existsb] in E.
  apply orb_false_iff in E as [E1 E2]. constructor; auto. split; auto. right. split; auto. intro X. rewrite X, py_eq_refl in E1. discriminate.
Qed.
Lemma array_of_parts shp m : is_DataShape m = false -> is_Option m = false -> shape (array_of shp m) = map FixedT shp /\ measure (array_of shp m) = m.
Proof.
  intros H1 H2. unfold array_of. destruct shp as [|z shp]; [destruct m; try discriminate; split; reflexivity|].
  cbn [shape measure]. rewrite removelast_last, last_last. auto.
Qed.
Theorem discover_array sc so shp dt strs m : from_numpy [] dt = Ok m -> Forall (fun z => 0 <= z) shp ->
  exists t, discover sc so (DArr shp dt strs) = Ok t /\ shape t = map FixedT shp /\ Described strs m (measure t).
Proof.
  intros E Hs. cbn [discover]. unfold discover_arr.
  assert (Em : np_measure dt = Ok m) by (unfold from_numpy in E; destruct (np_measure dt); [exact E|discriminate]).
  assert (HM : DM0 m) by (pose proof (np_measure_okR TT1 TT1 (fun _ _ => I) (fun _ => I) dt (fun _ _ => I)) as X; rewrite Em in X; exact X).
  assert (HO : is_Option m = false).
  { pose proof (np_measure_not_option dt m Em) as X. destruct m; try reflexivity. exfalso. eapply X; reflexivity. }
  destruct (DM_facts _ _ m HM) as [HD [_ [_ Hdim]]].
  assert (EA : from_numpy shp dt = Ok (array_of shp m)).
  { unfold from_numpy. rewrite Em. cbn [bind]. apply np_array_ok; auto. clear -HM.
    destruct HM as [c Hc _| | | | | | | | | ]; try reflexivity. apply known_CType in Hc as [? [? [? ->]]]. reflexivity. }
  destruct (array_of_parts shp m HD HO) as [E1 E2]. rewrite EA. cbn [bind]. rewrite E1, E2.
  assert (MK : forall m', DM0 m' -> mk_ds (map FixedT shp ++ [m']) = Ok (DataShapeT None (map FixedT shp ++ [m']))).
  { intros m' H'. apply mk_ds_ok. apply (DA_okps TT1 TT1). exists (map FixedT shp), m'. split; auto. split; auto.
    apply Forall_map. eapply Forall_impl; [|exact Hs]. intros a Ha. constructor; auto. }
  assert (SD : DM0 string_t) by (apply DL_string; [unfold CanonicalEncoding; simpl; tauto|exact I]).
  assert (PT : forall x, shape (DataShapeT None (map FixedT shp ++ [x])) = map FixedT shp /\ measure (DataShapeT None (map FixedT shp ++ [x])) = x)
    by (intro x; cbn [shape measure]; rewrite removelast_last, last_last; auto).
  destruct (py_eq m object_t && strs None) eqn:P.
  - rewrite (MK _ SD). eexists; split; [reflexivity|]. destruct (PT string_t) as [-> ->]. split; auto.
    apply andb_true_iff in P as [P Q]. apply obj_eq_DM in P; auto. subst m. apply Described_scalar; [discriminate|]. left; auto.
  - assert (Same : (forall fs, m <> RecordT fs) -> exists t, Ok (array_of shp m) = Ok t /\ shape t = map FixedT shp /\ Described strs m (measure t)).
    { intro NR. eexists; split; [reflexivity|]. rewrite E1, E2. split; auto. apply Described_scalar; auto.
      right. split; auto. intros ->. rewrite py_eq_refl in P. exact P. }
    assert (C : (exists fs, m = RecordT fs) \/ forall fs, m <> RecordT fs) by (destruct m; eauto; right; discriminate).
    destruct C as [[fs ->]|C]; [|destruct m; try (destruct (isrecord _); apply Same; discriminate); exfalso; eapply C; reflexivity].
    change (isrecord (RecordT fs)) with true. cbv iota.
    destruct (existsb _ _) eqn:X.
    + destruct (rec_text strs fs HM) as [gs [G1 G2]]. rewrite G1. cbn [bind].
      assert (HG : DM0 (RecordT gs)).
      { pose proof (mk_record_okR TT1 TT1 (map (fun f => (fst f, PTy (if py_eq (snd f) object_t && strs (Some (fst f)) then string_t else snd f))) fs)) as R.
        rewrite G1 in R. apply R. apply Forall_forall. intros f Hf. apply in_map_iff in Hf as [[n u] [<- Hf]]. cbn [fst snd]. split; [exact I|].
        eexists. split; [reflexivity|]. clear P. destruct (_ && _); [left; auto|]. apply Dl_D. eapply record_field_D; eauto. }
      rewrite (MK _ HG). eexists; split; [reflexivity|]. destruct (PT (RecordT gs)) as [-> ->]. auto.
    + eexists; split; [reflexivity|]. rewrite E1, E2. split; auto. apply no_obj; auto.
Qed.
