(** Proofs for C60. *)
From Verif Require Import Base Types Lexer Printer Construct Parser Ops Preds Numpy Graph Discovery Attrs
  Spec_WF Spec_Numpy Spec_Print Spec_Found Spec_Attrs Proof_WF Proof_Eq Proof_Numpy Proof_Reads.
Local Open Scope Z_scope.

Lemma itemsize_iff t n : py_itemsize t = Ok n <-> exists name a, Optional (CType name n a) t.
Proof.
  split.
  - induction t using ty_ind'; cbn [py_itemsize]; intro H'; try discriminate.
    + injection H' as <-. eexists _, _. constructor.
    + destruct (IHt H') as (nm & a & O). exists nm, a. constructor. exact O.
  - intros (nm & a & O). induction O; auto.
Qed.
Lemma itemsize_raises t : (exists n, py_itemsize t = Ok n) \/ py_itemsize t = Raise AttributeErr.
Proof. induction t using ty_ind'; cbn [py_itemsize]; eauto. Qed.

Lemma known_storage c d : In c KnownCTypes -> npmeth c = Ok d ->
  py_itemsize c = Ok (StoreBytes d) /\ py_alignment c = Ok (StoreAlign d).
Proof.
  unfold KnownCTypes. intros H E. cbn [In] in H.
  repeat (destruct H as [<-|H]; [vm_compute in E; injection E as <-; split; reflexivity|]). destruct H.
Qed.
Lemma known_numpy c : In c KnownCTypes -> exists d, npmeth c = Ok d.
Proof.
  unfold KnownCTypes. intro H. cbn [In] in H.
  repeat (destruct H as [<-|H]; [eexists; vm_compute; reflexivity|]). destruct H.
Qed.
Lemma Optional_occurs c t : Optional c t -> Occurs c t.
Proof. induction 1; [constructor|]. eapply Occurs_in; [|eauto]. left; reflexivity. Qed.
Lemma Occurs_trans a b c : Occurs a b -> Occurs b c -> Occurs a c.
Proof. intros H K. induction K; auto. eapply Occurs_in; eauto. Qed.

Lemma parsed_storage U sc so s t u n : dates_ok so -> dshape (full_env U sc so) s = Ok t -> Occurs u t ->
  py_itemsize u = Ok n ->
  exists c d, Optional c u /\ npmeth c = Ok d /\ n = StoreBytes d /\ py_alignment c = Ok (StoreAlign d).
Proof.
  intros HD H O I. apply itemsize_iff in I as (nm & a & P).
  pose proof (PDS_PP t (dshape_PDS U sc so s t HD H)) as PPt.
  assert (K : In (CType nm n a) KnownCTypes).
  { exact (PPt _ (Occurs_trans _ _ _ (Optional_occurs _ _ P) O)). }
  destruct (known_numpy _ K) as [d E]. destruct (known_storage _ d K E) as [I A]. injection I as ->.
  exists (CType nm (StoreBytes d) a), d. auto.
Qed.

Definition sized (d : npdt) (t : ty) : Prop :=
  (py_itemsize t = Ok (StoreBytes d) /\ py_alignment t = Ok (StoreAlign d)) \/
  (py_itemsize t = Raise AttributeErr /\ py_alignment t = Raise AttributeErr).
Lemma mk_record_sized d f fs t : mk_record f fs = Ok t -> sized d t.
Proof.
  unfold mk_record. intro H. right.
  destruct (mapM _ _); cbn [bind] in H; [|discriminate].
  destruct (nodup_str _); [injection H as <-; split; reflexivity|discriminate].
Qed.
Lemma z2s_nonempty z : z2s z <> [].
Proof.
  destruct z as [|p|p]; cbn [z2s]; [discriminate| |discriminate].
  unfold n2s. destruct (N.to_nat _); cbn [dec_digits]; [discriminate|].
  destruct (_ <? _)%N; [discriminate|]. intro H. apply app_eq_nil in H as [_ H]. discriminate.
Qed.
Lemma numpy_sized d : forall t, np_measure d = Ok t -> sized d t.
Proof.
  induction d; intros t H.
  - vm_compute in H; injection H as <-; left; split; reflexivity.
  - destruct s; vm_compute in H; injection H as <-; left; split; reflexivity.
  - destruct s; vm_compute in H; injection H as <-; left; split; reflexivity.
  - destruct s; vm_compute in H; try discriminate; injection H as <-; left; split; reflexivity.
  - destruct s; vm_compute in H; try discriminate; injection H as <-; left; split; reflexivity.
  - vm_compute in H; injection H as <-; left; split; reflexivity.
  - cbn [np_measure] in H. unfold ctype_from_numpy_dtype, np_name in H. destruct (Z.eqb_spec n 0) as [->|Hn].
    + vm_compute in H. injection H as <-. left; split; reflexivity.
    + pose proof (z2s_nonempty (8 * n)) as NE.
      assert (E : forall c w, assoc ($"void" ++ c :: w) type_registry = None) by (intros c w; reflexivity).
      destruct (z2s (8 * n)) as [|c w]; [destruct NE; auto|]. rewrite E in H. discriminate.
  - cbn [np_measure] in H. unfold mk_string in H. right.
    destruct (assoc _ _); [|discriminate]. injection H as <-; split; reflexivity.
  - cbn [np_measure] in H. unfold mk_string in H. right.
    destruct (assoc _ _); [|discriminate]. injection H as <-; split; reflexivity.
  - right. cbn [np_measure ctype_from_numpy_dtype np_name] in H.
    assert (E : forall w, assoc ($"datetime64" ++ w) type_registry = None) by (intro w; reflexivity).
    rewrite E in H. destruct (mem_str _ _); injection H as <-; split; reflexivity.
  - right. cbn [np_measure ctype_from_numpy_dtype np_name] in H.
    assert (E : forall w, assoc ($"timedelta64" ++ w) type_registry = None) by (intro w; reflexivity).
    rewrite E in H. unfold mk_timedelta in H. destruct (normalize_time_unit _); cbn [bind] in H; [|discriminate].
    injection H as <-; split; reflexivity.
  - cbn [np_measure] in H. exact (IHd t H).
  - destruct fields as [|f fs].
    + vm_compute in H. injection H as <-. left; split; reflexivity.
    + change (np_measure (NStruct (f :: fs))) with
        (let! rec := mapM (fun f => match f with (n, (shp, b)) =>
                           let! m := np_measure b in
                           let! t := np_array shp m in Ok (n, PTy t) end) (f :: fs) in
         mk_record no_dsh rec) in H.
      destruct (mapM _ _); cbn [bind] in H; [|discriminate]. eapply mk_record_sized; eauto.
Qed.
