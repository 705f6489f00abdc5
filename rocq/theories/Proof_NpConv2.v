(** Proofs for C64, continued: from NumPy, and there and back. *)
From Verif Require Import Base Types Lexer Printer Construct Preds Numpy Spec_WF Spec_Time Spec_Numpy Spec_NpConv
  Proof_Eq Proof_WF Proof_Numpy Proof_Time Proof_Constr Proof_Attrs Proof_NpConv.
Local Open Scope Z_scope.

Section NpInd.
  Variable P : npdt -> Prop.
  Hypothesis Ha : forall d, (forall x, d <> NSwap x) -> (forall fs, d <> NStruct fs) -> P d.
  Hypothesis Hs : forall d, P d -> P (NSwap d).
  Hypothesis Hf : forall fs, Forall (fun f => P (snd (snd f))) fs -> P (NStruct fs).
  Fixpoint npdt_ind' (d : npdt) : P d.
  Proof.
    destruct d; try (apply Ha; intros; discriminate).
    - apply Hs. apply npdt_ind'.
    - apply Hf. induction fields as [|[n [s b]] l IH]; constructor; [apply npdt_ind'|exact IH].
  Defined.
End NpInd.

Lemma np_array_iff shp m t : is_DataShape m = false -> may_be_measure m = true ->
  np_array shp m = Ok t <-> Sizes shp /\ t = array_of shp m.
Proof.
  intros Hd Hm. split.
  - intro H. assert (S : Sizes shp).
    { unfold np_array in H. destruct shp as [|z shp]; [constructor|].
      destruct (mapM mk_fixed (z :: shp)) as [dims|] eqn:E; [|discriminate]. apply mapM_Ok_Forall2 in E.
      clear H. induction E as [|a b l l' Hab _ IH]; constructor; auto.
      unfold mk_fixed in Hab. destruct (Z.ltb_spec a 0); [discriminate|lia]. }
    split; auto. rewrite np_array_ok in H by auto. congruence.
  - intros [S ->]. now apply np_array_ok.
Qed.
Lemma from_plain d t : FromDtype d t -> is_DataShape t = false /\ may_be_measure t = true.
Proof.
  intro H. induction H; auto. unfold np_scalars in H. cbn [In] in H.
  repeat (destruct H as [H|H]; [injection H as <- <- <-; split; reflexivity|]). destruct H.
Qed.
Lemma array_of_launder shp m : is_DataShape m = false -> launder_ty (array_of shp m) = array_of shp m.
Proof.
  intro H. unfold array_of. destruct shp as [|z shp]; [destruct m; try discriminate; reflexivity|].
  cbn [map app]. destruct (map FixedT shp); reflexivity.
Qed.

Lemma day_iff u : mem_str u [$"D"; $"Y"; $"M"; $"W"] = true <-> In u day_units.
Proof. rewrite mem_str_In. unfold day_units. cbn [In]. tauto. Qed.
Lemma ctype_datetime u k : ctype_from_numpy_dtype (NDatetime u k) =
  if mem_str u [$"D"; $"Y"; $"M"; $"W"] then Ok DateT else Ok (DateTimeT None).
Proof. reflexivity. Qed.
Lemma ctype_timedelta u k : ctype_from_numpy_dtype (NTimedelta u k) = mk_timedelta u.
Proof. reflexivity. Qed.
Lemma ctype_void n : n <> 0 -> ctype_from_numpy_dtype (NVoid n) = Raise NotImplErr.
Proof.
  intro H. cbn [ctype_from_numpy_dtype np_name]. destruct (Z.eqb_spec n 0); [contradiction|].
  pose proof (z2s_nonempty (8 * n)) as E. destruct (z2s (8 * n)) as [|c r]; [congruence|]. reflexivity.
Qed.
Lemma timedelta_iff u t : mk_timedelta u = Ok t <-> exists v, UnitOf u v /\ t = TimeDeltaT v.
Proof.
  unfold mk_timedelta. split.
  - destruct (normalize_time_unit u) as [v|] eqn:E; cbn [bind]; [|discriminate]. intro H. injection H as <-.
    exists v. split; auto. now apply normalize_UnitOf.
  - intros [v [H ->]]. apply normalize_UnitOf in H. rewrite H. reflexivity.
Qed.

Definition atomic (d : npdt) : Prop := (forall x, d <> NSwap x) /\ (forall fs, d <> NStruct fs).
Ltac table := unfold np_scalars; cbn [In]; repeat first [left; reflexivity | right].
Lemma scalar_from d t : In (d, t) (map (fun x => (snd (fst x), snd x)) np_scalars) -> FromDtype d t.
Proof. intro H. apply in_map_iff in H as [[[n d'] t'] [E H]]. cbn in E. injection E as <- <-. eapply FD_scalar; eauto. Qed.
Lemma scalar_ctype n d t : In (n, d, t) np_scalars -> np_measure d = Ok t.
Proof.
  unfold np_scalars. cbn [In]. intro H. repeat (destruct H as [H|H]; [injection H as <- <- <-; vm_compute; reflexivity|]). destruct H.
Qed.
Lemma mk_record_plain gs : Forall (fun g : str * ty => launder_ty (snd g) = snd g) gs ->
  mk_record no_dsh (map (fun g => (fst g, PTy (snd g))) gs) = if nodup_str (map fst gs) then Ok (RecordT gs) else Raise ValueErr.
Proof.
  intro H. unfold mk_record. rewrite map_map. cbn [fst snd].
  assert (E : mapM (fun f : str * parg => launder no_dsh (snd f)) (map (fun g => (fst g, PTy (snd g))) gs) = Ok (map snd gs)).
  { induction H as [|g gs Hg _ IH]; auto. cbn [map]. rewrite mapM_cons, IH. cbn [snd launder bind]. rewrite Hg. reflexivity. }
  rewrite E. cbn [bind]. replace (map (fun x : str * ty => fst x) gs) with (map fst gs) by reflexivity.
  assert (C : combine (map fst gs) (map snd gs) = gs).
  { clear. induction gs as [|[n t] gs IH]; cbn; congruence. }
  rewrite C. reflexivity.
Qed.
Lemma fields_plain (l : list (str * (list Z * npdt))) gs :
  Forall2 (fun f g => fst g = fst f /\ Sizes (fst (snd f)) /\
               exists m, FromDtype (snd (snd f)) m /\ snd g = array_of (fst (snd f)) m) l gs ->
  Forall (fun g : str * ty => launder_ty (snd g) = snd g) gs.
Proof.
  intro F. induction F as [|f g l gs [H1 [H2 [m [H3 H4]]]] _ IH]; constructor; auto.
  rewrite H4. apply array_of_launder. eapply from_plain; eauto.
Qed.
Lemma measure_iff : forall d t, np_measure d = Ok t <-> FromDtype d t.
Proof.
  induction d as [d N1 N2|d IH|fs IH] using npdt_ind'; intro t.
  - destruct d; try (exfalso; now apply (N1 d)); try (exfalso; now apply (N2 fields)); clear N1 N2.
    + split; [intro H; vm_compute in H; injection H as <-; apply scalar_from; table|].
      intro H; inversion H; subst; eapply scalar_ctype; eauto.
    + split; [intro H; destruct s; vm_compute in H; injection H as <-; apply scalar_from; table|].
      intro H; inversion H; subst; eapply scalar_ctype; eauto.
    + split; [intro H; destruct s; vm_compute in H; injection H as <-; apply scalar_from; table|].
      intro H; inversion H; subst; eapply scalar_ctype; eauto.
    + split; [intro H; destruct s; vm_compute in H; try discriminate; injection H as <-; apply scalar_from; table|].
      intro H; inversion H; subst; eapply scalar_ctype; eauto.
    + split; [intro H; destruct s; vm_compute in H; try discriminate; injection H as <-; apply scalar_from; table|].
      intro H; inversion H; subst; eapply scalar_ctype; eauto.
    + split; [intro H; vm_compute in H; injection H as <-; apply scalar_from; table|].
      intro H; inversion H; subst; eapply scalar_ctype; eauto.
    + split.
      * destruct (Z.eq_dec n 0) as [->|Hn]; [intro H; vm_compute in H; injection H as <-; apply scalar_from; table|].
        change (np_measure (NVoid n)) with (ctype_from_numpy_dtype (NVoid n)). rewrite ctype_void by auto. discriminate.
      * intro H; inversion H; subst; eapply scalar_ctype; eauto.
    + split; [intro H; injection H as <-; constructor|]. intro H; inversion H; subst; [exfalso|reflexivity].
      match goal with K : In _ np_scalars |- _ => revert K end. unfold np_scalars. cbn [In]. intuition discriminate.
    + split; [intro H; injection H as <-; constructor|]. intro H; inversion H; subst; [exfalso|reflexivity].
      match goal with K : In _ np_scalars |- _ => revert K end. unfold np_scalars. cbn [In]. intuition discriminate.
    + change (np_measure (NDatetime unit num)) with (ctype_from_numpy_dtype (NDatetime unit num)). rewrite ctype_datetime.
      pose proof (day_iff unit) as D. destruct (mem_str unit _) eqn:E.
      * split; [intro H; injection H as <-; constructor; tauto|]. intro H; inversion H; subst; [exfalso|reflexivity|exfalso; tauto].
        match goal with K : In _ np_scalars |- _ => revert K end. unfold np_scalars. cbn [In]. intuition discriminate.
      * split; [intro H; injection H as <-; apply FD_datetime; intro Q; apply D in Q; discriminate|].
        intro H; inversion H; subst; [exfalso|exfalso; match goal with K : In _ _ |- _ => apply D in K; discriminate end|reflexivity].
        match goal with K : In _ np_scalars |- _ => revert K end. unfold np_scalars. cbn [In]. intuition discriminate.
    + change (np_measure (NTimedelta unit num)) with (ctype_from_numpy_dtype (NTimedelta unit num)). rewrite ctype_timedelta.
      rewrite timedelta_iff. split; [intros [v [H ->]]; now constructor|]. intro H; inversion H; subst; [exfalso|eauto].
      match goal with K : In _ np_scalars |- _ => revert K end. unfold np_scalars. cbn [In]. intuition discriminate.
  - change (np_measure (NSwap d)) with (np_measure d). rewrite IH. split; [apply FD_order|]. intro H; inversion H; subst; auto.
    exfalso. match goal with K : In _ np_scalars |- _ => revert K end. unfold np_scalars. cbn [In]. intuition discriminate.
  - assert (NS : forall n t, ~ In (n, NStruct fs, t) np_scalars).
    { intros n t' K. revert K. unfold np_scalars. cbn [In]. intuition discriminate. }
    destruct fs as [|f fs].
    { change (np_measure (NStruct [])) with (ctype_from_numpy_dtype (NStruct [])). split.
      - intro H. vm_compute in H. injection H as <-. apply FD_no_field.
      - intro H; inversion H; subst; [exfalso; eapply NS; eauto|reflexivity|congruence]. }
    rewrite np_measure_struct. assert (Hl : f :: fs <> []) by discriminate.
    set (l := f :: fs) in *. clearbody l.
    assert (FF : forall f r, In f l -> np_field f = Ok r <->
       fst r = fst f /\ Sizes (fst (snd f)) /\ exists m, FromDtype (snd (snd f)) m /\ snd r = PTy (array_of (fst (snd f)) m)).
    { intros [n [shp b]] [n' x] Hf. rewrite Forall_forall in IH. pose proof (IH _ Hf) as IHf. cbn [fst snd] in *. cbn [np_field]. split.
      - destruct (np_measure b) as [m|] eqn:E; cbn [bind]; [|discriminate]. clear E. pose proof (proj1 (IHf m) eq_refl) as E. destruct (from_plain _ _ E) as [D M].
        destruct (np_array shp m) as [y|] eqn:E2; cbn [bind]; [|discriminate]. intro H. injection H as <- <-.
        apply np_array_iff in E2 as [S ->]; auto. split; auto. split; auto. eauto.
      - intros [-> [S [m [H ->]]]]. destruct (from_plain _ _ H) as [D M]. apply IHf in H. rewrite H. cbn [bind].
        rewrite (proj2 (np_array_iff shp m _ D M) (conj S eq_refl)). reflexivity. }
    split.
    + destruct (mapM np_field l) as [rec|] eqn:E; cbn [bind]; [|discriminate]. apply mapM_Ok_Forall2 in E.
      apply (proj1 (F2_iff_in _ _ _ _ FF)) in E. intro H.
      assert (exists gs, rec = map (fun g => (fst g, PTy (snd g))) gs /\
         Forall2 (fun f g => fst g = fst f /\ Sizes (fst (snd f)) /\
               exists m, FromDtype (snd (snd f)) m /\ snd g = array_of (fst (snd f)) m) l gs) as [gs [-> F]].
      { clear - E. induction E as [|f r l rec [H1 [H2 [m [H3 H4]]]] _ [gs [-> F]]].
        - exists []. split; auto.
        - exists ((fst f, array_of (fst (snd f)) m) :: gs). split.
          + destruct r as [n x]. cbn [map fst snd] in *. subst. reflexivity.
          + constructor; auto. cbn [fst snd]. eauto 6. }
      rewrite mk_record_plain in H by (eapply fields_plain; eauto).
      assert (En : map fst gs = map fst l) by (clear - F; induction F as [|f g l gs [H _] _ IH]; cbn; congruence).
      destruct (nodup_str (map fst gs)) eqn:EN; [|discriminate]. injection H as <-. apply nodup_str_NoDup in EN. rewrite En in EN.
      apply FD_struct; auto.
    + intro H. inversion H as [| | | | | | | |fs' gs H1 H2 F]; subst; [exfalso; eapply NS; eauto|congruence|].
      assert (E : mapM np_field l = Ok (map (fun g => (fst g, PTy (snd g))) gs)).
      { apply mapM_Ok_Forall2. apply (proj2 (F2_iff_in _ _ _ _ FF)). clear - F.
        induction F as [|f g l gs [H1 [H2 [m [H3 H4]]]] _ IH]; constructor; auto.
        cbn [fst snd]. split; auto. split; auto. exists m. split; auto. congruence. }
      rewrite E. cbn [bind]. rewrite mk_record_plain by (eapply fields_plain; eauto).
      assert (En : map fst gs = map fst l) by (clear - F; induction F as [|f g l gs [H _] _ IH]; cbn; congruence).
      rewrite En. apply nodup_str_NoDup in H2. rewrite H2. reflexivity.
Qed.
Theorem from_numpy_spec shp d t : from_numpy shp d = Ok t <-> exists m, FromDtype d m /\ Sizes shp /\ t = array_of shp m.
Proof.
  unfold from_numpy. split.
  - destruct (np_measure d) as [m|] eqn:E; cbn [bind]; [|discriminate]. apply measure_iff in E. destruct (from_plain _ _ E) as [D M].
    intro H. apply np_array_iff in H as [S ->]; auto. eauto.
  - intros [m [H [S ->]]]. destruct (from_plain _ _ H) as [D M]. apply measure_iff in H. rewrite H. cbn [bind].
    apply np_array_iff; auto.
Qed.

(** ** there and back *)
Lemma not_scalar_map (t : ty) n d : In (n, d, t) np_scalars -> is_Map t = false.
Proof. unfold np_scalars. cbn [In]. intro H. repeat (destruct H as [H|H]; [injection H as <- <- <-; reflexivity|]). destruct H. Qed.
Lemma from_not_map d t : FromDtype d t -> is_Map t = false.
Proof. intro H. induction H; auto. eapply not_scalar_map; eauto. Qed.
Lemma array_of_measure shp m : is_DataShape m = false -> measure (array_of shp m) = m.
Proof.
  intro H. unfold array_of. destruct shp as [|z shp]; [destruct m; try discriminate; reflexivity|].
  cbn [measure]. apply last_last.
Qed.
Lemma shaped_plain m shp d : is_DataShape m = false -> AsShaped m shp d <-> shp = [] /\ AsDtype m d.
Proof.
  intro H. split; [|intros [-> K]; now constructor]. intro K. inversion K; subst; [discriminate|auto].
Qed.
Lemma inner_array shp m d : is_DataShape m = false -> is_Map m = false -> Inner (array_of shp m) d <-> AsDtype m d.
Proof.
  intros H1 H2. split.
  - intro K. inversion K as [t s d' M S|t k v s d' M S]; subst; rewrite array_of_measure in * by auto.
    + now apply shaped_plain in S.
    + subst m. discriminate.
  - intro K. eapply IN_measure; rewrite array_of_measure by auto; [auto|]. apply AS_plain. exact K.
Qed.
Lemma shaped_array shp m shp' d : is_DataShape m = false -> AsShaped (array_of shp m) shp' d <-> shp' = shp /\ AsDtype m d.
Proof.
  intro H. unfold array_of. destruct shp as [|z shp]; [now apply shaped_plain|].
  assert (D : Forall2 DimSize (map FixedT (z :: shp)) shp' <-> shp' = z :: shp).
  { generalize (z :: shp) as l. clear. intro l. split.
    - revert shp'. induction l as [|x l IH]; intros shp' F; cbn in F; inversion F; subst; auto.
      match goal with K : DimSize _ _ |- _ => inversion K; subst end. f_equal. auto.
    - intros ->. induction l; constructor; auto. constructor. }
  split.
  - intro K. inversion K as [n dims m' s d' F A E|t d' A]; subst; [|inversion A].
    match goal with Q : _ ++ [_] = _ |- _ => change (dims ++ [m'] = map FixedT (z :: shp) ++ [m]) in Q; apply app_inj_tail in Q as [-> ->] end.
    split; auto. now apply D.
  - intros [-> K]. apply AS_array; auto. now apply D.
Qed.

Lemma kept_scalar n d t : In (n, d, t) np_scalars -> forall d', AsDtype t d' <-> d' = d.
Proof.
  intros H d'. split.
  - unfold np_scalars in H. cbn [In] in H. intro K.
    repeat (destruct H as [H|H]; [injection H as <- <- <-; apply meth_spec in K; vm_compute in K; congruence|]). destruct H.
  - intros ->. unfold np_scalars in H. cbn [In] in H.
    repeat (destruct H as [H|H]; [injection H as <- <- <-; apply meth_spec; vm_compute; reflexivity|]). destruct H.
Qed.
Lemma scalar_atomic n d t : In (n, d, t) np_scalars ->
  match d with NBytes _ | NUnicode _ | NDatetime _ _ | NTimedelta _ _ | NSwap _ | NStruct _ => False | _ => True end.
Proof. unfold np_scalars. cbn [In]. intro H. repeat (destruct H as [H|H]; [injection H as <- <- <-; exact I|]). destruct H. Qed.

Ltac solve_kept :=
  first [ exfalso; match goal with Q : In _ np_scalars |- _ => apply scalar_atomic in Q; exact Q end
        | contradiction | congruence
        | match goal with Q : _ \/ _ |- _ => destruct Q as [Q|Q]; [discriminate|injection Q as ->]; constructor end
        | constructor; auto; discriminate
        | constructor; auto; fail ].
Lemma kept_iff : forall d m, FromDtype d m -> forall d', AsDtype m d' <-> Kept d d'.
Proof.
  induction d as [d N1 N2|d IH|fs IH] using npdt_ind'; intros m H d'.
  - inversion H; subst.
    + rewrite (kept_scalar _ _ _ H0). split; [intros ->; eapply K_scalar; eauto|].
      pose proof (scalar_atomic _ _ _ H0) as A. intro K; destruct K; auto; try destruct A.
    + split; intro K; inversion K; subst; solve_kept.
    + split; intro K; inversion K; subst; solve_kept.
    + split; intro K; inversion K; subst; solve_kept.
    + split; intro K; inversion K; subst; solve_kept.
    + split; intro K; inversion K; subst; try solve_kept.
      * apply normalize_UnitOf in H0. match goal with Q : UnitOf _ v0 |- _ => apply normalize_UnitOf in Q end.
        assert (v0 = v) by congruence. subst. constructor.
    + exfalso. now apply (N1 d0).
    + exfalso. now apply (N2 []).
    + exfalso. now apply (N2 fs).
  - inversion H; subst; [exfalso; eapply scalar_atomic in H0; exact H0|].
    rewrite (IH m) by auto. split; [apply K_order|]. intro K; inversion K; subst; auto.
    exfalso. match goal with Q : In _ np_scalars |- _ => apply scalar_atomic in Q; exact Q end.
  - inversion H as [n d t S| | | | | | | |fs' gs F1 F2 F3]; subst; [exfalso; eapply scalar_atomic in S; exact S| |].
    + rewrite (kept_scalar $"void" (NVoid 0)) by table. split; [intros ->; constructor|]. intro K; inversion K; subst; auto; [|congruence].
      exfalso. match goal with Q : In _ np_scalars |- _ => apply scalar_atomic in Q; exact Q end.
    + assert (En : map fst gs = map fst fs) by (clear - F3; induction F3 as [|f g l gs [Q _] _ IH]; cbn; congruence).
      assert (FF : forall ds, Forall2 (fun f d => Inner (snd f) d) gs ds <-> Forall2 (fun f d => Kept (snd (snd f)) d) fs ds).
      { clear - IH F3. intro ds. revert ds. induction F3 as [|f g fs gs [H1 [H2 [m [H3 H4]]]] _ IHF]; intro ds.
        - split; intro F; inversion F; constructor.
        - inversion IH as [|x l I1 I2]; subst. specialize (IHF I2).
          assert (E : forall d, Inner (snd g) d <-> Kept (snd (snd f)) d).
          { intro d. rewrite H4. rewrite inner_array by (first [eapply from_plain; eauto|eapply from_not_map; eauto]). now apply I1. }
          split; intro F; inversion F; subst; constructor; try (now apply E); now apply IHF. }
      split.
      * intro K. inversion K; subst. apply K_struct; auto; [congruence|]. now apply FF.
      * intro K. inversion K; subst; [|congruence|].
        -- exfalso. match goal with Q : In _ np_scalars |- _ => apply scalar_atomic in Q; exact Q end.
        -- apply AD_record; auto; [congruence|]. now apply FF.
Qed.
Theorem dtype_roundtrip shp d t : from_numpy shp d = Ok t ->
  forall shp' d', to_numpy t = Ok (shp', d') <-> shp' = shp /\ Kept d d'.
Proof.
  intros H shp' d'. apply from_numpy_spec in H as [m [H [S ->]]]. rewrite to_numpy_spec.
  rewrite shaped_array by (eapply from_plain; eauto). rewrite (kept_iff _ _ H). reflexivity.
Qed.

(** ** dtypes that come from a datashape are kept as they are *)
Definition NiceObj (u : ty) : Prop := Inv u /\ u <> RecordT [] /\ u <> TupleT [].
Definition Nice (t : ty) : Prop := forall u, Occurs u t -> NiceObj u.
Lemma Nice_child t c : Nice t -> In c (children t) -> Nice c.
Proof. intros H Hc u Hu. apply H. eapply Occurs_in; eauto. Qed.
Lemma Nice_measure t : Nice t -> Nice (measure t).
Proof.
  intro H. destruct t; auto. cbn [measure]. destruct (last_app_or parameters (DataShapeT name parameters)) as [->|(l & x & E & El & _)]; [exact H|].
  rewrite El. eapply Nice_child; [exact H|]. cbn [children]. rewrite E. apply in_or_app. right. left. reflexivity.
Qed.
Lemma names_twice l names : FieldNames l names -> FieldNames names names.
Proof.
  intros [H1 H2]. split; auto. intros i n Hn. destruct (nth_error l i) as [x|] eqn:E.
  - rewrite (H2 _ _ E) in Hn. injection Hn as <-. rewrite (H2 _ _ E). destruct x; reflexivity.
  - apply nth_error_None in E. assert (nth_error names i <> None) by congruence. apply nth_error_Some in H. lia.
Qed.
Definition Stays (d : npdt) : Prop := Kept d d /\ exists m, FromDtype d m.
Lemma stays_struct names ds : names <> [] -> FieldNames names names -> NoDup names -> length ds = length names ->
  Forall Stays ds -> Stays (struct_of names ds).
Proof.
  intros H1 H2 H3 H4 H5.
  assert (L : length names = length (map (fun d : npdt => (@nil Z, d)) ds)) by (rewrite map_length; auto).
  assert (NE : combine names (map (fun d : npdt => (@nil Z, d)) ds) <> []).
  { destruct names; [congruence|]. destruct ds; [discriminate|]. discriminate. }
  split.
  - unfold struct_of at 1. apply K_struct; auto.
    + rewrite map_fst_combine; auto.
    + clear - H4 H5. revert names H4. induction H5 as [|d ds Hd _ IH]; intros [|n names] L; try discriminate; constructor; auto.
      apply Hd.
  - assert (E : exists gs, Forall2 (fun f g => fst g = fst f /\ Sizes (fst (snd f)) /\
               exists m, FromDtype (snd (snd f)) m /\ snd g = array_of (fst (snd f)) m)
               (combine names (map (fun d : npdt => (@nil Z, d)) ds)) gs).
    { clear - H4 H5. revert names H4. induction H5 as [|d ds Hd _ IH]; intros [|n names] L; try discriminate.
      - exists []. constructor.
      - destruct (IH names) as [gs F]; [cbn in L; congruence|]. destruct Hd as [_ [m Hm]]. exists ((n, m) :: gs). cbn [map combine].
        constructor; auto. cbn [fst snd]. split; auto. split; [constructor|]. exists m. auto. }
    destruct E as [gs F]. exists (RecordT gs). apply FD_struct; auto. rewrite map_fst_combine; auto.
Qed.
Lemma stays_scalar n d t : In (n, d, t) np_scalars -> Stays d.
Proof. intro H. split; [eapply K_scalar; eauto|]. exists t. eapply FD_scalar; eauto. Qed.
Lemma stable_n : forall n t d, (tsize t < n)%nat -> Nice t -> AsDtype t d -> Stays d.
Proof.
  induction n as [|n IH]; intros t d Hn W H; [lia|].
  assert (SH : forall u shp d', (tsize u < tsize t)%nat -> Nice u -> AsShaped u shp d' -> Stays d').
  { intros u shp d' Hu Wu S. destruct S as [nm dims m shp d' F A|u d' A].
    - apply (IH m); auto.
      + rewrite tsize_DataShape, lsize_app in Hu. simpl in Hu. lia.
      + eapply Nice_child; [exact Wu|]. apply in_or_app. right. left. reflexivity.
    - apply (IH u); auto. lia. }
  assert (IN : forall u d', (tsize u < tsize t)%nat -> Nice u -> Inner u d' -> Stays d').
  { intros u d' Hu Wu S. pose proof (measure_size u). destruct S as [u shp d' M S|u k v shp d' M S].
    - eapply SH; [|apply Nice_measure; exact Wu|exact S]. lia.
    - eapply SH; [| |exact S].
      + rewrite M, tsize_Map in H0. pose proof (measure_size k). lia.
      + apply Nice_measure. apply Nice_measure in Wu. rewrite M in Wu. eapply Nice_child; [exact Wu|]. left. reflexivity. }
  inversion H; subst.
  - eapply stays_scalar; eauto.
  - unfold np_aliases in H0. cbn [In] in H0. destruct H0 as [H0|[H0|[]]]; injection H0 as <- <-; eapply stays_scalar; table.
  - split; [apply K_date|eexists; apply FD_date]; unfold day_units; cbn [In]; tauto.
  - split; [apply K_datetime|eexists; apply FD_datetime]; unfold day_units; cbn [In]; intuition discriminate.
  - assert (U : UnitOf u u) by (apply UO_canonical; destruct (W _ (Occurs_here _)) as [I _]; exact I).
    split; [now apply K_timedelta|]. eexists. apply FD_timedelta. exact U.
  - apply (IH t0); auto; [rewrite tsize_Option in Hn; lia|]. eapply Nice_child; [exact W|]. left. reflexivity.
  - eapply stays_scalar. table.
  - split; [now constructor|]. eexists. constructor.
  - split; [now constructor|]. eexists. constructor.
  - destruct s; eapply stays_scalar; table.
  - eapply stays_scalar. table.
  - (* map *) inversion H0 as [u shp d' M S|u k0 v0 shp d' M S]; subst; [discriminate|]. cbn [measure] in M. injection M as <- <-.
    eapply SH; [| |exact S].
    + rewrite tsize_Map. pose proof (measure_size k). lia.
    + apply Nice_measure. eapply Nice_child; [exact W|]. left. reflexivity.
  - (* record *)
    match goal with Q : Forall2 _ _ _ |- _ => rename Q into F end.
    assert (L : length fs = length ds) by (eapply Forall2_len; eauto).
    match goal with Q : FieldNames _ _ |- _ => rename Q into FN end.
    assert (L2 : length names = length fs) by (destruct FN as [Q _]; rewrite map_length in Q; exact Q).
    apply stays_struct; auto.
    + intros ->. destruct fs; [|discriminate]. destruct (W _ (Occurs_here _)) as [_ [I _]]. congruence.
    + eapply names_twice; eauto.
    + congruence.
    + assert (G : forall f, In f fs -> (tsize (snd f) < tsize (RecordT fs))%nat /\ Nice (snd f)).
      { intros f Hf. split; [rewrite tsize_Record; apply fsize_In in Hf; lia|]. eapply Nice_child; [exact W|]. cbn [children]. now apply in_map. }
      clear - F G IN. revert G IN. generalize (tsize (RecordT fs)) as k. intros k G IN.
      induction F as [|f d fs ds Hf F IHF]; constructor.
      * destruct (G f (or_introl eq_refl)). eapply IN; eauto.
      * apply IHF. intros g Hg. apply G. right. exact Hg.
  - (* tuple *)
    match goal with Q : Forall2 _ _ _ |- _ => rename Q into F end.
    assert (L : length l = length ds) by (eapply Forall2_len; eauto).
    match goal with Q : FieldNames _ _ |- _ => rename Q into FN end.
    assert (L2 : length names = length l) by (destruct FN as [Q _]; rewrite map_length in Q; exact Q).
    apply stays_struct; auto.
    + intros ->. destruct l; [|discriminate]. destruct (W _ (Occurs_here _)) as [_ [_ I]]. congruence.
    + eapply names_twice; eauto.
    + apply names_iff in FN. subst names. rewrite <- (f_names_are l 0). apply f_names_nodup.
    + congruence.
    + assert (G : forall f, In f l -> (tsize f < tsize (TupleT l))%nat /\ Nice f).
      { intros f Hf. split; [rewrite tsize_Tuple; apply lsize_In in Hf; lia|]. eapply Nice_child; [exact W|]. exact Hf. }
      clear - F G IN. revert G IN. generalize (tsize (TupleT l)) as k. intros k G IN.
      induction F as [|f d fs ds Hf F IHF]; constructor.
      * destruct (G f (or_introl eq_refl)). eapply IN; eauto.
      * apply IHF. intros g Hg. apply G. right. exact Hg.
Qed.
Lemma to_stays t shp d : WF t -> ~ Occurs (RecordT []) t -> ~ Occurs (TupleT []) t -> to_numpy t = Ok (shp, d) -> Stays d.
Proof.
  intros W R T H.
  assert (N : Nice t). { intros u Hu. split; [now apply W|]. split; intros ->; contradiction. }
  apply to_numpy_spec in H. destruct H as [nm dims m shp d F A|t d A].
  - eapply (stable_n (S (tsize m))); [|eapply Nice_child; [exact N|]|exact A]; [lia|]. apply in_or_app. right. left. reflexivity.
  - eapply (stable_n (S (tsize t))); [|exact N|exact A]. lia.
Qed.
Theorem stable t shp d : WF t -> ~ Occurs (RecordT []) t -> ~ Occurs (TupleT []) t ->
  to_numpy t = Ok (shp, d) -> Sizes shp -> exists t', from_numpy shp d = Ok t' /\ to_numpy t' = Ok (shp, d).
Proof.
  intros W R T H S. destruct (to_stays _ _ _ W R T H) as [K [m F]].
  assert (H' : from_numpy shp d = Ok (array_of shp m)) by (apply from_numpy_spec; eauto).
  exists (array_of shp m). split; auto. apply (dtype_roundtrip _ _ _ H'). auto.
Qed.
