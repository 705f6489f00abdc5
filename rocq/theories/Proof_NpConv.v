(** Proofs for C64: the NumPy conversions. *)
From Verif Require Import Base Types Lexer Printer Construct Preds Numpy Spec_WF Spec_Time Spec_Numpy Spec_NpConv
  Proof_Eq Proof_WF Proof_Numpy Proof_Time Proof_Constr.
Local Open Scope Z_scope.

(** ** to NumPy *)
Lemma dim_iff t n : np_dim t = Ok n <-> DimSize t n.
Proof.
  split.
  - destruct t; cbn; try discriminate; intro H; injection H as <-; constructor.
  - intro H; destruct H; reflexivity.
Qed.
Lemma dims_iff l shp : mapM np_dim l = Ok shp <-> Forall2 DimSize l shp.
Proof. rewrite mapM_Ok_Forall2. apply F2_iff. apply dim_iff. Qed.

Lemma np_names_spec l names : forall i,
  names = np_names i l <->
  length names = length l /\
  forall j n, nth_error l j = Some n ->
    nth_error names j = Some (match n with [] => $"f" ++ z2s (Z.of_nat (i + j)) | _ => n end).
Proof.
  revert names. induction l as [|x l IH]; intros names i; cbn [np_names].
  - split; [intros ->; split; auto; intros [|j] n; discriminate|]. intros [H _]. destruct names; [auto|discriminate].
  - split.
    + intros ->. destruct (proj1 (IH (np_names (S i) l) (S i)) eq_refl) as [H1 H2]. split; [cbn; congruence|].
      intros [|j] n Hn; cbn [nth_error] in *.
      * injection Hn as ->. rewrite Nat.add_0_r. destruct n; reflexivity.
      * rewrite (H2 j n Hn). replace (S i + j)%nat with (i + S j)%nat by lia. reflexivity.
    + intros [H1 H2]. destruct names as [|y names]; [discriminate|]. f_equal.
      * specialize (H2 0%nat x eq_refl). cbn [nth_error] in H2. injection H2 as ->. rewrite Nat.add_0_r. destruct x; reflexivity.
      * apply IH. split; [cbn in H1; congruence|]. intros j n Hn. specialize (H2 (S j) n Hn). cbn [nth_error] in H2.
        rewrite H2. replace (S i + j)%nat with (i + S j)%nat by lia. reflexivity.
Qed.
Lemma names_iff l names : FieldNames l names <-> names = np_names 0 l.
Proof. unfold FieldNames. rewrite (np_names_spec l names 0). reflexivity. Qed.

Lemma struct_iff l ds d : mk_struct l ds = Ok d <-> exists names, FieldNames l names /\ NoDup names /\ d = struct_of names ds.
Proof.
  unfold mk_struct. split.
  - destruct (nodup_str (np_names 0 l)) eqn:E; [|discriminate]. intro H. injection H as <-.
    exists (np_names 0 l). split; [now apply names_iff|]. split; [now apply nodup_str_NoDup|reflexivity].
  - intros [names [H1 [H2 ->]]]. apply names_iff in H1. subst names. apply nodup_str_NoDup in H2. rewrite H2. reflexivity.
Qed.

(** the names of a tuple *)
Definition f_names (k : nat) : list str := map (fun i => 102%N :: z2s (Z.of_nat i)) (seq 0 k).
Lemma f_names_are {A} (l : list A) i :
  map (fun i => 102%N :: z2s (Z.of_nat i)) (seq i (length l)) = np_names i (map (fun _ => []) l).
Proof. revert i. induction l as [|x l IH]; intro i; cbn; auto. rewrite IH. reflexivity. Qed.
Lemma np_names_f k : ~ In [] (f_names k).
Proof. unfold f_names. intro H. apply in_map_iff in H as [x [H _]]. discriminate. Qed.
Definition evald (s : str) : N := fold_left (fun a c => 10 * a + (c - 48))%N s 0%N.
Lemma evald_snoc s c : evald (s ++ [c]) = (10 * evald s + (c - 48))%N.
Proof. unfold evald. now rewrite fold_left_app. Qed.
Lemma evald_unit n : evald [(48 + n)%N] = n.
Proof. unfold evald. cbn [fold_left]. rewrite (N.add_comm 48), N.add_sub. lia. Qed.
Lemma dec_digits_eval f : forall n, (n < 10 * 2 ^ N.of_nat f)%N -> evald (dec_digits f n) = n.
Proof.
  induction f as [|f IH]; intros n H; cbn [dec_digits].
  - change (10 * 2 ^ N.of_nat 0)%N with 10%N in H. rewrite N.mod_small by lia. apply evald_unit.
  - destruct (N.ltb_spec n 10) as [Hn|Hn]; [apply evald_unit|].
    rewrite evald_snoc, IH.
    + rewrite (N.add_comm 48), N.add_sub. symmetry. apply N.div_mod'.
    + apply N.div_lt_upper_bound; [lia|]. rewrite Nat2N.inj_succ, N.pow_succ_r' in H. lia.
Qed.
Lemma n2s_eval p : evald (n2s (Npos p)) = Npos p.
Proof.
  unfold n2s. apply dec_digits_eval. rewrite N2Nat.id. destruct (N.log2_spec (Npos p) ltac:(lia)) as [_ H].
  rewrite N.pow_succ_r' in H. lia.
Qed.
Lemma z2s_eval z : 0 <= z -> evald (z2s z) = Z.to_N z.
Proof. destruct z as [|p|p]; intro H; [reflexivity|apply n2s_eval|lia]. Qed.
Lemma z2s_inj a b : 0 <= a -> 0 <= b -> z2s a = z2s b -> a = b.
Proof. intros Ha Hb H. apply (f_equal evald) in H. rewrite !z2s_eval in H by lia. lia. Qed.
Lemma f_names_nodup k : NoDup (f_names k).
Proof.
  unfold f_names. apply FinFun.Injective_map_NoDup; [|apply seq_NoDup].
  intros a b H. injection H as H. apply z2s_inj in H; lia.
Qed.

Lemma last_app_or (ps : list ty) d : ps = [] \/ exists l x, ps = l ++ [x] /\ last ps d = x /\ removelast ps = l.
Proof.
  destruct (list_rev_case ps) as [->|(l & x & ->)]; [auto|]. right. exists l, x. now rewrite last_last, removelast_last.
Qed.
Lemma scalar_names n d : assoc n ctype_np = Some d -> (exists t, In (n, d, t) np_scalars) \/ In (n, d) np_aliases.
Proof.
  intro H. assert (I : In (n, d) ctype_np).
  { revert H. generalize ctype_np. intro l. induction l as [|[k v] l IH]; cbn; [discriminate|].
    destruct (str_eqb n k) eqn:E; [|auto]. intro H. injection H as ->. apply str_eqb_eq in E. subst. auto. }
  unfold ctype_np in I. cbn [In] in I.
  repeat (destruct I as [I|I]; [injection I as <- <-;
    first [ right; cbn [np_aliases In]; tauto | left; eexists; unfold np_scalars; cbn [In]; eauto 40 ] |]).
  destruct I.
Qed.
Lemma ctype_iff n d : ctype_to_numpy n = Ok d <-> (exists t, In (n, d, t) np_scalars) \/ In (n, d) np_aliases.
Proof.
  split.
  - unfold ctype_to_numpy. destruct (str_eqb n $"complex[float32]") eqn:E1.
    { apply str_eqb_eq in E1. subst. intro H. vm_compute in H. injection H as <-. left. eexists. unfold np_scalars. cbn [In]. eauto 40. }
    destruct (str_eqb n $"complex[float64]") eqn:E2.
    { apply str_eqb_eq in E2. subst. intro H. vm_compute in H. injection H as <-. left. eexists. unfold np_scalars. cbn [In]. eauto 40. }
    destruct (assoc n ctype_np) as [x|] eqn:E; [|discriminate]. intro H. injection H as <-. now apply scalar_names.
  - intros [[t H]|H].
    + unfold np_scalars in H. cbn [In] in H. repeat (destruct H as [H|H]; [injection H as <- <- <-; vm_compute; reflexivity|]). destruct H.
    + unfold np_aliases in H. cbn [In] in H. repeat (destruct H as [H|H]; [injection H as <- <-; vm_compute; reflexivity|]). destruct H.
Qed.
Lemma pow10_mono a b : a <= b -> 10 ^ a <= 10 ^ b.
Proof. intro H. apply Z.pow_le_mono_r; lia. Qed.
Lemma smallest_iff p s : SmallestInt p s <->
  decimal_to_numpy p 0 = Ok (NInt s).
Proof.
  unfold SmallestInt, decimal_to_numpy. change (0 =? 0) with true. cbv iota.
  assert (P8 : 10 ^ p <= 2 ^ (ibits B8 - 1) <-> p <= 2).
  { split; intro H; [|etransitivity; [apply (pow10_mono p 2); lia|vm_compute; discriminate]].
    destruct (Z.le_gt_cases p 2); auto. pose proof (pow10_mono 3 p ltac:(lia)) as K.
    change (10 ^ 3) with 1000 in K. change (2 ^ (ibits B8 - 1)) with 128 in H. lia. }
  assert (P16 : 10 ^ p <= 2 ^ (ibits B16 - 1) <-> p <= 4).
  { split; intro H; [|etransitivity; [apply (pow10_mono p 4); lia|vm_compute; discriminate]].
    destruct (Z.le_gt_cases p 4); auto. pose proof (pow10_mono 5 p ltac:(lia)) as K.
    change (10 ^ 5) with 100000 in K. change (2 ^ (ibits B16 - 1)) with 32768 in H. lia. }
  assert (P32 : 10 ^ p <= 2 ^ (ibits B32 - 1) <-> p <= 9).
  { split; intro H; [|etransitivity; [apply (pow10_mono p 9); lia|vm_compute; discriminate]].
    destruct (Z.le_gt_cases p 9); auto. pose proof (pow10_mono 10 p ltac:(lia)) as K.
    change (10 ^ 10) with 10000000000 in K. change (2 ^ (ibits B32 - 1)) with 2147483648 in H. lia. }
  assert (P64 : 10 ^ p <= 2 ^ (ibits B64 - 1) <-> p <= 18).
  { split; intro H; [|etransitivity; [apply (pow10_mono p 18); lia|vm_compute; discriminate]].
    destruct (Z.le_gt_cases p 18); auto. pose proof (pow10_mono 19 p ltac:(lia)) as K.
    change (10 ^ 19) with 10000000000000000000 in K. change (2 ^ (ibits B64 - 1)) with 9223372036854775808 in H. lia. }
  split.
  - intros [H1 H2].
    pose proof (H2 B8) as K8. pose proof (H2 B16) as K16. pose proof (H2 B32) as K32. clear H2.
    assert (Hx : p <= match s with B8 => 2 | B16 => 4 | B32 => 9 | B64 => 18 end).
    { destruct s; tauto. }
    rewrite P8 in K8. rewrite P16 in K16. rewrite P32 in K32. clear P8 P16 P32 P64 H1.
    destruct (Z.leb_spec p 2); [specialize (K8 H); destruct s; cbn in K8; try lia; reflexivity|].
    destruct (Z.leb_spec p 4); [specialize (K16 H0); destruct s; cbn in K16; try lia; reflexivity|].
    destruct (Z.leb_spec p 9); [specialize (K32 H1); destruct s; cbn in K32; try lia; reflexivity|].
    destruct (Z.leb_spec p 18); destruct s; try lia; reflexivity.
  - intro H.
    assert (R : p <= match s with B8 => 2 | B16 => 4 | B32 => 9 | B64 => 18 end /\
                match s with B8 => -1 | B16 => 2 | B32 => 4 | B64 => 9 end < Z.max p 0).
    { destruct (Z.leb_spec p 2); [injection H as <-; lia|].
      destruct (Z.leb_spec p 4); [injection H as <-; lia|].
      destruct (Z.leb_spec p 9); [injection H as <-; lia|].
      destruct (Z.leb_spec p 18); [injection H as <-; lia|discriminate]. }
    destruct R as [R1 R2]. split; [destruct s; tauto|].
    intros s' Hs'. assert (R3 : p <= match s' with B8 => 2 | B16 => 4 | B32 => 9 | B64 => 18 end) by (destruct s'; tauto).
    destruct s, s'; cbn; lia.
Qed.
Lemma decimal_iff p q d : npmeth (DecimalT p q) = Ok d <->
  (q = 0 /\ exists s, d = NInt s /\ SmallestInt p s) \/ (q <> 0 /\ d = NFloat F64).
Proof.
  change (npmeth (DecimalT p q)) with (decimal_to_numpy p q). destruct (Z.eq_dec q 0) as [->|Hq].
  - split.
    + intro H. left. split; auto. assert (exists s, d = NInt s) as [s ->].
      { unfold decimal_to_numpy in H. change (0 =? 0) with true in H. cbv iota in H.
        repeat match type of H with (if ?b then _ else _) = _ => destruct b end; try discriminate; injection H as <-; eauto. }
      exists s. split; auto. now apply smallest_iff.
    + intros [[_ [s [-> H]]]|[H _]]; [now apply smallest_iff|congruence].
  - unfold decimal_to_numpy. destruct (Z.eqb_spec q 0); [contradiction|].
    split; [intro H; injection H as <-; auto|]. intros [[H _]|[_ ->]]; [contradiction|reflexivity].
Qed.
Lemma string_iff l e d : npmeth (StringT l e) = Ok d <->
  ((l = None \/ l = Some 0) /\ d = NObject) \/
  exists n, l = Some n /\ 0 < n <= np_maxlen /\ (e = $"A" /\ d = NBytes n \/ e <> $"A" /\ d = NUnicode n).
Proof.
  change (npmeth (StringT l e)) with (string_to_numpy l e). unfold string_to_numpy. destruct l as [n|].
  - destruct (Z.eqb_spec n 0) as [->|Hn].
    + split; [intro H; injection H as <-; auto|]. intros [[_ ->]|[n [H [Hn _]]]]; [reflexivity|]. injection H as <-. lia.
    + destruct (Z.ltb_spec n 0); [|destruct (Z.ltb_spec np_maxlen n)]; cbn [orb].
      * split; [discriminate|]. intros [[[H1|H1] _]|[m [H1 [H2 _]]]]; try discriminate; injection H1; intros; subst; lia.
      * split; [discriminate|]. intros [[[H1|H1] _]|[m [H1 [H2 _]]]]; try discriminate; injection H1; intros; subst; lia.
      * destruct (str_eqb e $"A") eqn:E.
        -- apply str_eqb_eq in E. split.
           ++ intro H1. injection H1 as <-. right. exists n. split; auto. split; [lia|auto].
           ++ intros [[[H1|H1] _]|[m [H1 [H2 [[_ ->]|[H3 _]]]]]]; try discriminate; try congruence; injection H1; intros; subst; congruence.
        -- assert (e <> $"A") by (intro Q; rewrite Q, str_eqb_refl in E; discriminate). split.
           ++ intro H2. injection H2 as <-. right. exists n. split; auto. split; [lia|auto].
           ++ intros [[[H2|H2] _]|[m [H2 [H3 [[H4 _]|[_ ->]]]]]]; try discriminate; try congruence; injection H2; intros; subst; congruence.
  - split; [intro H; injection H as <-; auto|]. intros [[_ ->]|[n [H _]]]; [reflexivity|discriminate].
Qed.

Lemma shaped_of t shp d :
  (forall m d', (tsize m <= tsize t)%nat -> npmeth m = Ok d' <-> AsDtype m d') ->
  to_numpy t = Ok (shp, d) <-> AsShaped t shp d.
Proof.
  intro IH. unfold to_numpy, to_numpy_with.
  assert (P : forall u, tsize u = tsize t -> is_DataShape u = false ->
     (let! x := npmeth u in Ok ([], x)) = Ok (shp, d) <-> AsShaped u shp d).
  { intros u Hs Hd. split.
    - destruct (npmeth u) as [x|] eqn:E; cbn [bind]; [|discriminate]. intro H. injection H as <- <-.
      apply AS_plain. apply IH; [lia|auto].
    - intro H. inversion H; subst; [discriminate|]. match goal with K : AsDtype _ _ |- _ => apply IH in K; [|lia]; rewrite K end. reflexivity. }
  destruct t; try (apply P; reflexivity).
  destruct (last_app_or parameters (DataShapeT name parameters)) as [->|(l & x & E & El & Er)].
  - cbn [removelast last mapM bind]. split; [discriminate|]. intro H; inversion H; subst.
    + destruct dims; discriminate.
    + match goal with K : AsDtype _ _ |- _ => inversion K end.
  - rewrite El, Er. subst parameters.
    assert (Sx : (tsize x <= tsize (DataShapeT name (l ++ [x])))%nat) by (rewrite tsize_DataShape, lsize_app; simpl; lia).
    split.
    + destruct (mapM np_dim l) as [s|] eqn:E1; cbn [bind]; [|discriminate].
      destruct (npmeth x) as [y|] eqn:E2; cbn [bind]; [|discriminate]. intro H. injection H as <- <-.
      apply AS_array; [now apply dims_iff|]. apply IH; [lia|auto].
    + intro H. inversion H as [n dims m shp' d' F A Eq|t' d' A]; subst.
      * match goal with K : _ ++ [_] = _ ++ [_] |- _ => apply app_inj_tail in K as [-> ->] end. apply dims_iff in F. rewrite F. cbn [bind]. apply IH in A; [|lia]. rewrite A. reflexivity.
      * inversion A.
Qed.
Lemma inner_of t d :
  (forall m d', (tsize m <= tsize t)%nat -> npmeth m = Ok d' <-> AsDtype m d') ->
  to_numpy_dtype t = Ok d <-> Inner t d.
Proof.
  intro IH. unfold to_numpy_dtype, to_numpy_dtype_with. pose proof (measure_size t) as M.
  assert (Q : forall u, (tsize u <= tsize t)%nat ->
    (let! r := to_numpy_with npmeth u in Ok (snd r)) = Ok d <-> exists shp, AsShaped u shp d).
  { intros u Hu. split.
    - destruct (to_numpy_with npmeth u) as [[s x]|] eqn:E; cbn [bind]; [|discriminate]. intro H. injection H as <-.
      exists s. apply shaped_of; [|exact E]. intros m d' Hm. apply IH. lia.
    - intros [s H]. apply shaped_of in H; [|intros m d' Hm; apply IH; lia].
      change (to_numpy_with npmeth u) with (to_numpy u). rewrite H. reflexivity. }
  destruct (is_Map (measure t)) eqn:EM.
  - destruct (measure t) as [| | | | | | | | | | | | | | | | | |k v| | | |] eqn:E; try discriminate.
    rewrite tsize_Map in M. rewrite Q by (pose proof (measure_size k); lia). split.
    + intros [s H]. eapply IN_map; eauto.
    + intro H. inversion H; subst; [rewrite E in *; discriminate|]. rewrite E in *. match goal with K : MapT _ _ = MapT _ _ |- _ => injection K as <- <- end. eauto.
  - assert (Ed : match measure t with MapT k _ => k | _ => t end = t) by (destruct (measure t); try reflexivity; discriminate).
    rewrite Ed. rewrite Q by lia. split.
    + intros [s H]. eapply IN_measure; eauto.
    + intro H. inversion H; subst; eauto. match goal with K : measure t = MapT _ _ |- _ => rewrite K in EM end. discriminate.
Qed.

Lemma F2_iff_in {A B} (P Q : A -> B -> Prop) l m : (forall a b, In a l -> P a b <-> Q a b) -> Forall2 P l m <-> Forall2 Q l m.
Proof.
  revert m. induction l as [|x l IH]; intros m H; split; intro F; inversion F; subst; constructor;
    try (apply H; [left; reflexivity|assumption]); apply IH; auto; intros; apply H; right; assumption.
Qed.
Lemma meth_iff : forall n t d, (tsize t < n)%nat -> npmeth t = Ok d <-> AsDtype t d.
Proof.
  induction n as [|n IH]; intros t d Hn; [lia|].
  assert (INN : forall u d', (tsize u < tsize t)%nat -> to_numpy_dtype u = Ok d' <-> Inner u d').
  { intros u d' Hu. apply inner_of. intros m d0 Hm. apply IH. lia. }
  destruct t;
    try (split; [intro H; discriminate H|intro H; inversion H; fail]).
  - (* CType *) change (npmeth (CType name itemsize alignment)) with (ctype_to_numpy name). rewrite ctype_iff. split.
    + intros [[t H]|H]; [eapply AD_scalar; eauto|eapply AD_alias; eauto].
    + intro H; inversion H; subst; eauto.
  - split; [intro H; injection H as <-; constructor|intro H; inversion H; reflexivity].
  - split; [intro H; injection H as <-; constructor|intro H; inversion H; reflexivity].
  - split; [intro H; injection H as <-; constructor|intro H; inversion H; reflexivity].
  - (* String *) rewrite string_iff. split.
    + intros [[H ->]|[m [-> [H [[-> ->]|[H1 ->]]]]]]; [now apply AD_text|now apply AD_ascii|now apply AD_unicode].
    + intro H. inversion H; subst; eauto 8.
  - (* Decimal *) rewrite decimal_iff. split.
    + intros [[-> [s [-> H]]]|[H ->]]; constructor; auto.
    + intro H. inversion H; subst; eauto 8.
  - (* Option *) rewrite npmeth_Option. rewrite tsize_Option in Hn. split.
    + destruct t; try discriminate; intro H; (apply AD_missing; [constructor|apply IH; [lia|exact H]]).
    + intro H. inversion H as [| | | | |t' d' HM HA| | | | | | | |]; subst. apply IH in HA; [|lia]. destruct HM; exact HA.
  - (* Map *) rewrite npmeth_Map. rewrite tsize_Map in Hn.
    assert (E : to_numpy_dtype (MapT t1 t2) = Ok d <-> Inner (MapT t1 t2) d).
    { unfold to_numpy_dtype, to_numpy_dtype_with. cbn [measure]. pose proof (measure_size t1). split.
      - destruct (to_numpy_with npmeth (measure t1)) as [[s x]|] eqn:E; cbn [bind]; [|discriminate]. intro H1. injection H1 as <-.
        eapply IN_map; [reflexivity|]. apply shaped_of; [|exact E]. intros m d' Hm. apply IH. lia.
      - intro H1. inversion H1 as [t' s d' X1 X2|t' k v s d' X1 X2]; subst; [discriminate|]. cbn [measure] in X1. injection X1 as <- <-.
        apply shaped_of in X2; [|intros m d' Hm; apply IH; lia].
        change (to_numpy_with npmeth (measure t1)) with (to_numpy (measure t1)). rewrite X2. reflexivity. }
    rewrite E. split; [apply AD_map|]. intro H; inversion H; auto.
  - (* Record *) rewrite npmeth_Record. rewrite tsize_Record in *.
    assert (FI : forall ds, mapM (fun g : str * ty => to_numpy_dtype (snd g)) fields = Ok ds <-> Forall2 (fun f d => Inner (snd f) d) fields ds).
    { intro ds. rewrite mapM_Ok_Forall2. apply F2_iff_in. intros f d' Hf. apply INN. apply fsize_In in Hf. lia. }
    split.
    + destruct (mapM _ fields) as [ds|] eqn:E; cbn [bind]; [|discriminate]. intro H. apply struct_iff in H as [names [H1 [H2 ->]]].
      apply AD_record; auto. now apply FI.
    + intro H. inversion H as [| | | | | | | | | | | |fs names ds H1 H2 H3|]; subst. apply FI in H3. rewrite H3. cbn [bind].
      apply struct_iff. eauto.
  - (* Tuple *) rewrite npmeth_Tuple. rewrite tsize_Tuple in *.
    assert (FI : forall ds, mapM to_numpy_dtype dshapes = Ok ds <-> Forall2 Inner dshapes ds).
    { intro ds. rewrite mapM_Ok_Forall2. apply F2_iff_in. intros f d' Hf. apply INN. apply lsize_In in Hf. lia. }
    assert (NN : forall names, FieldNames (map (fun i => 102%N :: z2s (Z.of_nat i)) (seq 0 (length dshapes))) names <->
                 FieldNames (map (fun _ => []) dshapes) names).
    { intro names. rewrite !names_iff. rewrite (np_names_id 0 (map _ _)) by apply np_names_f. rewrite f_names_are. reflexivity. }
    split.
    + destruct (mapM _ dshapes) as [ds|] eqn:E; cbn [bind]; [|discriminate]. intro H. apply struct_iff in H as [names [H1 [H2 ->]]].
      apply AD_tuple; [now apply NN|now apply FI].
    + intro H. inversion H as [| | | | | | | | | | | | |fs names ds H1 H3]; subst. apply FI in H3. rewrite H3. cbn [bind].
      apply struct_iff. exists names. split; [now apply NN|]. split; auto. apply names_iff in H1. subst names.
      rewrite <- (f_names_are dshapes 0). apply f_names_nodup.
Qed.
Theorem meth_spec t d : npmeth t = Ok d <-> AsDtype t d.
Proof. apply (meth_iff (S (tsize t))). lia. Qed.
Theorem to_numpy_spec t shp d : to_numpy t = Ok (shp, d) <-> AsShaped t shp d.
Proof. apply shaped_of. intros. apply meth_spec. Qed.
Theorem to_numpy_dtype_spec t d : to_numpy_dtype t = Ok d <-> Inner t d.
Proof. apply inner_of. intros. apply meth_spec. Qed.
