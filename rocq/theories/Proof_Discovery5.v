(** Discovery on flat sequences and on tables (equally long rows of scalars). *)
From Verif Require Import Base Types Lexer Printer Construct Parser Ops Preds Numpy Graph Discovery
  Spec_Eq Spec_WF Spec_Graph Spec_Ops Spec_Discovery Spec_Dicts Proof_WF Proof_Eq Proof_Ops Proof_Graph
  Proof_Coerce Proof_Discovery Proof_Discovery2 Proof_Discovery3.

Definition colnode (F : ty) : Prop := exists a, F = nd a \/ F = OptionT (nd a).
Lemma ColumnType_colnode ts F : ColumnType ts F -> colnode F.
Proof.
  intros [[_ ->]|[T [K [_ [_ [[_ ->]|[_ ->]]]]]]].
  - exists nNull. now left.
  - apply Known_nd in K as [a ->]. exists a. now right.
  - apply Known_nd in K as [a ->]. exists a. now left.
Qed.
Definition W (F : ty) := DataShapeT None [F].
Lemma colnode_eq F G : colnode F -> colnode G -> (py_eq (W F) (W G) = true <-> F = G).
Proof.
  intros [a Ha] [b Hb]. split; [|intros ->; apply py_eq_refl].
  destruct Ha as [->| ->], Hb as [->| ->]; destruct a, b; intro H; try reflexivity; vm_compute in H; discriminate.
Qed.
Lemma colnode_head F : colnode F -> is_dimension (ds_head (W F)) = false.
Proof. intros [a [->| ->]]; destruct a; reflexivity. Qed.
Lemma colnode_mul n F : (0 <= n)%Z -> colnode F -> mul_int n (W F) = Ok (DataShapeT None [FixedT n; F]).
Proof.
  intros Hn [a Ha]. unfold mul_int, py_mul, py_rmul, datashape_rmul, mk_fixed. destruct (Z.ltb_spec n 0); [lia|].
  destruct Ha as [->| ->]; destruct a; reflexivity.
Qed.
Lemma colnode_mul2 n m F : (0 <= n)%Z -> colnode F ->
  mul_int n (DataShapeT None [FixedT m; F]) = Ok (DataShapeT None [FixedT n; FixedT m; F]).
Proof.
  intros Hn [a Ha]. unfold mul_int, py_mul, py_rmul, datashape_rmul, mk_fixed. destruct (Z.ltb_spec n 0); [lia|].
  destruct Ha as [->| ->]; destruct a; reflexivity.
Qed.
Lemma tuple_of_W Fs : tuple_of (map W Fs) = Ok (Some (TupleT (map W Fs))).
Proof.
  unfold tuple_of, mk_tuple. replace (mapM (tuple_item no_dsh) (map PTy (map W Fs))) with (Ok (map W Fs)); [reflexivity|].
  symmetry. induction Fs as [|F Fs IH]; [reflexivity|]. cbn [map]. rewrite mapM_cons. cbn [tuple_item bind]. now rewrite IH.
Qed.
Lemma all_same_W Fs : Forall colnode Fs -> (all_same (map W Fs) = true <-> exists F r, Fs = F :: r /\ forall G, In G r -> G = F).
Proof.
  intro C. destruct Fs as [|F r]; simpl.
  - split; [discriminate|]. intros [F [r [H _]]]; discriminate.
  - inversion C as [|? ? CF Cr]; subst. rewrite forallb_forall, Forall_forall in *. split.
    + intro H. exists F, r. split; [reflexivity|]. intros G HG. apply colnode_eq; auto. apply H. now apply in_map.
    + intros [F' [r' [E H]]]. inversion E; subst. intros x Hx. apply in_map_iff in Hx as [G [<- HG]].
      apply colnode_eq; auto.
Qed.
(** all columns of one type: an array; otherwise a tuple *)
Lemma unite_final_W m Fs : Forall colnode Fs -> (0 <= m)%Z ->
  ((exists F, Fs <> [] /\ (forall G, In G Fs -> G = F) /\
     (let! t := unite_final (map W Fs) in mul_int m t) = Ok (DataShapeT None [FixedT m; FixedT (Z.of_nat (length Fs)); F])) \/
   ((forall F, Fs <> [] -> exists G, In G Fs /\ G <> F) /\
     (let! t := unite_final (map W Fs) in mul_int m t) = Ok (DataShapeT None [FixedT m; TupleT (map W Fs)]))).
Proof.
  intros C Hm. destruct (all_same (map W Fs)) eqn:E.
  - left. pose proof E as E0. apply all_same_W in E as [F [r [-> H]]]; auto. exists F. split; [discriminate|]. split.
    { intros G [<-|HG]; auto. }
    unfold unite_final. cbn [do_one]. unfold unite_identical at 1. rewrite E0.
    inversion C; subst. cbn [map]. rewrite colnode_mul by (auto; unfold len; lia). cbn [bind].
    rewrite colnode_mul2 by auto. unfold len. cbn [length]. now rewrite map_length.
  - right. split.
    + intros F Hne. destruct Fs as [|F0 r]; [congruence|].
      inversion C as [|? ? CF Cr]; subst. simpl in E.
      assert (X : exists G, In G r /\ py_eq (W G) (W F0) = false).
      { clear C Cr Hne. induction r as [|G r IH]; [discriminate|]. simpl in E. apply andb_false_iff in E as [E|E].
        - exists G. split; [now left|exact E].
        - destruct (IH E) as [G' [X1 X2]]. exists G'. split; [now right|exact X2]. }
      destruct X as [G [HG NG]]. destruct (py_eq (W F0) (W F)) eqn:EF.
      * exists G. split; [now right|]. intros ->.
        assert (CG : colnode F) by (rewrite Forall_forall in Cr; auto).
        apply colnode_eq in EF; auto. subst. rewrite py_eq_refl in NG. discriminate.
      * exists F0. split; [now left|]. intros ->. rewrite py_eq_refl in EF. discriminate.
    + unfold unite_final. cbn [do_one]. unfold unite_identical at 1. rewrite E. cbn [bind].
      assert (M : unite_merge (map W Fs) = Ok None).
      { unfold unite_merge. destruct Fs as [|F r]; [reflexivity|]. inversion C; subst.
        cbn [map forallb]. rewrite colnode_head by auto. rewrite andb_false_r. reflexivity. }
      rewrite M. cbn [bind]. rewrite tuple_of_W. cbn [bind].
      unfold mul_int, py_mul, py_rmul, mk_fixed. destruct (Z.ltb_spec m 0); [lia|]. reflexivity.
Qed.

Section Table.
  Variables (sc : sched) (so : strings).
  Notation disc := (discover sc so).
  Definition known_cells (row : list dval) : Prop := Forall (fun v => exists t, disc v = Ok t /\ Known t) row.

  Lemma column_cells w j rows : rows <> [] -> Forall (fun r => length r = w) rows -> Forall known_cells rows -> (j < w)%nat ->
    exists ts F, column_type sc (map (fun r => nth j r (Ok NullT)) (map (map disc) rows)) = Ok (W F) /\
      Forall2 (fun row t => exists v, nth_error row j = Some v /\ disc v = Ok t) rows ts /\ ColumnType ts F.
  Proof.
    intros Hne HL HK Hj.
    assert (E : exists ts, map (fun r => nth j r (Ok NullT)) (map (map disc) rows) = map Ok ts /\ Forall Known ts /\
              Forall2 (fun row t => exists v, nth_error row j = Some v /\ disc v = Ok t) rows ts).
    { clear Hne. induction rows as [|r rows IH]; [exists []; repeat split; constructor|].
      inversion HL; inversion HK; subst. destruct IH as [ts [E1 [E2 E3]]]; auto.
      destruct (nth_error r j) as [v|] eqn:Ev; [|apply nth_error_None in Ev; lia].
      assert (Kv : exists t, disc v = Ok t /\ Known t).
      { unfold known_cells in *. rewrite Forall_forall in H5. apply H5. eapply nth_error_In; eauto. }
      destruct Kv as [t [Hv Kt]]. exists (t :: ts). cbn [map]. rewrite E1. split; [|split; constructor; eauto].
      f_equal. rewrite <- Hv. apply nth_error_nth with (d := Ok NullT). now apply map_nth_error. }
    destruct E as [ts [E1 [E2 E3]]]. rewrite E1.
    assert (ts <> []) by (inversion E3; subst; congruence).
    destruct (column_known sc ts H E2) as [F [H1 H2]]. exists ts, F. auto.
  Qed.
  Lemma columns_cells w rows : rows <> [] -> Forall (fun r => length r = w) rows -> Forall known_cells rows ->
    exists Fs, mapM (column_type sc) (transpose (Ok NullT) w (map (map disc) rows)) = Ok (map W Fs) /\ length Fs = w /\
      Forall colnode Fs /\
      (forall j F, nth_error Fs j = Some F -> exists ts,
         Forall2 (fun row t => exists v, nth_error row j = Some v /\ disc v = Ok t) rows ts /\ ColumnType ts F).
  Proof.
    intros Hne HL HK. unfold transpose.
    assert (G : forall b n, n + b = w -> exists Fs,
      mapM (column_type sc) (map (fun i => map (fun r => nth i r (Ok NullT)) (map (map disc) rows)) (seq n b)) = Ok (map W Fs) /\
      length Fs = b /\ Forall colnode Fs /\
      (forall j F, nth_error Fs j = Some F -> exists ts,
         Forall2 (fun row t => exists v, nth_error row (n + j) = Some v /\ disc v = Ok t) rows ts /\ ColumnType ts F)).
    { induction b as [|b IH]; intros n Hn; simpl seq.
      - exists []. split; [reflexivity|]. split; [reflexivity|]. split; [constructor|]. intros [|j] F H; discriminate.
      - destruct (IH (S n)) as [Fs [E1 [E2 [E3 E4]]]]; [lia|].
        destruct (column_cells w n rows Hne HL HK) as [ts [F [H1 [H2 H3]]]]; [lia|].
        exists (F :: Fs). cbn [map]. rewrite mapM_cons, H1. cbn [bind]. rewrite E1. split; [reflexivity|].
        split; [simpl; congruence|]. split; [constructor; eauto using ColumnType_colnode|].
        intros [|j] G HG; simpl in HG.
        + inversion HG; subst. exists ts. rewrite Nat.add_0_r. auto.
        + destruct (E4 j G HG) as [us [U1 U2]]. exists us. rewrite Nat.add_succ_r. auto. }
    apply (G w 0). reflexivity.
  Qed.
  Theorem discover_table k rows w : rows <> [] -> Forall (fun r => fst r <> KSet) rows ->
    Forall (fun r => length (snd r) = w) rows -> Forall (fun r => known_cells (snd r)) rows ->
    exists Fs, length Fs = w /\
      (forall j F, nth_error Fs j = Some F -> exists ts,
         Forall2 (fun row t => exists v, nth_error (snd row) j = Some v /\ disc v = Ok t) rows ts /\ ColumnType ts F) /\
      ((exists F, Fs <> [] /\ (forall G, In G Fs -> G = F) /\
          disc (DSeq k (map (fun r => DSeq (fst r) (snd r)) rows)) =
            Ok (DataShapeT None [FixedT (Z.of_nat (length rows)); FixedT (Z.of_nat w); F])) \/
       ((forall F, Fs <> [] -> exists G, In G Fs /\ G <> F) /\
          disc (DSeq k (map (fun r => DSeq (fst r) (snd r)) rows)) =
            Ok (DataShapeT None [FixedT (Z.of_nat (length rows)); TupleT (map (fun F => DataShapeT None [F]) Fs)]))).
  Proof.
    intros Hne HS HL HK. rewrite discover_seq_eq.
    assert (ER : map (row_of sc so) (map (fun r => DSeq (fst r) (snd r)) rows) = map Some (map (map disc) (map snd rows))).
    { clear -HS. induction HS as [|[[] r] rows H _ IH]; [reflexivity| | |]; simpl in *; try congruence. }
    assert (AS : forall B (l : list B), all_some (map Some l) = Some l).
    { intros B l; induction l; simpl; [reflexivity|]. now rewrite IHl. }
    unfold discover_seq. rewrite ER, AS.
    assert (SL : same_lengths (map (map disc) (map snd rows)) = true).
    { clear -Hne HL. destruct rows as [|r0 rows]; [congruence|]. inversion HL as [|? ? H0 HR]; subst. simpl.
      apply forallb_forall. intros x Hx. apply in_map_iff in Hx as [y [<- Hy]]. apply in_map_iff in Hy as [r [<- Hr]].
      rewrite !map_length. apply Nat.eqb_eq. rewrite Forall_forall in HR. auto. }
    rewrite SL.
    destruct rows as [|r0 rows0] eqn:Er; [congruence|]. rewrite <- Er in *.
    replace (map disc (map (fun r => DSeq (fst r) (snd r)) rows)) with
      (disc (DSeq (fst r0) (snd r0)) :: map disc (map (fun r => DSeq (fst r) (snd r)) rows0)) by (subst; reflexivity).
    cbv zeta.
    assert (HW : length (hd [] (map (map disc) (map snd rows))) = w).
    { rewrite Er in *. simpl. rewrite map_length. now inversion HL. }
    set (rl := map snd rows) in *.
    assert (Hrl : rl <> []) by (unfold rl; rewrite Er; discriminate).
    assert (HL' : Forall (fun r => length r = w) rl) by (unfold rl; now rewrite Forall_map).
    assert (HK' : Forall known_cells rl) by (unfold rl; now rewrite Forall_map).
    destruct (columns_cells w rl Hrl HL' HK') as [Fs [E1 [E2 [E3 E4]]]].
    exists Fs. split; [exact E2|]. split.
    { intros j F HF. destruct (E4 j F HF) as [ts [H1 H2]]. exists ts. split; [|exact H2].
      clear -H1. unfold rl in H1. remember (map snd rows) as m eqn:E. revert rows E.
      induction H1 as [|d t m ts H _ IH]; intros [|x ds] E; simpl in E; try discriminate; [constructor|].
      inversion E; subst. constructor; auto. }
    assert (LR : len (map (map disc) rl) = Z.of_nat (length rows)) by (unfold len, rl; now rewrite !map_length).
    destruct (unite_final_W (Z.of_nat (length rows)) Fs E3 (Nat2Z.is_nonneg _)) as [[F [F1 [F2 F3]]]|[F1 F2]].
    - left. exists F. split; [exact F1|]. split; [exact F2|]. unfold discover_rows. rewrite HW, E1. cbn [bind].
      rewrite LR, F3, E2. reflexivity.
    - right. split; [exact F1|]. unfold discover_rows. rewrite HW, E1. cbn [bind]. rewrite LR, F2. reflexivity.
  Qed.
End Table.

(** ** The types of a dict's fields *)
Theorem discover_dict_types sc so k l t : NoDup (map fst l) -> discover sc so (DMap k l) = Ok t ->
  exists fs, t = RecordT fs /\ forall name v, In (name, v) l ->
    exists u F, discover sc so v = Ok u /\ In (name, F) fs /\ (F = u \/ exists n, u = DataShapeT n [F]).
Proof.
  intros N H.
  assert (E : exists its, discover sc so (DMap k l) = discover_items its /\ Permutation.Permutation its (items sc so l)).
  { destruct k; [exists (sort_keys (items sc so l))|exists (items sc so l)|exists (sort_keys (items sc so l))];
      (split; [reflexivity|]); [apply sort_keys_perm|reflexivity|apply sort_keys_perm]. }
  destruct E as [its [E P]]. rewrite E in H. clear E. unfold discover_items in H.
  destruct (mapM _ _) as [fs|] eqn:EM; [|discriminate]. cbn [bind] in H.
  apply mk_record_names in H as [gs [-> [_ [_ HF]]]]. exists gs. split; [reflexivity|].
  intros name v Hv.
  assert (Hi : In (name, discover sc so v) its).
  { eapply Permutation.Permutation_in; [apply Permutation.Permutation_sym; exact P|]. unfold items.
    apply in_map_iff. exists (name, v). auto. }
  clear P N Hv. apply mapM_Ok_Forall2 in EM. revert gs HF.
  induction EM as [|[nm r] f its fs Hf _ IH]; [destruct Hi|]. intros gs HF. inversion HF as [|? g ? gs' [G1 G2] HF']; subst.
  cbn [fst snd] in *. destruct Hi as [Hi|Hi].
  - inversion Hi; subst. destruct (discover sc so v) as [u|]; [|discriminate]. cbn [bind] in Hf. inversion Hf; subst. cbn [fst snd] in *.
    exists u, (snd g). split; [reflexivity|]. split.
    + left. destruct g; cbn in *. now subst.
    + cbn in G2. inversion G2 as [G3]. unfold launder_ty. destruct u; try (left; reflexivity). destruct parameters as [|x [|y q]]; [now left|right; eexists; reflexivity|now left].
  - destruct (IH Hi gs' HF') as [u [F [H1 [H2 H3]]]]. exists u, F. split; [exact H1|]. split; [now right|exact H3].
Qed.
