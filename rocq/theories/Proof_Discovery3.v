(** C36: discovery on a list of dicts. *)
From Verif Require Import Base Types Lexer Printer Construct Parser Ops Preds Numpy Graph Discovery
  Spec_Eq Spec_WF Spec_Graph Spec_Ops Spec_Discovery Spec_Dicts Proof_WF Proof_Ops Proof_Graph Proof_Coerce Proof_Discovery Proof_Discovery2.
From Coq Require Import Permutation Sorting.Sorted.

Section C36.
  Variables (sc : sched) (so : strings).
  Notation disc := (discover sc so).
  Definition known_items (d : list (str * dval)) : Prop :=
    Forall (fun kv => exists t, disc (snd kv) = Ok t /\ Known t) d.

  Lemma Known_Null : Known NullT.
  Proof. unfold Known; simpl; tauto. Qed.
  Lemma get_or_null_known key d : NoDup (map fst d) -> known_items d ->
    exists t, get_or_null key (items sc so d) = Ok t /\ Known t /\ EntryType disc key d t.
  Proof.
    intros N K. unfold get_or_null. destruct (assoc key (items sc so d)) as [r|] eqn:E.
    - apply assoc_In in E; [|now apply items_NoDup]. unfold items in E. apply in_map_iff in E as [[k v] [E Hi]].
      inversion E; subst. cbn [fst snd]. unfold known_items in K. rewrite Forall_forall in K.
      destruct (K _ Hi) as [t [H1 H2]]. cbn [snd] in H1. exists t. split; [exact H1|]. split; [exact H2|].
      left. exists v. auto.
    - apply assoc_None in E. unfold items in E. rewrite map_map in E. cbn [fst] in E.
      exists NullT. split; [reflexivity|]. split; [exact Known_Null|]. right. auto.
  Qed.
  Lemma column_of key ds : ds <> [] -> Forall (fun d => NoDup (map fst d) /\ known_items d) ds ->
    exists ts F, column_type sc (map (get_or_null key) (map (items sc so) ds)) = Ok (DataShapeT None [F]) /\
      Forall2 (EntryType disc key) ds ts /\ ColumnType ts F.
  Proof.
    intros Hne H.
    assert (E : exists ts, map (get_or_null key) (map (items sc so) ds) = map Ok ts /\ Forall Known ts /\
              Forall2 (EntryType disc key) ds ts).
    { clear Hne. induction H as [|d ds [N K] _ IH]; [exists []; repeat constructor|].
      destruct IH as [ts [E1 [E2 E3]]]. destruct (get_or_null_known key d N K) as [t [H1 [H2 H3]]].
      exists (t :: ts). simpl. rewrite H1, E1. repeat split; constructor; auto. }
    destruct E as [ts [E1 [E2 E3]]]. rewrite E1.
    assert (ts <> []) by (inversion E3; subst; congruence).
    destruct (column_known sc ts H0 E2) as [F [H1 H2]]. exists ts, F. auto.
  Qed.
  Lemma columns_of ds : ds <> [] -> Forall (fun d => NoDup (map fst d) /\ known_items d) ds -> forall keys,
    exists Fs, mapM (fun key => column_type sc (map (get_or_null key) (map (items sc so) ds))) keys =
        Ok (map (fun F => DataShapeT None [F]) Fs) /\
      Forall2 (fun key F => exists ts, Forall2 (EntryType disc key) ds ts /\ ColumnType ts F) keys Fs.
  Proof.
    intros Hne H. induction keys as [|key keys IH]; [exists []; split; [reflexivity|constructor]|].
    destruct IH as [Fs [E1 E2]]. destruct (column_of key ds Hne H) as [ts [F [H1 [H2 H3]]]].
    exists (F :: Fs). rewrite mapM_cons, H1. cbn [bind]. rewrite E1. split; [reflexivity|]. constructor; eauto.
  Qed.
  Lemma launder_col F : launder no_dsh (PTy (DataShapeT None [F])) = Ok F.
  Proof. reflexivity. Qed.
  Lemma record_of keys Fs : length keys = length Fs -> NoDup keys ->
    mk_record no_dsh (map (fun kt => (fst kt, PTy (snd kt))) (combine keys (map (fun F => DataShapeT None [F]) Fs))) =
    Ok (RecordT (combine keys Fs)).
  Proof.
    intros L N. unfold mk_record.
    assert (E1 : map fst (map (fun kt : str * ty => (fst kt, PTy (snd kt))) (combine keys (map (fun F => DataShapeT None [F]) Fs))) = keys).
    { rewrite map_map. cbn [fst]. clear N. revert Fs L. induction keys as [|a keys IH]; intros [|F Fs] L; simpl in *; try discriminate; auto.
      f_equal. auto. }
    assert (E2 : mapM (fun f : str * parg => launder no_dsh (snd f))
       (map (fun kt : str * ty => (fst kt, PTy (snd kt))) (combine keys (map (fun F => DataShapeT None [F]) Fs))) = Ok Fs).
    { clear N E1. revert Fs L. induction keys as [|a keys IH]; intros [|F Fs] L; simpl in L; try discriminate; [reflexivity|].
      simpl map. rewrite mapM_cons. cbn [fst snd]. rewrite launder_col. cbn [bind]. rewrite IH by congruence. reflexivity. }
    rewrite E1. setoid_rewrite E2. cbn [bind]. rewrite (proj2 (nodup_str_NoDup keys) N). reflexivity.
  Qed.
  Lemma mul_record n fs : (0 <= n)%Z -> mul_int n (RecordT fs) = Ok (DataShapeT None [FixedT n; RecordT fs]).
  Proof.
    intro Hn. unfold mul_int, py_mul, py_rmul, mk_fixed. destruct (Z.ltb_spec n 0); [lia|]. reflexivity.
  Qed.
  Lemma Sorted_NoDup l : SortedStrs l -> NoDup l.
  Proof.
    induction 1 as [|a l _ IH H]; constructor; auto. intro Hi. rewrite Forall_forall in H.
    exact (StrLt_irrefl _ (H _ Hi)).
  Qed.
  Lemma Forall2_combine {A B} (R : A -> B -> Prop) l m : Forall2 R l m -> forall a b, In (a, b) (combine l m) -> R a b.
  Proof. induction 1; simpl; [tauto|]. intros a b [E|E]; [inversion E; subst; auto|auto]. Qed.

  Theorem discover_list_of_dicts k ds :
    ds <> [] -> Forall (fun kd => fst kd <> KProxy) ds ->
    Forall (fun kd => NoDup (map fst (snd kd))) ds -> Forall (fun kd => known_items (snd kd)) ds ->
    exists fs,
      disc (DSeq k (map (fun kd => DMap (fst kd) (snd kd)) ds)) =
        Ok (DataShapeT None [FixedT (Z.of_nat (length ds)); RecordT fs]) /\
      SortedStrs (map fst fs) /\
      (forall name, In name (map fst fs) <-> exists kd, In kd ds /\ In name (map fst (snd kd))) /\
      (forall name F, In (name, F) fs ->
         exists ts, Forall2 (fun kd t => EntryType disc name (snd kd) t) ds ts /\ ColumnType ts F).
  Proof.
    intros Hne HK HN HV. rewrite discover_seq_eq.
    assert (ED : map (dict_of sc so) (map (fun kd => DMap (fst kd) (snd kd)) ds) = map Some (map (items sc so) (map snd ds))).
    { clear -HK. induction HK as [|[[] d] ds H _ IH]; [reflexivity| | |]; simpl in *; try congruence. }
    assert (ER : map (row_of sc so) (map (fun kd => DMap (fst kd) (snd kd)) ds) = map (fun _ => None) ds).
    { clear. induction ds; simpl; [reflexivity|]. f_equal. exact IHds. }
    assert (AS : forall B (l : list B), all_some (map Some l) = Some l).
    { intros B l; induction l; simpl; [reflexivity|]. now rewrite IHl. }
    unfold discover_seq. rewrite ED, ER, AS.
    destruct ds as [|d0 ds0] eqn:Eds; [congruence|]. rewrite <- Eds in *.
    replace (map disc (map (fun kd => DMap (fst kd) (snd kd)) ds)) with
      (disc (DMap (fst d0) (snd d0)) :: map disc (map (fun kd => DMap (fst kd) (snd kd)) ds0)) by (subst; reflexivity).
    replace (all_some (map (fun _ => @None (list (res ty))) ds)) with (@None (list (list (res ty)))) by (subst; reflexivity).
    cbv zeta.
    set (dl := map snd ds).
    assert (Hdl : dl <> []) by (unfold dl; rewrite Eds; discriminate).
    assert (Hall : Forall (fun d => NoDup (map fst d) /\ known_items d) dl).
    { unfold dl. rewrite Forall_map. rewrite Forall_forall in *. intros x Hx. split; auto. }
    unfold discover_dicts. set (keys := sorted_set _).
    destruct (columns_of dl Hdl Hall keys) as [Fs [E1 E2]]. rewrite E1. cbn [bind].
    assert (SK : SortedStrs keys) by apply sorted_set_Sorted.
    assert (LL : length keys = length Fs) by (clear -E2; induction E2; simpl; congruence).
    rewrite record_of; auto using Sorted_NoDup. cbn [bind]. unfold len. rewrite mul_record by apply Nat2Z.is_nonneg.
    cbn [on_attribute_error]. exists (combine keys Fs).
    assert (EK : map fst (combine keys Fs) = keys).
    { clear -LL. revert Fs LL. induction keys as [|a keys IH]; intros [|F Fs] L; simpl in *; try discriminate; auto. f_equal; auto. }
    split; [|split; [|split]].
    - unfold dl. now rewrite !map_length.
    - now rewrite EK.
    - intro name. rewrite EK. unfold keys. rewrite sorted_set_In, in_flat_map. split.
      + intros [x [Hx1 Hx2]]. apply in_map_iff in Hx1 as [d [<- Hd]]. unfold dl in Hd. apply in_map_iff in Hd as [kd [<- Hkd]].
        exists kd. split; auto. unfold items in Hx2. now rewrite map_map in Hx2.
      + intros [kd [H1 H2]]. exists (items sc so (snd kd)). split.
        * apply in_map. unfold dl. now apply in_map.
        * unfold items. now rewrite map_map.
    - intros name F HF. destruct (Forall2_combine _ _ _ E2 _ _ HF) as [ts [H1 H2]]. exists ts. split; auto.
      clear -H1. unfold dl in H1. remember (map snd ds) as m eqn:E. revert ds E.
      induction H1 as [|d t m ts H _ IH]; intros [|x ds] E; simpl in E; try discriminate; [constructor|].
      inversion E; subst. constructor; auto.
  Qed.
End C36.
