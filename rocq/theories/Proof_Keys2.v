(** C72: lists of dicts with keys of several kinds. *)
From Verif Require Import Base Types Lexer Printer Construct Parser Ops Preds Numpy Graph Discovery Keys
  Spec_Eq Spec_WF Spec_Graph Spec_Ops Spec_Discovery Spec_Dicts Spec_Keys Proof_WF Proof_Ops Proof_Graph Proof_Coerce
  Proof_Discovery Proof_Discovery2 Proof_Discovery3 Proof_NpConv Proof_Print Proof_Keys.
From Coq Require Import Permutation Sorting.Sorted.
Local Open Scope Z_scope.

Section Lists.
  Variables (sc : sched) (so : strings).
  Notation kd := (kdiscover sc so).
  Definition kknown (d : list (key * kval)) : Prop :=
    Forall (fun kv => exists t, kd (snd kv) = Ok t /\ Known t) d.

  Lemma key_get_spec {B} k (d : list (key * B)) :
    match key_get k d with
    | Some r => exists k', In (k', r) d /\ SameKey k' k
    | None => forall k', In k' (map fst d) -> ~ SameKey k' k
    end.
  Proof.
    induction d as [|[g r] d IH]; simpl; [intros ? []|]. destruct (key_eqb g k) eqn:E.
    - exists g. split; [now left|now apply key_eqb_spec].
    - destruct (key_get k d).
      + destruct IH as [k' [H1 H2]]. exists k'. auto.
      + intros k' [<-|H]; [intro X; apply key_eqb_spec in X; congruence|auto].
  Qed.
  Lemma kget_known k d : kknown d -> exists t, kget_or_null k (kitems sc so d) = Ok t /\ Known t /\ KeyEntry kd k d t.
  Proof.
    intro K. unfold kget_or_null. pose proof (key_get_spec k (kitems sc so d)) as H. destruct (key_get k _) as [r|].
    - destruct H as [k' [Hi HS]]. unfold kitems in Hi. apply in_map_iff in Hi as [[k2 v] [E Hi]]. cbn [fst snd] in E.
      injection E as -> <-. unfold kknown in K. rewrite Forall_forall in K. destruct (K _ Hi) as [t [H1 H2]]. cbn [snd] in H1.
      exists t. split; [exact H1|]. split; [exact H2|]. left. exists k', v. auto.
    - exists NullT. split; [reflexivity|]. split; [exact Known_Null|]. right. split; [|reflexivity].
      now rewrite kitems_fst in H.
  Qed.
  Lemma kcolumn ds k : ds <> [] -> Forall kknown ds ->
    exists ts F, column_type sc (map (kget_or_null k) (map (kitems sc so) ds)) = Ok (DataShapeT None [F]) /\
      Forall2 (KeyEntry kd k) ds ts /\ ColumnType ts F.
  Proof.
    intros Hne H.
    assert (E : exists ts, map (kget_or_null k) (map (kitems sc so) ds) = map Ok ts /\ Forall Known ts /\
              Forall2 (KeyEntry kd k) ds ts).
    { clear Hne. induction H as [|d ds K _ IH]; [exists []; repeat constructor|].
      destruct IH as [ts [E1 [E2 E3]]]. destruct (kget_known k d K) as [t [H1 [H2 H3]]].
      exists (t :: ts). simpl. rewrite H1, E1. split; [reflexivity|]. split; constructor; auto. }
    destruct E as [ts [E1 [E2 E3]]]. rewrite E1.
    assert (ts <> []) by (inversion E3; subst; congruence).
    destruct (column_known sc ts H0 E2) as [F [H1 H2]]. exists ts, F. auto.
  Qed.
  Lemma kcolumns ds : ds <> [] -> Forall kknown ds -> forall keys,
    exists Fs, mapM (fun k => column_type sc (map (kget_or_null k) (map (kitems sc so) ds))) keys =
        Ok (map (fun F => DataShapeT None [F]) Fs) /\
      Forall2 (fun k F => exists ts, Forall2 (KeyEntry kd k) ds ts /\ ColumnType ts F) keys Fs.
  Proof.
    intros Hne H. induction keys as [|k keys IH]; [exists []; split; [reflexivity|constructor]|].
    destruct IH as [Fs [E1 E2]]. destruct (kcolumn ds k Hne H) as [ts [F [H1 [H2 H3]]]].
    exists (F :: Fs). rewrite mapM_cons, H1. cbn [bind]. rewrite E1. split; [reflexivity|]. constructor; eauto.
  Qed.
  Definition as_maps (ds : list (mapkind * list (key * kval))) : list kval := map (fun x => KMap (fst x) (snd x)) ds.
  Lemma kseq_dicts k ds : ds <> [] -> Forall (fun x => fst x <> KProxy) ds ->
    exists fallback, kd (KSeq k (as_maps ds)) = kdiscover_dicts sc (map (kitems sc so) (map snd ds)) fallback.
  Proof.
    intros Hne HK. rewrite kseq_eq. unfold as_maps.
    assert (ED : map (kdict sc so) (map (fun x => KMap (fst x) (snd x)) ds) = map Some (map (kitems sc so) (map snd ds))).
    { clear -HK. induction HK as [|[[] d] ds H _ IH]; [reflexivity| | |]; cbn [map fst snd kdict kdiscover] in *; [f_equal; exact IH|f_equal; exact IH|congruence]. }
    assert (ER : map (krow sc so) (map (fun x => KMap (fst x) (snd x)) ds) = map (fun _ => None) ds).
    { clear. induction ds; simpl; [reflexivity|]. f_equal. exact IHds. }
    assert (AS : forall B (l : list B), all_some (map Some l) = Some l).
    { intros B l; induction l; simpl; [reflexivity|]. now rewrite IHl. }
    unfold kdiscover_seq. rewrite ED, ER, AS.
    destruct ds as [|d0 ds]; [congruence|]. cbn [map all_some]. eexists. reflexivity.
  Qed.
  Lemma keys_maps (ds : list (mapkind * list (key * kval))) :
    flat_map (map fst) (map (kitems sc so) (map snd ds)) = flat_map (fun x => map fst (snd x)) ds.
  Proof. induction ds as [|d ds IH]; [reflexivity|]. cbn [map flat_map]. now rewrite IH, kitems_fst. Qed.

  Theorem kdiscover_list k ds : ds <> [] -> Forall (fun x => fst x <> KProxy) ds ->
    Sortable (flat_map (fun x => map fst (snd x)) ds) -> Forall (fun x => kknown (snd x)) ds ->
    exists keys fs,
      kd (KSeq k (as_maps ds)) = Ok (DataShapeT None [FixedT (Z.of_nat (length ds)); RecordT fs]) /\
      StronglySorted KeyLt keys /\
      (forall x, In x keys <-> FirstOf (flat_map (fun x => map fst (snd x)) ds) x) /\
      Forall2 (fun key f => KeyName key (fst f) /\
        exists ts, Forall2 (fun x t => KeyEntry kd key (snd x) t) ds ts /\ ColumnType ts (snd f)) keys fs.
  Proof.
    intros Hne HK S HV. destruct (kseq_dicts k ds Hne HK) as [fb ->]. unfold kdiscover_dicts.
    rewrite keys_maps. destruct (sorted_key_set _ S) as [m [-> [HS KM]]]. cbn [bind].
    set (keys := map fst m) in *. unfold kdict_columns.
    assert (Hdl : map snd ds <> []) by (destruct ds; [congruence|discriminate]).
    assert (Hall : Forall kknown (map snd ds)) by now rewrite Forall_map.
    destruct (kcolumns (map snd ds) Hdl Hall keys) as [Fs [-> E2]]. cbn [bind].
    assert (LL : length keys = length Fs) by (clear -E2; induction E2; simpl; congruence).
    assert (X : map (fun kt : key * ty => (key_str (fst kt), PTy (snd kt))) (combine keys (map (fun F => DataShapeT None [F]) Fs)) =
                map (fun kt : str * ty => (fst kt, PTy (snd kt))) (combine (map key_str keys) (map (fun F => DataShapeT None [F]) Fs))).
    { clear. revert Fs. induction keys as [|a keys IH]; intros [|F Fs]; simpl; try reflexivity. f_equal. apply IH. }
    rewrite X, record_of; [|now rewrite map_length|now apply sorted_names]. cbn [bind].
    unfold len. rewrite mul_record by apply Nat2Z.is_nonneg. cbn [on_attribute_error].
    exists keys, (combine (map key_str keys) Fs). split; [now rewrite !map_length|]. split; [exact HS|]. split; [exact KM|].
    clear - E2. induction E2 as [|a F keys Fs [ts [H1 H2]] _ IH]; simpl; constructor; [|exact IH]. cbn [fst snd].
    split; [apply key_str_spec|]. exists ts. split; [|exact H2].
    clear -H1. remember (map snd ds) as q eqn:E. revert ds E.
    induction H1 as [|d t q ts H _ IH]; intros [|x ds] E; simpl in E; try discriminate; [constructor|].
    inversion E; subst. constructor; auto.
  Qed.
  Theorem kdiscover_list_unsortable k ds : ds <> [] -> Forall (fun x => fst x <> KProxy) ds ->
    ~ Sortable (flat_map (fun x => map fst (snd x)) ds) -> kd (KSeq k (as_maps ds)) = Raise TypeErr.
  Proof.
    intros Hne HK S. destruct (kseq_dicts k ds Hne HK) as [fb ->]. unfold kdiscover_dicts.
    rewrite keys_maps, unsorted_key_set by exact S. reflexivity.
  Qed.
End Lists.
