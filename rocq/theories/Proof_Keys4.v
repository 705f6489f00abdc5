(** C72: the insertion order of dicts does not matter, at any depth. *)
From Verif Require Import Base Types Lexer Printer Construct Parser Ops Preds Numpy Graph Discovery Keys
  Spec_Discovery Spec_Dicts Spec_Keys Proof_Discovery Proof_Discovery2 Proof_Keys Proof_Keys2 Proof_Keys3.
From Coq Require Import Permutation Sorting.Sorted.
Local Open Scope Z_scope.

Lemma FirstOf_app x l k : FirstOf (x ++ l) k <-> FirstOf x k \/ (FirstOf l k /\ forall g, In g x -> ~ SameKey g k).
Proof.
  revert k. induction l as [|a l IH] using rev_ind; intro k.
  - rewrite app_nil_r. split; [auto|]. intros [H|[[p [q [E _]]] _]]; [exact H|]. destruct p; discriminate.
  - rewrite app_assoc, !FirstOf_snoc, IH. split.
    + intros [[H|[H1 H2]]|[-> H]]; auto. right. split; [right; split; [reflexivity|]|]; intros g Hg; apply H, in_app_iff; auto.
    + intros [H|[[H|[-> H1]] H2]]; auto. right. split; [reflexivity|]. intros g Hg. apply in_app_iff in Hg as [Hg|Hg]; auto.
Qed.
Lemma FirstOf_different x k : Different x -> (FirstOf x k <-> In k x).
Proof.
  intro D. split; [apply FirstOf_In|]. intro H. apply in_split in H as [p [q ->]]. exists p, q. split; [reflexivity|].
  intros g Hg E. clear -D Hg E. unfold Different in D. induction p as [|a p IH]; [destruct Hg|].
  simpl in D. inversion D as [|? ? D1 D2]; subst. destruct Hg as [->|Hg]; [|auto].
  rewrite Forall_forall in D1. apply (D1 k); [|exact E]. apply in_app_iff. right. now left.
Qed.
Lemma Different_NoDup l : Different l -> NoDup l.
Proof.
  unfold Different. induction 1 as [|a l H _ IH]; constructor; auto. intro X. rewrite Forall_forall in H.
  apply (H a X). constructor.
Qed.
Lemma key_get_perm {B} k (l m : list (key * B)) : Different (map fst l) -> Permutation l m -> key_get k l = key_get k m.
Proof.
  unfold Different. intros D P. revert D. induction P as [|x l m P IH|x y l|l m n P IH P' IH']; intro D.
  - reflexivity.
  - cbn [map] in D. inversion D; subst. cbn [key_get]. destruct (key_eqb _ _); auto.
  - cbn [map] in D. inversion D as [|? ? D1 D2]; subst. inversion D1 as [|? ? N _]; subst. cbn [key_get].
    destruct (key_eqb (fst y) k) eqn:E1, (key_eqb (fst x) k) eqn:E2; try reflexivity.
    exfalso. apply key_eqb_spec in E1. apply key_eqb_spec in E2. apply N.
    eapply SameKey_trans; [exact E1|]. now apply SameKey_sym.
  - rewrite IH by exact D. apply IH'. eapply Different_perm; [|exact D]. now apply Permutation_map.
Qed.

Section Order.
  Variables (sc : sched) (so : strings).
  Notation kd := (kdiscover sc so).
  Notation disc := (discover sc so).
  Definition same_items (x y : list (key * res ty)) : Prop := Different (map fst x) /\ Permutation x y.
  Lemma FirstOf_items a b : Forall2 same_items a b ->
    forall k, FirstOf (flat_map (map fst) a) k <-> FirstOf (flat_map (map fst) b) k.
  Proof.
    induction 1 as [|x y a b [D P] _ IH]; intro k; [reflexivity|]. cbn [flat_map].
    pose proof (Permutation_map fst P) as PF. pose proof (Different_perm _ _ PF D) as D'.
    rewrite !FirstOf_app, (FirstOf_different (map fst x) k D), (FirstOf_different (map fst y) k D'), IH.
    assert (E : forall g, In g (map fst x) <-> In g (map fst y)).
    { intro g. split; intro H; (eapply Permutation_in; [|exact H]); auto using Permutation_sym. }
    rewrite E. split; (intros [H|[H1 H2]]; [auto|]); right; split; auto; intros g Hg; apply H2, E; exact Hg.
  Qed.
  Lemma kdiscover_dicts_perm a b fb : Forall2 same_items a b -> kdiscover_dicts sc a fb = kdiscover_dicts sc b fb.
  Proof.
    intro H. unfold kdiscover_dicts.
    assert (E : py_sorted (map (fun k => (k, tt)) (key_set (flat_map (map fst) a))) =
                py_sorted (map (fun k => (k, tt)) (key_set (flat_map (map fst) b)))).
    { destruct (key_set_spec (flat_map (map fst) a)) as [D1 K1]. destruct (key_set_spec (flat_map (map fst) b)) as [D2 K2].
      apply py_sorted_perm; [now rewrite keys_fst|]. apply Permutation_map.
      apply NoDup_Permutation; auto using Different_NoDup. intro k. rewrite K1, K2. now apply FirstOf_items. }
    rewrite E. clear E. generalize (py_sorted (map (fun k => (k, tt)) (key_set (flat_map (map fst) b)))). intros [ks|e]; [|reflexivity]. cbn [bind]. f_equal. unfold kdict_columns.
    assert (EM : forall keys, mapM (fun k => column_type sc (map (kget_or_null k) a)) keys =
                              mapM (fun k => column_type sc (map (kget_or_null k) b)) keys).
    { intro keys. apply mapM_same. intro k. f_equal. clear -H. induction H as [|p q a b [D P] _ IH]; [reflexivity|].
      simpl. f_equal; [|exact IH]. unfold kget_or_null. now rewrite (key_get_perm k p q D P). }
    rewrite EM. destruct (mapM _ _); [|reflexivity]. cbn [bind]. destruct (mk_record no_dsh _); [|reflexivity].
    cbn [bind]. f_equal. unfold len. f_equal. clear -H. induction H; simpl; congruence.
  Qed.
  Definition same_kdict (d d' : option (list (key * res ty))) : Prop :=
    match d, d' with None, None => True | Some a, Some b => same_items a b | _, _ => False end.
  Lemma all_some_kdict l m : Forall2 same_kdict l m ->
    match all_some l, all_some m with
    | Some a, Some b => Forall2 same_items a b | None, None => True | _, _ => False end.
  Proof.
    induction 1 as [|[a|] [b|] l m H _ IH]; simpl; auto; try contradiction.
    destruct (all_some l), (all_some m); simpl; auto; try contradiction.
  Qed.
  Lemma kdiscover_seq_perm own rows l m : Forall2 same_kdict l m ->
    kdiscover_seq sc own rows l = kdiscover_seq sc own rows m.
  Proof.
    intro H. apply all_some_kdict in H. unfold kdiscover_seq. destruct own; [reflexivity|].
    destruct (all_some l) as [a|], (all_some m) as [b|]; try contradiction; [|reflexivity].
    now rewrite (kdiscover_dicts_perm a b _ H).
  Qed.

  Definition KP (v : kval) : Prop := forall w, SameKeyData v w -> ValidKeys v -> kd v = kd w.
  Definition KQ (v : kval) : Prop := KP v /\
    match v with KSeq _ l => Forall KP l | KMap _ d => Forall (fun kv => KP (snd kv)) d | KV _ => True end.
  Lemma kmap_disc l m : Forall KP l -> Forall ValidKeys l -> Forall2 SameKeyData l m -> map kd l = map kd m.
  Proof.
    intros HP HV H. induction H as [|x y l m S _ IH]; [reflexivity|]. inversion HP; inversion HV; subst.
    simpl. f_equal; auto.
  Qed.
  Lemma vmap_disc l m : Forall ValidDicts l -> Forall2 SameData l m -> map disc l = map disc m.
  Proof.
    intros HV H. induction H as [|x y l m S _ IH]; [reflexivity|]. inversion HV; subst.
    simpl. f_equal; [|auto]. now apply discover_order.
  Qed.
  Lemma kitems_perm l l' m : Forall (fun kv => KP (snd kv)) l -> Forall (fun kv => ValidKeys (snd kv)) l ->
    Permutation l l' -> Forall2 (fun x y => fst x = fst y /\ SameKeyData (snd x) (snd y)) l' m ->
    Permutation (kitems sc so l) (kitems sc so m) /\ (l' = l -> kitems sc so l = kitems sc so m).
  Proof.
    intros HP HV HPm H.
    assert (E : kitems sc so l' = kitems sc so m).
    { apply (Permutation_Forall HPm) in HP. apply (Permutation_Forall HPm) in HV. clear HPm.
      unfold kitems. induction H as [|x y l' m [E S] _ IH]; [reflexivity|]. inversion HP; inversion HV; subst.
      simpl. rewrite E. f_equal; [|auto]. f_equal. auto. }
    split; [|intros ->; exact E]. rewrite <- E. unfold kitems. now apply Permutation_map.
  Qed.
  Definition sitems (l : list (str * dval)) := map (fun kv => (KyStr (fst kv), disc (snd kv))) l.
  Lemma vitems_perm l l' m : Forall (fun kv => ValidDicts (snd kv)) l ->
    Permutation l l' -> Forall2 (fun x y => fst x = fst y /\ SameData (snd x) (snd y)) l' m ->
    Permutation (sitems l) (sitems m).
  Proof.
    intros HV HPm H.
    assert (E : sitems l' = sitems m).
    { apply (Permutation_Forall HPm) in HV. clear HPm.
      unfold sitems. induction H as [|x y l' m [E S] _ IH]; [reflexivity|]. inversion HV; subst.
      simpl. rewrite E. f_equal; [|auto]. f_equal. now apply discover_order. }
    rewrite <- E. unfold sitems. now apply Permutation_map.
  Qed.
  Lemma sitems_Different l : NoDup (map fst l) -> Different (map fst (sitems l)).
  Proof.
    unfold sitems, Different. rewrite map_map. cbn [fst]. induction l as [|[s v] l IH]; cbn [map fst]; intro N; [constructor|].
    inversion N as [|? ? N1 N2]; subst. constructor; [|auto]. apply Forall_forall. intros x Hx X.
    apply in_map_iff in Hx as [[s' v'] [<- Hx]]. cbn [fst] in X. inversion X as [|? ? ? M]; subst; [|inversion M].
    apply N1. exact (in_map fst _ _ Hx).
  Qed.
  Lemma kitems_Different l : Different (map fst l) -> Different (map fst (kitems sc so l)).
  Proof. now rewrite kitems_fst. Qed.
  Lemma krow_same x y : KQ x -> ValidKeys x -> SameKeyData x y -> krow sc so x = krow sc so y.
  Proof.
    intros [_ Q] V S. inversion S as [|v w SD|k l m F|k l l' m _ _ _]; subst; [reflexivity| | |destruct k; reflexivity].
    - inversion V as [? VD| |]; subst.
      inversion SD as [|k l m F|k l l' m _ _ _]; subst; [reflexivity| |destruct k; reflexivity].
      inversion VD as [? C|? ? VL|]; subst; [destruct C|]. destruct k; cbn [krow]; try reflexivity; now rewrite (vmap_disc l m VL F).
    - inversion V as [|? ? VL|]; subst. destruct k; cbn [krow]; try reflexivity; now rewrite (kmap_disc l m Q VL F).
  Qed.
  Lemma same_kdict_refl y : ValidKeys y -> same_kdict (kdict sc so y) (kdict sc so y).
  Proof.
    intro V. destruct y as [v| |k d]; cbn [kdict]; [|exact I|].
    - inversion V as [? VD| |]; subst. destruct v; try exact I.
      inversion VD as [? C| |? ? N VL]; subst; [destruct C|].
      destruct k; cbn; try exact I; split; auto using sitems_Different.
    - inversion V as [| |? ? N VL]; subst. destruct k; cbn; try exact I; split; try reflexivity; exact (kitems_Different d N).
  Qed.
  Lemma kdict_same x y : KQ x -> ValidKeys x -> SameKeyData x y -> same_kdict (kdict sc so x) (kdict sc so y).
  Proof.
    intros [_ Q] V S. inversion S as [|v w SD|k l m F|k l l' m K1 K2 K3]; subst.
    - now apply same_kdict_refl.
    - inversion V as [? VD| |]; subst. inversion SD as [|k l m F|k l l' m K1 K2 K3]; subst.
      + now apply same_kdict_refl.
      + exact I.
      + inversion VD as [? C| |? ? N VL]; subst; [destruct C|]. pose proof (vitems_perm l l' m VL K2 K3) as P.
        cbn [kdict]. destruct k; cbn; try exact I; split; auto; exact (sitems_Different l N).
    - exact I.
    - inversion V as [| |? ? N VL]; subst. destruct (kitems_perm l l' m Q VL K2 K3) as [P _].
      cbn [kdict]. destruct k; cbn; try exact I; split; auto; exact (kitems_Different l N).
  Qed.
  Lemma kdiscover_SameData : forall v, KQ v.
  Proof.
    apply kval_ind'.
    - intros v. split; [|exact I]. intros w S V. inversion S as [|? ? SD| |]; subst; [reflexivity|].
      inversion V; subst. cbn [kdiscover]. now apply discover_order.
    - intros k l HQ. assert (HP : Forall KP l) by (eapply Forall_impl; [|exact HQ]; intros ? [? _]; auto).
      split; [|exact HP]. intros w S V. inversion S as [| |? ? m F|]; subst; [reflexivity|].
      inversion V as [|? ? VL|]; subst. rewrite !kseq_eq, (kmap_disc l m HP VL F).
      assert (ER : map (krow sc so) l = map (krow sc so) m).
      { clear V S HP. induction F as [|x y l m Sxy _ IH]; [reflexivity|]. inversion HQ; inversion VL; subst.
        simpl. f_equal; [|auto]. now apply krow_same. }
      rewrite ER. apply kdiscover_seq_perm.
      clear ER V S HP. induction F as [|x y l m Sxy _ IH]; [constructor|]. inversion HQ; inversion VL; subst.
      simpl. constructor; [|auto]. now apply kdict_same.
    - intros k l HQ. assert (HP : Forall (fun kv => KP (snd kv)) l) by (eapply Forall_impl; [|exact HQ]; intros ? [? _]; auto).
      split; [|exact HP]. intros w S V. inversion S as [| | |? ? l' m K1 K2 K3]; subst; [reflexivity|].
      inversion V as [| |? ? N VL]; subst. destruct (kitems_perm l l' m HP VL K2 K3) as [Pm Eq].
      pose proof (py_sorted_perm _ _ (kitems_Different l N) Pm) as PS.
      cbn [kdiscover]. fold (kitems sc so l) (kitems sc so m). destruct k.
      + now rewrite PS.
      + now rewrite (Eq (K1 eq_refl)).
      + now rewrite PS.
  Qed.
  Theorem kdiscover_deep_order v w : SameKeyData v w -> ValidKeys v -> kd v = kd w.
  Proof. intros; now apply kdiscover_SameData. Qed.
End Order.
