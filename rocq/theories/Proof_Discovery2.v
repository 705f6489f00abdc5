(** Insertion order of dicts is irrelevant (C35); lists of dicts (C36). *)
From Verif Require Import Base Types Lexer Printer Construct Parser Ops Preds Numpy Graph Discovery
  Spec_Discovery Proof_Coerce Spec_WF Proof_WF Proof_Ops Proof_Discovery.
From Coq Require Import Relations Permutation Sorting.Sorted.
Local Open Scope Z_scope.

(** ** the order of strings *)
Lemma str_leb_StrLt a b : str_leb a b = true <-> a = b \/ StrLt a b.
Proof.
  revert b; induction a as [|x a IH]; intros [|y b]; simpl; split; intro H; auto.
  - right; constructor.
  - discriminate.
  - destruct H as [H|H]; [discriminate|inversion H].
  - apply orb_true_iff in H as [H|H].
    + right. constructor. now apply N.ltb_lt.
    + apply andb_true_iff in H as [H1 H2]. apply N.eqb_eq in H1; subst. apply IH in H2 as [->|H2]; [auto|].
      right. now constructor.
  - apply orb_true_iff. destruct H as [H|H].
    + inversion H; subst. right. rewrite N.eqb_refl. simpl. apply IH. auto.
    + inversion H; subst; [left; now apply N.ltb_lt|]. right. rewrite N.eqb_refl. simpl. apply IH. auto.
Qed.
Lemma StrLt_irrefl a : ~ StrLt a a.
Proof. induction a; intro H; inversion H; subst; [lia|auto]. Qed.
Lemma StrLt_trans a b c : StrLt a b -> StrLt b c -> StrLt a c.
Proof.
  intro H. revert c. induction H as [c s|x y s t L|x s t H IH]; intros u H2; inversion H2; subst.
  all: try (apply StrLt_nil). all: try (apply StrLt_head; lia).
  apply StrLt_tail. auto.
Qed.
Lemma StrLt_total a b : StrLt a b \/ a = b \/ StrLt b a.
Proof.
  revert b; induction a as [|x a IH]; intros [|y b]; [auto|left; apply StrLt_nil|right; right; apply StrLt_nil|].
  destruct (N.lt_trichotomy x y) as [H|[->|H]].
  - left. now constructor.
  - destruct (IH b) as [?|[->|?]]; [left; now constructor|auto|right; right; now constructor].
  - right; right. now constructor.
Qed.
(** a strictly sorted list is determined by its elements *)
Lemma Sorted_unique l m : SortedStrs l -> SortedStrs m -> (forall x, In x l <-> In x m) -> l = m.
Proof.
  unfold SortedStrs. intro Hl. revert m. induction Hl as [|a l Hl IH Ha]; intros m Hm H.
  - destruct m as [|b m]; [reflexivity|]. destruct (proj2 (H b) (or_introl eq_refl)).
  - destruct Hm as [|b m Hm Hb].
    + destruct (proj1 (H a) (or_introl eq_refl)).
    + rewrite Forall_forall in Ha, Hb.
      assert (a = b).
      { destruct (proj1 (H a) (or_introl eq_refl)) as [E|E]; [auto|].
        destruct (proj2 (H b) (or_introl eq_refl)) as [E2|E2]; [auto|].
        exfalso. apply (StrLt_irrefl a). eapply StrLt_trans; [apply Ha, E2|apply Hb, E]. }
      subst b. f_equal. apply IH; [exact Hm|]. intro x. split; intro Hx.
      * destruct (proj1 (H x) (or_intror Hx)) as [<-|?]; [|auto]. exfalso. apply (StrLt_irrefl a). auto.
      * destruct (proj2 (H x) (or_intror Hx)) as [<-|?]; [|auto]. exfalso. apply (StrLt_irrefl a). auto.
Qed.
Lemma Sorted_NoDup l : SortedStrs l -> NoDup l.
Proof.
  induction 1 as [|a l _ IH Ha]; constructor; auto. rewrite Forall_forall in Ha. intro H.
  apply (StrLt_irrefl a). auto.
Qed.

Lemma insert_str_In s l x : In x (insert_str s l) <-> x = s \/ In x l.
Proof.
  induction l as [|g l IH]; simpl; [intuition|].
  destruct (str_eqb s g) eqn:E; [apply str_eqb_eq in E; subst; simpl; intuition|].
  destruct (str_leb s g); simpl; rewrite ?IH; intuition.
Qed.
Lemma insert_str_Sorted s l : SortedStrs l -> SortedStrs (insert_str s l).
Proof.
  unfold SortedStrs. induction 1 as [|g l Hl IH Hg]; simpl; [repeat constructor|].
  destruct (str_eqb s g) eqn:E; [constructor; auto|]. apply str_eqb_neq in E.
  destruct (str_leb s g) eqn:E2.
  - apply str_leb_StrLt in E2 as [?|E2]; [contradiction|]. constructor; [now constructor|].
    constructor; [exact E2|]. eapply Forall_impl; [|exact Hg]. intros; eapply StrLt_trans; eauto.
  - constructor; [exact IH|]. apply Forall_forall. intros x Hx. apply insert_str_In in Hx as [->|Hx].
    + destruct (StrLt_total s g) as [H|[H|H]]; [|contradiction|exact H].
      rewrite (proj2 (str_leb_StrLt s g) (or_intror H)) in E2. discriminate.
    + rewrite Forall_forall in Hg. auto.
Qed.
Lemma sorted_set_In l x : In x (sorted_set l) <-> In x l.
Proof.
  induction l as [|y l IH]; simpl; [tauto|]. rewrite insert_str_In, IH. intuition.
Qed.
Lemma sorted_set_Sorted l : SortedStrs (sorted_set l).
Proof. induction l as [|y l IH]; simpl; [constructor|]. now apply insert_str_Sorted. Qed.

(** sorting of a dict *)
Lemma insert_key_perm {B} (f : str * B) l : Permutation (insert_key f l) (f :: l).
Proof.
  induction l as [|g l IH]; simpl; [auto|]. destruct (str_leb (fst f) (fst g)); [auto|].
  rewrite IH. apply perm_swap.
Qed.
Lemma sort_keys_perm {B} (l : list (str * B)) : Permutation (sort_keys l) l.
Proof. induction l as [|g l IH]; simpl; [auto|]. rewrite insert_key_perm. now constructor. Qed.
Lemma insert_key_Sorted {B} (f : str * B) l :
  SortedStrs (map fst l) -> ~ In (fst f) (map fst l) -> SortedStrs (map fst (insert_key f l)).
Proof.
  induction l as [|g l IH]; intros HS Hn; simpl; [repeat constructor|].
  simpl in HS, Hn. inversion HS as [|? ? HS1 HS2]; subst.
  destruct (str_leb (fst f) (fst g)) eqn:E.
  - apply str_leb_StrLt in E as [E|E]; [exfalso; apply Hn; auto|]. simpl. constructor; [exact HS|].
    constructor; [exact E|]. eapply Forall_impl; [|exact HS2]. intros; eapply StrLt_trans; eauto.
  - simpl. constructor; [apply IH; auto|].
    apply Forall_forall. intros x Hx.
    apply (Permutation_in x (Permutation_map fst (insert_key_perm f l))) in Hx.
    destruct Hx as [<-|Hx].
    + destruct (StrLt_total (fst f) (fst g)) as [H|[H|H]]; [|exfalso; apply Hn; auto|exact H].
      rewrite (proj2 (str_leb_StrLt _ _) (or_intror H)) in E. discriminate.
    + rewrite Forall_forall in HS2. auto.
Qed.
Lemma sort_keys_Sorted {B} (l : list (str * B)) : NoDup (map fst l) -> SortedStrs (map fst (sort_keys l)).
Proof.
  induction l as [|g l IH]; simpl; intro N; [constructor|]. inversion N; subst.
  apply insert_key_Sorted; [auto|]. intro H. apply H1.
  eapply Permutation_in; [|exact H]. apply Permutation_map, sort_keys_perm.
Qed.
(** two dicts with the same items in another order have the same sorted items *)
Lemma sorted_items_unique {B} (l m : list (str * B)) :
  SortedStrs (map fst l) -> SortedStrs (map fst m) -> (forall x, In x l <-> In x m) -> l = m.
Proof.
  intros Hl Hm H.
  assert (E : map fst l = map fst m).
  { apply Sorted_unique; auto. intro x. rewrite !in_map_iff. split; intros [y [E Hy]]; exists y; split; auto; now apply H. }
  clear Hm. revert m E H. induction l as [|[k v] l IH]; intros [|[k' v'] m] E H; simpl in *; try discriminate; auto.
  inversion E; subst. inversion Hl as [|? ? Hl1 Hl2]; subst. rewrite Forall_forall in Hl2.
  assert (N : forall w, ~ In (k', w) l).
  { intros w Hw. apply (StrLt_irrefl k'). apply Hl2. change k' with (fst (k', w)). now apply in_map. }
  assert (N' : forall w, ~ In (k', w) m).
  { intros w Hw. apply (StrLt_irrefl k'). apply Hl2. rewrite H2. change k' with (fst (k', w)). now apply in_map. }
  assert (v = v').
  { destruct (proj1 (H (k', v)) (or_introl eq_refl)) as [E2|E2]; [congruence|destruct (N' _ E2)]. }
  subst. f_equal. apply IH; auto. intro x. split; intro Hx.
  - destruct (proj1 (H x) (or_intror Hx)) as [<-|?]; [destruct (N _ Hx)|auto].
  - destruct (proj2 (H x) (or_intror Hx)) as [<-|?]; [destruct (N' _ Hx)|auto].
Qed.
Lemma sort_keys_ext {B} (l m : list (str * B)) : NoDup (map fst l) -> Permutation l m ->
  sort_keys l = sort_keys m.
Proof.
  intros N P. apply sorted_items_unique.
  - now apply sort_keys_Sorted.
  - apply sort_keys_Sorted. eapply Permutation_NoDup; [apply Permutation_map; eassumption|exact N].
  - intro x. split; intro H; (eapply Permutation_in; [|exact H]).
    + rewrite sort_keys_perm, P. now rewrite sort_keys_perm.
    + rewrite sort_keys_perm, <- P. now rewrite sort_keys_perm.
Qed.

(** ** lookups *)
Lemma assoc_In {B} (l : list (str * B)) k v : NoDup (map fst l) -> (assoc k l = Some v <-> In (k, v) l).
Proof.
  induction l as [|[k' v'] l IH]; simpl; intro N; [split; [discriminate|tauto]|].
  inversion N as [|? ? N1 N2]; subst. destruct (str_eqb k k') eqn:E.
  - apply str_eqb_eq in E; subst. split; intro H; [inversion H; auto|]. destruct H as [H|H]; [congruence|].
    exfalso. apply N1. change k' with (fst (k', v)). now apply in_map.
  - apply str_eqb_neq in E. rewrite IH by auto. split; [auto|]. intros [H|H]; [congruence|auto].
Qed.
Lemma assoc_None {B} (l : list (str * B)) k : assoc k l = None <-> ~ In k (map fst l).
Proof.
  induction l as [|[k' v'] l IH]; simpl; [tauto|]. destruct (str_eqb k k') eqn:E.
  - apply str_eqb_eq in E; subst. split; [discriminate|]. intro H; exfalso; apply H; auto.
  - apply str_eqb_neq in E. rewrite IH. split; [intros H [?|?]; [congruence|auto]|tauto].
Qed.
Lemma assoc_perm {B} (l m : list (str * B)) k : NoDup (map fst l) -> Permutation l m -> assoc k l = assoc k m.
Proof.
  intros N P. assert (N' : NoDup (map fst m)) by (eapply Permutation_NoDup; [apply Permutation_map; eassumption|exact N]).
  destruct (assoc k m) as [v|] eqn:E.
  - apply assoc_In in E; auto. apply assoc_In; auto. eapply Permutation_in; [apply Permutation_sym; eassumption|exact E].
  - apply assoc_None in E. apply assoc_None. intro H. apply E.
    eapply Permutation_in; [apply Permutation_map; eassumption|exact H].
Qed.

(** ** C35 *)
From Verif Require Import Spec_Dicts.
Section DvalInd.
  Variable P : dval -> Prop.
  Hypothesis Hatom : forall v, match v with DSeq _ _ | DMap _ _ => False | _ => True end -> P v.
  Hypothesis Hseq : forall k l, Forall P l -> P (DSeq k l).
  Hypothesis Hmap : forall k l, Forall (fun kv => P (snd kv)) l -> P (DMap k l).
  Fixpoint dval_ind' (v : dval) : P v :=
    match v with
    | DSeq k l => Hseq k l ((fix go (l : list dval) : Forall P l :=
        match l with [] => Forall_nil P | x :: r => @Forall_cons dval P x r (dval_ind' x) (go r) end) l)
    | DMap k l => Hmap k l ((fix go (l : list (str * dval)) : Forall (fun kv => P (snd kv)) l :=
        match l with
        | [] => Forall_nil _
        | x :: r => @Forall_cons (str * dval) (fun kv => P (snd kv)) x r (dval_ind' (snd x)) (go r)
        end) l)
    | v => Hatom v I
    end.
End DvalInd.

Section C35.
  Variables (sc : sched) (so : strings).
  Notation disc := (discover sc so).
  Definition items (d : list (str * dval)) := map (fun kv => (fst kv, disc (snd kv))) d.
  Definition row_of (x : dval) := match x with
    | DSeq KList l2 | DSeq KTuple l2 => Some (map disc l2) | _ => None end.
  Definition dict_of (x : dval) := match x with
    | DMap KDict d | DMap KOrdered d => Some (items d) | _ => None end.
  Lemma discover_seq_eq k l : disc (DSeq k l) = discover_seq sc (map disc l) (map row_of l) (map dict_of l).
  Proof. reflexivity. Qed.

  Definition same_dict (d d' : option (list (str * res ty))) : Prop :=
    match d, d' with
    | None, None => True
    | Some a, Some b => NoDup (map fst a) /\ Permutation a b
    | _, _ => False
    end.
  Lemma all_some_same l m : Forall2 same_dict l m ->
    match all_some l, all_some m with
    | Some a, Some b => Forall2 (fun x y => NoDup (map fst x) /\ Permutation x y) a b
    | None, None => True
    | _, _ => False
    end.
  Proof.
    induction 1 as [|[a|] [b|] l m H _ IH]; simpl; auto; try contradiction.
    destruct (all_some l), (all_some m); simpl; auto; try contradiction.
  Qed.
  Lemma discover_dicts_perm a b : Forall2 (fun x y => NoDup (map fst x) /\ Permutation x y) a b ->
    discover_dicts sc a = discover_dicts sc b.
  Proof.
    intro H. unfold discover_dicts.
    assert (E : sorted_set (flat_map (map fst) a) = sorted_set (flat_map (map fst) b)).
    { apply Sorted_unique; try apply sorted_set_Sorted. intro x. rewrite !sorted_set_In, !in_flat_map.
      split; intros [d [H1 H2]].
      - revert H1. induction H as [|p q a b [_ P] _ IH]; [intros []|]. intros [->|H1].
        + exists q. split; [now left|]. eapply Permutation_in; [apply Permutation_map; eassumption|exact H2].
        + destruct (IH H1) as [e [? ?]]. exists e; split; auto; now right.
      - revert H1. induction H as [|p q a b [_ P] _ IH]; [intros []|]. intros [->|H1].
        + exists p. split; [now left|]. eapply Permutation_in; [apply Permutation_map, Permutation_sym; eassumption|exact H2].
        + destruct (IH H1) as [e [? ?]]. exists e; split; auto; now right. }
    rewrite E.
    assert (EM : forall keys, mapM (fun key => column_type sc (map (get_or_null key) a)) keys =
                              mapM (fun key => column_type sc (map (get_or_null key) b)) keys).
    { induction keys as [|key keys IH]; [reflexivity|]. rewrite !mapM_cons, IH. f_equal. f_equal.
      clear -H. induction H as [|p q a b [N P] _ IH]; [reflexivity|]. simpl. f_equal; [|exact IH].
      unfold get_or_null. now rewrite (assoc_perm p q key N P). }
    rewrite EM. destruct (mapM _ _); [|reflexivity]. cbn [bind]. destruct (mk_record no_dsh _); [|reflexivity].
    cbn [bind]. f_equal. unfold len. f_equal. clear -H. induction H; simpl; congruence.
  Qed.
  Lemma discover_seq_perm own rows l m : Forall2 same_dict l m ->
    discover_seq sc own rows l = discover_seq sc own rows m.
  Proof.
    intro H. apply all_some_same in H. unfold discover_seq. destruct own; [reflexivity|].
    destruct (all_some l) as [a|], (all_some m) as [b|]; try contradiction; [|reflexivity].
    now rewrite (discover_dicts_perm a b H).
  Qed.

  Definition P (v : dval) : Prop := forall w, SameData v w -> ValidDicts v -> disc v = disc w.
  Definition Q (v : dval) : Prop := P v /\
    match v with DSeq _ l => Forall P l | DMap _ d => Forall (fun kv => P (snd kv)) d | _ => True end.

  Lemma map_disc l m : Forall P l -> Forall ValidDicts l -> Forall2 SameData l m -> map disc l = map disc m.
  Proof.
    intros HP HV H. induction H as [|x y l m S _ IH]; [reflexivity|]. inversion HP; inversion HV; subst.
    simpl. f_equal; auto.
  Qed.
  Lemma items_perm l l' m : Forall (fun kv => P (snd kv)) l -> Forall (fun kv => ValidDicts (snd kv)) l ->
    Permutation l l' -> Forall2 (fun x y => fst x = fst y /\ SameData (snd x) (snd y)) l' m ->
    Permutation (items l) (items m) /\ (l' = l -> items l = items m).
  Proof.
    intros HP HV HPm H.
    assert (E : items l' = items m).
    { apply (Permutation_Forall HPm) in HP. apply (Permutation_Forall HPm) in HV. clear HPm.
      unfold items. induction H as [|x y l' m [E S] _ IH]; [reflexivity|]. inversion HP; inversion HV; subst.
      simpl. rewrite E. f_equal; [|auto]. f_equal. auto. }
    split; [|intros ->; exact E]. rewrite <- E. unfold items. now apply Permutation_map.
  Qed.
  Lemma items_NoDup l : NoDup (map fst l) -> NoDup (map fst (items l)).
  Proof. unfold items. now rewrite map_map. Qed.

  Theorem discover_SameData : forall v, Q v.
  Proof.
    apply dval_ind'.
    - intros v Hv. split; [|destruct v; auto; contradiction].
      intros w S _. inversion S; subst; auto; contradiction.
    - intros k l HQ. assert (HP : Forall P l) by (eapply Forall_impl; [|exact HQ]; intros ? [? _]; auto).
      split; [|exact HP]. intros w S V. inversion S as [|? ? m F|]; subst; [reflexivity|].
      inversion V as [? C|? ? VL|]; subst; [destruct C|].
      rewrite !discover_seq_eq. rewrite (map_disc l m HP VL F).
      assert (ER : map row_of l = map row_of m).
      { clear V S HP. induction F as [|x y l m Sxy _ IH]; [reflexivity|].
        inversion HQ as [|? ? [_ Q1] Q2]; inversion VL as [|? ? V1 V2]; subst. simpl. f_equal; [|auto].
        inversion Sxy as [|k' l2 m2 F2|k' l2 l3 m2 _ _ _]; subst; [reflexivity| |destruct k'; reflexivity].
        inversion V1 as [? C|? ? VL2|]; subst; [destruct C|].
        cbn [row_of]. destruct k'; try reflexivity; now rewrite (map_disc l2 m2 Q1 VL2 F2). }
      rewrite ER. apply discover_seq_perm.
      clear ER V S HP. induction F as [|x y l m Sxy _ IH]; [constructor|].
      inversion HQ as [|? ? [_ Q1] Q2]; inversion VL as [|? ? V1 V2]; subst. simpl. constructor; [|auto].
      inversion Sxy as [|k' l2 m2 F2|k' l2 l3 m2 K1 K2 K3]; subst.
      + inversion V1 as [z C|? ? VL2|? ? N VL2]; subst.
        * destruct y; cbn; auto; contradiction.
        * exact I.
        * cbn [dict_of]. destruct k0; cbn; try exact I; split; auto using items_NoDup.
      + exact I.
      + inversion V1 as [z C|? ? VL2|? ? N VL2]; subst; [destruct C|].
        destruct (items_perm l2 l3 m2 Q1 VL2 K2 K3) as [Pm _].
        cbn [dict_of]. destruct k'; cbn; try exact I; split; auto using items_NoDup.
    - intros k l HQ. assert (HP : Forall (fun kv => P (snd kv)) l) by (eapply Forall_impl; [|exact HQ]; intros ? [? _]; auto).
      split; [|exact HP]. intros w S V. inversion S as [| |? ? l' m K1 K2 K3]; subst; [reflexivity|].
      inversion V as [? C| |? ? N VL]; subst; [destruct C|].
      destruct (items_perm l l' m HP VL K2 K3) as [Pm Eq]. cbn [discover]. fold (items l) (items m).
      destruct k.
      + f_equal. apply sort_keys_ext; auto using items_NoDup.
      + now rewrite (Eq (K1 eq_refl)).
      + f_equal. apply sort_keys_ext; auto using items_NoDup.
  Qed.
  Theorem discover_order v w : SameData v w -> ValidDicts v -> disc v = disc w.
  Proof. intros; now apply discover_SameData. Qed.

  Lemma mapM_items l fs : mapM (fun kr : str * res ty => let! t := snd kr in Ok (fst kr, PTy t)) l = Ok fs ->
    map fst fs = map fst l.
  Proof.
    revert fs; induction l as [|[k r] l IH]; intros fs; [intro H; inversion H; reflexivity|].
    rewrite mapM_cons. cbn [fst snd]. destruct r as [t|]; [|discriminate]. cbn [bind].
    destruct (mapM _ l) as [q|]; [|discriminate]. cbn [bind]. intro H; inversion H; subst. simpl. f_equal. auto.
  Qed.
  Lemma mk_record_names fs t : mk_record no_dsh fs = Ok t ->
    exists gs, t = RecordT gs /\ map fst gs = map fst fs /\ NoDup (map fst fs) /\
      Forall2 (fun f g => fst f = fst g /\ launder no_dsh (snd f) = Ok (snd g)) fs gs.
  Proof.
    unfold mk_record. destruct (mapM (fun f => launder no_dsh (snd f)) fs) as [ts|] eqn:E; [|discriminate]. cbn [bind].
    destruct (nodup_str (map fst fs)) eqn:N; [|discriminate]. apply nodup_str_NoDup in N.
    intro H; inversion H; subst. exists (combine (map fst fs) ts). split; [reflexivity|].
    apply mapM_Ok_Forall2 in E. split; [|split; [exact N|]]; clear N H.
    - induction E; simpl; [reflexivity|]. f_equal; auto.
    - induction E; simpl; constructor; auto.
  Qed.
  Theorem discover_dict_fields k l t : k <> KOrdered -> NoDup (map fst l) -> disc (DMap k l) = Ok t ->
    exists fs, t = RecordT fs /\ SortedStrs (map fst fs) /\ Permutation (map fst fs) (map fst l).
  Proof.
    intros Hk N H. assert (E : disc (DMap k l) = discover_items (sort_keys (items l))) by (destruct k; [reflexivity|congruence|reflexivity]).
    rewrite E in H. unfold discover_items in H.
    destruct (mapM _ _) as [fs|] eqn:EM; [|discriminate]. cbn [bind] in H. apply mapM_items in EM.
    apply mk_record_names in H as [gs [-> [Hn _]]]. exists gs. split; [reflexivity|]. rewrite Hn, EM. split.
    - apply sort_keys_Sorted. now apply items_NoDup.
    - etransitivity; [apply Permutation_map, sort_keys_perm|]. unfold items. rewrite map_map. reflexivity.
  Qed.
  Theorem discover_ordered_fields l t : disc (DMap KOrdered l) = Ok t ->
    exists fs, t = RecordT fs /\ map fst fs = map fst l.
  Proof.
    intro H. change (discover_items (items l) = Ok t) in H. unfold discover_items in H.
    destruct (mapM _ _) as [fs|] eqn:EM; [|discriminate]. cbn [bind] in H. apply mapM_items in EM.
    apply mk_record_names in H as [gs [-> [Hn _]]]. exists gs. split; [reflexivity|]. rewrite Hn, EM.
    unfold items. rewrite map_map. reflexivity.
  Qed.
End C35.
