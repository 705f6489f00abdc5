(** C58: grouping and reversing dicts (Utils.v, Graph.v). *)
From Coq Require Import Sorting.Permutation.
From Verif Require Import Base Graph Utils Spec_Lexer Spec_Print Printer Proof_Print.

(** [==] is an equivalence on the keys *)
Definition Equivalence_of {K} (eqb : K -> K -> bool) : Prop :=
  (forall x, eqb x x = true) /\ (forall x y, eqb x y = eqb y x) /\
  (forall x y z, eqb x y = true -> eqb y z = true -> eqb x z = true).
(** no two entries of a dict have equal keys *)
Definition DistinctKeys {K V} (eqb : K -> K -> bool) (d : list (K * V)) : Prop :=
  forall i j k v k' v', nth_error d i = Some (k, v) -> nth_error d j = Some (k', v') -> i <> j -> eqb k k' = false.

Section Proofs.
  Context {K : Type}.
  Variable eqb : K -> K -> bool.
  Hypothesis EQ : Equivalence_of eqb.
  Let refl := proj1 EQ. Let sym := proj1 (proj2 EQ). Let trans := proj2 (proj2 EQ).
  Lemma eqb_cong x y z : eqb x y = true -> eqb x z = eqb y z.
  Proof.
    intro H. destruct (eqb y z) eqn:E; [eapply trans; eauto|].
    destruct (eqb x z) eqn:F; auto. rewrite sym in H. rewrite (trans _ _ _ H F) in E. discriminate.
  Qed.
  Lemma dget_dset {V} (d : list (K * V)) x y v : dget eqb (dset eqb d x v) y = if eqb y x then Some v else dget eqb d y.
  Proof.
    induction d as [|[k w] d IH]; cbn [dset dget]; [reflexivity|].
    destruct (eqb x k) eqn:E; cbn [dget].
    - rewrite (sym y k), (sym y x). rewrite (eqb_cong x k y E). destruct (eqb k y); reflexivity.
    - rewrite IH. destruct (eqb y k) eqn:F; auto. destruct (eqb y x) eqn:G; auto.
      rewrite sym in G. rewrite (trans _ _ _ G F) in E. discriminate.
  Qed.
  Lemma keys_dset {V} (d : list (K * V)) x v : map fst (dset eqb d x v) = map fst d ++ match dget eqb d x with Some _ => [] | None => [x] end.
  Proof.
    induction d as [|[k w] d IH]; cbn [dset dget map fst app]; [reflexivity|].
    destruct (eqb x k) eqn:E; cbn [map fst]; [rewrite app_nil_r; reflexivity|]. rewrite IH. reflexivity.
  Qed.
  Fixpoint distinctK (l : list K) : Prop := match l with [] => True | k :: r => (forall k', In k' r -> eqb k k' = false) /\ distinctK r end.
  Lemma distinct_snoc l x : distinctK l -> (forall k, In k l -> eqb k x = false) -> distinctK (l ++ [x]).
  Proof.
    induction l as [|k l IH]; cbn; [intros; split; [intros ? []|auto]|]. intros [H1 H2] H3. split.
    - intros k' Hk. apply in_app_iff in Hk as [Hk|[<-|[]]]; auto.
    - apply IH; auto.
  Qed.
  Lemma dget_None {V} (d : list (K * V)) x : dget eqb d x = None -> forall k, In k (map fst d) -> eqb k x = false.
  Proof.
    induction d as [|[k w] d IH]; cbn; [intros _ ? []|]. destruct (eqb x k) eqn:E; [discriminate|].
    intros H k' [<-|Hk]; [rewrite sym; auto|auto].
  Qed.
  Lemma distinct_dset {V} (d : list (K * V)) x v : distinctK (map fst d) -> distinctK (map fst (dset eqb d x v)).
  Proof.
    intro H. rewrite keys_dset. destruct (dget eqb d x) eqn:E; [rewrite app_nil_r; auto|].
    apply distinct_snoc; auto. apply dget_None; auto.
  Qed.
  Lemma distinct_Keys {V} (d : list (K * V)) : distinctK (map fst d) -> DistinctKeys eqb d.
  Proof.
    induction d as [|[k w] d IH]; intros H i j a v b v' Hi Hj N; [destruct i; discriminate|].
    destruct H as [H1 H2]. destruct i as [|i], j as [|j]; cbn in *; try congruence.
    - injection Hi as <- <-. apply H1. apply nth_error_In in Hj. apply (in_map fst) in Hj. exact Hj.
    - injection Hj as <- <-. rewrite sym. apply H1. apply nth_error_In in Hi. apply (in_map fst) in Hi. exact Hi.
    - eapply IH; eauto.
  Qed.
  Lemma dget_In {V} (d : list (K * V)) k v : distinctK (map fst d) -> In (k, v) d -> dget eqb d k = Some v.
  Proof.
    induction d as [|[k' w] d IH]; [intros _ []|]. intros [H1 H2] [H|H]; cbn.
    - injection H as -> ->. rewrite refl. reflexivity.
    - rewrite sym, H1; auto. apply (in_map fst) in H. exact H.
  Qed.

  Lemma group_get {A} (f : A -> K) seq k :
    dget eqb (groupby eqb f seq) k = match filter (fun x => eqb (f x) k) seq with [] => None | l => Some l end.
  Proof.
    induction seq as [|x seq IH] using rev_ind; [reflexivity|].
    unfold groupby in *. rewrite fold_left_app, filter_app. cbn [fold_left filter]. unfold group_step at 1. cbv zeta.
    set (d := fold_left (group_step eqb f) seq []) in *.
    rewrite !dget_dset. destruct (eqb k (f x)) eqn:E.
    - rewrite sym in E. rewrite E. destruct (dget eqb d (f x)) as [l|] eqn:G.
      + rewrite G.
        assert (X : filter (fun y => eqb (f y) k) seq = l).
        { assert (Q : dget eqb d k = Some l).
          { clear -G E EQ refl sym trans. induction d as [|[k' w] d IHd]; [discriminate|]. cbn in *.
            rewrite <- (eqb_cong (f x) k k' E). destruct (eqb (f x) k'); auto. }
          rewrite Q in IH. destruct (filter _ seq); congruence. }
        rewrite X. destruct (l ++ [x]) eqn:L; [destruct l; discriminate|reflexivity].
      + rewrite dget_dset, refl.
        assert (X : filter (fun y => eqb (f y) k) seq = []).
        { assert (Q : dget eqb d k = None).
          { clear -G E EQ refl sym trans. induction d as [|[k' w] d IHd]; [reflexivity|]. cbn in *.
            rewrite <- (eqb_cong (f x) k k' E). destruct (eqb (f x) k'); auto. }
          rewrite Q in IH. destruct (filter _ seq); congruence. }
        rewrite X. reflexivity.
    - rewrite sym in E. rewrite E, app_nil_r. destruct (dget eqb d (f x)); [exact IH|]. rewrite dget_dset, sym, E. exact IH.
  Qed.
  Lemma group_distinct {A} (f : A -> K) seq : distinctK (map fst (groupby eqb f seq)).
  Proof.
    unfold groupby. induction seq as [|x seq IH] using rev_ind; [exact I|]. rewrite fold_left_app. cbn [fold_left].
    unfold group_step at 1. cbv zeta. apply distinct_dset. destruct (dget _ _ _); auto. apply distinct_dset; auto.
  Qed.
  Lemma group_key {A} (f : A -> K) seq k : In k (map fst (groupby eqb f seq)) -> exists x, In x seq /\ k = f x.
  Proof.
    unfold groupby. induction seq as [|x seq IH] using rev_ind; [intros []|]. rewrite fold_left_app. cbn [fold_left].
    unfold group_step at 1. cbv zeta. rewrite keys_dset. intro H. apply in_app_iff in H as [H|H].
    - assert (In k (map fst (fold_left (group_step eqb f) seq [])) \/ k = f x) as [X| ->].
      { destruct (dget eqb (fold_left (group_step eqb f) seq []) (f x)) eqn:G; [auto|].
        rewrite keys_dset, G in H. apply in_app_iff in H as [H|[H|[]]]; auto. }
      + destruct (IH X) as [y [Y1 Y2]]. exists y. split; auto. apply in_app_iff; auto.
      + exists x. split; auto. apply in_app_iff; right; left; auto.
    - destruct (dget _ _ _); [destruct H|]. destruct H as [<-|[]]. exists x. split; auto. apply in_app_iff; right; left; auto.
  Qed.
  Definition into (d : list (K * list K)) (v : K) : list K :=
    flat_map (fun kv => map (fun _ => fst kv) (filter (fun m => eqb m v) (snd kv))) d.
  Lemma rev_get_edges es v : dget eqb (fold_left (rev_step eqb) es []) v =
    match map fst (filter (fun e => eqb (snd e) v) es) with [] => None | l => Some l end.
  Proof.
    induction es as [|[a b] es IH] using rev_ind; [reflexivity|].
    rewrite fold_left_app, filter_app, map_app. cbn [fold_left filter snd]. unfold rev_step at 1.
    set (d := fold_left (rev_step eqb) es []) in *. rewrite dget_dset. destruct (eqb v b) eqn:E.
    - assert (Q : dget eqb d b = dget eqb d v).
      { clear -E EQ refl sym trans. induction d as [|[k' w] d IHd]; [reflexivity|]. cbn. rewrite <- (eqb_cong v b k' E).
        destruct (eqb v k'); auto. }
      rewrite Q, IH. rewrite sym in E. rewrite E. cbn [map fst].
      destruct (map fst (filter _ es)) as [|y l]; reflexivity.
    - rewrite IH. rewrite sym in E. rewrite E, app_nil_r. reflexivity.
  Qed.
  Lemma rev_get d v : dget eqb (reverse_dict eqb d) v = match into d v with [] => None | l => Some l end.
  Proof.
    unfold reverse_dict. rewrite rev_get_edges.
    assert (X : map fst (filter (fun e => eqb (snd e) v) (edge_list d)) = into d v).
    { unfold edge_list, into. induction d as [|[k ms] d IH]; [reflexivity|]. cbn [flat_map fst snd].
      rewrite filter_app, map_app, IH. f_equal. induction ms as [|m ms IHm]; [reflexivity|]. cbn [map filter snd].
      destruct (eqb m v); cbn [map fst]; rewrite IHm; reflexivity. }
    rewrite X. reflexivity.
  Qed.
  Lemma rev_distinct d : distinctK (map fst (reverse_dict eqb d)).
  Proof.
    unfold reverse_dict. generalize (edge_list d) as es. intro es. induction es as [|[a b] es IH] using rev_ind; [exact I|].
    rewrite fold_left_app. cbn [fold_left]. unfold rev_step at 1. apply distinct_dset; auto.
  Qed.
End Proofs.

(** C58. [groupby(func, seq)]: one entry per value of [func], holding exactly the items with
    that value, in their order. *)
Theorem C58_groupby : forall (A K : Type) (eqb : K -> K -> bool) (func : A -> K) seq, Equivalence_of eqb ->
  let d := groupby eqb func seq in
  DistinctKeys eqb d /\
  (forall k g, In (k, g) d -> g <> [] /\ g = filter (fun x => eqb (func x) k) seq) /\
  (forall x, In x seq -> exists k g, In (k, g) d /\ eqb (func x) k = true) /\
  (forall k g, In (k, g) d -> exists x, In x seq /\ k = func x).
Proof.
  intros A K eqb f seq EQ d. pose proof (group_distinct eqb EQ f seq) as DI. fold d in DI.
  assert (G : forall k g, In (k, g) d -> g <> [] /\ g = filter (fun x => eqb (f x) k) seq).
  { intros k g H. pose proof (dget_In eqb EQ d k g DI H) as E. unfold d in E. rewrite (group_get eqb EQ) in E.
    destruct (filter _ seq) as [|y l]; [discriminate|]. injection E as <-. split; [discriminate|reflexivity]. }
  split; [apply distinct_Keys; auto|]. split; [exact G|]. split.
  - intros x Hx.
    assert (E : dget eqb d (f x) <> None).
    { unfold d. rewrite (group_get eqb EQ). destruct (filter _ seq) eqn:F; [|discriminate]. exfalso.
      assert (In x []) as [] by (rewrite <- F; apply filter_In; split; auto; apply EQ). }
    clear G DI. induction d as [|[k w] d' IH]; [contradiction|]. cbn in E. destruct (eqb (f x) k) eqn:Q.
    + exists k, w. split; [left; auto|auto].
    + destruct (IH E) as [k' [g [H1 H2]]]. exists k', g. split; [right; auto|auto].
  - intros k g H. apply (in_map fst) in H. cbn in H. eapply (group_key eqb); eauto.
Qed.
Print Assumptions C58_groupby.
(** [reverse_dict(d)]: under each value, the keys that list it, in the order of [d] (with their
    multiplicities); values listed nowhere are absent. *)
Theorem C58_reverse_dict : forall (K : Type) (eqb : K -> K -> bool) d, Equivalence_of eqb ->
  let r := reverse_dict eqb d in
  DistinctKeys eqb r /\
  (forall v, dget eqb r v = match flat_map (fun kv => map (fun _ => fst kv) (filter (fun m => eqb m v) (snd kv))) d with
                            | [] => None | l => Some l end).
Proof.
  intros K eqb d EQ r. split; [apply distinct_Keys; auto; apply rev_distinct; auto|]. intro v. apply rev_get; auto.
Qed.
Print Assumptions C58_reverse_dict.
(** [remove(pred, seq)]: the items failing the predicate, in order *)
Theorem C58_remove : forall (A : Type) (pred : A -> bool) pre x post,
  remove_if pred (pre ++ x :: post) = remove_if pred pre ++ (if pred x then [] else [x]) ++ remove_if pred post.
Proof. intros. unfold remove_if. rewrite filter_app. cbn. destruct (pred x); reflexivity. Qed.
Print Assumptions C58_remove.
(** [isidentifier(s)]: a letter or underscore followed by letters, digits and underscores ... or
    that followed by a newline *)
Theorem C58_isidentifier : forall s, isidentifier s = true <-> Ident s \/ exists m, s = m ++ [10%N] /\ Ident m.
Proof. exact ident_iff. Qed.
Print Assumptions C58_isidentifier.
Example C58_cases : groupby Nat.eqb (fun n => Nat.modulo n 3) [1; 2; 3; 4; 5; 6] = [(1, [1; 4]); (2, [2; 5]); (0, [3; 6])]%nat /\
  reverse_dict Nat.eqb [(10, [1; 2]); (20, [2; 3]); (30, [])]%nat = [(1, [10]); (2, [10; 20]); (3, [20])]%nat /\
  Equivalence_of Nat.eqb.
Proof.
  split; [reflexivity|]. split; [reflexivity|]. split; [apply Nat.eqb_refl|]. split; [apply Nat.eqb_sym|].
  intros x y z H1 H2. apply Nat.eqb_eq in H1, H2. apply Nat.eqb_eq. congruence.
Qed.
