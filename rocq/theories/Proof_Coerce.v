(** lowest_common_dshape is a least upper bound, for every schedule (C32). *)
From Verif Require Import Base Types Printer Construct Parser Ops Preds Graph Spec_Graph Proof_Graph
  Discovery Spec_Discovery Spec_Eq Proof_Eq.
From Coq Require Import Relations.
Local Open Scope nat_scope.

(** ** toposort commutes with an embedding of the nodes *)
Section Map.
  Context {A B : Type} (eqA : A -> A -> bool) (eqB : B -> B -> bool) (f : B -> A).
  Hypothesis Hf : forall a b, eqA (f a) (f b) = eqB a b.
  Definition mapg (g : list (B * list B)) : list (A * list A) :=
    map (fun kv => (f (fst kv), map f (snd kv))) g.
  Definition rmap {X Y} (h : X -> Y) (r : res X) : res Y :=
    match r with Ok x => Ok (h x) | Raise e => Raise e end.

  Lemma memb_map x l : memb eqA (f x) (map f l) = memb eqB x l.
  Proof. induction l; simpl; [reflexivity|]. now rewrite Hf, IHl. Qed.
  Lemma dget_mapg g x : dget eqA (mapg g) (f x) = option_map (map f) (dget eqB g x).
  Proof.
    induction g as [|[k v] g IH]; simpl; [reflexivity|]. rewrite Hf. destruct (eqB x k); auto.
  Qed.
  Lemma dset_mapg g x v : dset eqA (mapg g) (f x) (map f v) = mapg (dset eqB g x v).
  Proof.
    induction g as [|[k w] g IH]; simpl; [reflexivity|]. rewrite Hf. destruct (eqB x k); simpl; [reflexivity|].
    f_equal. apply IH.
  Qed.
  Lemma sadd_map x s : sadd eqA (f x) (map f s) = map f (sadd eqB x s).
  Proof. unfold sadd. rewrite memb_map. destruct (memb eqB x s); [reflexivity|]. now rewrite map_app. Qed.
  Lemma sremove_map x s : sremove eqA (f x) (map f s) = map f (sremove eqB x s).
  Proof.
    unfold sremove. induction s as [|y s IH]; simpl; [reflexivity|]. rewrite Hf.
    destruct (eqB x y); simpl; [auto|now f_equal].
  Qed.
  Lemma mkset_map l : mkset eqA (map f l) = map f (mkset eqB l).
  Proof.
    unfold mkset. change (@nil A) with (map f []). generalize (@nil B).
    induction l as [|x l IH]; intro s; simpl; [reflexivity|]. now rewrite sadd_map, IH.
  Qed.
  Lemma edge_list_map g :
    edge_list (mapg g) = map (fun e => (f (fst e), f (snd e))) (edge_list g).
  Proof.
    unfold edge_list. induction g as [|[k v] g IH]; simpl; [reflexivity|].
    rewrite map_app, IH. f_equal. rewrite !map_map. reflexivity.
  Qed.
  Lemma reverse_map g : reverse_dict eqA (mapg g) = mapg (reverse_dict eqB g).
  Proof.
    unfold reverse_dict. rewrite edge_list_map. change (@nil (A * list A)) with (mapg []).
    generalize (@nil (B * list B)). induction (edge_list g) as [|[k v] l IH]; intro r; simpl; [reflexivity|].
    rewrite <- IH. f_equal. rewrite dget_mapg. rewrite <- dset_mapg. f_equal.
    destruct (dget eqB r v); simpl; [now rewrite map_app|reflexivity].
  Qed.
  Lemma relax_map n : forall ms inc s,
    relax eqA (f n) (map f ms) (mapg inc) (map f s) =
    rmap (fun p => (mapg (fst p), map f (snd p))) (relax eqB n ms inc s).
  Proof.
    induction ms as [|m ms IH]; intros inc s; simpl; [reflexivity|].
    rewrite dget_mapg. destruct (dget eqB inc m) as [l|]; simpl; [|reflexivity].
    rewrite memb_map. destruct (memb eqB n l); [|reflexivity].
    rewrite sremove_map, dset_mapg. rewrite <- IH. f_equal.
    destruct (sremove eqB n l); simpl; [apply sadd_map|reflexivity].
  Qed.
  Lemma pop_at_map i s :
    pop_at i (map f s) = option_map (fun p => (f (fst p), map f (snd p))) (pop_at i s).
  Proof.
    unfold pop_at. rewrite map_length, nth_error_map.
    destruct (nth_error s (i mod length s)); [|reflexivity]. cbn [option_map fst snd].
    now rewrite map_app, firstn_map, skipn_map.
  Qed.
  Lemma kahn_map sch g : forall fuel l s inc,
    kahn eqA sch (mapg g) fuel (map f l) (map f s) (mapg inc) =
    rmap (fun p => (map f (fst p), mapg (snd p))) (kahn eqB sch g fuel l s inc).
  Proof.
    induction fuel as [|n IH]; intros l s inc; destruct s as [|x s]; try reflexivity.
    cbn [kahn map]. rewrite map_length. change (f x :: map f s) with (map f (x :: s)).
    rewrite pop_at_map. destruct (pop_at (sch (length l)) (x :: s)) as [[m s']|]; [|reflexivity].
    cbn [option_map fst snd]. rewrite dget_mapg.
    replace (match option_map (map f) (dget eqB g m) with Some ms => ms | None => [] end)
      with (map f (match dget eqB g m with Some ms => ms | None => [] end))
      by (destruct (dget eqB g m); reflexivity).
    rewrite relax_map. destruct (relax eqB m _ inc s') as [[inc' s'']|e]; [|reflexivity].
    cbn [rmap bind fst snd]. rewrite <- IH. now rewrite map_app.
  Qed.
  Lemma toposort_map sch g : toposort eqA sch (mapg g) = rmap (map f) (toposort eqB sch g).
  Proof.
    unfold toposort. rewrite reverse_map, edge_list_map.
    replace (map (fun kv => (fst kv, mkset eqA (snd kv))) (mapg (reverse_dict eqB g)))
      with (mapg (map (fun kv => (fst kv, mkset eqB (snd kv))) (reverse_dict eqB g))).
    2:{ unfold mapg. rewrite !map_map. apply map_ext. intros [k v]. cbn [fst snd]. now rewrite mkset_map. }
    remember (map (fun kv => (fst kv, mkset eqB (snd kv))) (reverse_dict eqB g)) as inc eqn:Ei.
    assert (Hk : map fst (mapg g) = map f (map fst g)) by (unfold mapg; rewrite !map_map; reflexivity).
    rewrite Hk.
    replace (filter (fun v => match dget eqA (mapg inc) v with None => true | Some _ => false end) (map f (map fst g)))
      with (map f (filter (fun v => match dget eqB inc v with None => true | Some _ => false end) (map fst g))).
    2:{ clear Hk. induction (map fst g) as [|y l IH]; simpl; [reflexivity|]. rewrite dget_mapg.
        destruct (dget eqB inc y); simpl; [auto|now f_equal]. }
    replace (length (mapg g)) with (length g) by (unfold mapg; now rewrite map_length).
    rewrite map_length. change (@nil A) with (map f []) at 1.
    rewrite kahn_map. destruct (kahn eqB sch g _ [] _ inc) as [[l inc']|e]; [|reflexivity].
    cbn [rmap bind fst snd].
    replace (existsb (fun v => match dget eqA (mapg inc') v with Some (_ :: _) => true | _ => false end) (map f (map fst g)))
      with (existsb (fun v => match dget eqB inc' v with Some (_ :: _) => true | _ => false end) (map fst g)).
    2:{ clear Hk. induction (map fst g) as [|y q IH]; simpl; [reflexivity|]. rewrite dget_mapg, IH.
        destruct (dget eqB inc' y) as [[|? ?]|]; reflexivity. }
    destruct (existsb _ (map fst g)); reflexivity.
  Qed.
End Map.

(** ** the nine nodes *)
Inductive node := nInt32 | nInt64 | nReal | nDate | nDateTime | nDelta | nBool | nNull | nString.
Definition nd (n : node) : ty :=
  match n with
  | nInt32 => int32_t | nInt64 => int64_t | nReal => float64_t | nDate => DateT
  | nDateTime => DateTimeT None | nDelta => TimeDeltaT $"us" | nBool => bool_t
  | nNull => NullT | nString => string_t
  end.
Definition node_eqb (a b : node) : bool :=
  match a, b with
  | nInt32, nInt32 | nInt64, nInt64 | nReal, nReal | nDate, nDate | nDateTime, nDateTime
  | nDelta, nDelta | nBool, nBool | nNull, nNull | nString, nString => true
  | _, _ => false
  end.
Lemma node_eqb_spec a b : node_eqb a b = true <-> a = b.
Proof. destruct a, b; simpl; split; intro H; try reflexivity; try discriminate. Qed.
Lemma nd_eqb a b : py_eq (nd a) (nd b) = node_eqb a b.
Proof. destruct a, b; vm_compute; reflexivity. Qed.
Lemma nd_inj a b : nd a = nd b -> a = b.
Proof. intro H. apply node_eqb_spec. rewrite <- nd_eqb, H. destruct b; vm_compute; reflexivity. Qed.
Definition ndict (r1 r2 : bool) : list (node * list node) :=
  [ (nInt64, if r1 then [nReal; nString] else [nString; nReal]); (nReal, [nString]);
    (nDate, if r2 then [nDateTime; nString] else [nString; nDateTime]); (nDateTime, [nString]);
    (nDelta, [nString]); (nBool, [nString]); (nInt32, [nInt64]); (nNull, [nString]) ].

Lemma coerce_dict0_eq : coerce_dict0 = mapg nd (ndict false false).
Proof. vm_compute. reflexivity. Qed.
Lemma coerce_dict_eq sc : coerce_dict sc = mapg nd (ndict (sc_rev sc int64_t) (sc_rev sc DateT)).
Proof.
  unfold coerce_dict. rewrite coerce_dict0_eq. unfold mapg, ndict. cbn [map fst snd nd].
  destruct (sc_rev sc int64_t), (sc_rev sc DateT); cbn [map fst snd nd rev app];
    repeat (match goal with |- context [sc_rev sc ?t] => destruct (sc_rev sc t) end); reflexivity.
Qed.

Lemma ndict_wf r1 r2 : DictOfSets (ndict r1 r2).
Proof.
  split.
  - cbn. repeat constructor; simpl; intuition discriminate.
  - unfold ndict. repeat constructor; destruct r1, r2; cbn; repeat constructor; simpl; intuition discriminate.
Qed.

Definition nstep (a b : node) : bool :=
  match a, b with
  | nInt32, nInt64 | nInt64, nReal | nDate, nDateTime | nInt64, nString | nReal, nString
  | nDate, nString | nDateTime, nString | nDelta, nString | nBool, nString | nNull, nString => true
  | _, _ => false
  end.
Definition nle (a b : node) : bool :=
  node_eqb a b || nstep a b ||
  match a, b with nInt32, nReal | nInt32, nString => true | _, _ => false end.

Lemma ndict_edge r1 r2 a b : Edge (ndict r1 r2) a b <-> nstep a b = true.
Proof.
  split.
  - intros [l [H1 H2]]. unfold ndict in H1. simpl in H1.
    repeat (destruct H1 as [H1|H1]; [inversion H1; subst; destruct r1, r2; simpl in H2; intuition (subst; reflexivity)|]).
    destruct H1.
  - intro H. unfold Edge.
    destruct a, b; try discriminate H; unfold ndict;
      eexists; (split; [simpl; repeat (first [left; reflexivity|right])|]); destruct r1, r2; simpl; auto.
Qed.
Lemma ndict_acyclic r1 r2 : ~ Cyclic (ndict r1 r2).
Proof.
  destruct (toposort_correct node_eqb node_eqb_spec (ndict r1 r2) (ndict_wf r1 r2) (fun _ => O))
    as [[l [_ [_ H]]]|[H _]]; [exact H|]. exfalso. revert H. destruct r1, r2; vm_compute; discriminate.
Qed.
Lemma toposorted_ok sc : exists l, toposorted sc = Ok (map nd l) /\
  TopologicalOrder (ndict (sc_rev sc int64_t) (sc_rev sc DateT)) l.
Proof.
  unfold toposorted. rewrite coerce_dict_eq, (toposort_map py_eq node_eqb nd nd_eqb).
  destruct (toposort_correct node_eqb node_eqb_spec _ (ndict_wf (sc_rev sc int64_t) (sc_rev sc DateT)) (sc_pop sc))
    as [[l [H1 [H2 _]]]|[_ H]].
  - exists l. rewrite H1. split; [reflexivity|exact H2].
  - destruct (ndict_acyclic _ _ H).
Qed.

(** ** the coercion order on nodes *)
Lemma CoerceStep_nstep a b : CoerceStep (nd a) (nd b) <-> nstep a b = true.
Proof.
  split.
  - intro H. remember (nd a) as x. remember (nd b) as y.
    destruct H;
    repeat match goal with
    | H : ?t = nd ?n |- _ =>
        first [ rewrite (nd_inj n nInt32 (eq_sym H)) in *
              | rewrite (nd_inj n nInt64 (eq_sym H)) in *
              | rewrite (nd_inj n nReal (eq_sym H)) in *
              | rewrite (nd_inj n nDate (eq_sym H)) in *
              | rewrite (nd_inj n nDateTime (eq_sym H)) in *
              | rewrite (nd_inj n nDelta (eq_sym H)) in *
              | rewrite (nd_inj n nBool (eq_sym H)) in *
              | rewrite (nd_inj n nNull (eq_sym H)) in *
              | rewrite (nd_inj n nString (eq_sym H)) in * ]; clear H
    end; reflexivity.
  - destruct a, b; intro H; try discriminate H; constructor.
Qed.
Lemma CoerceStep_nodes x y : CoerceStep x y -> exists a b, x = nd a /\ y = nd b.
Proof.
  intro H; destruct H;
    [exists nInt32, nInt64|exists nInt64, nReal|exists nDate, nDateTime|exists nInt64, nString
    |exists nReal, nString|exists nDate, nString|exists nDateTime, nString|exists nDelta, nString
    |exists nBool, nString|exists nNull, nString]; split; reflexivity.
Qed.
Lemma nle_trans a b c : nle a b = true -> nle b c = true -> nle a c = true.
Proof. destruct a, b; try discriminate; intros _; destruct c; try discriminate; reflexivity. Qed.
Lemma Coerces_nle a b : Coerces (nd a) (nd b) <-> nle a b = true.
Proof.
  split.
  - intro H. assert (G : forall x y, Coerces x y -> forall a, x = nd a -> exists b, y = nd b /\ nle a b = true).
    { clear. intros x y H. induction H as [x y S|x|x y z _ I1 _ I2]; intros a E.
      - destruct (CoerceStep_nodes _ _ S) as [a' [b [E1 E2]]]. subst. apply nd_inj in E1; subst.
        exists b. split; [reflexivity|]. apply CoerceStep_nstep in S. unfold nle. rewrite S. now rewrite orb_true_r.
      - exists a. split; [auto|]. destruct a; reflexivity.
      - destruct (I1 a E) as [b [E2 L1]]. destruct (I2 b E2) as [c [E3 L2]]. exists c. split; [auto|].
        eapply nle_trans; eauto. }
    destruct (G _ _ H a eq_refl) as [b' [E L]]. apply nd_inj in E. now subst.
  - intro H. unfold nle in H. apply orb_true_iff in H as [H|H]; [apply orb_true_iff in H as [H|H]|].
    + apply node_eqb_spec in H; subst. apply rt_refl.
    + apply rt_step. now apply CoerceStep_nstep.
    + assert (S1 : Coerces (nd nInt32) (nd nReal)).
      { eapply rt_trans; [apply rt_step, cs_int32_int64|apply rt_step, cs_int64_float64]. }
      destruct a, b; try discriminate H; [exact S1|].
      eapply rt_trans; [exact S1|apply rt_step, cs_float64_string].
Qed.
(** the upper set of every node is a chain, with [string] on top *)
Lemma nle_chain a b c : nle a b = true -> nle a c = true -> nle b c = true \/ nle c b = true.
Proof. destruct a, b; try discriminate; intros _; destruct c; try discriminate; auto. Qed.
Lemma nle_string a : nle a nString = true.
Proof. destruct a; reflexivity. Qed.
Lemma nle_antisym a b : nle a b = true -> nle b a = true -> a = b.
Proof. destruct a, b; try discriminate; auto. Qed.

(** descendents of a node, and of anything else *)
Lemma desc_node sc a : exists l,
  descendents py_eq (coerce_dict sc) (nd a) = Ok (map nd l) /\ forall b, In b l <-> nle a b = true.
Proof.
  rewrite coerce_dict_eq. destruct (sc_rev sc int64_t), (sc_rev sc DateT);
  destruct a;
  [exists [nInt32; nInt64; nReal; nString]|exists [nInt64; nReal; nString]|exists [nReal; nString]
  |exists [nDate; nDateTime; nString]|exists [nDateTime; nString]|exists [nDelta; nString]
  |exists [nBool; nString]|exists [nNull; nString]|exists [nString]
  |exists [nInt32; nInt64; nReal; nString]|exists [nInt64; nReal; nString]|exists [nReal; nString]
  |exists [nDate; nString; nDateTime]|exists [nDateTime; nString]|exists [nDelta; nString]
  |exists [nBool; nString]|exists [nNull; nString]|exists [nString]
  |exists [nInt32; nInt64; nString; nReal]|exists [nInt64; nString; nReal]|exists [nReal; nString]
  |exists [nDate; nDateTime; nString]|exists [nDateTime; nString]|exists [nDelta; nString]
  |exists [nBool; nString]|exists [nNull; nString]|exists [nString]
  |exists [nInt32; nInt64; nString; nReal]|exists [nInt64; nString; nReal]|exists [nReal; nString]
  |exists [nDate; nString; nDateTime]|exists [nDateTime; nString]|exists [nDelta; nString]
  |exists [nBool; nString]|exists [nNull; nString]|exists [nString]];
  (split; [vm_compute; reflexivity|]);
  intro b; destruct b; simpl; (split; intro H; [intuition (congruence || discriminate)|try discriminate H; tauto]).
Qed.

Lemma unit_eq_l t a : is_Unit t = true -> py_eq t (nd a) = true -> t = nd a.
Proof.
  intros U H. destruct t; try discriminate U; destruct a; cbn in H; try discriminate H; try reflexivity.
  all: repeat (apply andb_true_iff in H as [H ?]); cbn.
  all: repeat match goal with
       | H : str_eqb _ _ = true |- _ => apply str_eqb_eq in H; subst
       | H : Z.eqb _ _ = true |- _ => apply Z.eqb_eq in H; subst
       | H : ostr_eqb ?z None = true |- _ => destruct z; [discriminate|]
       | H : oZ_eqb ?z None = true |- _ => destruct z; [discriminate|]
       | H : match ?z with Some _ => _ | None => _ end = true |- _ => destruct z; try discriminate
       end; try reflexivity.
  all: try discriminate.
Qed.
Lemma unit_eq_r t a : is_Unit t = true -> py_eq (nd a) t = true -> t = nd a.
Proof.
  intros U H. destruct t; try discriminate U; destruct a; try (cbn in H; discriminate H); try reflexivity.
  all: unfold py_eq, nd, int32_t, int64_t, float64_t, bool_t, string_t in *;
       cbn [tsize py_eqF shape measure list_eqb info_eqb andb] in H.
  all: repeat (apply andb_true_iff in H as [H ?]).
  all: repeat match goal with
       | H : str_eqb _ _ = true |- _ => apply str_eqb_eq in H
       | H : Z.eqb _ _ = true |- _ => apply Z.eqb_eq in H
       | H : ostr_eqb _ _ = true |- _ => apply ostr_eqb_eq in H
       | H : oZ_eqb _ _ = true |- _ => apply oZ_eqb_eq in H
       end; subst; try reflexivity.
Qed.

Lemma Known_nd t : Known t <-> exists a, t = nd a.
Proof.
  split.
  - unfold Known. simpl. intros H.
    repeat (destruct H as [H|H]; [subst|]); [exists nInt32|exists nInt64|exists nReal|exists nDate|exists nDateTime
      |exists nDelta|exists nBool|exists nNull|exists nString|destruct H]; reflexivity.
  - intros [a ->]. unfold Known. destruct a; simpl; tauto.
Qed.
Lemma desc_unknown sc t : is_Unit t = true -> ~ Known t ->
  descendents py_eq (coerce_dict sc) t = Ok [t].
Proof.
  intros U K. unfold descendents, succs. rewrite coerce_dict_eq.
  assert (H : forall g, dget py_eq (mapg nd g) t = None).
  { induction g as [|[k v] g IH]; simpl; [reflexivity|].
    destruct (py_eq t (nd k)) eqn:E; [|exact IH]. apply unit_eq_l in E; [|exact U].
    exfalso. apply K. apply Known_nd. eauto. }
  now rewrite H.
Qed.

Fixpoint nindex (l : list node) (x : node) : option nat :=
  match l with
  | [] => None
  | y :: r => if node_eqb y x then Some O else option_map S (nindex r x)
  end.
Lemma index_of_nd l x : index_of (map nd l) (nd x) = nindex l x.
Proof. induction l as [|y l IH]; simpl; [reflexivity|]. now rewrite nd_eqb, IH. Qed.
Lemma nindex_In l x : In x l -> exists k, nindex l x = Some k.
Proof.
  induction l as [|y l IH]; simpl; [tauto|]. intros H. destruct (node_eqb y x) eqn:E; [eauto|].
  destruct H as [->|H]; [rewrite (proj2 (node_eqb_spec x x) eq_refl) in E; discriminate|].
  destruct (IH H) as [k ->]. simpl; eauto.
Qed.
Lemma nindex_app l1 x l2 : ~ In x l1 -> nindex (l1 ++ x :: l2) x = Some (length l1).
Proof.
  induction l1 as [|y l IH]; simpl; intro H.
  - now rewrite (proj2 (node_eqb_spec x x) eq_refl).
  - destruct (node_eqb y x) eqn:E; [apply node_eqb_spec in E; tauto|]. rewrite IH by tauto. reflexivity.
Qed.
Lemma Before_index l a b i j : NoDup l -> Before a b l -> nindex l a = Some i -> nindex l b = Some j -> i < j.
Proof.
  intros N [l1 [l2 [l3 ->]]] Ha Hb.
  assert (Na : ~ In a l1) by (intro H; apply NoDup_remove_2 in N; apply N; rewrite !in_app_iff; auto).
  rewrite nindex_app in Ha by exact Na. inversion Ha; subst; clear Ha.
  replace (l1 ++ a :: l2 ++ b :: l3) with ((l1 ++ a :: l2) ++ b :: l3) in * by (rewrite <- app_assoc; reflexivity).
  rewrite nindex_app in Hb.
  - inversion Hb. rewrite app_length. simpl. lia.
  - intro H. apply NoDup_remove_2 in N. apply N. rewrite in_app_iff. auto.
Qed.

Lemma min_by_nd L : forall c best k, (forall u, In u c -> In u L) -> nindex L best = Some k ->
  exists m km, min_by (map nd L) (nd best) k (map nd c) = Ok (nd m) /\ In m (best :: c) /\
    nindex L m = Some km /\ km <= k /\ forall u ku, In u c -> nindex L u = Some ku -> km <= ku.
Proof.
  induction c as [|x c IH]; intros best k HL Hk; simpl.
  - exists best, k. repeat split; auto. intros u ku [].
  - rewrite index_of_nd. destruct (nindex_In L x) as [kx Ex]; [apply HL; now left|]. rewrite Ex.
    assert (HL' : forall u, In u c -> In u L) by (intros; apply HL; now right).
    destruct (Nat.ltb kx k) eqn:E.
    + apply Nat.ltb_lt in E. destruct (IH x kx HL' Ex) as [m [km [H1 [H2 [H3 [H4 H5]]]]]].
      exists m, km. split; [exact H1|]. split; [right; exact H2|]. split; [exact H3|]. split; [lia|].
      intros u ku [<-|Hu] Eu; [rewrite Ex in Eu; inversion Eu; lia|eauto].
    + apply Nat.ltb_ge in E. destruct (IH best k HL' Hk) as [m [km [H1 [H2 [H3 [H4 H5]]]]]].
      exists m, km. split; [exact H1|]. split; [destruct H2 as [->|H2]; [now left|right; now right]|]. split; [exact H3|]. split; [lia|].
      intros u ku [<-|Hu] Eu; [rewrite Ex in Eu; inversion Eu; lia|eauto].
Qed.
Lemma min_index_nd L c : c <> [] -> (forall u, In u c -> In u L) ->
  exists m km, min_index (map nd L) (map nd c) = Ok (nd m) /\ In m c /\
    nindex L m = Some km /\ forall u ku, In u c -> nindex L u = Some ku -> km <= ku.
Proof.
  destruct c as [|x c]; [congruence|]. intros _ HL. simpl. rewrite index_of_nd.
  destruct (nindex_In L x) as [kx Ex]; [apply HL; now left|]. rewrite Ex.
  destruct (min_by_nd L c x kx) as [m [km [H1 [H2 [H3 [H4 H5]]]]]]; [intros; apply HL; now right|auto|].
  exists m, km. repeat split; auto. intros u ku [<-|Hu] Eu; [rewrite Ex in Eu; inversion Eu; lia|eauto].
Qed.

Lemma all_Node r1 r2 a : Spec_Graph.Node (ndict r1 r2) a.
Proof.
  destruct (node_eqb a nString) eqn:E.
  - apply node_eqb_spec in E; subst. right. exists nBool. apply ndict_edge. reflexivity.
  - left. destruct a; simpl; try tauto. discriminate.
Qed.
Lemma nle_Before r1 r2 L a b : TopologicalOrder (ndict r1 r2) L -> nle a b = true -> a <> b -> Before a b L.
Proof.
  intros [N [_ H]] Hn Hne. unfold nle in Hn. apply orb_true_iff in Hn as [Hn|Hn]; [apply orb_true_iff in Hn as [Hn|Hn]|].
  - apply node_eqb_spec in Hn. contradiction.
  - apply H, ndict_edge, Hn.
  - assert (B1 : Before nInt32 nReal L).
    { apply Before_trans with (b := nInt64); [exact N| |]; apply H, ndict_edge; reflexivity. }
    destruct a, b; try discriminate Hn; [exact B1|].
    eapply Before_trans; [exact N|exact B1|apply H, ndict_edge; reflexivity].
Qed.

Lemma filter_nd (p : node -> bool) (q : ty -> bool) l :
  (forall b, q (nd b) = p b) -> filter q (map nd l) = map nd (filter p l).
Proof. intro H. induction l as [|x l IH]; simpl; [reflexivity|]. rewrite H. destruct (p x); simpl; now rewrite IH. Qed.

Lemma mapM_desc sc ns : exists ls,
  mapM (descendents py_eq (coerce_dict sc)) (map nd ns) = Ok (map (map nd) ls) /\
  Forall2 (fun a l => forall b, In b l <-> nle a b = true) ns ls.
Proof.
  induction ns as [|a ns [ls [I1 I2]]].
  - exists []. split; [reflexivity|constructor].
  - destruct (desc_node sc a) as [l [H1 H2]]. exists (l :: ls). split.
    + cbn [map]. rewrite mapM_cons, H1. cbn [bind]. rewrite I1. reflexivity.
    + constructor; auto.
Qed.

Lemma lowest_common_known sc ns : ns <> [] ->
  exists m, lowest_common sc (map nd ns) = Ok (nd m) /\
    (forall a, In a ns -> nle a m = true) /\
    (forall c, (forall a, In a ns -> nle a c = true) -> nle m c = true).
Proof.
  intro Hne. destruct (toposorted_ok sc) as [L [HL T]]. unfold lowest_common. rewrite HL. cbn [bind].
  destruct (mapM_desc sc ns) as [ls [H1 H2]]. rewrite H1. cbn [bind].
  destruct H2 as [|a0 l0 ns ls H0 H2]; [congruence|]. cbn [map].
  unfold intersection.
  rewrite (filter_nd (fun b => forallb (memb node_eqb b) ls)).
  2:{ intro b. clear. induction ls as [|l ls IH]; simpl; [reflexivity|].
      rewrite IH. f_equal. apply (memb_map py_eq node_eqb nd nd_eqb). }
  remember (filter (fun b => forallb (memb node_eqb b) ls) l0) as c eqn:Ec.
  assert (Hc : forall b, In b c <-> forall a, In a (a0 :: ns) -> nle a b = true).
  { intro b. subst c. rewrite filter_In, H0, forallb_forall. split.
    - intros [Ha Hl] a [<-|Hin]; [auto|]. clear -H2 Hl Hin.
      induction H2 as [|a' l' ns ls Hh H2 IH]; [destruct Hin|].
      destruct Hin as [<-|Hin].
      + apply Hh. apply (memb_In node_eqb node_eqb_spec). apply Hl. now left.
      + apply IH; auto. intros x Hx. apply Hl. now right.
    - intro H. split; [apply H; now left|]. intros l Hl. apply (memb_In node_eqb node_eqb_spec).
      clear -H2 Hl H. induction H2 as [|a' l' ns ls Hh H2 IH]; [destruct Hl|].
      destruct Hl as [<-|Hl].
      + apply Hh. apply H. right; now left.
      + apply IH; auto. intros a [<-|Ha]; apply H; simpl; auto. }
  assert (HnL : forall b, In b L) by (intro b; apply (proj1 (proj2 T)), all_Node).
  assert (Hs : In nString c) by (apply Hc; intros; apply nle_string).
  assert (Hcne : c <> []) by (intro E; rewrite E in Hs; destruct Hs).
  replace (match map nd c with [] => Raise ValueErr
     | _ => if existsb (fun c0 => memb py_eq c0 (map nd L)) (map nd c) then min_index (map nd L) (map nd c) else Raise ValueErr end)
    with (min_index (map nd L) (map nd c)).
  2:{ destruct c as [|x c]; [congruence|]. cbn [map existsb].
      rewrite (memb_map py_eq node_eqb nd nd_eqb).
      rewrite (proj2 (memb_In node_eqb node_eqb_spec x L) (HnL x)). reflexivity. }
  destruct (min_index_nd L c Hcne (fun u _ => HnL u)) as [m [km [M1 [M2 [M3 M4]]]]].
  exists m. split; [exact M1|]. split.
  - apply Hc. exact M2.
  - intros u Hu. apply Hc in Hu.
    destruct (nle_chain a0 m u) as [H|H]; auto.
    + apply (proj1 (Hc m) M2). now left.
    + apply (proj1 (Hc u) Hu). now left.
    + destruct (node_eqb u m) eqn:E.
      * apply node_eqb_spec in E; subst. exact H.
      * exfalso. assert (B : Before u m L).
        { eapply nle_Before; eauto. intro; subst. rewrite (proj2 (node_eqb_spec m m) eq_refl) in E. discriminate. }
        destruct (nindex_In L u (HnL u)) as [ku Ku]. specialize (M4 u ku Hu Ku).
        pose proof (Before_index L u m ku km (proj1 T) B Ku M3). lia.
Qed.

Theorem lowest_common_lub sc ts : ts <> [] -> Forall Known ts ->
  exists u, lowest_common sc ts = Ok u /\ Known u /\ IsLub ts u.
Proof.
  intros Hne HK. assert (E : exists ns, ts = map nd ns).
  { clear Hne. induction HK as [|t ts K _ [ns IH]]; [exists []; reflexivity|].
    apply Known_nd in K as [a ->]. exists (a :: ns). now rewrite IH. }
  destruct E as [ns ->]. destruct (lowest_common_known sc ns) as [m [H1 [H2 H3]]].
  { intro; subst; apply Hne; reflexivity. }
  exists (nd m). split; [exact H1|]. split; [apply Known_nd; eauto|]. split.
  - intros t Ht. apply in_map_iff in Ht as [a [<- Ha]]. apply Coerces_nle. auto.
  - intros v Hv. destruct ns as [|a ns]; [exfalso; apply Hne; reflexivity|].
    assert (Hn : exists c, v = nd c).
    { specialize (Hv (nd a) (or_introl eq_refl)).
      assert (G : forall x y, Coerces x y -> (exists a, x = nd a) -> exists b, y = nd b).
      { clear. intros x y H. induction H as [x y S|x|x y z _ I1 _ I2]; auto.
        destruct (CoerceStep_nodes _ _ S) as [a' [b [_ E2]]]. eauto. }
      eapply G; eauto. }
    destruct Hn as [c ->]. apply Coerces_nle, H3. intros b Hb. apply Coerces_nle, Hv.
    now apply in_map.
Qed.
Lemma IsLub_unique ts u v : ts <> [] -> Forall Known ts -> IsLub ts u -> IsLub ts v -> u = v.
Proof.
  intros Hne HK [U1 U2] [V1 V2]. destruct ts as [|t ts]; [congruence|].
  inversion HK as [|? ? K _]; subst. apply Known_nd in K as [a ->].
  assert (G : forall x y, Coerces x y -> (exists a, x = nd a) -> exists b, y = nd b).
  { clear. intros x y H. induction H as [x y S|x|x y z _ I1 _ I2]; auto.
    destruct (CoerceStep_nodes _ _ S) as [a' [b [_ E2]]]. eauto. }
  destruct (G _ _ (U1 _ (or_introl eq_refl))) as [b ->]; [eauto|].
  destruct (G _ _ (V1 _ (or_introl eq_refl))) as [c ->]; [eauto|].
  f_equal. apply nle_antisym; apply Coerces_nle; auto.
Qed.

Lemma Scalar_is_Unit t : Scalar t <-> is_Unit t = true.
Proof. split; [intro H; destruct H; reflexivity|destruct t; try discriminate; intros _; constructor]. Qed.
Lemma Known_dec t : Known t \/ ~ Known t.
Proof.
  assert (D : forall a, t = nd a \/ t <> nd a).
  { intro a. destruct (is_Unit t) eqn:U.
    - destruct (py_eq t (nd a)) eqn:E; [left; now apply unit_eq_l|].
      right. intros ->. rewrite nd_eqb, (proj2 (node_eqb_spec a a) eq_refl) in E. discriminate.
    - right. intros ->. destruct a; discriminate. }
  destruct (D nInt32); [left; apply Known_nd; eauto|]. destruct (D nInt64); [left; apply Known_nd; eauto|].
  destruct (D nReal); [left; apply Known_nd; eauto|]. destruct (D nDate); [left; apply Known_nd; eauto|].
  destruct (D nDateTime); [left; apply Known_nd; eauto|]. destruct (D nDelta); [left; apply Known_nd; eauto|].
  destruct (D nBool); [left; apply Known_nd; eauto|]. destruct (D nNull); [left; apply Known_nd; eauto|].
  destruct (D nString); [left; apply Known_nd; eauto|].
  right. intro HK. apply Known_nd in HK as [a E]. destruct a; contradiction.
Qed.

Lemma desc_scalar sc t : is_Unit t = true -> exists l,
  descendents py_eq (coerce_dict sc) t = Ok l /\
  ((Known t /\ exists ns, l = map nd ns) \/ (~ Known t /\ l = [t])).
Proof.
  intro U. destruct (Known_dec t) as [K|K].
  - pose proof K as K0. apply Known_nd in K as [a ->]. destruct (desc_node sc a) as [l [H _]]. exists (map nd l). split; eauto.
  - exists [t]. split; [now apply desc_unknown|auto].
Qed.
Theorem lowest_common_empty sc : lowest_common sc [] = Raise TypeErr.
Proof. destruct (toposorted_ok sc) as [L [HL T]]. unfold lowest_common. rewrite HL. reflexivity. Qed.
Theorem lowest_common_unknown sc ts : Forall Scalar ts -> ~ Forall Known ts ->
  lowest_common sc ts = Raise ValueErr.
Proof.
  intros HS HK. destruct (toposorted_ok sc) as [L [HL T]]. unfold lowest_common. rewrite HL. cbn [bind].
  assert (M : exists ls, mapM (descendents py_eq (coerce_dict sc)) ts = Ok ls /\
            Forall2 (fun t l => is_Unit t = true /\ ((Known t /\ exists ns, l = map nd ns) \/ (~ Known t /\ l = [t]))) ts ls).
  { clear HK. induction HS as [|t ts S _ [ls [I1 I2]]]; [exists []; split; [reflexivity|constructor]|].
    apply Scalar_is_Unit in S. destruct (desc_scalar sc t S) as [l [H1 H2]]. exists (l :: ls). split.
    - rewrite mapM_cons, H1. cbn [bind]. rewrite I1. reflexivity.
    - constructor; auto. }
  destruct M as [ls [M1 M2]]. rewrite M1. cbn [bind]. clear M1 HS.
  assert (UK : forall t, is_Unit t = true -> ~ Known t -> forall a, py_eq (nd a) t = false).
  { intros t U K a. destruct (py_eq (nd a) t) eqn:E; [|reflexivity]. apply unit_eq_r in E; [|exact U].
    exfalso; apply K, Known_nd; eauto. }
  assert (NT : forall t, is_Unit t = true -> ~ Known t -> memb py_eq t (map nd L) = false).
  { intros t U K. clear -U K. induction L as [|a l IH]; simpl; [reflexivity|].
    destruct (py_eq t (nd a)) eqn:E; [|exact IH]. apply unit_eq_l in E; [|exact U].
    exfalso; apply K, Known_nd; eauto. }
  destruct M2 as [|t l ts ls [U [[K [ns ->]]|[K ->]]] M2].
  - exfalso; apply HK; constructor.
  - assert (HK' : ~ Forall Known ts) by (intro; apply HK; constructor; auto). clear HK.
    assert (E : intersection (map nd ns) ls = []).
    { unfold intersection. rewrite (filter_nd (fun _ => false)); [induction ns; auto|].
      intro b. clear -M2 HK' UK. induction M2 as [|t l ts ls [U H] M2 IH]; [exfalso; apply HK'; constructor|].
      simpl. destruct H as [[K [ns ->]]|[K ->]].
      - rewrite IH by (intro; apply HK'; constructor; auto). apply andb_false_r.
      - simpl. rewrite (UK t U K b). reflexivity. }
    rewrite E. reflexivity.
  - unfold intersection. cbn [filter]. destruct (forallb (memb py_eq t) ls); [|reflexivity].
    cbn [existsb]. rewrite (NT t U K). reflexivity.
Qed.
