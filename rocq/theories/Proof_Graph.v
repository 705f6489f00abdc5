(** Correctness of Graph.v. *)
From Verif Require Import Base Graph Spec_Graph.
From Coq Require Import Relations Permutation.
Local Open Scope nat_scope.

Section Proofs.
  Context {A : Type}.
  Variable eqb : A -> A -> bool.
  Hypothesis eqb_spec : forall a b, eqb a b = true <-> a = b.

  Lemma eqb_refl a : eqb a a = true.
  Proof. now apply eqb_spec. Qed.
  Lemma eqb_neq a b : eqb a b = false <-> a <> b.
  Proof. rewrite <- eqb_spec. destruct (eqb a b); split; congruence. Qed.
  Lemma A_dec (a b : A) : {a = b} + {a <> b}.
  Proof. destruct (eqb a b) eqn:E; [left; now apply eqb_spec|right; now apply eqb_neq]. Qed.

  Lemma memb_In x l : memb eqb x l = true <-> In x l.
  Proof.
    induction l as [|y l IH]; simpl; [split; [discriminate|tauto]|].
    rewrite orb_true_iff, IH, eqb_spec. split; intros [H|H]; auto.
  Qed.
  Lemma memb_nIn x l : memb eqb x l = false <-> ~ In x l.
  Proof. rewrite <- memb_In. destruct (memb eqb x l); split; congruence. Qed.

  Lemma dget_Some {B} (d : list (A * B)) x v : dget eqb d x = Some v -> In (x, v) d.
  Proof.
    induction d as [|[k w] d IH]; simpl; [discriminate|].
    destruct (eqb x k) eqn:E; intro H.
    - apply eqb_spec in E. inversion H; subst. now left.
    - right; auto.
  Qed.
  Lemma dget_None {B} (d : list (A * B)) x : dget eqb d x = None <-> ~ In x (map fst d).
  Proof.
    induction d as [|[k w] d IH]; simpl; [tauto|].
    destruct (eqb x k) eqn:E.
    - apply eqb_spec in E; subst. split; [discriminate|intro H; exfalso; apply H; now left].
    - apply eqb_neq in E. rewrite IH. split; intros H; [intros [H1|H1]; [congruence|tauto]|tauto].
  Qed.
  Lemma dget_In {B} (d : list (A * B)) x v :
    NoDup (map fst d) -> (dget eqb d x = Some v <-> In (x, v) d).
  Proof.
    intro N; split; [apply dget_Some|]. induction d as [|[k w] d IH]; simpl; [tauto|].
    simpl in N; inversion N as [|? ? N1 N2]; subst. intros [H|H].
    - inversion H; subst. now rewrite eqb_refl.
    - destruct (eqb x k) eqn:E; [|auto]. apply eqb_spec in E; subst.
      exfalso; apply N1. change k with (fst (k, v)). now apply in_map.
  Qed.
  Lemma dget_dset {B} (d : list (A * B)) x v y :
    dget eqb (dset eqb d x v) y = if eqb y x then Some v else dget eqb d y.
  Proof.
    induction d as [|[k w] d IH]; simpl.
    - reflexivity.
    - destruct (eqb x k) eqn:E; simpl.
      + apply eqb_spec in E; subst. destruct (eqb y k) eqn:E2; [reflexivity|reflexivity].
      + rewrite IH. destruct (eqb y k) eqn:E2; [|reflexivity].
        apply eqb_spec in E2; subst. apply eqb_neq in E.
        destruct (eqb k x) eqn:E3; [apply eqb_spec in E3; congruence|reflexivity].
  Qed.

  Lemma sadd_In x y s : In y (sadd eqb x s) <-> y = x \/ In y s.
  Proof.
    unfold sadd. destruct (memb eqb x s) eqn:E.
    - apply memb_In in E. split; [auto|intros [->|]; auto].
    - rewrite in_app_iff. simpl. split; [intros [H|[H|[]]]; auto|intros [->|H]; auto].
  Qed.
  Lemma sadd_NoDup x s : NoDup s -> NoDup (sadd eqb x s).
  Proof.
    unfold sadd. destruct (memb eqb x s) eqn:E; [auto|]. apply memb_nIn in E. intro N.
    apply NoDup_rev in N. rewrite <- (rev_involutive (s ++ [x])), rev_app_distr. apply NoDup_rev.
    simpl. constructor; [now rewrite <- in_rev|auto].
  Qed.
  Lemma sremove_In x y s : In y (sremove eqb x s) <-> In y s /\ y <> x.
  Proof.
    unfold sremove. rewrite filter_In, negb_true_iff, eqb_neq. split; intros [? ?]; split; auto.
  Qed.
  Lemma mkset_acc l s : forall x, In x (fold_left (fun s x => sadd eqb x s) l s) <-> In x l \/ In x s.
  Proof.
    revert s; induction l as [|y l IH]; intros s x; simpl; [tauto|].
    rewrite IH, sadd_In. split; intuition congruence.
  Qed.
  Lemma mkset_In l x : In x (mkset eqb l) <-> In x l.
  Proof. unfold mkset. rewrite mkset_acc. simpl. tauto. Qed.
  Lemma mkset_NoDup l : NoDup (mkset eqb l).
  Proof.
    unfold mkset. assert (H : NoDup (@nil A)) by constructor. revert H. generalize (@nil A).
    induction l as [|y l IH]; intros s H; simpl; [auto|]. apply IH. now apply sadd_NoDup.
  Qed.

  Lemma edge_list_In (g : list (A * list A)) a b : In (a, b) (edge_list g) <-> Edge g a b.
  Proof.
    unfold edge_list, Edge. rewrite in_flat_map. split.
    - intros [[k l] [H1 H2]]. apply in_map_iff in H2 as [m [H2 H3]]. inversion H2; subst.
      exists l; auto.
    - intros [l [H1 H2]]. exists (a, l). split; auto. apply in_map_iff. exists b; auto.
  Qed.
  Lemma Edge_key (g : list (A * list A)) a b : Edge g a b -> In a (map fst g).
  Proof. intros [l [H _]]. change a with (fst (a, l)). now apply in_map. Qed.

  (** reverse_dict *)
  Lemma rev_step_spec es r :
    (forall b, match dget eqb (fold_left (rev_step eqb) es r) b with
               | Some l => (forall a, In a l <-> In (a, b) es \/ exists l0, dget eqb r b = Some l0 /\ In a l0)
               | None => (forall a, ~ In (a, b) es) /\ dget eqb r b = None
               end)
    /\ (forall b l, dget eqb (fold_left (rev_step eqb) es r) b = Some l ->
          (exists l0, dget eqb r b = Some l0) \/ exists a, In (a, b) es).
  Proof.
    revert r. induction es as [|[k v] es IH]; intro r; simpl.
    - split; [|eauto]. intro b. destruct (dget eqb r b) eqn:E; [|tauto].
      intro a. split; [intro; right; eauto|]. intros [[]|[l0 [H1 H2]]]. inversion H1; now subst.
    - destruct (IH (dset eqb r v ((match dget eqb r v with Some t => t | None => [] end) ++ [k]))) as [I1 I2].
      clear IH. split.
      + intro b. specialize (I1 b).
        destruct (dget eqb (fold_left (rev_step eqb) es (dset eqb r v ((match dget eqb r v with Some t => t | None => [] end) ++ [k]))) b) eqn:E.
        * intro a. rewrite I1, dget_dset. destruct (eqb b v) eqn:Eb.
          -- apply eqb_spec in Eb; subst. split.
             ++ intros [H|[l0 [H1 H2]]]; [left; auto|]. inversion H1; subst.
                apply in_app_or in H2 as [H2|[H2|[]]].
                ** destruct (dget eqb r v) eqn:Er; [right; eauto|destruct H2].
                ** subst; left; left; reflexivity.
             ++ intros [[H|H]|[l0 [H1 H2]]].
                ** inversion H; subst. right. eexists; split; [reflexivity|]. apply in_or_app; right; now left.
                ** now left.
                ** right. eexists; split; [reflexivity|]. rewrite H1. apply in_or_app; now left.
          -- apply eqb_neq in Eb. split.
             ++ intros [H|H]; auto.
             ++ intros [[H|H]|H]; auto. inversion H; congruence.
        * destruct I1 as [I1 I3]. rewrite dget_dset in I3. destruct (eqb b v) eqn:Eb; [discriminate|].
          apply eqb_neq in Eb. split; [|auto]. intros a [H|H]; [inversion H; congruence|now apply (I1 a)].
      + intros b l H. destruct (I2 b l H) as [[l0 H0]|[a H0]].
        * rewrite dget_dset in H0. destruct (eqb b v) eqn:Eb; [|left; eauto].
          apply eqb_spec in Eb; subst. right. exists k. now left.
        * right. exists a. now right.
  Qed.
  Lemma dget_map {B C} (f : B -> C) (d : list (A * B)) x :
    dget eqb (map (fun kv => (fst kv, f (snd kv))) d) x = option_map f (dget eqb d x).
  Proof.
    induction d as [|[k w] d IH]; simpl; [reflexivity|]. destruct (eqb x k); [reflexivity|auto].
  Qed.

  Definition inc0 (g : list (A * list A)) := map (fun kv => (fst kv, mkset eqb (snd kv))) (reverse_dict eqb g).
  Lemma inc0_spec g b :
    match dget eqb (inc0 g) b with
    | Some l => (forall a, In a l <-> Edge g a b) /\ exists a, Edge g a b
    | None => forall a, ~ Edge g a b
    end.
  Proof.
    unfold inc0, reverse_dict. rewrite dget_map.
    destruct (rev_step_spec (edge_list g) []) as [H1 H2].
    specialize (H1 b). specialize (H2 b).
    destruct (dget eqb (fold_left (rev_step eqb) (edge_list g) []) b) eqn:E; simpl.
    - split.
      + intro a. rewrite mkset_In, H1, edge_list_In. simpl. split; [|auto].
        intros [H|[l0 [H _]]]; [auto|discriminate].
      + destruct (H2 _ eq_refl) as [[l0 H]|[a H]]; [discriminate|]. exists a. now apply edge_list_In.
    - intros a Ha. apply edge_list_In in Ha. now apply (proj1 H1 a).
  Qed.

  (** ** Kahn's algorithm *)
  Section Kahn.
    Variable g : list (A * list A).
    Hypothesis WFg : DictOfSets g.

    (** [R p m]: the edge p -> m has been removed *)
    Record KInv (R : A -> A -> Prop) (out s : list A) (inc : list (A * list A)) : Prop := {
      k_nodup : NoDup (out ++ s);
      k_node : forall x, In x (out ++ s) -> Node g x;
      k_inc : forall m, match dget eqb inc m with
                        | Some l => forall p, In p l <-> Edge g p m /\ ~ R p m
                        | None => forall p, ~ Edge g p m
                        end;
      k_ready : forall x p, In x (out ++ s) -> Edge g p x -> R p x;
      k_complete : forall x, Node g x -> (forall p, Edge g p x -> R p x) -> In x (out ++ s)
    }.

    Lemma KInv_ext R R' out s inc :
      (forall p m, Edge g p m -> (R p m <-> R' p m)) -> KInv R out s inc -> KInv R' out s inc.
    Proof.
      intros H [K1 K2 K3 K4 K5]; constructor; auto.
      - intro m. specialize (K3 m). destruct (dget eqb inc m); [|auto].
        intro p. rewrite K3. split; intros [E N]; split; auto; rewrite ?H in *; auto; now rewrite <- (H p m E).
      - intros x p Hx E. apply H; auto.
      - intros x Hx Hp. apply K5; auto. intros p E. apply H; auto.
    Qed.

    Lemma relax_ok n : forall ms R out s inc,
      NoDup ms -> (forall m, In m ms -> Edge g n m /\ ~ R n m) ->
      (forall p m, R p m \/ ~ R p m) ->
      KInv R out s inc ->
      exists inc' s', relax eqb n ms inc s = Ok (inc', s') /\
        KInv (fun p m => R p m \/ (p = n /\ In m ms)) out s' inc'.
    Proof.
      induction ms as [|m ms IH]; intros R out s inc ND HE DR K.
      - exists inc, s. split; [reflexivity|]. revert K. apply KInv_ext. simpl. tauto.
      - simpl. pose proof (k_inc _ _ _ _ K m) as Km.
        destruct (HE m (or_introl eq_refl)) as [Enm Rnm].
        destruct (dget eqb inc m) as [l|] eqn:El; [|exfalso; now apply (Km n)].
        assert (Hn : In n l) by (apply Km; auto).
        assert (Hnm := proj2 (memb_In n l) Hn). rewrite Hnm.
        inversion ND as [|? ? ND1 ND2]; subst.
        assert (Hm : ~ In m (out ++ s)) by (intro Hm; apply Rnm; eapply k_ready; eauto).
        pose (R' := fun p x => R p x \/ (p = n /\ x = m)).
        assert (DR' : forall p x, R' p x \/ ~ R' p x).
        { intros p x. unfold R'. destruct (DR p x); [tauto|].
          destruct (A_dec p n); [|tauto]. destruct (A_dec x m); tauto. }
        assert (Hl : forall p, In p (sremove eqb n l) <-> Edge g p m /\ ~ R' p m).
        { intro p. rewrite sremove_In, Km. unfold R'. intuition congruence. }
        assert (Ks : forall s', (forall x, In x s' <-> In x s \/ (x = m /\ sremove eqb n l = [])) ->
                  NoDup (out ++ s') ->
                  KInv R' out s' (dset eqb inc m (sremove eqb n l))).
        { intros s' Hs' Nd. constructor; auto.
          - intros x Hx. rewrite in_app_iff, Hs' in Hx. destruct Hx as [Hx|[Hx|[-> _]]].
            + apply (k_node _ _ _ _ K). apply in_or_app; auto.
            + apply (k_node _ _ _ _ K). apply in_or_app; auto.
            + right. eauto.
          - intro x. rewrite dget_dset. destruct (eqb x m) eqn:Ex.
            + apply eqb_spec in Ex; subst. exact Hl.
            + apply eqb_neq in Ex. pose proof (k_inc _ _ _ _ K x) as Kx.
              destruct (dget eqb inc x); [|auto]. intro p. rewrite Kx. unfold R'. intuition congruence.
          - intros x p Hx E. unfold R'. rewrite in_app_iff, Hs' in Hx.
            destruct Hx as [Hx|[Hx|[-> Hx]]].
            + left. eapply k_ready; eauto. apply in_or_app; auto.
            + left. eapply k_ready; eauto. apply in_or_app; auto.
            + destruct (DR' p m) as [?|Hn']; [assumption|exfalso].
              assert (In p (sremove eqb n l)) by (apply Hl; auto). rewrite Hx in H. destruct H.
          - intros x Nx Hp. rewrite in_app_iff, Hs'. destruct (A_dec x m) as [->|Hxm].
            + right. right. split; [reflexivity|]. destruct (sremove eqb n l) as [|p q] eqn:Er; [reflexivity|].
              exfalso. assert (Hp' : In p (p :: q)) by now left. apply Hl in Hp' as [E Nr].
              apply Nr. now apply Hp.
            + assert (Hx : In x (out ++ s)).
              { apply (k_complete _ _ _ _ K); auto. intros p E. destruct (Hp p E) as [?|[_ ?]]; [auto|congruence]. }
              apply in_app_or in Hx as [?|?]; auto. }
        assert (Ks' : KInv R' out (match sremove eqb n l with [] => sadd eqb m s | _ => s end)
                           (dset eqb inc m (sremove eqb n l))).
        { destruct (sremove eqb n l) as [|p q] eqn:Er.
          - apply Ks.
            + intro x. rewrite sadd_In. intuition.
            + unfold sadd. destruct (memb eqb m s) eqn:Em; [apply (k_nodup _ _ _ _ K)|].
              rewrite app_assoc. apply Permutation_NoDup with (l := m :: (out ++ s)).
              * apply Permutation_cons_append.
              * constructor; [auto|apply (k_nodup _ _ _ _ K)].
          - apply Ks; [|apply (k_nodup _ _ _ _ K)]. intro x. intuition discriminate. }
        assert (HE' : forall x, In x ms -> Edge g n x /\ ~ R' n x).
        { intros x Hx. destruct (HE x (or_intror Hx)) as [E N]. split; [auto|].
          unfold R'. intros [?|[_ ->]]; [auto|contradiction]. }
        destruct (IH R' out _ _ ND2 HE' DR' Ks') as [inc' [s' [H1 H2]]].
        exists inc', s'. split; [exact H1|]. revert H2. apply KInv_ext.
        intros p x E. unfold R'. simpl. intuition congruence.
    Qed.

    Lemma pop_at_spec i (s : list A) : s <> [] ->
      exists x s1 s2, pop_at i s = Some (x, s1 ++ s2) /\ s = s1 ++ x :: s2.
    Proof.
      intro Hs. unfold pop_at. assert (L : i mod length s < length s).
      { apply Nat.mod_upper_bound. destruct s; [congruence|discriminate]. }
      remember (i mod length s) as j. clear Heqj.
      destruct (nth_error s j) as [x|] eqn:E; [|apply nth_error_None in E; lia].
      exists x, (firstn j s), (skipn (S j) s). split; [reflexivity|].
      rewrite <- (firstn_skipn j s) at 1. f_equal.
      clear Hs L. revert j E. induction s as [|y s IH]; intros [|j] E; simpl in *; try discriminate.
      - now inversion E.
      - auto.
    Qed.

    Definition ordered (l : list A) : Prop :=
      forall l1 x l2, l = l1 ++ x :: l2 -> forall p, Edge g p x -> In p l1.

    Definition node_list := map fst g ++ map snd (edge_list g).
    Lemma node_list_In x : In x node_list <-> Node g x.
    Proof.
      unfold node_list, Node. rewrite in_app_iff. split; (intros [H|H]; [left; exact H|right]).
      - apply in_map_iff in H as [[a b] [H1 H2]]. simpl in H1; subst. exists a. now apply edge_list_In.
      - destruct H as [b H]. apply edge_list_In in H. change x with (snd (b, x)). now apply in_map.
    Qed.
    Lemma node_list_length : length node_list = length g + length (edge_list g).
    Proof. unfold node_list. now rewrite app_length, !map_length. Qed.

    Lemma kahn_ok sch : forall fuel l s inc,
      KInv (fun p _ => In p l) l s inc -> ordered l ->
      length g + length (edge_list g) < fuel + length l ->
      exists l' inc', kahn eqb sch g fuel l s inc = Ok (l', inc') /\
        KInv (fun p _ => In p l') l' [] inc' /\ ordered l'.
    Proof.
      induction fuel as [|fuel IH]; intros l s inc K O F.
      - exfalso. assert (length (l ++ s) <= length node_list).
        { apply NoDup_incl_length; [apply (k_nodup _ _ _ _ K)|].
          intros x Hx. apply node_list_In. now apply (k_node _ _ _ _ K). }
        rewrite node_list_length, app_length in H. lia.
      - destruct s as [|x0 s0].
        { exists l, inc. simpl. auto. }
        remember (x0 :: s0) as s eqn:Es.
        destruct (pop_at_spec (sch (length l)) s) as [n [s1 [s2 [P1 P2]]]]; [subst; discriminate|].
        assert (HK : kahn eqb sch g (S fuel) l s inc =
                 let! (inc', s'') := relax eqb n (match dget eqb g n with Some ms => ms | None => [] end) inc (s1 ++ s2) in
                 kahn eqb sch g fuel (l ++ [n]) s'' inc').
        { subst s. simpl. simpl in P1. rewrite P1. reflexivity. }
        rewrite HK; clear HK.
        assert (Hin : In n (l ++ s)) by (rewrite P2; rewrite !in_app_iff; simpl; auto).
        assert (Hnl : ~ In n l).
        { pose proof (k_nodup _ _ _ _ K) as N. rewrite P2 in N. intro H.
          rewrite app_assoc in N. apply NoDup_remove_2 in N. apply N. rewrite !in_app_iff. auto. }
        assert (Perm : Permutation (l ++ s) ((l ++ [n]) ++ s1 ++ s2)).
        { rewrite P2. rewrite <- app_assoc. apply Permutation_app_head. simpl.
          apply Permutation_sym, Permutation_middle. }
        assert (K' : KInv (fun p _ => In p l) (l ++ [n]) (s1 ++ s2) inc).
        { destruct K as [K1 K2 K3 K4 K5]. constructor; auto.
          - eapply Permutation_NoDup; eauto.
          - intros x Hx. apply K2. eapply Permutation_in; [apply Permutation_sym; eassumption|auto].
          - intros x p Hx. apply K4. eapply Permutation_in; [apply Permutation_sym; eassumption|auto].
          - intros x H1 H2. eapply Permutation_in; [eassumption|]. apply K5; auto. }
        assert (O' : ordered (l ++ [n])).
        { intros l1 x l2 E p Ep. destruct l2 as [|y l2] using rev_ind.
          - apply app_inj_tail in E as [<- <-]. apply (k_ready _ _ _ _ K n p Hin Ep).
          - rewrite app_comm_cons, app_assoc in E. apply app_inj_tail in E as [E _].
            eapply O; eauto. }
        destruct (relax_ok n (match dget eqb g n with Some ms => ms | None => [] end)
                    (fun p _ => In p l) (l ++ [n]) (s1 ++ s2) inc) as [inc' [s' [R1 R2]]]; auto.
        { destruct (dget eqb g n) as [ms|] eqn:Eg; [|constructor]. apply dget_Some in Eg.
          destruct WFg as [_ W]. rewrite Forall_forall in W. apply (W _ Eg). }
        { intros m Hm. split; [|exact Hnl]. destruct (dget eqb g n) as [ms|] eqn:Eg; [|destruct Hm].
          apply dget_Some in Eg. exists ms; auto. }
        { intros p _. destruct (in_dec A_dec p l); auto. }
        rewrite R1. simpl.
        destruct (IH (l ++ [n]) s' inc') as [l' [inc'' [G1 G2]]]; auto.
        + revert R2. apply KInv_ext. intros p m E. rewrite in_app_iff. simpl.
          split; [intros [?|[-> _]]; auto|]. intros [?|[<-|[]]]; [auto|]. right. split; [reflexivity|].
          destruct E as [ms [E1 E2]]. apply dget_In in E1; [|apply WFg]. now rewrite E1.
        + rewrite app_length. simpl. lia.
        + exists l', inc''. auto.
    Qed.

    Lemma kahn_init sch : exists l' inc',
      kahn eqb sch g (S (length g + length (edge_list g))) []
        (filter (fun v => match dget eqb (inc0 g) v with None => true | Some _ => false end) (map fst g))
        (inc0 g) = Ok (l', inc') /\ KInv (fun p _ => In p l') l' [] inc' /\ ordered l'.
    Proof.
      apply kahn_ok.
      - constructor; simpl.
        + apply NoDup_filter. apply WFg.
        + intros x Hx. apply filter_In in Hx as [Hx _]. now left.
        + intro m. pose proof (inc0_spec g m) as H. destruct (dget eqb (inc0 g) m); [|auto].
          destruct H as [H _]. intro p. rewrite H. tauto.
        + intros x p Hx E. apply filter_In in Hx as [_ Hx]. pose proof (inc0_spec g x) as H.
          destruct (dget eqb (inc0 g) x); [discriminate|]. now apply (H p).
        + intros x Nx Hp. apply filter_In. split.
          * destruct Nx as [?|[b E]]; [auto|]. destruct (Hp b E).
          * pose proof (inc0_spec g x) as H. destruct (dget eqb (inc0 g) x); [|auto].
            destruct H as [_ [a E]]. destruct (Hp a E).
      - intros l1 x l2 E. destruct l1; discriminate.
      - simpl. lia.
    Qed.

    (** walking backwards in a finite set without source finds a cycle *)
    Lemma walk_cycle (f : A -> A) (U : list A) :
      (forall x, In x U -> In (f x) U /\ Edge g (f x) x) -> forall x, In x U -> Cyclic g.
    Proof.
      intros H x Hx.
      pose (w := fix w n := match n with 0 => x | S k => f (w k) end).
      assert (W : forall n, In (w n) U) by (induction n; simpl; [auto|now apply H]).
      assert (T : forall i k, clos_trans A (Edge g) (w (S k + i)) (w i)).
      { intros i k. induction k as [|k IH]; simpl.
        - constructor. apply H, W.
        - eapply t_trans; [|exact IH]. constructor. apply (H (w (S k + i))), W. }
      assert (P : ~ NoDup (map w (seq 0 (S (length U))))).
      { intro N. apply (NoDup_incl_length (l' := U)) in N.
        - rewrite map_length, seq_length in N. lia.
        - intros y Hy. apply in_map_iff in Hy as [n [<- _]]. apply W. }
      remember (S (length U)) as m eqn:Em. clear Em.
      assert (D : exists i j, i < j /\ w i = w j).
      { clear -P eqb_spec. induction m as [|m IH]; [exfalso; apply P; constructor|].
        rewrite seq_S, map_app in P. simpl in P.
        destruct (in_dec A_dec (w m) (map w (seq 0 m))) as [I|N].
        - apply in_map_iff in I as [i [I1 I2]]. apply in_seq in I2. exists i, m. split; [lia|auto].
        - apply IH. intro N2. apply P. apply Permutation_NoDup with (l := w m :: map w (seq 0 m)).
          + apply Permutation_cons_append.
          + constructor; auto. }
      destruct D as [i [j [L E]]]. exists (w i). specialize (T i (j - i - 1)).
      replace (S (j - i - 1) + i) with j in T by lia. rewrite <- E in T. exact T.
    Qed.

    Lemma ordered_Before l a b : NoDup l -> ordered l -> Edge g a b -> In b l -> Before a b l.
    Proof.
      intros N O E Hb. apply in_split in Hb as [l1 [l3 ->]].
      assert (In a l1) by (eapply O; eauto). apply in_split in H as [l0 [l2 ->]].
      exists l0, l2, l3. now rewrite <- app_assoc.
    Qed.
    Lemma Before_trans (l : list A) a b c : NoDup l -> Before a b l -> Before b c l -> Before a c l.
    Proof.
      intros N [l1 [l2 [l3 E1]]] [m1 [m2 [m3 E2]]].
      assert (E3 : (l1 ++ a :: l2) ++ b :: l3 = m1 ++ b :: m2 ++ c :: m3).
      { rewrite <- app_assoc. simpl. now rewrite <- E1, <- E2. }
      assert (Nb : NoDup ((l1 ++ a :: l2) ++ b :: l3)) by (rewrite <- app_assoc; simpl; now rewrite <- E1).
      assert (m1 = l1 ++ a :: l2).
      { clear -E3 Nb. revert m1 E3 Nb. generalize (l1 ++ a :: l2) as u.
        induction u as [|y u IH]; intros [|z m1] E Nb; simpl in *; auto.
        - inversion E; subst. inversion Nb as [|? ? N1 N2]; subst. exfalso. apply N1.
          apply in_or_app; right; now left.
        - inversion E; subst. inversion Nb as [|? ? N1 N2]; subst. exfalso. apply N1.
          apply in_or_app; right; now left.
        - inversion E; subst. inversion Nb; subst. f_equal. auto. }
      subst m1. exists l1, (l2 ++ b :: m2), m3. rewrite E2, <- !app_assoc. simpl. now rewrite <- ?app_assoc.
    Qed.
    Lemma Before_irrefl (l : list A) a : NoDup l -> ~ Before a a l.
    Proof.
      intros N [l1 [l2 [l3 E]]]. subst. apply NoDup_remove_2 in N. apply N.
      rewrite !in_app_iff. right; right; now left.
    Qed.
    Lemma TopologicalOrder_acyclic l : TopologicalOrder g l -> ~ Cyclic g.
    Proof.
      intros [N [_ H]] [a T].
      assert (T' : forall x y, clos_trans A (Edge g) x y -> Before x y l).
      { intros x y Txy. induction Txy as [x y E|x y z _ I1 _ I2]; [now apply H|].
        exact (Before_trans l x y z N I1 I2). }
      exact (Before_irrefl l a N (T' a a T)).
    Qed.

    Theorem toposort_correct sch :
      (exists l, toposort eqb sch g = Ok l /\ TopologicalOrder g l /\ ~ Cyclic g)
      \/ (toposort eqb sch g = Raise ValueErr /\ Cyclic g).
    Proof.
      unfold toposort. fold (inc0 g).
      destruct (kahn_init sch) as [l [inc [K1 [K2 K3]]]].
      rewrite K1. cbn [bind].
      destruct (existsb (fun v => match dget eqb inc v with Some (_ :: _) => true | _ => false end) (map fst g)) eqn:Ex.
      - right. split; [reflexivity|].
        apply existsb_exists in Ex as [v [Hv1 Hv2]].
        pose (f := fun x => match dget eqb inc x with Some (p :: _) => p | _ => x end).
        pose (U := filter (fun x => match dget eqb inc x with Some (_ :: _) => true | _ => false end) node_list).
        apply (walk_cycle f U) with (x := v).
        + intros x Hx. apply filter_In in Hx as [_ Hx]. unfold f.
          pose proof (k_inc _ _ _ _ K2 x) as Kx.
          destruct (dget eqb inc x) as [[|p q]|] eqn:Ei; try discriminate.
          destruct (proj1 (Kx p) (or_introl eq_refl)) as [E Np]. split; [|exact E].
          apply filter_In. split.
          * apply node_list_In. left. eapply Edge_key; eauto.
          * pose proof (k_inc _ _ _ _ K2 p) as Kp.
            destruct (dget eqb inc p) as [[|a b]|] eqn:Ep; [exfalso|reflexivity|exfalso].
            -- apply Np. rewrite <- (app_nil_r l). apply (k_complete _ _ _ _ K2).
               ++ left. eapply Edge_key; eauto.
               ++ intros r Er. destruct (in_dec A_dec r l); [auto|]. destruct (proj2 (Kp r)); auto.
            -- apply Np. rewrite <- (app_nil_r l). apply (k_complete _ _ _ _ K2).
               ++ left. eapply Edge_key; eauto.
               ++ intros r Er. destruct (Kp r Er).
        + apply filter_In. split; [|exact Hv2]. apply node_list_In. now left.
      - left. exists l. split; [reflexivity|].
        assert (HK : forall v, In v (map fst g) -> forall p, Edge g p v -> In p l).
        { intros v Hv p E. pose proof (k_inc _ _ _ _ K2 v) as Kv.
          destruct (dget eqb inc v) as [[|a b]|] eqn:Ei.
          - destruct (in_dec A_dec p l); [auto|]. destruct (proj2 (Kv p)); auto.
          - exfalso. assert (existsb (fun v => match dget eqb inc v with Some (_ :: _) => true | _ => false end) (map fst g) = true).
            { apply existsb_exists. exists v. split; [auto|]. now rewrite Ei. }
            congruence.
          - destruct (Kv p E). }
        assert (HL : forall v, In v (map fst g) -> In v l).
        { intros v Hv. rewrite <- (app_nil_r l). apply (k_complete _ _ _ _ K2); [now left|]. now apply HK. }
        assert (T : TopologicalOrder g l).
        { pose proof (k_nodup _ _ _ _ K2) as N. rewrite app_nil_r in N. split; [exact N|].
          assert (HN : forall a, Node g a -> In a l).
          { intros a Ha. rewrite <- (app_nil_r l). apply (k_complete _ _ _ _ K2); [auto|].
            intros p E. apply HL. eapply Edge_key; eauto. }
          split.
          - intro a. split; [|apply HN]. intro H. apply (k_node _ _ _ _ K2). now rewrite app_nil_r.
          - intros a b E. apply ordered_Before; auto. apply HN. right; eauto. }
        split; [exact T|]. now apply TopologicalOrder_acyclic with l.
    Qed.
  End Kahn.

  (** ** descendents *)
  Section Desc.
    Variable g : list (A * list A).
    Hypothesis NDg : NoDup (map fst g).

    Lemma succs_In a b : In b (succs eqb g a) <-> Edge g a b.
    Proof.
      unfold succs. destruct (dget eqb g a) as [l|] eqn:E.
      - split.
        + intro H. exists l. split; [now apply dget_Some|auto].
        + intros [l' [H1 H2]]. apply dget_In in H1; [|auto]. rewrite E in H1. now inversion H1; subst.
      - apply dget_None in E. split; [intros []|]. intro H. apply E. eapply Edge_key; eauto.
    Qed.

    Lemma desc_loop_ok x fuel : forall desc,
      NoDup desc -> In x desc -> (forall y, In y desc -> Reaches g x y) ->
      S (length (edge_list g)) < fuel + length desc ->
      exists l, desc_loop eqb g fuel desc = Ok l /\ NoDup l /\ forall y, In y l <-> Reaches g x y.
    Proof.
      induction fuel as [|fuel IH]; intros desc N Hx HR F.
      - exfalso. assert (length desc <= length (x :: map snd (edge_list g))).
        { apply NoDup_incl_length; [auto|]. intros y Hy. specialize (HR y Hy).
          destruct (clos_rt_rtn1 _ _ _ _ HR) as [|y z E _]; [now left|]. right.
          apply edge_list_In in E. change z with (snd (y, z)). now apply in_map. }
        simpl in H. rewrite map_length in H. lia.
      - cbn [desc_loop].
        remember (filter (fun c => negb (memb eqb c desc)) (mkset eqb (flat_map (succs eqb g) desc))) as ch eqn:Ech.
        assert (Hch : forall y, In y ch <-> (exists a, In a desc /\ Edge g a y) /\ ~ In y desc).
        { intro y. subst ch. rewrite filter_In, mkset_In, in_flat_map, negb_true_iff, memb_nIn.
          setoid_rewrite succs_In. tauto. }
        destruct ch as [|c ch].
        + exists desc. split; [reflexivity|]. split; [auto|]. intro y. split; [auto|].
          intro R. apply clos_rt_rtn1 in R. induction R as [|y z E _ I]; [auto|].
          destruct (in_dec A_dec z desc); [auto|]. exfalso.
          apply (proj2 (Hch z)). split; eauto.
        + apply IH.
          * assert (Nc : NoDup (c :: ch)) by (rewrite Ech; apply NoDup_filter, mkset_NoDup).
            clear -N Nc Hch. induction desc as [|d desc IHd] in N, Hch, Nc |- *; [exact Nc|].
            assert (forall u v : list A, NoDup u -> NoDup v -> (forall x, In x v -> ~ In x u) -> NoDup (u ++ v)).
            { clear. induction u as [|a u I]; intros v Hu Hv D; simpl; [auto|]. inversion Hu; subst.
              constructor.
              - rewrite in_app_iff. intros [?|?]; [auto|]. apply (D a); [auto|now left].
              - apply I; auto. intros y Hy Hy'. apply (D y Hy). now right. }
            apply H; auto. intros y Hy. apply Hch in Hy. tauto.
          * apply in_or_app; auto.
          * intros y Hy. apply in_app_or in Hy as [Hy|Hy]; [auto|]. apply Hch in Hy as [[a [Ha E]] _].
            eapply rt_trans; [apply HR; eauto|]. now constructor.
          * rewrite app_length. simpl. lia.
    Qed.

    Theorem descendents_correct x :
      exists l, descendents eqb g x = Ok l /\ NoDup l /\ forall y, In y l <-> Reaches g x y.
    Proof.
      unfold descendents. destruct (succs eqb g x) as [|c r] eqn:E.
      - exists [x]. split; [reflexivity|]. split; [constructor; [intros []|constructor]|].
        intro y. split.
        + intros [<-|[]]. apply rt_refl.
        + intro R. left. apply clos_rt_rt1n in R. destruct R as [|y z E1 _]; [reflexivity|].
          apply succs_In in E1. rewrite E in E1. destruct E1.
      - apply desc_loop_ok.
        + constructor; [intros []|constructor].
        + now left.
        + intros y [<-|[]]. apply rt_refl.
        + simpl. lia.
    Qed.
  End Desc.
End Proofs.
