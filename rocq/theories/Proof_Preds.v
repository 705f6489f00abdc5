From Verif Require Import Base Types Lexer Construct Parser Ops Preds Spec_WF Spec_Ops Spec_Preds Spec_Eq
  Proof_WF Proof_Eq Proof_Canon Proof_Ops Proof_Ops2.
Local Open Scope Z_scope.

(** ** C37 *)
Lemma has_step typ t : (forall s, typ (TypeVarT s) = false) ->
  has typ t = typ t || existsb (has typ) (children t).
Proof.
  intro HT. destruct t; cbn [has children existsb]; rewrite ?orb_false_r; auto.
  - destruct typevar; rewrite ?HT, ?orb_false_r; reflexivity.
  - f_equal. induction fields as [|f r IH]; simpl; [reflexivity|rewrite IH; reflexivity].
Qed.
Lemma has_spec typ t : (forall s, typ (TypeVarT s) = false) ->
  (has typ t = true <-> exists u, Occurs u t /\ typ u = true).
Proof.
  intro HT. induction t as [t IH] using children_ind. rewrite has_step, orb_true_iff, existsb_exists by auto. split.
  - intros [H|[c [Hc H]]].
    + exists t. split; [constructor|auto].
    + apply IH in H; auto. destruct H as [u [A B]]. exists u. split; auto. eapply Occurs_in; eauto.
  - intros [u [Ho Hu]]. inversion Ho as [|c t' Hc Ho']; subst; auto.
    right. exists c. split; auto. apply IH; eauto.
Qed.

(** ** C42 *)
Lemma mapM_ext {A B} (f g : A -> res B) l : (forall x, In x l -> f x = g x) -> mapM f l = mapM g l.
Proof.
  induction l as [|x l IH]; intro H; [reflexivity|]. rewrite !mapM_cons, H by (left; auto). rewrite IH; auto.
  intros; apply H; right; auto.
Qed.
Definition maxdepth (l : list pv) : nat := fold_right (fun x n => Nat.max (pvdepth x) n) O l.
Lemma maxdepth_In l v : In v l -> (pvdepth v <= maxdepth l)%nat.
Proof. induction l as [|x l IH]; simpl; [tauto|]. intros [->|H]; [lia|]. specialize (IH H). lia. Qed.
Lemma maxdepth_bound l n : (forall v, In v l -> (pvdepth v <= n)%nat) -> (maxdepth l <= n)%nat.
Proof. induction l as [|x l IH]; intro H; simpl; [lia|]. specialize (IH (fun v Hv => H v (or_intror Hv))). pose proof (H x (or_introl eq_refl)). lia. Qed.
Lemma depth_ty t : (2 <= pvdepth (PvTy t) <= 3 * tsize t)%nat.
Proof. pose proof (tsize_pos t). destruct t; simpl; lia. Qed.
Lemma items_depth v c : In c (items v) -> (pvdepth c < pvdepth v)%nat.
Proof.
  destruct v as [t|l|z|s|b|]; cbn [items]; try contradiction.
  2:{ intro H. apply maxdepth_In in H. simpl. fold (maxdepth l). lia. }
  assert (HX : forall x n, (tsize x < n)%nat -> (pvdepth (PvTy x) < 3 * n)%nat).
  { intros x n H. pose proof (depth_ty x). lia. }
  assert (HL : forall l n, In c (map PvTy l) -> (lsize l < n)%nat -> (pvdepth c < 3 * n)%nat).
  { intros l n H HS. apply in_map_iff in H. destruct H as [x [<- Hx]]. apply lsize_In in Hx. apply HX. lia. }
  assert (HT : forall l n, (lsize l < n)%nat -> (pvdepth (PvTup (map PvTy l)) < 3 * n)%nat).
  { intros l n HS. cbn [pvdepth]. fold (maxdepth (map PvTy l)).
    assert (maxdepth (map PvTy l) <= 3 * lsize l)%nat.
    { apply maxdepth_bound. intros v Hv. apply in_map_iff in Hv. destruct Hv as [x [<- Hx]]. apply lsize_In in Hx.
      pose proof (depth_ty x). lia. }
    lia. }
  assert (H1 : forall n, (0 < n)%nat -> (1 < 3 * n)%nat) by (intros; lia).
  destruct t; cbn [params In];
    try (intro H; repeat (destruct H as [H|H]; [subst c; try (destruct tz); try (destruct fixlen); cbn [pv_ostr pv_oint]; change (1 < 2)%nat || (change (1 < 3)%nat); lia|]); contradiction).
  - (* Units *) intros [<-|[<-|[]]]; change (pvdepth (PvTy (UnitsT unit t))) with (3 * tsize (UnitsT unit t))%nat;
      rewrite tsize_Units; [apply H1; lia|apply HX; lia].
  - destruct typevar; cbn [In]; intros [<-|[]]; simpl; lia.
  - intro H. eapply HL; [exact H|]. apply Nat.lt_succ_diag_r.
  - intros [<-|[]]. apply HX. apply Nat.lt_succ_diag_r.
  - intro H. eapply HL; [exact H|]. apply Nat.lt_succ_diag_r.
  - intros [<-|[<-|[]]]; change (pvdepth (PvTy (MapT t1 t2))) with (3 * tsize (MapT t1 t2))%nat; apply HX; rewrite tsize_Map; lia.
  - intro H. apply in_map_iff in H. destruct H as [f [<- Hf]]. apply fsize_In in Hf.
    change (pvdepth (PvTy (RecordT fields))) with (3 * tsize (RecordT fields))%nat. apply HX. rewrite tsize_Record. lia.
  - change (pvdepth (PvTy (CategoricalT categories t ordered))) with (3 * tsize (CategoricalT categories t ordered))%nat.
    rewrite tsize_Categorical. pose proof (tsize_pos t).
    intros [<-|[<-|[<-|[]]]]; [|apply HX; lia|simpl; lia].
    cbn [pvdepth]. fold (maxdepth (map pv_lit categories)). assert (maxdepth (map pv_lit categories) <= 1)%nat; [|lia].
    apply maxdepth_bound. intros v Hv. apply in_map_iff in Hv. destruct Hv as [x [<- Hx]]. destruct x; simpl; lia.
  - intros [<-|[]]. apply HT. apply Nat.lt_succ_diag_r.
  - change (pvdepth (PvTy (TypeSetT order name))) with (3 * tsize (TypeSetT order name))%nat.
    intros [<-|[<-|[]]].
    + apply HT. rewrite tsize_TypeSet. lia.
    + rewrite tsize_TypeSet. destruct name; cbn [pv_ostr pvdepth]; lia.
Qed.
Definition leaf (v : pv) : bool := match v with PvTy _ | PvTup _ => false | _ => true end.
Lemma collectF_fuel n : forall m pred v, (pvdepth v < n)%nat -> (pvdepth v < m)%nat -> collectF n pred v = collectF m pred v.
Proof.
  induction n as [|n IH]; intros m pred v H1 H2; [lia|]. destruct m as [|m]; [lia|].
  cbn [collectF]. destruct (pred v); auto.
  pose proof (items_depth v) as HI.
  destruct v; auto; cbn [items] in HI; (rewrite (mapM_ext (collectF n pred) (collectF m pred)); [reflexivity|]);
    intros x Hx; specialize (HI x Hx); apply IH; lia.
Qed.
Lemma collect_unfold pred v : collect pred v =
  if pred v then Ok [v] else if leaf v then Raise TypeErr
  else let! ls := mapM (collect pred) (items v) in Ok (concat ls).
Proof.
  unfold collect at 1. cbn [collectF]. destruct (pred v); auto.
  pose proof (items_depth v) as HI. 
  destruct v; auto; cbn [items leaf] in *; (rewrite (mapM_ext _ (collect pred)); [reflexivity|]);
    intros x Hx; specialize (HI x Hx); apply collectF_fuel; lia.
Qed.
Lemma depth_ind (P : pv -> Prop) : (forall v, (forall c, In c (items v) -> P c) -> P v) -> forall v, P v.
Proof.
  intros H v. remember (pvdepth v) as n eqn:E. revert v E. induction n as [n IH] using lt_wf_ind.
  intros v ->. apply H. intros c Hc. eapply IH; [|reflexivity]. apply items_depth; auto.
Qed.

(** results: membership *)
Lemma collect_In pred v : forall l, collect pred v = Ok l -> forall x, In x l <-> Outer pred v x.
Proof.
  induction v as [v IH] using depth_ind. intros l. rewrite collect_unfold. destruct (pred v) eqn:E.
  - intro H; injection H as <-. intro x. split.
    + intros [<-|[]]. constructor; auto.
    + intro H. inversion H; subst; [left; auto|congruence].
  - destruct (leaf v); [discriminate|].
    destruct (mapM (collect pred) (items v)) as [ls|] eqn:EM; [|discriminate]. intro H; injection H as <-.
    apply mapM_Ok_Forall2 in EM. intro x. rewrite in_concat. split.
    + intros [m [Hm Hx]]. assert (G : exists c, In c (items v) /\ collect pred c = Ok m).
      { clear -EM Hm. induction EM as [|c m' cs ms Hc HF IH2]; [destruct Hm|]. destruct Hm as [->|Hm].
        - exists c. split; [left; auto|auto].
        - destruct (IH2 Hm) as [d [A B]]. exists d. split; [right|]; auto. }
      destruct G as [c [Hc Hcol]]. eapply Outer_in; eauto. eapply IH; eauto.
    + intro H. inversion H as [? H1|? c ? H1 H2 H3]; subst; [congruence|].
      assert (G : exists m, In m ls /\ collect pred c = Ok m).
      { clear -EM H2. induction EM as [|d m' cs ms Hc HF IH2]; [destruct H2|]. destruct H2 as [->|H2].
        - exists m'. split; [left; auto|auto].
        - destruct (IH2 H2) as [m [A B]]. exists m. split; [right|]; auto. }
      destruct G as [m [A B]]. exists m. split; auto. eapply IH; eauto.
Qed.
(** collect succeeds unless a plain value is reached *)
Inductive Bad (pred : pv -> bool) : pv -> Prop :=
| Bad_leaf v : pred v = false -> leaf v = true -> Bad pred v
| Bad_in v c : pred v = false -> In c (items v) -> Bad pred c -> Bad pred v.
Lemma mapM_all {A B} (f : A -> res B) l : (forall x, In x l -> exists y, f x = Ok y) -> exists ys, mapM f l = Ok ys.
Proof.
  induction l as [|x l IH]; intro H; [eexists; reflexivity|]. rewrite mapM_cons.
  destruct (H x (or_introl eq_refl)) as [y ->]. destruct IH as [ys ->]; [intros; apply H; right; auto|]. eexists; reflexivity.
Qed.
Lemma collect_ok pred v : (exists l, collect pred v = Ok l) \/ (Bad pred v /\ collect pred v = Raise TypeErr).
Proof.
  induction v as [v IH] using depth_ind. rewrite collect_unfold. destruct (pred v) eqn:E; [eauto|].
  destruct (leaf v) eqn:EL; [right; split; auto; apply Bad_leaf; auto|].
  assert (G : (exists ls, mapM (collect pred) (items v) = Ok ls) \/
              (mapM (collect pred) (items v) = Raise TypeErr /\ exists c, In c (items v) /\ Bad pred c)).
  { clear E EL. induction (items v) as [|x l IHl]; [left; eexists; reflexivity|]. rewrite mapM_cons.
    destruct (IH x (or_introl eq_refl)) as [[y ->]|[HB ->]]; cbn [bind].
    - destruct IHl as [[ys ->]|[-> [c [A B]]]]; [intros; apply IH; right; auto|left; eexists; reflexivity|].
      right. split; auto. exists c; split; [right|]; auto.
    - right. split; auto. exists x; split; [left|]; auto. }
  destruct G as [[ls ->]|[-> [c [A B]]]]; cbn [bind]; [left; eauto|].
  right. split; auto. eapply Bad_in; eauto.
Qed.
Lemma Bad_not_ok pred v l : Bad pred v -> collect pred v <> Ok l.
Proof.
  intro H; revert l; induction H as [v H1 H2|v c H1 H2 H3 IH]; intro l; rewrite collect_unfold, H1.
  - rewrite H2. discriminate.
  - destruct (leaf v); [discriminate|]. destruct (mapM _ _) as [ls|] eqn:E; [|discriminate]. exfalso.
    apply mapM_Ok_Forall2 in E. clear -E H2 IH. induction E; [destruct H2|].
    destruct H2 as [->|H2]; [eapply IH; eauto|auto].
Qed.
(** results: positions, in lexicographic order *)
From Coq Require Import Sorting.Sorted.
Lemma At_nil v x : At v [] x <-> x = v.
Proof. split; [intro H; inversion H; auto|intros ->; constructor]. Qed.
Lemma OuterAt_in pred v p x : pred v = false ->
  (OuterAt pred v p x <-> exists k c p', p = k :: p' /\ nth_error (items v) k = Some c /\ OuterAt pred c p' x).
Proof.
  intro Hv. split.
  - intros [HA [Hx HN]]. inversion HA as [|? k c p' ? H1 H2]; subst; [congruence|].
    exists k, c, p'. split; auto. split; auto. split; auto. split; auto.
    intros q r y E Hr Hq. apply (HN (k :: q) r y); auto; [rewrite E; reflexivity|]. econstructor; eauto.
  - intros [k [c [p' [-> [H1 [HA [Hx HN]]]]]]]. split; [econstructor; eauto|]. split; auto.
    intros q r y E Hr Hq. destruct q as [|k' q].
    + apply At_nil in Hq. subst; auto.
    + injection E as <- E. inversion Hq as [|? ? c2 ? ? H3 H4]; subst. rewrite H1 in H3. injection H3 as <-.
      eapply HN; eauto.
Qed.
Lemma OuterAt_hit pred v p x : pred v = true -> (OuterAt pred v p x <-> p = [] /\ x = v).
Proof.
  intro Hv. split.
  - intros [HA [Hx HN]]. destruct p as [|k p]; [apply At_nil in HA; auto|].
    exfalso. assert (pred v = false); [|congruence]. apply (HN [] (k :: p) v); auto; [discriminate|constructor].
  - intros [-> ->]. split; [constructor|]. split; auto. intros q r y E Hr _. destruct q, r; try discriminate; contradiction.
Qed.
Lemma sorted_app {A} (R : A -> A -> Prop) l m : StronglySorted R l -> StronglySorted R m ->
  (forall x y, In x l -> In y m -> R x y) -> StronglySorted R (l ++ m).
Proof.
  intros H1 H2 H. induction H1 as [|x l HS IH HF]; simpl; auto. constructor.
  - apply IH. intros; apply H; auto. right; auto.
  - apply Forall_app. split; auto. apply Forall_forall. intros y Hy. apply H; auto. left; auto.
Qed.
Lemma sorted_map_cons k l : StronglySorted LexLt l -> StronglySorted LexLt (map (cons k) l).
Proof.
  induction 1 as [|x l HS IH HF]; simpl; constructor; auto.
  apply Forall_forall. intros y Hy. apply in_map_iff in Hy. destruct Hy as [z [<- Hz]].
  apply Lex_tail. rewrite Forall_forall in HF. auto.
Qed.
(** every collected term has a position; positions are listed in increasing order and are
    exactly the outermost matching ones *)
Lemma collect_positions pred v : forall l, collect pred v = Ok l ->
  exists ps, StronglySorted LexLt ps /\ Forall2 (OuterAt pred v) ps l /\
    (forall p x, OuterAt pred v p x -> In p ps).
Proof.
  induction v as [v IH] using depth_ind. intros l. rewrite collect_unfold. destruct (pred v) eqn:E.
  - intro H; injection H as <-. exists [[]]. split; [repeat constructor|]. split.
    + constructor; [|constructor]. apply OuterAt_hit; auto.
    + intros p x H. apply OuterAt_hit in H; auto. destruct H as [-> _]. left; auto.
  - destruct (leaf v); [discriminate|].
    destruct (mapM (collect pred) (items v)) as [ls|] eqn:EM; [|discriminate]. intro H; injection H as <-.
    apply mapM_Ok_Forall2 in EM.
    (* generalise over the suffix of items starting at index i *)
    assert (G : forall cs ls i, Forall2 (fun x y => collect pred x = Ok y) cs ls ->
      (forall c, In c cs -> In c (items v)) ->
      (forall k, nth_error cs k = nth_error (items v) (i + k)) ->
      exists ps, StronglySorted LexLt ps /\ Forall2 (OuterAt pred v) ps (concat ls) /\
        (forall p, In p ps -> exists k p', p = k :: p' /\ (i <= k)%nat) /\
        (forall k p x, (i <= k)%nat -> OuterAt pred v (k :: p) x -> In (k :: p) ps)).
    { clear EM ls. induction cs as [|c cs IHc]; intros ls i HF Hin Hnth; inversion HF as [|? m ? ms Hc HF']; subst.
      - exists []. repeat split; [constructor|constructor|contradiction|].
        intros k p x Hk Ho. exfalso. apply OuterAt_in in Ho; auto. destruct Ho as [k' [c' [p' [E1 [E2 _]]]]].
        injection E1 as <- <-. specialize (Hnth (k - i)%nat). replace (i + (k - i))%nat with k in Hnth by lia.
        rewrite E2 in Hnth. destruct (k - i)%nat; discriminate.
      - destruct (IHc ms (S i) HF') as [ps2 [S2 [F2 [B2 C2]]]].
        + intros d Hd. apply Hin; right; auto.
        + intro k. specialize (Hnth (S k)). simpl in Hnth. rewrite Hnth. f_equal. lia.
        + assert (Hci : nth_error (items v) i = Some c) by (specialize (Hnth O); rewrite Nat.add_0_r in Hnth; simpl in Hnth; auto).
          destruct (IH c (Hin c (or_introl eq_refl)) m Hc) as [ps1 [S1 [F1 C1]]].
          exists (map (cons i) ps1 ++ ps2). split; [|split; [|split]].
          * apply sorted_app; auto; [apply sorted_map_cons; auto|].
            intros x y Hx Hy. apply in_map_iff in Hx. destruct Hx as [p [<- Hp]].
            destruct (B2 y Hy) as [k [p' [-> Hk]]]. apply Lex_head. lia.
          * cbn [concat]. apply Forall2_app; auto. clear -F1 E Hci. induction F1; simpl; constructor; auto.
            apply OuterAt_in; auto. eauto 8.
          * intros p Hp. apply in_app_or in Hp. destruct Hp as [Hp|Hp].
            -- apply in_map_iff in Hp. destruct Hp as [q [<- Hq]]. eauto.
            -- destruct (B2 p Hp) as [k [p' [-> Hk]]]. exists k, p'. split; auto. lia.
          * intros k p x Hk Ho. apply in_or_app. destruct (Nat.eq_dec k i) as [->|Hne].
            -- left. apply in_map. apply OuterAt_in in Ho; auto. destruct Ho as [k' [c' [p' [E1 [E2 Ho]]]]].
               injection E1 as <- <-. rewrite Hci in E2. injection E2 as <-. eapply C1; eauto.
            -- right. eapply C2; eauto. lia. }
    destruct (G (items v) ls O EM) as [ps [A [B [C D]]]]; auto.
    exists ps. split; auto. split; auto. intros p x Ho. pose proof Ho as Ho'. apply OuterAt_in in Ho; auto.
    destruct Ho as [k [c [p' [-> _]]]]. eapply D; eauto. lia.
Qed.

(** ** sets *)
Lemma set_add_len x l : length (set_add x l) = length l \/ length (set_add x l) = S (length l).
Proof. induction l as [|y l IH]; simpl; auto. destruct (pv_eqb y x); simpl; auto. destruct IH as [->| ->]; auto. Qed.
Definition addall (l s : list pv) : list pv := fold_left (fun s x => set_add x s) l s.
Lemma addall_len l : forall s, (length s <= length (addall l s))%nat.
Proof. induction l as [|x l IH]; intro s; simpl; [lia|]. unfold addall in *. simpl. specialize (IH (set_add x s)). destruct (set_add_len x s); lia. Qed.
Lemma addall_one l : forall y, length (addall l [y]) = 1%nat <-> forall x, In x l -> pv_eqb y x = true.
Proof.
  induction l as [|x l IH]; intro y; simpl; [split; [contradiction|auto]|].
  unfold addall in *. simpl. destruct (pv_eqb y x) eqn:E.
  - rewrite IH. split; intros H z; [intros [<-|Hz]; auto|intros Hz; apply H; right; auto].
  - split.
    + intro H. exfalso. pose proof (addall_len l [y; x]) as HL. unfold addall in HL. simpl in HL. lia.
    + intro H. rewrite (H x (or_introl eq_refl)) in E. discriminate.
Qed.
Lemma mkset_one l : length (mkset l) = 1%nat <-> exists y r, l = y :: r /\ forall x, In x r -> pv_eqb y x = true.
Proof.
  unfold mkset. destruct l as [|y r]; simpl.
  - split; [discriminate|]. intros [y [r [E _]]]; discriminate.
  - change (fold_left _ r [y]) with (addall r [y]). rewrite addall_one. split.
    + intro H. exists y, r. auto.
    + intros [y' [r' [E H]]]. injection E as <- <-. auto.
Qed.
