(** Proofs for C62. *)
From Verif Require Import Base Types Lexer Printer Construct Parser Ops Preds Numpy Graph Discovery User
  Spec_WF Spec_Preds Spec_Eq Spec_Ops Spec_Print Spec_Discovery Spec_Found Spec_Fits Spec_Regular
  Proof_WF Proof_Eq Proof_Canon Proof_Ops Proof_Preds Proof_Preds3 Proof_Coerce Proof_Discovery Proof_Discovery2 Proof_Discovery4
  Proof_Discovery5 Proof_Discovery6 Proof_Discovery7 Proof_Discovery8 Proof_Fits Proof_Fits2 Proof_Fits3 Proof_Fits4.
From Coq Require Import Permutation.
Local Open Scope Z_scope.

Lemma components_wrapc t : components (wrapc t) = components t. Proof. reflexivity. Qed.
Lemma wrapc_wrapc t : wrapc (wrapc t) = wrapc t. Proof. reflexivity. Qed.
Lemma launder_wrapc t : Dl t -> launder_ty (wrapc t) = t.
Proof.
  intros [H|(dims & m & HN & -> & _)].
  - unfold wrapc. rewrite components_DM by auto. reflexivity.
  - unfold wrapc. cbn [components]. destruct dims as [|d dims]; [congruence|]. destruct dims; reflexivity.
Qed.
Lemma D_notlone t : D t -> (forall n m, t <> DataShapeT n [m]) -> Dl t.
Proof.
  intros [H|[ps [-> H]]] HN; [left; auto|]. destruct H as (dims & m & -> & H1 & H2). right. exists dims, m.
  split; auto. intros ->. apply (HN None m). reflexivity.
Qed.
Lemma Dl_array n t : Dl t -> 0 <= n -> Dl (DataShapeT None (FixedT n :: components t)).
Proof.
  intros H Hn. pose proof (DA_components _ _ t (Dl_D _ _ t H)) as (dims & m & E & H1 & H2). right. exists (FixedT n :: dims), m.
  rewrite E. split; [discriminate|]. split; auto. split; auto. constructor; auto. now constructor.
Qed.
Lemma identical_const ts u : ts <> [] -> (forall t, In t ts -> t = u) -> D u ->
  unite_identical ts = Ok (Some (DataShapeT None (FixedT (len ts) :: components u))).
Proof.
  intros NE H Hu. unfold unite_identical. destruct ts as [|x ts]; [congruence|]. pose proof (H x (or_introl eq_refl)) as Hx. subst x.
  assert (E : all_same (u :: ts) = true).
  { cbn. apply forallb_forall. intros y Hy. rewrite (H y (or_intror Hy)). apply py_eq_refl. }
  rewrite E. rewrite mul_D by (auto; unfold len; lia). reflexivity.
Qed.
Lemma column_const sc col u : col <> [] -> (forall r, In r col -> r = Ok u) -> D u -> column_type sc col = Ok (wrapc u).
Proof.
  intros NE H Hu. assert (E : mapM (fun r : res ty => r) col = Ok (map (fun _ => u) col)).
  { clear NE. induction col as [|r col IH]; auto. rewrite mapM_cons, IH by (intros; apply H; right; auto). rewrite (H r (or_introl eq_refl)). reflexivity. }
  unfold column_type. rewrite E. cbn [bind do_one]. rewrite (identical_const _ u).
  - cbn [bind]. rewrite sub0; [reflexivity|constructor; unfold len; lia|now apply DA_components].
  - destruct col; [congruence|discriminate].
  - intros t Ht. apply in_map_iff in Ht as [? [<- _]]. reflexivity.
  - auto.
Qed.
Lemma final_const ts u : ts <> [] -> (forall t, In t ts -> t = u) -> D u -> unite_final ts = Ok (DataShapeT None (FixedT (len ts) :: components u)).
Proof. intros. unfold unite_final. cbn [do_one]. rewrite (identical_const ts u) by auto. reflexivity. Qed.
Lemma final_tuple ts a b c : Forall D ts -> In a ts -> In b ts -> components a <> components b -> In c ts ->
  (is_DataShape c && is_dimension (ds_head c) = false) -> unite_final ts = Ok (TupleT (map wrapc ts)).
Proof.
  intros HD Ha Hb Hab Hc Hd. unfold unite_final. cbn [do_one].
  assert (E : unite_identical ts = Ok None).
  { unfold unite_identical. destruct (all_same ts) eqn:E; [|reflexivity]. exfalso. apply Hab. destruct ts as [|x ts]; [destruct Ha|].
    cbn [all_same] in E. rewrite forallb_forall in E. rewrite Forall_forall in HD.
    assert (X : forall t, In t (x :: ts) -> components t = components x).
    { intros t [<-|Ht]; auto. apply D_eq; auto; [apply HD; right; auto|apply HD; left; auto]. }
    rewrite (X a), (X b); auto. }
  rewrite E. cbn [bind].
  assert (E2 : unite_merge ts = Ok None).
  { unfold unite_merge. destruct (forallb _ ts) eqn:EF; [|reflexivity]. rewrite forallb_forall in EF. rewrite (EF c Hc) in Hd. discriminate. }
  rewrite E2. cbn [bind]. rewrite tuple_inv by auto. reflexivity.
Qed.
Lemma record_exact (fs : list (str * ty)) (xs : list (str * parg)) : NoDup (map fst fs) ->
  Forall2 (fun f x => fst x = fst f /\ exists t, snd x = PTy t /\ launder_ty t = snd f) fs xs -> mk_record no_dsh xs = Ok (RecordT fs).
Proof.
  intros ND H. unfold mk_record.
  assert (E : mapM (fun f : str * parg => launder no_dsh (snd f)) xs = Ok (map snd fs) /\ map fst xs = map fst fs).
  { clear ND. induction H as [|f x fs xs [H1 [t [H2 H3]]] _ [IH1 IH2]]; [split; reflexivity|]. rewrite mapM_cons, IH1, H2. cbn [launder bind map].
    rewrite H3. split; auto. cbn [map]. f_equal; auto. }
  destruct E as [E1 E2]. rewrite E1. cbn [bind]. rewrite E2. apply nodup_str_NoDup in ND. rewrite ND. f_equal. f_equal.
  clear. induction fs as [|[n t] fs IH]; cbn; congruence.
Qed.

Section Main.
Variables (sc : sched) (so : strings).
Hypothesis Hso : dates_ok so.
Notation disc := (discover sc so).
Notation Regular := (Regular (fun x u => disc x = Ok u)).

(** the types of the items of a sequence of type [t] *)
Definition rowtypes (t : ty) : list ty :=
  match t with
  | DataShapeT None (FixedT m :: cs) => repeat (DataShapeT None cs) (Z.to_nat m)
  | TupleT ds => ds
  | _ => []
  end.
Definition info (t : ty) (v : dval) : Prop :=
  match v with
  | DSeq _ l => rowtypes t <> [] /\ unite_final (rowtypes t) = Ok t /\
      Forall2 (fun w y => exists u, disc y = Ok u /\ Dl u /\ w = wrapc u) (rowtypes t) l
  | DMap _ d => exists fs, t = RecordT fs /\ SortedStrs (map fst fs) /\ NoDup (map fst d) /\
      (forall n, In n (map fst fs) <-> In n (map fst d)) /\ (forall n u x, In (n, u) fs -> In (n, x) d -> disc x = Ok u /\ Dl u)
  | _ => True
  end.
Lemma rows_exact t l rs : l <> [] -> Dl t -> (forall x, In x l -> info t x) -> Forall2 (fun x y => row_of sc so x = Some y) l rs ->
  discover_rows sc rs = Ok (DataShapeT None (FixedT (len l) :: components t)).
Proof.
  intros NE Dt HI HF. unfold discover_rows.
  assert (HF2 : Forall2 (fun x y => exists k l2, x = DSeq k l2 /\ y = map disc l2 /\
      Forall2 (fun w z => exists u, disc z = Ok u /\ Dl u /\ w = wrapc u) (rowtypes t) l2) l rs).
  { eapply Forall2_In_impl; [|exact HF]. intros x y Hx _ E. cbv beta in E. specialize (HI x Hx).
    destruct x as [| | | | | | | | | | | | |k l2|k d|]; try discriminate. destruct HI as (_ & _ & HI). exists k, l2. split; auto. split; auto.
    destruct k; cbn in E; congruence. }
  assert (HT : unite_final (rowtypes t) = Ok t).
  { destruct l as [|x l]; [congruence|]. inversion HF2 as [|? ? ? ? (k & l2 & -> & _)]; subst. apply (HI _ (or_introl eq_refl)). }
  assert (EL : forall y, In y rs -> length y = length (rowtypes t)).
  { intros y Hy. clear -HF2 Hy. induction HF2 as [|x z l rs (k & l2 & -> & -> & H) _ IH]; [destruct Hy|]. destruct Hy as [<-|Hy]; auto.
    rewrite map_length. symmetry. eapply F2_len; eauto. }
  assert (EM : length (hd [] rs) = length (rowtypes t)).
  { destruct l as [|x l]; [congruence|]. inversion HF2 as [|? y ? rs']; subst. apply EL. left; auto. }
  rewrite EM.
  assert (EC : mapM (column_type sc) (transpose (Ok NullT) (length (rowtypes t)) rs) = Ok (rowtypes t)).
  { unfold transpose.
    assert (G : forall q n, (forall i, (i < length q)%nat -> nth_error (rowtypes t) (n + i) = nth_error q i) ->
       mapM (column_type sc) (map (fun i => map (fun r => nth i r (Ok NullT)) rs) (seq n (length q))) = Ok q).
    { induction q as [|w q IH]; intros n Hn; [reflexivity|]. cbn [length seq map]. rewrite mapM_cons. rewrite (IH (S n)).
      2:{ intros i Hi. specialize (Hn (S i) ltac:(cbn; lia)). cbn [nth_error] in Hn. rewrite <- Hn. f_equal. lia. }
      pose proof (Hn 0%nat ltac:(cbn; lia)) as Hw. rewrite Nat.add_0_r in Hw. cbn [nth_error] in Hw.
      assert (CC : forall r, In r (map (fun r => nth n r (Ok NullT)) rs) -> exists u, r = Ok u /\ Dl u /\ w = wrapc u).
      { intros r Hr. apply in_map_iff in Hr as [y [<- Hy]]. clear -HF2 Hy Hw.
        induction HF2 as [|x z l rs (k & l2 & -> & -> & H) _ IH]; [destruct Hy|]. destruct Hy as [<-|Hy]; auto.
        assert (X : exists z, nth_error l2 n = Some z).
        { destruct (nth_error l2 n) eqn:E; eauto. apply nth_error_None in E. rewrite <- (F2_len _ _ _ H) in E. apply nth_error_None in E. congruence. }
        destruct X as [z Hz]. destruct (Forall2_nth _ _ _ n _ _ H Hw Hz) as (u & U1 & U2 & U3). exists u. split; auto.
        apply nth_error_nth with (d := Ok NullT). rewrite nth_error_map, Hz. cbn. congruence. }
      assert (NR : exists r0, In r0 (map (fun r => nth n r (Ok NullT)) rs)).
      { destruct l as [|x l]; [congruence|]. inversion HF2 as [|? y ? rs']; subst. eexists. left. reflexivity. }
      destruct NR as [r0 Hr0]. destruct (CC r0 Hr0) as (u & -> & Du & ->).
      rewrite (column_const sc _ u); [reflexivity|intro X; rewrite X in Hr0; destruct Hr0| |apply Dl_D; auto].
      intros r Hr. destruct (CC r Hr) as (u' & -> & Du' & EW). f_equal. apply Dl_components; auto. injection EW as EW. congruence. }
    apply (G (rowtypes t) 0%nat). intros; reflexivity. }
  rewrite EC. cbn [bind]. rewrite HT. cbn [bind]. rewrite mul_D by (first [apply Dl_D; exact Dt|unfold len; lia]).
  unfold len. rewrite (F2_len _ _ _ HF). reflexivity.
Qed.
Lemma dicts_exact t l ds : l <> [] -> Dl t -> (forall x, In x l -> info t x) -> Forall2 (fun x y => dict_of sc so x = Some y) l ds ->
  discover_dicts sc ds = Ok (DataShapeT None (FixedT (len l) :: components t)).
Proof.
  intros NE Dt HI HF.
  assert (X : exists fs, t = RecordT fs).
  { destruct l as [|x l]; [congruence|]. inversion HF as [|? y ? ds' E]; subst. specialize (HI x (or_introl eq_refl)). destruct x; try discriminate.
    destruct HI as (fs & -> & _). eauto. }
  destruct X as [fs ->].
  assert (HF2 : Forall2 (fun x y => exists d, y = items sc so d /\ NoDup (map fst d) /\ SortedStrs (map fst fs) /\
      (forall n, In n (map fst fs) <-> In n (map fst d)) /\ (forall n u x, In (n, u) fs -> In (n, x) d -> disc x = Ok u /\ Dl u)) l ds).
  { eapply Forall2_In_impl; [|exact HF]. intros x y Hx _ E. cbv beta in E. specialize (HI x Hx).
    destruct x as [| | | | | | | | | | | | |k l2|k d|]; try discriminate. destruct HI as (gs & Eg & H1 & H2 & H3 & H4). injection Eg as <-.
    exists d. split; auto. destruct k; cbn in E; congruence. }
  clear HF HI.
  assert (HS : SortedStrs (map fst fs)).
  { destruct l as [|x l]; [congruence|]. inversion HF2 as [|? y ? ds' (d & _ & _ & H & _)]; subst. exact H. }
  assert (ND : NoDup (map fst fs)) by (destruct Dt as [H|(dims & m & _ & X & _)]; [|discriminate]; inversion H; subst; auto; match goal with H : In _ KnownCTypes |- _ => apply known_CType in H as (? & ? & ? & ?); discriminate end).
  unfold discover_dicts.
  assert (EK : sorted_set (flat_map (map fst) ds) = map fst fs).
  { apply Sorted_unique; [apply sorted_set_Sorted|exact HS|]. intro n. rewrite sorted_set_In, in_flat_map. split.
    - intros [y [Hy Hn]]. clear -HF2 Hy Hn. induction HF2 as [|x z l rs (d & -> & _ & _ & H & _) _ IH]; [destruct Hy|]. destruct Hy as [<-|Hy]; auto.
      apply H. unfold items in Hn. rewrite map_map in Hn. exact Hn.
    - intro Hn. destruct l as [|x l]; [congruence|]. inversion HF2 as [|? y ? ds' (d & -> & _ & _ & H & _)]; subst. exists (items sc so d).
      split; [left; auto|]. unfold items. rewrite map_map. apply H. exact Hn. }
  rewrite EK.
  assert (ET : mapM (fun key => column_type sc (map (get_or_null key) ds)) (map fst fs) = Ok (map wrapc (map snd fs))).
  { assert (G : forall q, (forall f, In f q -> In f fs) -> mapM (fun key => column_type sc (map (get_or_null key) ds)) (map fst q) = Ok (map wrapc (map snd q))).
    { induction q as [|[n u] q IH]; intro HQ; [reflexivity|]. cbn [map fst snd]. rewrite mapM_cons, IH by (intros; apply HQ; right; auto).
      pose proof (HQ _ (or_introl eq_refl)) as Hin.
      rewrite (column_const sc _ u); [reflexivity| | |].
      - destruct l as [|x l]; [congruence|]. inversion HF2; subst. discriminate.
      - intros r Hr. apply in_map_iff in Hr as [y [<- Hy]]. clear -HF2 Hy Hin.
        induction HF2 as [|x z l rs (d & -> & N & _ & H & H2) _ IH]; [destruct Hy|]. destruct Hy as [<-|Hy]; auto.
        unfold get_or_null. rewrite assoc_items. destruct (assoc n d) as [x0|] eqn:E.
        + cbn. apply Proof_Ops.assoc_In in E. destruct (H2 n u x0 Hin E) as [-> _]. reflexivity.
        + apply Proof_Ops.assoc_None in E. exfalso. apply E. apply H. apply (in_map fst) in Hin. exact Hin.
      - destruct l as [|x l]; [congruence|]. inversion HF2 as [|? y ? ds' (d & -> & _ & _ & H & H2)]; subst.
        pose proof (in_map fst _ _ Hin) as Hn. apply H in Hn. apply in_map_iff in Hn as [[n' x0] [En Hx0]]. cbn in En. subst n'.
        apply Dl_D. apply (H2 n u x0 Hin Hx0). }
    apply G. auto. }
  rewrite ET. cbn [bind]. rewrite (record_exact fs).
  - cbn [bind]. rewrite mul_D by (first [apply Dl_D; exact Dt|unfold len; lia]). unfold len. rewrite (F2_len _ _ _ HF2). reflexivity.
  - exact ND.
  - assert (DF : forall f, In f fs -> Dl (snd f)).
    { intros [n u] Hf. destruct Dt as [Dt|(dims & m & _ & X & _)]; [eapply record_field_D; eauto|discriminate]. }
    clear -DF. induction fs as [|[n u] fs IH]; cbn; constructor; [|apply IH; intros; apply DF; right; auto].
    split; auto. eexists. split; [reflexivity|]. apply launder_wrapc. apply (DF (n, u)). left; auto.
Qed.
Lemma items_exact fs d : NoDup (map fst d) -> SortedStrs (map fst fs) -> (forall n, In n (map fst fs) <-> In n (map fst d)) ->
  (forall n u x, In (n, u) fs -> In (n, x) d -> disc x = Ok u /\ Dl u) ->
  forall x, In x (items sc so d) <-> In x (map (fun f => (fst f, Ok (snd f))) fs).
Proof.
  intros ND HS HK HT [n r]. unfold items. rewrite !in_map_iff. split.
  - intros [[n' x] [E Hx]]. cbn in E. injection E as -> <-. pose proof (in_map fst _ _ Hx) as Hn. apply HK in Hn.
    apply in_map_iff in Hn as [[n' u] [E Hu]]. cbn in E. subst n'. exists (n, u). split; auto. cbn. f_equal. symmetry. apply (HT n u x Hu Hx).
  - intros [[n' u] [E Hu]]. cbn in E. injection E as -> <-. pose proof (in_map fst _ _ Hu) as Hn. apply HK in Hn.
    apply in_map_iff in Hn as [[n' x] [E Hx]]. cbn in E. subst n'. exists (n, x). split; auto. cbn. f_equal. apply (HT n u x Hu Hx).
Qed.
Lemma all_some_None {A B} (f : A -> option B) l x : In x l -> f x = None -> all_some (map f l) = None.
Proof. induction l as [|y l IH]; intros []; intro E; cbn [map all_some]; [subst; now rewrite E|]. destruct (f y); auto. rewrite IH; auto. Qed.
Theorem regular_exact t v : Regular t v -> disc v = Ok t /\ Dl t /\ info t v.
Proof.
  induction 1 as [v t HL HD HN|t k l NE HI IH|ts k l EL HI IH (a & b & Ha & Hb & Hab) (i & c & x & Hc & Hx & HLx & HNc)|fs k d HS ND HK HO HI IH].
  - split; auto. split; [apply D_notlone; auto; eapply disc_D; eauto|]. destruct v; cbn in *; tauto.
  - assert (Dt : Dl t) by (destruct l as [|x l]; [congruence|]; apply (IH x (or_introl eq_refl))).
    assert (EO : mapM (fun r : res ty => r) (map disc l) = Ok (map (fun _ => t) l)).
    { clear -IH. induction l as [|x l IHl]; auto. cbn [map]. rewrite mapM_cons, IHl by (intros; apply IH; right; auto).
      destruct (IH x (or_introl eq_refl)) as [-> _]. reflexivity. }
    assert (EF : forall t', (let! types := mapM (fun r : res ty => r) (map disc l) in unite_final types) = Ok t' ->
        t' = DataShapeT None (FixedT (len l) :: components t)).
    { intros t'. rewrite EO. cbn [bind]. rewrite (final_const _ t).
      - intro E. injection E as <-. unfold len. rewrite map_length. reflexivity.
      - destruct l; [congruence|discriminate].
      - intros u Hu. apply in_map_iff in Hu as [? [<- _]]. auto.
      - apply Dl_D; auto. }
    assert (EF' : (let! types := mapM (fun r : res ty => r) (map disc l) in unite_final types) = Ok (DataShapeT None (FixedT (len l) :: components t))).
    { rewrite EO. cbn [bind]. rewrite (final_const _ t).
      - unfold len. rewrite map_length. reflexivity.
      - destruct l; [congruence|discriminate].
      - intros u Hu. apply in_map_iff in Hu as [? [<- _]]. auto.
      - apply Dl_D; auto. }
    clear EF.
    split; [|split; [apply Dl_array; auto; lia|]].
    + rewrite discover_seq_eq. unfold discover_seq. destruct (map disc l) as [|o0 ol] eqn:Eo; [destruct l; [congruence|discriminate]|]. rewrite <- Eo in *.
      rewrite EF'. cbv zeta.
      assert (S2 : match all_some (map (dict_of sc so) l) with Some ds => on_attribute_error (discover_dicts sc ds) (Ok (DataShapeT None (FixedT (len l) :: components t)))
          | None => Ok (DataShapeT None (FixedT (len l) :: components t)) end = Ok (DataShapeT None (FixedT (len l) :: components t))).
      { destruct (all_some (map (dict_of sc so) l)) as [ds|] eqn:EA; auto. apply all_some_map in EA.
        rewrite (dicts_exact t l ds NE Dt); auto. intros x Hx. apply (IH x Hx). }
      rewrite S2. destruct (all_some (map (row_of sc so) l)) as [rs|] eqn:EA; auto. destruct (same_lengths rs); auto. apply all_some_map in EA.
      rewrite (rows_exact t l rs NE Dt); auto. intros x Hx. apply (IH x Hx).
    + cbn [info rowtypes]. rewrite Nat2Z.id. fold (wrapc t). split; [destruct l; [congruence|discriminate]|]. split.
      * rewrite (final_const _ (wrapc t)).
        -- unfold len. rewrite repeat_length. reflexivity.
        -- destruct l; [congruence|discriminate].
        -- intros u Hu. now apply repeat_spec in Hu.
        -- apply D_wrapc, Dl_D; auto.
      * clear -IH. induction l as [|x l IHl]; cbn; constructor; [|apply IHl; intros; apply IH; right; auto].
        exists t. split; [|split; auto]; apply (IH x (or_introl eq_refl)).
  - assert (F2 : Forall2 (fun t x => disc x = Ok t /\ Dl t) ts l).
    { clear -EL IH. revert l EL IH. induction ts as [|t ts IHt]; intros [|x l] EL IH; try discriminate; constructor.
      - destruct (IH 0%nat t x eq_refl eq_refl) as (X1 & X2 & _). auto.
      - apply IHt; [cbn in EL; lia|]. intros i. apply (IH (S i)). }
    assert (DT : Forall Dl ts) by (clear -F2; induction F2 as [|? ? ? ? [_ X]]; constructor; auto).
    assert (HCc : is_DataShape c && is_dimension (ds_head c) = false) by (destruct c; try reflexivity; exfalso; eapply HNc; reflexivity).
    assert (DL : forall u, In u ts -> Dl u) by (apply Forall_forall; auto).
    assert (DD : Forall D ts) by (eapply Forall_impl; [|exact DT]; intros u; apply Dl_D).
    assert (NCab : components a <> components b) by (intro E; apply Hab; apply Dl_components; auto).
    assert (UT : unite_final ts = Ok (TupleT (map wrapc ts))) by (apply (final_tuple ts a b c); auto; eapply nth_error_In; eauto).
    split; [|split].
    + rewrite discover_seq_eq. unfold discover_seq. assert (Hxl : In x l) by (eapply nth_error_In; eauto).
      assert (EO : mapM (fun r : res ty => r) (map disc l) = Ok ts).
      { clear -F2. induction F2 as [|u y ts l [E _] _ IHf]; auto. cbn [map]. rewrite mapM_cons, IHf, E. reflexivity. }
      destruct (map disc l) as [|o0 ol] eqn:Eo; [destruct l; [destruct Hxl|discriminate]|]. rewrite <- Eo in *.
      rewrite EO. cbn [bind]. rewrite UT. cbv zeta.
      rewrite (all_some_None (row_of sc so) l x), (all_some_None (dict_of sc so) l x); auto; destruct x; cbn in HLx; tauto || reflexivity.
    + left. apply DM_tuple. intros t Ht. apply in_map_iff in Ht as [u [<- Hu]].
      destruct (DA_components _ _ u (Dl_D _ _ u (DL u Hu))) as (dims & m & E & Y1 & Y2). exists dims, m. rewrite E. auto.
    + cbn [info rowtypes]. split; [destruct ts; [destruct Ha|discriminate]|]. split.
      * change (map (fun t => DataShapeT None (components t)) ts) with (map wrapc ts).
        rewrite (final_tuple (map wrapc ts) (wrapc a) (wrapc b) (wrapc c)).
        -- rewrite map_map. reflexivity.
        -- apply Forall_map. eapply Forall_impl; [|exact DD]. apply D_wrapc.
        -- now apply in_map.
        -- now apply in_map.
        -- exact NCab.
        -- apply in_map. eapply nth_error_In; eauto.
        -- assert (Dc : DM c) by (destruct (DL c ltac:(eapply nth_error_In; eauto)) as [X|(dims & m & _ & -> & _)]; [exact X|exfalso; eapply HNc; reflexivity]).
           unfold wrapc. rewrite components_DM by auto. cbn [is_DataShape ds_head andb]. apply (DM_facts _ _ c Dc).
      * clear -F2. induction F2 as [|u y ts l [E Y] _ IHf]; cbn; constructor; auto. exists u. auto.
  - assert (HT : forall n u x, In (n, u) fs -> In (n, x) d -> disc x = Ok u /\ Dl u).
    { intros n u x Hu Hx. destruct (IH n u x Hu Hx) as (X1 & X2 & _). auto. }
    pose proof (items_exact fs d ND HS HK HT) as IE.
    assert (SI : SortedStrs (map fst (map (fun f : str * ty => (fst f, Ok (snd f))) fs))) by (rewrite map_map; exact HS).
    assert (NF : NoDup (map fst fs)) by (apply Sorted_NoDup; exact HS).
    assert (E : disc (DMap k d) = discover_items (map (fun f => (fst f, Ok (snd f))) fs)).
    { assert (ES : sort_keys (items sc so d) = map (fun f => (fst f, Ok (snd f))) fs).
      { apply sorted_items_unique; auto.
        - apply sort_keys_Sorted. unfold items. rewrite map_map. exact ND.
        - intro x. rewrite <- IE. split; intro H; (eapply Permutation_in; [|exact H]); [apply sort_keys_perm|symmetry; apply sort_keys_perm]. }
      destruct k; cbn [discover]; fold (items sc so d); try (rewrite ES; reflexivity).
      f_equal. apply sorted_items_unique; auto. unfold items. rewrite map_map. cbn [fst]. change (SortedStrs (map fst d)). rewrite HO; auto. }
    assert (DF : forall f, In f fs -> Dl (snd f)).
    { intros [n u] Hf. pose proof (in_map fst _ _ Hf) as Hn. apply HK in Hn. apply in_map_iff in Hn as [[n' x] [En Hx]]. cbn in En. subst n'.
      apply (HT n u x Hf Hx). }
    split; [|split].
    + rewrite E. unfold discover_items.
      assert (EM : mapM (fun kr : str * res ty => let! t := snd kr in Ok (fst kr, PTy t)) (map (fun f => (fst f, Ok (snd f))) fs) = Ok (map (fun f => (fst f, PTy (snd f))) fs)).
      { clear. induction fs as [|f fs IH]; auto. cbn [map]. rewrite mapM_cons, IH. reflexivity. }
      rewrite EM. cbn [bind]. apply record_exact; auto. clear -DF. induction fs as [|f fs IH]; cbn; constructor; [|apply IH; intros; apply DF; right; auto].
      split; auto. eexists. split; [reflexivity|]. specialize (DF f (or_introl eq_refl)). clear -DF. destruct f as [n u]. cbn in *. destruct DF as [X|(dims & m & HN & -> & _)].
      * apply notLone_launder. eapply DM_notLone; eauto.
      * destruct dims as [|d0 dims]; [congruence|]. destruct dims; reflexivity.
    + left. apply DM_record; auto; [apply Forall_forall; intros; exact I|]. intros n u Hu. exact (DF (n, u) Hu).
    + cbn [info]. exists fs. auto 10.
Qed.
End Main.
