(** Proofs for C61, part 4: [discover]. *)
From Verif Require Import Base Types Lexer Printer Construct Parser Ops Preds Numpy Graph Discovery
  Spec_WF Spec_Preds Spec_Eq Spec_Ops Spec_Print Spec_Discovery Spec_Found Spec_Fits
  Proof_WF Proof_Eq Proof_Canon Proof_Ops Proof_Preds Proof_Preds3 Proof_Coerce Proof_Discovery Proof_Discovery2 Proof_Discovery4
  Proof_Discovery5 Proof_Discovery6 Proof_Discovery7 Proof_Discovery8 Proof_Fits Proof_Fits2 Proof_Fits3.
From Coq Require Import Permutation.
Local Open Scope Z_scope.

(** ** leaves have no empty records *)
Definition NotRec (t : ty) : Prop := match t with RecordT _ | DataShapeT _ _ => False | _ => True end.
Lemma NotRec_NER t : NotRec t -> NER t.
Proof. intro H. constructor. intros fs E. destruct t; try discriminate; contradiction. Qed.
Lemma NER_launder t : D t -> NER t -> NER (launder_ty t).
Proof.
  intros H [X]. change launder_ty with unpack. constructor. intros fs E. apply X.
  destruct (D_unpack_cases t H) as [_ [Y|(d & e & r & ->)]]; [|exact E]. rewrite DM_unpack in E by auto. exact E.
Qed.
Lemma mk_string_NotRec f e t : mk_string f e = Ok t -> NotRec t.
Proof. unfold mk_string. destruct (assoc _ _); [|discriminate]. intro X; injection X as <-. exact I. Qed.
Lemma mk_timedelta_NotRec s t : mk_timedelta s = Ok t -> NotRec t.
Proof. unfold mk_timedelta. destruct (normalize_time_unit s); [|discriminate]. intro X; injection X as <-. exact I. Qed.
Lemma registry_NotRec n t : assoc n type_registry = Some t -> NotRec t.
Proof.
  intro H. apply Proof_Ops.assoc_In in H. unfold type_registry in H. repeat (destruct H as [H|H]; [injection H as <- <-; exact I|]). contradiction.
Qed.
Lemma ctype_from_NotRec d t : match d with NSwap _ | NBytes _ => False | _ => True end -> ctype_from_numpy_dtype d = Ok t -> NotRec t.
Proof.
  intros Hd E. destruct d; try contradiction; cbn [ctype_from_numpy_dtype] in E;
    (destruct (assoc _ _) as [t0|] eqn:Ea; [injection E as <-; eapply registry_NotRec; eauto|]); try discriminate;
    eauto using mk_string_NotRec, mk_timedelta_NotRec.
  destruct (mem_str _ _); injection E as <-; exact I.
Qed.
Lemma np_array_NER shp m t : DM m -> NER m -> np_array shp m = Ok t -> D t /\ NER t /\ (t = m \/ exists dims, dims <> [] /\ t = DataShapeT None (dims ++ [m])).
Proof.
  intros H HN E. pose proof (np_array_okR AnyN AnyT shp m H) as X. rewrite E in X. split; [exact X|]. unfold np_array in E.
  destruct shp as [|z shp]; [injection E as <-; split; auto|].
  destruct (mapM mk_fixed (z :: shp)) as [dims|] eqn:EM; [|discriminate]. cbn [bind] in E.
  assert (NE : dims <> []).
  { intros ->. rewrite mapM_cons in EM. destruct (mk_fixed z); [|discriminate]. cbn [bind] in EM. destruct (mapM mk_fixed shp); discriminate. }
  assert (HA : DA (dims ++ [m])).
  { exists dims, m. split; auto. split; auto. clear -EM. revert dims EM. generalize (z :: shp) as l. induction l as [|x l IH]; intros dims EM; [injection EM as <-; constructor|].
    rewrite mapM_cons in EM. unfold mk_fixed at 1 in EM. destruct (Z.ltb_spec x 0); [discriminate|]. cbn [bind] in EM.
    destruct (mapM mk_fixed l) as [r|]; [|discriminate]. injection EM as <-. constructor; auto. constructor; auto. }
  rewrite mk_ds_ok in E by (eapply DA_okps; eauto). injection E as <-. split; [|right; eauto].
  constructor. intros fs Ef. destruct dims as [|d [|d' dims]]; [congruence|discriminate|discriminate].
Qed.
Lemma mk_record_NER fs t : mk_record no_dsh fs = Ok t -> fs <> [] -> (forall n x, In (n, x) fs -> exists u, x = PTy u /\ D u /\ NER u) -> NER t.
Proof.
  intros E NE H. apply mk_record_names in E as [gs [-> [EN [ND FG]]]]. constructor. intros hs Eh. injection Eh as <-.
  split; [intros ->; destruct fs; [congruence|discriminate]|]. intros n u Hu.
  destruct (Forall2_In_l _ _ _ (n, u) FG Hu) as [[m x] [Hm [E1 E2]]]. destruct (H m x Hm) as (w & -> & Dw & Nw).
  cbn in E2. injection E2 as <-. now apply NER_launder.
Qed.
Lemma np_measure_NER d t : np_measure d = Ok t -> DM t /\ NER t.
Proof.
  intro E. pose proof (np_measure_okR AnyN AnyT KK (fun _ => I) d (fun _ _ => I)) as X. rewrite E in X. split; [exact X|].
  revert t E X. induction d as [d Hd|d IH|l IH] using npdt_ind'; intros t E X.
  - apply NotRec_NER.
    destruct d; try contradiction; cbn [np_measure] in E; eauto using mk_string_NotRec; (eapply ctype_from_NotRec; [|exact E]; exact I).
  - apply IH; auto.
  - destruct l as [|f l]; [apply NotRec_NER; eapply ctype_from_NotRec; [|exact E]; exact I|].
    cbn [np_measure] in E. match type of E with bind ?m _ = _ => destruct m as [fs|] eqn:EM; [|discriminate] end. cbn [bind] in E.
    apply mapM_Ok_Forall2 in EM. eapply mk_record_NER; eauto.
    + intros ->. inversion EM.
    + intros n x Hx. destruct (Forall2_In_l _ _ _ (n, x) EM Hx) as [[m [shp b]] [Hm Eb]].
      destruct (np_measure b) as [mb|] eqn:Emb; [|discriminate]. cbn [bind] in Eb. destruct (np_array shp mb) as [tb|] eqn:Etb; [|discriminate].
      injection Eb as -> <-. rewrite Forall_forall in IH. specialize (IH _ Hm). cbn [snd] in IH.
      pose proof (np_measure_okR AnyN AnyT KK (fun _ => I) b (fun _ _ => I)) as Xb. rewrite Emb in Xb.
      destruct (np_array_NER shp mb tb Xb (IH mb Emb Xb) Etb) as (Y1 & Y2 & _). eauto.
Qed.
Lemma from_numpy_NER shp d t : from_numpy shp d = Ok t -> D t /\ NER t /\ exists m, DM m /\ NER m /\ (t = m \/ exists dims, dims <> [] /\ t = DataShapeT None (dims ++ [m])).
Proof.
  unfold from_numpy. destruct (np_measure d) as [m|] eqn:E; [|discriminate]. cbn [bind]. intro H.
  destruct (np_measure_NER d m E) as [X1 X2]. destruct (np_array_NER shp m t X1 X2 H) as (Y1 & Y2 & Y3). eauto 10.
Qed.
Lemma mk_ds_NER s m t : Forall (fun d => DDim d) s -> DM m -> NER m -> mk_ds (s ++ [m]) = Ok t -> NER t.
Proof.
  intros Hs Hm HN E. rewrite mk_ds_ok in E by (eapply DA_okps; exists s, m; eauto). injection E as <-.
  constructor. intros fs Ef. destruct s as [|a [|b s]]; [|discriminate|discriminate]. cbn in Ef. destruct HN as [HN]. apply HN. rewrite DM_unpack; auto.
Qed.
Lemma discover_arr_NER shp dt strs t : discover_arr shp dt strs = Ok t -> NER t.
Proof.
  unfold discover_arr. destruct (from_numpy shp dt) as [ds|] eqn:E; [|discriminate]. cbn [bind].
  destruct (from_numpy_NER _ _ _ E) as (Dd & Nd & m & Dm & Nm & Hds).
  destruct (D_parts ds Dd) as (dims & mm & _ & Fd & _ & S1 & T1).
  destruct (py_eq (measure ds) object_t && strs None).
  { intro H. eapply (mk_ds_NER (shape ds)); [rewrite S1; exact Fd|apply DM_string_t; auto| |exact H]. constructor; intros; discriminate. }
  destruct (isrecord (measure ds)); [|intro H; injection H as <-; auto].
  assert (M : measure ds = m).
  { destruct Hds as [->|[dd [_ ->]]]; [|cbn [measure]; apply last_last]. destruct (DM_facts _ _ m Dm) as [X _]. destruct m; try reflexivity; discriminate. }
  rewrite M. destruct m; try (intro H; injection H as <-; exact Nd). rename fields into fs.
  destruct (existsb _ fs) eqn:EE; [|intro H; injection H as <-; exact Nd].
  destruct (mk_record no_dsh _) as [r|] eqn:ER; [|discriminate]. cbn [bind]. intro H.
  assert (HR : DM r /\ NER r).
  { split.
    - pose proof (mk_record_okR AnyN AnyT (map (fun f : str * ty => (fst f, PTy (if py_eq (snd f) object_t && strs (Some (fst f)) then string_t else snd f))) fs)) as X.
      rewrite ER in X. cbn in X. apply X. apply Forall_forall. intros f Hf. apply in_map_iff in Hf as [[n u] [<- Hf]]. cbn. split; auto.
      eexists. split; [reflexivity|]. destruct (_ && _); [left; apply DM_string_t; auto|]. apply Dl_D. eapply record_field_D; eauto.
    - destruct Nm as [Nm]. destruct (Nm fs eq_refl) as [N1 N2]. eapply mk_record_NER; [exact ER| |].
      + destruct fs; [congruence|discriminate].
      + intros n x Hx. apply in_map_iff in Hx as [[m u] [Ex Hu]]. cbn in Ex. injection Ex as <- <-. eexists. split; [reflexivity|].
        destruct (_ && _); [split; [left; apply DM_string_t; auto|constructor; intros; discriminate]|].
        split; [apply Dl_D; eapply record_field_D; eauto|eauto]. }
  eapply (mk_ds_NER (shape ds)); [rewrite S1; exact Fd|exact (proj1 HR)|exact (proj2 HR)|exact H].
Qed.
Lemma or_else_NotRec r k : (forall t, r = Ok t -> NotRec t) -> (forall t, k = Ok t -> NotRec t) -> forall t, or_else r k = Ok t -> NotRec t.
Proof. intros H1 H2 t. destruct r as [u|[]]; cbn; auto; discriminate. Qed.
Lemma deltaparse_NER so s t : deltaparse so s = Ok t -> NotRec t.
Proof.
  unfold deltaparse. destruct (words [] s) as [|v [|u [|]]]; try discriminate. destruct (so_float so v) as [[z|]|]; try discriminate.
  destruct (normalize_time_unit u) as [u'|]; [|discriminate]. cbn [bind]. destruct (_ && _); [|discriminate].
  unfold from_numpy. destruct (np_measure _) as [m|] eqn:E; [|discriminate]. cbn [bind]. unfold np_array. intro H; injection H as <-.
  cbn [np_measure] in E. eapply ctype_from_NotRec; [|exact E]; exact I.
Qed.
Lemma discover_str_NotRec so s t : discover_str so s = Ok t -> NotRec t.
Proof.
  unfold discover_str. destruct s as [|c s]; [intro H; injection H as <-; exact I|]. revert t.
  apply or_else_NotRec; [destruct (so_int so (c :: s)); intros t H; [injection H as <-; exact I|discriminate]|].
  apply or_else_NotRec; [destruct (so_float so (c :: s)); intros t H; [injection H as <-; exact I|discriminate]|].
  apply or_else_NotRec; [destruct (mem_str _ _); intros t H; [injection H as <-; exact I|discriminate]|].
  apply or_else_NotRec; [intro t; apply deltaparse_NER|].
  apply or_else_NotRec; [destruct (so_time so (c :: s)); intros t H; [injection H as <-; exact I|discriminate]|].
  destruct (so_alpha so (c :: s) || _); [intros t H; injection H as <-; exact I|].
  destruct (so_date so (c :: s)) as [[]|[]]; intros t H; try discriminate; injection H as <-; exact I.
Qed.
Lemma leaf_NER sc so v t : IsLeaf v -> discover sc so v = Ok t -> NER t.
Proof.
  intros HL H.
  destruct v; cbn [discover] in *; try contradiction;
    try (injection H as <-; apply NotRec_NER; exact I); try discriminate.
  - apply NotRec_NER. eapply discover_str_NotRec; eauto.
  - now apply discover_arr_NER in H.
  - now apply from_numpy_NER in H.
Qed.

(** ** [discover] *)
Section Main.
Variables (sc : sched) (so : strings).
Hypothesis Hso : dates_ok so.
Notation disc := (discover sc so).
Definition leafd (v : dval) (t : ty) : Prop := disc v = Ok t.
Notation Fits := (Fits leafd).
Notation Full := (Full leafd).
Lemma leafd_none : leafd DNone NullT. Proof. reflexivity. Qed.
Definition Good (v : dval) : Prop := forall t, disc v = Ok t -> D t /\ NER t /\ Full t v.
Lemma disc_D v t : disc v = Ok t -> D t.
Proof. intro H. pose proof (All_ok AnyN sc so Hso v (fun _ _ => I)) as X. rewrite H in X. exact X. Qed.
Lemma Good_none : Good DNone.
Proof.
  intros t H. injection H as <-. split; [left; apply DM_null; auto|]. split; [apply NotRec_NER; exact I|].
  apply Full_null. exact leafd_none.
Qed.
Lemma all_some_map {A B} (f : A -> option B) l r : all_some (map f l) = Some r -> Forall2 (fun x y => f x = Some y) l r.
Proof.
  revert r. induction l as [|x l IH]; intros r H; [injection H as <-; constructor|]. cbn [map all_some] in H.
  destruct (f x) as [y|] eqn:E; [|discriminate]. destruct (all_some (map f l)) as [ys|]; [|discriminate]. injection H as <-. constructor; auto.
Qed.
Lemma mapM_id_inv (l : list (res ty)) ts : mapM (fun r => r) l = Ok ts -> l = map Ok ts.
Proof.
  revert ts. induction l as [|x l IH]; intros ts H; [injection H as <-; reflexivity|]. rewrite mapM_cons in H.
  destruct x as [t|]; [|discriminate]. cbn [bind] in H. destruct (mapM _ l) as [us|]; [|discriminate]. injection H as <-.
  cbn. f_equal. auto.
Qed.
Lemma good_list (vs : list dval) (ts : list ty) : Forall Good vs -> map disc vs = map Ok ts -> Forall D ts /\ Forall NER ts /\ Forall2 Full ts vs.
Proof.
  revert ts. induction vs as [|v vs IH]; intros [|t ts] HG H; try discriminate; [split; [constructor|split; constructor]|].
  cbn in H. injection H as H1 H2. inversion HG as [|? ? G1 G2]; subst. destruct (G1 t H1) as (X1 & X2 & X3).
  destruct (IH ts G2 H2) as (Y1 & Y2 & Y3). split; [|split]; constructor; auto.
Qed.
Lemma column_good col (vs : list dval) r : col = map disc vs -> Forall Good vs -> column_type sc col = Ok r ->
  D r /\ forall v, In v vs -> Fits r v.
Proof.
  intros -> HG H. pose proof H as H0. unfold column_type in H0. destruct (mapM (fun r => r) (map disc vs)) as [ts|] eqn:E; [|discriminate].
  pose proof (mapM_id_inv _ _ E) as E'. destruct (good_list vs ts HG E') as (X1 & X2 & X3).
  eapply column_fits; eauto. exact leafd_none.
Qed.
(** rows *)
Definition cell (j : nat) (v : dval) : dval := match v with DSeq _ l => nth j l DNone | _ => DNone end.
Definition Row (v : dval) : Prop := exists k l, v = DSeq k l /\ Forall Good l.
Lemma rows_fits k l rs r : Forall Row l -> Forall2 (fun x y => row_of sc so x = Some y) l rs -> same_lengths rs = true ->
  discover_rows sc rs = Ok r -> D r /\ SeqType r /\ Fits r (DSeq k l).
Proof.
  intros HR HF HS H. unfold discover_rows in H. set (m := length (hd [] rs)) in *.
  assert (LM : forall x y, In x l -> In y rs -> row_of sc so x = Some y -> exists k l2, x = DSeq k l2 /\ Forall Good l2 /\ y = map disc l2 /\ length l2 = m).
  { intros x y Hx Hy E. rewrite Forall_forall in HR. destruct (HR x Hx) as (k2 & l2 & -> & HG). exists k2, l2. split; auto. split; auto.
    assert (EY : y = map disc l2) by (destruct k2; cbn in E; congruence). split; auto.
    assert (length y = m).
    { unfold m. destruct rs as [|r0 rs]; [destruct Hy|]. cbn [hd]. destruct Hy as [->|Hy]; auto. cbn [same_lengths] in HS.
      rewrite forallb_forall in HS. apply Nat.eqb_eq. auto. }
    rewrite EY, map_length in H0. exact H0. }
  assert (HF2 : Forall2 (fun x y => exists k l2, x = DSeq k l2 /\ Forall Good l2 /\ y = map disc l2 /\ length l2 = m) l rs).
  { eapply Forall2_In_impl; [|exact HF]. exact LM. }
  clear HF LM HR. clearbody m.
  destruct (mapM (column_type sc) (transpose (Ok NullT) m rs)) as [types|] eqn:EM; [|discriminate]. cbn [bind] in H.
  destruct (unite_final types) as [t|] eqn:EU; [|discriminate]. cbn [bind] in H.
  apply mapM_Ok_Forall2 in EM. unfold transpose in EM.
  assert (ET : Forall2 (fun j T => D T /\ forall v, In v l -> Fits T (cell j v)) (seq 0 m) types).
  { assert (X : forall js, (forall j, In j js -> (j < m)%nat) -> forall types, Forall2 (fun x y => column_type sc x = Ok y) (map (fun i => map (fun r => nth i r (Ok NullT)) rs) js) types ->
        Forall2 (fun j T => D T /\ forall v, In v l -> Fits T (cell j v)) js types).
    { induction js as [|j js IH]; intros Hj tys HT; inversion HT as [|? T ? tys' H1 H2]; subst; constructor.
      - assert (E : map (fun r => nth j r (Ok NullT)) rs = map disc (map (cell j) l) /\ Forall Good (map (cell j) l)).
        { assert (Hjm : (j < m)%nat) by (apply Hj; left; auto). clear -HF2 Hjm.
          induction HF2 as [|x y l rs (k2 & l2 & -> & HG & -> & HL) _ [I1 I2]]; [split; constructor|]. cbn [map cell]. split.
          - f_equal; auto. rewrite <- (map_nth disc). apply nth_indep. rewrite map_length. lia.
          - constructor; auto. rewrite Forall_forall in HG. apply HG. apply nth_In. lia. }
        destruct E as [E1 E2]. destruct (column_good _ _ _ E1 E2 H1) as [Y1 Y2]. split; auto. intros v Hv. apply Y2. now apply in_map.
      - apply IH; auto. intros i Hi. apply Hj. right; auto. }
    apply X; [|exact EM]. intros j Hj. apply in_seq in Hj. lia. }
  assert (DT : Forall D types) by (clear -ET; induction ET as [|? ? ? ? [X _]]; constructor; auto).
  assert (FR : forall v, In v l -> exists k2 l2, v = DSeq k2 l2 /\ D t /\ Fits t v).
  { intros v Hv.
    assert (X : exists k2 l2, v = DSeq k2 l2 /\ length l2 = m).
    { clear -HF2 Hv. induction HF2 as [|x y l rs (k2 & l2 & -> & HG & -> & HL) _ IH]; [destruct Hv|]. destruct Hv as [<-|Hv]; eauto. }
    destruct X as (k2 & l2 & -> & HL). exists k2, l2. split; auto.
    assert (F2 : Forall2 Fits types l2).
    { assert (G : forall n q tys, (n + length q)%nat = length l2 -> (forall i, (i < length q)%nat -> nth i q DNone = nth (n + i) l2 DNone) ->
         Forall2 (fun j T => D T /\ forall v, In v l -> Fits T (cell j v)) (seq n (length q)) tys -> Forall2 Fits tys q).
      { clear -Hv. intros n q. revert n. induction q as [|x q IH]; intros n tys HL HN HT; inversion HT as [|? T ? tys' [H1 H1'] H2]; subst; constructor.
        - specialize (H1' _ Hv). cbn [cell] in H1'. specialize (HN 0%nat ltac:(cbn; lia)). cbn [nth] in HN. rewrite Nat.add_0_r in HN. rewrite HN. exact H1'.
        - apply (IH (S n)); auto; [cbn in HL; lia|]. intros i Hi. specialize (HN (S i) ltac:(cbn; lia)). cbn [nth] in HN. rewrite HN. f_equal. lia. }
      apply (G 0%nat); [reflexivity|intros; reflexivity|]. rewrite HL. exact ET. }
    destruct (unite_final_fits leafd types l2 t k2 DT F2 EU) as (X1 & _ & X3). auto. }
  destruct rs as [|r0 rs]; [discriminate|]. destruct l as [|v0 l]; [inversion HF2|].
  destruct (FR v0 (or_introl eq_refl)) as (_ & _ & _ & Dt & _).
  rewrite mul_D in H by (auto; unfold len; lia). injection H as <-.
  pose proof (DA_components _ _ t Dt) as HA. split; [|split].
  - right. eexists. split; [reflexivity|]. apply DA_cons; auto. constructor. unfold len; lia.
  - left. pose proof (DA_nonnil _ HA). destruct (components t); [congruence|]. eauto.
  - rewrite len_length, <- (F2_len _ _ _ HF2). apply Fits_fixed; [now apply DA_nonnil|]. intros x Hx.
    destruct (FR x Hx) as (_ & _ & _ & _ & X). now apply Fits_components.
Qed.
(** dicts *)
Definition value (n : str) (v : dval) : dval := match v with DMap _ d => match assoc n d with Some x => x | None => DNone end | _ => DNone end.
Lemma assoc_items n d : assoc n (items sc so d) = option_map disc (assoc n d).
Proof. induction d as [|[m x] d IH]; auto. cbn [items map assoc fst snd]. destruct (str_eqb n m); auto. Qed.
Definition Dict (v : dval) : Prop := exists k d, v = DMap k d /\ Forall (fun kv => Good (snd kv)) d.
Lemma assoc_Forall {B} (P : B -> Prop) (d : list (str * B)) n x : Forall (fun kv => P (snd kv)) d -> assoc n d = Some x -> P x.
Proof. intros H E. apply Proof_Ops.assoc_In in E. rewrite Forall_forall in H. exact (H _ E). Qed.
Lemma dicts_fits k l ds r : l <> [] -> Forall Dict l -> Forall2 (fun x y => dict_of sc so x = Some y) l ds ->
  discover_dicts sc ds = Ok r -> D r /\ SeqType r /\ Fits r (DSeq k l).
Proof.
  intros NE HD HF H. unfold discover_dicts in H. set (keys := sorted_set _) in *.
  assert (HF2 : Forall2 (fun x y => exists k d, x = DMap k d /\ Forall (fun kv => Good (snd kv)) d /\ y = items sc so d) l ds).
  { eapply Forall2_In_impl; [|exact HF]. intros x y Hx _ E. cbv beta in E. rewrite Forall_forall in HD. destruct (HD x Hx) as (k2 & d & -> & HG).
    exists k2, d. split; auto. split; auto. destruct k2; cbn in E; congruence. }
  clear HF HD. clearbody keys.
  match type of H with bind (mapM ?f keys) _ = _ => set (G := f) in * end.
  destruct (mapM G keys) as [types|] eqn:EM; [|discriminate]. cbn [bind] in H. apply mapM_Ok_Forall2 in EM.
  assert (ET : Forall2 (fun n T => D T /\ forall v, In v l -> Fits T (value n v)) keys types).
  { eapply Forall2_In_impl; [|exact EM]. intros n T _ _ E. unfold G in E.
    assert (X : map (get_or_null n) ds = map disc (map (value n) l) /\ Forall Good (map (value n) l)).
    { clear -HF2. induction HF2 as [|x y l rs (k2 & d & -> & HG & ->) _ [I1 I2]]; [split; constructor|]. cbn [map value]. split.
      - f_equal; auto. unfold get_or_null. rewrite assoc_items. destruct (assoc n d); reflexivity.
      - constructor; auto. destruct (assoc n d) eqn:E; [eapply assoc_Forall; eauto|apply Good_none]. }
    destruct X as [X1 X2]. destruct (column_good _ _ _ X1 X2 E) as [Y1 Y2]. split; auto. intros v Hv. apply Y2. now apply in_map. }
  clear EM G. destruct (mk_record no_dsh _) as [rec|] eqn:ER; [|discriminate]. cbn [bind] in H.
  pose proof (mk_record_okR AnyN AnyT (map (fun kt : str * ty => (fst kt, PTy (snd kt))) (combine keys types))) as XR. rewrite ER in XR.
  assert (DR : DM rec).
  { apply XR. clear -ET. induction ET as [|n T ks ts [H _] _ IH]; cbn [combine map]; [constructor|]. constructor; [split; [exact I|exists T; split; [reflexivity|exact H]]|exact IH]. }
  clear XR. rewrite mul_D in H by (first [left; exact DR|unfold len; lia]). injection H as <-. rewrite components_DM by auto.
  split; [|split].
  - right. eexists. split; [reflexivity|]. apply DA_cons; [constructor; unfold len; lia|now apply DA_single].
  - left. eauto.
  - rewrite len_length, <- (F2_len _ _ _ HF2). apply Fits_fixed; [discriminate|]. intros v Hv. apply Fits_one.
    apply mk_record_names in ER as [gs [-> [EN [ND FG]]]].
    assert (X : exists k2 d, v = DMap k2 d).
    { clear -HF2 Hv. induction HF2 as [|x y l rs (k2 & d & -> & HG & ->) _ IH]; [destruct Hv|]. destruct Hv as [<-|Hv]; eauto. }
    destruct X as (k2 & d & ->). apply Fits_record. intros n t Hn. change (Fits t (value n (DMap k2 d))).
    clear -ET FG Hn Hv. revert gs FG Hn. induction ET as [|m T ks ts [H1 H2] _ IH]; intros gs FG Hn; cbn [combine map] in FG; inversion FG as [|? g ? gs' [X1 X2] X3]; subst; [destruct Hn|].
    destruct Hn as [E|Hn]; [|eapply IH; eauto]. subst g. cbn in X1, X2. injection X2 as X2. subst m t. apply Fits_launder; auto.
Qed.
Lemma map_good k d : d <> [] -> NoDup (map fst d) -> Forall (fun kv => Good (snd kv)) d -> Good (DMap k d).
Proof.
  intros NE ND HG t H. pose proof (disc_D _ _ H) as HD. split; auto.
  destruct (discover_dict_types sc so k d t ND H) as (fs & -> & HT).
  assert (KE : Permutation (map fst fs) (map fst d)).
  { assert (E : exists its, disc (DMap k d) = discover_items its /\ Permutation its (items sc so d)).
    { destruct k; [exists (sort_keys (items sc so d))|exists (items sc so d)|exists (sort_keys (items sc so d))]; (split; [reflexivity|]);
        try reflexivity; apply sort_keys_perm. }
    destruct E as (its & E & HP). rewrite E in H. unfold discover_items in H. destruct (mapM _ its) as [q|] eqn:EM; [|discriminate]. cbn [bind] in H.
    apply mapM_items in EM. apply mk_record_names in H as [gs [X [Hn _]]]. injection X as <-. rewrite Hn, EM. rewrite HP.
    unfold items. rewrite map_map. reflexivity. }
  assert (NF : NoDup (map fst fs)) by (eapply Permutation_NoDup; [symmetry; exact KE|auto]).
  assert (FF : forall n x, assoc n d = Some x -> D (getf fs n) /\ NER (getf fs n) /\ Full (getf fs n) x).
  { intros n x E. pose proof (Proof_Ops.assoc_In _ _ _ E) as Hin. destruct (HT n x Hin) as (u & F & E1 & E2 & E3).
    rewrite (getf_In fs n F) by auto. rewrite Forall_forall in HG. destruct (HG _ Hin u E1) as (X1 & X2 & X3).
    assert (EF : F = launder_ty u).
    { destruct E3 as [<-|[m ->]]; [|reflexivity]. symmetry. apply notLone_launder.
      assert (DF : Dl F) by (destruct HD as [HD|[ps [X _]]]; [eapply record_field_D; eauto|discriminate]).
      destruct HD as [HD|[ps [X _]]]; [|discriminate]. destruct (DM_facts _ _ _ HD) as [_ [_ [[_ X] _]]]. apply X. apply in_map_iff. exists (n, F). auto. }
    subst F. split; [apply Dl_D, D_launder; auto|]. split; [apply NER_launder; auto|apply Full_launder; auto]. }
  split.
  - constructor. intros gs Eg. injection Eg as <-. split.
    + intros ->. apply NE. apply Permutation_nil in KE. destruct d; [reflexivity|discriminate].
    + intros n u Hu. assert (Hn : In n (map fst d)) by (eapply Permutation_in; [exact KE|]; apply in_map_iff; exists (n, u); auto).
      destruct (assoc n d) as [x|] eqn:E; [|apply Proof_Ops.assoc_None in E; contradiction].
      destruct (FF n x E) as (_ & X & _). rewrite (getf_In fs n u) in X by auto. exact X.
  - constructor; auto; [intros n x E; apply (FF n x E)|]. intros n E. apply Proof_Ops.assoc_None in E.
    destruct (getf_FieldOr fs n) as [X|[_ X]]; auto. exfalso. apply E. eapply Permutation_in; [exact KE|]. apply in_map_iff. eexists; split; [|exact X]. reflexivity.
Qed.
Definition Kids (v : dval) : Prop := match v with DSeq _ l => Forall Good l | DMap _ d => Forall (fun kv => Good (snd kv)) d | _ => True end.
Lemma seq_good k l : Forall Good l -> Forall Kids l -> Good (DSeq k l).
Proof.
  intros HG HK t H. pose proof (disc_D _ _ H) as HD. split; auto.
  assert (X : SeqType t /\ Fits t (DSeq k l)); [|destruct X as [X1 X2]; split; [now apply SeqType_NER|now constructor]].
  rewrite discover_seq_eq in H. unfold discover_seq in H. destruct l as [|v0 l0].
  { cbn in H. injection H as <-. split; [left; eauto|]. apply Fits_var; [discriminate|]. intros x []. }
  remember (v0 :: l0) as l eqn:El. assert (NE : l <> []) by (subst; discriminate).
  assert (EM : exists a b, map disc l = a :: b) by (subst; cbn; eauto).
  destruct (map disc l) as [|a b] eqn:Eab; [destruct EM as (? & ? & EM); discriminate|]. rewrite <- Eab in *. clear a b Eab EM v0 l0 El.
  cbv zeta in H.
  assert (FB : forall t, (let! types := mapM (fun r => r) (map disc l) in unite_final types) = Ok t -> SeqType t /\ Fits t (DSeq k l)).
  { clear t HD H. intros t H. destruct (mapM (fun r => r) (map disc l)) as [ts|] eqn:E; [|discriminate]. cbn [bind] in H.
    apply mapM_id_inv in E. destruct (good_list l ts HG E) as (X1 & X2 & X3).
    destruct (unite_final_fits leafd ts l t k X1 ltac:(eapply Forall2_In_impl; [|exact X3]; intros; now apply (Full_Fits _ leafd_none)) H) as (_ & Y). exact Y. }
  set (fb := let! types := mapM (fun r => r) (map disc l) in unite_final types) in *.
  assert (S2 : forall t, match all_some (map (dict_of sc so) l) with Some ds => on_attribute_error (discover_dicts sc ds) fb | None => fb end = Ok t ->
                 SeqType t /\ Fits t (DSeq k l)).
  { clear t HD H. intros t H. destruct (all_some (map (dict_of sc so) l)) as [ds|] eqn:EA; auto. apply all_some_map in EA.
    destruct (discover_dicts sc ds) as [u|e] eqn:ED; [|cbn in H; destruct e; try discriminate; auto].
    cbn in H. injection H as ->.
    destruct (dicts_fits k l ds t NE) with (2 := EA) (3 := ED) as (_ & Y); auto. clear -EA HK.
    induction EA as [|x y l ds E _ IH]; constructor; inversion HK; subst; auto. destruct x; try discriminate. eexists; eexists; split; [reflexivity|]. assumption. }
  destruct (all_some (map (row_of sc so) l)) as [rs|] eqn:EA; [|auto]. destruct (same_lengths rs) eqn:ES; [|auto]. apply all_some_map in EA.
  destruct (discover_rows sc rs) as [u|e] eqn:ER; [|cbn in H; destruct e; try discriminate; auto].
  cbn in H. injection H as ->. destruct (rows_fits k l rs t) with (2 := EA) (3 := ES) (4 := ER) as (_ & Y); auto. clear -EA HK.
  induction EA as [|x y l ds E _ IH]; constructor; inversion HK; subst; auto. destruct x; try discriminate. eexists; eexists; split; [reflexivity|]. assumption.
Qed.
Theorem discover_good v : NoEmptyDict v -> Good v /\ Kids v.
Proof.
  induction v as [v HL|k l IH|k l IH] using dval_ind'.
  - intros _. assert (IL : IsLeaf v) by (destruct v; cbn in *; tauto). split; [|destruct v; cbn in *; tauto].
    intros t H. split; [eapply disc_D; eauto|]. split; [eapply leaf_NER; eauto|]. eapply Full_leaf; [exact IL|exact H|constructor].
  - intro H. inversion H as [v HL| ? ? HF|]; subst; [destruct HL|].
    assert (X : Forall (fun x => Good x /\ Kids x) l) by (rewrite Forall_forall in *; auto).
    split; [|cbn; eapply Forall_impl; [|exact X]; intros a [Y1 Y2]; assumption]. apply seq_good; (eapply Forall_impl; [|exact X]; intros a [Y1 Y2]; assumption).
  - intro H. inversion H as [v HL| |? ? NE ND HF]; subst; [destruct HL|].
    assert (X : Forall (fun kv => Good (snd kv)) l) by (rewrite Forall_forall in *; intros x Hx; apply IH; auto).
    split; [|exact X]. now apply map_good.
Qed.
Theorem discover_fits v t : NoEmptyDict v -> disc v = Ok t -> Fits t v.
Proof. intros HN H. destruct (discover_good v HN) as [G _]. destruct (G t H) as (_ & _ & X). apply (Full_Fits _ leafd_none); auto. Qed.
End Main.
