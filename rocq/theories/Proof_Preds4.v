(** C38 and C42 exactly. *)
From Coq Require Import Sorting.Sorted.
From Verif Require Import Base Types Lexer Construct Parser Ops Preds Spec_WF Spec_Eq Spec_Ops Spec_Preds
  Proof_Eq Proof_WF Proof_Parser Proof_Ops Proof_Ops2 Proof_Preds Proof_Preds2 Proof_Preds3.
Local Open Scope Z_scope.

Lemma SeenFixed_here t : SeenFixed t -> t <> VarT /\ forall s, t <> TypeVarT s.
Proof. intro H. apply H. constructor. Qed.
Lemma SeenFixed_array n ps : SeenFixed (DataShapeT n ps) <-> forall c, In c ps -> ~ IsDataShape c -> SeenFixed c.
Proof.
  split.
  - intros H c Hc Hd u Hu. apply H. econstructor; eauto.
  - intros H u Hu. inversion Hu as [|? ? c Hc Hd Hs|]; subst; [split; [discriminate|intros; discriminate]|]. apply (H c); auto.
Qed.
Lemma SeenFixed_record fs : SeenFixed (RecordT fs) <-> forall f, In f fs -> SeenFixed (snd f).
Proof.
  split.
  - intros H f Hf u Hu. apply H. econstructor; eauto.
  - intros H u Hu. inversion Hu as [| |? f Hf Hs]; subst; [split; [discriminate|intros; discriminate]|]. apply (H f); auto.
Qed.
Lemma SeenFixed_leaf t : ~ IsDataShape t -> (forall fs, t <> RecordT fs) ->
  (SeenFixed t <-> t <> VarT /\ forall s, t <> TypeVarT s).
Proof.
  intros H1 H2. split; [apply SeenFixed_here|]. intros H u Hu.
  inversion Hu as [|n ps c|fs]; subst; auto; exfalso; [apply H1; red; eauto|eapply H2; reflexivity].
Qed.
Lemma all_map_inv {A} (f : A -> res (option bool)) (Q : A -> Prop) l b :
  (forall x o, In x l -> f x = Ok o -> (o = Some true <-> Q x)) ->
  all_map f l = Ok b -> (b = true <-> forall x, In x l -> Q x).
Proof.
  induction l as [|x l IH]; intros H E; cbn [all_map] in E.
  - injection E as <-. split; [intros _ ? []|reflexivity].
  - destruct (f x) as [o|] eqn:Ef; [|discriminate]. cbn [bind] in E.
    pose proof (H x o (or_introl eq_refl) Ef) as Hx. destruct (truthy o) eqn:Et.
    + assert (o = Some true) as -> by (destruct o as [[]|]; try discriminate; reflexivity).
      rewrite IH; [|intros; apply H; auto; right; auto|exact E]. split.
      * intros G z [<-|Hz]; auto. apply Hx; reflexivity.
      * intros G z Hz. apply G. right; auto.
    + injection E as <-. split; [discriminate|]. intro G. assert (o = Some true) by (apply Hx, G; left; auto). subst. discriminate.
Qed.
Lemma all_map_total {A} (f : A -> res (option bool)) l : (forall x, In x l -> exists o, f x = Ok o) -> exists b, all_map f l = Ok b.
Proof.
  induction l as [|x l IH]; intro H; cbn [all_map]; [eauto|].
  destruct (H x (or_introl eq_refl)) as [o ->]. cbn [bind]. destruct (truthy o); [|eauto]. apply IH. intros; apply H; right; auto.
Qed.
Lemma ok_some b (o : option bool) : @Ok (option bool) (Some b) = Ok o -> (o = Some true <-> b = true).
Proof. intro H. injection H as <-. split; congruence. Qed.

Lemma isfixed_all n : forall t, (tsize t < n)%nat -> WF t ->
  (forall o, isfixedF n t = Ok o -> (o = Some true <-> SeenFixed t)) /\
  (~ DimensionClass t -> AllGood t -> FieldsOk t -> exists o, isfixedF n t = Ok o).
Proof.
  induction n as [|n IH]; intros t Hn HW; [lia|]. cbn [isfixedF].
  assert (HREC : forall fs, (tsize (RecordT fs) <= tsize t)%nat -> WF (RecordT fs) ->
    (forall o, (let! b := all_map (fun f => isfixedF n (snd f)) fs in Ok (Some b)) = Ok o -> (o = Some true <-> SeenFixed (RecordT fs))) /\
    (FieldsOk (RecordT fs) -> exists o, (let! b := all_map (fun f => isfixedF n (snd f)) fs in Ok (Some b)) = Ok o)).
  { intros fs Hs HWf.
    assert (HF : forall f, In f fs -> (tsize (snd f) < n)%nat /\ WF (snd f)).
    { intros f Hf. split; [rewrite tsize_Record in Hs; pose proof (fsize_In f fs Hf); lia|].
      eapply Occurs_WF; [exact HWf|]. eapply Occurs_in; [apply in_map; eauto|constructor]. }
    split.
    - intros o Ho. destruct (all_map _ fs) as [b|] eqn:Eb; [|discriminate]. cbn [bind] in Ho.
      rewrite (ok_some b o Ho), SeenFixed_record. apply (all_map_inv _ (fun f => SeenFixed (snd f)) fs b) in Eb; auto.
      intros f x Hf Hx. destruct (HF f Hf) as [F1 F2]. apply (IH (snd f) F1 F2); auto.
    - intros HO. destruct (all_map_total (fun f => isfixedF n (snd f)) fs) as [b ->]; [|cbn [bind]; eauto].
      intros f Hf. destruct (HF f Hf) as [F1 F2]. destruct (HO fs f (Seen_here _) Hf) as [D1 D2].
      apply (IH (snd f) F1 F2); auto. intros gs g Hg Hgi. apply (HO gs g); auto. econstructor; eauto. }
  (* arrays *)
  assert (HARR : forall nm p ps, (tsize (DataShapeT nm (p :: ps)) <= S (tsize t))%nat ->
      ((tsize (DataShapeT nm (p :: ps)) < S n)%nat \/ ps = []) -> (tsize p <= tsize t)%nat ->
      WF (DataShapeT nm (p :: ps)) ->
      let body := match p with
        | TypeVarT _ => Ok None
        | VarT => Ok (Some false)
        | RecordT fs => let! b := all_map (fun f => isfixedF n (snd f)) fs in Ok (Some b)
        | _ => if Nat.ltb 1 (py_len (DataShapeT nm (p :: ps))) then let! s := subarray (DataShapeT nm (p :: ps)) 1 in isfixedF n s
               else Ok (Some true)
        end in
      (forall o, body = Ok o -> (o = Some true <-> SeenFixed (DataShapeT nm (p :: ps)))) /\
      (FieldsOk (DataShapeT nm (p :: ps)) -> AllGood (DataShapeT nm (p :: ps)) -> exists o, body = Ok o)).
  { intros nm p ps Hs1 Hs Hsp HWa. cbv zeta.
    assert (Wp : WF p) by (eapply Occurs_WF; [exact HWa|]; eapply Occurs_in; [left; reflexivity|constructor]).
    pose proof (HWa _ (Occurs_here _)) as HO. fold (okps (p :: ps)) in HO.
    assert (HV : (p = VarT \/ exists s, p = TypeVarT s) -> ~ SeenFixed (DataShapeT nm (p :: ps))).
    { intros Hp HS. assert (ND : ~ IsDataShape p) by (destruct Hp as [-> |[s ->]]; intros [? [? ?]]; discriminate).
      destruct (proj1 (SeenFixed_array nm _) HS p (or_introl eq_refl) ND p (Seen_here _)) as [X Y].
      destruct Hp as [-> |[s ->]]; [auto|eapply Y; reflexivity]. }
    assert (Hmain : (forall s, p <> TypeVarT s) -> p <> VarT -> (forall fs, p <> RecordT fs) ->
      (forall o, (if Nat.ltb 1 (py_len (DataShapeT nm (p :: ps))) then let! s := subarray (DataShapeT nm (p :: ps)) 1 in isfixedF n s
         else Ok (Some true)) = Ok o -> (o = Some true <-> SeenFixed (DataShapeT nm (p :: ps)))) /\
      (FieldsOk (DataShapeT nm (p :: ps)) -> AllGood (DataShapeT nm (p :: ps)) ->
       exists o, (if Nat.ltb 1 (py_len (DataShapeT nm (p :: ps))) then let! s := subarray (DataShapeT nm (p :: ps)) 1 in isfixedF n s
         else Ok (Some true)) = Ok o)).
    { intros N1 N2 N3. assert (Ap : ~ IsDataShape p -> SeenFixed p) by (intro ND; apply SeenFixed_leaf; auto).
      cbn [py_len length]. destruct ps as [|q ps].
      - cbn. split; [|intros _ _; eauto]. intros o Ho. rewrite (ok_some true o Ho), SeenFixed_array.
        split; [intros _ c [<-|[]]; auto|reflexivity].
      - change (Nat.ltb 1 (length (p :: q :: ps))) with true. cbn iota.
        rewrite subarray_ok by (auto; cbn [length]; lia). cbn [bind].
        change (skipn (Z.to_nat 1) (p :: q :: ps)) with (q :: ps).
        destruct Hs as [Hs|Hs]; [|discriminate].
        destruct (IH (DataShapeT None (q :: ps))) as [I1 I2].
        + rewrite tsize_DataShape in *. cbn [lsize fold_right] in *. pose proof (tsize_pos p). lia.
        + apply WF_DataShape; [eapply okps_tail; [exact HO|discriminate]|].
          intros x Hx. eapply Occurs_WF; [exact HWa|]. eapply Occurs_in; [right; exact Hx|constructor].
        + split.
          * intros o Ho. rewrite (I1 o Ho), !SeenFixed_array. split; intros H c Hc; [destruct Hc as [<-|Hc]|]; auto. apply H. right; auto.
          * intros HF HA. apply I2.
            -- intro HDD; inversion HDD.
            -- intros m l Hm. inversion Hm as [|? ? c Hc Hr| | | | |]; subst.
               ++ destruct (HA nm (p :: q :: ps) (R_here _)) as [G1 G2]. split.
                  ** intros i j a b Ha Hb. apply (f_equal pred (x := S i) (y := S j)). apply (G1 (S i) (S j) a b); auto.
                  ** exact G2.
               ++ apply (HA m l). eapply R_array; [right; exact Hc|exact Hr].
            -- intros fs f Hf. apply HF. inversion Hf as [|? ? c Hc Hd Hss|]; subst. econstructor; [right; exact Hc| |]; auto. }
    destruct p; try (apply Hmain; (discriminate || (intros; discriminate))).
    + split; [|eauto]. intros o Ho. injection Ho as <-. split; [discriminate|]. intro HS. exfalso. apply HV; auto.
    + split; [|eauto]. intros o Ho. injection Ho as <-. split; [discriminate|]. intro HS. exfalso. apply HV; eauto.
    + assert (ps = []).
      { destruct HO as [dims [m [E [_ [HM _]]]]]. destruct dims as [|d dims].
        - injection E as _ E. auto.
        - exfalso. injection E as E1 _. apply (HM d (or_introl eq_refl)). subst d. constructor. }
      subst ps. assert (ND : ~ IsDataShape (RecordT fields)) by (intros [? [? ?]]; discriminate).
      destruct (HREC fields) as [R1 R2]; auto. split.
      * intros o Ho. rewrite (R1 o Ho), SeenFixed_array. split; [intros H c [<-|[]]; auto|intro H; apply H; auto; left; auto].
      * intros HF _. apply R2. intros fs f Hf. apply HF. econstructor; [left; reflexivity| |]; auto. }
  destruct (is_DataShape t) eqn:HD.
  - destruct t; try discriminate. cbn [dshape_ty bind]. destruct parameters as [|p ps].
    { exfalso. pose proof (HW _ (Occurs_here _)) as [d [m [X _]]]. destruct d; discriminate. }
    cbn [seq_head bind]. destruct (HARR name p ps) as [A1 A2]; auto; try lia.
    { rewrite tsize_DataShape. cbn [lsize fold_right]. lia. }
  - assert (E : dshape_ty t = let wrap := is_Unit t || match t with RecordT _ | JSONT => true | _ => false end in
       let! d := if wrap then mk_ds [t] else Ok t in let! _ := validate d in Ok d) by (destruct t; try discriminate; reflexivity).
    rewrite E. cbv zeta. clear E. assert (NL : ~ Lone t) by (intros [? [? ->]]; discriminate).
    assert (ND : ~ IsDataShape t) by (intros [? [? ->]]; discriminate).
    destruct (is_Unit t || _) eqn:W.
    + destruct (mk_ds [t]) as [d|] eqn:M.
      * assert (HDC : ~ DimensionClass t).
        { intro X. unfold mk_ds, mk_datashape in M. cbn [map mapM launder bind] in M.
          destruct X; cbn in M; discriminate. }
        rewrite (mk_ds_lone t HDC NL) in M. injection M as <-. cbn [bind].
        assert (WA : WF (DataShapeT None [t])).
        { apply WF_DataShape; [|intros x [<-|[]]; auto]. exists [], t. split; auto. split; auto. split; [intros ? []|]. intros x [<-|[]]; auto. }
        destruct (HARR None t []) as [A1 A2]; auto.
        { rewrite tsize_DataShape. cbn [lsize fold_right]. lia. }
        assert (SA : SeenFixed (DataShapeT None [t]) <-> SeenFixed t).
        { rewrite SeenFixed_array. split; [intro H; apply H; auto; left; auto|intros H c [<-|[]]; auto]. }
        assert (VA : AllGood t -> AllGood (DataShapeT None [t])).
        { intros G m l Hm. inversion Hm as [|? ? c Hc Hr| | | | |]; subst.
          - split.
            + intros [|[|]] [|[|]] a b Ha Hb; try discriminate; reflexivity.
            + cbn [last]. intros [o ->]. discriminate.
          - destruct Hc as [<-|[]]. apply (G m l Hr). }
        split.
        -- intros o Ho. destruct (validate (DataShapeT None [t])); [|discriminate]. cbn [bind seq_head] in Ho.
           rewrite (A1 o Ho). exact SA.
        -- intros _ G F. destruct (validate_spec (DataShapeT None [t])) as [[V _]|[_ V]]; [|exfalso; auto].
           rewrite V. cbn [bind seq_head]. apply A2; auto. intros fs f Hf Hi.
           apply (F fs f); auto. inversion Hf as [|? ? c Hc Hd Hs|]; subst. destruct Hc as [<-|[]]. auto.
      * cbn [bind]. split; [intros; discriminate|]. intros X. exfalso. rewrite (mk_ds_lone t X NL) in M. discriminate.
    + cbn [bind].
      assert (NR : forall fs, t <> RecordT fs) by (intros fs ->; discriminate).
      assert (L : t <> VarT /\ forall s, t <> TypeVarT s) by (split; [intros ->|intros s ->]; discriminate).
      assert (SL : SeenFixed t) by (apply SeenFixed_leaf; auto).
      assert (B : seq_head t = Ok t /\ py_len t = 1%nat) by (destruct t; try discriminate; split; reflexivity).
      destruct B as [B1 B2].
      assert (X : match t with TypeVarT _ => Ok None | VarT => Ok (Some false)
         | RecordT fs => let! b := all_map (fun f => isfixedF n (snd f)) fs in Ok (Some b) | _ => Ok (Some true) end = Ok (Some true)).
      { destruct t; try reflexivity; try discriminate. }
      split.
      * intros o Ho. destruct (validate t); [|discriminate]. cbn [bind] in Ho. rewrite B1 in Ho. cbn [bind] in Ho. rewrite B2 in Ho. cbn [Nat.ltb Nat.leb] in Ho. rewrite X in Ho. rewrite (ok_some true o Ho). tauto.
      * intros _ G _. destruct (validate_spec t) as [[V _]|[_ V]]; [|exfalso; auto]. rewrite V. cbn [bind]. rewrite B1. cbn [bind]. rewrite B2. cbn [Nat.ltb Nat.leb]. rewrite X. eauto.
Qed.

(** ** ishomogeneous *)
Lemma child_size c t : In c (children t) -> (tsize c < tsize t)%nat.
Proof.
  destruct t; cbn [children In]; intro H; try contradiction;
    try (destruct H as [<-|H]; [cbn [tsize]; lia|]); try contradiction.
  - rewrite tsize_DataShape. pose proof (lsize_In _ _ H). lia.
  - rewrite tsize_Function. pose proof (lsize_In _ _ H). lia.
  - destruct H as [<-|[]]. cbn [tsize]. lia.
  - apply in_map_iff in H as [f [<- H]]. rewrite tsize_Record. pose proof (fsize_In _ _ H). lia.
  - rewrite tsize_Tuple. pose proof (lsize_In _ _ H). lia.
  - rewrite tsize_TypeSet. pose proof (lsize_In _ _ H). lia.
Qed.
Lemma exposed_dec t : Exposed (EllipsisT None) t \/ ~ Exposed (EllipsisT None) t.
Proof.
  induction t as [t IH] using tsize_strong.
  assert (D : t = EllipsisT None \/ t <> EllipsisT None) by (destruct t as [| | | | | | | | | | | | | |[s|]| | | | | | | |]; auto; right; discriminate).
  destruct D as [->|D]; [left; constructor|]. destruct (isscalar t) eqn:E.
  - right. intro H. inversion H as [|? c Hs]; subst; congruence.
  - assert (X : (exists c, In c (children t) /\ Exposed (EllipsisT None) c) \/ forall c, In c (children t) -> ~ Exposed (EllipsisT None) c).
    { assert (HC : forall c, In c (children t) -> Exposed (EllipsisT None) c \/ ~ Exposed (EllipsisT None) c)
        by (intros c Hc; apply IH, child_size, Hc).
      induction (children t) as [|c l IHl]; [right; intros ? []|].
      destruct (HC c (or_introl eq_refl)) as [H|H]; [left; exists c; split; [left; auto|auto]|].
      destruct IHl as [[d [Hd Hx]]|Hn]; [intros; apply HC; right; auto|left; exists d; split; [right; auto|auto]|].
      right. intros d [<-|Hd]; auto. }
    destruct X as [[c [Hc Hx]]|Hn]; [left; eapply Exp_in; eauto|right; intro H; inversion H as [|? c Hs Hc Hx]; subst; [congruence|apply (Hn c); auto]].
Qed.
Fixpoint unexposed (v : pv) : Prop :=
  match v with
  | PvTy t => ~ Exposed (EllipsisT None) t
  | PvTup l => (fix go (l : list pv) : Prop := match l with [] => True | x :: r => unexposed x /\ go r end) l
  | _ => False
  end.
Lemma unexposed_tup l : unexposed (PvTup l) <-> forall x, In x l -> unexposed x.
Proof.
  change ((fix go (l : list pv) : Prop := match l with [] => True | x :: r => unexposed x /\ go r end) l <-> forall x, In x l -> unexposed x).
  induction l as [|x l IH]; simpl; [tauto|]. rewrite IH. split.
  - intros [A B] y [<-|Hy]; auto.
  - intro H. split; [|intros]; apply H; auto.
Qed.
Lemma unexposed_items v c : unexposed v -> isscalar_pv v = false -> In c (items v) -> unexposed c.
Proof.
  destruct v as [t|l|z|s|b|]; cbn [items isscalar_pv]; try contradiction; [|intros H _; apply unexposed_tup; auto].
  intros HE HS Hc.
  assert (G : forall c, In c (children t) -> unexposed (PvTy c)).
  { intros d Hd Ho. apply HE. eapply Exp_in; eauto. }
  assert (HU : is_Unit t || is_Categorical t = false).
  { destruct (is_Unit t || is_Categorical t) eqn:E; auto. rewrite (isscalar_bare t E) in HS. discriminate. }
  destruct t; try discriminate HU; cbn [params In children] in *; try contradiction;
    try (repeat (destruct Hc as [<-|Hc]; [apply G; simpl; auto|]); contradiction);
    try (apply in_map_iff in Hc; destruct Hc as [x [<- Hx]]; apply G; auto; apply in_map; auto; fail).
  - destruct typevar as [s|]; simpl in Hc; destruct Hc as [<-|[]].
    + intro Ho. inversion Ho as [|? ? _ Hx]; subst. destruct Hx.
    + exfalso. apply HE. constructor.
  - destruct Hc as [<-|[]]. apply unexposed_tup. intros x Hx. apply in_map_iff in Hx. destruct Hx as [l [<- Hl]]. apply G; auto.
Qed.
Lemma unexposed_Bad v : unexposed v -> ~ Bad isscalar_pv v.
Proof.
  intros HE HB. induction HB as [v H1 H2|v c H1 H2 H3 IH]; [destruct v; simpl in *; discriminate||contradiction|].
  apply IH. eapply unexposed_items; eauto.
Qed.
Lemma exposed_Bad t : Exposed (EllipsisT None) t -> Bad isscalar_pv (PvTy t).
Proof.
  induction 1 as [|t c HS Hc _ IH].
  - eapply Bad_in; [reflexivity|left; reflexivity|apply Bad_leaf; reflexivity].
  - assert (HU : is_Unit t || is_Categorical t = false).
    { destruct (is_Unit t || is_Categorical t) eqn:E; auto. rewrite (isscalar_bare t E) in HS. discriminate. }
    assert (D : In (PvTy c) (items (PvTy t)) \/ In (PvTup (map PvTy (children t))) (items (PvTy t))).
    { cbn [items]. destruct t; try discriminate HU; cbn [params children] in *; try contradiction;
        try (left; cbn in Hc |- *; intuition (subst; auto); fail);
        try (left; apply in_map; auto; fail); try (right; left; reflexivity).
      left. apply in_map_iff in Hc as [f [<- Hf]]. apply in_map_iff. exists f. auto. }
    destruct D as [D|D].
    + eapply Bad_in; [exact HS|exact D|exact IH].
    + eapply Bad_in; [exact HS|exact D|]. eapply Bad_in; [reflexivity|cbn [items]; apply in_map; exact Hc|exact IH].
Qed.
Lemma ishomogeneous_exact t d : dshape_ty t = Ok d -> WF d -> NoTypeSet d ->
  (Exposed (EllipsisT None) d /\ ishomogeneous t = Raise TypeErr) \/
  (~ Exposed (EllipsisT None) d /\ exists b, ishomogeneous t = Ok b /\
    (b = true <-> (exists x, Dtype d x) /\ forall x y, Dtype d x -> Dtype d y -> py_eq x y = true)).
Proof.
  intros Hd W N. destruct (exposed_dec d) as [HX|HX].
  - left. split; auto. unfold ishomogeneous. rewrite Hd. cbn [bind].
    destruct (collect_ok isscalar_pv (PvTy d)) as [[l Hl]|[_ ->]]; [|reflexivity].
    exfalso. apply (Bad_not_ok _ _ l (exposed_Bad d HX)). exact Hl.
  - right. split; auto. unfold ishomogeneous. rewrite Hd. cbn [bind].
    destruct (collect_ok isscalar_pv (PvTy d)) as [[l Hl]|[HB _]]; [|exfalso; apply (unexposed_Bad (PvTy d)); auto].
    rewrite Hl. cbn [bind]. eexists. split; [reflexivity|].
    apply homogeneous_list; auto.
Qed.
