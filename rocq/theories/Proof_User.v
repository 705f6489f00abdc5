From Verif Require Import Base Types Lexer Construct Parser Ops Preds User Spec_WF Spec_Ops Spec_Preds Spec_User
  Proof_WF Proof_Ops Proof_Ops2 Proof_Preds2 Proof_Preds3.
Local Open Scope Z_scope.

Section P.
  Variable np : ty -> value -> res bool.
  Hypothesis np_total : forall t v, exists b, np t v = Ok b.

  Lemma Valid_none t : ~ Valid np t VNone.
  Proof.
    intro H. remember VNone as v eqn:E. induction H; subst; try discriminate; auto.
    - inversion H.
    - inversion H0.
    - inversion H0.
    - inversion H.
  Qed.
  Lemma allM_spec {A} (f : A -> res bool) (Q : A -> Prop) l :
    (forall x, In x l -> exists b, f x = Ok b /\ (b = true <-> Q x)) ->
    exists b, allM f l = Ok b /\ (b = true <-> forall x, In x l -> Q x).
  Proof.
    induction l as [|x l IH]; intro H; simpl; [exists true; split; auto; split; auto; contradiction|].
    destruct (H x (or_introl eq_refl)) as [o [-> Ho]]. cbn [bind].
    destruct IH as [b [Hb HB]]; [intros; apply H; right; auto|]. destruct o.
    - exists b. split; auto. rewrite HB. split; intros G z; [intros [<-|Hz]; auto; apply Ho; auto|intro Hz; apply G; auto].
    - exists false. split; auto. split; [discriminate|]. intro G. apply Ho. apply G; auto.
  Qed.
  Lemma combine_nth {A B} (l : list A) (m : list B) x y :
    In (x, y) (combine l m) <-> exists i, nth_error l i = Some x /\ nth_error m i = Some y.
  Proof.
    revert m; induction l as [|a l IH]; intros [|b m]; simpl; split; try contradiction;
      try (intros [i [H1 H2]]; destruct i; discriminate).
    - intros [E|H]; [injection E as -> ->; exists 0%nat; auto|]. apply IH in H. destruct H as [i H]. exists (S i); auto.
    - intros [[|i] [H1 H2]]; simpl in *; [left; congruence|right; apply IH; eauto].
  Qed.
  Definition NoEllipsis (t : ty) : Prop := forall o, ~ Occurs (EllipsisT o) t.
  Lemma NoEllipsis_child t c : NoEllipsis t -> In c (children t) -> NoEllipsis c.
  Proof. intros H Hc o Ho. apply (H o). eapply Occurs_in; eauto. Qed.
  Lemma is_base_spec v : is_base v = true <-> BaseValue v.
  Proof. split; [destruct v; simpl; try discriminate; constructor|intros []; reflexivity]. Qed.

  Lemma NSA_item v l x : NoScalarArrays v -> Seq v l -> In x l -> NoScalarArrays x.
  Proof. intros H HS Hx d Hd. apply H. eapply Inside_seq; eauto. Qed.
  Lemma NSA_get d k : NoScalarArrays (VDict d) -> NoScalarArrays (dict_get k d).
  Proof.
    intros H e He. unfold dict_get in He. destruct (assoc k d) as [y|] eqn:E.
    - apply H. eapply Inside_dict; [eapply assoc_In; eauto|exact He].
    - inversion He; subst. match goal with HS : Seq VNone _ |- _ => inversion HS end.
  Qed.
  Lemma valid_spec n : forall t v, (tsize t < n)%nat -> WF t -> NoEllipsis t -> NoScalarArrays v ->
    exists b, validF np n t v = Ok b /\ (b = true <-> Valid np t v).
  Proof.
    induction n as [|n IH]; intros t v Hn HW HE HV; [lia|].
    assert (HNO : forall t', ~ Valid np t v -> t' = false -> exists b, Ok t' = Ok b /\ (b = true <-> Valid np t v)).
    { intros t' H ->. exists false. split; auto. split; [discriminate|contradiction]. }
    assert (HYES : forall t', Valid np t v -> t' = true -> exists b, Ok t' = Ok b /\ (b = true <-> Valid np t v)).
    { intros t' H ->. exists true. tauto. }
    destruct t; cbn [validF].
    all: try (apply HNO; [|reflexivity]; intro H; inversion H; fail).
    - (* CType *)
      destruct (is_base v) eqn:E.
      + apply is_base_spec in E. destruct (np_total (CType name itemsize alignment) v) as [b Hb]. exists b. split; auto. split.
        * intros ->. constructor; auto.
        * intro H. inversion H; subst; congruence.
      + assert (HB : ~ BaseValue v) by (rewrite <- is_base_spec; congruence).
        destruct v; apply HNO; auto; intro H; inversion H; contradiction.
    - destruct v; first [apply HNO; [intro H; inversion H|reflexivity]|apply HYES; [constructor|reflexivity]].
    - destruct v; first [apply HNO; [intro H; inversion H|reflexivity]|apply HYES; [constructor|reflexivity]].
    - destruct v; first [apply HNO; [intro H; inversion H|reflexivity]|apply HYES; [constructor|reflexivity]].
    - destruct v; first [apply HNO; [intro H; inversion H|reflexivity]|apply HYES; [constructor|reflexivity]].
    - (* DataShape *)
      rename parameters into ps.
      assert (HC : forall x, In x ps -> WF x /\ NoEllipsis x /\ (tsize x < n)%nat).
      { intros x Hx. split; [eapply WF_child; [exact HW|exact Hx]|]. split; [eapply NoEllipsis_child; [exact HE|exact Hx]|].
        rewrite tsize_DataShape in Hn. apply lsize_In in Hx. lia. }
      pose proof (HW _ (Occurs_here _)) as HO.
      assert (HSEQ : forall items, Seq v items ->
        exists b, (match ps with
          | [] => Raise IndexErr
          | head :: rest =>
              let! b := (match rest with [] => validF np n head v | _ => Ok false end) in
              if b then Ok true
              else if is_dimension head then
                let! ok := (match head with
                            | VarT => Ok true
                            | _ => let! k := dim_int head in Ok (Z.eqb k (Z.of_nat (length items)))
                            end) in
                if ok then allM (fun item => let! d := mk_ds rest in validF np n d item) items
                else Ok false
              else Ok false
          end) = Ok b /\ (b = true <-> Valid np (DataShapeT name ps) v)).
      { intros items HS. destruct ps as [|head rest]; [exfalso; destruct HO as [d [m [E _]]]; destruct d; discriminate|].
        assert (HA : forall d, v <> VArray d) by (destruct HS; discriminate).
        destruct rest as [|r rest].
        - (* no dimension *)
          assert (HD : is_dimension head = false).
          { destruct HO as [d [m [E [H _]]]]. destruct d as [|? [|]]; try discriminate. injection E as <-.
            destruct head; auto; exfalso; try (apply H; constructor).
            apply (HE typevar). eapply Occurs_in; [left; reflexivity|constructor]. }
          destruct (HC head (or_introl eq_refl)) as [H1 [H2 H3]].
          destruct (IH head v H3 H1 H2 HV) as [b [-> HB]]. cbn [bind]. rewrite HD. exists b. split; [destruct b; auto|].
          rewrite HB. split; [intro; apply Valid_measure; auto|]. intro H. inversion H; subst; auto; try contradiction.
          exfalso. eapply HA; reflexivity.
        - cbn [bind].
          assert (HO' : okps (r :: rest)) by (eapply okps_tail; [exact HO|discriminate]).
          assert (HM : mk_ds (r :: rest) = Ok (DataShapeT None (r :: rest))) by (apply mk_ds_ok; exact HO').
          assert (HALL : exists b, allM (fun item => let! d := mk_ds (r :: rest) in validF np n d item) items = Ok b /\
             (b = true <-> forall item, In item items -> Valid np (DataShapeT None (r :: rest)) item)).
          { apply allM_spec. intros item Hi. rewrite HM. cbn [bind]. apply IH.
            - rewrite tsize_DataShape in *. cbn [lsize fold_right] in *. pose proof (tsize_pos head). lia.
            - apply WF_DataShape; auto. intros x Hx. apply HC. right; auto.
            - intros o Ho. inversion Ho as [|c ? Hc Ho']; subst. apply (HE o). eapply Occurs_in; [right; exact Hc|exact Ho'].
            - eapply NSA_item; eauto. }
          destruct HALL as [b [Hb HB]].
          assert (HINV : Valid np (DataShapeT name (head :: r :: rest)) v ->
             (head = VarT \/ head = FixedT (Z.of_nat (length items))) /\
             forall item, In item items -> Valid np (DataShapeT None (r :: rest)) item).
          { intro H. inversion H as [| | | | | | |? ? ? ? its Hr HS' Hk HI|? ? ? its Hr HS' HI| | |]; subst.
            - assert (its = items) by (destruct HS; inversion HS'; auto). subst. auto.
            - assert (its = items) by (destruct HS; inversion HS'; auto). subst. auto.
            - exfalso; eapply HA; reflexivity. }
          destruct (is_dimension head) eqn:ED.
          + destruct head; try discriminate ED.
            * (* Var *) cbn [bind]. rewrite Hb. exists b. split; auto. rewrite HB. split; [|intro H; apply HINV; auto].
              intro H. eapply Valid_var; eauto; discriminate.
            * (* Fixed *) cbn [dim_int bind]. destruct (Z.eqb_spec val (Z.of_nat (length items))) as [->|Hne].
              -- rewrite Hb. exists b. split; auto. rewrite HB. split; [|intro H; apply HINV; auto].
                 intro H. eapply Valid_fixed; eauto; discriminate.
              -- exists false. split; auto. split; [discriminate|]. intro H. apply HINV in H. destruct H as [[H|H] _]; congruence.
            * exfalso. apply (HE typevar). eapply Occurs_in; [left; reflexivity|constructor].
          + exists false. split; auto. split; [discriminate|]. intro H. apply HINV in H.
            destruct H as [[H|H] _]; subst; discriminate. }
      assert (HOTHER : (forall items, ~ Seq v items) -> (forall d, v <> VArray d) ->
        exists b, (match ps with [x] => validF np n x v | _ => Ok false end) = Ok b /\ (b = true <-> Valid np (DataShapeT name ps) v)).
      { intros HS HA. destruct ps as [|x [|y ps]].
        - apply HNO; auto. intro H. inversion H; subst; eapply HA; reflexivity.
        - destruct (HC x (or_introl eq_refl)) as [H1 [H2 H3]]. destruct (IH x v H3 H1 H2 HV) as [b [-> HB]].
          exists b. split; auto. rewrite HB. split; [intro; constructor; auto|]. intro H. inversion H; subst; auto; try contradiction.
          exfalso; eapply HA; eauto.
        - apply HNO; auto. intro H. inversion H; subst; try (eapply HS; eassumption). eapply HA; eauto. }
      destruct v; try (apply HOTHER; [intros ? HS; inversion HS|discriminate]).
      + apply HSEQ. constructor.
      + apply HSEQ. constructor.
      + destruct (HV d (Inside_here _)) as (dn & dps & ->). rename dn into dn0.
        exists (issubschema (DataShapeT dn0 dps) (DataShapeT name ps)). split; auto. unfold issubschema. split.
        * intro H. eapply Valid_array; eauto.
        * intro H. inversion H as [| | | | | |? ? ? HA| | | | |]; subst; auto; try (exfalso; eapply HA; reflexivity);
          match goal with HS : Seq (VArray _) _ |- _ => inversion HS end.
    - (* Record *)
      assert (HC : forall f, In f fields -> WF (snd f) /\ NoEllipsis (snd f) /\ (tsize (snd f) < n)%nat).
      { intros x Hx. split; [eapply WF_child; [exact HW|apply in_map; exact Hx]|]. split; [eapply NoEllipsis_child; [exact HE|apply in_map; exact Hx]|].
        rewrite tsize_Record in Hn. apply fsize_In in Hx. lia. }
      assert (HSEQ : forall items, Seq v items ->
        exists b, allM (fun p => validF np n (snd (fst p)) (snd p)) (combine fields items) = Ok b /\ (b = true <-> Valid np (RecordT fields) v)).
      { intros items HS.
        destruct (allM_spec (fun p => validF np n (snd (fst p)) (snd p)) (fun p => Valid np (snd (fst p)) (snd p)) (combine fields items)) as [b [Hb HB]].
        - intros [f x] Hin. pose proof (in_combine_r _ _ _ _ Hin) as Hx. apply in_combine_l in Hin. destruct (HC f Hin) as [H1 [H2 H3]]. apply IH; auto. eapply NSA_item; eauto.
        - exists b. split; auto. rewrite HB. split.
          + intro H. eapply Valid_seq; eauto. intros i f item H1 H2. apply (H (f, item)). apply combine_nth. eauto.
          + intros H [f item] Hin. apply combine_nth in Hin. destruct Hin as [i [H1 H2]].
            inversion H as [| | | | | | | | | | |? ? its HS' HI]; subst; [inversion HS|].
            assert (its = items) by (destruct HS; inversion HS'; auto). subst. eapply HI; eauto. }
      destruct v; try (apply HNO; [intro H; inversion H; match goal with HS : Seq _ _ |- _ => inversion HS end|reflexivity]).
      + apply HSEQ. constructor.
      + apply HSEQ. constructor.
      + destruct (allM_spec (fun f => validF np n (snd f) (dict_get (fst f) l)) (fun f => exists v, assoc (fst f) l = Some v /\ Valid np (snd f) v) fields) as [b [Hb HB]].
        * intros f Hf. destruct (HC f Hf) as [H1 [H2 H3]]. destruct (IH (snd f) (dict_get (fst f) l) H3 H1 H2 (NSA_get _ _ HV)) as [b [Hb HB]].
          exists b. split; auto. rewrite HB. unfold dict_get. destruct (assoc (fst f) l) as [w|].
          -- split; [eauto|]. intros [w' [E H]]. congruence.
          -- split; [intro H; exfalso; eapply Valid_none; eauto|]. intros [w' [E _]]; discriminate.
        * exists b. split; auto. rewrite HB. split.
          -- intro H. constructor. intros k t Hin. apply (H (k, t) Hin).
          -- intros H [k t] Hin. inversion H as [| | | | | | | | | |? ? HD|? ? its HS' _]; subst; [|inversion HS']. apply HD; auto.
  Qed.
End P.

(** ** without assumptions on numpy or ellipses *)
Lemma allM_true {A} (f : A -> res bool) l : allM f l = Ok true <-> forall x, In x l -> f x = Ok true.
Proof.
  induction l as [|x l IH]; simpl; [split; auto; contradiction|]. destruct (f x) as [[]|] eqn:E; cbn [bind].
  - rewrite IH. split; intros H z; [intros [<-|Hz]; auto|intro Hz; apply H; auto].
  - split; [discriminate|]. intro H. rewrite (H x) in E by auto. discriminate.
  - split; [discriminate|]. intro H. rewrite (H x) in E by auto. discriminate.
Qed.
Lemma allM_ext {A} (f g : A -> res bool) l : (forall x, In x l -> f x = g x) -> allM f l = allM g l.
Proof.
  induction l as [|x l IH]; intro H; simpl; auto. rewrite (H x) by (left; auto). rewrite IH; auto. intros; apply H; right; auto.
Qed.
Lemma validF_fuel np n : forall m t v, (tsize t < n)%nat -> (tsize t < m)%nat -> WF t -> validF np n t v = validF np m t v.
Proof.
  induction n as [|n IH]; intros m t v Hn Hm HW; [lia|]. destruct m as [|m]; [lia|].
  destruct t; cbn [validF]; auto.
  - rename parameters into ps.
    assert (HC : forall x w, In x ps -> validF np n x w = validF np m x w).
    { intros x w Hx. assert (WF x) by (eapply WF_child; [exact HW|exact Hx]). rewrite tsize_DataShape in *. apply lsize_In in Hx. apply IH; auto; lia. }
    pose proof (HW _ (Occurs_here _)) as HO.
    assert (HL : forall l, match ps with
          | [] => Raise IndexErr
          | head :: rest =>
              let! b := (match rest with [] => validF np n head v | _ => Ok false end) in
              if b then Ok true
              else if is_dimension head then
                let! ok := (match head with
                            | VarT => Ok true
                            | _ => let! k := dim_int head in Ok (Z.eqb k (Z.of_nat (length l)))
                            end) in
                if ok then allM (fun item => let! d := mk_ds rest in validF np n d item) l
                else Ok false
              else Ok false
          end = match ps with
          | [] => Raise IndexErr
          | head :: rest =>
              let! b := (match rest with [] => validF np m head v | _ => Ok false end) in
              if b then Ok true
              else if is_dimension head then
                let! ok := (match head with
                            | VarT => Ok true
                            | _ => let! k := dim_int head in Ok (Z.eqb k (Z.of_nat (length l)))
                            end) in
                if ok then allM (fun item => let! d := mk_ds rest in validF np m d item) l
                else Ok false
              else Ok false
          end).
    { intro l. destruct ps as [|h rest]; auto.
      assert (E1 : match rest with [] => validF np n h v | _ => Ok false end = match rest with [] => validF np m h v | _ => Ok false end).
      { destruct rest; auto. apply HC. left; auto. }
      assert (E2 : allM (fun item => let! d := mk_ds rest in validF np n d item) l = allM (fun item => let! d := mk_ds rest in validF np m d item) l).
      { apply allM_ext. intros item _. destruct rest as [|r rest]; [reflexivity|].
        assert (HO' : okps (r :: rest)) by (eapply okps_tail; [exact HO|discriminate]).
        rewrite (mk_ds_ok _ HO'). cbn [bind]. apply IH.
        - rewrite tsize_DataShape in *. cbn [lsize fold_right] in *. pose proof (tsize_pos h). lia.
        - rewrite tsize_DataShape in *. cbn [lsize fold_right] in *. pose proof (tsize_pos h). lia.
        - apply WF_DataShape; auto. intros x Hx. eapply WF_child; [exact HW|right; exact Hx]. }
      rewrite E1, E2. reflexivity. }
    destruct v; try apply HL; try (destruct ps as [|? [|? ?]]; auto; apply HC; left; auto).
  - assert (HC : forall x w, In x fields -> validF np n (snd x) w = validF np m (snd x) w).
    { intros x w Hx. assert (WF (snd x)) by (eapply WF_child; [exact HW|apply in_map; exact Hx]). rewrite tsize_Record in *. apply fsize_In in Hx. apply IH; auto; lia. }
    destruct v; auto; apply allM_ext; intros x Hx.
    + apply HC. destruct x. eapply in_combine_l; eauto.
    + apply HC. destruct x. eapply in_combine_l; eauto.
    + apply HC; auto.
Qed.
Lemma validate_fuel np n t v : (tsize t < n)%nat -> WF t -> validF np n t v = validate_value np t v.
Proof. intros. apply validF_fuel; auto. Qed.
Lemma WF_tail n d ps : WF (DataShapeT n (d :: ps)) -> ps <> [] -> WF (DataShapeT None ps).
Proof.
  intros HW Hps. apply WF_DataShape; [eapply okps_tail; [apply (HW _ (Occurs_here _))|auto]|].
  intros x Hx. eapply WF_child; [exact HW|right; exact Hx].
Qed.
Lemma validate_dim np n d rest v items : rest <> [] -> WF (DataShapeT n (d :: rest)) -> Seq v items ->
  (d = VarT \/ exists k, d = FixedT k) ->
  (validate_value np (DataShapeT n (d :: rest)) v = Ok true <->
   (forall k, d = FixedT k -> Z.of_nat (length items) = k) /\
   forall item, In item items -> validate_value np (DataShapeT None rest) item = Ok true).
Proof.
  intros Hr HW HS Hd. pose proof (WF_tail _ _ _ HW Hr) as HWt.
  assert (HM : mk_ds rest = Ok (DataShapeT None rest)) by (apply mk_ds_ok; exact (HWt _ (Occurs_here _))).
  assert (E : allM (fun item => let! d' := mk_ds rest in validF np (tsize (DataShapeT n (d :: rest))) d' item) items = Ok true <->
    forall item, In item items -> validate_value np (DataShapeT None rest) item = Ok true).
  { rewrite allM_true. split; intros H item Hi; specialize (H item Hi).
    - rewrite HM in H. cbn [bind] in H. rewrite validate_fuel in H; auto.
      rewrite !tsize_DataShape. cbn [lsize fold_right]. pose proof (tsize_pos d). fold (lsize rest). lia.
    - rewrite HM. cbn [bind]. rewrite validate_fuel; auto.
      rewrite !tsize_DataShape. cbn [lsize fold_right]. pose proof (tsize_pos d). fold (lsize rest). lia. }
  assert (EV : validate_value np (DataShapeT n (d :: rest)) v =
    let! ok := (match d with VarT => Ok true | _ => let! k := dim_int d in Ok (Z.eqb k (Z.of_nat (length items))) end) in
    if ok then allM (fun item => let! d' := mk_ds rest in validF np (tsize (DataShapeT n (d :: rest))) d' item) items else Ok false).
  { unfold validate_value. destruct rest as [|r rest]; [contradiction|].
    assert (ED : is_dimension d = true) by (destruct Hd as [->|[k ->]]; reflexivity).
    destruct HS; cbn [validF bind]; rewrite ED; reflexivity. }
  rewrite EV. destruct Hd as [->|[k ->]]; cbn [dim_int bind].
  - rewrite E. split; [intro H; split; auto; intros; discriminate|tauto].
  - destruct (Z.eqb_spec k (Z.of_nat (length items))) as [->|Hne].
    + rewrite E. split; [intro H; split; auto; intros ? Hk; injection Hk; auto|tauto].
    + split; [discriminate|]. intros [H _]. specialize (H k eq_refl). congruence.
Qed.
