(** [validate] without assumptions on the schema, the value or numpy. *)
From Verif Require Import Base Types Lexer Construct Parser Ops Preds User Spec_WF Spec_Ops Spec_Preds Spec_User
  Proof_WF Proof_Ops Proof_Ops2 Proof_Preds2 Proof_Preds3 Proof_User.
Local Open Scope Z_scope.

Section P.
  Variable np : ty -> value -> res bool.

  Definition Causes (t : ty) (v : value) (e : exn) : Prop :=
    (e = TypeErr /\ exists o, Occurs (EllipsisT o) t) \/
    (e = RecursionErr /\ exists d, Inside (VArray d) v /\ ~ IsDataShape d) \/
    (exists n i a x, Occurs (CType n i a) t /\ np (CType n i a) x = Raise e).
  Lemma Causes_up t u v w e : In u (children t) -> (forall x, Inside x w -> Inside x v \/ x = VNone) ->
    Causes u w e -> Causes t v e.
  Proof.
    intros Hu Hw [[-> [o Ho]]|[[-> [d [Hd Hn]]]|(cn & ci & ca & x & Hc & Hx)]].
    - left. split; auto. exists o. eapply Occurs_in; eauto.
    - right; left. split; auto. exists d. split; auto. destruct (Hw _ Hd); [auto|discriminate].
    - right; right. exists cn, ci, ca, x. split; auto. eapply Occurs_in; eauto.
  Qed.
  Lemma allM_raise {A} (f : A -> res bool) l e : allM f l = Raise e -> exists x, In x l /\ f x = Raise e.
  Proof.
    induction l as [|x l IH]; simpl; [discriminate|]. destruct (f x) as [[]|e'] eqn:E; cbn [bind]; intro H; try discriminate.
    - destruct (IH H) as [y [Hy Hy']]. eauto.
    - injection H as <-. eauto.
  Qed.

  Definition Good t v (r : res bool) : Prop :=
    (r = Ok true <-> Valid np t v) /\ forall e, r = Raise e -> Causes t v e.
  Lemma Good_false t v : ~ Valid np t v -> Good t v (Ok false).
  Proof. intro H. split; [split; [discriminate|contradiction]|discriminate]. Qed.
  Lemma Good_true t v : Valid np t v -> Good t v (Ok true).
  Proof. intro H. split; [tauto|discriminate]. Qed.

  Lemma valid_good n : forall t v, (tsize t < n)%nat -> WF t -> Good t v (validF np n t v).
  Proof.
    induction n as [|n IH]; intros t v Hn HW; [lia|].
    destruct t; cbn [validF].
    all: try (apply Good_false; intro H; inversion H; fail).
    - (* CType *)
      assert (EV : Good (CType name itemsize alignment) v
                     (if is_base v then np (CType name itemsize alignment) v else Ok false)).
      { destruct (is_base v) eqn:E.
        + apply is_base_spec in E. split.
          * split; [intro; constructor; auto|]. intro H. inversion H; subst; auto.
          * intros e He. right; right. do 4 eexists. split; [constructor|exact He].
        + apply Good_false. intro H. inversion H; subst.
          match goal with HB : BaseValue v |- _ => apply is_base_spec in HB; congruence end. }
      destruct v; exact EV.
    - destruct v; first [apply Good_false; intro H; inversion H; fail|apply Good_true; constructor].
    - destruct v; first [apply Good_false; intro H; inversion H; fail|apply Good_true; constructor].
    - destruct v; first [apply Good_false; intro H; inversion H; fail|apply Good_true; constructor].
    - destruct v; first [apply Good_false; intro H; inversion H; fail|apply Good_true; constructor].
    - (* DataShape *)
      rename parameters into ps.
      assert (HC : forall x, In x ps -> WF x /\ (tsize x < n)%nat).
      { intros x Hx. split; [eapply WF_child; [exact HW|exact Hx]|].
        rewrite tsize_DataShape in Hn. apply lsize_In in Hx. lia. }
      pose proof (HW _ (Occurs_here _)) as HO.
      assert (HSEQ : forall items, Seq v items ->
        Good (DataShapeT name ps) v (match ps with
          | [] => Raise IndexErr
          | head :: rest =>
              let! b := (match rest with [] => validF np n head v | _ => Ok false end) in
              if b then Ok true
              else if is_dimension head then
                let! ok := (match head with
                            | VarT => Ok true
                            | _ => let! k := dim_int head in Ok (Z.eqb k (Z.of_nat (length items)))
                            end) in
                if ok then allM (fun item => let! d := mk_ds rest in validF np n d item) items
                else Ok false
              else Ok false
          end)).
      { intros items HS. destruct ps as [|head rest]; [exfalso; destruct HO as [d [m [E _]]]; destruct d; discriminate|].
        assert (HA : forall d, v <> VArray d) by (destruct HS; discriminate).
        destruct rest as [|r rest].
        - (* no dimension *)
          destruct (HC head (or_introl eq_refl)) as [H1 H3]. destruct (IH head v H3 H1) as [HB HR].
          assert (HV : Valid np (DataShapeT name [head]) v <-> Valid np head v).
          { split; [|intro; apply Valid_measure; auto]. intro H. inversion H; subst; auto; try contradiction. exfalso; eapply HA; reflexivity. }
          destruct (validF np n head v) as [[]|e]; cbn [bind].
          + apply Good_true. apply HV, HB; auto.
          + assert (HN : ~ Valid np (DataShapeT name [head]) v) by (rewrite HV, <- HB; discriminate).
            destruct (is_dimension head) eqn:ED; [|apply Good_false; exact HN].
            destruct HO as [d [m [E [H _]]]]. destruct d as [|? [|]]; try discriminate. injection E as <-.
            destruct head; try discriminate ED; try (exfalso; apply H; constructor).
            cbn [dim_int bind]. split; [split; [discriminate|contradiction]|]. intros e He. injection He as <-.
            left. split; auto. exists typevar. eapply Occurs_in; [left; reflexivity|constructor].
          + split; [split; [discriminate|]|].
            * intro H. apply HV, HB in H. discriminate.
            * intros e' He. injection He as <-. eapply (Causes_up _ head v v); [left; reflexivity|auto|apply HR; reflexivity].
        - cbn [bind].
          assert (HO' : okps (r :: rest)) by (eapply okps_tail; [exact HO|discriminate]).
          assert (HM : mk_ds (r :: rest) = Ok (DataShapeT None (r :: rest))) by (apply mk_ds_ok; exact HO').
          assert (HI : forall item, Good (DataShapeT None (r :: rest)) item (let! d := mk_ds (r :: rest) in validF np n d item)).
          { intro item. rewrite HM. cbn [bind]. apply IH.
            - rewrite tsize_DataShape in *. cbn [lsize fold_right] in *. pose proof (tsize_pos head). lia.
            - apply WF_DataShape; auto. intros x Hx. apply HC. right; auto. }
          assert (HINV : Valid np (DataShapeT name (head :: r :: rest)) v ->
             (head = VarT \/ head = FixedT (Z.of_nat (length items))) /\
             forall item, In item items -> Valid np (DataShapeT None (r :: rest)) item).
          { intro H. inversion H as [| | | | | | |? ? ? ? its Hr HS' Hk HJ|? ? ? its Hr HS' HJ| | |]; subst.
            - assert (its = items) by (destruct HS; inversion HS'; auto). subst. auto.
            - assert (its = items) by (destruct HS; inversion HS'; auto). subst. auto.
            - exfalso; eapply HA; reflexivity. }
          assert (HALL : (head = VarT \/ head = FixedT (Z.of_nat (length items))) ->
            Good (DataShapeT name (head :: r :: rest)) v
              (allM (fun item => let! d := mk_ds (r :: rest) in validF np n d item) items)).
          { intro Hh. split.
            - rewrite allM_true. split.
              + intro H. assert (G : forall item, In item items -> Valid np (DataShapeT None (r :: rest)) item)
                  by (intros item Hi; apply (HI item), H; auto).
                destruct Hh as [->| ->]; [eapply Valid_var|eapply Valid_fixed]; eauto; discriminate.
              + intros H item Hi. apply HINV in H. apply (HI item). apply H; auto.
            - intros e He. apply allM_raise in He. destruct He as [item [Hi He]]. apply (HI item) in He.
              destruct He as [[-> [o Ho]]|[[-> [d [Hd Hd']]]|(cn & ci & ca & x & Hc & Hx)]].
              + left. split; auto. exists o. inversion Ho as [|c ? Hc Ho']; subst. eapply Occurs_in; [right; exact Hc|exact Ho'].
              + right; left. split; auto. exists d. split; auto. eapply Inside_seq; eauto.
              + right; right. exists cn, ci, ca, x. split; auto. inversion Hc as [|c' ? Hc1 Hc2]; subst.
                eapply Occurs_in; [right; exact Hc1|exact Hc2]. }
          destruct (is_dimension head) eqn:ED.
          + destruct head; try discriminate ED.
            * cbn [bind]. apply HALL. auto.
            * cbn [dim_int bind]. destruct (Z.eqb_spec val (Z.of_nat (length items))) as [->|Hne].
              -- apply HALL. auto.
              -- apply Good_false. intro H. apply HINV in H. destruct H as [[H|H] _]; congruence.
            * cbn [dim_int bind]. split; [split; [discriminate|]|].
              -- intro H. apply HINV in H. destruct H as [[H|H] _]; congruence.
              -- intros e He. injection He as <-. left. split; auto. exists typevar. eapply Occurs_in; [left; reflexivity|constructor].
          + apply Good_false. intro H. apply HINV in H. destruct H as [[H|H] _]; subst; discriminate. }
      assert (HOTHER : (forall items, ~ Seq v items) -> (forall d, v <> VArray d) ->
        Good (DataShapeT name ps) v (match ps with [x] => validF np n x v | _ => Ok false end)).
      { intros HS HA. destruct ps as [|x [|y ps]].
        - apply Good_false. intro H. inversion H; subst; eapply HA; reflexivity.
        - destruct (HC x (or_introl eq_refl)) as [H1 H3]. destruct (IH x v H3 H1) as [HB HR]. split.
          + rewrite HB. split; [intro; constructor; auto|]. intro H. inversion H; subst; auto; try contradiction.
            exfalso; eapply HA; eauto.
          + intros e He. eapply (Causes_up _ x v v); [left; reflexivity|auto|apply HR; exact He].
        - apply Good_false. intro H. inversion H; subst; try (eapply HS; eassumption). eapply HA; eauto. }
      destruct v; try (apply HOTHER; [intros ? HS; inversion HS|discriminate]).
      + apply HSEQ. constructor.
      + apply HSEQ. constructor.
      + assert (HINV : Valid np (DataShapeT name ps) (VArray d) -> IsDataShape d /\ py_eq d (DataShapeT name ps) = true).
        { intro H. inversion H as [| | | | | |? ? ? HA| | | | |]; subst; auto; try (exfalso; eapply HA; reflexivity);
          try (match goal with HS : Seq (VArray _) _ |- _ => inversion HS end).
          split; [|assumption]. do 2 eexists; reflexivity. }
        assert (HN : ~ IsDataShape d -> Good (DataShapeT name ps) (VArray d) (Raise RecursionErr)).
        { intro HN. split; [split; [discriminate|]|].
          - intro H. apply HINV in H. tauto.
          - intros e He. injection He as <-. right; left. split; auto. exists d. split; [constructor|exact HN]. }
        destruct d; try (apply HN; intros (? & ? & E); discriminate).
        unfold issubschema. split; [|discriminate]. split.
        * intro H. injection H as H. eapply Valid_array; eauto.
        * intro H. apply HINV in H. destruct H as [_ ->]; auto.
    - (* Record *)
      assert (HC : forall f, In f fields -> WF (snd f) /\ (tsize (snd f) < n)%nat).
      { intros x Hx. split; [eapply WF_child; [exact HW|apply in_map; exact Hx]|].
        rewrite tsize_Record in Hn. apply fsize_In in Hx. lia. }
      assert (HSEQ : forall items, Seq v items ->
        Good (RecordT fields) v (allM (fun p => validF np n (snd (fst p)) (snd p)) (combine fields items))).
      { intros items HS. split.
        - rewrite allM_true. split.
          + intro H. eapply Valid_seq; eauto. intros i f item H1 H2.
            assert (Hin : In (f, item) (combine fields items)) by (apply combine_nth; eauto).
            specialize (H _ Hin). cbn [fst snd] in H. apply in_combine_l in Hin. destruct (HC f Hin) as [G1 G2].
            apply (IH (snd f) item G2 G1); auto.
          + intros H [f item] Hin. cbn [fst snd]. pose proof Hin as Hin'. apply combine_nth in Hin. destruct Hin as [i [H1 H2]].
            inversion H as [| | | | | | | | | | |? ? its HS' HI]; subst; [inversion HS|].
            assert (its = items) by (destruct HS; inversion HS'; auto). subst.
            apply in_combine_l in Hin'. destruct (HC f Hin') as [G1 G2]. apply (IH (snd f) item G2 G1). eapply HI; eauto.
        - intros e He. apply allM_raise in He. destruct He as [[f item] [Hin He]]. cbn [fst snd] in He.
          pose proof (in_combine_r _ _ _ _ Hin) as Hx. apply in_combine_l in Hin. destruct (HC f Hin) as [G1 G2].
          eapply (Causes_up _ (snd f) v item); [apply in_map; exact Hin| |apply (IH (snd f) item G2 G1); exact He].
          intros x Hi. left. eapply Inside_seq; eauto. }
      destruct v; try (apply Good_false; intro H; inversion H; match goal with HS : Seq _ _ |- _ => inversion HS end).
      + apply HSEQ. constructor.
      + apply HSEQ. constructor.
      + split.
        * rewrite allM_true. split.
          -- intro H. constructor. intros k t Hin. specialize (H (k, t) Hin). cbn [fst snd] in H.
             destruct (HC (k, t) Hin) as [G1 G2]. cbn [snd] in *. apply (IH t _ G2 G1) in H. unfold dict_get in H.
             destruct (assoc k l) as [w|]; [eauto|]. exfalso. eapply Valid_none; eauto.
          -- intros H [k t] Hin. cbn [fst snd]. inversion H as [| | | | | | | | | |? ? HD|? ? its HS' _]; subst; [|inversion HS'].
             destruct (HC (k, t) Hin) as [G1 G2]. cbn [snd] in *. apply (IH t _ G2 G1). destruct (HD k t Hin) as [w [E Hw]].
             unfold dict_get. rewrite E. exact Hw.
        * intros e He. apply allM_raise in He. destruct He as [f [Hin He]]. destruct (HC f Hin) as [G1 G2].
          eapply (Causes_up _ (snd f) (VDict l) (dict_get (fst f) l)); [apply in_map; exact Hin| |apply (IH (snd f) _ G2 G1); exact He].
          intros x Hi. unfold dict_get in Hi. destruct (assoc (fst f) l) as [y|] eqn:E.
          -- left. eapply Inside_dict; [eapply assoc_In; eauto|exact Hi].
          -- right. inversion Hi; subst; auto. match goal with HS : Seq VNone _ |- _ => inversion HS end.
  Qed.
  Lemma validF_none n : forall t, (tsize t < n)%nat -> validF np n t VNone = Ok false.
  Proof.
    induction n as [|n IH]; intros t Hn; [lia|]. destruct t; cbn [validF is_base]; auto.
    destruct parameters as [|x [|y ps]]; auto. apply IH. rewrite tsize_DataShape in Hn. cbn [lsize fold_right] in Hn. lia.
  Qed.
  Lemma validate_good t v : WF t -> Good t v (validate_value np t v).
  Proof. intro HW. apply valid_good; auto. Qed.
End P.
