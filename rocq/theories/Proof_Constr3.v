(** C63: the constructors as written in a text. *)
From Verif Require Import Base Types Lexer Printer Construct Parser Spec_Lexer Proof_Lexer Spec_WF Spec_Preds Proof_Parser
  Spec_Grammar Proof_Grammar Proof_Grammar3 Spec_Time Spec_Constr Proof_Ops Proof_Constr Proof_Constr2.

(** the value of a keyword given twice is the last one *)
Lemma dict_set_In k v d n a : NoDup (map fst d) ->
  In (n, a) (dict_set k v d) <-> (n = k /\ a = v) \/ (n <> k /\ In (n, a) d).
Proof.
  intro ND. induction d as [|[k' v'] d IH]; cbn [dict_set].
  - split; [intros [H|[]]; injection H; auto|intros [[-> ->]|[_ []]]; left; auto].
  - inversion ND as [|? ? H1 H2]; subst. destruct (str_eqb k k') eqn:Ek.
    + apply str_eqb_eq in Ek. subst k'. cbn [In]. split.
      * intros [H|H]; [injection H; auto|right]. split; auto. intros ->. apply H1. apply (in_map fst) in H. exact H.
      * intros [[-> ->]|[Hn [H|H]]]; auto. injection H; congruence.
    + cbn [In]. rewrite IH by auto. split.
      * intros [H|[H|[H H']]]; auto. injection H as <- <-. right. split; auto. intros ->. rewrite str_eqb_refl in Ek. discriminate.
      * intros [H|[Hn [H|H]]]; auto.
Qed.
Lemma dict_set_keys k v d n : In n (map fst (dict_set k v d)) -> n = k \/ In n (map fst d).
Proof.
  induction d as [|[k' v'] d IH]; cbn; [intros [H|[]]; auto|]. destruct (str_eqb k k'); cbn; intros [H|H]; auto. apply IH in H as [H|H]; auto.
Qed.
Lemma dict_set_NoDup k v d : NoDup (map fst d) -> NoDup (map fst (dict_set k v d)).
Proof.
  induction d as [|[k' v'] d IH]; cbn; intro ND; [constructor; [intros []|constructor]|]. inversion ND as [|? ? H1 H2]; subst.
  destruct (str_eqb k k') eqn:Ek; cbn; constructor; auto.
  - apply str_eqb_eq in Ek. subst. auto.
  - intro H. apply dict_set_keys in H as [H|H]; auto. subst. rewrite str_eqb_refl in Ek. discriminate.
Qed.
Lemma snoc_inv {A} (p q : list A) x l y : l ++ [y] = p ++ x :: q -> (q = [] /\ l = p /\ x = y) \/ exists q', q = q' ++ [y] /\ l = p ++ x :: q'.
Proof.
  intro H. destruct q as [|z q'] using rev_ind.
  - apply app_inj_tail in H as [-> ->]. auto.
  - clear IHq'. replace (p ++ x :: q' ++ [z]) with ((p ++ x :: q') ++ [z]) in H by (rewrite <- app_assoc; auto).
    apply app_inj_tail in H as [-> ->]. eauto.
Qed.
Lemma dict_of_Latest kw : Latest kw (dict_of kw).
Proof.
  induction kw as [|[k v] kw [IH1 IH2]] using rev_ind.
  - split; [constructor|]. intros n a. split; [intros []|]. intros [[|] [q [H _]]]; discriminate.
  - unfold dict_of. rewrite fold_left_app. cbn [fold_left fst snd]. change (fold_left _ kw []) with (dict_of kw).
    split; [apply dict_set_NoDup; auto|]. intros n a. rewrite dict_set_In by auto. split.
    + intros [[-> ->]|[Hn H]].
      * exists kw, []. split; auto.
      * apply IH2 in H as [p [q [-> H]]]. exists p, (q ++ [(k, v)]). rewrite <- app_assoc. split; auto.
        rewrite map_app. intro X. apply in_app_or in X as [X|[X|[]]]; auto.
    + intros [p [q [H Hq]]]. apply snoc_inv in H as [[-> [-> H]]|[q' [-> ->]]].
      * injection H as <- <-. auto.
      * right. rewrite map_app in Hq. split.
        -- intros ->. apply Hq. apply in_or_app. right. left. auto.
        -- apply IH2. exists p, q'. split; auto. intro X. apply Hq. apply in_or_app. auto.
Qed.
Lemma Bound_ext ps args kw kw' b : (forall n a, In (n, a) kw <-> In (n, a) kw') -> Bound ps args kw b -> Bound ps args kw' b.
Proof.
  intros H [B1 B2 B3 B4 B5]. split; auto.
  - intros n a Hin. apply (B4 n a). apply (H n a). exact Hin.
  - intros i n r Hi Hl Hn. apply (B5 i n r); auto. intro X. apply Hn. apply in_map_iff in X as [[n' a] [<- X]]. apply (proj1 (H n' a)) in X. apply (in_map fst) in X. exact X.
Qed.
Lemma Latest_unique kw d d' : Latest kw d -> Latest kw d' -> forall n a, In (n, a) d <-> In (n, a) d'.
Proof. intros [_ H] [_ H'] n a. rewrite H, H'. reflexivity. Qed.

Lemma one_good t : ~ IsEllipsis t -> GoodArray [t].
Proof.
  intro H. split; [|exact H]. intros [|i] j a b Hi Hj; [|destruct i; discriminate]. injection Hi as ->. elim H. exists a. auto.
Qed.
Lemma Layout_fun l l' s : Layout l s -> Layout l' s -> l = l'.
Proof. intros H H'. apply lex_Layout in H as [ts [E1 M1]]. apply lex_Layout in H' as [ts' [E2 M2]]. congruence. Qed.

Lemma Meaning_measure E dsh n b t : Meaning E dsh n b t -> may_be_measure t = true /\ launder_ty t = t.
Proof. intros []; split; reflexivity. Qed.
Lemma StringMeaning_measure a t : StringMeaning a t -> may_be_measure t = true /\ launder_ty t = t.
Proof. intros []; split; reflexivity. Qed.
Lemma mk_ds_measure t d : may_be_measure t = true /\ launder_ty t = t -> mk_ds [t] = Ok d <-> d = DataShapeT None [t].
Proof.
  intros [H1 H2]. unfold mk_ds, mk_datashape, check_datashape. cbn [map mapM launder bind last removelast forallb]. rewrite H2, H1. cbn [negb].
  split; [intro H; injection H; auto|intros ->; auto].
Qed.

Section T.
  Variable E : env.
  Notation sym := (default_sym E (dshape E)).

  (** a text [name[...]] is read by the constructor [name] *)
  Lemma constr_word n w d : st_dim sym n = None -> st_dim_constr sym n = None ->
    Implemented sym ((KLower, VStr n) :: tok KLBk :: w ++ [tok KRBk]) d <->
    exists c args kw t, constr_fun E (dshape E) n = Some c /\ Args sym true w args kw /\ (args <> [] \/ kw <> []) /\
      c args (dict_of kw) = Ok t /\ mk_ds [t] = Ok d.
  Proof.
    intros Hd Hc. split.
    - intro H. inversion H as [w' t' HN|w' t' c o d' HN H1 H2 H3 H4]; subst. clear H.
      assert (NU : forall u d' r, DimName sym u d' -> (KLower, VStr n) :: tok KLBk :: w ++ [tok KRBk] = u ++ r -> False).
      { intros u d' r HU EQ. destruct HU as [m e Hm|e He|s c e H1 H2]; cbn in EQ; try discriminate. injection EQ as -> _. congruence. }
      assert (TU : forall u l, TupleType sym true u l -> exists r, u = tok KLP :: r) by (intros u l []; eauto).
      inversion HN as [u d' w' t t' HD HS HM EQ|w' t t' HT HX HM|u d' w' t t' _ HD HT HM EQ]; subst.
      + exfalso. destruct HD as [u e Hu|s c e H1 H2|z c e H1 H2]; cbn in EQ; try discriminate. eapply NU; [exact Hu|symmetry; exact EQ].
      + inversion HT as [s c t0 H1 H2|m t0 H1 EQ|m c w' args kw t0 H1 HA HNE H2 EQ|w' fs c t0 H1 H2 H3 EQ|w' l c t0 HTT H1 H2|w' l v r c t0 HTT HDS H1 H2 EQ]; subst.
        * match goal with X : _ ++ [_] = _ ++ [_] |- _ => apply app_inj_tail in X as [-> _] end. exists c, args, kw, t. auto.
        * destruct (TU _ _ HTT) as [r X]. discriminate X.
        * destruct (TU _ _ HTT) as [r' X]. subst. discriminate.
      + exfalso. eapply NU; [exact HD|symmetry; exact EQ].
    - intros [c [args [kw [t [H1 [H2 [H3 [H4 H5]]]]]]]]. apply DS_plain. eapply NO_dtype; [|..|exact H5].
      + eapply DT_constr; eauto.
      + intros [m [c' [v [r [EQ X]]]]]. injection EQ as <- _ _. congruence.
  Qed.
  Lemma signature_names n ps : In (n, ps) signatures -> n <> $"typevar" ->
    st_dim sym n = None /\ st_dim_constr sym n = None /\ exists c, constr_fun E (dshape E) n = Some c.
  Proof.
    intros H Hn. cbn [signatures In] in H.
    repeat (destruct H as [H|H]; [injection H; clear H; intros _ <-; first [now elim Hn|split; [reflexivity|split; [reflexivity|eexists; reflexivity]]]|]).
    destruct H.
  Qed.
  Theorem constr_text s n ps w ds : disc_ok E -> In (n, ps) signatures -> n <> $"typevar" ->
    Layout ((KLower, VStr n) :: tok KLBk :: w ++ [tok KRBk]) s ->
    dshape E s = Ok ds <->
    exists args kw kwd b t, Args sym true w args kw /\ (args <> [] \/ kw <> []) /\ Latest kw kwd /\ Bound ps args kwd b /\
      Meaning E (dshape E) n b t /\ ds = DataShapeT None [t] /\ AllGood ds.
  Proof.
    intros HE Hin Hn HL. rewrite dshape_exact by auto. destruct (signature_names _ _ Hin Hn) as [S1 [S2 [c Hc]]]. split.
    - intros [l [HL' [HI HG]]]. rewrite (Layout_fun _ _ _ HL' HL) in HI. apply constr_word in HI; auto.
      destruct HI as [c' [args [kw [t [H1 [H2 [H3 [H4 H5]]]]]]]]. rewrite Hc in H1. injection H1 as <-.
      pose proof (dict_of_Latest kw) as LK. apply (constr_spec E (dshape E) n ps) in H4 as [b [HB HM]]; auto; [|apply LK].
      exists args, kw, (dict_of kw), b, t. apply mk_ds_measure in H5; [|eapply Meaning_measure; eauto]. auto 10.
    - intros [args [kw [kwd [b [t [H1 [H2 [H3 [H4 [H5 [-> HG]]]]]]]]]]]. exists ((KLower, VStr n) :: tok KLBk :: w ++ [tok KRBk]).
      split; auto. split; auto. apply constr_word; auto. exists c, args, kw, t. split; auto. split; auto. split; auto.
      pose proof (dict_of_Latest kw) as LK. split.
      + apply (constr_spec E (dshape E) n ps); auto; [apply LK|]. exists b. split; auto. eapply Bound_ext; [|exact H4]. apply (Latest_unique kw); auto.
      + apply mk_ds_measure; auto. eapply Meaning_measure; eauto.
  Qed.
  Theorem string_text s w ds : disc_ok E ->
    Layout ((KLower, VStr $"string") :: tok KLBk :: w ++ [tok KRBk]) s ->
    dshape E s = Ok ds <->
    exists args t, Args sym true w args [] /\ args <> [] /\ StringMeaning args t /\ ds = DataShapeT None [t].
  Proof.
    intros HE HL. rewrite dshape_exact by auto. split.
    - intros [l [HL' [HI HG]]]. rewrite (Layout_fun _ _ _ HL' HL) in HI. apply constr_word in HI; auto.
      destruct HI as [c [args [kw [t [H1 [H2 [H3 [H4 H5]]]]]]]]. apply (string_spec E (dshape E) c) in H4 as [K SM]; auto.
      assert (kw = []) as ->.
      { destruct kw as [|p kw] using rev_ind; auto. exfalso. pose proof (dict_of_Latest (kw ++ [p])) as [_ LK]. rewrite K in LK.
        destruct p as [m a]. apply (LK m a). exists kw, []. auto. }
      exists args, t. split; auto. split; [destruct H3 as [|X]; [auto|now elim X]|]. split; auto. apply mk_ds_measure in H5; auto. eapply StringMeaning_measure; eauto.
    - intros [args [t [H1 [H2 [H3 ->]]]]]. exists ((KLower, VStr $"string") :: tok KLBk :: w ++ [tok KRBk]). split; auto. split.
      + apply constr_word; auto. assert (X : exists c, constr_fun E (dshape E) $"string" = Some c) by (eexists; reflexivity).
        destruct X as [c Hc]. exists c, args, [], t. split; auto. split; auto. split; auto. split.
        * apply (string_spec E (dshape E) c); auto.
        * apply mk_ds_measure; auto. eapply StringMeaning_measure; eauto.
      + assert (M : Forall (fun t => forall u, Reach u t -> u = t) [t]).
        { constructor; [|constructor]. intros u Hu. destruct H3; inversion Hu; reflexivity. }
        apply Forall_inv in M. intros n ps Hr. inversion Hr as [|n' ps' c' Hc Hr'| | | | |]; subst.
        * apply one_good. destruct H3; intros [o X]; discriminate.
        * destruct Hc as [<-|[]]. apply M in Hr'. destruct H3; discriminate.
  Qed.
End T.
