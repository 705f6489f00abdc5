(** C66: exactly which brackets [pprint] breaks. *)
From Verif Require Import Base Types Lexer Printer Spec_WF Spec_Layout Proof_Print Proof_Layout Proof_Layout2.
Local Open Scope N_scope.

Scheme Shown_m := Minimality for Shown Sort Prop
  with ShownFields_m := Minimality for ShownFields Sort Prop
  with ShownItems_m := Minimality for ShownItems Sort Prop.
Combined Scheme Shown_all from Shown_m, ShownFields_m, ShownItems_m.

Lemma RT_dec t : isRT t \/ ~ isRT t.
Proof. destruct t; try (right; intros [[? H]|[? H]]; discriminate); left; [left|right]; eauto. Qed.
Lemma Open_record fs : Open (RecordT fs) -> forall f, In f fs -> Open (snd f).
Proof. intro H. inversion H as [? Q|? Q|? Q|]; subst; auto. destruct (Q fs (Occurs_here _)). Qed.
Lemma Open_tuple l : Open (TupleT l) -> forall t, In t l -> Open t.
Proof. intro H. inversion H as [? Q|? Q|? Q|]; subst; auto. intros t Ht. apply OP_plain. eapply Plain_child; eauto. Qed.
Lemma Open_array n ds t : Open (DataShapeT n (ds ++ [t])) -> isRT t -> (forall d, In d ds -> Plain d) /\ Open t.
Proof.
  intros H R. inversion H as [? Q|? Q|? Q|n' ds' t' H1 H2 H3 E]; subst.
  - split; [intros d Hd|apply OP_plain]; (eapply Plain_child; [exact Q|]); cbn [children]; apply in_or_app; [left|right; left]; auto.
  - match goal with X : _ ++ [_] = ds ++ [t] |- _ => apply app_inj_tail in X as [-> ->] end. auto.
Qed.
Lemma Open_plain t : Open t -> ~ Breakable t -> Plain t.
Proof.
  intros H B. inversion H as [? Q|fs Q|l Q|n ds t' H1 H2 H3 E]; subst; auto; destruct B; try constructor; auto.
Qed.
Lemma array_last n ps : ps <> [] -> ~ Breakable (DataShapeT n ps) -> ~ isRT (last ps NullT).
Proof. intros E B R. destruct (exists_last E) as [ds [t ->]]. rewrite last_last in R. apply B. constructor. exact R. Qed.
(* what is plain and not breakable is shown the same for every width *)
Lemma pp_unbreakable U t w : Tidy t -> Plain t -> ~ Breakable t -> pp U (MPp w) t = one U t.
Proof.
  intros T P B. destruct t; try (exact (pp_plain U _ T P MStr I)); try (destruct B; constructor; fail).
  rewrite pp_params_eq. cbn [one]. match goal with |- context[pp_params U w [] ?l] => rename l into ps end.
  destruct ps as [|p0 ps0]; [reflexivity|]. destruct (@exists_last _ (p0 :: ps0) ltac:(discriminate)) as [ds [t E]]. rewrite E in *.
  assert (R : ~ isRT t) by (intro R; apply B; constructor; exact R).
  assert (G : forall x, In x (ds ++ [t]) -> pp U MStr x = one U x).
  { intros x Hx. apply pp_plain; [eapply Tidy_child; eauto|eapply Plain_child; eauto|exact I]. }
  assert (Gt : forall r, pp U (MBody r w) t = one U t).
  { intro r. rewrite <- (G t) by (apply in_or_app; right; left; auto). destruct t; try reflexivity; destruct R; [left|right]; eauto. }
  clear E B R T P. enough (X : forall acc, pp_params U w acc (ds ++ [t]) = acc ++ join $" * " (map (one U) (ds ++ [t]))) by apply (X []).
  induction ds as [|x ds IH]; intro acc; [cbn; rewrite Gt; reflexivity|].
  assert (X : exists y r, ds ++ [t] = y :: r) by (destruct ds; eexists _, _; reflexivity). destruct X as [y [r X]].
  cbn [app pp_params map]. rewrite X. rewrite <- X. rewrite IH by (intros; apply G; right; auto).
  rewrite (G x) by (left; auto).
  assert (J : join $" * " (one U x :: map (one U) (ds ++ [t])) = one U x ++ $" * " ++ join $" * " (map (one U) (ds ++ [t]))) by (rewrite X; reflexivity).
  rewrite J. now rewrite <- !app_assoc.
Qed.
Lemma prefix_one U ds t : join $" * " (map (one U) (ds ++ [t])) = prefix (one U) ds ++ one U t.
Proof.
  induction ds as [|x ds IH]; [reflexivity|]. assert (X : exists y r, ds ++ [t] = y :: r) by (destruct ds; eexists _, _; reflexivity).
  destruct X as [y [r X]]. cbn [app map prefix flat_map]. rewrite X in *. cbn [map] in *. 
  change (join $" * " (one U x :: one U y :: map (one U) r)) with (one U x ++ $" * " ++ join $" * " (one U y :: map (one U) r)).
  rewrite IH. unfold prefix. now rewrite <- !app_assoc.
Qed.
Lemma params_prefix U w ds t : (forall x, In x ds -> pp U MStr x = one U x) -> forall acc,
  pp_params U w acc (ds ++ [t]) = acc ++ prefix (one U) ds ++ pp U (MBody (len (acc ++ prefix (one U) ds)) w) t.
Proof.
  intro G. induction ds as [|x ds IH]; intro acc.
  - cbn [app pp_params prefix flat_map]. unfold len. now rewrite app_nil_r.
  - assert (X : exists y r, ds ++ [t] = y :: r) by (destruct ds; eexists _, _; reflexivity). destruct X as [y [r X]].
    cbn [app pp_params]. rewrite X. rewrite <- X. rewrite IH by (intros; apply G; right; auto). rewrite (G x) by (left; auto).
    cbn [prefix flat_map]. fold (prefix (one U) ds). unfold prefix at 3. cbn [flat_map]. fold (prefix (one U) ds).
    rewrite <- !app_assoc. reflexivity.
Qed.

Section Exact.
  Variable U : uni.
  Notation Sh := (Shown (one U) (field_name U)).
  Notation ShF := (ShownFields (one U) (field_name U)).
  Notation ShI := (ShownItems (one U) (field_name U)).

  Lemma Tidy_prefix n ds b : Tidy (DataShapeT n (ds ++ [b])) -> flat (prefix (one U) ds).
  Proof.
    intro T. assert (G : forall x, In x ds -> flat (one U x)).
    { intros x Hx. apply one_flat. apply (Tidy_child _ x T). cbn [children]. apply in_or_app. auto. }
    clear T. induction ds as [|x ds IH]; [intros []|]. cbn [prefix flat_map]. apply flat_app; [apply flat_app|].
    - apply G. left; auto.
    - apply flat_lit. reflexivity.
    - apply IH. intros; apply G; right; auto.
  Qed.
  Lemma indent_broken op cl d ss : (op, cl) = (123, 125) \/ (op, cl) = (40, 41) ->
    indent_nl (broken op cl d ss) = broken op cl (S d) (map indent_nl ss).
  Proof.
    intro Hb. unfold broken. rewrite !indent_app', indent_NL, indent_join, indent_app', indent_NL.
    assert (E1 : indent_nl [op] = [op] /\ indent_nl [cl] = [cl]) by (destruct Hb as [Hb|Hb]; injection Hb as -> ->; split; reflexivity).
    destruct E1 as [-> ->]. reflexivity.
  Qed.
  (* one level further in *)
  Lemma shown_indent :
    (forall d w t s, Sh d w t s -> Tidy t -> Sh (S d) w t (indent_nl s)) /\
    (forall d w fs ss, ShF d w fs ss -> Tidy (RecordT fs) -> ShF (S d) w fs (map indent_nl ss)) /\
    (forall d w l ss, ShI d w l ss -> Tidy (TupleT l) -> ShI (S d) w l (map indent_nl ss)).
  Proof.
    assert (P : forall ds b t, ArrayOf ds b t -> Tidy t -> flat (prefix (one U) ds) /\ Tidy b).
    { intros ds b t [[-> ->]| ->] T; split; auto; [intros []|eapply Tidy_prefix; eauto|].
      apply (Tidy_child _ b T). cbn [children]. apply in_or_app. right. left. reflexivity. }
    apply (Shown_all (one U) (field_name U)
      (fun d w t s => Tidy t -> Sh (S d) w t (indent_nl s))
      (fun d w fs ss => Tidy (RecordT fs) -> ShF (S d) w fs (map indent_nl ss))
      (fun d w l ss => Tidy (TupleT l) -> ShI (S d) w l (map indent_nl ss))).
    - intros d w t H T. rewrite indent_flat by (apply one_flat; auto). now apply SH_fits.
    - intros d w t H T. rewrite indent_flat by (apply one_flat; auto). now apply SH_other.
    - intros d w t ds fs ss HA Hw _ IH T. destruct (P _ _ _ HA T) as [P1 P2]. rewrite indent_app', (indent_flat (prefix _ _)), indent_broken by auto.
      eapply SH_record; eauto.
    - intros d w t ds l ss HA Hw _ IH T. destruct (P _ _ _ HA T) as [P1 P2]. rewrite indent_app', (indent_flat (prefix _ _)), indent_broken by auto.
      eapply SH_tuple; eauto.
    - intros. constructor.
    - intros d w n t fs s ss _ IH1 _ IH2 T. cbn [map]. rewrite !indent_app'.
      rewrite (indent_flat (field_name U n)) by (apply field_flat; apply (T _ (Occurs_here _) (n, t)); left; auto).
      change (indent_nl $": ") with $": ". constructor.
      + apply IH1. eapply Tidy_child; eauto. left. reflexivity.
      + apply IH2. intros u Hu. inversion Hu as [|c t' Hc Ho]; subst.
        * intros f Hf. apply (T _ (Occurs_here _) f). right. auto.
        * apply T. eapply Occurs_in; [|exact Ho]. right. exact Hc.
    - intros. constructor.
    - intros d w t l s ss _ IH1 _ IH2 T. cbn [map]. constructor.
      + apply IH1. eapply Tidy_child; eauto. left. reflexivity.
      + apply IH2. intros u Hu. inversion Hu as [|c t' Hc Ho]; subst; [exact I|].
        apply T. eapply Occurs_in; [|exact Ho]. right. exact Hc.
  Qed.

  (* the layout of a bracket that does not fit *)
  Lemma layout_broken r w op cl ss os : (op, cl) = (123, 125) \/ (op, cl) = (40, 41) -> Forall2 (Laid 0) ss os ->
    (w <= r + Z.of_nat (length ([op] ++ join $", " os ++ [cl])))%Z -> layout r w op cl ss = broken op cl 0 (map indent_nl ss).
  Proof.
    intros Hb F H.
    assert (L : (length ([op] ++ join $", " os ++ [cl]) <= length ([op] ++ join $", " ss ++ [cl]))%nat).
    { rewrite !app_length. assert (K : Laid 0 (join $", " ss) (join $", " os)) by (apply Laid_join; auto; apply flat_lit; reflexivity).
      apply Laid_length in K. lia. }
    unfold layout. change (op :: join $", " ss ++ [cl]) with ([op] ++ join $", " ss ++ [cl]).
    destruct (Z.ltb_spec (r + Z.of_nat (length ([op] ++ join $", " ss ++ [cl]))) w); [lia|].
    change (op :: 10 :: join [44; 10] ss ++ [10; cl]) with ([op] ++ NL 0 ++ join ($"," ++ NL 0) ss ++ NL 0 ++ [cl]).
    unfold broken. rewrite !indent_app', indent_join, indent_app', !indent_NL.
    assert (E1 : indent_nl [op] = [op] /\ indent_nl [cl] = [cl]) by (destruct Hb as [Hb|Hb]; injection Hb as -> ->; split; reflexivity).
    destruct E1 as [-> ->]. reflexivity.
  Qed.

  Definition Good (t : ty) : Prop := Open t -> Tidy t -> forall w, Sh 0 w t (pp U (MPp w) t).
  Lemma body_record fs ds t w : Forall (fun f => Good (snd f)) fs -> Open (RecordT fs) -> Tidy (RecordT fs) ->
    ArrayOf ds (RecordT fs) t -> one U t = prefix (one U) ds ++ one U (RecordT fs) ->
    Sh 0 w t (prefix (one U) ds ++ pp U (MBody (len (prefix (one U) ds)) w) (RecordT fs)).
  Proof.
    intros F O T HA E. set (r := len (prefix (one U) ds)).
    destruct (Z.lt_ge_cases (r + Z.of_nat (length (one U (RecordT fs)))) w) as [L|L].
    - destruct (pp_open U _ O T) as [_ B]. rewrite B by (auto; left; eauto). rewrite <- E. apply SH_fits.
      rewrite E. unfold len in *. rewrite app_length. unfold r, len in L. lia.
    - cbn [pp]. 
      set (ss := map (fun f => field_name U (fst f) ++ $": " ++ pp U (MPp (w - r - Z.of_nat (length (fst f)))) (snd f)) fs).
      assert (LA : Forall2 (Laid 0) ss (map (fun f => field_name U (fst f) ++ $": " ++ one U (snd f)) fs)).
      { assert (G : forall f, In f fs -> Laid 0 (field_name U (fst f) ++ $": " ++ pp U (MPp (w - r - Z.of_nat (length (fst f)))) (snd f))
                                      (field_name U (fst f) ++ $": " ++ one U (snd f))).
        { intros f Hf. apply LD_app; [apply LD_line, field_flat; apply (T _ (Occurs_here _)); exact Hf|].
          apply LD_app; [apply LD_line, flat_lit; reflexivity|]. apply pp_laid. eapply Tidy_child; eauto. cbn [children]. now apply in_map. }
        clear - G. unfold ss. induction fs as [|f fs IH]; constructor; [apply G; left; auto|]. apply IH. intros; apply G; right; auto. }
      rewrite (layout_broken r w 123 125 ss _ (or_introl eq_refl) LA L).
      eapply SH_record; [exact HA| |].
      + rewrite E. unfold len. rewrite app_length. unfold r, len in L. lia.
      + fold r.
        assert (G : forall f, In f fs -> Good (snd f) /\ Open (snd f) /\ Tidy (snd f) /\ flat (field_name U (fst f))).
        { intros f Hf. rewrite Forall_forall in F. split; [auto|]. split; [eapply Open_record; eauto|]. split.
          - eapply Tidy_child; eauto. cbn [children]. now apply in_map.
          - apply field_flat. apply (T _ (Occurs_here _) f Hf). }
        clear - G. unfold ss. clear ss. induction fs as [|[n x] fs IH]; cbn [map fst snd]; [constructor|].
        destruct (G (n, x) (or_introl eq_refl)) as [G1 [G2 [G3 G4]]]. cbn [fst snd] in *.
        rewrite !indent_app', (indent_flat (field_name U n)) by auto. change (indent_nl $": ") with $": ". constructor.
        * apply shown_indent; auto.
        * apply IH. intros; apply G; right; auto.
  Qed.
  Lemma body_tuple l ds t w : Forall Good l -> Open (TupleT l) -> Tidy (TupleT l) ->
    ArrayOf ds (TupleT l) t -> one U t = prefix (one U) ds ++ one U (TupleT l) ->
    Sh 0 w t (prefix (one U) ds ++ pp U (MBody (len (prefix (one U) ds)) w) (TupleT l)).
  Proof.
    intros F O T HA E. set (r := len (prefix (one U) ds)).
    destruct (Z.lt_ge_cases (r + Z.of_nat (length (one U (TupleT l)))) w) as [L|L].
    - destruct (pp_open U _ O T) as [_ B]. rewrite B by (auto; right; eauto). rewrite <- E. apply SH_fits.
      rewrite E. unfold len in *. rewrite app_length. unfold r, len in L. lia.
    - cbn [pp].
      assert (LA : Forall2 (Laid 0) (map (pp U (MPp (w - r))) l) (map (one U) l)).
      { assert (G : forall x, In x l -> Laid 0 (pp U (MPp (w - r)) x) (one U x)).
        { intros x Hx. apply pp_laid. eapply Tidy_child; eauto. }
        clear - G. induction l as [|x l IH]; constructor; [apply G; left; auto|]. apply IH. intros; apply G; right; auto. }
      rewrite (layout_broken r w 40 41 _ _ (or_intror eq_refl) LA L).
      eapply SH_tuple; [exact HA| |].
      + rewrite E. unfold len. rewrite app_length. unfold r, len in L. lia.
      + fold r.
        assert (G : forall x, In x l -> Good x /\ Open x /\ Tidy x).
        { intros x Hx. rewrite Forall_forall in F. split; [auto|]. split; [eapply Open_tuple; eauto|]. eapply Tidy_child; eauto. }
        clear - G. induction l as [|x l IH]; cbn [map]; [constructor|].
        destruct (G x (or_introl eq_refl)) as [G1 [G2 G3]]. constructor.
        * apply shown_indent; auto.
        * apply IH. intros; apply G; right; auto.
  Qed.
  Definition Good2 (t : ty) : Prop := Good t /\ match t with RecordT fs => Forall (fun f => Good (snd f)) fs | TupleT l => Forall Good l | _ => True end.
  Lemma all_good t : Good2 t.
  Proof.
    induction t as [n i a| | | | | |z|z|u|u t IH|f e|p s|v|s|o|n ps F|t IH|ps F|k v IHk IHv|fs F|c t o IH|ds F|ts n F] using ty_ind'; split; try exact I;
      try (intros O T w; rewrite pp_unbreakable; [apply SH_other; intro B; inversion B|auto|apply Open_plain; auto; intro B; inversion B|intro B; inversion B]; fail).
    - intros O T w. destruct n as [nm|]; [destruct (T _ (Occurs_here _))|].
      assert (D : (exists ds b, ps = ds ++ [b] /\ isRT b) \/ ~ Breakable (DataShapeT None ps)).
      { destruct ps as [|p0 ps0]; [right; intro B; inversion B as [| |? ds t' ? E]; destruct ds; discriminate|].
        destruct (@exists_last _ (p0 :: ps0) ltac:(discriminate)) as [ds [b ->]]. destruct (RT_dec b) as [R|R]; [left; eauto|].
        right. intro B. inversion B as [| |? ds' t' H E]; subst. match goal with X : _ ++ [_] = _ ++ [_] |- _ => apply app_inj_tail in X as [-> ->] end. auto. }
      destruct D as [[ds [b [-> R]]]|B].
      + destruct (Open_array _ _ _ O R) as [O1 O2]. rewrite pp_params_eq.
        assert (Tb : Tidy b) by (apply (Tidy_child _ b T); cbn [children]; apply in_or_app; right; left; reflexivity).
        rewrite (params_prefix U w ds b).
        2:{ intros x Hx. apply pp_plain; [apply (Tidy_child _ x T); cbn [children]; apply in_or_app; auto|auto|exact I]. }
        cbn [app]. rewrite Forall_forall in F.
        assert (Gb : Good2 b) by (apply F; apply in_or_app; right; left; reflexivity).
        assert (Eo : one U (DataShapeT None (ds ++ [b])) = prefix (one U) ds ++ one U b) by (cbn [one]; apply prefix_one).
        (* the parts of b are smaller: use Good b at depth zero *)
        destruct R as [[fs ->]|[l ->]].
        * apply body_record; auto; [|right; auto]. apply Gb.
        * apply body_tuple; auto; [|right; auto]. apply Gb.
      + rewrite pp_unbreakable; auto; [now apply SH_other|apply Open_plain; auto].
    - intros O T w. rewrite pp_body0 by (left; eauto). apply (body_record fs [] (RecordT fs)); auto; [|left; auto].
      eapply Forall_impl; [|exact F]. intros f H. apply H.
    - eapply Forall_impl; [|exact F]. intros f H. apply H.
    - intros O T w. rewrite pp_body0 by (right; eauto). apply (body_tuple ds [] (TupleT ds)); auto; [|left; auto].
      eapply Forall_impl; [|exact F]. intros f H. apply H.
    - eapply Forall_impl; [|exact F]. intros f H. apply H.
  Qed.

  (* the rules leave no choice *)
  Lemma ArrayOf_breakable ds b t : ArrayOf ds b t -> isRT b -> Breakable t.
  Proof. intros [[-> ->]| ->] R; [destruct R as [[fs ->]|[l ->]]; constructor|constructor; exact R]. Qed.
  Lemma ArrayOf_inj ds b ds' b' t : ArrayOf ds b t -> ArrayOf ds' b' t -> isRT b -> isRT b' -> ds = ds' /\ b = b'.
  Proof.
    assert (N : forall n l, ~ isRT (DataShapeT n l)) by (intros n l [[fs Q]|[l' Q]]; discriminate).
    intros [[-> ->]| ->] [[-> E]|E] R R'; auto.
    - subst. destruct (N _ _ R).
    - subst. destruct (N _ _ R').
    - injection E as E. apply app_inj_tail in E. exact E.
  Qed.
  Lemma shown_fun :
    (forall d w t s, Sh d w t s -> forall s', Sh d w t s' -> s' = s) /\
    (forall d w fs ss, ShF d w fs ss -> forall ss', ShF d w fs ss' -> ss' = ss) /\
    (forall d w l ss, ShI d w l ss -> forall ss', ShI d w l ss' -> ss' = ss).
  Proof.
    assert (R1 : forall fs, isRT (RecordT fs)) by (left; eauto). assert (R2 : forall l, isRT (TupleT l)) by (right; eauto).
    apply (Shown_all (one U) (field_name U)
      (fun d w t s => forall s', Sh d w t s' -> s' = s)
      (fun d w fs ss => forall ss', ShF d w fs ss' -> ss' = ss)
      (fun d w l ss => forall ss', ShI d w l ss' -> ss' = ss)).
    - intros d w t H s' H'. inversion H'; subst; auto; lia.
    - intros d w t H s' H'. inversion H'; subst; auto; destruct H; eapply ArrayOf_breakable; eauto.
    - intros d w t ds fs ss HA Hw _ IH s' H'. inversion H' as [|? ? ? N|? ? ? ds' fs' ss' HA' ? HF|? ? ? ds' l' ss' HA' ? HF]; subst; try lia.
      + destruct N. eapply ArrayOf_breakable; eauto.
      + destruct (ArrayOf_inj _ _ _ _ _ HA HA') as [<- E]; auto. injection E as <-. now rewrite (IH _ HF).
      + destruct (ArrayOf_inj _ _ _ _ _ HA HA') as [<- E]; auto. discriminate.
    - intros d w t ds fs ss HA Hw _ IH s' H'. inversion H' as [|? ? ? N|? ? ? ds' fs' ss' HA' ? HF|? ? ? ds' l' ss' HA' ? HF]; subst; try lia.
      + destruct N. eapply ArrayOf_breakable; eauto.
      + destruct (ArrayOf_inj _ _ _ _ _ HA HA') as [<- E]; auto. discriminate.
      + destruct (ArrayOf_inj _ _ _ _ _ HA HA') as [<- E]; auto. injection E as <-. now rewrite (IH _ HF).
    - intros d w ss' H. inversion H; auto.
    - intros d w n t fs s ss _ IH1 _ IH2 ss' H. inversion H; subst. f_equal; auto. do 2 f_equal. auto.
    - intros d w ss' H. inversion H; auto.
    - intros d w t l s ss _ IH1 _ IH2 ss' H. inversion H; subst. f_equal; auto.
  Qed.
  Lemma pprint_exact t w s : Tidy t -> Open t -> (Sh 0 w t s <-> s = pprint U t w).
  Proof.
    intros T O. pose proof (proj1 (all_good t) O T w) as H. unfold pprint. split; [intro H'; eapply (proj1 shown_fun); eauto|intros ->; exact H].
  Qed.
End Exact.
