(** C66 for datashapes that hand the width of [pprint] to every record. *)
From Verif Require Import Base Types Lexer Printer Spec_WF Spec_Layout Proof_Print Proof_Layout.
Local Open Scope N_scope.

Definition Wide (m : mode) (n : nat) : Prop :=
  match m with
  | MStr => True
  | MPp w => (Z.of_nat n < w)%Z
  | MBody r w => (r + Z.of_nat n < w)%Z
  end.
Lemma Plain_child t c : Plain t -> In c (children t) -> Plain c.
Proof. intros H Hc fs Ho. apply (H fs). eapply Occurs_in; eauto. Qed.
Lemma params_wide U w : forall ds t acc,
  (forall x, In x ds -> pp U MStr x = one U x) ->
  (forall r, (r + Z.of_nat (length (one U t)) < w)%Z -> pp U (MBody r w) t = one U t) ->
  (Z.of_nat (length (acc ++ join $" * " (map (one U) (ds ++ [t])))) < w)%Z ->
  pp_params U w acc (ds ++ [t]) = acc ++ join $" * " (map (one U) (ds ++ [t])).
Proof.
  induction ds as [|x ds IH]; intros t acc H Ht L.
  - cbn [app map join pp_params] in *. rewrite app_length in L. rewrite Ht by lia. reflexivity.
  - assert (X : exists y r, ds ++ [t] = y :: r) by (destruct ds; eexists _, _; reflexivity).
    destruct X as [y [r X]]. cbn [app pp_params map] in *. rewrite X. rewrite <- X.
    assert (J : join $" * " (one U x :: map (one U) (ds ++ [t])) = one U x ++ $" * " ++ join $" * " (map (one U) (ds ++ [t]))).
    { rewrite X. reflexivity. }
    rewrite J in *. rewrite H by (left; auto). rewrite IH; auto.
    + now rewrite <- !app_assoc.
    + intros; apply H; right; auto.
    + rewrite !app_length in *. lia.
Qed.
Lemma pp_plain U t : Tidy t -> Plain t -> forall m, Wide m (length (one U t)) -> pp U m t = one U t.
Proof.
  induction t as [n i a| | | | | |z|z|u|u t IH|f e|p s|v|s|o|n ps F|t IH|ps F|k v IHk IHv|fs F|c t o IH|ds F|ts n F] using ty_ind'; intros T Q m H;
    try reflexivity.
  - cbn [pp one] in *. rewrite (IH (Tidy_child _ _ T ltac:(left; reflexivity)) (Plain_child _ _ Q ltac:(left; reflexivity)) MStr I). reflexivity.
  - assert (G : forall x, In x ps -> forall m, Wide m (length (one U x)) -> pp U m x = one U x).
    { intros x Hx. rewrite Forall_forall in F. apply F; auto; [eapply Tidy_child; eauto|eapply Plain_child; eauto]. }
    destruct n as [nm|]; [destruct (T _ (Occurs_here _))|].
    assert (S : join $" * " (map (pp U MStr) ps) = join $" * " (map (one U) ps)).
    { f_equal. apply map_ext_in. intros x Hx. apply G; auto. exact I. }
    destruct m; [exact S| |exact S]. rewrite pp_params_eq. cbn [one Wide] in *.
    destruct ps as [|p0 ps0]; [reflexivity|]. destruct (@exists_last _ (p0 :: ps0) ltac:(discriminate)) as [ds [t E]]. rewrite E in *.
    apply (params_wide U w ds t []); auto.
    + intros x Hx. apply G; [apply in_or_app; left; auto|exact I].
    + intros r Hr. apply G; [apply in_or_app; right; left; auto|exact Hr].
  - cbn [pp one] in *. rewrite (IH (Tidy_child _ _ T ltac:(left; reflexivity)) (Plain_child _ _ Q ltac:(left; reflexivity)) MStr I). reflexivity.
  - cbn [pp one] in *.
    assert (E : map (pp U MStr) ps = map (one U) ps); [|rewrite E; reflexivity].
    apply map_ext_in. intros x Hx. rewrite Forall_forall in F. apply F; auto; [eapply Tidy_child; eauto|eapply Plain_child; eauto|exact I].
  - cbn [pp one] in *.
    rewrite (IHk (Tidy_child _ _ T ltac:(left; reflexivity)) (Plain_child _ _ Q ltac:(left; reflexivity)) MStr I).
    rewrite (IHv (Tidy_child _ _ T ltac:(right; left; reflexivity)) (Plain_child _ _ Q ltac:(right; left; reflexivity)) MStr I). reflexivity.
  - destruct (Q fs (Occurs_here _)).
  - cbn [pp one] in *. rewrite (IH (Tidy_child _ _ T ltac:(left; reflexivity)) (Plain_child _ _ Q ltac:(left; reflexivity)) MStr I). reflexivity.
  - assert (L : forall x, In x ds -> (length (one U x) + 2 <= length (one U (TupleT ds)))%nat).
    { intros x Hx. apply (in_map (one U)) in Hx. apply (join_len $", ") in Hx. cbn [one]. rewrite !app_length. cbn [length]. lia. }
    assert (G : forall m', (forall x, In x ds -> Wide m' (length (one U x))) -> map (pp U m') ds = map (one U) ds).
    { intros m' Hm. apply map_ext_in. intros x Hx. rewrite Forall_forall in F. apply F; auto; [eapply Tidy_child; eauto|eapply Plain_child; eauto]. }
    cbn [pp one]. destruct m as [|w|r w]; cbn [Wide] in H.
    + rewrite (G MStr) by (intros; exact I). reflexivity.
    + rewrite (G (MPp w)) by (intros x Hx; specialize (L x Hx); cbn [Wide]; lia). apply layout_fits. exact H.
    + rewrite (G (MPp (w - r))) by (intros x Hx; specialize (L x Hx); cbn [Wide]; lia). apply layout_fits. exact H.
Qed.
Lemma pp_open U t : Open t -> Tidy t ->
  (forall w, (Z.of_nat (length (one U t)) < w)%Z -> pp U (MPp w) t = one U t) /\
  (isRT t -> forall r w, (r + Z.of_nat (length (one U t)) < w)%Z -> pp U (MBody r w) t = one U t).
Proof.
  induction 1 as [t Q|fs Hf IH|l Hl IH|n ds t Hd Ht IH HR]; intro T.
  - split; [intros w H|intros _ r w H]; apply pp_plain; auto.
  - assert (B : forall r w, (r + Z.of_nat (length (one U (RecordT fs))) < w)%Z -> pp U (MBody r w) (RecordT fs) = one U (RecordT fs)).
    { intros r w H. cbn [one] in H. set (ones := map (fun f => field_name U (fst f) ++ $": " ++ one U (snd f)) fs) in *.
      assert (E : map (fun f => field_name U (fst f) ++ $": " ++ pp U (MPp (w - r - Z.of_nat (length (fst f)))) (snd f)) fs = ones).
      { unfold ones. apply map_ext_in. intros f Hin. f_equal. f_equal. apply IH; auto.
        - eapply Tidy_child; eauto. cbn [children]. now apply in_map.
        - assert (X : In (field_name U (fst f) ++ $": " ++ one U (snd f)) ones) by (unfold ones; apply in_map_iff; exists f; auto).
          apply (join_len $", ") in X. rewrite !app_length in *. change (length $": ") with 2%nat in X. cbn [length] in H. pose proof (field_len U (fst f)). lia. }
      cbn [pp one]. rewrite E. fold ones. apply layout_fits. exact H. }
    split; [|auto]. intros w H. rewrite pp_body0 by (left; eauto). apply B. lia.
  - assert (B : forall r w, (r + Z.of_nat (length (one U (TupleT l))) < w)%Z -> pp U (MBody r w) (TupleT l) = one U (TupleT l)).
    { intros r w H. cbn [one] in H.
      assert (E : map (pp U (MPp (w - r))) l = map (one U) l).
      { apply map_ext_in. intros x Hx. apply IH; auto; [eapply Tidy_child; eauto|].
        apply (in_map (one U)) in Hx. apply (join_len $", ") in Hx. rewrite !app_length in H. cbn [length] in H. lia. }
      cbn [pp one]. rewrite E. apply layout_fits. exact H. }
    split; [|auto]. intros w H. rewrite pp_body0 by (right; eauto). apply B. lia.
  - assert (Tt : Tidy t) by (eapply Tidy_child; eauto; cbn [children]; apply in_or_app; right; left; reflexivity).
    split; [|intros [[fs E]|[l E]]; discriminate].
    intros w H. rewrite pp_params_eq. cbn [one] in *. apply (params_wide U w ds t []); auto.
    + intros x Hx. apply pp_plain; [|auto|exact I]. apply (Tidy_child _ x T). cbn [children]. apply in_or_app. left. exact Hx.
    + intros r Hr. apply IH; auto.
Qed.

Lemma pprint_lines U t : Tidy t -> exists o, ~ In 10 o /\
  (forall w, Laid 0 (pprint U t w) o) /\ Laid 0 (py_str U t) o /\
  (forall w, (Z.of_nat (length o) < w)%Z -> Open t \/ (Z.of_nat (length o) < 80)%Z -> pprint U t w = o) /\
  (forall w, Breakable t -> (w <= Z.of_nat (length o))%Z -> In 10 (pprint U t w)).
Proof.
  intro T. exists (one U t). split; [apply one_flat; auto|]. split; [intro w; apply pp_laid; auto|].
  split; [apply pp_laid; auto|]. split.
  - intros w H [HO|H8]; [apply pp_open; auto|]. apply pp_fits; auto. cbn [Fit]. auto.
  - intros w B H. apply pprint_breaks; auto.
Qed.
