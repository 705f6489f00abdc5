(** normalize_time_unit (C25) *)
From Verif Require Import Base Types Lexer Printer Construct Spec_Time.
Local Open Scope N_scope.

Lemma dw_split p s : exists w, s = w ++ drop_while p s /\ Forall (fun c => p c = true) w.
Proof.
  induction s as [|c s [w [H1 H2]]]; [exists []; auto|]. cbn [drop_while]. destruct (p c) eqn:E.
  - exists (c :: w). split; [simpl; congruence|constructor; auto].
  - exists []; auto.
Qed.
Lemma dw_head p s : match drop_while p s with c :: _ => p c = false | [] => True end.
Proof. induction s as [|c s IH]; simpl; auto. destruct (p c) eqn:E; auto. Qed.
Lemma dw_app p w s : Forall (fun c => p c = true) w -> drop_while p (w ++ s) = drop_while p s.
Proof. induction 1 as [|c w H F IH]; [reflexivity|]. cbn [app drop_while]. rewrite H. exact IH. Qed.
Lemma dw_id p s : match s with c :: _ => p c = false | [] => True end -> drop_while p s = s.
Proof. destruct s; simpl; [reflexivity|]. intros ->. reflexivity. Qed.
Lemma dw_length p s : (length (drop_while p s) <= length s)%nat.
Proof. destruct (dw_split p s) as [w [H _]]. rewrite H at 2. rewrite app_length. lia. Qed.

Lemma rstrip_split p s : exists w, s = rstrip p s ++ w /\ Forall (fun c => p c = true) w.
Proof.
  unfold rstrip. destruct (dw_split p (rev s)) as [w [H1 H2]]. exists (rev w). split.
  - rewrite <- rev_app_distr, <- H1, rev_involutive. reflexivity.
  - apply Forall_rev. exact H2.
Qed.
Lemma rstrip_app p s w : Forall (fun c => p c = true) w -> rstrip p (s ++ w) = rstrip p s.
Proof. intro H. unfold rstrip. rewrite rev_app_distr, dw_app by (apply Forall_rev; auto). reflexivity. Qed.
Definition last_not (p : N -> bool) (s : str) : Prop := forall r c, s = r ++ [c] -> p c = false.
Lemma rstrip_id p s : last_not p s -> rstrip p s = s.
Proof.
  intro H. unfold rstrip. rewrite dw_id; [apply rev_involutive|].
  destruct (rev s) as [|c r] eqn:E; auto. apply (H (rev r) c).
  rewrite <- (rev_involutive s), E. reflexivity.
Qed.
Lemma rstrip_last p s : last_not p (rstrip p s).
Proof.
  intros r c E. unfold rstrip in E. pose proof (dw_head p (rev s)) as H.
  destruct (drop_while p (rev s)) as [|d l]; [simpl in E; destruct r; discriminate|].
  simpl in E. apply app_inj_tail in E as [_ <-]. exact H.
Qed.
Lemma rstrip_length p s : (length (rstrip p s) <= length s)%nat.
Proof. destruct (rstrip_split p s) as [w [H _]]. rewrite H at 2. rewrite app_length. lia. Qed.
Lemma rstrip_prefix_head p s : match s with c :: _ => p c = false | [] => True end ->
  match rstrip p s with [] => s = [] | c :: _ => exists r, s = c :: r end.
Proof.
  intro H. destruct (rstrip_split p s) as [w [E F]]. destruct (rstrip p s) as [|c l] eqn:R.
  - destruct s as [|d s]; [reflexivity|]. simpl in E. subst w. inversion F; congruence.
  - exists (l ++ w). rewrite E. reflexivity.
Qed.

Lemma strip_split s : exists b1 b2, s = b1 ++ strip s ++ b2 /\ Blanks b1 /\ Blanks b2.
Proof.
  unfold strip. destruct (dw_split is_space s) as [b1 [H1 H2]].
  destruct (rstrip_split is_space (drop_while is_space s)) as [b2 [H3 H4]].
  exists b1, b2. split; [rewrite <- H3; exact H1|split; auto].
Qed.
Lemma strip_length s : (length (strip s) <= length s)%nat.
Proof. destruct (strip_split s) as [b1 [b2 [H _]]]. rewrite H at 2. rewrite !app_length. lia. Qed.
Lemma strip_head s : match strip s with c :: _ => is_space c = false | [] => True end.
Proof.
  unfold strip. pose proof (dw_head is_space s) as H.
  pose proof (rstrip_prefix_head is_space (drop_while is_space s) H) as H2.
  destruct (rstrip is_space (drop_while is_space s)) as [|c l]; auto.
  destruct H2 as [r E]. rewrite E in H. exact H.
Qed.
Lemma strip_last s : last_not is_space (strip s).
Proof. unfold strip. apply rstrip_last. Qed.
Lemma strip_id s : match s with c :: _ => is_space c = false | [] => True end -> last_not is_space s -> strip s = s.
Proof. intros H1 H2. unfold strip. rewrite dw_id by exact H1. apply rstrip_id; auto. Qed.
Lemma strip_idem s : strip (strip s) = strip s.
Proof. apply strip_id; [apply strip_head|apply strip_last]. Qed.

Lemma strip_blanks b1 s b2 : Blanks b1 -> Blanks b2 -> strip (b1 ++ s ++ b2) = strip s.
Proof.
  intros H1 H2. unfold strip. rewrite dw_app by exact H1.
  destruct (dw_split is_space s) as [w [E F]].
  destruct (drop_while is_space s) as [|c l] eqn:D.
  - rewrite app_nil_r in E. subst w. rewrite dw_app by exact F. rewrite <- (app_nil_r b2), dw_app by exact H2. reflexivity.
  - pose proof (dw_head is_space s) as Hh. rewrite D in Hh.
    rewrite E, <- app_assoc, dw_app by exact F. rewrite dw_id by exact Hh. apply rstrip_app. exact H2.
Qed.

(** the loop *)
Definition ntu_step (s : str) : res str + str :=
  if mem_str s time_units then inl (Ok s)
  else match assoc s unit_aliases with
       | Some u => inl (Ok u)
       | None => match last_opt s with
                 | None => inl (Raise IndexErr)
                 | Some c => if N.eqb c 115 && Nat.ltb 2 (length s) then inr (rstrip (N.eqb 115) s)
                             else inl (Raise ValueErr)
                 end
       end.
Lemma ntu_unfold n s : normalize_time_unitF (S n) s =
  match ntu_step (strip s) with inl r => r | inr s' => normalize_time_unitF n s' end.
Proof.
  cbn [normalize_time_unitF]. unfold ntu_step. destruct (mem_str _ _); [reflexivity|].
  destruct (assoc _ _); [reflexivity|]. destruct (last_opt _) as [c|]; [|reflexivity].
  destruct (_ && _); reflexivity.
Qed.
Lemma last_opt_Some {A} (s : list A) c : last_opt s = Some c -> exists r, s = r ++ [c].
Proof.
  destruct (list_rev_case s) as [->|[l [x ->]]]; [discriminate|]. rewrite last_opt_app.
  intro H; inversion H; eauto.
Qed.
Lemma last_opt_None {A} (s : list A) : last_opt s = None -> s = [].
Proof. destruct (list_rev_case s) as [->|[l [x ->]]]; auto. rewrite last_opt_app. discriminate. Qed.
Lemma ntu_step_shorter s s' : ntu_step s = inr s' -> (length s' < length s)%nat.
Proof.
  unfold ntu_step. destruct (mem_str _ _); [discriminate|]. destruct (assoc _ _); [discriminate|].
  destruct (last_opt s) as [c|] eqn:E; [|discriminate]. destruct (c =? 115) eqn:Ec; [|discriminate].
  destruct (Nat.ltb 2 (length s)); [|discriminate]. intro H; inversion H; subst s'.
  apply last_opt_Some in E as [r ->]. apply N.eqb_eq in Ec; subst c.
  rewrite rstrip_app by (constructor; [reflexivity|constructor]).
  pose proof (rstrip_length (N.eqb 115) r). rewrite app_length. simpl. lia.
Qed.
Lemma ntu_fuel n m s : (length s < n)%nat -> (length s < m)%nat ->
  normalize_time_unitF n s = normalize_time_unitF m s /\ normalize_time_unitF n s <> Raise OutOfFuel.
Proof.
  revert m s. induction n as [|n IH]; intros m s Hn Hm; [lia|]. destruct m as [|m]; [lia|].
  rewrite !ntu_unfold. destruct (ntu_step (strip s)) as [r|s'] eqn:E.
  - split; auto. unfold ntu_step in E. destruct (mem_str _ _); [inversion E; discriminate|].
    destruct (assoc _ _); [inversion E; discriminate|]. destruct (last_opt _); [|inversion E; discriminate].
    destruct (_ && _); inversion E; discriminate.
  - apply ntu_step_shorter in E. pose proof (strip_length s). apply IH; lia.
Qed.
Lemma normalize_unfold s : normalize_time_unit s =
  match ntu_step (strip s) with inl r => r | inr s' => normalize_time_unit s' end.
Proof.
  unfold normalize_time_unit at 1. rewrite ntu_unfold. destruct (ntu_step (strip s)) as [r|s'] eqn:E; [reflexivity|].
  apply ntu_step_shorter in E. pose proof (strip_length s). unfold normalize_time_unit. apply ntu_fuel; lia.
Qed.
Theorem normalize_no_fuel s : normalize_time_unit s <> Raise OutOfFuel.
Proof. unfold normalize_time_unit. eapply ntu_fuel with (m := S (length s)); lia. Qed.
Lemma normalize_strip s : normalize_time_unit (strip s) = normalize_time_unit s.
Proof. rewrite normalize_unfold, strip_idem, (normalize_unfold s). reflexivity. Qed.

Lemma normalize_errors s : match normalize_time_unit s with
  | Ok u => In u canonical_units
  | Raise e => e = ValueErr \/ e = IndexErr
  end.
Proof.
  assert (G : forall n s, (length s <= n)%nat -> match normalize_time_unit s with
     | Ok u => In u canonical_units | Raise e => e = ValueErr \/ e = IndexErr end).
  { induction n as [|n IH]; intros s' Hs; rewrite normalize_unfold; destruct (ntu_step (strip s')) as [r|s''] eqn:E.
    2:{ apply ntu_step_shorter in E. pose proof (strip_length s'). lia. }
    3:{ apply ntu_step_shorter in E. pose proof (strip_length s'). apply IH; lia. }
    all: unfold ntu_step in E; destruct (mem_str (strip s') time_units) eqn:Em;
      [inversion E; apply mem_str_In in Em; exact Em|];
      destruct (assoc (strip s') unit_aliases) as [u|] eqn:Ea.
    1,3: inversion E; subst; assert (In u (map snd unit_aliases)) as Hu by
        (clear -Ea; generalize dependent (strip s'); intro k; unfold unit_aliases; cbn [assoc];
         repeat match goal with |- context [if ?b then _ else _] => destruct b end;
         intro H; inversion H; simpl; tauto);
        unfold unit_aliases in Hu; cbn [map snd] in Hu; unfold canonical_units; simpl in *; intuition (subst; tauto).
    all: destruct (last_opt (strip s')); [|inversion E; auto]; destruct (_ && _); inversion E; auto. }
  apply (G (length s)). lia.
Qed.

(** specification *)
Lemma assoc_In {A} k (l : list (str * A)) v : assoc k l = Some v -> In (k, v) l.
Proof.
  induction l as [|[k' v'] l IH]; [discriminate|]. cbn [assoc]. destruct (str_eqb k k') eqn:E.
  - intro H; inversion H; subst. apply str_eqb_eq in E; subst. left; reflexivity.
  - intro H; right; auto.
Qed.
Lemma s_tail r : exists k, r ++ [115] = rstrip (N.eqb 115) (r ++ [115]) ++ repeat 115 k /\ (1 <= k)%nat.
Proof.
  destruct (rstrip_split (N.eqb 115) (r ++ [115])) as [w [H F]].
  assert (W : w = repeat 115 (length w)).
  { clear H. induction F as [|c w Hc F IH]; [reflexivity|]. simpl. apply N.eqb_eq in Hc. congruence. }
  exists (length w). split; [rewrite <- W; exact H|]. destruct w; [|simpl; lia].
  exfalso. rewrite app_nil_r in H. pose proof (rstrip_last (N.eqb 115) (r ++ [115])) as L.
  specialize (L r 115 (eq_sym H)). discriminate.
Qed.

Lemma normalize_sound s u : normalize_time_unit s = Ok u -> UnitOf s u.
Proof.
  assert (G : forall n s, (length s <= n)%nat -> normalize_time_unit s = Ok u -> UnitOf s u).
  { induction n as [|n IH]; intros s' Hs H.
    { destruct s'; [discriminate|simpl in Hs; lia]. }
    destruct (strip_split s') as [b1 [b2 [E [B1 B2]]]]. rewrite E. apply UO_blanks; auto.
    rewrite normalize_unfold in H. destruct (ntu_step (strip s')) as [r|s''] eqn:St.
    - subst r. unfold ntu_step in St. destruct (mem_str (strip s') time_units) eqn:Em.
      { inversion St; subst. apply UO_canonical. apply mem_str_In in Em. exact Em. }
      destruct (assoc (strip s') unit_aliases) as [u'|] eqn:Ea.
      { inversion St; subst. apply UO_synonym. apply assoc_In in Ea. exact Ea. }
      destruct (last_opt _); [|discriminate]. destruct (_ && _); discriminate.
    - pose proof (ntu_step_shorter _ _ St) as Hsh. pose proof (strip_length s') as Hl.
      unfold ntu_step in St. destruct (mem_str (strip s') time_units) eqn:Em; [discriminate|].
      destruct (assoc (strip s') unit_aliases) eqn:Ea; [discriminate|].
      destruct (last_opt (strip s')) as [c|] eqn:El; [|discriminate].
      destruct (c =? 115) eqn:Ec; [|discriminate]. destruct (Nat.ltb 2 (length (strip s'))) eqn:E2; [|discriminate].
      apply N.eqb_eq in Ec; subst c. apply Nat.ltb_lt in E2. inversion St as [St']. clear St.
      apply last_opt_Some in El as [r El]. destruct (s_tail r) as [k [Hk Hk1]]. rewrite <- El in Hk. rewrite St' in Hk.
      rewrite Hk in *. rewrite app_length, repeat_length in E2.
      apply UO_plural; auto.
      + apply IH; auto. lia.
      + intros [c [l [Ec Hc]]]. pose proof (strip_head s') as Hh. rewrite Hk, Ec in Hh. simpl in Hh. congruence.
      + intros [r' Er']. pose proof (rstrip_last (N.eqb 115) (s'' ++ repeat 115 k)) as L. rewrite St' in L.
        specialize (L r' 115 Er'). discriminate.
      + intro Hin. apply mem_str_In in Hin. change canonical_units with time_units in Hin. congruence. }
  apply (G (length s)). lia.
Qed.

Lemma normalize_canonical u : In u canonical_units -> normalize_time_unit u = Ok u.
Proof.
  intro H. unfold canonical_units in H. simpl in H.
  repeat (destruct H as [H|H]; [subst; reflexivity|]). contradiction.
Qed.
Lemma normalize_synonym a u : In (a, u) unit_synonyms -> normalize_time_unit a = Ok u.
Proof.
  intro H. unfold unit_synonyms in H. simpl in H.
  repeat (destruct H as [H|H]; [inversion H; subst; reflexivity|]). contradiction.
Qed.
Lemma normalize_blanks b1 s b2 : Blanks b1 -> Blanks b2 ->
  normalize_time_unit (b1 ++ s ++ b2) = normalize_time_unit s.
Proof. intros H1 H2. rewrite <- normalize_strip, strip_blanks by auto. apply normalize_strip. Qed.

Lemma ends_s_not_alias c k : (1 <= k)%nat -> assoc (c ++ repeat 115 k) unit_aliases = None.
Proof.
  intro Hk. destruct (assoc (c ++ repeat 115 k) unit_aliases) as [u|] eqn:E; auto. exfalso.
  apply assoc_In in E.
  assert (L : last (c ++ repeat 115 k) 0 = 115).
  { destruct k; [lia|]. replace (repeat 115 (S k)) with (repeat 115 k ++ [115]) by (rewrite <- repeat_cons; reflexivity).
    rewrite app_assoc, last_last. reflexivity. }
  unfold unit_aliases in E. cbn [In] in E.
  repeat (destruct E as [E|E]; [inversion E as [[E1 E2]]; rewrite <- E1 in L; discriminate|]). contradiction.
Qed.

Lemma normalize_complete s u : UnitOf s u -> normalize_time_unit s = Ok u.
Proof.
  induction 1 as [u H|a u H|b1 s b2 u H1 H2 H IH|c k u H IH Hb Hs Hk Hl Hc].
  - apply normalize_canonical; auto.
  - apply normalize_synonym; auto.
  - rewrite normalize_blanks; auto.
  - rewrite normalize_unfold.
    assert (Hc0 : c <> []).
    { intros ->. discriminate. }
    assert (Hst : strip (c ++ repeat 115 k) = c ++ repeat 115 k).
    { apply strip_id.
      - destruct c as [|d c]; [congruence|]. simpl. destruct (is_space d) eqn:E; auto. exfalso. apply Hb. exists d, c. auto.
      - intros r d E. destruct k; [lia|].
        replace (repeat 115 (S k)) with (repeat 115 k ++ [115]) in E by (rewrite <- repeat_cons; reflexivity).
        rewrite app_assoc in E. apply app_inj_tail in E as [_ <-]. reflexivity. }
    rewrite Hst. unfold ntu_step.
    destruct (mem_str (c ++ repeat 115 k) time_units) eqn:Em; [exfalso; apply Hc; apply mem_str_In in Em; exact Em|].
    rewrite ends_s_not_alias by exact Hk.
    assert (last_opt (c ++ repeat 115 k) = Some 115) as ->.
    { destruct k; [lia|]. replace (repeat 115 (S k)) with (repeat 115 k ++ [115]) by (rewrite <- repeat_cons; reflexivity).
      rewrite app_assoc. apply last_opt_app. }
    rewrite app_length, repeat_length. replace (Nat.ltb 2 (length c + k)) with true by (symmetry; apply Nat.ltb_lt; lia).
    change (115 =? 115) with true. cbn [andb].
    rewrite rstrip_app.
    2:{ apply Forall_forall. intros x Hx. apply repeat_spec in Hx. subst. reflexivity. }
    rewrite rstrip_id; [exact IH|]. intros r d E. destruct (115 =? d) eqn:Ed; auto.
    exfalso. apply Hs. apply N.eqb_eq in Ed; subst. exists r. auto.
Qed.
Theorem normalize_UnitOf s u : normalize_time_unit s = Ok u <-> UnitOf s u.
Proof. split; [apply normalize_sound|apply normalize_complete]. Qed.

(** which exception *)
Lemma rstrip_sss p rest : p 115 = false -> exists rest' w, rest = rest' ++ w /\ Forall (fun c => p c = true) w /\
  rstrip p ($"sss" ++ rest) = $"sss" ++ rest'.
Proof.
  intro Hp. destruct (rstrip_split p rest) as [w [H F]]. exists (rstrip p rest), w. split; [exact H|]. split; [exact F|].
  rewrite H at 1. rewrite app_assoc, rstrip_app by exact F. apply rstrip_id.
  intros r c E. destruct (list_rev_case (rstrip p rest)) as [Z|[l [x Z]]].
  - rewrite Z in E. change ($"sss" ++ []) with ([115; 115] ++ [115]) in E. apply app_inj_tail in E as [_ <-]. exact Hp.
  - rewrite Z, app_assoc in E. apply app_inj_tail in E as [_ <-]. exact (rstrip_last p rest l x Z).
Qed.
Lemma OnlyS_strip s : OnlyS (strip s) <-> OnlyS s.
Proof.
  split.
  - destruct (strip_split s) as [b1 [b2 [E [B1 B2]]]]. intros [H|[b [rest [H [B R]]]]]; rewrite E.
    + left. unfold Blanks in *. rewrite !Forall_app. auto.
    + right. exists (b1 ++ b), (rest ++ b2). rewrite H. split; [now rewrite <- !app_assoc|]. unfold Blanks in *. rewrite !Forall_app.
      split; auto. split; auto. eapply Forall_impl; [|exact B2]. cbv beta. auto.
  - intros [H|[b [rest [-> [B R]]]]].
    + left. replace s with (s ++ [] ++ []) by (now rewrite !app_nil_r). rewrite strip_blanks by (assumption || constructor). constructor.
    + right. replace (b ++ $"sss" ++ rest) with (b ++ ($"sss" ++ rest) ++ []) by (now rewrite app_nil_r).
      rewrite strip_blanks by (assumption || constructor). unfold strip. rewrite dw_id by reflexivity.
      destruct (rstrip_sss is_space rest eq_refl) as [rest' [w [E [_ ->]]]]. exists [], rest'. split; [reflexivity|]. split; [constructor|].
      rewrite E, Forall_app in R. tauto.
Qed.
Lemma OnlyS_head t : match t with c :: _ => is_space c = false | [] => True end ->
  OnlyS t <-> t = [] \/ exists rest, t = $"sss" ++ rest /\ Forall (fun c => c = 115 \/ is_space c = true) rest.
Proof.
  intro H. split.
  - intros [B|[b [rest [E [B R]]]]].
    + left. destruct t as [|c t]; auto. inversion B; congruence.
    + right. exists rest. split; auto. destruct b as [|c b]; [exact E|]. rewrite E in H. cbn in H. inversion B; congruence.
  - intros [->|[rest [-> R]]]; [left; constructor|]. right. exists [], rest. split; [reflexivity|]. split; auto. constructor.
Qed.
Lemma sss_not_unit rest : mem_str ($"sss" ++ rest) time_units = false.
Proof. reflexivity. Qed.
Lemma sss_not_alias rest : assoc ($"sss" ++ rest) unit_aliases = None.
Proof. reflexivity. Qed.
Theorem normalize_index s : normalize_time_unit s = Raise IndexErr <-> OnlyS s.
Proof.
  assert (G : forall n s, (length s <= n)%nat -> normalize_time_unit s = Raise IndexErr <-> OnlyS s);
    [|apply (G (length s)); lia].
  clear. induction n as [|n IH]; intros s Hs.
  { destruct s; [|simpl in Hs; lia]. split; [intros _; left; constructor|reflexivity]. }
  rewrite normalize_unfold, <- OnlyS_strip. pose proof (strip_head s) as Hh. pose proof (strip_last s) as Hl. pose proof (strip_length s) as Hn.
  set (t := strip s) in *. clearbody t. rewrite (OnlyS_head t Hh).
  destruct (ntu_step t) as [r|t'] eqn:E.
  - unfold ntu_step in E. split.
    + intros ->. left. destruct (mem_str _ _); [discriminate|]. destruct (assoc _ _); [discriminate|].
      destruct (last_opt t) eqn:El; [|now apply last_opt_None]. destruct (_ && _); discriminate.
    + intros [->|[rest [-> R]]]; [vm_compute in E; congruence|]. exfalso.
      rewrite sss_not_unit, sss_not_alias in E.
      destruct (last_opt ($"sss" ++ rest)) as [c|] eqn:El; [|apply last_opt_None in El; discriminate].
      replace (Nat.ltb 2 (length ($"sss" ++ rest))) with true in E by (symmetry; apply Nat.ltb_lt; rewrite app_length; cbn; lia).
      apply last_opt_Some in El as [q El]. pose proof (Hl q c El) as Hc.
      destruct (list_rev_case rest) as [->|[l [x ->]]].
      * change ($"sss" ++ []) with ([115; 115] ++ [115]) in El. apply app_inj_tail in El as [_ <-]. discriminate.
      * rewrite app_assoc in El. apply app_inj_tail in El as [_ ->]. apply Forall_app in R as [_ R]. inversion R as [|? ? R1 _]; subst.
        destruct R1 as [->|R1]; [discriminate|congruence].
  - pose proof (ntu_step_shorter _ _ E) as Hsh. rewrite (IH t') by lia.
    unfold ntu_step in E. destruct (mem_str t time_units); [discriminate|]. destruct (assoc t unit_aliases); [discriminate|].
    destruct (last_opt t) as [c|] eqn:El; [|discriminate]. destruct (c =? 115) eqn:Ec; [|discriminate].
    destruct (Nat.ltb 2 (length t)) eqn:E2; [|discriminate]. apply N.eqb_eq in Ec; subst c. apply Nat.ltb_lt in E2. injection E as E.
    pose proof (rstrip_prefix_head (N.eqb 115) t) as _.
    destruct (rstrip_split (N.eqb 115) t) as [w [Ht Fw]]. rewrite E in Ht.
    assert (W : Forall (fun c => c = 115 \/ is_space c = true) w).
    { eapply Forall_impl; [|exact Fw]. cbv beta. intros a Ha. apply N.eqb_eq in Ha. auto. }
    assert (Hh' : match t' with c :: _ => is_space c = false | [] => True end) by (destruct t'; [exact I|rewrite Ht in Hh; exact Hh]).
    rewrite (OnlyS_head t' Hh'). split.
    + intros [->|[rest [-> R]]].
      * right. cbn in Ht. subst w. destruct t as [|a [|b [|c t]]]; cbn in E2; try lia.
        apply Forall_cons_iff in Fw as [Fa Fw]. apply Forall_cons_iff in Fw as [Fb Fw]. apply Forall_cons_iff in Fw as [Fc Fw].
        apply N.eqb_eq in Fa, Fb, Fc. subst. exists t. split; [reflexivity|].
        apply Forall_cons_iff in W as [_ W]. apply Forall_cons_iff in W as [_ W]. apply Forall_cons_iff in W as [_ W]. exact W.
      * right. exists (rest ++ w). split; [rewrite Ht; now rewrite <- app_assoc|]. apply Forall_app; auto.
    + intros [->|[rest [Et R]]]; [cbn in E2; lia|].
      destruct t' as [|a [|b [|c t']]]; [left; reflexivity| | |].
      * exfalso. rewrite Et in Ht. injection Ht as <- _. pose proof (rstrip_last (N.eqb 115) t) as L. rewrite E in L. specialize (L [] 115 eq_refl). discriminate.
      * exfalso. rewrite Et in Ht. injection Ht as <- <- _. pose proof (rstrip_last (N.eqb 115) t) as L. rewrite E in L. specialize (L [115] 115 eq_refl). discriminate.
      * right. rewrite Et in Ht. injection Ht as <- <- <- Ht. exists t'. split; [reflexivity|]. rewrite Ht, Forall_app in R. tauto.
Qed.
