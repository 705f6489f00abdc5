(** C59: the scanners of Strings.v accept exactly the texts of Spec_Strings.v. *)
From Verif Require Import Base Types Lexer Printer Construct Ops Discovery Strings Spec_Time Spec_Strings Proof_Time.
Local Open Scope N_scope.

Section S.
  Variable X : chars.
  Hypothesis XO : chars_ok X.
  Notation f := (to_ascii X).

  (** *** characters *)
  Lemma is_digit_iff c : is_digit c = true <-> 48 <= c <= 57.
  Proof. unfold is_digit, in_range. rewrite andb_true_iff, !N.leb_le. tauto. Qed.
  Lemma is_digit_ex c : is_digit c = true -> exists d, d < 10 /\ c = 48 + d.
  Proof. rewrite is_digit_iff. intro. exists (c - 48). lia. Qed.
  Lemma is_digit_dig d : d < 10 -> is_digit (48 + d) = true.
  Proof. intro. apply is_digit_iff. lia. Qed.

  Lemma Digit_f c d : Digit X c d <-> f c = 48 + d /\ d < 10.
  Proof.
    unfold to_ascii. split.
    - intros [e He|c' e Hc He].
      + destruct (N.ltb_spec (48 + e) 128); [auto|lia].
      + destruct (N.ltb_spec c' 128); [lia|]. destruct (XO _ _ He) as [L S]. rewrite S, He. auto.
    - intros [E L]. destruct (N.ltb_spec c 128).
      + subst c. constructor; auto.
      + destruct (is_space c) eqn:S; [lia|]. destruct (ch_dec X c) as [e|] eqn:D; [|lia].
        assert (e = d) by lia. subst e. apply Digit_other; auto.
  Qed.
  Lemma f_digit c : is_digit (f c) = true <-> exists d, Digit X c d.
  Proof.
    split.
    - intro H. destruct (is_digit_ex _ H) as (d & L & E). exists d. apply Digit_f. auto.
    - intros [d H]. apply Digit_f in H as [-> L]. apply is_digit_dig; auto.
  Qed.
  (** characters that only stand for themselves *)
  Definition plain (k : char) : Prop := k < 128 /\ k <> 32 /\ k <> 63 /\ is_digit k = false.
  Lemma f_plain c k : plain k -> (f c = k <-> c = k).
  Proof.
    intros (L & A & B & D). unfold to_ascii. destruct (N.ltb_spec c 128); [tauto|]. split; [|lia].
    destruct (is_space c); [congruence|]. destruct (ch_dec X c) as [d|] eqn:E; [|congruence].
    intros <-. destruct (XO _ _ E). rewrite is_digit_dig in D by auto. discriminate.
  Qed.
  Lemma f_plain1 c k : plain k -> f c = k -> c = k.
  Proof. intro P. apply f_plain; auto. Qed.
  Lemma f_self k : k < 128 -> f k = k.
  Proof. intro. unfold to_ascii. destruct (N.ltb_spec k 128); [auto|lia]. Qed.
  Lemma c_space_iff c : c_space c = true <-> 9 <= c <= 13 \/ c = 32.
  Proof. unfold c_space, in_range, is_c. rewrite orb_true_iff, andb_true_iff, !N.leb_le, N.eqb_eq. intuition. Qed.
  Lemma is_space_low c : c < 128 -> (is_space c = true <-> 9 <= c <= 13 \/ 28 <= c <= 32).
  Proof.
    intro L. unfold is_space, in_range, is_c. rewrite !orb_true_iff, !andb_true_iff, !N.leb_le, !N.eqb_eq. lia.
  Qed.
  Lemma f_blank c : c_space (f c) = true <-> NumBlank c.
  Proof.
    unfold NumBlank, to_ascii. destruct (N.ltb_spec c 128).
    - rewrite c_space_iff, is_space_low by auto. lia.
    - destruct (is_space c) eqn:S.
      + split; [intros _; split; [auto|lia]|reflexivity].
      + split; [|intros [? _]; discriminate]. rewrite c_space_iff. destruct (ch_dec X c) as [d|]; lia.
  Qed.
  Lemma digit_not_space k : is_digit k = true -> c_space k = false.
  Proof.
    intro H. apply is_digit_iff in H. destruct (c_space k) eqn:E; [|auto]. apply c_space_iff in E. lia.
  Qed.

  (** *** blanks around *)
  Definition Tight (t : str) : Prop := Forall (fun c => c_space c = false) t.
  Lemma Tight_last t : Tight t -> last_not c_space t.
  Proof. intros T. unfold last_not. intros c r E. rewrite E in T. apply Forall_app in T as [_ T]. inversion T; auto. Qed.
  Lemma Tight_head t : Tight t -> match t with c :: _ => c_space c = false | [] => True end.
  Proof. intros T. destruct T; auto. Qed.
  Lemma c_strip_pad b1 t b2 : Forall NumBlank b1 -> Forall NumBlank b2 -> Tight (map f t) ->
    c_strip (map f (b1 ++ t ++ b2)) = map f t.
  Proof.
    intros B1 B2 T. rewrite !map_app. unfold c_strip.
    assert (Q : forall b, Forall NumBlank b -> Forall (fun c => c_space c = true) (map f b)).
    { intros b B. apply Forall_map. eapply Forall_impl; [|exact B]. intros c. apply f_blank. }
    rewrite dw_app by auto. destruct t as [|c t].
    - cbn [map app]. rewrite <- (app_nil_r (map f b2)) at 1. rewrite dw_app by auto. reflexivity.
    - rewrite dw_id by (inversion T; auto). rewrite rstrip_app by auto. apply rstrip_id, Tight_last, T.
  Qed.
  Lemma c_strip_split s : exists b1 t b2, s = b1 ++ t ++ b2 /\ Forall NumBlank b1 /\ Forall NumBlank b2 /\
    c_strip (map f s) = map f t.
  Proof.
    unfold c_strip. destruct (dw_split c_space (map f s)) as (w & E & W).
    destruct (rstrip_split c_space (drop_while c_space (map f s))) as (w2 & E2 & W2).
    rewrite E2 in E. apply map_eq_app in E as (b1 & r & -> & E1 & E). apply map_eq_app in E as (t & b2 & -> & Et & Eb).
    assert (Q : forall b, Forall (fun c => c_space c = true) (map f b) -> Forall NumBlank b).
    { intros b B. rewrite Forall_map in B. eapply Forall_impl; [|exact B]. intros c. apply f_blank. }
    exists b1, t, b2. repeat split; try (apply Q; congruence); congruence.
  Qed.
  Lemma padded_iff (P : str -> Prop) (Q : str -> Prop) s :
    (forall t, P t -> Tight (map f t)) -> (forall t, Q (map f t) <-> P t) ->
    (Q (c_strip (map f s)) <-> Padded P s).
  Proof.
    intros T H. split.
    - destruct (c_strip_split s) as (b1 & t & b2 & -> & B1 & B2 & ->). intro q. constructor; auto. apply H; auto.
    - intros [b1 t b2 B1 B2 p]. rewrite c_strip_pad; auto. apply H; auto.
  Qed.

  (** *** digits *)
  Lemma Digits_tight t ds : Digits X t ds -> Tight (map f t).
  Proof.
    induction 1 as [c d D|c d s ds D _ IH|c d s ds D _ IH]; cbn [map]; unfold Tight in *;
      repeat apply Forall_cons; auto; try (apply digit_not_space, f_digit; eauto).
  Qed.
  Lemma Digits_head t ds : Digits X t ds -> exists c d t' ds', t = c :: t' /\ ds = d :: ds' /\ Digit X c d.
  Proof. intros []; do 4 eexists; (split; [reflexivity|split; [reflexivity|eassumption]]). Qed.
  Lemma digits_us_sound s : forall p, digits_us p (map f s) = true ->
    (p = true /\ s = []) \/ (exists ds, Digits X s ds) \/ (p = true /\ exists s' ds, s = 95 :: s' /\ Digits X s' ds).
  Proof.
    induction s as [|c s IH]; intros p H; cbn [map digits_us] in H; [subst; auto|].
    destruct (is_digit (f c)) eqn:D.
    - apply f_digit in D as [d D]. destruct (IH _ H) as [[_ ->]|[[ds Ds]|[_ (s' & ds & -> & Ds)]]]; right; left.
      + exists [d]. constructor; auto.
      + exists (d :: ds). apply Digits_more; auto.
      + exists (d :: ds). apply Digits_under; auto.
    - destruct (N.eqb_spec (f c) 95) as [E|]; [|discriminate]. destruct p; [|discriminate]. cbn [andb] in H.
      apply f_plain1 in E; [|split; [lia|split; [lia|split; [lia|reflexivity]]]]. subst c.
      destruct (IH _ H) as [[? _]|[[ds Ds]|[? _]]]; try discriminate. right. right. eauto 6.
  Qed.
  Lemma digits_us_complete t ds : Digits X t ds -> forall p, digits_us p (map f t) = true.
  Proof.
    induction 1 as [c d D|c d s ds D _ IH|c d s ds D _ IH]; intro p; cbn [map digits_us];
      rewrite (proj2 (f_digit c)) by eauto; auto. rewrite f_self by lia. apply IH.
  Qed.
  Lemma digits_us_iff t : digits_us false (map f t) = true <-> exists ds, Digits X t ds.
  Proof.
    split; [|intros [ds D]; eapply digits_us_complete; eauto].
    intro H. destruct (digits_us_sound _ _ H) as [[? _]|[H'|[? _]]]; try discriminate. exact H'.
  Qed.
  Lemma Digits_filter t ds : Digits X t ds -> filter is_digit (map f t) = map (N.add 48) ds.
  Proof.
    induction 1 as [c d D|c d s ds D _ IH|c d s ds D _ IH]; cbn [map filter].
    - apply Digit_f in D as [-> L]. rewrite is_digit_dig by auto. reflexivity.
    - apply Digit_f in D as [-> L]. rewrite is_digit_dig by auto. cbn [map]. f_equal. exact IH.
    - apply Digit_f in D as [-> L]. rewrite is_digit_dig by auto. rewrite f_self by lia. cbn. f_equal. exact IH.
  Qed.
  Lemma Digits_count t ds : Digits X t ds -> length (filter is_digit (map f t)) = length ds.
  Proof. intro D. rewrite (Digits_filter _ _ D), map_length. reflexivity. Qed.

  (** *** signs *)
  Lemma drop_sign_split t : exists sg neg t', t = sg ++ t' /\ Sign sg neg /\ drop_sign (map f t) = (neg, map f t').
  Proof.
    destruct t as [|c t]; [exists [], false, []; repeat split; constructor|]. cbn [map drop_sign].
    destruct (N.eqb_spec (f c) 43) as [E|].
    { apply f_plain1 in E; [|split; [lia|split; [lia|split; [lia|reflexivity]]]]. subst. exists [43], false, t. repeat split; constructor. }
    destruct (N.eqb_spec (f c) 45) as [E|].
    { apply f_plain1 in E; [|split; [lia|split; [lia|split; [lia|reflexivity]]]]. subst. exists [45], true, t. repeat split; constructor. }
    exists [], false, (c :: t). repeat split; constructor.
  Qed.
  Lemma drop_sign_app sg neg t : Sign sg neg ->
    match t with c :: _ => c <> 43 /\ c <> 45 | [] => True end -> drop_sign (sg ++ t) = (neg, t).
  Proof.
    intros S H. destruct S; cbn [app drop_sign]; try reflexivity. destruct t as [|c t]; [reflexivity|]. cbn.
    destruct H as [A B]. destruct (N.eqb_spec c 43); [contradiction|]. destruct (N.eqb_spec c 45); [contradiction|]. reflexivity.
  Qed.
  Lemma Sign_map sg neg : Sign sg neg -> map f sg = sg.
  Proof. intros []; cbn; rewrite ?f_self by lia; reflexivity. Qed.
  Lemma Sign_tight sg neg : Sign sg neg -> Tight (map f sg).
  Proof. intro S. rewrite (Sign_map _ _ S). destruct S; repeat constructor. Qed.
  Lemma digit_head_sign c d : Digit X c d -> f c <> 43 /\ f c <> 45.
  Proof. intro D. apply Digit_f in D as [-> L]. lia. Qed.

  (** *** integers *)
  Lemma int_body t : (let u := snd (drop_sign (map f t)) in
      digits_us false u &&
      match ch_maxdigits X with Some m => Nat.leb (length (filter is_digit u)) m | None => true end) = true
    <-> IntBody X t.
  Proof.
    cbn zeta. split.
    - destruct (drop_sign_split t) as (sg & neg & t' & -> & S & ->). cbn [snd]. rewrite andb_true_iff.
      intros [H L]. apply digits_us_iff in H as [ds D]. rewrite (Digits_count _ _ D) in L.
      apply IntBody_intro with neg ds; auto. destruct (ch_maxdigits X); [apply Nat.leb_le; auto|auto].
    - intros [sg neg t' ds S D L]. rewrite map_app, (Sign_map _ _ S). erewrite drop_sign_app; [|exact S|].
      + cbn [snd]. rewrite (digits_us_complete _ _ D), (Digits_count _ _ D). cbn [andb].
        destruct (ch_maxdigits X); [apply Nat.leb_le; auto|auto].
      + destruct (Digits_head _ _ D) as (c & d & t1 & ds1 & -> & -> & Dc). cbn [map]. eapply digit_head_sign; eauto.
  Qed.
  Theorem int_ok_iff s : int_ok X s = true <-> IntText X s.
  Proof.
    unfold int_ok, IntText. apply (padded_iff (IntBody X) (fun u => (let t := snd (drop_sign u) in
      digits_us false t && match ch_maxdigits X with Some m => Nat.leb (length (filter is_digit t)) m | None => true end) = true)).
    - intros t [sg neg t' ds S D _]. rewrite map_app. apply Forall_app. split; [eapply Sign_tight; eauto|eapply Digits_tight; eauto].
    - apply int_body.
  Qed.
End S.
