(** C59: times of day. *)
From Verif Require Import Base Types Lexer Printer Construct Ops Discovery Strings Spec_Time Spec_Strings Proof_Time Proof_Strings.
Local Open Scope N_scope.

Section T.
  Variable X : chars.
  Hypothesis XO : chars_ok X.

  Lemma any_digit_iff c : any_digit X c = true <-> exists d, Digit X c d.
  Proof.
    unfold any_digit. destruct (N.ltb_spec c 128) as [L|L].
    - split.
      + intro H. destruct (is_digit_ex _ H) as (d & Ld & ->). exists d. constructor; auto.
      + intros [d D]. inversion D; subst; [apply is_digit_dig; auto|lia].
    - split.
      + destruct (ch_dec X c) as [d|] eqn:E; [|discriminate]. intros _. exists d. apply Digit_other; auto.
      + intros [d D]. inversion D as [e He|c' e Hc E]; subst; [lia|]. rewrite E. reflexivity.
  Qed.
  Lemma any_digit_low c : c < 128 -> is_digit c = false -> any_digit X c = false.
  Proof. intros L D. unfold any_digit. destruct (N.ltb_spec c 128); [auto|lia]. Qed.
  Lemma range_iff lo hi c : in_range lo hi c = true <-> lo <= c <= hi.
  Proof. unfold in_range. rewrite andb_true_iff, !N.leb_le. tauto. Qed.

  Lemma In_chr p s r : In r (rmatch (RChr p) s) <-> exists c, s = c :: r /\ p c = true.
  Proof.
    cbn [rmatch]. destruct s as [|c s]; [split; [intros []|intros (c & E & _); discriminate]|].
    destruct (p c) eqn:E.
    - split; [intros [<-|[]]; eauto|]. intros (c' & H & _). injection H as _ ->. left; auto.
    - split; [intros []|]. intros (c' & H & P). injection H as -> ->. congruence.
  Qed.
  Lemma In_seq a b s r : In r (rmatch (RSeq a b) s) <-> exists u, In u (rmatch a s) /\ In r (rmatch b u).
  Proof. cbn [rmatch]. apply in_flat_map. Qed.
  Lemma In_alt a b s r : In r (rmatch (RAlt a b) s) <-> In r (rmatch a s) \/ In r (rmatch b s).
  Proof. cbn [rmatch]. apply in_app_iff. Qed.

  Lemma two_sound lo hi s r : In r (rmatch (RSeq (RChr (in_range lo hi)) (RChr (any_digit X))) s) ->
    exists a c d, s = a :: c :: r /\ lo <= a <= hi /\ Digit X c d.
  Proof.
    rewrite In_seq. intros (u & Hu & Hr). apply In_chr in Hu as (a & -> & Ha). apply In_chr in Hr as (c & -> & Hc).
    apply range_iff in Ha. apply any_digit_iff in Hc as [d D]. eauto 6.
  Qed.
  Lemma hour_sound s r : In r (rmatch (hour_re X) s) -> exists h, s = h ++ r /\ Hour X h.
  Proof.
    unfold hour_re. rewrite !In_alt. intros [H|[H|H]].
    - apply In_seq in H as (u & Hu & Hr). apply In_chr in Hu as (a & -> & Ha). apply In_chr in Hr as (c & -> & Hc).
      unfold is_c in Ha. apply N.eqb_eq in Ha as <-. apply range_iff in Hc. exists [50; c]. split; [reflexivity|].
      right. exists (c - 48). split; [lia|]. do 2 f_equal. lia.
    - apply two_sound in H as (a & c & d & -> & L & D). exists [a; c]. split; [reflexivity|]. left.
      replace a with (48 + (a - 48)) by lia. apply UpTo_two with d; [lia|auto].
    - apply In_chr in H as (c & -> & D). apply any_digit_iff in D as [d D]. exists [c]. split; [reflexivity|]. left. eapply UpTo_one; eauto.
  Qed.
  Lemma minute_sound s r : In r (rmatch (minute_re X) s) -> exists h, s = h ++ r /\ Sixty X h.
  Proof.
    unfold minute_re. rewrite !In_alt. intros [H|H].
    - apply two_sound in H as (a & c & d & -> & L & D). exists [a; c]. split; [reflexivity|].
      replace a with (48 + (a - 48)) by lia. apply UpTo_two with d; [lia|auto].
    - apply In_chr in H as (c & -> & D). apply any_digit_iff in D as [d D]. exists [c]. split; [reflexivity|]. eapply UpTo_one; eauto.
  Qed.
  Lemma second_sound s r : In r (rmatch (second_re X) s) -> exists h, s = h ++ r /\ (Sixty X h \/ leap h = true).
  Proof.
    unfold second_re. rewrite !In_alt. intros [H|[H|H]].
    - apply In_seq in H as (u & Hu & Hr). apply In_chr in Hu as (a & -> & Ha). apply In_chr in Hr as (c & -> & Hc).
      unfold is_c in Ha. apply N.eqb_eq in Ha as <-. exists [54; c]. split; [reflexivity|]. right. reflexivity.
    - apply two_sound in H as (a & c & d & -> & L & D). exists [a; c]. split; [reflexivity|]. left.
      replace a with (48 + (a - 48)) by lia. apply UpTo_two with d; [lia|auto].
    - apply In_chr in H as (c & -> & D). apply any_digit_iff in D as [d D]. exists [c]. split; [reflexivity|]. left. eapply UpTo_one; eauto.
  Qed.
  Lemma firstn_pre {A} (a b : list A) : firstn (length (a ++ b) - length b) (a ++ b) = a.
  Proof. rewrite app_length, Nat.add_sub, firstn_app, Nat.sub_diag, firstn_all. cbn [firstn]. apply app_nil_r. Qed.
  Lemma colon_sound s r : In r (rmatch (ch 58) s) -> s = 58 :: r.
  Proof. intro H. apply In_chr in H as (c & -> & E). unfold is_c in E. apply N.eqb_eq in E as <-. reflexivity. Qed.
  Lemma hms_sound s t r : In (t, r) (hms X s) ->
    exists h m, s = h ++ 58 :: m ++ 58 :: t ++ r /\ Hour X h /\ Sixty X m /\ (Sixty X t \/ leap t = true).
  Proof.
    unfold hms. intro H. apply in_flat_map in H as (s1 & H1 & H2). apply in_map_iff in H2 as (s2 & E & H2).
    injection E as <- <-. apply In_seq in H1 as (u & Hu & H1). apply In_seq in H1 as (u2 & Hu2 & H1). apply In_seq in H1 as (u3 & Hu3 & H1).
    apply hour_sound in Hu as (h & -> & Hh). apply colon_sound in Hu2 as ->. apply minute_sound in Hu3 as (m & -> & Hm).
    apply colon_sound in H1 as ->. apply second_sound in H2 as (x & -> & Hx). exists h, m. rewrite firstn_pre. auto.
  Qed.
  Lemma upto_sound n : forall s r, In r (rmatch (upto (S n) (RChr is_digit)) s) ->
    exists g, s = g ++ r /\ (1 <= length g <= S n)%nat /\ Forall (fun c => is_digit c = true) g.
  Proof.
    induction n as [|n IH]; intros s r H.
    - apply In_chr in H as (c & -> & D). exists [c]. split; [reflexivity|]. split; [cbn; lia|repeat constructor; auto].
    - change (upto (S (S n)) (RChr is_digit)) with (RSeq (RChr is_digit) (opt (upto (S n) (RChr is_digit)))) in H.
      apply In_seq in H as (u & Hu & H). apply In_chr in Hu as (c & -> & D). unfold opt in H. apply In_alt in H as [H|H].
      + apply IH in H as (g & -> & L & F). exists (c :: g). split; [reflexivity|]. split; [cbn [length]; lia|constructor; auto].
      + destruct H as [<-|[]]. exists [c]. split; [reflexivity|]. split; [cbn; lia|repeat constructor; auto].
  Qed.
  Lemma fraction_sound s r : In r (rmatch fraction_re s) ->
    exists g, s = 46 :: g ++ r /\ (1 <= length g <= 6)%nat /\ Forall (fun c => is_digit c = true) g.
  Proof.
    unfold fraction_re. intro H. apply In_seq in H as (u & Hu & H). apply In_chr in Hu as (c & -> & E). unfold is_c in E.
    apply N.eqb_eq in E as <-. apply upto_sound in H as (g & -> & H). eauto.
  Qed.
  Lemma whole_In ways : whole ways = true -> exists t, In (t, []) ways /\ leap t = false.
  Proof.
    destruct ways as [|[t [|? ?]] w]; cbn [whole]; try discriminate. intro H. exists t. split; [left; auto|]. destruct (leap t); [discriminate|auto].
  Qed.
  Lemma time_sound s : time_ok X s = true -> TimeText X s.
  Proof.
    unfold time_ok. rewrite orb_true_iff. intros [H|H]; apply whole_In in H as (t & H & L).
    - apply hms_sound in H as (h & m & -> & Hh & Hm & [Ht|Ht]); [|congruence]. exists h, m, t, []. unfold Fraction. auto 6.
    - apply in_flat_map in H as ([t' r] & H & H2). cbn [fst snd] in H2. apply in_map_iff in H2 as (x & E & H2). injection E as -> ->.
      apply hms_sound in H as (h & m & -> & Hh & Hm & [Ht|Ht]); [|congruence].
      apply fraction_sound in H2 as (g & -> & Lg & Fg). rewrite app_nil_r. exists h, m, t, (46 :: g).
      split; [reflexivity|]. split; [auto|]. split; [auto|]. split; [auto|]. right. eauto.
  Qed.

  (** *** completeness *)
  Lemma Digit_any c d : Digit X c d -> any_digit X c = true.
  Proof. intro D. apply any_digit_iff. eauto. Qed.
  Lemma Digit_58 d : ~ Digit X 58 d.
  Proof. intro D. apply (Digit_f X XO) in D as [E L]. rewrite f_self in E by lia. lia. Qed.
  Lemma dig_range lo hi k : lo <= 48 + k <= hi -> in_range lo hi (48 + k) = true.
  Proof. apply range_iff. Qed.
  Lemma no_range lo hi c : (c < lo \/ hi < c) -> in_range lo hi c = false.
  Proof. intro H. destruct (in_range lo hi c) eqn:E; [apply range_iff in E; lia|auto]. Qed.
  Lemma is_c_no a c : c <> a -> is_c a c = false.
  Proof. intro H. unfold is_c. apply N.eqb_neq. auto. Qed.
  Definition colon_after (r : re) (s : str) : list str := flat_map (rmatch (ch 58)) (rmatch r s).
  Lemma hour_unique h rest : Hour X h -> colon_after (hour_re X) (h ++ 58 :: rest) = [rest].
  Proof.
    unfold colon_after, hour_re. intros [[c d D|k c d Lk D]|(k & Lk & ->)]; cbn [app rmatch flat_map ch].
    - assert (c58 : is_c 58 c = false) by (apply is_c_no; intros ->; eapply Digit_58; eauto).
      rewrite (Digit_any _ _ D).
      destruct (is_c 50 c), (in_range 48 49 c); cbn [flat_map app rmatch];
      rewrite ?(any_digit_low 58) by (lia || reflexivity); rewrite ?(no_range 48 51 58) by lia; reflexivity.
    - assert (c58 : is_c 58 c = false) by (apply is_c_no; intros ->; eapply Digit_58; eauto).
      rewrite (is_c_no 50 (48 + k)) by lia. rewrite (dig_range 48 49 k) by lia. cbn [flat_map app]. rewrite (Digit_any _ _ D).
      rewrite (Digit_any (48 + k) k) by (constructor; lia). cbn [flat_map app rmatch ch]. rewrite c58. reflexivity.
    - change (is_c 50 50) with true. cbn [flat_map app rmatch]. rewrite (dig_range 48 51 k) by lia. rewrite (no_range 48 49 50) by lia.
      rewrite (Digit_any 50 2) by (apply (Digit_ascii X 2); lia). cbn [flat_map app rmatch ch]. rewrite (is_c_no 58 (48 + k)) by lia. reflexivity.
  Qed.
  Lemma minute_unique h rest : Sixty X h -> colon_after (minute_re X) (h ++ 58 :: rest) = [rest].
  Proof.
    unfold colon_after, minute_re. intros [c d D|k c d Lk D]; cbn [app rmatch flat_map ch].
    - assert (c58 : is_c 58 c = false) by (apply is_c_no; intros ->; eapply Digit_58; eauto).
      rewrite (Digit_any _ _ D).
      destruct (in_range 48 53 c); cbn [flat_map app rmatch];
      rewrite ?(any_digit_low 58) by (lia || reflexivity); reflexivity.
    - assert (c58 : is_c 58 c = false) by (apply is_c_no; intros ->; eapply Digit_58; eauto).
      rewrite (dig_range 48 53 k) by lia. cbn [flat_map app]. rewrite (Digit_any _ _ D).
      rewrite (Digit_any (48 + k) k) by (constructor; lia). cbn [flat_map app rmatch ch]. rewrite c58. reflexivity.
  Qed.
  Lemma second_first t g : Sixty X t -> match g with c :: _ => c = 46 | [] => True end ->
    exists tl, rmatch (second_re X) (t ++ g) = g :: tl.
  Proof.
    unfold second_re. intros [c d D|k c d Lk D] G; cbn [app rmatch flat_map ch].
    - exists []. rewrite (Digit_any _ _ D). destruct g as [|x g].
      + destruct (is_c 54 c), (in_range 48 53 c); reflexivity.
      + subst x.
        destruct (is_c 54 c), (in_range 48 53 c); cbn [flat_map app rmatch]; try reflexivity;
        rewrite ?(any_digit_low 46) by (lia || reflexivity); rewrite ?(no_range 48 49 46) by lia; reflexivity.
    - rewrite (is_c_no 54 (48 + k)) by lia. rewrite (dig_range 48 53 k) by lia. cbn [flat_map app]. rewrite (Digit_any _ _ D).
      eexists. reflexivity.
  Qed.
  Lemma hms_first h m t g : Hour X h -> Sixty X m -> Sixty X t -> match g with c :: _ => c = 46 | [] => True end ->
    exists tl, hms X (h ++ 58 :: m ++ 58 :: t ++ g) = (t, g) :: tl.
  Proof.
    intros Hh Hm Ht G. destruct (second_first t g Ht G) as [tl E]. unfold hms.
    assert (E1 : rmatch (RSeq (hour_re X) (RSeq (ch 58) (RSeq (minute_re X) (ch 58)))) (h ++ 58 :: m ++ 58 :: t ++ g) = [t ++ g]).
    { pose proof (hour_unique h (m ++ 58 :: t ++ g) Hh) as A. pose proof (minute_unique m (t ++ g) Hm) as B.
      unfold colon_after in A, B. cbn [rmatch] in *.
      assert (Q : forall (l : list str), flat_map (fun s => flat_map (rmatch (minute_re X)) (rmatch (ch 58) s)) l = flat_map (rmatch (minute_re X)) (flat_map (rmatch (ch 58)) l)).
      { induction l as [|a l IH]; [reflexivity|]. cbn [flat_map]. rewrite IH, flat_map_app. reflexivity. }
      assert (Q2 : forall l : list str, flat_map (fun s => flat_map (fun s0 => flat_map (rmatch (ch 58)) (rmatch (minute_re X) s0)) (rmatch (ch 58) s)) l
        = flat_map (rmatch (ch 58)) (flat_map (rmatch (minute_re X)) (flat_map (rmatch (ch 58)) l))).
      { induction l as [|a l IH]; [reflexivity|]. cbn [flat_map]. rewrite IH, !flat_map_app. f_equal.
        induction (rmatch (ch 58) a) as [|b l' IH']; [reflexivity|]. cbn [flat_map]. rewrite IH', !flat_map_app. reflexivity. }
      rewrite Q2, A. cbn [flat_map]. rewrite app_nil_r. exact B. }
    rewrite E1. cbn [flat_map]. rewrite app_nil_r, E. cbn [map]. rewrite firstn_pre. eauto.
  Qed.
  Lemma upto_first n : forall g, (1 <= length g <= S n)%nat -> Forall (fun c => is_digit c = true) g ->
    exists tl, rmatch (upto (S n) (RChr is_digit)) g = [] :: tl.
  Proof.
    induction n as [|n IH]; intros g L F; (destruct F as [|c g D F]; [cbn [length] in L; lia|]).
    - destruct g; [|cbn [length] in L; lia]. cbn [upto rmatch]. rewrite D. eauto.
    - change (upto (S (S n)) (RChr is_digit)) with (RSeq (RChr is_digit) (opt (upto (S n) (RChr is_digit)))). cbn [rmatch]. rewrite D.
      cbn [flat_map]. rewrite app_nil_r. unfold opt. cbn [rmatch]. destruct g as [|c' g].
      + destruct n; cbn [upto rmatch app flat_map]; eauto.
      + destruct (IH (c' :: g)) as [tl E]; [cbn [length] in *; lia|auto|]. rewrite E. cbn [app]. eauto.
  Qed.
  Lemma time_complete s : TimeText X s -> time_ok X s = true.
  Proof.
    intros (h & m & t & g & -> & Hh & Hm & Ht & G). unfold time_ok.
    assert (NL : leap t = false).
    { destruct Ht as [c d D|k c d Lk D]; [reflexivity|]. cbn [leap]. apply N.eqb_neq. lia. }
    destruct G as [->|(g' & -> & Lg & Fg)].
    - destruct (hms_first h m t []) as [tl E]; auto. rewrite E. cbn [whole]. rewrite NL. reflexivity.
    - destruct (hms_first h m t (46 :: g')) as [tl E]; auto. rewrite E. cbn [flat_map]. apply orb_true_iff. right.
      cbn [fst snd]. unfold fraction_re. cbn [rmatch ch]. change (is_c 46 46) with true. cbn [flat_map]. rewrite app_nil_r.
      destruct (upto_first 5 g' Lg Fg) as [tl' E']. rewrite E'. cbn [map app whole]. rewrite NL. reflexivity.
  Qed.
  Theorem time_ok_iff s : time_ok X s = true <-> TimeText X s.
  Proof. split; [apply time_sound|apply time_complete]. Qed.
End T.
