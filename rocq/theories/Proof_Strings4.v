(** C59: what [discover] makes of a string. *)
From Verif Require Import Base Types Lexer Printer Construct Ops Numpy Discovery Strings Spec_Time Spec_Strings Proof_Time Proof_Strings Proof_Strings2 Proof_Strings3.
Local Open Scope N_scope.

(** *** words *)
Lemma words_run v : NoBlank v -> forall cur r, words cur (v ++ r) = words (rev v ++ cur) r.
Proof.
  induction 1 as [|c v B _ IH]; intros cur r; [reflexivity|]. cbn [app words rev]. rewrite B, IH, <- app_assoc. reflexivity.
Qed.
Lemma words_blanks b : Blanks b -> forall r, words [] (b ++ r) = words [] r.
Proof. induction 1 as [|c b B _ IH]; intro r; [reflexivity|]. cbn [app words]. rewrite B. apply IH. Qed.
Lemma words_gap b cur r : Blanks b -> b <> [] -> cur <> [] -> words cur (b ++ r) = rev cur :: words [] r.
Proof.
  intros B N C. destruct B as [|c b Bc B]; [contradiction|]. cbn [app words]. rewrite Bc. destruct cur; [contradiction|].
  f_equal. apply words_blanks; auto.
Qed.
Lemma rev_nonnil {A} (l : list A) : l <> [] -> rev l <> [].
Proof. intros H E. apply H. rewrite <- (rev_involutive l), E. reflexivity. Qed.
Lemma words_one b1 t b2 : Blanks b1 -> Blanks b2 -> NoBlank t -> t <> [] -> words [] (b1 ++ t ++ b2) = [t].
Proof.
  intros B1 B2 T N. rewrite words_blanks, words_run by auto. rewrite app_nil_r. destruct b2 as [|c b2].
  - cbn [words]. destruct (rev t) eqn:E; [exfalso; exact (rev_nonnil _ N E)|]. rewrite <- E, rev_involutive. reflexivity.
  - rewrite <- (app_nil_r (c :: b2)), words_gap; auto; [|discriminate|apply rev_nonnil; auto]. rewrite rev_involutive. reflexivity.
Qed.
Lemma words_two s v w : TwoWords s v w -> words [] s = [v; w].
Proof.
  intros (b0 & b & b1 & -> & B0 & B & B1 & Nb & Nv & Nw & Lv & Lw).
  rewrite words_blanks, words_run by auto. rewrite app_nil_r, words_gap by (auto; apply rev_nonnil; auto). rewrite rev_involutive. f_equal.
  apply (words_one [] w b1); auto. constructor.
Qed.
Lemma words_inv s : forall cur v l, NoBlank cur -> cur <> [] -> words cur s = v :: l ->
  exists v' r, s = v' ++ r /\ NoBlank v' /\ v = rev cur ++ v' /\ (r = [] \/ exists c r', r = c :: r' /\ is_space c = true) /\ words [] r = l.
Proof.
  induction s as [|c s IH]; intros cur v l NC C H; cbn [words] in H.
  - destruct cur as [|x cur]; [contradiction|]. injection H as <- <-. exists [], [].
    split; [auto|]. split; [constructor|]. split; [rewrite app_nil_r; reflexivity|]. split; [left; reflexivity|reflexivity].
  - destruct (is_space c) eqn:B.
    + destruct cur as [|x cur]; [contradiction|]. assert (E : rev (x :: cur) = v /\ words [] s = l) by (split; congruence).
      destruct E as [<- <-]. exists [], (c :: s). split; [auto|]. split; [constructor|]. split; [rewrite app_nil_r; reflexivity|]. split; [eauto|].
      cbn [words]. rewrite B. reflexivity.
    + apply IH in H as (v' & r & -> & V & -> & R & W); [|constructor; auto|discriminate].
      exists (c :: v'), r. cbn [rev]. rewrite <- app_assoc. split; [auto|]. split; [constructor; auto|]. auto.
Qed.
Lemma words_first s v l : words [] s = v :: l ->
  exists b r, s = b ++ v ++ r /\ Blanks b /\ NoBlank v /\ v <> [] /\ (r = [] \/ exists c r', r = c :: r' /\ is_space c = true) /\ words [] r = l.
Proof.
  induction s as [|c s IH]; intro H; cbn [words] in H; [discriminate|]. destruct (is_space c) eqn:B.
  - destruct (IH H) as (b & r & -> & Bb & R). exists (c :: b), r. split; [auto|]. split; [constructor; auto|]. exact R.
  - apply words_inv in H as (v' & r & -> & V & -> & R & W); [|constructor; [auto|constructor]|discriminate].
    exists [], r. split; [auto|]. split; [constructor|]. split; [constructor; auto|]. split; [discriminate|]. auto.
Qed.
Lemma words_none s : words [] s = [] -> Blanks s.
Proof.
  induction s as [|c s IH]; intro H; cbn [words] in H; [constructor|]. destruct (is_space c) eqn:B; [constructor; [exact B|exact (IH H)]|].
  exfalso.
  assert (Q : forall t x cur, words (x :: cur) t <> []).
  { induction t as [|d t IHt]; intros x cur; cbn [words]; [discriminate|]. destruct (is_space d); [discriminate|apply IHt]. }
  exact (Q _ _ _ H).
Qed.
Lemma words_two_iff s v w : words [] s = [v; w] <-> TwoWords s v w.
Proof.
  split; [|apply words_two]. intro H. apply words_first in H as (b0 & r & -> & B0 & Nv & Lv & R & H).
  apply words_first in H as (b & r2 & -> & B & Nw & Lw & R2 & H). apply words_none in H.
  exists b0, b, r2. split; [reflexivity|]. split; [auto|]. split; [auto|]. split; [auto|]. split; [|auto].
  intros ->. cbn [app] in R. destruct R as [R|(c & r' & R & S)].
  - destruct w; [contradiction|discriminate].
  - destruct w as [|x w]; [contradiction|]. cbn [app] in R. injection R as -> _. inversion Nw; congruence.
Qed.

(** *** units *)
Lemma NoBlank_strip s : NoBlank s -> strip s = s.
Proof.
  intro N. apply strip_id.
  - destruct N; auto.
  - intros c r E. rewrite E in N. apply Forall_app in N as [_ N]. inversion N; auto.
Qed.
Lemma rstrip_115_nil s : rstrip (N.eqb 115) s = [] -> exists k, s = repeat 115 k.
Proof.
  intro E. destruct (rstrip_split (N.eqb 115) s) as (w & Es & W). rewrite E in Es. cbn [app] in Es. subst s. clear E.
  induction W as [|c w C _ [k IH]]; [exists O; reflexivity|]. apply N.eqb_eq in C as <-. exists (S k). rewrite IH. reflexivity.
Qed.
Lemma rstrip_115_repeat k : rstrip (N.eqb 115) (repeat 115 k) = [].
Proof.
  rewrite <- (app_nil_l (repeat 115 k)), rstrip_app; [reflexivity|]. induction k; constructor; auto.
Qed.
Lemma ntu_step_unfold s : normalize_time_unit s =
  (let t := strip s in
   if mem_str t time_units then Ok t
   else match assoc t unit_aliases with
        | Some u => Ok u
        | None => match last_opt t with
                  | None => Raise IndexErr
                  | Some c => if N.eqb c 115 && Nat.ltb 2 (length t) then normalize_time_unit (rstrip (N.eqb 115) t) else Raise ValueErr
                  end
        end).
Proof.
  rewrite normalize_unfold. unfold ntu_step. cbv zeta. destruct (mem_str (strip s) time_units); [reflexivity|].
  destruct (assoc (strip s) unit_aliases); [reflexivity|]. destruct (last_opt (strip s)) as [c|]; [|reflexivity].
  destruct (N.eqb c 115 && Nat.ltb 2 (length (strip s))); reflexivity.
Qed.
Lemma last_opt_nonnil {A} (l : list A) : l <> [] -> last_opt l <> None.
Proof. intros N E. apply N. apply last_opt_None; auto. Qed.
Lemma NoBlank_app a b : NoBlank (a ++ b) -> NoBlank a.
Proof. intro H. apply Forall_app in H. apply H. Qed.
Lemma normalize_index w : NoBlank w -> w <> [] ->
  (normalize_time_unit w = Raise IndexErr <-> exists k, (3 <= k)%nat /\ w = repeat 115 k).
Proof.
  intros N NE. split.
  - rewrite ntu_step_unfold. cbv zeta. rewrite NoBlank_strip by auto.
    destruct (mem_str w time_units); [discriminate|]. destruct (assoc w unit_aliases); [discriminate|].
    destruct (last_opt w) as [c|] eqn:L; [|exfalso; exact (last_opt_nonnil w NE L)].
    destruct (N.eqb c 115) eqn:C; cbn [andb]; [|discriminate]. destruct (Nat.ltb_spec 2 (length w)) as [L2|]; [|discriminate].
    intro H. destruct (rstrip_split (N.eqb 115) w) as (x & Ew & W). set (t := rstrip (N.eqb 115) w) in *.
    destruct t as [|y t'] eqn:Et.
    + subst t. destruct (rstrip_115_nil w Et) as [k ->]. rewrite repeat_length in L2. exists k. split; [lia|auto].
    + exfalso. rewrite <- Et in *.
      assert (Nt : NoBlank t) by (rewrite Ew in N; eapply NoBlank_app; eauto).
      assert (LN : last_not (N.eqb 115) t) by apply rstrip_last.
      rewrite ntu_step_unfold in H. cbv zeta in H. rewrite NoBlank_strip in H by auto.
      destruct (mem_str t time_units); [discriminate|]. destruct (assoc t unit_aliases); [discriminate|].
      destruct (last_opt t) as [d|] eqn:Ld; [|rewrite Et in Ld; exact (last_opt_nonnil (y :: t') ltac:(discriminate) Ld)].
      apply last_opt_Some in Ld as [r Er]. specialize (LN _ _ Er). rewrite N.eqb_sym in LN. rewrite LN in H. discriminate.
  - intros (k & K & ->). rewrite ntu_step_unfold. cbv zeta. rewrite NoBlank_strip by auto.
    assert (E1 : mem_str (repeat 115 k) time_units = false).
    { destruct k as [|[|[|k]]]; try lia. reflexivity. }
    assert (E2 : assoc (repeat 115 k) unit_aliases = None) by (apply (ends_s_not_alias [] k); lia).
    rewrite E1, E2. destruct (last_opt (repeat 115 k)) as [c|] eqn:L.
    + apply last_opt_Some in L as [r Er]. assert (C : c = 115).
      { apply (repeat_spec k 115). rewrite Er. apply in_app_iff. right. left; auto. }
      subst c. rewrite N.eqb_refl, repeat_length. destruct (Nat.ltb_spec 2 k); [|lia]. cbn [andb]. rewrite rstrip_115_repeat. reflexivity.
    + reflexivity.
Qed.

Section S.
  Variable X : chars.
  Hypothesis XO : chars_ok X.
  Variable date : str -> res bool.
  Notation so := (py_strings X date).

  (** *** the classes exclude each other *)
  Lemma IntText_Float s : IntText X s -> FloatText X s.
  Proof.
    intros [b1 t b2 B1 B2 [sg neg t' ds S D _]]. left. exists (if neg then - value ds else value ds)%Z, (0 - Z.of_nat 0)%Z.
    constructor; auto. rewrite <- (app_nil_r t'). constructor; auto; constructor. auto.
  Qed.
  Definition numchar (c : char) : Prop := is_space c = false /\ c <> 58.
  Lemma Digit_numchar c d : Digit X c d -> numchar c.
  Proof.
    intros [e He|c' e Hc E].
    - split; [|lia]. destruct (is_space (48 + e)) eqn:S; [|auto]. apply is_space_low in S; lia.
    - destruct (XO _ _ E) as [_ S]. split; [auto|lia].
  Qed.
  Lemma low_numchar c : 32 < c < 128 -> c <> 58 -> numchar c.
  Proof. intros L N. split; [|auto]. destruct (is_space c) eqn:S; [|auto]. apply is_space_low in S; lia. Qed.
  Lemma Digits_numchar t ds : Digits X t ds -> Forall numchar t.
  Proof.
    induction 1 as [c d D|c d s ds D _ IH|c d s ds D _ IH]; repeat apply Forall_cons; auto; try (eapply Digit_numchar; eassumption).
    apply low_numchar; lia.
  Qed.
  Lemma Digits0_numchar t ds : Digits0 X t ds -> Forall numchar t.
  Proof. intros [|s d D]; [constructor|eapply Digits_numchar; eauto]. Qed.
  Lemma Sign_numchar sg neg : Sign sg neg -> Forall numchar sg.
  Proof. intros []; repeat apply Forall_cons; try constructor; try reflexivity; lia. Qed.
  Lemma DecBody_numchar m e t : DecBody X m e t -> Forall numchar t /\ t <> [].
  Proof.
    intros [sg neg t' ds k x ex S M E]. split.
    - apply Forall_app. split; [eapply Sign_numchar; eauto|]. apply Forall_app. split.
      + destruct M as [t' ds D|t1 ds1 t2 ds2 D1 D2 _]; [eapply Digits_numchar; eauto|].
        apply Forall_app. split; [eapply Digits0_numchar; eauto|]. constructor; [apply low_numchar; lia|eapply Digits0_numchar; eauto].
      + destruct E as [|c sg' neg' t2 ds2 C S2 D2]; [constructor|]. constructor; [destruct C as [<-|[<-|[]]]; apply low_numchar; lia|].
        apply Forall_app. split; [eapply Sign_numchar; eauto|eapply Digits_numchar; eauto].
    - destruct M as [t' ds D|t1 ds1 t2 ds2 D1 D2 _]; intro H; apply app_eq_nil in H as [_ H]; apply app_eq_nil in H as [H _].
      + destruct (Digits_nonnil X _ _ D); auto.
      + destruct t1; discriminate.
  Qed.
  Lemma Special_numchar t : SpecialBody t -> Forall numchar t /\ t <> [].
  Proof.
    intros [sg neg w S W]. split.
    - apply Forall_app. split; [eapply Sign_numchar; eauto|]. eapply Forall_impl; [|apply words3_letters; exact W].
      intros c L. apply low_numchar; unfold letter in L; lia.
    - intro H. apply app_eq_nil in H as [_ ->]. exact (words3_nonnil [] W eq_refl).
  Qed.
  Lemma FloatText_words s : FloatText X s -> exists t, words [] s = [t] /\ ~ In 58 s.
  Proof.
    intro F. assert (Q : exists b1 t b2, s = b1 ++ t ++ b2 /\ Forall NumBlank b1 /\ Forall NumBlank b2 /\ Forall numchar t /\ t <> []).
    { destruct F as [(m & e & [b1 t b2 B1 B2 D])|[b1 t b2 B1 B2 D]]; exists b1, t, b2;
        [apply DecBody_numchar in D|apply Special_numchar in D]; tauto. }
    destruct Q as (b1 & t & b2 & -> & B1 & B2 & T & N).
    assert (BB : forall b, Forall NumBlank b -> Blanks b) by (intros b; apply Forall_impl; intros c [? _]; auto).
    assert (BC : forall b, Forall NumBlank b -> ~ In 58 b).
    { intros b H I. rewrite Forall_forall in H. destruct (H _ I). discriminate. }
    exists t. split.
    - apply words_one; auto. eapply Forall_impl; [|exact T]. intros c [? _]; auto.
    - rewrite !in_app_iff. intros [I|[I|I]]; [exact (BC b1 B1 I)| |exact (BC b2 B2 I)].
      rewrite Forall_forall in T. destruct (T _ I). auto.
  Qed.
  Lemma UpTo_chars hi t : hi <= 5 -> UpTo X hi t -> NoBlank t.
  Proof.
    intros H [c d D|k c d L D].
    - constructor; [apply (Digit_numchar _ _ D)|constructor].
    - constructor; [apply low_numchar; lia|]. constructor; [apply (Digit_numchar _ _ D)|constructor].
  Qed.
  Lemma Hour_chars t : Hour X t -> NoBlank t.
  Proof.
    intros [U|(k & L & ->)]; [apply (UpTo_chars 1); [lia|auto]|]. constructor; [reflexivity|]. constructor; [apply low_numchar; lia|constructor].
  Qed.
  Lemma TimeText_words s : TimeText X s -> words [] s = [s] /\ In 58 s.
  Proof.
    intros (h & m & t & g & -> & Hh & Hm & Ht & G). split; [|apply in_app_iff; right; left; reflexivity].
    rewrite <- (app_nil_r (h ++ _)) at 1. change ((h ++ 58 :: m ++ 58 :: t ++ g) ++ []) with ([] ++ (h ++ 58 :: m ++ 58 :: t ++ g) ++ []).
    apply words_one; [constructor|constructor| |destruct h; discriminate].
    apply Forall_app. split; [apply Hour_chars; auto|]. constructor; [reflexivity|]. apply Forall_app. split; [apply (UpTo_chars 5); [lia|auto]|].
    constructor; [reflexivity|]. apply Forall_app. split; [apply (UpTo_chars 5); [lia|auto]|].
    destruct G as [->|(f & -> & _ & F)]; [constructor|]. constructor; [reflexivity|]. eapply Forall_impl; [|exact F].
    intros c D. apply is_digit_iff in D. apply low_numchar; lia.
  Qed.
  Lemma BoolText_float s : BoolText s -> float_of X s = None /\ words [] s = [s] /\ ~ In 58 s /\ s <> [].
  Proof.
    intros [<-|[<-|[<-|[<-|[]]]]]; (split; [vm_compute; reflexivity|split; [reflexivity|split; [|discriminate]]]);
      intro H; repeat (destruct H as [H|H]; [discriminate|]); exact H.
  Qed.

  (** *** discover *)
  Lemma deltaparse_ok s z u : DurationText X s z u -> deltaparse so s = (if (- 2 ^ 63 <=? z)%Z && (z <? 2 ^ 63)%Z then Ok (TimeDeltaT u) else Raise OverflowErr).
  Proof.
    intros (v & w & T & A & U). unfold deltaparse. rewrite (words_two _ _ _ T). cbn [so_float py_strings].
    rewrite (proj2 (float_value_iff X v z XO) A). rewrite (proj2 (normalize_UnitOf w u) U). cbn [bind].
    destruct (_ && _)%bool; [|reflexivity]. unfold from_numpy. cbn.
    assert (C : normalize_time_unit u = Ok u).
    { pose proof (normalize_errors w) as E. rewrite (proj2 (normalize_UnitOf w u) U) in E. apply normalize_canonical; auto. }
    first [rewrite C | unfold mk_timedelta; rewrite C | idtac]. reflexivity.
  Qed.
  Lemma TwoWords_second s v w : TwoWords s v w -> NoBlank w /\ w <> [].
  Proof. intros (b0 & b & b1 & _ & _ & _ & _ & _ & _ & ? & _ & ?). auto. Qed.
  Lemma deltaparse_sss s : SssText X s -> deltaparse so s = Raise IndexErr.
  Proof.
    intros (v & k & z & T & K & A). unfold deltaparse. rewrite (words_two _ _ _ T). cbn [so_float py_strings].
    rewrite (proj2 (float_value_iff X v z XO) A). destruct (TwoWords_second _ _ _ T) as [Nw Lw].
    rewrite (proj2 (normalize_index (repeat 115 k) Nw Lw)); [reflexivity|eauto].
  Qed.
  Lemma deltaparse_inv s : deltaparse so s = Raise ValueErr \/ (exists z u, DurationText X s z u) \/ SssText X s.
  Proof.
    unfold deltaparse. destruct (words [] s) as [|v [|w [|? ?]]] eqn:E; auto. apply words_two_iff in E. cbn [so_float py_strings].
    destruct (float_of X v) as [[z|]|] eqn:F; auto. apply float_value_iff in F; auto.
    pose proof (normalize_errors w) as N. destruct (normalize_time_unit w) as [u|e] eqn:Nw.
    - right. left. exists z, u, v, w. split; [auto|]. split; [auto|]. apply normalize_UnitOf; auto.
    - destruct N as [-> | ->]; [left; reflexivity|]. apply normalize_index in Nw as (k & K & ->); [|apply (TwoWords_second _ _ _ E)|apply (TwoWords_second _ _ _ E)].
      right. right. exists v, k, z. auto.
  Qed.
  Lemma TwoWords_words s v w : TwoWords s v w -> ~ FloatText X s /\ ~ BoolText s /\ ~ TimeText X s /\ s <> [].
  Proof.
    intro T. apply words_two in T. split; [|split; [|split]].
    - intro F. destruct (FloatText_words _ F) as (t & E & _). congruence.
    - intro B. destruct (BoolText_float _ B) as (_ & E & _). congruence.
    - intro F. destruct (TimeText_words _ F) as (E & _). congruence.
    - intros ->. discriminate.
  Qed.
  Lemma not_float s : ~ FloatText X s -> int_ok X s = false /\ float_of X s = None.
  Proof.
    intro N. split.
    - destruct (int_ok X s) eqn:E; [|auto]. apply (int_ok_iff X XO) in E. exfalso. apply N, IntText_Float, E.
    - destruct (float_of X s) eqn:E; [|auto]. exfalso. apply N, (float_ok_iff X XO). congruence.
  Qed.
  Lemma not_bool s : ~ BoolText s -> mem_str s bools = false.
  Proof.
    intro N. destruct (mem_str s bools) eqn:E; [|auto]. apply mem_str_In in E. exfalso. apply N.
    unfold bools in E. unfold BoolText. cbn [In] in *. tauto.
  Qed.
  Lemma bool_mem s : BoolText s -> mem_str s bools = true.
  Proof. intro B. apply mem_str_In. unfold bools. unfold BoolText in B. cbn [In] in *. tauto. Qed.
  Lemma alpha_iff s : s <> [] -> (py_isalpha X s = true <-> Forall (Letter X) s).
  Proof.
    intro N. unfold py_isalpha. destruct s as [|c s]; [contradiction|]. rewrite forallb_forall, Forall_forall. 
    assert (Q : forall x, (if x <? 128 then is_lower x || is_upper x else ch_alpha X x) = true <-> Letter X x).
    { intro x. unfold Letter, is_lower, is_upper. destruct (N.ltb_spec x 128).
      - rewrite orb_true_iff, !range_iff. intuition lia.
      - intuition lia. }
    split; intros H x I; apply Q, H, I.
  Qed.
  Lemma blank_iff s : forallb is_space s = true <-> Blanks s.
  Proof. rewrite forallb_forall. unfold Blanks. rewrite Forall_forall. reflexivity. Qed.
  Lemma str_eq s : s <> [] -> discover_str so s =
    or_else (if int_ok X s then Ok int64_t else Raise ValueErr)
       (or_else (match float_of X s with Some _ => Ok float64_t | None => Raise ValueErr end)
       (or_else (if mem_str s bools then Ok bool_t else Raise KeyErr)
       (or_else (deltaparse so s)
       (or_else (if time_ok X s then Ok (TimeT None) else Raise ValueErr)
       (if py_isalpha X s || forallb is_space s then Ok string_t
        else match date s with
             | Ok true => Ok DateT
             | Ok false => Ok (DateTimeT None)
             | Raise ValueErr | Raise OverflowErr => Ok string_t
             | Raise e => Raise e
             end))))).
  Proof. destruct s; [contradiction|]. reflexivity. Qed.
  Lemma str_plain s : ~ Special X s -> discover_str so s =
      (if py_isalpha X s || forallb is_space s then Ok string_t
        else match date s with
             | Ok true => Ok DateT
             | Ok false => Ok (DateTimeT None)
             | Raise ValueErr | Raise OverflowErr => Ok string_t
             | Raise e => Raise e
             end).
  Proof.
    intro N. unfold Special in N. rewrite str_eq by tauto. destruct (not_float s) as [-> ->]; [tauto|]. cbn [or_else].
    rewrite not_bool by tauto. cbn [or_else]. destruct (deltaparse_inv s) as [-> |D]; [|tauto]. cbn [or_else].
    destruct (time_ok X s) eqn:T; [|reflexivity]. apply (time_ok_iff X XO) in T. tauto.
  Qed.
  Lemma Special_nonnil s : ~ Special X s -> s <> [].
  Proof. intros N E. apply N. left. exact E. Qed.
  Lemma Reads_discover s r : Reads X date s r -> discover_str so s = r.
  Proof.
    intros [E|I|F NI|B|z u D L|z u D L|S|T|N W|b N NL NB E|e N NL NB E I|e N NL NB E I].
    - subst. reflexivity.
    - rewrite str_eq by (intros ->; destruct (FloatText_words _ (IntText_Float _ I)) as (t & W & _); discriminate).
      rewrite (proj2 (int_ok_iff X XO s) I). reflexivity.
    - rewrite str_eq by (intros ->; destruct (FloatText_words _ F) as (t & W & _); discriminate).
      destruct (int_ok X s) eqn:Ei; [apply (int_ok_iff X XO) in Ei; contradiction|]. cbn [or_else].
      destruct (float_of X s) eqn:Ef; [reflexivity|]. apply (float_ok_iff X XO) in F. contradiction.
    - destruct (BoolText_float _ B) as (Ef & W & _ & Ne). rewrite str_eq by auto.
      assert (NF : ~ FloatText X s) by (intro F; apply (float_ok_iff X XO) in F; contradiction).
      destruct (not_float s NF) as [-> ->]. cbn [or_else]. rewrite bool_mem by auto. reflexivity.
    - pose proof D as (v & w & T & _). destruct (TwoWords_words _ _ _ T) as (NF & NB & NT & Ne). rewrite str_eq by auto.
      destruct (not_float s NF) as [-> ->]. cbn [or_else]. rewrite not_bool by auto. cbn [or_else]. rewrite (deltaparse_ok _ _ _ D).
      destruct L as [L1 L2]. apply Z.leb_le in L1. apply Z.ltb_lt in L2. rewrite L1, L2. reflexivity.
    - pose proof D as (v & w & T & _). destruct (TwoWords_words _ _ _ T) as (NF & NB & NT & Ne). rewrite str_eq by auto.
      destruct (not_float s NF) as [-> ->]. cbn [or_else]. rewrite not_bool by auto. cbn [or_else]. rewrite (deltaparse_ok _ _ _ D).
      assert (C : (- 2 ^ 63 <=? z)%Z && (z <? 2 ^ 63)%Z = false).
      { destruct (_ && _)%bool eqn:C; [|auto]. apply andb_true_iff in C as [C1 C2]. apply Z.leb_le in C1. apply Z.ltb_lt in C2. exfalso. apply L. split; auto. }
      rewrite C. reflexivity.
    - pose proof S as (v & k & z & T & _). destruct (TwoWords_words _ _ _ T) as (NF & NB & NT & Ne). rewrite str_eq by auto.
      destruct (not_float s NF) as [-> ->]. cbn [or_else]. rewrite not_bool by auto. cbn [or_else]. rewrite (deltaparse_sss _ S). reflexivity.
    - destruct (TimeText_words _ T) as [W C]. assert (Ne : s <> []) by (intros ->; contradiction). rewrite str_eq by auto.
      assert (NF : ~ FloatText X s) by (intro F; destruct (FloatText_words _ F) as (t & _ & NC); contradiction).
      assert (NB : ~ BoolText s) by (intro B; destruct (BoolText_float _ B) as (_ & _ & NC & _); contradiction).
      destruct (not_float s NF) as [-> ->]. cbn [or_else]. rewrite not_bool by auto. cbn [or_else].
      unfold deltaparse. rewrite W. cbn [or_else]. rewrite (proj2 (time_ok_iff X XO s) T). reflexivity.
    - rewrite str_plain by auto. destruct W as [W|W].
      + rewrite (proj2 (alpha_iff s (Special_nonnil _ N)) W). reflexivity.
      + rewrite (proj2 (blank_iff s) W), orb_true_r. reflexivity.
    - rewrite str_plain by auto. 
      destruct (py_isalpha X s) eqn:A; [apply alpha_iff in A; [contradiction|apply Special_nonnil; auto]|].
      destruct (forallb is_space s) eqn:B; [apply blank_iff in B; contradiction|]. rewrite E. destruct b; reflexivity.
    - rewrite str_plain by auto. 
      destruct (py_isalpha X s) eqn:A; [apply alpha_iff in A; [contradiction|apply Special_nonnil; auto]|].
      destruct (forallb is_space s) eqn:B; [apply blank_iff in B; contradiction|]. rewrite E. destruct I as [<-|[<-|[]]]; reflexivity.
    - rewrite str_plain by auto. 
      destruct (py_isalpha X s) eqn:A; [apply alpha_iff in A; [contradiction|apply Special_nonnil; auto]|].
      destruct (forallb is_space s) eqn:B; [apply blank_iff in B; contradiction|]. rewrite E.
      cbn [orb]. destruct e; try reflexivity; exfalso; apply I; cbn [In]; auto.
  Qed.
  Lemma Reads_total s : exists r, Reads X date s r.
  Proof.
    destruct s as [|c s0]; [eexists; apply Reads_empty; reflexivity|]. set (s := c :: s0). assert (Ne : s <> []) by discriminate. clearbody s.
    destruct (int_ok X s) eqn:Ei. { apply (int_ok_iff X XO) in Ei. eexists. apply Reads_int; auto. }
    assert (NI : ~ IntText X s) by (intro I; apply (int_ok_iff X XO) in I; congruence).
    destruct (float_of X s) eqn:Ef.
    { eexists. apply Reads_float; auto. apply (float_ok_iff X XO). congruence. }
    assert (NF : ~ FloatText X s) by (intro F; apply (float_ok_iff X XO) in F; contradiction).
    destruct (mem_str s bools) eqn:Eb.
    { eexists. apply Reads_bool. apply mem_str_In in Eb. unfold bools in Eb. unfold BoolText. cbn [In] in *. tauto. }
    assert (NB : ~ BoolText s) by (intro B; apply bool_mem in B; congruence).
    destruct (deltaparse_inv s) as [Ed|[(z & u & D)|S]].
    3:{ eexists. apply Reads_sss; auto. }
    2:{ destruct (Z_le_gt_dec (- 2 ^ 63) z) as [L1|L1]; [destruct (Z_lt_ge_dec z (2 ^ 63)) as [L2|L2]|].
        - eexists. apply (Reads_duration _ _ _ z u); [auto|split; auto].
        - eexists. apply (Reads_overflow _ _ _ z u); [auto|intros [_ Q]; lia].
        - eexists. apply (Reads_overflow _ _ _ z u); [auto|intros [Q _]; lia]. }
    assert (ND : ~ exists z u, DurationText X s z u).
    { intros (z & u & D). rewrite (deltaparse_ok _ _ _ D) in Ed. destruct (_ && _)%bool; discriminate. }
    assert (NS : ~ SssText X s) by (intro S; rewrite (deltaparse_sss _ S) in Ed; discriminate).
    destruct (time_ok X s) eqn:Et. { apply (time_ok_iff X XO) in Et. eexists. apply Reads_time; auto. }
    assert (NT : ~ TimeText X s) by (intro T; apply (time_ok_iff X XO) in T; congruence).
    assert (NSp : ~ Special X s) by (unfold Special; tauto).
    destruct (py_isalpha X s) eqn:A. { apply alpha_iff in A; auto. eexists. apply Reads_word; auto. }
    assert (NA : ~ Forall (Letter X) s) by (intro Q; apply alpha_iff in Q; [congruence|auto]).
    destruct (forallb is_space s) eqn:B. { apply blank_iff in B. eexists. apply Reads_word; auto. }
    assert (NBl : ~ Blanks s) by (intro Q; apply blank_iff in Q; congruence).
    destruct (date s) as [b|e] eqn:E.
    - eexists. apply (Reads_date _ _ _ b); auto.
    - assert (De : {In e [ValueErr; OverflowErr]} + {~ In e [ValueErr; OverflowErr]}).
      { destruct e; try (left; cbn [In]; tauto); right; intros [H|[H|[]]]; discriminate. }
      destruct De; eexists; [eapply Reads_text|eapply Reads_error]; eauto.
  Qed.
  Theorem discover_str_iff s r : discover_str so s = r <-> Reads X date s r.
  Proof.
    split; [|apply Reads_discover]. intros <-. destruct (Reads_total s) as [r R]. rewrite (Reads_discover _ _ R). exact R.
  Qed.
End S.
