(** C59: the types [discover] gives to strings and to Python's own scalars. [X]: what Python knows
    about characters from 128 on; [date]: dateutil's parser; [sc]: as in Prop_Discovery.v. *)
From Verif Require Import Base Types Lexer Printer Construct Parser Ops Preds Numpy Graph Discovery Strings
  Spec_Time Spec_Strings Proof_Time Proof_Strings Proof_Strings2 Proof_Strings3 Proof_Strings4 Proof_Strings5 Tests_Parser Tests_Discovery.
Local Open Scope Z_scope.

(** The result on a string, for every string, is the one of the specification. *)
Theorem C59_exact : forall sc X date s r, chars_ok X ->
  (discover sc (py_strings X date) (DStr s) = r <-> Reads X date s r).
Proof. intros sc X date s r XO. exact (discover_str_iff X XO date s r). Qed.
Print Assumptions C59_exact.
(** The kinds of text do not overlap *)
Theorem C59_one_reading : forall X date s r r', chars_ok X -> Reads X date s r -> Reads X date s r' -> r = r'.
Proof.
  intros X date s r r' XO A B. apply (discover_str_iff X XO date) in A. apply (discover_str_iff X XO date) in B. congruence.
Qed.
Print Assumptions C59_one_reading.
(** Numbers are recognised in all their spellings, whatever dateutil and the order of sets do:
    the string is an integer exactly when it is one sign, digits with single underscores between
    them, and blanks around; a float when it is a decimal or one of inf, infinity, nan. *)
Theorem C59_numbers : forall sc X date s, chars_ok X ->
  (discover sc (py_strings X date) (DStr s) = Ok int64_t <-> IntText X s) /\
  (discover sc (py_strings X date) (DStr s) = Ok float64_t <-> FloatText X s /\ ~ IntText X s).
Proof.
  intros sc X date s XO. rewrite !(C59_exact sc X date s _ XO). split; split.
  - intro H. inversion H; subst; auto. destruct b; discriminate.
  - apply Reads_int.
  - intro H. inversion H; subst; auto. destruct b; discriminate.
  - intros [F N]. apply Reads_float; auto.
Qed.
Print Assumptions C59_numbers.
(** ... and the same for times of day and amounts of time. *)
Theorem C59_times : forall sc X date s, chars_ok X ->
  (discover sc (py_strings X date) (DStr s) = Ok (TimeT None) <-> TimeText X s) /\
  (forall u, discover sc (py_strings X date) (DStr s) = Ok (TimeDeltaT u) <->
             exists z, DurationText X s z u /\ - 2 ^ 63 <= z < 2 ^ 63) /\
  (discover sc (py_strings X date) (DStr s) = Ok bool_t <-> BoolText s) /\
  (discover sc (py_strings X date) (DStr s) = Ok NullT <-> s = []).
Proof.
  intros sc X date s XO. split; [|split; [|split]]; [|intro u|..]; rewrite (C59_exact sc X date s _ XO); split.
  - intro H. inversion H; subst; auto. destruct b; discriminate.
  - apply Reads_time.
  - intro H. inversion H; subst; eauto. destruct b; discriminate.
  - intros (z & D & F). eapply Reads_duration; eauto.
  - intro H. inversion H; subst; auto. destruct b; discriminate.
  - apply Reads_bool.
  - intro H. inversion H; subst; auto. destruct b; discriminate.
  - apply Reads_empty.
Qed.
Print Assumptions C59_times.

(** Integers written by Python are found to be integers, up to Python's limit on digits, *)
Theorem C59_str_of_int : forall sc X date n, chars_ok X ->
  match ch_maxdigits X with Some m => (length (z2s n) <= m)%nat | None => True end ->
  discover sc (py_strings X date) (DStr (z2s n)) = Ok int64_t.
Proof. intros sc X date n XO M. apply C59_numbers; auto. apply z2s_IntText; auto. Qed.
Print Assumptions C59_str_of_int.
(** and floats beyond it: *)
Theorem C59_long_int_refuted : forall sc X date n m, chars_ok X -> ch_maxdigits X = Some m -> (m < length (z2s n))%nat ->
  0 <= n -> discover sc (py_strings X date) (DStr (z2s n)) = Ok float64_t.
Proof.
  intros sc X date n m XO M L P. apply C59_numbers; auto. split; [apply z2s_FloatText; auto|]. apply (z2s_too_long X XO n m); auto.
Qed.
Print Assumptions C59_long_int_refuted.
(** A number of units, up to 2^53, is a time difference in that unit, *)
Theorem C59_amount_unit : forall sc X date n w u, chars_ok X -> Z.abs n <= 2 ^ 53 ->
  NoBlank w -> w <> [] -> UnitOf w u ->
  discover sc (py_strings X date) (DStr (z2s n ++ 32%N :: w)) = Ok (TimeDeltaT u).
Proof.
  intros sc X date n w u XO B Nw Lw U. apply C59_times; auto. exists n. split; [apply z2s_Duration; auto|]. lia.
Qed.
Print Assumptions C59_amount_unit.
(** two digits each for hours below 24, minutes and seconds below 60 are a time *)
Theorem C59_hh_mm_ss : forall sc X date h h' m m' s s', chars_ok X ->
  (10 * h + h' < 24)%N -> (h' < 10)%N -> (m < 6)%N -> (m' < 10)%N -> (s < 6)%N -> (s' < 10)%N ->
  discover sc (py_strings X date) (DStr [48 + h; 48 + h'; 58; 48 + m; 48 + m'; 58; 48 + s; 48 + s']%N) = Ok (TimeT None).
Proof.
  intros sc X date h h' m m' s s' XO Hh Hh' Hm Hm' Hs Hs'. apply C59_times; auto.
  exists [48 + h; 48 + h']%N, [48 + m; 48 + m']%N, [48 + s; 48 + s']%N, []. split; [reflexivity|].
  split; [|split; [|split; [|left; reflexivity]]].
  - destruct (N.eq_dec h 2) as [->|].
    + right. exists h'. split; [lia|reflexivity].
    + left. apply UpTo_two with h'; [lia|constructor; auto].
  - apply UpTo_two with m'; [lia|constructor; auto].
  - apply UpTo_two with s'; [lia|constructor; auto].
Qed.
Print Assumptions C59_hh_mm_ss.
(** dateutil is asked about no other string: dates and datetimes come from it *)
Theorem C59_dates : forall sc X date s b, chars_ok X ->
  discover sc (py_strings X date) (DStr s) = Ok (if b : bool then DateT else DateTimeT None) ->
  date s = Ok b /\ ~ Special X s.
Proof.
  intros sc X date s b XO H. apply C59_exact in H; auto. inversion H; subst; try (destruct b; discriminate).
  split; [|auto]. destruct b, b0; try discriminate; auto.
Qed.
Print Assumptions C59_dates.

(** Python's own scalars *)
Inductive ScalarType : dval -> ty -> Prop :=
| ST_none : ScalarType DNone NullT
| ST_int z : ScalarType (DInt z) (CType $"int64" 8 8)
| ST_bool b : ScalarType (DBool b) (CType $"bool" 1 1)
| ST_float : ScalarType DFloat (CType $"float64" 8 8)
| ST_complex : ScalarType DComplex (CType $"complex[float64]" 16 8)
| ST_bytes : ScalarType DBytes (StringT None $"A")
| ST_datetime : ScalarType DDateTime (DateTimeT None)
| ST_date : ScalarType DDate DateT
| ST_time : ScalarType DTime (TimeT None)
| ST_timedelta : ScalarType DTimeDelta (TimeDeltaT $"us").
Theorem C59_scalars : forall sc so v t, ScalarType v t -> discover sc so v = Ok t.
Proof. intros sc so v t []; reflexivity. Qed.
Print Assumptions C59_scalars.

(** *** cases *)
(** Arabic-Indic digits, Greek letters, CPython's limit *)
Definition X0 : chars :=
  {| ch_dec := fun c => if in_range 1632 1641 c then Some (c - 1632)%N else None;
     ch_alpha := fun c => in_range 945 969 c; ch_maxdigits := Some 4300%nat |}.
Lemma X0_ok : chars_ok X0.
Proof.
  intros c d. cbn [ch_dec X0]. destruct (in_range 1632 1641 c) eqn:R; [|discriminate]. intro E. injection E as <-.
  apply range_iff in R. split; [lia|]. unfold is_space, in_range, is_c.
  destruct (_ || _) eqn:S; [|reflexivity]. rewrite !orb_true_iff, !andb_true_iff, !N.leb_le, !N.eqb_eq in S. lia.
Qed.
Definition disc1 (s : str) : res ty := discover sc0 (py_strings X0 (so_date so0)) (DStr s).
Example C59_int_case : IntText X0 $"  -1_000 " /\ IntText X0 [1633; 1634; 95; 1635]%N /\ ~ IntText X0 $"1__0".
Proof.
  split; [|split].
  - apply (int_ok_iff X0 X0_ok). vm_compute. reflexivity.
  - apply (int_ok_iff X0 X0_ok). vm_compute. reflexivity.
  - intro H. apply (int_ok_iff X0 X0_ok) in H. vm_compute in H. discriminate.
Qed.
Example C59_float_case : FloatText X0 $"1_0.5e-3" /\ FloatText X0 $" +Infinity" /\ ~ FloatText X0 $"1.5_".
Proof.
  split; [|split].
  - apply (float_ok_iff X0 X0_ok). vm_compute. discriminate.
  - apply (float_ok_iff X0 X0_ok). vm_compute. discriminate.
  - intro H. apply (float_ok_iff X0 X0_ok) in H. apply H. vm_compute. reflexivity.
Qed.
Example C59_time_case : TimeText X0 $"9:05:7" /\ TimeText X0 $"23:59:59.25" /\ ~ TimeText X0 $"24:00:00" /\ ~ TimeText X0 $"12:00:60".
Proof.
  split; [|split; [|split]].
  - apply (time_ok_iff X0 X0_ok). vm_compute. reflexivity.
  - apply (time_ok_iff X0 X0_ok). vm_compute. reflexivity.
  - intro H. apply (time_ok_iff X0 X0_ok) in H. vm_compute in H. discriminate.
  - intro H. apply (time_ok_iff X0 X0_ok) in H. vm_compute in H. discriminate.
Qed.
Example C59_discover_cases :
  map disc1 [$"1e3 days"; $"12 hours"; $"1.5 days"; $" True"; $"true"; $"2014-01-01"; $"+7"; $"nan"; []; $"5 W"] =
  [Ok (TimeDeltaT $"D"); Ok (TimeDeltaT $"h"); Ok string_t; Ok string_t; Ok bool_t; Ok DateT; Ok int64_t; Ok float64_t; Ok NullT;
   Ok (TimeDeltaT $"W")].
Proof. vm_compute. reflexivity. Qed.
(** the largest 64-bit integer is no amount: it is rounded to 2^63 first *)
Theorem C59_max_int_refuted :
  disc1 $"9223372036854775807 days" = Raise OverflowErr /\ disc1 $"9223372036854775295 days" = Ok (TimeDeltaT $"D").
Proof. split; vm_compute; reflexivity. Qed.
Print Assumptions C59_max_int_refuted.
Example C59_amount_case : NoBlank $"days" /\ UnitOf $"days" $"D" /\ disc1 (z2s (- 9007199254740992) ++ 32%N :: $"days") = Ok (TimeDeltaT $"D").
Proof. split; [repeat constructor|]. split; [apply normalize_UnitOf|]; vm_compute; reflexivity. Qed.
