(** C63: every constructor of the symbol table has its signature and meaning. *)
From Verif Require Import Base Types Lexer Printer Construct Spec_Time Proof_Time Spec_Constr Proof_Ops Proof_Constr.
Local Open Scope Z_scope.

Section C.
  Variable E : env.
  Variable dsh : str -> res ty.
  Notation mean := (Meaning E dsh).

  Lemma Encoding_spec s c : Encoding s c <-> assoc (match s with [] => $"U8" | _ => s end) string_encodings = Some c.
  Proof.
    split.
    - intro H. destruct H as [n H|n H|n H|n H]; cbn [In] in H; repeat (destruct H as [<-|H]; [reflexivity|]); destruct H.
    - intro H. destruct s as [|a s].
      + cbn in H. injection H as <-. apply EN_utf8. cbn. auto 10.
      + apply assoc_In in H. cbn [string_encodings In] in H.
        repeat (destruct H as [H|H]; [injection H as <- <- <-;
          first [apply EN_ascii; cbn; auto 10; fail|apply EN_utf8; cbn; auto 10; fail|apply EN_utf16; cbn; auto 10; fail|apply EN_utf32; cbn; auto 10; fail]|]).
        destruct H.
  Qed.
  Lemma mk_string_spec z s t : mk_string z (Some s) = Ok t <-> exists c, Encoding s c /\ t = StringT z c.
  Proof.
    assert (X : mk_string z (Some s) = match assoc (match s with [] => $"U8" | _ => s end) string_encodings with
                                        | Some c => Ok (StringT z c) | None => Raise ValueErr end) by (destruct s; reflexivity).
    rewrite X. split.
    - destruct (assoc _ _) as [c|] eqn:Ec; [|discriminate]. intro H. injection H as <-. exists c. split; auto. apply Encoding_spec; auto.
    - intros [c [H ->]]. apply Encoding_spec in H. rewrite H. reflexivity.
  Qed.
  Lemma c_string_spec args t : c_string args = Ok t <-> StringMeaning args t.
  Proof.
    split.
    - destruct args as [|a [|b [|? ?]]]; try (destruct a; discriminate).
      + intro H. injection H as <-. constructor.
      + destruct a; try discriminate; cbn [c_string].
        * intro H. injection H as <-. constructor.
        * rewrite mk_string_spec. intros [c [H ->]]. constructor; auto.
      + intro H. assert (X : exists z, a = AInt z).
        { destruct a; eauto; cbn [c_string] in H;
          match type of H with (let! _ := ?m in _) = _ => destruct m as [u|]; cbn [bind] in H; discriminate end. }
        destruct X as [z ->]. destruct b as [w|w|s|d|[|? ?]]; cbn [c_string] in H; try discriminate.
        * destruct (Z.eqb_spec w 0); [|discriminate]. injection H as <-. subst. apply SM_falsy. left. auto.
        * destruct w; [discriminate|]. injection H as <-. apply SM_falsy. right; left. auto.
        * destruct (mk_string None (Some s)) as [u|] eqn:Eu; cbn [bind] in H; [|discriminate].
          apply mk_string_spec in Eu as [c [Hc ->]]. injection H as <-. apply SM_both; auto.
        * injection H as <-. apply SM_falsy. right; right; right. auto.
    - intros [|z|s c H|z s c H|z a [->|[->|[->| ->]]]]; try reflexivity.
      + apply mk_string_spec. eauto.
      + cbn [c_string]. assert (mk_string None (Some s) = Ok (StringT None c)) as -> by (apply mk_string_spec; eauto). reflexivity.
  Qed.

  (** required parameters get an argument *)
  Lemma Bound_required ps args kw b i n : Bound ps args kw b -> nth_error ps i = Some (n, true) -> NoDup (map fst ps) ->
    exists a, nth_error b i = Some (Some a).
  Proof.
    intros Hb Hi ND. destruct (Nat.lt_ge_cases i (length args)) as [Hl|Hl].
    - destruct (nth_error args i) as [a|] eqn:Ea; [|apply nth_error_None in Ea; lia]. exists a. apply (B_positional _ _ _ _ Hb). auto.
    - destruct (in_dec (list_eq_dec N.eq_dec) n (map fst kw)) as [Hin|Hin].
      + apply in_map_iff in Hin as [[n' a] [En Hin]]. cbn in En. subst n'.
        destruct (B_keyword _ _ _ _ Hb _ _ Hin) as [j [r [H1 [_ H2]]]]. exists a.
        assert (i = j) as -> by (apply (NoDup_nth_fst ps i j n true r); auto). exact H2.
      + destruct (B_default _ _ _ _ Hb i n true Hi Hl Hin) as [H1 _]. discriminate.
  Qed.
  (** the form of all entries but [string] *)
  Definition entry (ps : list (str * bool)) (f : option targ -> option targ -> option targ -> res ty) args kw : res ty :=
    let! l := call_bind ps args kw in f (nth 0 l None) (nth 1 l None) (nth 2 l None).
  Lemma entry_spec ps f n args kw t : NoDup (map fst ps) -> NoDup (map fst kw) ->
    (forall b, length b = length ps -> (forall i m, nth_error ps i = Some (m, true) -> exists a, nth_error b i = Some (Some a)) ->
       f (nth 0 b None) (nth 1 b None) (nth 2 b None) = Ok t <-> mean n b t) ->
    entry ps f args kw = Ok t <-> exists b, Bound ps args kw b /\ mean n b t.
  Proof.
    intros NP NK H. unfold entry. split.
    - destruct (call_bind ps args kw) as [b|] eqn:Eb; cbn [bind]; [|discriminate]. apply call_bind_spec in Eb; auto.
      intro Hf. exists b. split; auto. apply H; auto; [exact (B_length _ _ _ _ Eb)|]. intros i m Hi. eapply Bound_required; eauto.
    - intros [b [Hb Hm]]. apply H in Hm; [|exact (B_length _ _ _ _ Hb)|intros i m Hi; eapply Bound_required; eauto].
      apply call_bind_spec in Hb; auto. rewrite Hb. exact Hm.
  Qed.
  Ltac invM := let H := fresh in intro H; inversion H; subst; try discriminate.
  Lemma nodup2 (l : list str) : nodup_str l = true -> NoDup l.
  Proof. apply nodup_str_NoDup. Qed.
  Definition req (a : option targ) (f : targ -> res ty) : res ty := match a with Some x => f x | None => Raise TypeErr end.
  Ltac start f NK Hl Hr := let c := fresh "c" in let H := fresh in intros c args kw t H NK;
    match goal with |- _ <-> exists b, Bound ?ps _ _ b /\ _ => change (Some (entry ps f) = Some c) in H; injection H as <-;
      apply (entry_spec ps f); [apply nodup2; reflexivity|exact NK|] end;
    let b := fresh "b" in intros b Hl Hr; destruct b as [|o b]; cbn in Hl; try discriminate.
  Ltac shape1 f := let NK := fresh "NK" in let Hl := fresh "Hl" in let Hr := fresh "Hr" in let Ha := fresh "Ha" in
    let a := fresh "a" in let a2 := fresh "a2" in let o2 := fresh "o2" in let o3 := fresh "o3" in start f NK Hl Hr;
    match goal with b : list (option targ) |- _ => destruct b; [|discriminate] end; clear Hl;
    try (destruct (Hr 0%nat _ eq_refl) as [a Ha]; cbn in Ha; injection Ha as ->); clear Hr; cbn [nth req].
  Ltac shape2 f := let NK := fresh "NK" in let Hl := fresh "Hl" in let Hr := fresh "Hr" in let Ha := fresh "Ha" in
    let a := fresh "a" in let a2 := fresh "a2" in let o2 := fresh "o2" in let o3 := fresh "o3" in start f NK Hl Hr;
    match goal with b : list (option targ) |- _ => destruct b as [|o2 [|? ?]]; try discriminate end; clear Hl;
    try (destruct (Hr 1%nat _ eq_refl) as [a2 Ha]; cbn in Ha; injection Ha as ->);
    try (destruct (Hr 0%nat _ eq_refl) as [a Ha]; cbn in Ha; injection Ha as ->); clear Hr; cbn [nth req].
  Ltac shape3 f := let NK := fresh "NK" in let Hl := fresh "Hl" in let Hr := fresh "Hr" in let Ha := fresh "Ha" in
    let a := fresh "a" in let a2 := fresh "a2" in let o2 := fresh "o2" in let o3 := fresh "o3" in start f NK Hl Hr;
    match goal with b : list (option targ) |- _ => destruct b as [|o2 [|o3 [|? ?]]]; try discriminate end; clear Hl;
    try (destruct (Hr 0%nat _ eq_refl) as [a Ha]; cbn in Ha; injection Ha as ->); clear Hr; cbn [nth req].
  Definition Matches (n : str) (ps : list (str * bool)) : Prop :=
    forall c args kw t, constr_fun E dsh n = Some c -> NoDup (map fst kw) ->
      c args kw = Ok t <-> exists b, Bound ps args kw b /\ mean n b t.

  Lemma m_complex : Matches $"complex" [($"tp", true)].
  Proof.
    shape1 (fun a _ _ : option targ => req a c_complex). split.
    - unfold c_complex. destruct a as [| | |d|]; try discriminate.
      destruct (py_eq d _) eqn:E1; [intro H; injection H as <-; apply M_complex64; auto|].
      destruct (py_eq d (DataShapeT None [float64_t])) eqn:E2; [|discriminate]. intro H; injection H as <-. apply M_complex128; auto.
    - invM; cbn [c_complex]; change (c_type $"float32" 4 4) with float32_t in *; change (c_type $"float64" 8 8) with float64_t in *.
      + rewrite H1. reflexivity.
      + rewrite H1, H2. reflexivity.
  Qed.
  Lemma m_struct : Matches $"struct" [($"names", true); ($"dshapes", true)].
  Proof.
    shape2 (fun a b _ : option targ => req a (fun a => req b (fun b => c_struct E dsh a b))). rewrite c_struct_spec. split.
    - intros [l [m [fs [H1 [H2 [H3 [H4 ->]]]]]]]. eapply M_struct; eauto.
    - invM. eexists _, _, _. eauto.
  Qed.
  Lemma m_tuple : Matches $"tuple" [($"dshapes", true)].
  Proof.
    shape1 (fun a _ _ : option targ => req a (c_tuple dsh)). rewrite c_tuple_spec. split.
    - intros [l [ts [H1 [H2 ->]]]]. eapply M_tuple; eauto.
    - invM. eauto.
  Qed.
  Lemma m_funcproto : Matches $"funcproto" [($"args", true); ($"ret", true)].
  Proof.
    shape2 (fun a b _ : option targ => req a (fun a => req b (fun b => c_funcproto a b))). rewrite c_funcproto_spec. split.
    - intros [l [ts [r [H1 [H2 [-> ->]]]]]]. eapply M_funcproto; eauto.
    - invM. eexists _, _, _. eauto.
  Qed.
  Lemma m_typevar : Matches $"typevar" [($"name", true)].
  Proof.
    shape1 (fun a _ _ : option targ => req a (c_typevar E)). rewrite c_typevar_spec. split.
    - intros [c [s [-> [H ->]]]]. apply M_typevar; auto.
    - invM. eauto.
  Qed.
  Lemma m_option : Matches $"option" [($"ds", true)].
  Proof.
    shape1 (fun a _ _ : option targ => req a (c_option dsh)). unfold c_option. split.
    - destruct (targ_launder dsh a) as [u|] eqn:Eu; cbn; [|discriminate]. intro H; injection H as <-. apply M_option. apply AsType_spec. auto.
    - invM. apply AsType_spec in H1. rewrite H1. reflexivity.
  Qed.
  Lemma m_map : Matches $"map" [($"key", true); ($"value", true)].
  Proof.
    shape2 (fun a b _ : option targ => req a (fun a => req b (fun b => c_map dsh a b))). unfold c_map. split.
    - destruct (targ_launder dsh a) as [u|] eqn:Eu; cbn [bind]; [|discriminate].
      destruct (targ_launder dsh a2) as [v|] eqn:Ev; cbn [bind]; [|discriminate]. intro H; injection H as <-. apply M_map; apply AsType_spec; auto.
    - invM. repeat match goal with X : AsType _ _ _ |- _ => apply AsType_spec in X; rewrite X; cbn [bind] end. reflexivity.
  Qed.
  Lemma m_time : Matches $"time" [($"tz", false)].
  Proof.
    shape1 (fun a _ _ : option targ => c_time TimeT a). split.
    - destruct o as [[| |s| |]|]; try discriminate; intro H; injection H as <-; constructor.
    - invM; reflexivity.
  Qed.
  Lemma m_datetime : Matches $"datetime" [($"tz", false)].
  Proof.
    shape1 (fun a _ _ : option targ => c_time DateTimeT a). split.
    - destruct o as [[| |s| |]|]; try discriminate; intro H; injection H as <-; constructor.
    - invM; reflexivity.
  Qed.
  Lemma m_timedelta : Matches $"timedelta" [($"unit", false)].
  Proof.
    shape1 (fun a _ _ : option targ => c_timedelta E a). destruct o as [a|].
    - rewrite c_timedelta_spec. split.
      + intros [s [u [H1 [H2 ->]]]]. eapply M_timedelta_unit; eauto.
      + invM. eauto.
    - split; [intro H; injection H as <-; constructor|]. invM; reflexivity.
  Qed.
  Lemma m_units : Matches $"units" [($"unit", true); ($"tp", false)].
  Proof.
    shape2 (fun a b _ : option targ => req a (fun a => c_units a b)). split.
    - destruct a; try discriminate. destruct o2 as [[| | |d|]|]; try discriminate; cbn [c_units mk_units].
      + destruct (is_DataShape d) eqn:Ed; [|discriminate]. intro H; injection H as <-. destruct d; try discriminate. constructor.
      + intro H; injection H as <-. constructor.
    - invM; reflexivity.
  Qed.
  Lemma m_decimal : Matches $"decimal" [($"precision", true); ($"scale", false)].
  Proof.
    shape2 (fun a b _ : option targ => req a (fun a => c_decimal a b)). split.
    - destruct a; try discriminate. destruct o2 as [[| | | |]|]; try discriminate; intro H; injection H as <-; constructor.
    - invM; reflexivity.
  Qed.
  Lemma m_categorical : Matches $"categorical" [($"categories", true); ($"type", false); ($"ordered", false)].
  Proof.
    shape3 (fun a b c : option targ => req a (fun a => c_categorical E a b c)). rewrite c_categorical_spec. split.
    - intros [l [lits [u [o [H1 [H2 [H3 [H4 ->]]]]]]]]. eapply M_categorical; eauto.
    - invM. eexists _, _, _, _. eauto.
  Qed.

  Theorem constr_spec n ps c args kw t : In (n, ps) signatures -> constr_fun E dsh n = Some c -> NoDup (map fst kw) ->
    c args kw = Ok t <-> exists b, Bound ps args kw b /\ mean n b t.
  Proof.
    intros Hin Hc NK. cbn [signatures In] in Hin.
    destruct Hin as [H|Hin]; [injection H; intros; subst; apply m_complex; auto|].
    destruct Hin as [H|Hin]; [injection H; intros; subst; apply m_struct; auto|].
    destruct Hin as [H|Hin]; [injection H; intros; subst; apply m_tuple; auto|].
    destruct Hin as [H|Hin]; [injection H; intros; subst; apply m_funcproto; auto|].
    destruct Hin as [H|Hin]; [injection H; intros; subst; apply m_typevar; auto|].
    destruct Hin as [H|Hin]; [injection H; intros; subst; apply m_option; auto|].
    destruct Hin as [H|Hin]; [injection H; intros; subst; apply m_map; auto|].
    destruct Hin as [H|Hin]; [injection H; intros; subst; apply m_time; auto|].
    destruct Hin as [H|Hin]; [injection H; intros; subst; apply m_datetime; auto|].
    destruct Hin as [H|Hin]; [injection H; intros; subst; apply m_timedelta; auto|].
    destruct Hin as [H|Hin]; [injection H; intros; subst; apply m_units; auto|].
    destruct Hin as [H|Hin]; [injection H; intros; subst; apply m_decimal; auto|].
    destruct Hin as [H|Hin]; [injection H; intros; subst; apply m_categorical; auto|].
    destruct Hin.
  Qed.
  Theorem constr_names n : constr_fun E dsh n <> None <-> n = $"string" \/ In n (map fst signatures).
  Proof.
    split.
    - intro H. unfold constr_fun in H.
      repeat match type of H with (if str_eqb n ?m then _ else _) <> None =>
        let X := fresh in destruct (str_eqb n m) eqn:X; [apply str_eqb_eq in X; subst; cbn; auto 20|] end. congruence.
    - intros [->|H]; [discriminate|]. cbn in H. repeat (destruct H as [<-|H]; [discriminate|]). destruct H.
  Qed.
  Theorem constr_bad n ps c args kw : In (n, ps) signatures -> constr_fun E dsh n = Some c -> NoDup (map fst kw) ->
    (forall b, ~ Bound ps args kw b) -> c args kw = Raise TypeErr.
  Proof.
    intros Hin Hc NK HB.
    assert (X : NoDup (map fst ps) -> call_bind ps args kw = Raise TypeErr).
    { intros ND. pose proof (call_bind_err ps args kw) as He.
      destruct (call_bind ps args kw) as [b|e] eqn:Eb; [|congruence]. apply call_bind_spec in Eb; auto. elim (HB b Eb). }
    clear HB NK. cbn [signatures In] in Hin.
    repeat (destruct Hin as [H|Hin]; [injection H; clear H; intros; subst; cbn in Hc; injection Hc as <-;
      rewrite X by (apply nodup2; reflexivity); reflexivity|]).
    destruct Hin.
  Qed.
  Theorem string_spec c args kw t : constr_fun E dsh $"string" = Some c ->
    c args kw = Ok t <-> kw = [] /\ StringMeaning args t.
  Proof.
    intro H. cbn in H. injection H as <-. destruct kw; [|split; [discriminate|intros [? ?]; discriminate]].
    rewrite c_string_spec. split; [auto|intros [_ H]; auto].
  Qed.
End C.
