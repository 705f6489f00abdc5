(** C25: normalize_time_unit. Specification in Spec_Time.v. *)
From Verif Require Import Base Lexer Construct Spec_Time Proof_Time.

(** exactly the texts that denote a unit are accepted, with that unit *)
Theorem C25_normalize_spec : forall s u, normalize_time_unit s = Ok u <-> UnitOf s u.
Proof. exact normalize_UnitOf. Qed.
Print Assumptions C25_normalize_spec.

(** total: a canonical unit or an exception (never divergence) *)
Theorem C25_normalize_total : forall s,
  match normalize_time_unit s with
  | Ok u => In u canonical_units
  | Raise e => e = ValueErr \/ e = IndexErr
  end.
Proof. exact normalize_errors. Qed.
Print Assumptions C25_normalize_total.

Theorem C25_normalize_idempotent : forall s u,
  normalize_time_unit s = Ok u -> normalize_time_unit u = Ok u.
Proof.
  intros s u H. pose proof (normalize_errors s) as E. rewrite H in E. exact (normalize_canonical u E).
Qed.
Print Assumptions C25_normalize_idempotent.

Theorem C25_normalize_blanks : forall b1 s b2, Blanks b1 -> Blanks b2 ->
  normalize_time_unit (b1 ++ s ++ b2) = normalize_time_unit s.
Proof. exact normalize_blanks. Qed.
Print Assumptions C25_normalize_blanks.

Theorem C25_canonical_fixed : forall u, In u canonical_units -> normalize_time_unit u = Ok u.
Proof. exact normalize_canonical. Qed.
Print Assumptions C25_canonical_fixed.

Theorem C25_alias_and_plural : forall a u, In (a, u) unit_synonyms ->
  normalize_time_unit a = Ok u /\ normalize_time_unit (a ++ $"s") = Ok u.
Proof.
  intros a u H. split; [exact (normalize_synonym a u H)|].
  unfold unit_synonyms in H. simpl in H.
  repeat (destruct H as [H|H]; [inversion H; subst; reflexivity|]). contradiction.
Qed.
Print Assumptions C25_alias_and_plural.

(** which exception: a text that denotes no unit raises ValueError, unless it is blank or made
    of blanks and 's' only, beginning with three 's' *)
Theorem C25_normalize_raises : forall s,
  (normalize_time_unit s = Raise IndexErr <-> OnlyS s) /\
  (normalize_time_unit s = Raise ValueErr <-> ~ OnlyS s /\ forall u, ~ UnitOf s u).
Proof.
  intro s. split; [apply normalize_index|]. pose proof (normalize_index s) as I. pose proof (normalize_errors s) as T. split.
  - intro H. rewrite H in I. split; [intro O; apply I in O; discriminate|]. intros u U. apply normalize_UnitOf in U. congruence.
  - intros [N U]. destruct (normalize_time_unit s) as [u|e] eqn:E; [exfalso; apply (U u), normalize_UnitOf, E|].
    destruct T as [->| ->]; [reflexivity|]. exfalso. apply N, I. reflexivity.
Qed.
Print Assumptions C25_normalize_raises.
Example C25_raises_case : OnlyS $" sss s " /\ normalize_time_unit $"ss s" = Raise ValueErr /\ normalize_time_unit $"s ss" = Ok $"s".
Proof. split; [apply normalize_index|split]; vm_compute; reflexivity. Qed.

(** a wrong unit is documented to raise ValueError; these raise IndexError *)
Theorem C25_value_error_refuted :
  normalize_time_unit [] = Raise IndexErr /\ normalize_time_unit $"  " = Raise IndexErr /\
  normalize_time_unit $"sss" = Raise IndexErr.
Proof. vm_compute; auto. Qed.
Print Assumptions C25_value_error_refuted.

Example C25_nonvacuous : UnitOf $"  days " $"D" /\ UnitOf $"milliseconds" $"ms" /\
  normalize_time_unit $"fortnight" = Raise ValueErr.
Proof. repeat split; try (apply normalize_UnitOf); vm_compute; reflexivity. Qed.
