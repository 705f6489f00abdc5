(** Specification of time units (C25), independent of the recursion in
    normalize_time_unit. *)
From Verif Require Import Base Lexer.
Local Open Scope N_scope.

Definition canonical_units : list str :=
  [$"ns"; $"us"; $"ms"; $"s"; $"m"; $"h"; $"D"; $"W"; $"M"; $"Y"].
Definition unit_synonyms : list (str * str) :=
  [ ($"year", $"Y"); ($"week", $"W"); ($"day", $"D"); ($"date", $"D"); ($"hour", $"h");
    ($"second", $"s"); ($"millisecond", $"ms"); ($"microsecond", $"us"); ($"nanosecond", $"ns") ].

Definition Blanks (b : str) : Prop := Forall (fun c => is_space c = true) b.
Definition starts_blank (s : str) : Prop := exists c r, s = c :: r /\ is_space c = true.
Definition ends_with (c : N) (s : str) : Prop := exists r, s = r ++ [c].

(** [UnitOf s u]: the text [s] denotes the unit [u]. *)
Inductive UnitOf : str -> str -> Prop :=
| UO_canonical u : In u canonical_units -> UnitOf u u
| UO_synonym a u : In (a, u) unit_synonyms -> UnitOf a u
| UO_blanks b1 s b2 u : Blanks b1 -> Blanks b2 -> UnitOf s u -> UnitOf (b1 ++ s ++ b2) u
| UO_plural c k u :          (* any number of trailing 's' *)
    UnitOf c u -> ~ starts_blank c -> ~ ends_with 115 c -> (1 <= k)%nat ->
    (2 < length c + k)%nat ->
    ~ In (c ++ repeat 115 k) canonical_units ->
    UnitOf (c ++ repeat 115 k) u.

(** the texts on which normalize_time_unit raises IndexError: blank ones, and those of blanks
    and 's' only that begin with three 's' after the leading blanks *)
Definition OnlyS (s : str) : Prop := Blanks s \/ exists b rest,
  s = b ++ $"sss" ++ rest /\ Blanks b /\ Forall (fun c => c = 115 \/ is_space c = true) rest.
