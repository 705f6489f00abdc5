(** C02 (datashape level), C04, C07, C08: the parser. *)
From Verif Require Import Base Types Lexer Construct Parser Spec_Lexer Spec_WF
  Proof_ParserRel Proof_Parser Spec_Places Proof_Places Tests_Parser.

(** C02. Blanks and comments do not change the outcome: same datashape, or a syntax error
    (at the corresponding place), or the same exception. *)
Theorem C02_blanks_dshape : forall E l s1 s2, disc_ok E -> Layout l s1 -> Layout l s2 ->
  (exists t, dshape E s1 = Ok t /\ dshape E s2 = Ok t) \/
  (exists p q m, dshape E s1 = Raise (SyntaxErr p m) /\ dshape E s2 = Raise (SyntaxErr q m) /\ SamePlace s1 s2 p q) \/
  (exists e, dshape E s1 = Raise e /\ dshape E s2 = Raise e /\ forall p m, e <> SyntaxErr p m).
Proof. exact layout_places. Qed.
Print Assumptions C02_blanks_dshape.

(** C04. [dshape] always returns a DataShape or raises; its recursion bounds are never
    reached: any bound above the length of the text gives the same outcome... *)
Theorem C04_dshape_total : forall E s, disc_ok E ->
  (exists t, dshape E s = Ok t /\ IsDataShape t) \/
  (exists e, dshape E s = Raise e /\ e <> OutOfFuel).
Proof.
  intros E s HE. destruct (dshape_outcome E s HE) as [[t [H [D _]]]|[[p [m [H _]]]|[e [H P]]]]; eauto;
    right; eexists; split; eauto; try discriminate. intros ->; contradiction.
Qed.
Print Assumptions C04_dshape_total.
Theorem C04_string_nesting_bound : forall E s m, disc_ok E ->
  (length s < m)%nat -> dshape_str E m s = dshape E s.
Proof. intros E s m HE. exact (dshape_fuel E HE s m). Qed.
Print Assumptions C04_string_nesting_bound.
(** ... and the recursion depth of [parse_datashape] is at most the number of tokens (plus
    the end marker): deeper bounds change nothing. *)
Theorem C04_parser_depth : forall E s, disc_ok E -> forall n ts,
  let (toks, err) := lex s in
  ts = stream toks err 0 -> live ts -> (length ts < n)%nat ->
  outcome (parse_datashape (default_sym E (dshape E)) n ts) =
  outcome (parse_datashape (default_sym E (dshape E)) (S (length ts)) ts) /\
  outcome (parse_datashape (default_sym E (dshape E)) n ts) <> Raise OutOfFuel.
Proof. exact parse_depth. Qed.
Print Assumptions C04_parser_depth.

(** C07. *)
Theorem C07_parse_wf : forall E s t, disc_ok E -> dshape E s = Ok t ->
  IsDataShape t /\ WF t /\ NoTypeSet t.
Proof.
  intros E s t HE H. destruct (dshape_outcome E s HE) as [[u [H1 H2]]|[[p [m [H1 _]]]|[e [H1 _]]]]; congruence.
Qed.
Print Assumptions C07_parse_wf.

(** C08. *)
Theorem C08_error_positions : forall E s p m, disc_ok E ->
  dshape E s = Raise (SyntaxErr p m) -> (0 <= p <= length s)%nat.
Proof.
  intros E s p m HE H. destruct (dshape_outcome E s HE) as [[u [H1 H2]]|[[q [m' [H1 H2]]]|[e [H1 P]]]]; [congruence| |].
  - rewrite H in H1. injection H1 as <- _. lia.
  - rewrite H in H1. injection H1 as <-. contradiction.
Qed.
Print Assumptions C08_error_positions.
(** it is the start of a token, the end of the last one, or where no token can be read; or such a
    place in a string literal that a constructor read as a datashape *)
Theorem C08_error_place : forall E s p m, disc_ok E -> dshape E s = Raise (SyntaxErr p m) -> ErrorPlace s p.
Proof. intros E s p m HE. exact (error_place E HE s p m). Qed.
Print Assumptions C08_error_place.

(** the hypotheses are satisfiable *)
Example disc_ok_E0 : disc_ok E0.
Proof. intro l. exact I. Qed.
Example C07_nonvacuous : exists t, dshape E0 $"var * {a: ?3 * int32, 'b c': (M, string['A']) -> units['kg']}" = Ok t.
Proof. eexists. vm_compute; reflexivity. Qed.
Example C08_nonvacuous : dshape E0 $"{a: int32, b: }" = Raise (SyntaxErr 14 MFieldDatashape).
Proof. vm_compute; reflexivity. Qed.
Example C08_end : dshape E0 $"3 *  # comment" = Raise (SyntaxErr 3 MDimOrDtype).
Proof. vm_compute; reflexivity. Qed.
Example C02_places : dshape E0 $"{a:int32,b:}" = Raise (SyntaxErr 11 MFieldDatashape) /\ dshape E0 $"{a: int32, b: }" = Raise (SyntaxErr 14 MFieldDatashape).
Proof. split; vm_compute; reflexivity. Qed.
Example C08_nonvacuous_nested : dshape E0 $"3 * option['int33']" = Raise (SyntaxErr 0 MInvalid).
Proof. vm_compute; reflexivity. Qed.
