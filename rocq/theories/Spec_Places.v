(** Where a syntax error is reported (C08), and corresponding places of two texts (C02), in
    terms of the tokens [lex] gives. *)
From Verif Require Import Base Lexer.

(** the end of the last token, 0 without tokens *)
Definition EndOf (ts : list token) (p : nat) : Prop :=
  (ts = [] /\ p = 0%nat) \/ exists l t, ts = l ++ [t] /\ p = tk_end t.
(** the text of a string literal of [ts], or one character of it: texts that a type constructor
    may read as a datashape, as in [option['int32']] *)
Definition Inner (ts : list token) (u : str) : Prop :=
  exists t v, In t ts /\ tk_kind t = KStr /\ tk_val t = VStr v /\ (u = v \/ exists c, In c v /\ u = [c]).
(** [ErrorPlace s p]: the start of a token of [s], the end of the last token, the place where
    [s] cannot be cut into tokens, or such a place in an inner text *)
Inductive ErrorPlace (s : str) (p : nat) : Prop :=
| EP_token t : In t (fst (lex s)) -> p = tk_start t -> ErrorPlace s p
| EP_end : snd (lex s) = None -> EndOf (fst (lex s)) p -> ErrorPlace s p
| EP_lex : snd (lex s) = Some (SyntaxErr p MToken) -> ErrorPlace s p
| EP_inner u : Inner (fst (lex s)) u -> ErrorPlace u p -> ErrorPlace s p.

(** [p] in [s1] and [q] in [s2] correspond: starts of the tokens with the same number, both ends,
    or the same place in an inner text *)
Inductive SamePlace (s1 s2 : str) (p q : nat) : Prop :=
| SP_token i t1 t2 : nth_error (fst (lex s1)) i = Some t1 -> nth_error (fst (lex s2)) i = Some t2 ->
    p = tk_start t1 -> q = tk_start t2 -> SamePlace s1 s2 p q
| SP_end : EndOf (fst (lex s1)) p -> EndOf (fst (lex s2)) q -> SamePlace s1 s2 p q
| SP_inner u : Inner (fst (lex s1)) u -> Inner (fst (lex s2)) u -> ErrorPlace u p -> p = q -> SamePlace s1 s2 p q.
