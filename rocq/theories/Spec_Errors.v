(** What a text must contain for [dshape] to raise (C67), in terms of the tokens [lex] gives. *)
From Verif Require Import Base Types Lexer Construct.

(** a token of kind [[] *)
Definition Brackets (s : str) : Prop := exists t, In t (fst (lex s)) /\ tk_kind t = KLBk.
(** [...] or the word [ellipsis] *)
Definition EllipsisTok (t : token) : Prop :=
  tk_kind t = KEll \/ (tk_kind t = KLower /\ tk_val t = VStr $"ellipsis").
Definition TwoEllipses (s : str) : Prop := exists l1 t1 l2 t2 l3,
  fst (lex s) = l1 ++ t1 :: l2 ++ t2 :: l3 /\ EllipsisTok t1 /\ EllipsisTok t2.
Definition NegativeInt (s : str) : Prop := exists t z,
  In t (fst (lex s)) /\ tk_kind t = KInt /\ tk_val t = VInt z /\ (z < 0)%Z.
(** two labels [n:] *)
Definition RepeatedLabel (s : str) : Prop := exists n l1 a b l2 a' b' l3,
  fst (lex s) = l1 ++ a :: b :: l2 ++ a' :: b' :: l3 /\
  tk_val a = VStr n /\ tk_kind b = KColon /\ tk_val a' = VStr n /\ tk_kind b' = KColon.
(** a string literal that Python's parser refuses (NUL or a lone surrogate in it) *)
Definition BadLiteral (s : str) : Prop := snd (lex s) = Some ValueErr.

(** what [discover] raises on some tuple of categories *)
Definition DiscoverRaises (E : env) (e : exn) : Prop := exists l, e_disc E l = Raise e.
