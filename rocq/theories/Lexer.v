(** The lexer (lexer.py): regular expressions with Python's backtracking
    priorities, the token table, token values, and the [lex] generator. *)
From Verif Require Import Base.
Local Open Scope N_scope.

(** ** Regular expressions (the subset of Python [re] used by lexer.py and
    internal_utils.py). *)
Inductive re :=
| RChr (p : char -> bool)     (* one character of a class *)
| REps
| RSeq (a b : re)
| RAlt (a b : re)             (* ordered choice a|b *)
| RStar (a : re)              (* greedy a* *)
| RNotAhead (a : re)          (* (?!a) *)
| REol.                       (* $ with re.MULTILINE *)

Definition at_eol (s : str) : bool :=
  match s with [] => true | c :: _ => N.eqb c 10 end.

(** All ways to match a prefix of [s], as the remaining suffixes, in the order in
    which Python's backtracking matcher tries them; the match found by
    [pattern.match] is the head of the list. [n] bounds the number of iterations
    of a star; an iteration must consume something. *)
Fixpoint star_iter (m : str -> list str) (n : nat) (s : str) : list str :=
  match n with
  | O => [s]
  | S n' =>
      flat_map (fun s' => if Nat.ltb (length s') (length s) then star_iter m n' s' else [])
               (m s) ++ [s]
  end.
Fixpoint rmatch (r : re) (s : str) : list str :=
  match r with
  | RChr p => match s with c :: t => if p c then [t] else [] | [] => [] end
  | REps => [s]
  | RSeq a b => flat_map (rmatch b) (rmatch a s)
  | RAlt a b => rmatch a s ++ rmatch b s
  | RStar a => star_iter (rmatch a) (length s) s
  | RNotAhead a => match rmatch a s with [] => [s] | _ => [] end
  | REol => if at_eol s then [s] else []
  end.

(** notation helpers for patterns *)
Definition is_c (c : char) : char -> bool := N.eqb c.
Definition ch (c : char) : re := RChr (is_c c).
Fixpoint lit (s : str) : re :=
  match s with [] => REps | [c] => ch c | c :: r => RSeq (ch c) (lit r) end.
Definition opt (r : re) : re := RAlt r REps.
Fixpoint rep (n : nat) (r : re) : re :=
  match n with O => REps | S O => r | S n' => RSeq r (rep n' r) end.
Definition in_range (lo hi c : char) : bool := (lo <=? c) && (c <=? hi).
Definition one_of (l : str) (c : char) : bool := existsb (N.eqb c) l.

Definition is_lower c := in_range 97 122 c.       (* a-z *)
Definition is_upper c := in_range 65 90 c.        (* A-Z *)
Definition is_digit c := in_range 48 57 c.        (* 0-9 *)
Definition is_digit19 c := in_range 49 57 c.      (* 1-9 *)
Definition is_name_char c := is_lower c || is_upper c || is_digit c || is_c 95 c.  (* [a-zA-Z0-9_] *)
Definition is_hex c := is_digit c || in_range 97 102 c || in_range 65 70 c.        (* [0-9a-fA-F] *)

(** [\s] in a [str] pattern, equivalently [str.isspace] of one character. *)
Definition is_space (c : char) : bool :=
  in_range 9 13 c || in_range 28 32 c || is_c 133 c || is_c 160 c || is_c 5760 c
  || in_range 8192 8202 c || is_c 8232 c || is_c 8233 c || is_c 8239 c || is_c 8287 c
  || is_c 12288 c.

Definition dq : char := 34.
Definition sq : char := 39.
Definition bsl : char := 92.

(** ** Token table, lexer.py:23-46 *)
Inductive kind :=
| KBool | KLower | KUpper | KOther | KAst | KComma | KEq | KColon | KLBk | KRBk
| KLBc | KRBc | KLP | KRP | KEll | KArrow | KQ | KInt | KStr.

(** one string alternative, lexer.py:42-43, for quote character [q] *)
Definition str_item (q : char) : re :=
  RAlt (RChr (fun c => negb (N.eqb c q || N.eqb c 10 || N.eqb c 13 || N.eqb c bsl)))
  (RAlt (RSeq (lit [bsl; 117]) (rep 4 (RChr is_hex)))
        (RSeq (ch bsl) (RChr (one_of (q :: $"bfnrt"))))).
Definition str_re (q : char) : re :=
  RSeq (ch q) (RSeq (RStar (str_item q)) (ch q)).

Definition token_table : list (kind * re) :=
  [ (KBool,  RAlt (lit $"True") (lit $"False"));
    (KLower, RSeq (RChr is_lower) (RStar (RChr is_name_char)));
    (KUpper, RSeq (RChr is_upper) (RStar (RChr is_name_char)));
    (KOther, RSeq (ch 95) (RStar (RChr is_name_char)));
    (KAst,   lit $"*");
    (KComma, lit $",");
    (KEq,    lit $"=");
    (KColon, lit $":");
    (KLBk,   lit $"[");
    (KRBk,   lit $"]");
    (KLBc,   lit $"{");
    (KRBc,   lit $"}");
    (KLP,    lit $"(");
    (KRP,    lit $")");
    (KEll,   lit $"...");
    (KArrow, lit $"->");
    (KQ,     lit $"?");
    (KInt,   RAlt (RSeq (ch 48) (RNotAhead (RChr is_digit)))
                  (RSeq (opt (ch 45)) (RSeq (RChr is_digit19) (RStar (RChr is_digit)))));
    (KStr,   RAlt (str_re dq) (str_re sq)) ].

(** [_whitespace], lexer.py:52 *)
Definition whitespace_re : re :=
  RStar (RAlt (RChr is_space)
              (RSeq (ch 35) (RSeq (RStar (RChr (fun c => negb (N.eqb c 10)))) REol))).

(** [_tokens_re.match]: the alternatives joined in table order, lexer.py:55-56. *)
Fixpoint first_match (tbl : list (kind * re)) (s : str) : option (kind * str) :=
  match tbl with
  | [] => None
  | (k, r) :: rest =>
      match rmatch r s with
      | s' :: _ => Some (k, s')
      | [] => first_match rest s
      end
  end.
(** [_whitespace_re.match(...).end()] *)
Definition skip_ws (s : str) : str :=
  match rmatch whitespace_re s with s' :: _ => s' | [] => s end.

(** ** Token values *)
Inductive tval := VNone | VBool (b : bool) | VStr (s : str) | VInt (z : Z).

Definition digit_val (c : char) : Z := (Z.of_N c - 48)%Z.
Fixpoint int_digits (acc : Z) (s : str) : Z :=
  match s with
  | [] => acc
  | c :: r => int_digits (acc * 10 + digit_val c)%Z r
  end.
(** [int(text)] on texts of INTEGER tokens *)
Definition int_val (s : str) : Z :=
  match s with
  | c :: r => if N.eqb c 45 then (- int_digits 0 r)%Z else int_digits 0 s
  | [] => 0%Z
  end.

Definition hex_val (c : char) : N :=
  if is_digit c then c - 48
  else if in_range 97 102 c then c - 87
  else c - 55.
(** Body of a string literal (text between the quotes), decoded by the Python
    parser ([_str_val], lexer.py:17-20); only the escapes the STRING pattern lets
    through occur. *)
Fixpoint unescape (s : str) : str :=
  match s with
  | 92 :: 117 :: a :: b :: c :: d :: r =>
      (hex_val a * 4096 + hex_val b * 256 + hex_val c * 16 + hex_val d) :: unescape r
  | 92 :: e :: r =>
      (if N.eqb e 98 then 8 else if N.eqb e 102 then 12 else if N.eqb e 110 then 10
       else if N.eqb e 114 then 13 else if N.eqb e 116 then 9 else e) :: unescape r
  | c :: r => c :: unescape r
  | [] => []
  end.
Definition is_surrogate c := in_range 55296 57343 c.
(** [ast.parse] refuses a source text with NUL or lone surrogates (ValueError /
    UnicodeEncodeError, a ValueError). *)
Definition str_val (text : str) : res str :=
  if existsb (fun c => N.eqb c 0 || is_surrogate c) text then Raise ValueErr
  else Ok (unescape (removelast (tl text))).

(** value extraction functions, third column of the table *)
Definition tok_val (k : kind) (text : str) : res tval :=
  match k with
  | KBool => Ok (VBool (str_eqb text $"True"))
  | KLower | KUpper | KOther => Ok (VStr text)
  | KInt => Ok (VInt (int_val text))
  | KStr => let! v := str_val text in Ok (VStr v)
  | _ => Ok VNone
  end.

(** [Token], lexer.py:59 (the id and name are both given by [tk_kind]) *)
Record token := { tk_kind : kind; tk_val : tval; tk_start : nat; tk_end : nat }.

(** ** lex, lexer.py:61-102. The generator is represented by the list of tokens it
    yields together with the exception that ends it, if any. [pos] is the offset
    of [s] in the text. Every iteration consumes at least one character, so
    [length s] iterations suffice (lemma [lex_fuel]). *)
Fixpoint lex_loop (n : nat) (pos : nat) (s : str) : list token * option exn :=
  match s with
  | [] => ([], None)
  | _ =>
    match n with
    | O => ([], Some OutOfFuel)
    | S n' =>
      match first_match token_table s with
      | None => ([], Some (SyntaxErr pos MToken))
      | Some (k, s') =>
          let len := (length s - length s')%nat in
          match tok_val k (firstn len s) with
          | Raise e => ([], Some e)
          | Ok v =>
              let e := (pos + len)%nat in
              let s'' := skip_ws s' in
              let e' := (e + (length s' - length s''))%nat in
              let (ts, err) := lex_loop n' e' s'' in
              ({| tk_kind := k; tk_val := v; tk_start := pos; tk_end := e |} :: ts, err)
          end
      end
    end
  end.
Definition lex (s : str) : list token * option exn :=
  let s' := skip_ws s in
  lex_loop (length s) (length s - length s') s'.
