(** Specification of the tokens of the datashape language, independent of regular
    expressions and of the lexer's loop. *)
From Verif Require Import Base Lexer.
Local Open Scope N_scope.

(** ** Which texts are tokens of which kind *)

Definition starts_with (p w : str) : Prop := exists r, w = p ++ r.
(** the reserved prefixes that make the lexer read a BOOLEAN *)
Definition bool_prefixed (w : str) : Prop := starts_with $"True" w \/ starts_with $"False" w.

Inductive NameText (first : char -> bool) : str -> Prop :=
| NameText_intro c r : first c = true -> Forall (fun x => is_name_char x = true) r ->
    NameText first (c :: r).

(** the text between the quotes of a STRING with quote character [q] and the string
    it denotes *)
Inductive StrBody (q : char) : str -> str -> Prop :=
| SB_nil : StrBody q [] []
| SB_plain c b v : c <> q -> c <> bsl -> c <> 10 -> c <> 13 ->
    StrBody q b v -> StrBody q (c :: b) (c :: v)
| SB_unicode h1 h2 h3 h4 b v :
    is_hex h1 = true -> is_hex h2 = true -> is_hex h3 = true -> is_hex h4 = true ->
    StrBody q b v ->
    StrBody q (bsl :: 117 :: h1 :: h2 :: h3 :: h4 :: b)
              ((hex_val h1 * 4096 + hex_val h2 * 256 + hex_val h3 * 16 + hex_val h4) :: v)
| SB_quote b v : StrBody q b v -> StrBody q (bsl :: q :: b) (q :: v)
| SB_esc e c b v : In (e, c) [(98, 8); (102, 12); (110, 10); (114, 13); (116, 9)] ->
    StrBody q b v -> StrBody q (bsl :: e :: b) (c :: v).

(** a decimal numeral and its value *)
Inductive Digits : str -> Z -> Prop :=
| Digits_one d : is_digit d = true -> Digits [d] (Z.of_N (d - 48))
| Digits_snoc w z d : Digits w z -> is_digit d = true ->
    Digits (w ++ [d]) (10 * z + Z.of_N (d - 48))%Z.
Definition no_leading_zero (w : str) : Prop := match w with c :: _ => c <> 48 | [] => False end.

(** [TokText k w v]: [w] is the text of a token of kind [k] and [v] the value it denotes *)
Inductive TokText : kind -> str -> tval -> Prop :=
| TT_true : TokText KBool $"True" (VBool true)
| TT_false : TokText KBool $"False" (VBool false)
| TT_lower w : NameText is_lower w -> TokText KLower w (VStr w)
| TT_upper w : NameText is_upper w -> ~ bool_prefixed w -> TokText KUpper w (VStr w)
| TT_other w : NameText (N.eqb 95) w -> TokText KOther w (VStr w)
| TT_ast : TokText KAst $"*" VNone
| TT_comma : TokText KComma $"," VNone
| TT_eq : TokText KEq $"=" VNone
| TT_colon : TokText KColon $":" VNone
| TT_lbk : TokText KLBk $"[" VNone
| TT_rbk : TokText KRBk $"]" VNone
| TT_lbc : TokText KLBc $"{" VNone
| TT_rbc : TokText KRBc $"}" VNone
| TT_lp : TokText KLP $"(" VNone
| TT_rp : TokText KRP $")" VNone
| TT_ell : TokText KEll $"..." VNone
| TT_arrow : TokText KArrow $"->" VNone
| TT_q : TokText KQ $"?" VNone
| TT_zero : TokText KInt $"0" (VInt 0)
| TT_int w z : Digits w z -> no_leading_zero w -> TokText KInt w (VInt z)
| TT_neg w z : Digits w z -> no_leading_zero w -> TokText KInt (45 :: w) (VInt (- z))
| TT_str q b v : q = dq \/ q = sq -> StrBody q b v -> TokText KStr (q :: b ++ [q]) (VStr v).

(** Python's own parser refuses NUL and lone surrogates, so such a STRING has no value. *)
Definition bad_char (c : char) : bool := N.eqb c 0 || is_surrogate c.
Definition Decodable (k : kind) (w : str) : Prop :=
  k = KStr -> Forall (fun c => bad_char c = false) w.

(** the character after a name is not a name character, after a number not a digit *)
Definition head_not (p : char -> bool) (s : str) : Prop :=
  match s with c :: _ => p c = false | [] => True end.
Definition follow_ok (k : kind) (rest : str) : Prop :=
  match k with
  | KLower | KUpper | KOther => head_not is_name_char rest
  | KInt => head_not is_digit rest
  | _ => True
  end.

(** the blank characters of Unicode (White_Space and the four separators U+001C..U+001F) *)
Definition BlankChar (c : char) : Prop :=
  In c [9; 10; 11; 12; 13; 28; 29; 30; 31; 32; 133; 160; 5760; 8192; 8193; 8194; 8195; 8196; 8197;
        8198; 8199; 8200; 8201; 8202; 8232; 8233; 8239; 8287; 12288].

(** ** Blanks: whitespace and comments. A comment ends at a newline (which belongs to
    the blanks) or at the end of the text ([at_end = true]). *)
Inductive Blank (at_end : bool) : str -> Prop :=
| Blank_nil : Blank at_end []
| Blank_space c w : is_space c = true -> Blank at_end w -> Blank at_end (c :: w)
| Blank_comment body w : Forall (fun c => c <> 10) body -> Blank at_end (10 :: w) ->
    Blank at_end (35 :: body ++ 10 :: w)
| Blank_comment_end body : at_end = true -> Forall (fun c => c <> 10) body ->
    Blank at_end (35 :: body).

(** no token starts here *)
Definition NoToken (s : str) : Prop :=
  forall k w v rest, s = w ++ rest -> TokText k w v -> ~ follow_ok k rest.
(** the text does not start with a blank *)
Definition NotBlank (s : str) : Prop :=
  exists c r, s = c :: r /\ is_space c = false /\ c <> 35.

(** ** The lexer's result. [Tiles pos s ts err]: text [s], which starts at offset [pos],
    consists of the tokens [ts] separated by blanks; then the text ends, or the
    exception [err] is raised. *)
Inductive Tiles : nat -> str -> list token -> option exn -> Prop :=
| Tiles_end pos g : Blank true g -> Tiles pos g [] None
| Tiles_tok pos g k w v rest ts err :
    Blank false g -> TokText k w v -> Decodable k w -> follow_ok k rest ->
    Tiles (pos + length g + length w) rest ts err ->
    Tiles pos (g ++ w ++ rest)
          ({| tk_kind := k; tk_val := v; tk_start := pos + length g;
              tk_end := pos + length g + length w |} :: ts) err
| Tiles_syntax pos g rest :
    Blank false g -> NotBlank rest -> NoToken rest ->
    Tiles pos (g ++ rest) [] (Some (SyntaxErr (pos + length g) MToken))
| Tiles_value pos g w v rest :
    Blank false g -> TokText KStr w v -> ~ Decodable KStr w ->
    Tiles pos (g ++ w ++ rest) [] (Some ValueErr).

(** ** Layouts of a token sequence: [Layout l s] means the text [s] spells the tokens
    [l] (kind and value), with any blanks between them. *)
Inductive Layout : list (kind * tval) -> str -> Prop :=
| Layout_end g : Blank true g -> Layout [] g
| Layout_tok g k w v rest l :
    Blank false g -> TokText k w v -> Decodable k w -> follow_ok k rest ->
    Layout l rest -> Layout ((k, v) :: l) (g ++ w ++ rest).

(** substring [s[a:b]] *)
Definition sub (s : str) (a b : nat) : str := firstn (b - a) (skipn a s).

(** The same facts spelled out with spans: [Spans s a ts err] describes the tokens of [s]
    from offset [a] on. *)
Fixpoint Spans (s : str) (a : nat) (ts : list token) (err : option exn) : Prop :=
  match ts with
  | t :: r =>
      (a <= tk_start t)%nat /\ (tk_start t < tk_end t)%nat /\ (tk_end t <= length s)%nat /\
      Blank false (sub s a (tk_start t)) /\
      TokText (tk_kind t) (sub s (tk_start t) (tk_end t)) (tk_val t) /\
      follow_ok (tk_kind t) (skipn (tk_end t) s) /\
      Spans s (tk_end t) r err
  | [] =>
      match err with
      | None => Blank true (skipn a s)
      | Some (SyntaxErr p m) =>
          m = MToken /\ (a <= p)%nat /\ (p < length s)%nat /\ Blank false (sub s a p) /\
          NotBlank (skipn p s) /\ NoToken (skipn p s)
      | Some e => (* a STRING that Python cannot decode *)
          e = ValueErr /\ exists p w v rest, (a <= p)%nat /\ Blank false (sub s a p) /\
            skipn p s = w ++ rest /\ TokText KStr w v /\ ~ Decodable KStr w
      end
  end.

(** an identifier [[a-zA-Z_][a-zA-Z0-9_]*], docs/source/grammar.rst "Tokens" *)
Definition Ident (w : str) : Prop :=
  NameText (fun c => is_lower c || is_upper c || N.eqb 95 c) w.
Definition kind_val (t : token) : kind * tval := (tk_kind t, tk_val t).
