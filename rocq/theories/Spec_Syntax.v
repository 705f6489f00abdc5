(** What a syntax error says (C70): for each message of the parser, what stands before the place
    reported and what does not stand there. Tokens are given as (kind, value) pairs, as in the
    grammar (Spec_Grammar); [true] selects the grammar that the parser implements. *)
From Verif Require Import Base Types Lexer Construct Parser Printer Spec_Preds Spec_Grammar Spec_Places.

Definition kv (t : token) : kind * tval := (tk_kind t, tk_val t).
(** the next token is of kind [k] *)
Definition Next (k : kind) (a : word) : Prop := exists v r, a = (k, v) :: r.
(** a field name is next; a keyword and [=] are next *)
Definition NextName (a : word) : Prop := exists f n r, a = f :: r /\ FieldName f n.
Definition NextKeyword (a : word) : Prop := exists n v r, a = (KLower, n) :: (KEq, v) :: r.

Section Faults.
  Variable sym : symtab.

  (** no data type begins here: no type variable, no ['{'], no ['('], no name of a type, no name of
      a type constructor with its ['['] *)
  Definition NoType (a : word) : Prop :=
    match a with
    | (KUpper, _) :: _ | (KLBc, _) :: _ | (KLP, _) :: _ => False
    | (KLower, VStr n) :: (KLBk, _) :: _ => st_dtype_constr sym n = None
    | (KLower, VStr n) :: _ => st_dtype sym n = None
    | _ => True
    end.
  (** no dimension begins here: no [...], no size with its [*], no name of a dimension *)
  Definition NoDim (a : word) : Prop :=
    match a with
    | (KEll, _) :: _ | (KInt, _) :: (KAst, _) :: _ => False
    | (KLower, VStr n) :: (KLBk, _) :: _ => st_dim_constr sym n = None
    | (KLower, VStr n) :: _ => st_dim sym n = None
    | _ => True
    end.
  (** a datashape is missing: after the tokens [j] (a [?], or the name of a dimension that no [*]
      follows, or nothing) no datashape can begin with [a] *)
  Definition Missing (j a : word) : Prop :=
    Junk sym j /\ NoType a /\ (has_dim sym j \/ (NoDim a /\ (j = [] -> ~ Next KQ a))).
  (** an argument of a type constructor is missing *)
  Definition NoArgument (j a : word) : Prop :=
    Missing j a /\ ~ Next KInt a /\ ~ Next KStr a /\ ~ Next KBool a /\ ~ Next KLBk a.
  (** the arguments [w] in brackets cannot go on with [a]: no comma after an argument, or no
      argument at the beginning or after a comma *)
  Definition ArgsEnd (w a : word) : Prop :=
    ~ Next KComma a \/
    exists w' j, w = w' ++ j /\ (w' = [] \/ exists w'', w' = w'' ++ [tok KComma]) /\
      NoArgument j a /\ ~ NextKeyword a.

  (** [Fault w a m]: between [w] and [a] the complaint [m] is true *)
  Inductive Fault : word -> word -> synmsg -> Prop :=
  (* "Expected a dim or a dtype": a dimension and its [*], then no datashape *)
  | F_dim u d j a : Dim sym u d -> Missing j a -> Fault (u ++ [tok KAst]) (j ++ a) MDimOrDtype
  (* "Expected a closing ]", of a dimension constructor *)
  | F_closing n c w args kw a : st_dim_constr sym n = Some c -> Args sym true w args kw ->
      ~ Next KRBk a -> ArgsEnd w a -> Fault ((KLower, VStr n) :: tok KLBk :: w) a MClosing
  (* "Expected at least one type constructor argument" *)
  | F_none n c j a : st_dtype_constr sym n = Some c -> Junk sym j -> Next KRBk a ->
      Fault ((KLower, VStr n) :: tok KLBk :: j) a MNoArgument
  (* "Invalid type constructor argument" *)
  | F_bad n c w args kw a : st_dtype_constr sym n = Some c -> Args sym true w args kw ->
      ~ Next KRBk a -> ArgsEnd w a -> Fault ((KLower, VStr n) :: tok KLBk :: w) a MBadArgument
  (* "Expected another keyword argument, positional arguments cannot follow keyword arguments" *)
  | F_keyword w kw a : Kwargs sym true w kw -> ~ NextKeyword a ->
      Fault (w ++ [tok KComma]) a MKeyword
  (* "Expected a type constructor argument or a closing ]": in a list argument *)
  | F_list_start j a : Missing j a -> ~ Next KInt (j ++ a) -> ~ Next KStr (j ++ a) ->
      ~ Next KBool (j ++ a) -> ~ Next KRBk (j ++ a) -> Fault [tok KLBk] (j ++ a) MListArgument
  (* "Expected a "," or a closing ]" *)
  | F_list_end w l a : ListArg sym true w l -> l <> [] -> ~ Next KComma a -> ~ Next KRBk a ->
      Fault (tok KLBk :: w) a MListSeparator
  (* "Expected a type constructor argument", of a keyword *)
  | F_argument n j a : NoArgument j a -> Fault ((KLower, VStr n) :: tok KEq :: j) a MArgument
  (* "Expected another datashape, type constructor parameter lists must have uniform type" *)
  | F_another_datashape w l j a : Items sym true w l -> Missing j a ->
      Fault (tok KLBk :: w ++ tok KComma :: j) a MAnotherDatashape
  (* the same with integer, string, boolean *)
  | F_another_integer w l a : LiteralList KInt w l -> ~ Next KInt a ->
      Fault (tok KLBk :: w ++ [tok KComma]) a MAnotherInteger
  | F_another_string w l a : LiteralList KStr w l -> ~ Next KStr a ->
      Fault (tok KLBk :: w ++ [tok KComma]) a MAnotherString
  | F_another_boolean w l a : LiteralList KBool w l -> ~ Next KBool a ->
      Fault (tok KLBk :: w ++ [tok KComma]) a MAnotherBoolean
  (* "Invalid field in struct": neither the end of the struct nor a field; after a field, neither
     the end nor a comma *)
  | F_field_name w a : w = [] \/ (exists w' fs, Fields sym true w' fs /\ w = w' ++ [tok KComma]) ->
      ~ NextName a -> ~ Next KRBc a -> Fault (tok KLBc :: w) a MField
  | F_field_end w fs a : Fields sym true w fs -> ~ Next KComma a -> ~ Next KRBc a ->
      Fault (tok KLBc :: w) a MField
  (* "Expected a ":" separating the field name from its datashape" *)
  | F_colon f n a : FieldName f n -> ~ Next KColon a -> Fault [f] a MColon
  (* "Expected the datashape of the field" *)
  | F_field_datashape f n j a : FieldName f n -> Missing j a ->
      Fault (f :: tok KColon :: j) a MFieldDatashape
  (* "Invalid datashape in tuple": at the beginning, after a comma, after an item *)
  | F_tuple_start j a : Missing j a -> ~ Next KRP (j ++ a) -> Fault [tok KLP] (j ++ a) MTuple
  | F_tuple_comma w l j a : Items sym true w l -> Missing j a -> ~ Next KRP a ->
      Fault (tok KLP :: w ++ tok KComma :: j) a MTuple
  | F_tuple_end w l a : Items sym true w l -> ~ Next KComma a -> ~ Next KRP a ->
      Fault (tok KLP :: w) a MTuple
  (* "Expected function prototype return datashape" *)
  | F_return w l j a : TupleType sym true w l -> Missing j a ->
      Fault (w ++ tok KArrow :: j) a MReturn.

  (** for the tokens of a whole text: [before] and [after] the place reported *)
  Inductive TextFault : word -> word -> synmsg -> Prop :=
  | TF_inside b w a m : Fault w a m -> TextFault (b ++ w) a m
  (* "Invalid datashape": no datashape begins *)
  | TF_invalid j a : Missing j a -> TextFault j a MInvalid
  (* "Unexpected token in datashape": a datashape, and more behind it *)
  | TF_unexpected w t a : DS sym true w t -> a <> [] -> TextFault w a MUnexpected.
End Faults.

(** [Place s p b a]: [p] is the place in [s] between the tokens [b] and [a]: the beginning of the
    first token of [a], or the end of the text's last token *)
Definition Place (s : str) (p : nat) (b a : word) : Prop :=
  exists tb ta, fst (lex s) = tb ++ ta /\ map kv tb = b /\ map kv ta = a /\
    match ta with
    | t :: _ => p = tk_start t
    | [] => snd (lex s) = None /\ EndOf (fst (lex s)) p
    end.

(** The syntax error with message [m] at [p] is true of the text [u], which is [s] or an inner
    text of [s] (a string literal that a constructor read as a datashape, to any depth). *)
Inductive Within (s : str) : str -> Prop :=
| W_self : Within s s
| W_inner u v : Inner (fst (lex s)) u -> Within u v -> Within s v.
Definition Explains (sym : symtab) (u : str) (p : nat) (m : synmsg) : Prop :=
  (* "Invalid DataShape token": the lexer stops there *)
  (m = MToken /\ snd (lex u) = Some (SyntaxErr p MToken)) \/
  (exists b a, Place u p b a /\ TextFault sym b a m).

(** ** The same for the words of the message. [Complaint sym b a text]: [text] says what is wrong
    between the tokens [b] and [a]. *)
Definition Complaint (sym : symtab) (b a : word) (text : str) : Prop :=
  exists m, TextFault sym b a m /\
  match m with
  | MDimOrDtype => text = $"Expected a dim or a dtype"
  | MClosing => text = $"Expected a closing ""]"""
  | MNoArgument => text = $"Expected at least one type constructor argument"
  | MBadArgument => text = $"Invalid type constructor argument"
  | MKeyword => text = $"Expected another keyword argument, positional arguments cannot follow keyword arguments"
  | MListArgument => text = $"Expected a type constructor argument or a closing ""]"""
  | MListSeparator => text = $"Expected a "","" or a closing ""]"""
  | MArgument => text = $"Expected a type constructor argument"
  | MAnotherDatashape => text = $"Expected another datashape, type constructor parameter lists must have uniform type"
  | MAnotherInteger => text = $"Expected another integer, type constructor parameter lists must have uniform type"
  | MAnotherBoolean => text = $"Expected another boolean, type constructor parameter lists must have uniform type"
  | MAnotherString => text = $"Expected another string, type constructor parameter lists must have uniform type"
  | MField => text = $"Invalid field in struct"
  | MColon => text = $"Expected a "":"" separating the field name from its datashape"
  | MFieldDatashape => text = $"Expected the datashape of the field"
  | MTuple => text = $"Invalid datashape in tuple"
  | MReturn => text = $"Expected function prototype return datashape"
  | MInvalid => text = $"Invalid datashape"
  | MUnexpected => text = $"Unexpected token in datashape"
  | MToken | MMissing _ _ => False
  end.
(** [str] of the exception: the line of [u] with the place [p], a caret, and the message *)
Definition Shown (u : str) (p : nat) (text shown : str) : Prop :=
  exists line start before, LineAt u line before start /\ (start <= p <= start + length before)%nat /\
    shown = [10; 10]%N ++ $"  File <nofile>, line " ++ n2s (N.of_nat line) ++ [10%N] ++
      $"    " ++ before ++ [10%N] ++ $"    " ++ repeat 32%N (p - start) ++ $"^" ++ [10%N] ++ [10%N] ++
      $"DataShapeSyntaxError: " ++ text ++ [10%N].
