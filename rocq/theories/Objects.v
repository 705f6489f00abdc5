(** Datashape objects as Python objects: the sequence protocol, rebuilding from the
    parameters, [repr], [dshape] on any object, [str] of a syntax error, type sets as sets. *)
From Verif Require Import Base Types Lexer Printer Construct Parser Ops Preds Numpy User.
Local Open Scope Z_scope.

(** ** [t[i]] for an int: Mono.__getitem__ coretypes.py:111-112, DataShape.__getitem__
    :571-572, Record.__getitem__ :1086-1087 (a lookup in a dict with string keys) *)
Definition py_getitem (t : ty) (i : Z) : res ty :=
  match t with
  | DataShapeT _ ps => py_nth ps i
  | RecordT _ => Raise KeyErr
  | _ => py_nth [t] i
  end.
(** [t[a:b:c]] gives a tuple (DataShape) or a list of objects; in a Record, :1086-1087, the
    slice is a key of a dict and cannot be hashed (Python before 3.12). *)
Definition py_getslice (t : ty) (a b c : option Z) : res (list ty) :=
  match t with
  | DataShapeT _ ps => py_slice ps a b c
  | RecordT _ => Raise TypeErr
  | _ => py_slice [t] a b c
  end.

(** ** [type(t)( *t.parameters)], "Each type must be reconstructable using its parameters",
    coretypes.py:62-68, with the constructors of Construct.v. [reg] is the registry in which
    CType.__init__ :757-761 enters the new object. Categorical.__init__ :1110-1113 with a
    type. Calling TypeSet on its own parameters makes a set of a tuple and a string, which is
    not modelled. *)
Definition rebuild (U : uni) (reg : registry ty) (t : ty) : res ty :=
  match t with
  | CType n i a => let! _ := reg_register ty n t reg in Ok t
  | TimeDeltaT u => mk_timedelta u
  | UnitsT u tp => mk_units u (Some tp)
  | StringT f e => mk_string f (Some e)
  | FixedT v => mk_fixed v
  | TypeVarT s => mk_typevar U s
  | DataShapeT _ ps => mk_datashape no_dsh None (map PTy ps)
  | OptionT u => mk_option no_dsh (PTy u)
  | MapT k v => mk_map no_dsh (PTy k) (PTy v)
  | RecordT fs => mk_record no_dsh (map (fun f => (fst f, PTy (snd f))) fs)
  | CategoricalT c u o => Ok (CategoricalT c (measure u) o)
  | TupleT ds => mk_tuple no_dsh (map PTy ds)
  | TypeSetT _ _ => Raise NotModelled
  | NullT | BytesT | DateT | JSONT | VarT | TimeT _ | DateTimeT _ | DecimalT _ _ | EllipsisT _
  | FunctionT _ => Ok t
  end.

(** ** [dshape(o)] for any object, util/__init__.py:31-56, and [dshapes], :22-28 *)
Inductive dsarg := AStr (s : str) | ATy (t : ty) | AList (l : list parg) | AOther.
Definition dshape_any (E : env) (o : dsarg) : res ty :=
  match o with
  | AStr s => dshape E s
  | ATy t => dshape_ty t
  | AList l => dshape_list E l
  | AOther => Raise TypeErr
  end.
Definition dshapes (E : env) (l : list dsarg) : res (list ty) := mapM (dshape_any E) l.

(** ** [str] of a DataShapeSyntaxError, error.py:3-10, 34-44 *)
Definition nls : str := [10%N].
Definition err_str (filename msg : str) (e : syntax_error) : str :=
  nls ++ nls ++ $"  File " ++ filename ++ $", line " ++ n2s (N.of_nat (err_lineno e)) ++ nls
  ++ $"    " ++ err_line e ++ nls
  ++ $"    " ++ repeat 32%N (Z.to_nat (err_col e)) ++ $"^" ++ nls
  ++ nls ++ $"DataShapeSyntaxError: " ++ msg ++ nls.

(** the texts of the messages, parser.py:121, 167, 232, 300, 305, 349, 389, 392, 416, 426, 449, 472,
    495, 514, 541, 546, 572, 584, 608, 612, lexer.py:98 *)
Definition uniform (what : str) : str :=
  $"Expected another " ++ what ++ $", type constructor parameter lists must have uniform type".
Definition msg_text (m : synmsg) : str :=
  match m with
  | MToken => $"Invalid DataShape token"
  | MMissing name what => $"Symbol table missing """ ++ name ++ $""" entry for " ++ what
  | MDimOrDtype => $"Expected a dim or a dtype"
  | MClosing => $"Expected a closing ""]"""
  | MNoArgument => $"Expected at least one type constructor argument"
  | MBadArgument => $"Invalid type constructor argument"
  | MKeyword => $"Expected another keyword argument, positional arguments cannot follow keyword arguments"
  | MListArgument => $"Expected a type constructor argument or a closing ""]"""
  | MListSeparator => $"Expected a "","" or a closing ""]"""
  | MArgument => $"Expected a type constructor argument"
  | MAnotherDatashape => uniform $"datashape"
  | MAnotherInteger => uniform $"integer"
  | MAnotherBoolean => uniform $"boolean"
  | MAnotherString => uniform $"string"
  | MField => $"Invalid field in struct"
  | MColon => $"Expected a "":"" separating the field name from its datashape"
  | MFieldDatashape => $"Expected the datashape of the field"
  | MTuple => $"Invalid datashape in tuple"
  | MReturn => $"Expected function prototype return datashape"
  | MInvalid => $"Invalid datashape"
  | MUnexpected => $"Unexpected token in datashape"
  end.
(** [str] of the exception that [raise_error] builds for the text [text], parser.py:56-58 *)
Definition syntax_str (text : str) (p : nat) (m : synmsg) : str :=
  err_str $"<nofile>" (msg_text m) (mk_syntax_error p text).

(** ** [repr] *)

(** [s.encode('unicode_escape').decode('ascii')] *)
Definition unicode_escape_char (c : char) : str :=
  (if N.eqb c bsl then [bsl; bsl]
   else if N.eqb c 9 then [bsl; 116]
   else if N.eqb c 10 then [bsl; 110]
   else if N.eqb c 13 then [bsl; 114]
   else if (32 <=? c) && (c <? 127) then [c]
   else if c <? 256 then bsl :: 120 :: hexn 2 c
   else if c <? 65536 then bsl :: 117 :: hexn 4 c
   else bsl :: 85 :: hexn 8 c)%N.
Definition unicode_escape (s : str) : str := flat_map unicode_escape_char s.

(** the text [s] between double quotes, three of them if it has a newline *)
Definition in_quotes (s : str) : str :=
  let q := if existsb (N.eqb 10) s then [dq; dq; dq] else [dq] in q ++ s ++ q.
Definition repr_opt (U : uni) (o : option str) : str :=
  match o with None => $"None" | Some s => repr_str U s end.
(** Mono :114-124, Ellipsis :204, String :419, DataShape :577, CType :820,
    CollectionPrinter :943 (Record, Tuple), Categorical :1123, TypeSet typesets.py:48-51
    (the unnamed TypeSet, which prints a set, is not modelled) *)
Fixpoint py_repr (U : uni) (t : ty) : str :=
  match t with
  | CType _ _ _ | StringT _ _ => $"ctype(" ++ [dq] ++ unicode_escape (py_str U t) ++ [dq] ++ $")"
  | NullT => $"Null()"
  | BytesT => $"Bytes()"
  | DateT => $"Date()"
  | JSONT => $"JSON()"
  | VarT => $"Var()"
  | TimeT z => $"Time(tz=" ++ repr_opt U z ++ $")"
  | DateTimeT z => $"DateTime(tz=" ++ repr_opt U z ++ $")"
  | TimeDeltaT u => $"TimeDelta(unit=" ++ repr_str U u ++ $")"
  | UnitsT u tp => $"Units(unit=" ++ repr_str U u ++ $", tp=" ++ py_repr U tp ++ $")"
  | DecimalT p s => $"Decimal(precision=" ++ z2s p ++ $", scale=" ++ z2s s ++ $")"
  | FixedT v => $"Fixed(val=" ++ z2s v ++ $")"
  | TypeVarT s => $"TypeVar(symbol=" ++ repr_str U s ++ $")"
  | EllipsisT _ => $"Ellipsis(" ++ repr_str U (py_str U t) ++ $")"
  | DataShapeT _ _ => $"dshape(" ++ in_quotes (pprint U t 80) ++ $")"
  | OptionT u => $"Option(ty=" ++ py_repr U u ++ $")"
  | FunctionT ps => $"Function(" ++ join $", " (map (py_repr U) ps) ++ $")"
  | MapT k v => $"Map(key=" ++ py_repr U k ++ $", value=" ++ py_repr U v ++ $")"
  | RecordT _ | TupleT _ => $"dshape(" ++ in_quotes (py_str U t) ++ $")"
  | CategoricalT c u o =>
      $"Categorical(categories=" ++ format_categories U c ++ $", type=" ++ py_repr U u
        ++ $", ordered=" ++ bool_str o ++ $")"
  | TypeSetT _ (Some (c :: n)) => $"{" ++ (c :: n) ++ $"}"
  | TypeSetT _ _ => []
  end.

(** ** Type sets as sets, typesets.py:17-61. [t in a] is [in_typeset] of Numpy.v, [len(a)] is
    [py_len] of Preds.v, [iter(a)] is [py_iter] of Numpy.v, [a == b] is [py_eq]. *)
(** [a | b], :53-54: an unnamed TypeSet of the chained elements; [b] is any iterable datashape *)
Definition ts_or (a b : ty) : res ty :=
  match a with
  | TypeSetT _ _ => let! xs := py_iter a in let! ys := py_iter b in Ok (TypeSetT (xs ++ ys) None)
  | _ => Raise TypeErr
  end.
(** TypeSet.__init__, :24-28, and TypesetRegistry.register_typeset :90-95: a non-empty name is
    entered unless it is there already *)
Definition ts_new (l : list ty) (name : option str) (reg : registry ty) : res (ty * registry ty) :=
  let t := TypeSetT l name in
  match name with
  | Some ((_ :: _) as n) =>
      match assoc n reg with
      | Some _ => Raise TypeErr
      | None => Ok (t, reg_set ty n t reg)
      end
  | _ => Ok (t, reg)
  end.
(** a history of constructions; one that raises leaves the registry as it is *)
Definition ts_run (h : list (list ty * option str)) (reg : registry ty) : registry ty :=
  fold_left (fun r p => match ts_new (fst p) (snd p) r with Ok (_, r') => r' | Raise _ => r end) h reg.
(** TypesetRegistry.__getitem__, :97-101 *)
Definition ts_getitem (k : str) (reg : registry ty) : res ty :=
  match assoc k reg with Some t => Ok t | None => Raise KeyErr end.

(** ** [issubschema] on any objects, user.py:86-98. The dispatcher selects the second definition
    for two DataShapes and the first otherwise, which calls the dispatcher again. [n] bounds the
    depth of the calls; [OutOfFuel] is Python's RecursionError. True or None. *)
Fixpoint issubschema_any (E : env) (n : nat) (a b : dsarg) : res bool :=
  match n with
  | O => Raise OutOfFuel
  | S n' =>
      match a, b with
      | ATy ((DataShapeT _ _) as x), ATy ((DataShapeT _ _) as y) => Ok (issubschema x y)
      | _, _ => let! x := dshape_any E a in let! y := dshape_any E b in
                issubschema_any E n' (ATy x) (ATy y)
      end
  end.
