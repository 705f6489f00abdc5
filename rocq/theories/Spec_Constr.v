(** Specification for C63: the type constructors of the language ([name[arguments]]), their
    signatures, how arguments are matched to parameters, and what each constructor builds.
    Independent of the definitions in Construct.v that do it. *)
From Verif Require Import Base Types Lexer Printer Construct Spec_Time.
Local Open Scope Z_scope.

(** ** Names without arguments *)
Definition c_type (n : str) (size align : Z) : ty := CType n size align.
Definition plain_types : list (str * ty) :=
  [ ($"bool", c_type $"bool" 1 1);
    ($"int8", c_type $"int8" 1 1); ($"int16", c_type $"int16" 2 2);
    ($"int32", c_type $"int32" 4 4); ($"int", c_type $"int32" 4 4);
    ($"int64", c_type $"int64" 8 8); ($"intptr", c_type $"int64" 8 8);
    ($"uint8", c_type $"uint8" 1 1); ($"uint16", c_type $"uint16" 2 2);
    ($"uint32", c_type $"uint32" 4 4);
    ($"uint64", c_type $"uint64" 8 8); ($"uintptr", c_type $"uint64" 8 8);
    ($"float16", c_type $"float16" 2 2); ($"float32", c_type $"float32" 4 4);
    ($"float64", c_type $"float64" 8 8); ($"real", c_type $"float64" 8 8);
    ($"complex64", c_type $"complex[float32]" 8 4);
    ($"complex128", c_type $"complex[float64]" 16 8); ($"complex", c_type $"complex[float64]" 16 8);
    ($"string", StringT None $"U8"); ($"json", JSONT);
    ($"date", DateT); ($"time", TimeT None); ($"datetime", DateTimeT None);
    ($"timedelta", TimeDeltaT $"us"); ($"null", NullT);
    ($"void", c_type $"void" 0 1); ($"object", c_type $"object" 8 8) ].
Definition plain_dims : list (str * ty) := [ ($"var", VarT); ($"ellipsis", EllipsisT None) ].

(** ** Signatures: parameter names, [true] for the required ones. [string] takes one or two
    positional arguments without names and is treated apart. *)
Definition signatures : list (str * list (str * bool)) :=
  [ ($"complex", [($"tp", true)]);
    ($"struct", [($"names", true); ($"dshapes", true)]);
    ($"tuple", [($"dshapes", true)]);
    ($"funcproto", [($"args", true); ($"ret", true)]);
    ($"typevar", [($"name", true)]);
    ($"option", [($"ds", true)]);
    ($"map", [($"key", true); ($"value", true)]);
    ($"time", [($"tz", false)]);
    ($"datetime", [($"tz", false)]);
    ($"timedelta", [($"unit", false)]);
    ($"units", [($"unit", true); ($"tp", false)]);
    ($"decimal", [($"precision", true); ($"scale", false)]);
    ($"categorical", [($"categories", true); ($"type", false); ($"ordered", false)]) ].

(** [Bound ps args kw b]: the call with positional arguments [args] and keyword arguments [kw]
    fits the parameters [ps]; [b] gives the argument of each, None where its default is used *)
Record Bound (ps : list (str * bool)) (args : list targ) (kw : list (str * targ)) (b : list (option targ)) : Prop := {
  B_length : length b = length ps;
  (* positional arguments go to the first parameters *)
  B_not_too_many : (length args <= length ps)%nat;
  B_positional : forall i a, nth_error args i = Some a -> nth_error b i = Some (Some a);
  (* a keyword names one of the other parameters *)
  B_keyword : forall n a, In (n, a) kw -> exists i r, nth_error ps i = Some (n, r) /\ (length args <= i)%nat /\
    nth_error b i = Some (Some a);
  (* what is given neither way is optional *)
  B_default : forall i n r, nth_error ps i = Some (n, r) -> (length args <= i)%nat -> ~ In n (map fst kw) ->
    r = false /\ nth_error b i = Some None }.

(** [kwd]: keyword arguments in which the last value given for a name counts *)
Definition Latest (kw kwd : list (str * targ)) : Prop :=
  NoDup (map fst kwd) /\
  forall n a, In (n, a) kwd <-> exists p q, kw = p ++ (n, a) :: q /\ ~ In n (map fst q).

Section Meaning.
  Variable E : env.
  (** reading of strings given where a type is expected *)
  Variable dsh : str -> res ty.

  (** a datashape that is just a type counts as that type *)
  Inductive Unwrap : ty -> ty -> Prop :=
  | UW_single n t : Unwrap (DataShapeT n [t]) t
  | UW_other t : (forall n u, t <> DataShapeT n [u]) -> Unwrap t t.
  (** an argument used as a type: integers (True is 1) are fixed dimensions, strings are read *)
  Inductive AsType : targ -> ty -> Prop :=
  | AT_int z : 0 <= z -> AsType (AInt z) (FixedT z)
  | AT_bool b : AsType (ABool b) (FixedT (if b then 1 else 0))
  | AT_str s t u : dsh s = Ok t -> Unwrap t u -> AsType (AStr s) u
  | AT_ds t u : Unwrap t u -> AsType (ADs t) u.
  (** iterating over an argument *)
  Inductive Elements : targ -> list targ -> Prop :=
  | EL_list l : Elements (AList l) l
  | EL_chars s : Elements (AStr s) (map (fun c => AStr [c]) s)
  | EL_parameters n ps : Elements (ADs (DataShapeT n ps)) (map ADs ps)
  | EL_type t : (forall n ps, t <> DataShapeT n ps) -> (forall fs, t <> RecordT fs) -> (forall ts n, t <> TypeSetT ts n) ->
      Elements (ADs t) [ADs t].
  (** its text *)
  Inductive AsText : targ -> str -> Prop :=
  | TX_str s : AsText (AStr s) s
  | TX_int z : AsText (AInt z) (z2s z)
  | TX_bool b : AsText (ABool b) (if b then $"True" else $"False")
  | TX_ds t : AsText (ADs t) (py_str (e_uni E) t).
  Definition Falsy (a : targ) : Prop :=
    a = AInt 0 \/ a = ABool false \/ a = AStr [] \/ a = AList [].
  (** an upper-case letter; beyond ASCII whatever Python's [isupper] says *)
  Definition UpperLetter (c : char) : Prop :=
    In c $"ABCDEFGHIJKLMNOPQRSTUVWXYZ" \/ (128 <= c)%N /\ e_upper (e_uni E) c = true.
  (** the names of an encoding *)
  Inductive Encoding : str -> str -> Prop :=
  | EN_ascii n : In n [$"A"; $"ascii"] -> Encoding n $"A"
  | EN_utf8 n : In n [$"U8"; $"utf-8"; $"utf_8"; $"utf8"; []] -> Encoding n $"U8"
  | EN_utf16 n : In n [$"U16"; $"utf-16"; $"utf_16"; $"utf16"] -> Encoding n $"U16"
  | EN_utf32 n : In n [$"U32"; $"utf-32"; $"utf_32"; $"utf32"] -> Encoding n $"U32".
  Inductive AsLiteral : targ -> pylit -> Prop :=
  | AL_int z : AsLiteral (AInt z) (LInt z)
  | AL_bool b : AsLiteral (ABool b) (LBool b)
  | AL_str s : AsLiteral (AStr s) (LStr s).
  (** a type that can be an item of a tuple: kept if it is a datashape, else made one *)
  Inductive TupleItem : targ -> ty -> Prop :=
  | TI_ds n ps : TupleItem (ADs (DataShapeT n ps)) (DataShapeT n ps)
  | TI_measure t : (forall n ps, t <> DataShapeT n ps) -> may_be_measure t = true ->
      TupleItem (ADs t) (DataShapeT None [t]).
  (** names paired with types, the shorter list deciding *)
  Inductive Pairs : list targ -> list targ -> list (str * ty) -> Prop :=
  | PR_left l : Pairs [] l []
  | PR_right l : Pairs l [] []
  | PR_cons a l d m n t fs : AsText a n -> AsType d t -> Pairs l m fs ->
      Pairs (a :: l) (d :: m) ((n, t) :: fs).

  (** What the constructor [name] builds from the arguments of its parameters *)
  Inductive Meaning : str -> list (option targ) -> ty -> Prop :=
  | M_complex64 t : py_eq t (DataShapeT None [c_type $"float32" 4 4]) = true ->
      Meaning $"complex" [Some (ADs t)] (c_type $"complex[float32]" 8 4)
  | M_complex128 t : py_eq t (DataShapeT None [c_type $"float32" 4 4]) = false ->
      py_eq t (DataShapeT None [c_type $"float64" 8 8]) = true ->
      Meaning $"complex" [Some (ADs t)] (c_type $"complex[float64]" 16 8)
  | M_struct a b l m fs : Elements a l -> Elements b m -> Pairs l m fs -> NoDup (map fst fs) ->
      Meaning $"struct" [Some a; Some b] (RecordT fs)
  | M_tuple a l ts : Elements a l -> Forall2 TupleItem l ts -> Meaning $"tuple" [Some a] (TupleT ts)
  | M_funcproto a l ts r : Elements a l -> l = map ADs ts ->
      Meaning $"funcproto" [Some a; Some (ADs r)] (FunctionT (ts ++ [r]))
  | M_typevar c s : UpperLetter c -> Meaning $"typevar" [Some (AStr (c :: s))] (TypeVarT (c :: s))
  | M_option a t : AsType a t -> Meaning $"option" [Some a] (OptionT t)
  | M_map a b k v : AsType a k -> AsType b v -> Meaning $"map" [Some a; Some b] (MapT k v)
  | M_time : Meaning $"time" [None] (TimeT None)
  | M_time_tz s : Meaning $"time" [Some (AStr s)] (TimeT (Some s))
  | M_datetime : Meaning $"datetime" [None] (DateTimeT None)
  | M_datetime_tz s : Meaning $"datetime" [Some (AStr s)] (DateTimeT (Some s))
  | M_timedelta : Meaning $"timedelta" [None] (TimeDeltaT $"us")
  | M_timedelta_unit a s u : AsText a s -> UnitOf s u -> Meaning $"timedelta" [Some a] (TimeDeltaT u)
  | M_units s : Meaning $"units" [Some (AStr s); None] (UnitsT s (DataShapeT None [c_type $"float64" 8 8]))
  | M_units_tp s n ps : Meaning $"units" [Some (AStr s); Some (ADs (DataShapeT n ps))] (UnitsT s (DataShapeT n ps))
  | M_decimal p : Meaning $"decimal" [Some (AInt p); None] (DecimalT p 0)
  | M_decimal_scale p s : Meaning $"decimal" [Some (AInt p); Some (AInt s)] (DecimalT p s)
  | M_categorical a l lits type ordered t o : Elements a l -> Forall2 AsLiteral l lits ->
      (* the type given, or else the one discovered from the categories *)
      match type with
      | Some (ADs d) => t = measure d
      | Some x => Falsy x /\ exists d, e_disc E lits = Ok d /\ t = measure d
      | None => exists d, e_disc E lits = Ok d /\ t = measure d
      end ->
      ordered = None /\ o = false \/ ordered = Some (ABool o) ->
      Meaning $"categorical" [Some a; type; ordered] (CategoricalT lits t o).

  (** [string[...]]: a length, an encoding, or both *)
  Inductive StringMeaning : list targ -> ty -> Prop :=
  | SM_none : StringMeaning [] (StringT None $"U8")
  | SM_length z : StringMeaning [AInt z] (StringT (Some z) $"U8")
  | SM_encoding s c : Encoding s c -> StringMeaning [AStr s] (StringT None c)
  | SM_both z s c : Encoding s c -> StringMeaning [AInt z; AStr s] (StringT (Some z) c)
  | SM_falsy z a : Falsy a -> StringMeaning [AInt z; a] (StringT (Some z) $"U8").
End Meaning.
