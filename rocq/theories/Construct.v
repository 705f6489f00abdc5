(** Constructors of datashape objects: [_launder], [DataShape], [Record], [Tuple],
    ..., [normalize_time_unit] (coretypes.py) and the type constructors of the
    symbol table (type_symbol_table.py). *)
From Verif Require Import Base Types Lexer Printer.
Local Open Scope Z_scope.

(** ** normalize_time_unit, coretypes.py:268-305 *)

(** [s.rstrip('s')] for a class of characters *)
Definition rstrip (p : char -> bool) (s : str) : str := rev (drop_while p (rev s)).
(** [s.strip()] *)
Definition strip (s : str) : str := rstrip is_space (drop_while is_space s).

(** [_unit_aliases], coretypes.py:271-281 *)
Definition unit_aliases : list (str * str) :=
  [ ($"year", $"Y"); ($"week", $"W"); ($"day", $"D"); ($"date", $"D"); ($"hour", $"h");
    ($"second", $"s"); ($"millisecond", $"ms"); ($"microsecond", $"us");
    ($"nanosecond", $"ns") ].

(** coretypes.py:284-305. [s[-1]] raises IndexError on the empty string. *)
Fixpoint normalize_time_unitF (n : nat) (s0 : str) : res str :=
  match n with
  | O => Raise OutOfFuel
  | S n' =>
    let s := strip s0 in
    if mem_str s time_units then Ok s
    else match assoc s unit_aliases with
         | Some u => Ok u
         | None =>
             match last_opt s with
             | None => Raise IndexErr
             | Some c =>
                 if N.eqb c 115 && Nat.ltb 2 (length s)
                 then normalize_time_unitF n' (rstrip (N.eqb 115) s)
                 else Raise ValueErr
             end
         end
  end.
Definition normalize_time_unit (s : str) : res str := normalize_time_unitF (S (length s)) s.

(** ** String.__init__, coretypes.py:383-406 *)

(** [_canonical_string_encodings], coretypes.py:353-368 *)
Definition string_encodings : list (str * str) :=
  [ ($"A", $"A"); ($"ascii", $"A");
    ($"U8", $"U8"); ($"utf-8", $"U8"); ($"utf_8", $"U8"); ($"utf8", $"U8");
    ($"U16", $"U16"); ($"utf-16", $"U16"); ($"utf_16", $"U16"); ($"utf16", $"U16");
    ($"U32", $"U32"); ($"utf-32", $"U32"); ($"utf_32", $"U32"); ($"utf32", $"U32") ].

(** [String(fixlen, encoding)] with [encoding] a str or None *)
Definition mk_string (fixlen : option Z) (encoding : option str) : res ty :=
  let e := match encoding with None | Some [] => $"U8" | Some e => e end in
  match assoc e string_encodings with
  | Some c => Ok (StringT fixlen c)
  | None => Raise ValueErr
  end.

(** ** Objects accepted where a type is expected *)
Inductive parg :=
| PInt (z : Z)
| PStr (s : str)
| PTy (t : ty)
| POther.            (* any other Python object *)

(** Fixed.__init__, coretypes.py:833-840 *)
Definition mk_fixed (z : Z) : res ty := if z <? 0 then Raise ValueErr else Ok (FixedT z).

Section WithDshape.
  (** [datashape.dshape] on strings; the parser ties the knot (Parser.v) *)
  Variable dsh : str -> res ty.

  (** the last two tests of [_launder] on a Mono *)
  Definition launder_ty (t : ty) : ty :=
    match t with DataShapeT _ [x] => x | _ => t end.

  (** [_launder], coretypes.py:916-938 *)
  Definition launder (x : parg) : res ty :=
    match x with
    | PInt z => mk_fixed z
    | PStr s => let! t := dsh s in Ok (launder_ty t)
    | PTy t => Ok (launder_ty t)
    | POther => Raise TypeErr
    end.

  (** DataShape.__init__, coretypes.py:542-566, after laundering *)
  Definition check_datashape (name : option str) (ps : list ty) : res ty :=
    if negb (may_be_measure (last ps NullT)) then Raise TypeErr
    else if forallb may_be_dim (removelast ps) then Ok (DataShapeT name ps)
    else Raise TypeErr.
  Definition mk_datashape (name : option str) (l : list parg) : res ty :=
    match l with
    | [PStr _] => Raise TypeErr
    | [] => Raise ValueErr
    | _ => let! ps := mapM launder l in check_datashape name ps
    end.

  (** Option.__init__ :729, Map.__init__ :903 *)
  Definition mk_option (x : parg) : res ty := let! t := launder x in Ok (OptionT t).
  Definition mk_map (k v : parg) : res ty :=
    let! k' := launder k in let! v' := launder v in Ok (MapT k' v').

  (** Record.__init__, coretypes.py:1040-1061; a name that is not a string is
      replaced by its [str], which the model takes as given. *)
  Definition mk_record (fields : list (str * parg)) : res ty :=
    let! types := mapM (fun f => launder (snd f)) fields in
    let names := map fst fields in
    if nodup_str names then Ok (RecordT (combine names types)) else Raise ValueErr.

  (** Tuple.__init__, coretypes.py:1140-1149 *)
  Definition tuple_item (x : parg) : res ty :=
    match x with
    | PTy t => if is_DataShape t then Ok t else mk_datashape None [x]
    | _ => mk_datashape None [x]
    end.
  Definition mk_tuple (l : list parg) : res ty :=
    let! ds := mapM tuple_item l in Ok (TupleT ds).
End WithDshape.

(** DataShape of Mono objects only (no strings involved) *)
Definition no_dsh (s : str) : res ty := Raise NotModelled.
Definition mk_ds (ps : list ty) : res ty := mk_datashape no_dsh None (map PTy ps).

(** Time.__init__ :230, DateTime.__init__ :250, TimeDelta.__init__ :312 *)
Definition mk_timedelta (s : str) : res ty :=
  let! u := normalize_time_unit s in Ok (TimeDeltaT u).
(** Units.__init__ :327-337 *)
Definition mk_units (unit : str) (tp : option ty) : res ty :=
  match tp with
  | None => Ok (UnitsT unit (DataShapeT None [float64_t]))
  | Some t => if is_DataShape t then Ok (UnitsT unit t) else Raise TypeErr
  end.
(** TypeVar.__init__ :873-877 *)
Definition isupper (U : uni) (c : char) : bool :=
  if (c <? 128)%N then is_upper c else e_upper U c.
Definition mk_typevar (U : uni) (s : str) : res ty :=
  match s with
  | [] => Raise IndexErr
  | c :: _ => if isupper U c then Ok (TypeVarT s) else Raise ValueErr
  end.
(** [_ellipsis], type_symbol_table.py:50-51 *)
Definition mk_ellipsis (U : uni) (s : str) : res ty :=
  let! t := mk_typevar U s in Ok (EllipsisT (Some s)).

(** ** The ctypes, coretypes.py:1172-1281 (64-bit Linux sizes and alignments) *)
Definition ct (n : str) (i : Z) (a : Z) := CType n i a.
Definition bool_t := CType $"bool" 1 1.
Definition char_t := CType $"char" 1 1.
Definition int8_t := CType $"int8" 1 1.
Definition int16_t := CType $"int16" 2 2.
Definition int32_t := CType $"int32" 4 4.
Definition int64_t := CType $"int64" 8 8.
Definition uint8_t := CType $"uint8" 1 1.
Definition uint16_t := CType $"uint16" 2 2.
Definition uint32_t := CType $"uint32" 4 4.
Definition uint64_t := CType $"uint64" 8 8.
Definition float16_t := CType $"float16" 2 2.
Definition float32_t := CType $"float32" 4 4.
Definition complex64_t := CType $"complex[float32]" 8 4.
Definition complex128_t := CType $"complex[float64]" 16 8.
Definition void_t := CType $"void" 0 1.
Definition object_t := CType $"object" 8 8.
Definition string_t := StringT None $"U8".

(** ** Arguments of type constructors inside brackets (parser.py:320-416) *)
Inductive targ :=
| AInt (z : Z)
| ABool (b : bool)
| AStr (s : str)
| ADs (t : ty)
| AList (l : list targ).

(** environment of the constructors: Unicode properties and [discover] on a tuple
    of literals (discovery.py), used by Categorical without a type *)
Record env := { e_uni : uni; e_disc : list pylit -> res ty }.

(** Binding of Python call arguments to parameters [(name, required)]. The result
    gives the value of each parameter, None when its default is used. *)
Fixpoint bind_kw (params : list (str * bool)) (kw : list (str * targ)) : res (list (option targ)) :=
  match params with
  | [] => Ok []
  | (n, req) :: r =>
      match assoc n kw with
      | None => if req then Raise TypeErr
                else let! t := bind_kw r kw in Ok (None :: t)
      | Some v => let! t := bind_kw r kw in Ok (Some v :: t)
      end
  end.
Fixpoint bind_pos (params : list (str * bool)) (args : list targ) (kw : list (str * targ))
  : res (list (option targ)) :=
  match args with
  | [] => bind_kw params kw
  | a :: args' =>
      match params with
      | [] => Raise TypeErr                       (* too many positional arguments *)
      | (n, _) :: r =>
          match assoc n kw with
          | Some _ => Raise TypeErr               (* multiple values for argument *)
          | None => let! t := bind_pos r args' kw in Ok (Some a :: t)
          end
      end
  end.
Definition call_bind (params : list (str * bool)) (args : list targ) (kw : list (str * targ))
  : res (list (option targ)) :=
  if forallb (fun p => mem_str (fst p) (map fst params)) kw
  then bind_pos params args kw
  else Raise TypeErr.                             (* unexpected keyword argument *)

Section Constructors.
  Variable E : env.
  Variable dsh : str -> res ty.
  Notation U := (e_uni E).

  (** a bracket argument passed where a type is expected; [Fixed(True)] is [Fixed(1)], as
      [operator.index] turns it into an int (Python 3.10; it is equal to that before) *)
  Definition targ_launder (a : targ) : res ty :=
    match a with
    | AInt z => launder dsh (PInt z)
    | ABool b => launder dsh (PInt (if b then 1 else 0))
    | AStr s => launder dsh (PStr s)
    | ADs t => launder dsh (PTy t)
    | AList _ => launder dsh POther
    end.
  Definition targ_parg (a : targ) : parg :=
    match a with
    | AInt z => PInt z
    | ABool b => PInt (if b then 1 else 0)
    | AStr s => PStr s
    | ADs t => PTy t
    | AList _ => POther
    end.

  (** [list(x)] of an argument: lists, characters of a string, parameters of a
      datashape (Mono defines __getitem__/__len__); the parser only passes DataShapes, bare
      records and type sets are left out *)
  Definition targ_iter (a : targ) : res (list targ) :=
    match a with
    | AList l => Ok l
    | AStr s => Ok (map (fun c => AStr [c]) s)
    | ADs (DataShapeT _ ps) => Ok (map ADs ps)
    | ADs (RecordT _ | TypeSetT _ _) => Raise NotModelled
    | ADs t => Ok [ADs t]
    | AInt _ | ABool _ => Raise TypeErr
    end.
  (** [str(x)] of an argument *)
  Definition targ_str (a : targ) : res str :=
    match a with
    | AInt z => Ok (z2s z)
    | ABool b => Ok (bool_str b)
    | AStr s => Ok s
    | ADs t => Ok (py_str U t)
    | AList _ => Raise NotModelled
    end.

  (** [_complex], type_symbol_table.py:17-25 *)
  Definition c_complex (tp : targ) : res ty :=
    match tp with
    | ADs t => if py_eq t (DataShapeT None [float32_t]) then Ok complex64_t
               else if py_eq t (DataShapeT None [float64_t]) then Ok complex128_t
               else Raise TypeErr
    | _ => Raise TypeErr
    end.
  (** String( *args), coretypes.py:383-406 *)
  Definition c_string (args : list targ) : res ty :=
    match args with
    | [] => mk_string None None
    | [AStr s] => mk_string None (Some s)
    | [AInt z] => mk_string (Some z) None
    | [ABool _] => Raise NotModelled            (* fixlen = True *)
    | [_] => Raise UnboundErr
    | [f; e] =>
        let! t := match e with
                  | AStr s => mk_string None (Some s)
                  | AInt z => if z =? 0 then mk_string None None else Raise ValueErr
                  | ABool b => if b then Raise ValueErr else mk_string None None
                  | ADs _ => Raise ValueErr
                  | AList [] => mk_string None None
                  | AList _ => Raise TypeErr     (* unhashable *)
                  end in
        match f, t with
        | AInt z, StringT _ c => Ok (StringT (Some z) c)
        | _, _ => Raise NotModelled             (* fixlen of another type *)
        end
    | _ => Raise UnboundErr
    end.
  (** [_struct], type_symbol_table.py:28-30, and Record.__init__, coretypes.py:1040-1061 *)
  Definition c_struct (names dshapes : targ) : res ty :=
    let! ns := targ_iter names in
    let! ds := targ_iter dshapes in
    let pairs := combine ns ds in
    let! strs := mapM (fun p => targ_str (fst p)) pairs in
    let! tys := mapM (fun p => targ_launder (snd p)) pairs in
    if nodup_str strs then Ok (RecordT (combine strs tys)) else Raise ValueErr.
  (** Tuple(dshapes) *)
  Definition c_tuple (dshapes : targ) : res ty :=
    let! l := targ_iter dshapes in mk_tuple dsh (map targ_parg l).
  (** [_funcproto], type_symbol_table.py:33-35; only datashape parameters are modelled *)
  Definition targ_ds (a : targ) : res ty :=
    match a with ADs t => Ok t | _ => Raise NotModelled end.
  Definition c_funcproto (args ret : targ) : res ty :=
    let! l := targ_iter args in
    let! ps := mapM targ_ds l in
    let! r := targ_ds ret in
    Ok (FunctionT (ps ++ [r])).
  (** TypeVar.__init__, coretypes.py:873-877: [symbol[0].isupper()]; a list whose first element
      is a string is left out *)
  Definition c_typevar (name : targ) : res ty :=
    match name with
    | AStr s => mk_typevar U s
    | AInt _ | ABool _ => Raise TypeErr            (* not subscriptable *)
    | AList [] => Raise IndexErr
    | AList (AStr _ :: _ | AList _ :: _) => Raise NotModelled
    | AList _ => Raise AttributeErr                (* no isupper *)
    | ADs (DataShapeT _ (_ :: _)) => Raise AttributeErr
    | ADs _ => Raise NotModelled
    end.
  Definition c_option (ds : targ) : res ty := let! t := targ_launder ds in Ok (OptionT t).
  Definition c_map (k v : targ) : res ty :=
    let! k' := targ_launder k in let! v' := targ_launder v in Ok (MapT k' v').
  Definition c_time (mk : option str -> ty) (tz : option targ) : res ty :=
    match tz with
    | None => Ok (mk None)
    | Some (AStr s) => Ok (mk (Some s))
    | Some _ => Raise TypeErr
    end.
  Definition c_timedelta (unit : option targ) : res ty :=
    match unit with
    | None => mk_timedelta $"us"
    | Some (AList _) => Raise ValueErr          (* str(list) is never a unit *)
    | Some a => let! s := targ_str a in mk_timedelta s
    end.
  Definition c_units (unit : targ) (tp : option targ) : res ty :=
    match unit with
    | AStr s => match tp with
                | None => mk_units s None
                | Some (ADs t) => mk_units s (Some t)
                | Some _ => Raise TypeErr
                end
    | _ => Raise TypeErr
    end.
  Definition c_decimal (p : targ) (s : option targ) : res ty :=
    match p, s with
    | AInt p, None => Ok (DecimalT p 0)
    | AInt p, Some (AInt s) => Ok (DecimalT p s)
    | _, _ => Raise NotModelled                 (* non-integer precision or scale *)
    end.
  Definition targ_lit (a : targ) : res pylit :=
    match a with
    | AInt z => Ok (LInt z)
    | ABool b => Ok (LBool b)
    | AStr s => Ok (LStr s)
    | _ => Raise NotModelled                    (* datashapes as categories *)
    end.
  Definition falsy (a : targ) : bool :=
    match a with
    | AInt z => z =? 0
    | ABool b => negb b
    | AStr s => match s with [] => true | _ => false end
    | ADs _ => false
    | AList l => match l with [] => true | _ => false end
    end.
  (** Categorical.__init__, coretypes.py:1110-1113 *)
  Definition c_categorical (cats : targ) (type ordered : option targ) : res ty :=
    let! l := targ_iter cats in
    let! lits := mapM targ_lit l in
    let disc := let! t := e_disc E lits in Ok (measure t) in
    let! t := match type with
              | None => disc
              | Some (ADs t) => Ok (measure t)
              | Some a => if falsy a then disc else Raise AttributeErr
              end in
    match ordered with
    | None => Ok (CategoricalT lits t false)
    | Some (ABool b) => Ok (CategoricalT lits t b)
    | Some _ => Raise NotModelled               (* ordered of another type *)
    end.

  (** [constructor_types], type_symbol_table.py:86-102, called with args and kwargs *)
  Definition constr_fun (name : str) : option (list targ -> list (str * targ) -> res ty) :=
    let with1 (params : list (str * bool)) (f : option targ -> option targ -> option targ -> res ty) :=
      Some (fun args kw =>
        let! l := call_bind params args kw in
        f (nth 0 l None) (nth 1 l None) (nth 2 l None)) in
    let req (a : option targ) (f : targ -> res ty) :=
      match a with Some x => f x | None => Raise TypeErr end in
    if str_eqb name $"complex" then with1 [($"tp", true)] (fun a _ _ => req a c_complex)
    else if str_eqb name $"string" then
      Some (fun args kw => match kw with [] => c_string args | _ => Raise TypeErr end)
    else if str_eqb name $"struct" then
      with1 [($"names", true); ($"dshapes", true)] (fun a b _ => req a (fun a => req b (fun b => c_struct a b)))
    else if str_eqb name $"tuple" then with1 [($"dshapes", true)] (fun a _ _ => req a c_tuple)
    else if str_eqb name $"funcproto" then
      with1 [($"args", true); ($"ret", true)] (fun a b _ => req a (fun a => req b (fun b => c_funcproto a b)))
    else if str_eqb name $"typevar" then with1 [($"name", true)] (fun a _ _ => req a c_typevar)
    else if str_eqb name $"option" then with1 [($"ds", true)] (fun a _ _ => req a c_option)
    else if str_eqb name $"map" then
      with1 [($"key", true); ($"value", true)] (fun a b _ => req a (fun a => req b (fun b => c_map a b)))
    else if str_eqb name $"time" then with1 [($"tz", false)] (fun a _ _ => c_time TimeT a)
    else if str_eqb name $"datetime" then with1 [($"tz", false)] (fun a _ _ => c_time DateTimeT a)
    else if str_eqb name $"timedelta" then with1 [($"unit", false)] (fun a _ _ => c_timedelta a)
    else if str_eqb name $"units" then
      with1 [($"unit", true); ($"tp", false)] (fun a b _ => req a (fun a => c_units a b))
    else if str_eqb name $"decimal" then
      with1 [($"precision", true); ($"scale", false)] (fun a b _ => req a (fun a => c_decimal a b))
    else if str_eqb name $"categorical" then
      with1 [($"categories", true); ($"type", false); ($"ordered", false)]
            (fun a b c => req a (fun a => c_categorical a b c))
    else None.
End Constructors.

(** [no_constructor_types], type_symbol_table.py:54-84 (64-bit) *)
Definition dtype_table : list (str * ty) :=
  [ ($"bool", bool_t); ($"int8", int8_t); ($"int16", int16_t); ($"int32", int32_t);
    ($"int64", int64_t); ($"intptr", int64_t); ($"int", int32_t);
    ($"uint8", uint8_t); ($"uint16", uint16_t); ($"uint32", uint32_t); ($"uint64", uint64_t);
    ($"uintptr", uint64_t); ($"float16", float16_t); ($"float32", float32_t);
    ($"float64", float64_t); ($"complex64", complex64_t); ($"complex128", complex128_t);
    ($"real", float64_t); ($"complex", complex128_t); ($"string", string_t);
    ($"json", JSONT); ($"date", DateT); ($"time", TimeT None); ($"datetime", DateTimeT None);
    ($"timedelta", TimeDeltaT $"us"); ($"null", NullT); ($"void", void_t);
    ($"object", object_t) ].
(** [dim_no_constructor], type_symbol_table.py:104-107 *)
Definition dim_table : list (str * ty) := [ ($"var", VarT); ($"ellipsis", EllipsisT None) ].

(** A TypeSymbolTable, type_symbol_table.py:117-153 *)
Record symtab := {
  st_dtype : str -> option ty;
  st_dtype_constr : str -> option (list targ -> list (str * targ) -> res ty);
  st_dim : str -> option ty;
  st_dim_constr : str -> option (targ -> res ty) }.

(** [dim_constructor], type_symbol_table.py:110-114 *)
Definition dim_constr_fun (E : env) (name : str) : option (targ -> res ty) :=
  if str_eqb name $"fixed" then
    Some (fun a => match a with AInt z => mk_fixed z | ADs (FixedT v) => mk_fixed v
                              | ABool b => mk_fixed (if b then 1 else 0) | _ => Raise TypeErr end)
  else if str_eqb name $"typevar" then Some (c_typevar E)
  else if str_eqb name $"ellipsis" then
    Some (fun a => match a with AStr s => mk_ellipsis (e_uni E) s
                              | _ => let! t := c_typevar E a in Raise NotModelled end)
  else None.

(** the default table [sym], type_symbol_table.py:155 *)
Definition default_sym (E : env) (dsh : str -> res ty) : symtab :=
  {| st_dtype := fun n => assoc n dtype_table;
     st_dtype_constr := constr_fun E dsh;
     st_dim := fun n => assoc n dim_table;
     st_dim_constr := dim_constr_fun E |}.
