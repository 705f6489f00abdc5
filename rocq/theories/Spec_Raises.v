(** Where the exceptions other than DataShapeSyntaxError come from (C71): the constructs of a text
    that are refused, and with which exception. Tokens and grammar as in Spec_Grammar ([true]: what
    the parser implements), the arguments of constructors as in Spec_Constr. *)
From Verif Require Import Base Types Lexer Printer Construct Parser Spec_Preds Spec_Time Spec_Grammar Spec_Constr Spec_Syntax.
Local Open Scope Z_scope.

Section Refusals.
  Variable E : env.
  (** reading of strings given where a type is expected *)
  Variable dsh : str -> res ty.

  (** an argument that is no type: negative numbers, texts that are not read, lists *)
  Inductive NoType : targ -> exn -> Prop :=
  | NT_int z : z < 0 -> NoType (AInt z) ValueErr
  | NT_str s e : dsh s = Raise e -> NoType (AStr s) e
  | NT_list l : NoType (AList l) TypeErr.
  (** an argument that is no sequence *)
  Definition NoSequence (a : targ) : Prop := (exists z, a = AInt z) \/ (exists b, a = ABool b).
  (** an element of a tuple type that is no datashape *)
  Inductive NoItem : targ -> exn -> Prop :=
  | NI_negative z : z < 0 -> NoItem (AInt z) ValueErr
  | NI_int z : 0 <= z -> NoItem (AInt z) TypeErr
  | NI_bool b : NoItem (ABool b) TypeErr
  | NI_str s : NoItem (AStr s) TypeErr
  | NI_dim t : may_be_measure t = false -> NoItem (ADs t) TypeErr
  | NI_list l : NoItem (AList l) TypeErr.

  (** [Refuses n b e]: called with the arguments [b] of its parameters, the constructor [n]
      raises [e] *)
  Inductive Refuses : str -> list (option targ) -> exn -> Prop :=
  | RF_complex a :
      (forall t, a = ADs t -> py_eq t (DataShapeT None [c_type $"float32" 4 4]) = false /\
                              py_eq t (DataShapeT None [c_type $"float64" 8 8]) = false) ->
      Refuses $"complex" [Some a] TypeErr
  | RF_struct_names a b : NoSequence a -> Refuses $"struct" [Some a; Some b] TypeErr
  | RF_struct_types a b : NoSequence b -> Refuses $"struct" [Some a; Some b] TypeErr
  | RF_struct_type a b l m i x e : Elements a l -> Elements b m -> (i < length l)%nat ->
      nth_error m i = Some x -> NoType x e -> Refuses $"struct" [Some a; Some b] e
  | RF_struct_twice a b l m fs : Elements a l -> Elements b m -> Pairs E dsh l m fs ->
      ~ NoDup (map fst fs) -> Refuses $"struct" [Some a; Some b] ValueErr
  | RF_tuple a : NoSequence a -> Refuses $"tuple" [Some a] TypeErr
  | RF_tuple_item a l x e : Elements a l -> In x l -> NoItem x e -> Refuses $"tuple" [Some a] e
  | RF_funcproto a r : NoSequence a -> Refuses $"funcproto" [Some a; Some r] TypeErr
  | RF_typevar c s : ~ UpperLetter E c -> Refuses $"typevar" [Some (AStr (c :: s))] ValueErr
  | RF_typevar_empty a : a = AStr [] \/ a = AList [] -> Refuses $"typevar" [Some a] IndexErr
  | RF_typevar_number a : NoSequence a -> Refuses $"typevar" [Some a] TypeErr
  | RF_typevar_list x l : (forall s, x <> AStr s) -> Refuses $"typevar" [Some (AList (x :: l))] AttributeErr
  | RF_typevar_type n p ps : Refuses $"typevar" [Some (ADs (DataShapeT n (p :: ps)))] AttributeErr
  | RF_option a e : NoType a e -> Refuses $"option" [Some a] e
  | RF_map_key a b e : NoType a e -> Refuses $"map" [Some a; Some b] e
  | RF_map_value a b e : NoType b e -> Refuses $"map" [Some a; Some b] e
  | RF_time n a : In n [$"time"; $"datetime"] -> (forall s, a <> AStr s) -> Refuses n [Some a] TypeErr
  | RF_timedelta a s : AsText E a s -> ~ OnlyS s -> (forall u, ~ UnitOf s u) ->
      Refuses $"timedelta" [Some a] ValueErr
  | RF_timedelta_blank a s : AsText E a s -> OnlyS s -> Refuses $"timedelta" [Some a] IndexErr
  | RF_timedelta_list l : Refuses $"timedelta" [Some (AList l)] ValueErr
  | RF_units a tp : (forall s, a <> AStr s) -> Refuses $"units" [Some a; tp] TypeErr
  | RF_units_type a x : (forall n ps, x <> ADs (DataShapeT n ps)) ->
      Refuses $"units" [Some a; Some x] TypeErr
  | RF_categories a ty o : NoSequence a -> Refuses $"categorical" [Some a; ty; o] TypeErr
  (* what [discover] raises on the categories, when no type is given *)
  | RF_discover a l lits ty o e : Elements a l -> Forall2 AsLiteral l lits ->
      (ty = None \/ exists x, ty = Some x /\ Falsy x) -> e_disc E lits = Raise e ->
      Refuses $"categorical" [Some a; ty; o] e
  | RF_category_type a x o : ~ Falsy x -> (forall t, x <> ADs t) ->
      Refuses $"categorical" [Some a; Some x; o] AttributeErr.
  (** [string[...]] *)
  Inductive RefusesString : list targ -> list (str * targ) -> exn -> Prop :=
  | RS_keyword args kw : kw <> [] -> RefusesString args kw TypeErr
  | RS_encoding s : (forall c, ~ Encoding s c) -> RefusesString [AStr s] [] ValueErr
  | RS_argument a : (exists t, a = ADs t) \/ (exists l, a = AList l) -> RefusesString [a] [] UnboundErr
  | RS_encoding2 a s : (forall c, ~ Encoding s c) -> RefusesString [a; AStr s] [] ValueErr
  | RS_no_encoding a x : ~ Falsy x -> (forall s, x <> AStr s) -> (forall l, x <> AList l) ->
      RefusesString [a; x] [] ValueErr
  | RS_list a x l : RefusesString [a; AList (x :: l)] [] TypeErr
  | RS_many a b c l : RefusesString (a :: b :: c :: l) [] UnboundErr.

  (** Arguments of types that the constructor does not expect but keeps: the objects that the
      program builds from them have no counterpart among the types of the model
      ([decimal['a']], [funcproto[[1], int32]], [categorical[[int32]]], [string[True]], ...). *)
  Inductive Odd : str -> list (option targ) -> Prop :=
  | O_sequence n t b : In n [$"struct"; $"tuple"; $"funcproto"; $"categorical"] ->
      (exists fs, t = RecordT fs) \/ (exists ts m, t = TypeSetT ts m) -> In (Some (ADs t)) b -> Odd n b
  | O_name a b l x : Elements a l -> In (AList x) l -> Odd $"struct" [Some a; Some b]
  | O_parameter a r l x : Elements a l -> In x (l ++ [r]) -> (forall t, x <> ADs t) ->
      Odd $"funcproto" [Some a; Some r]
  | O_typevar x l : (exists s, x = AStr s) \/ (exists m, x = AList m) -> Odd $"typevar" [Some (AList (x :: l))]
  | O_typevar_type t : (forall n p ps, t <> DataShapeT n (p :: ps)) -> Odd $"typevar" [Some (ADs t)]
  | O_precision a s : (forall z, a <> AInt z) -> Odd $"decimal" [Some a; s]
  | O_scale p a : (forall z, a <> AInt z) -> Odd $"decimal" [Some p; Some a]
  | O_category a l x ty o : Elements a l -> In x l -> (exists t, x = ADs t) \/ (exists m, x = AList m) ->
      Odd $"categorical" [Some a; ty; o]
  | O_ordered a ty x : (forall b, x <> ABool b) -> Odd $"categorical" [Some a; ty; Some x].
  Inductive OddString : list targ -> Prop :=
  | OS_bool b : OddString [ABool b]
  | OS_length a x : (forall z, a <> AInt z) -> OddString [a; x].

  (** [Refused w e]: the construct with the tokens [w] is refused with [e] *)
  Definition sym_ := default_sym E dsh.
  Inductive Refused : word -> exn -> Prop :=
  (* [name[arguments]]: the arguments do not fit the parameters, or are refused *)
  | X_call n ps w args kw kwd e : In (n, ps) signatures -> Args sym_ true w args kw ->
      args <> [] \/ kw <> [] -> Latest kw kwd ->
      (e = TypeErr /\ forall b, ~ Bound ps args kwd b) \/
      (exists b, Bound ps args kwd b /\ (Refuses n b e \/ (e = NotModelled /\ Odd n b))) ->
      Refused ((KLower, VStr n) :: tok KLBk :: w ++ [tok KRBk]) e
  | X_string w args kw e : Args sym_ true w args kw -> args <> [] \/ kw <> [] ->
      RefusesString args kw e \/ (e = NotModelled /\ OddString args /\ kw = []) ->
      Refused ((KLower, VStr $"string") :: tok KLBk :: w ++ [tok KRBk]) e
  (* a record type with a name given twice *)
  | X_record w fs : FieldList sym_ true w fs -> ~ NoDup (map fst fs) ->
      Refused (tok KLBc :: w ++ [tok KRBc]) ValueErr
  (* a negative size *)
  | X_size z : z < 0 -> Refused [(KInt, VInt z); tok KAst] ValueErr
  (* a dimension written with arguments *)
  | X_dimension n w args kw : In n [$"fixed"; $"typevar"; $"ellipsis"] -> Args sym_ true w args kw ->
      Refused ((KLower, VStr n) :: tok KLBk :: w ++ [tok KRBk]) NotImplErr.
End Refusals.

(** the exception [e] has its cause in the text [u] itself: a literal that Python refuses, a
    construct, or misplaced ellipses in an otherwise correct text *)
Definition Cause (E : env) (dsh : str -> res ty) (u : str) (e : exn) : Prop :=
  (e = ValueErr /\ snd (lex u) = Some e) \/
  (exists b w a, map kv (fst (lex u)) = b ++ w ++ a /\ Refused E dsh w e) \/
  (e = TypeErr /\ exists t, Implemented (default_sym E dsh) (map kv (fst (lex u))) t /\ snd (lex u) = None /\ ~ AllGood t).

(** the constructs that raise the exceptions no reader of a text expects *)
Definition culprits (e : exn) : list str :=
  match e with
  | IndexErr => [$"typevar"; $"timedelta"]
  | AttributeErr => [$"typevar"; $"categorical"]
  | UnboundErr => [$"string"]
  | NotImplErr => [$"fixed"; $"typevar"; $"ellipsis"]
  | _ => []
  end.
