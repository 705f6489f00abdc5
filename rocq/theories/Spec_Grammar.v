(** The datashape grammar, following docs/source/grammar.rst ("Grammar" and "Syntactic
    Sugar") and the docstrings of parser.py, over tokens given as (kind, value) pairs.
    Every nonterminal carries the object that a sentence denotes; it is built by the
    entries of the symbol table, as "Syntactic Sugar" says.

    The parameter [lax] selects the grammar: [false] is the documented one. With [true]
    it is the grammar that the parser really implements; each additional production has
    the premise [lax = true]. *)
From Verif Require Import Base Types Lexer Construct Parser.

Definition word := list (kind * tval).
Notation tok K := (K, VNone).

Section Grammar.
  Variable sym : symtab.
  Variable lax : bool.

  (** dimensions that are recognised without looking at the following token:
      [var] and the other names of the dimension table, [...] and [A...] *)
  Inductive DimName : word -> ty -> Prop :=
  | DN_name n d : st_dim sym n = Some d -> DimName [(KLower, VStr n)] d
  | DN_ellipsis d : st_dim sym $"ellipsis" = Some d -> DimName [tok KEll] d
  | DN_ellipsis_typevar s c d :
      st_dim_constr sym $"ellipsis" = Some c -> c (AStr s) = Ok d ->
      DimName [(KUpper, VStr s); tok KEll] d.

  (** [dim : typevar | ellipsis_typevar | type | INTEGER | ELLIPSIS]. The documented
      alternative [type_constr] is not implemented (NotImplementedError). *)
  Inductive Dim : word -> ty -> Prop :=
  | D_name u d : DimName u d -> Dim u d
  | D_typevar s c d : st_dim_constr sym $"typevar" = Some c -> c (AStr s) = Ok d ->
      Dim [(KUpper, VStr s)] d
  | D_integer z c d : st_dim_constr sym $"fixed" = Some c -> c (AInt z) = Ok d ->
      Dim [(KInt, VInt z)] d.

  (** tokens that the parser drops where no datashape follows (undocumented):
      a [?], a dimension name, or both *)
  Inductive Junk : word -> Prop :=
  | J_nil : Junk []
  | J_question : Junk [tok KQ]
  | J_dim u d : DimName u d -> Junk u
  | J_question_dim u d : DimName u d -> Junk (tok KQ :: u).
  (** what may precede a literal argument: nothing; in the lax grammar also dropped tokens *)
  Definition Dropped (j : word) : Prop := j = [] \/ (lax = true /\ Junk j).
  Definition ends_with_name (j : word) : Prop := exists p n, j = p ++ [(KLower, VStr n)].
  Definition has_dim (j : word) : Prop := exists u d p, DimName u d /\ j = p ++ u.

  (** a text that starts with the name of a dimension constructor and a bracket *)
  Definition starts_dim_constr (w : word) : Prop :=
    exists n c v r, w = (KLower, VStr n) :: (KLBk, v) :: r /\ st_dim_constr sym n = Some c.

  (** literal arguments and homogeneous lists of them *)
  Inductive Literal : kind * tval -> targ -> Prop :=
  | L_int z : Literal (KInt, VInt z) (AInt z)
  | L_str s : Literal (KStr, VStr s) (AStr s)
  | L_bool b : Literal (KBool, VBool b) (ABool b).
  Inductive LiteralList (k : kind) : word -> list targ -> Prop :=
  | LL_one t a : Literal t a -> fst t = k -> LiteralList k [t] [a]
  | LL_more t a w l : Literal t a -> fst t = k -> LiteralList k w l ->
      LiteralList k (t :: tok KComma :: w) (a :: l).

  (** [struct_field_name : NAME_LOWER | NAME_UPPER | NAME_OTHER | STRING] *)
  Inductive FieldName : kind * tval -> str -> Prop :=
  | FN k s : In k [KLower; KUpper; KOther; KStr] -> FieldName (k, VStr s) s.

  Inductive DS : word -> ty -> Prop :=
  (* datashape : datashape_nooption | QUESTIONMARK datashape_nooption *)
  | DS_plain w t : NoOpt w t -> DS w t
  | DS_option w t c o d : NoOpt w t ->
      st_dtype_constr sym $"option" = Some c -> c [ADs t] [] = Ok o -> mk_ds [o] = Ok d ->
      DS (tok KQ :: w) d
  with NoOpt : word -> ty -> Prop :=
  (* datashape_nooption : dim ASTERISK datashape | dtype *)
  | NO_dim u d w t t' : Dim u d -> DS w t -> mk_ds (d :: ds_params t) = Ok t' ->
      NoOpt (u ++ tok KAst :: w) t'
  | NO_dtype w t t' : Dtype w t -> ~ starts_dim_constr w -> mk_ds [t] = Ok t' -> NoOpt w t'
  (* undocumented: a dimension name before a dtype is dropped *)
  | NO_dropped u d w t t' : lax = true -> DimName u d -> Dtype w t -> mk_ds [t] = Ok t' ->
      NoOpt (u ++ w) t'
  with Dtype : word -> ty -> Prop :=
  (* dtype : typevar | type | type_constr | struct_type | funcproto_or_tuple_type *)
  | DT_typevar s c t : st_dtype_constr sym $"typevar" = Some c -> c [AStr s] [] = Ok t ->
      Dtype [(KUpper, VStr s)] t
  | DT_type n t : st_dtype sym n = Some t -> Dtype [(KLower, VStr n)] t
  | DT_constr n c w args kw t : st_dtype_constr sym n = Some c ->
      Args w args kw -> args <> [] \/ kw <> [] -> c args (dict_of kw) = Ok t ->
      Dtype ((KLower, VStr n) :: tok KLBk :: w ++ [tok KRBk]) t
  | DT_struct w fs c t : FieldList w fs ->
      st_dtype_constr sym $"struct" = Some c ->
      c [AList (map (fun f => AStr (fst f)) fs); AList (map (fun f => ADs (snd f)) fs)] [] = Ok t ->
      Dtype (tok KLBc :: w ++ [tok KRBc]) t
  | DT_tuple w l c t : TupleType w l ->
      st_dtype_constr sym $"tuple" = Some c -> c [AList (map ADs l)] [] = Ok t ->
      Dtype w t
  | DT_funcproto w l v r c t : TupleType w l -> DS v r ->
      st_dtype_constr sym $"funcproto" = Some c -> c [AList (map ADs l); ADs r] [] = Ok t ->
      Dtype (w ++ tok KArrow :: v) t
  with FieldList : word -> list (str * ty) -> Prop :=
  (* struct_field_list, possibly with a trailing comma; undocumented: no field at all *)
  | FL_fields w fs : Fields w fs -> FieldList w fs
  | FL_comma w fs : Fields w fs -> FieldList (w ++ [tok KComma]) fs
  | FL_empty : lax = true -> FieldList [] []
  with Fields : word -> list (str * ty) -> Prop :=
  (* struct_field : struct_field_name COLON datashape *)
  | F_one f n w t : FieldName f n -> DS w t -> Fields (f :: tok KColon :: w) [(n, t)]
  | F_more f n w t w' fs : FieldName f n -> DS w t -> Fields w' fs ->
      Fields (f :: tok KColon :: w ++ tok KComma :: w') ((n, t) :: fs)
  with TupleType : word -> list ty -> Prop :=
  (* tuple_type, possibly with a trailing comma; LPAREN RPAREN (docstring of
     parse_funcproto_or_tuple_type); undocumented: dropped tokens after the comma *)
  | TT_items w l : Items w l -> TupleType (tok KLP :: w ++ [tok KRP]) l
  | TT_comma w l : Items w l -> TupleType (tok KLP :: w ++ [tok KComma; tok KRP]) l
  | TT_empty : TupleType [tok KLP; tok KRP] []
  | TT_dropped w l j : lax = true -> Items w l -> Junk j ->
      TupleType (tok KLP :: w ++ tok KComma :: j ++ [tok KRP]) l
  with Items : word -> list ty -> Prop :=
  (* tuple_item_list, datashape_list *)
  | I_one w t : DS w t -> Items w [t]
  | I_more w t w' l : DS w t -> Items w' l -> Items (w ++ tok KComma :: w') (t :: l)
  with Args : word -> list targ -> list (str * targ) -> Prop :=
  (* type_arg_list : type_arg COMMA type_arg_list | type_kwarg_list | type_arg *)
  | A_one w a : Arg w a -> Args w [a] []
  | A_more w a w' l kw : Arg w a -> Args w' l kw -> Args (w ++ tok KComma :: w') (a :: l) kw
  | A_kwargs j n v w kw : Dropped j -> Kwargs ((KLower, VStr n) :: v :: w) kw ->
      st_dtype sym n = None -> st_dim sym n = None \/ has_dim j ->
      Args (j ++ (KLower, VStr n) :: v :: w) [] kw
  (* undocumented: a trailing comma, also followed by dropped tokens *)
  | A_trailing j : lax = true -> Junk j -> Args j [] []
  with Kwargs : word -> list (str * targ) -> Prop :=
  (* type_kwarg_list; type_kwarg : NAME_LOWER EQUAL type_arg *)
  | K_one n w a : Arg w a -> Kwargs ((KLower, VStr n) :: tok KEq :: w) [(n, a)]
  | K_more n w a w' kw : Arg w a -> Kwargs w' kw ->
      Kwargs ((KLower, VStr n) :: tok KEq :: w ++ tok KComma :: w') ((n, a) :: kw)
  with Arg : word -> targ -> Prop :=
  (* type_arg : datashape | INTEGER | STRING | BOOLEAN | list_type_arg *)
  | AR_ds w t : DS w t -> Arg w (ADs t)
  | AR_literal j t a : Dropped j -> Literal t a -> Arg (j ++ [t]) a
  | AR_list j w l : Dropped j -> ~ ends_with_name j -> ListArg w l ->
      Arg (j ++ tok KLBk :: w ++ [tok KRBk]) (AList l)
  with ListArg : word -> list targ -> Prop :=
  (* list_type_arg: empty, or a list of datashapes, integers, strings or booleans *)
  | LA_nil : ListArg [] []
  | LA_ds w l : Items w l -> ListArg w (map ADs l)
  | LA_literals k w l : LiteralList k w l -> ListArg w l.
End Grammar.

(** the documented grammar, and the one the parser implements *)
Definition Documented (sym : symtab) : word -> ty -> Prop := DS sym false.
Definition Implemented (sym : symtab) : word -> ty -> Prop := DS sym true.

(** ** Tidy texts: a condition on neighbouring tokens under which the two grammars agree.
    Every [...] and every name of a dimension is followed by [*] (unless it names a field
    or a keyword argument), every [?] is followed by the start of a datashape, no comma
    is followed by [']'], and no ['{'] by ['}']. *)
Definition next_kind (q : word) : option kind := match q with (k, _) :: _ => Some k | [] => None end.
Definition tidy_at (sym : symtab) (x : kind * tval) (q : word) : Prop :=
  (fst x = KEll \/ (exists n d, x = (KLower, VStr n) /\ st_dim sym n = Some d) ->
     In (next_kind q) [Some KAst; Some KColon; Some KEq]) /\
  (fst x = KQ -> match q with
     | (KUpper, _) :: _ | (KLBc, _) :: _ | (KLP, _) :: _ | (KEll, _) :: _ => True
     | (KLower, _) :: q' => next_kind q' <> Some KEq
     | (KInt, _) :: q' => next_kind q' = Some KAst
     | _ => False
     end) /\
  (fst x = KComma -> next_kind q <> Some KRBk) /\
  (fst x = KLBc -> next_kind q <> Some KRBc).
Definition Tidy (sym : symtab) (l : word) : Prop :=
  forall p x q, l = p ++ x :: q -> tidy_at sym x q.
