(** Specification for C68: what the message of an AssertionError of [assert_dshape_equal] says.
    [str] and [repr] of the objects are [py_str] and [py_repr] (C10-C13, C53, C65). *)
From Verif Require Import Base Types Lexer Printer Objects Spec_WF Preds Spec_Preds Report Spec_Report.
Local Open Scope Z_scope.

Definition newline : str := [10%N].
(** the name of the class, in lower case, of the objects that have attributes *)
Inductive Class : ty -> str -> Prop :=
| CL_ctype n i a : Class (CType n i a) $"ctype"
| CL_time z : Class (TimeT z) $"time"
| CL_datetime z : Class (DateTimeT z) $"datetime"
| CL_timedelta u : Class (TimeDeltaT u) $"timedelta"
| CL_units u t : Class (UnitsT u t) $"units"
| CL_string f e : Class (StringT f e) $"string"
| CL_decimal p s : Class (DecimalT p s) $"decimal"
| CL_fixed v : Class (FixedT v) $"fixed"
| CL_typevar s : Class (TypeVarT s) $"typevar"
| CL_ellipsis o : Class (EllipsisT o) $"ellipsis"
| CL_map k v : Class (MapT k v) $"map"
| CL_categorical c t o : Class (CategoricalT c t o) $"categorical"
| CL_typeset l n : Class (TypeSetT l n) $"typeset".

Section Says.
  Variable U : uni.
  Variable F : flags.
  (** [repr] of the value of an attribute *)
  Inductive Repr : pv -> str -> Prop :=
  | RP_ty t : Repr (PvTy t) (py_repr U t)
  | RP_int z : Repr (PvInt z) (z2s z)
  | RP_str s : Repr (PvStr s) (repr_str U s)
  | RP_true : Repr (PvBool true) $"True"
  | RP_false : Repr (PvBool false) $"False"
  | RP_none : Repr PvNone $"None"
  | RP_one x s : Repr x s -> Repr (PvTup [x]) ($"(" ++ s ++ $",)")
  | RP_tup l ss : length l <> 1%nat -> Forall2 Repr l ss -> Repr (PvTup l) ($"(" ++ join $", " ss ++ $")").
  Definition number (n : nat) : str := z2s (Z.of_nat n).
  Definition name_list (fs : list (str * ty)) : str := $"[" ++ join $", " (map (repr_str U) (map fst fs)) ++ $"]".
  (** the fields in the order in which they are compared *)
  Definition Ordered (fs os : list (str * ty)) : Prop :=
    if check_record_order F then os = fs
    else Sorting.Permutation.Permutation fs os /\ Sorting.Sorted.StronglySorted (fun f g => str_leb (fst f) (fst g) = true) os.

  (** [Says a b r h]: comparing the objects [a] and [b] at one place fails with headline [h]; the
      rest of the path is [r] *)
  Inductive Says : ty -> ty -> list step -> str -> Prop :=
  (* objects of different classes *)
  | SY_class a b : class_ix a <> class_ix b -> Says a b [] (py_str U a ++ $" != " ++ py_str U b)
  (* dimension [i]; the whole shapes are shown if there are several *)
  | SY_dim n ds m n' ds' m' i x y : nth_error ds i = Some x -> nth_error ds' i = Some y ->
      Says (DataShapeT n (ds ++ [m])) (DataShapeT n' (ds' ++ [m'])) [StShape i]
        ($"dimensions do not match: " ++ py_str U x ++ $" != " ++ py_str U y ++
         match ds with
         | [] | [_] => []
         | _ => newline ++ join $" * " (map (py_str U) ds) ++ $" != " ++ join $" * " (map (py_str U) ds')
         end)
  (* an attribute; [c]: the name of the class in lower case *)
  | SY_attr a b c n x y u v : Class a c -> Class b c -> c <> $"units" ->
      Get (PvTy a) (StAttr n) x -> Get (PvTy b) (StAttr n) y -> Repr x u -> Repr y v ->
      Says a b [StAttr n] (c ++ $" " ++ n ++ $"s do not match: " ++ u ++ $" != " ++ v)
  (* the units of two Units: the second one is not quoted *)
  | SY_units u t v w : Says (UnitsT u t) (UnitsT v w) [StAttr $"unit"]
      ($"units units do not match: " ++ repr_str U u ++ $" != " ++ v)
  (* numbers of fields, of elements, of arguments *)
  | SY_fields fs gs : length fs <> length gs -> Says (RecordT fs) (RecordT gs) []
      ($"records have mismatched field counts: " ++ number (length fs) ++ $" != " ++ number (length gs) ++ newline ++
       name_list fs ++ $" != " ++ name_list gs)
  | SY_items l m : length l <> length m -> Says (TupleT l) (TupleT m) []
      ($"tuples have mismatched field counts: " ++ number (length l) ++ $" != " ++ number (length m) ++ newline ++
       py_repr U (TupleT l) ++ $" != " ++ py_repr U (TupleT m))
  | SY_args l r m q : length l <> length m -> Says (FunctionT (l ++ [r])) (FunctionT (m ++ [q])) []
      ($"functions have different arities: " ++ number (length l) ++ $" != " ++ number (length m) ++ newline ++
       py_repr U (FunctionT (l ++ [r])) ++ $" != " ++ py_repr U (FunctionT (m ++ [q])))
  (* names of fields *)
  | SY_name fs gs os qs i f g : length fs = length gs -> Ordered fs os -> Ordered gs qs ->
      nth_error os i = Some f -> nth_error qs i = Some g -> fst f <> fst g ->
      Says (RecordT fs) (RecordT gs) []
        ($"record field name at position " ++ number i ++ $" does not match: " ++
         repr_str U (fst f) ++ $" != " ++ repr_str U (fst g)).
End Says.
