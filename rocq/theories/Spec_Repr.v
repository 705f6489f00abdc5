(** Specification for C65 (what [repr] shows) and for the texts of C56: Python expressions and
    the values they stand for. *)
From Coq Require Import Sorting.Permutation.
From Verif Require Import Base Types Lexer Printer Spec_WF Spec_Objects Report.
Local Open Scope N_scope.

(** ** Python string literals *)
Definition CodePoint (c : N) : Prop := c < 1114112.
(** value of a hexadecimal digit *)
Inductive HexDigit : N -> N -> Prop :=
| HD_digit v : v < 10 -> HexDigit (48 + v) v
| HD_lower v : 10 <= v < 16 -> HexDigit (97 + (v - 10)) v
| HD_upper v : 10 <= v < 16 -> HexDigit (65 + (v - 10)) v.
Inductive HexNumber : str -> N -> Prop :=
| HN_nil : HexNumber [] 0
| HN_snoc h n c v : HexNumber h n -> HexDigit c v -> HexNumber (h ++ [c]) (16 * n + v).
(** escape letter and the character meant: backslash, the two quotes, t, n, r *)
Definition simple_escapes : list (N * N) := [(92, 92); (39, 39); (34, 34); (116, 9); (110, 10); (114, 13)].
(** escape letter and number of hexadecimal digits: x, u, U *)
Definition hex_escapes : list (N * nat) := [(120, 2%nat); (117, 4%nat); (85, 8%nat)].
(** the text between two quotes [q], and the string it stands for *)
Inductive Inside (q : N) : str -> str -> Prop :=
| IS_end : Inside q [] []
| IS_plain c r s : c <> q -> c <> 92 -> c <> 10 -> c <> 13 -> Inside q r s -> Inside q (c :: r) (c :: s)
| IS_simple e c r s : In (e, c) simple_escapes -> Inside q r s -> Inside q (92 :: e :: r) (c :: s)
| IS_hex e k h n r s : In (e, k) hex_escapes -> length h = k -> HexNumber h n -> Inside q r s ->
    Inside q (92 :: e :: h ++ r) (n :: s).
Definition PyStr (lit s : str) : Prop :=
  exists q r, (q = 39 \/ q = 34) /\ lit = q :: r ++ [q] /\ Inside q r s.

(** ** Objects: the class and the attributes a constructor call sets *)
Inductive pyval :=
| VaInt (z : Z) | VaNone | VaBool (b : bool) | VaStr (s : str) | VaTy (t : ty) | VaList (l : list pylit).
Definition va_opt (o : option str) : pyval := match o with None => VaNone | Some s => VaStr s end.
(** attributes are given by name, in any order *)
Inductive Built : str -> list (str * pyval) -> ty -> Prop :=
| BU_null : Built $"Null" [] NullT
| BU_bytes : Built $"Bytes" [] BytesT
| BU_date : Built $"Date" [] DateT
| BU_json : Built $"JSON" [] JSONT
| BU_var : Built $"Var" [] VarT
| BU_time z : Built $"Time" [($"tz", va_opt z)] (TimeT z)
| BU_datetime z : Built $"DateTime" [($"tz", va_opt z)] (DateTimeT z)
| BU_timedelta u : Built $"TimeDelta" [($"unit", VaStr u)] (TimeDeltaT u)
| BU_units kw u t : Permutation kw [($"unit", VaStr u); ($"tp", VaTy t)] -> Built $"Units" kw (UnitsT u t)
| BU_decimal kw p s : Permutation kw [($"precision", VaInt p); ($"scale", VaInt s)] -> Built $"Decimal" kw (DecimalT p s)
| BU_fixed v : Built $"Fixed" [($"val", VaInt v)] (FixedT v)
| BU_typevar s : Built $"TypeVar" [($"symbol", VaStr s)] (TypeVarT s)
| BU_option t : Built $"Option" [($"ty", VaTy t)] (OptionT t)
| BU_map kw k v : Permutation kw [($"key", VaTy k); ($"value", VaTy v)] -> Built $"Map" kw (MapT k v)
| BU_categorical kw c t o : Permutation kw [($"categories", VaList c); ($"type", VaTy t); ($"ordered", VaBool o)] ->
    Built $"Categorical" kw (CategoricalT c t o).

(** [Shows text v]: the expression [text] stands for [v] *)
Definition lit_value_of (l : pylit) : pyval := match l with LInt z => VaInt z | LBool b => VaBool b | LStr s => VaStr s end.
Section Shows.
  Variable U : uni.
  Inductive Shows : str -> pyval -> Prop :=
  | SH_int z : Shows (z2s z) (VaInt z)
  | SH_none : Shows $"None" VaNone
  | SH_true : Shows $"True" (VaBool true)
  | SH_false : Shows $"False" (VaBool false)
  | SH_str lit s : PyStr lit s -> Shows lit (VaStr s)
  | SH_list items l : (length l <= 10)%nat -> Forall2 (fun it x => Shows it (lit_value_of x)) items l ->
      Shows ($"[" ++ join $", " items ++ $"]") (VaList l)
  (* lists are shortened to ten elements *)
  | SH_long items l rest : length l = 10%nat -> rest <> [] -> Forall2 (fun it x => Shows it (lit_value_of x)) items l ->
      Shows ($"[" ++ join $", " items ++ $", ...]") (VaList (l ++ rest))
  (* Class(attribute=value, ...) *)
  | SH_call cls items kw t :
      Forall2 (fun it kv => exists v, it = fst kv ++ $"=" ++ v /\ Shows v (snd kv)) items kw -> Built cls kw t ->
      Shows (cls ++ $"(" ++ join $", " items ++ $")") (VaTy t)
  | SH_function items ps : Forall2 (fun it p => Shows it (VaTy p)) items ps ->
      Shows ($"Function(" ++ join $", " items ++ $")") (VaTy (FunctionT ps))
  (* an ellipsis by the way it is written *)
  | SH_ellipsis lit o : PyStr lit (match o with None => $"..." | Some s => s ++ $"..." end) ->
      Shows ($"Ellipsis(" ++ lit ++ $")") (VaTy (EllipsisT o))
  (* scalars and strings by the way they are written *)
  | SH_ctype lit n i a : PyStr lit n -> Shows ($"ctype(" ++ lit ++ $")") (VaTy (CType n i a))
  | SH_string lit f e : PyStr lit (py_str U (StringT f e)) -> Shows ($"ctype(" ++ lit ++ $")") (VaTy (StringT f e))
  (* arrays, records and tuples in the notation dshape reads *)
  | SH_array lit n ps : Literal lit (pprint U (DataShapeT n ps) 80) -> Shows ($"dshape(" ++ lit ++ $")") (VaTy (DataShapeT n ps))
  | SH_record lit fs : Literal lit (py_str U (RecordT fs)) -> Shows ($"dshape(" ++ lit ++ $")") (VaTy (RecordT fs))
  | SH_tuple lit l : Literal lit (py_str U (TupleT l)) -> Shows ($"dshape(" ++ lit ++ $")") (VaTy (TupleT l)).
End Shows.

(** ** The text of a path of C56: a Python expression starting at [_] *)
Inductive StepText : step -> str -> Prop :=
| ST_shape i : StepText (StShape i) ($".shape[" ++ z2s (Z.of_nat i) ++ $"]")
| ST_attr n : StepText (StAttr n) ($"." ++ n)
| ST_key n lit : PyStr lit n -> StepText (StKey n) ($"[" ++ lit ++ $"]")
| ST_index i : StepText (StIndex i) ($"[" ++ z2s (Z.of_nat i) ++ $"]")
| ST_arg i : StepText (StArg i) ($".argtypes[" ++ z2s (Z.of_nat i) ++ $"]").
Inductive StepTexts : list step -> str -> Prop :=
| STS_nil : StepTexts [] []
| STS_cons s x p y : StepText s x -> StepTexts p y -> StepTexts (s :: p) (x ++ y).
