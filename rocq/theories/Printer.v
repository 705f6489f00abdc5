(** Printing: [str], [repr] of strings, [pprint] (coretypes.py, internal_utils.py). *)
From Verif Require Import Base Types Lexer.
Local Open Scope N_scope.

(** Properties of Unicode code points supplied by the Python runtime:
    [e_print c] is [chr(c).isprintable()] for c >= 128, [e_upper c] is
    [chr(c).isupper()] for c >= 128. *)
Record uni := { e_print : char -> bool; e_upper : char -> bool }.

(** decimal digits of a natural number: [str(n)] *)
Fixpoint dec_digits (fuel : nat) (n : N) : str :=
  match fuel with
  | O => [48 + n mod 10]
  | S f => if n <? 10 then [48 + n] else dec_digits f (n / 10) ++ [48 + n mod 10]
  end.
Definition n2s (n : N) : str := dec_digits (N.to_nat (N.log2 n)) n.
(** [str(z)] of an int, also ['%i' % z] and [format] *)
Definition z2s (z : Z) : str :=
  match z with
  | Z0 => [48]
  | Zpos p => n2s (Npos p)
  | Zneg p => 45 :: n2s (Npos p)
  end.

Definition hexdig (n : N) : char := if n <? 10 then 48 + n else 87 + n.
(** [%0kx]: k hexadecimal digits *)
Fixpoint hexn (k : nat) (n : N) : str :=
  match k with
  | O => []
  | S k' => hexn k' (n / 16) ++ [hexdig (n mod 16)]
  end.

(** CPython's [repr] of a str (unicode_repr): a single quote unless the string
    contains a single quote and no double quote. *)
Definition repr_quote (s : str) : char :=
  if existsb (N.eqb sq) s && negb (existsb (N.eqb dq) s) then dq else sq.
Definition repr_char (U : uni) (q c : char) : str :=
  if N.eqb c q || N.eqb c bsl then [bsl; c]
  else if N.eqb c 9 then [bsl; 116]
  else if N.eqb c 10 then [bsl; 110]
  else if N.eqb c 13 then [bsl; 114]
  else if (c <? 32) || N.eqb c 127 then bsl :: 120 :: hexn 2 c
  else if c <? 127 then [c]
  else if e_print U c then [c]
  else if c <? 256 then bsl :: 120 :: hexn 2 c
  else if c <? 65536 then bsl :: 117 :: hexn 4 c
  else bsl :: 85 :: hexn 8 c.
Definition repr_str (U : uni) (s : str) : str :=
  let q := repr_quote s in q :: flat_map (repr_char U q) s ++ [q].

(** [repr] of a category *)
Definition bool_str (b : bool) : str := if b then $"True" else $"False".
Definition repr_lit (U : uni) (l : pylit) : str :=
  match l with
  | LInt z => z2s z
  | LBool b => bool_str b
  | LStr s => repr_str U s
  end.

(** [isidentifier], internal_utils.py:120-122. Every Python keyword matches the
    pattern too; [$] also matches before a final newline. *)
Definition ident_re_match (s : str) : bool :=
  match s with
  | c :: r =>
      (is_lower c || is_upper c || N.eqb c 95)
      && (forallb is_name_char r
          || match last_opt r with
             | Some 10 => forallb is_name_char (removelast r)
             | _ => false
             end)
  | [] => false
  end.
Definition isidentifier (s : str) : bool := ident_re_match s.

(** [_format_categories], coretypes.py:1096-1100 *)
Definition format_categories (U : uni) (cats : list pylit) : str :=
  $"[" ++ join $", " (map (repr_lit U) (firstn 10 cats))
       ++ (if Nat.ltb 10 (length cats) then $", ..." else []) ++ $"]".

(** [long.replace('\n', '\n  ')], coretypes.py:1433,1443 *)
Fixpoint indent_nl (s : str) : str :=
  match s with
  | [] => []
  | c :: r => if N.eqb c 10 then 10 :: 32 :: 32 :: indent_nl r else c :: indent_nl r
  end.

(** The platform's float64 object, needed by Units.__str__ (coretypes.py:339-343). *)
Definition float64_t : ty := CType $"float64" 8 8.
Definition is_DS_float64 (t : ty) : bool := py_eq t (DataShapeT None [float64_t]).

(** The bracket layout shared by the Record and Tuple branches of [pprint]
    (coretypes.py:1422-1443): [r] is [len(result)]. *)
Definition layout (r : Z) (w : Z) (op cl : char) (items : list str) : str :=
  let short := op :: join $", " items ++ [cl] in
  if (r + Z.of_nat (length short) <? w)%Z then short
  else indent_nl (op :: 10 :: join [44; 10] items ++ [10; cl]).

(** Printing modes: [MStr] is [str(t)]; [MPp w] is [pprint(t, w)]; [MBody r w] is what
    pprint appends for the measure when [len(result) = r]. *)
Inductive mode := MStr | MPp (w : Z) | MBody (r w : Z).

Definition field_name (U : uni) (n : str) : str :=
  if isidentifier n then n else repr_str U n.

(** [__str__] methods: Unit :182, Ellipsis :201, Time :236, DateTime :257,
    TimeDelta :315, Units :339, String :408, Decimal :474, DataShape :574, Option :740,
    CType :817, Fixed :854, TypeVar :879, Function :894, Map :907, Record :1089,
    Categorical :1115, Tuple :1151, JSON :1168; [pprint] :1363-1446. *)
Fixpoint pp (U : uni) (m : mode) (t : ty) {struct t} : str :=
  match t with
  | CType n _ _ => n
  | NullT => $"null"
  | BytesT => $"bytes"
  | DateT => $"date"
  | JSONT => $"json"
  | VarT => $"var"
  | TimeT None => $"time"
  | TimeT (Some z) => $"time[tz=" ++ repr_str U z ++ $"]"
  | DateTimeT None => $"datetime"
  | DateTimeT (Some z) => $"datetime[tz=" ++ repr_str U z ++ $"]"
  | TimeDeltaT u => $"timedelta[unit=" ++ repr_str U u ++ $"]"
  | UnitsT u t' =>
      if is_DS_float64 t' then $"units[" ++ repr_str U u ++ $"]"
      else $"units[" ++ repr_str U u ++ $", " ++ pp U MStr t' ++ $"]"
  | StringT None e =>
      if str_eqb e $"U8" then $"string" else $"string[" ++ repr_str U e ++ $"]"
  | StringT (Some n) e =>
      if str_eqb e $"U8" then $"string[" ++ z2s n ++ $"]"
      else $"string[" ++ z2s n ++ $", " ++ repr_str U e ++ $"]"
  | DecimalT p s => $"decimal[precision=" ++ z2s p ++ $", scale=" ++ z2s s ++ $"]"
  | FixedT v => z2s v
  | TypeVarT s => s
  | EllipsisT None => $"..."
  | EllipsisT (Some s) => s ++ $"..."
  | DataShapeT nm ps =>
      match m with
      | MStr | MBody _ _ =>
          match nm with
          | Some (c :: n) => c :: n
          | _ => join $" * " (map (pp U MStr) ps)
          end
      | MPp w =>
          (fix go (acc : str) (l : list ty) : str :=
             match l with
             | [] => acc
             | x :: r =>
                 match r with
                 | [] => acc ++ pp U (MBody (Z.of_nat (length acc)) w) x
                 | _ => go (acc ++ pp U MStr x ++ $" * ") r
                 end
             end) [] ps
      end
  | OptionT t' => $"?" ++ pp U MStr t'
  | FunctionT ps =>
      let ss := map (pp U MStr) ps in
      $"(" ++ join $", " (removelast ss) ++ $") -> " ++ last ss []
  | MapT k v => $"map[" ++ pp U MStr k ++ $", " ++ pp U MStr v ++ $"]"
  | RecordT fs =>
      let (r, w) := match m with
                    | MStr => (0%Z, 80%Z)
                    | MPp w => (0%Z, w)
                    | MBody r w => (r, w)
                    end in
      let pairs := map (fun f => field_name U (fst f) ++ $": "
                     ++ pp U (MPp (w - r - Z.of_nat (length (fst f)))) (snd f)) fs in
      layout r w 123 125 pairs
  | CategoricalT c t' o =>
      $"categorical[" ++ format_categories U c ++ $", type=" ++ pp U MStr t'
        ++ $", ordered=" ++ bool_str o ++ $"]"
  | TupleT ds =>
      match m with
      | MStr => $"(" ++ join $", " (map (pp U MStr) ds) ++ $")"
      | MPp w => layout 0 w 40 41 (map (pp U (MPp w)) ds)
      | MBody r w => layout r w 40 41 (map (pp U (MPp (w - r))) ds)
      end
  | TypeSetT _ _ => $"typeset"
  end.

Definition py_str (U : uni) (t : ty) : str := pp U MStr t.
Definition pprint (U : uni) (t : ty) (w : Z) : str := pp U (MPp w) t.
