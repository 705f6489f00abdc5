(** C10-C13: which datashapes can be printed and read back. *)
From Verif Require Import Base Types Lexer Printer Construct Spec_Lexer Spec_WF.

(** Characters that survive Python's [repr] followed by the lexer. Not among them: the
    backslash, control characters other than tab, newline and carriage return (so also
    backspace and form feed), and what [repr] writes as [\x..] or [\U........]: unprintable
    characters below 256 and from 65536 on. *)
Definition QuotableChar (U : uni) (c : char) : Prop :=
  ((32 <= c <= 126)%N /\ c <> 92%N) \/ In c [9%N; 10%N; 13%N] \/
  ((128 <= c)%N /\ e_print U c = true /\ is_surrogate c = false) \/
  ((256 <= c < 65536)%N /\ e_print U c = false).
Definition Quotable (U : uni) (s : str) : Prop := Forall (QuotableChar U) s.

(** A field name is printed bare if it is an identifier. Identifiers that begin with [True]
    or [False], and identifiers followed by a newline (which count as identifiers), are not
    read back. *)
Definition PrintableName (U : uni) (n : str) : Prop :=
  (Ident n /\ ~ bool_prefixed n) \/
  (~ Ident n /\ (forall m, n = m ++ [10%N] -> ~ Ident m) /\ Quotable U n).
(** a name that is read as a type variable *)
Definition UpperName (s : str) : Prop := NameText is_upper s /\ ~ bool_prefixed s.

(** the scalar types with a name in the type table; [char] has none *)
Definition KnownCTypes : list ty :=
  [bool_t; int8_t; int16_t; int32_t; int64_t; uint8_t; uint16_t; uint32_t; uint64_t;
   float16_t; float32_t; float64_t; complex64_t; complex128_t; void_t; object_t].

(** objects that stand before a [*], and objects that stand for a whole element type *)
Definition IsDim (t : ty) : Prop :=
  (exists n, t = FixedT n) \/ t = VarT \/ (exists s, t = TypeVarT s) \/ (exists o, t = EllipsisT o).
Definition IsMeasure (t : ty) : Prop :=
  ~ IsDataShape t /\ ~ DimensionClass t /\ forall o, t <> EllipsisT o.

(** categories: at most ten (the printer abbreviates longer lists), all of the same kind *)
Definition SameKind (l : list pylit) : Prop :=
  (forall x, In x l -> exists z, x = LInt z) \/ (forall x, In x l -> exists s, x = LStr s) \/
  (forall x, In x l -> exists b, x = LBool b).

(** local conditions, in addition to the class invariants (Spec_WF.v) *)
Definition Lexable (U : uni) (t : ty) : Prop :=
  match t with
  | CType _ _ _ => In t KnownCTypes
  | BytesT | TypeSetT _ _ => False
  | TimeT (Some z) | DateTimeT (Some z) => Quotable U z
  | TypeVarT s | EllipsisT (Some s) => UpperName s
  (* no nested arrays, no name (a named DataShape is printed as its name) *)
  | DataShapeT n ps => (n = None \/ n = Some []) /\
      exists dims m, ps = dims ++ [m] /\ (forall d, In d dims -> IsDim d) /\ IsMeasure m
  | UnitsT u _ => Quotable U u
  (* an option of an option is printed as [??] *)
  | OptionT u => (IsMeasure u \/ IsDataShape u) /\ forall v, u <> OptionT v
  (* [map[5, int32]] is read and printed, unlike [option[5]] *)
  | MapT k v => forall u, u = k \/ u = v -> IsMeasure u \/ IsDataShape u \/ exists z, u = FixedT z
  | RecordT fs => forall n u, In (n, u) fs -> PrintableName U n /\ (IsMeasure u \/ IsDataShape u)
  | FunctionT ps => forall u, In u ps -> (IsMeasure u /\ shape u = []) \/ IsDataShape u
  | CategoricalT c u _ => (length c <= 10)%nat /\ SameKind c /\
      (forall s, In (LStr s) c -> Quotable U s) /\ IsMeasure u
  | _ => True
  end.
Definition Printable (U : uni) (t : ty) : Prop := WF t /\ forall u, Occurs u t -> Lexable U u.

(** C13. The remaining conditions on a datashape that came out of [dshape]; each of them is
    needed (theorems [C13_..._refuted]).
    - strings and field names survive quoting;
    - at most ten categories;
    - no option of an option;
    - no dimension ([5], [var], [...]) where a type is expected: the undocumented spellings
      [option[5]], [struct[['a'], ['5']]], [tuple[... * int32]] and
      [funcproto[3 * int32, int32]] make such objects, and the last one parameters that are options
      of arrays;
    - type variables have names that are read as type variables ([var typevar['A b']] makes others). *)
Definition IsType (t : ty) : Prop := ~ DimensionClass t /\ forall o, t <> EllipsisT o.
Definition WritablePart (U : uni) (t : ty) : Prop :=
  match t with
  | TimeT (Some z) | DateTimeT (Some z) => Quotable U z
  | UnitsT u _ => Quotable U u
  | TypeVarT s => UpperName s
  | OptionT u => IsType u /\ forall v, u <> OptionT v
  | RecordT fs => forall n u, In (n, u) fs -> PrintableName U n /\ IsType u
  | DataShapeT _ ps => forall o, last ps NullT <> EllipsisT o
  | FunctionT ps => forall u, In u ps -> IsType u /\ (IsDataShape u \/ shape u = [])
  | CategoricalT c _ _ => (length c <= 10)%nat /\ forall s, In (LStr s) c -> Quotable U s
  | _ => True
  end.
Definition Writable (U : uni) (t : ty) : Prop := forall u, Occurs u t -> WritablePart U u.
