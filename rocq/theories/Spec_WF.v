(** The class invariants of datashape objects, stated on every object occurring in a
    datashape. Independent of the boolean checker of Types.v. *)
From Verif Require Import Base Types.

(** the datashape objects directly contained in an object *)
Definition children (t : ty) : list ty :=
  match t with
  | UnitsT _ u | OptionT u | CategoricalT _ u _ => [u]
  | DataShapeT _ l | FunctionT l | TupleT l | TypeSetT l _ => l
  | MapT k v => [k; v]
  | RecordT fs => map snd fs
  | _ => []
  end.
(** [Occurs u t]: the object [u] occurs in [t] (at any depth) *)
Inductive Occurs (u : ty) : ty -> Prop :=
| Occurs_here : Occurs u u
| Occurs_in c t : In c (children t) -> Occurs u c -> Occurs u t.

(** classes declared as measures / as dimensions *)
Inductive MeasureClass : ty -> Prop :=
| MC_ctype n i a : MeasureClass (CType n i a)
| MC_date : MeasureClass DateT
| MC_time z : MeasureClass (TimeT z)
| MC_datetime z : MeasureClass (DateTimeT z)
| MC_timedelta u : MeasureClass (TimeDeltaT u)
| MC_units u t : MeasureClass (UnitsT u t)
| MC_bytes : MeasureClass BytesT
| MC_string f e : MeasureClass (StringT f e)
| MC_decimal p s : MeasureClass (DecimalT p s)
| MC_record fs : MeasureClass (RecordT fs)
| MC_cat c t o : MeasureClass (CategoricalT c t o)
| MC_tuple ds : MeasureClass (TupleT ds)
| MC_json : MeasureClass JSONT.
Inductive DimensionClass : ty -> Prop :=
| DC_fixed n : DimensionClass (FixedT n)
| DC_var : DimensionClass VarT.

(** a DataShape with a single component; such objects are unwrapped ("laundered") when
    they become components of other types *)
Definition Lone (t : ty) : Prop := exists n x, t = DataShapeT n [x].
Definition IsDataShape (t : ty) : Prop := exists n l, t = DataShapeT n l.
Definition CanonicalUnit (u : str) : Prop :=
  In u [$"ns"; $"us"; $"ms"; $"s"; $"m"; $"h"; $"D"; $"W"; $"M"; $"Y"].
Definition CanonicalEncoding (e : str) : Prop := In e [$"A"; $"U8"; $"U16"; $"U32"].
(** starts with an upper-case letter (ASCII, or some non-ASCII code point) *)
Definition UpperStart (s : str) : Prop :=
  exists c r, s = c :: r /\ ((65 <= c <= 90)%N \/ (128 <= c)%N).

Definition Inv (t : ty) : Prop :=
  match t with
  | DataShapeT _ ps =>
      exists dims m, ps = dims ++ [m] /\ ~ DimensionClass m /\
        (forall d, In d dims -> ~ MeasureClass d) /\ (forall x, In x ps -> ~ Lone x)
  | FixedT n => (0 <= n)%Z
  | TypeVarT s | EllipsisT (Some s) => UpperStart s
  | StringT _ e => CanonicalEncoding e
  | TimeDeltaT u => CanonicalUnit u
  | UnitsT _ u => IsDataShape u
  | RecordT fs => NoDup (map fst fs) /\ (forall x, In x (map snd fs) -> ~ Lone x)
  | TupleT ds => forall d, In d ds -> IsDataShape d
  | OptionT u => ~ Lone u
  | MapT k v => ~ Lone k /\ ~ Lone v
  | FunctionT ps => ps <> []
  | _ => True
  end.
(** every object in [t] satisfies the invariants of its class *)
Definition WF (t : ty) : Prop := forall u, Occurs u t -> Inv u.
(** no TypeSet object occurs in [t] *)
Definition NoTypeSet (t : ty) : Prop := forall l n, ~ Occurs (TypeSetT l n) t.
