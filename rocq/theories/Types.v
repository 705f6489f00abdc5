(** Datashape objects (coretypes.py), their shape/measure, [==], hash and class
    invariants. *)
From Verif Require Import Base.
Local Open Scope Z_scope.

(** Literals that can be categories of a Categorical: parser.py:354-394 produces
    integers, strings and booleans. *)
Inductive pylit := LInt (z : Z) | LBool (b : bool) | LStr (s : str).

(** Python [==] on those literals ([True == 1], [False == 0]). *)
Definition lit_num (l : pylit) : option Z :=
  match l with
  | LInt z => Some z
  | LBool b => Some (if b then 1 else 0)
  | LStr _ => None
  end.
Definition lit_eqb (a b : pylit) : bool :=
  match a, b with
  | LStr s, LStr t => str_eqb s t
  | _, _ => match lit_num a, lit_num b with
            | Some x, Some y => Z.eqb x y
            | _, _ => false
            end
  end.

(** One constructor per concrete class of coretypes.py / typesets.py:
    - [CType name itemsize alignment]         coretypes.py:749-822
    - [NullT]                                 coretypes.py:208
    - [DateT] [TimeT] [DateTimeT]             coretypes.py:214-265
    - [TimeDeltaT] [UnitsT]                   coretypes.py:308-343
    - [BytesT] [StringT]                      coretypes.py:346-441
    - [DecimalT]                              coretypes.py:444-506
    - [DataShapeT name parameters]            coretypes.py:509-715
    - [OptionT]                               coretypes.py:721-746
    - [FixedT] [VarT] [TypeVarT]              coretypes.py:825-880
    - [FunctionT] [MapT]                      coretypes.py:883-913
    - [RecordT fields]                        coretypes.py:1016-1090
    - [CategoricalT categories type ordered]  coretypes.py:1103-1129
    - [TupleT dshapes]                        coretypes.py:1132-1159
    - [JSONT]                                 coretypes.py:1162
    - [EllipsisT typevar]                     coretypes.py:186-205; the typevar is
      [None] or a TypeVar object (as built by type_symbol_table._ellipsis); an
      Ellipsis over any other object is not modelled.
    - [TypeSetT order name]                   typesets.py:17-60 *)
Inductive ty :=
| CType (name : str) (itemsize alignment : Z)
| NullT | BytesT | DateT | JSONT | VarT
| TimeT (tz : option str)
| DateTimeT (tz : option str)
| TimeDeltaT (unit : str)
| UnitsT (unit : str) (tp : ty)
| StringT (fixlen : option Z) (encoding : str)
| DecimalT (precision scale : Z)
| FixedT (val : Z)
| TypeVarT (symbol : str)
| EllipsisT (typevar : option str)
| DataShapeT (name : option str) (parameters : list ty)
| OptionT (t : ty)
| FunctionT (parameters : list ty)
| MapT (key value : ty)
| RecordT (fields : list (str * ty))
| CategoricalT (categories : list pylit) (type : ty) (ordered : bool)
| TupleT (dshapes : list ty)
| TypeSetT (order : list ty) (name : option str).

(** Induction principle with hypotheses for the nested lists. *)
Section TyInd.
  Variable P : ty -> Prop.
  Hypothesis HCType : forall n i a, P (CType n i a).
  Hypothesis HNull : P NullT.
  Hypothesis HBytes : P BytesT.
  Hypothesis HDate : P DateT.
  Hypothesis HJSON : P JSONT.
  Hypothesis HVar : P VarT.
  Hypothesis HTime : forall z, P (TimeT z).
  Hypothesis HDateTime : forall z, P (DateTimeT z).
  Hypothesis HTimeDelta : forall u, P (TimeDeltaT u).
  Hypothesis HUnits : forall u t, P t -> P (UnitsT u t).
  Hypothesis HString : forall f e, P (StringT f e).
  Hypothesis HDecimal : forall p s, P (DecimalT p s).
  Hypothesis HFixed : forall v, P (FixedT v).
  Hypothesis HTypeVar : forall s, P (TypeVarT s).
  Hypothesis HEllipsis : forall o, P (EllipsisT o).
  Hypothesis HDataShape : forall n ps, Forall P ps -> P (DataShapeT n ps).
  Hypothesis HOption : forall t, P t -> P (OptionT t).
  Hypothesis HFunction : forall ps, Forall P ps -> P (FunctionT ps).
  Hypothesis HMap : forall k v, P k -> P v -> P (MapT k v).
  Hypothesis HRecord : forall fs, Forall (fun f => P (snd f)) fs -> P (RecordT fs).
  Hypothesis HCategorical : forall c t o, P t -> P (CategoricalT c t o).
  Hypothesis HTuple : forall ds, Forall P ds -> P (TupleT ds).
  Hypothesis HTypeSet : forall ts n, Forall P ts -> P (TypeSetT ts n).

  Fixpoint ty_ind' (t : ty) : P t :=
    let list_ind := fix go (l : list ty) : Forall P l :=
      match l with
      | [] => Forall_nil P
      | x :: r => @Forall_cons ty P x r (ty_ind' x) (go r)
      end in
    match t with
    | CType n i a => HCType n i a
    | NullT => HNull | BytesT => HBytes | DateT => HDate | JSONT => HJSON | VarT => HVar
    | TimeT z => HTime z
    | DateTimeT z => HDateTime z
    | TimeDeltaT u => HTimeDelta u
    | UnitsT u t' => HUnits u t' (ty_ind' t')
    | StringT f e => HString f e
    | DecimalT p s => HDecimal p s
    | FixedT v => HFixed v
    | TypeVarT s => HTypeVar s
    | EllipsisT o => HEllipsis o
    | DataShapeT n ps => HDataShape n ps (list_ind ps)
    | OptionT t' => HOption t' (ty_ind' t')
    | FunctionT ps => HFunction ps (list_ind ps)
    | MapT k v => HMap k v (ty_ind' k) (ty_ind' v)
    | RecordT fs => HRecord fs
        ((fix go (l : list (str * ty)) : Forall (fun f => P (snd f)) l :=
            match l with
            | [] => Forall_nil _
            | f :: r => @Forall_cons (str * ty) (fun f => P (snd f)) f r (ty_ind' (snd f)) (go r)
            end) fs)
    | CategoricalT c t' o => HCategorical c t' o (ty_ind' t')
    | TupleT ds => HTuple ds (list_ind ds)
    | TypeSetT ts n => HTypeSet ts n (list_ind ts)
    end.
End TyInd.

(** Number of constructors (used only as recursion bound). *)
Fixpoint tsize (t : ty) : nat :=
  let lsize := fix go (l : list ty) : nat :=
    match l with [] => O | x :: r => (tsize x + go r)%nat end in
  S (match t with
     | UnitsT _ t' => tsize t'
     | DataShapeT _ ps => lsize ps
     | OptionT t' => tsize t'
     | FunctionT ps => lsize ps
     | MapT k v => tsize k + tsize v
     | RecordT fs => (fix go (l : list (str * ty)) : nat :=
          match l with [] => O | (_, x) :: r => (tsize x + go r)%nat end) fs
     | CategoricalT _ t' _ => tsize t'
     | TupleT ds => lsize ds
     | TypeSetT ts _ => lsize ts
     | _ => O
     end).

Definition lsize (l : list ty) : nat := fold_right (fun x n => (tsize x + n)%nat) O l.
Definition fsize (l : list (str * ty)) : nat := fold_right (fun x n => (tsize (snd x) + n)%nat) O l.

Lemma tsize_DataShape n ps : tsize (DataShapeT n ps) = S (lsize ps).
Proof. reflexivity. Qed.
Lemma tsize_Function ps : tsize (FunctionT ps) = S (lsize ps).
Proof. reflexivity. Qed.
Lemma tsize_Tuple ps : tsize (TupleT ps) = S (lsize ps).
Proof. reflexivity. Qed.
Lemma tsize_TypeSet ps n : tsize (TypeSetT ps n) = S (lsize ps).
Proof. reflexivity. Qed.
Lemma tsize_Record fs : tsize (RecordT fs) = S (fsize fs).
Proof.
  cbn [tsize]. f_equal. unfold fsize. induction fs as [|[s t] r IH]; [reflexivity|].
  cbn [fold_right snd]. rewrite <- IH. reflexivity.
Qed.
Lemma tsize_Option t : tsize (OptionT t) = S (tsize t).
Proof. reflexivity. Qed.
Lemma tsize_Map k v : tsize (MapT k v) = S (tsize k + tsize v).
Proof. reflexivity. Qed.
Lemma tsize_Units u t : tsize (UnitsT u t) = S (tsize t).
Proof. reflexivity. Qed.
Lemma tsize_Categorical c t o : tsize (CategoricalT c t o) = S (tsize t).
Proof. reflexivity. Qed.
Lemma tsize_pos t : (0 < tsize t)%nat.
Proof. destruct t; simpl; lia. Qed.
Lemma lsize_In t l : In t l -> (tsize t <= lsize l)%nat.
Proof.
  induction l as [|x l IH]; simpl; [tauto|]. intros [->|H]; [lia|]. specialize (IH H). lia.
Qed.
Lemma fsize_In f l : In f l -> (tsize (snd f) <= fsize l)%nat.
Proof.
  induction l as [|x l IH]; simpl; [tauto|]. intros [->|H]; [lia|]. specialize (IH H). lia.
Qed.
Lemma lsize_app a b : lsize (a ++ b) = (lsize a + lsize b)%nat.
Proof. induction a; simpl; [reflexivity|]. rewrite IHa. lia. Qed.

(** [isinstance(t, DataShape)], and the Unit subclasses (coretypes.py:176 ff). *)
Definition is_DataShape t := match t with DataShapeT _ _ => true | _ => false end.
Definition is_Record t := match t with RecordT _ => true | _ => false end.
Definition is_Tuple t := match t with TupleT _ => true | _ => false end.
Definition is_Fixed t := match t with FixedT _ => true | _ => false end.
Definition is_Var t := match t with VarT => true | _ => false end.
Definition is_TypeVar t := match t with TypeVarT _ => true | _ => false end.
Definition is_Ellipsis t := match t with EllipsisT _ => true | _ => false end.
Definition is_Option t := match t with OptionT _ => true | _ => false end.
Definition is_Map t := match t with MapT _ _ => true | _ => false end.
Definition is_TypeSet t := match t with TypeSetT _ _ => true | _ => false end.
Definition is_Unit (t : ty) : bool :=
  match t with
  | NullT | DateT | TimeT _ | DateTimeT _ | TimeDeltaT _ | UnitsT _ _ | BytesT
  | StringT _ _ | DecimalT _ _ | CType _ _ _ | FixedT _ | VarT | TypeVarT _
  | TypeSetT _ _ => true
  | _ => false
  end.

(** The class attribute [cls] (coretypes.py:32-33 and the class bodies). *)
Inductive cls_kind := DIMENSION | MEASURE.
Definition cls_of (t : ty) : option cls_kind :=
  match t with
  | DateT | TimeT _ | DateTimeT _ | TimeDeltaT _ | UnitsT _ _ | BytesT
  | StringT _ _ | DecimalT _ _ | CType _ _ _ | RecordT _ | CategoricalT _ _ _
  | TupleT _ | JSONT => Some MEASURE
  | FixedT _ | VarT => Some DIMENSION
  | _ => None
  end.
(** [getattr(t, 'cls', MEASURE) != MEASURE] is false / [getattr(t,'cls',DIMENSION) != DIMENSION]
    is false (coretypes.py:550-559). *)
Definition may_be_measure t := match cls_of t with Some DIMENSION => false | _ => true end.
Definition may_be_dim t := match cls_of t with Some MEASURE => false | _ => true end.

(** [.shape] : coretypes.py:104-106 (Mono), 584-586 (DataShape), 732-734 (Option). *)
Fixpoint shape (t : ty) : list ty :=
  match t with
  | DataShapeT _ ps => removelast ps
  | OptionT t' => shape t'
  | _ => []
  end.

(** [.measure] : coretypes.py:126-129 (Mono), 588-590 (DataShape). The parameter
    tuple of a DataShape is never empty ([DataShape.__init__] raises, :560-562);
    on the unreachable empty tuple the model returns the object itself. *)
Definition measure (t : ty) : ty :=
  match t with
  | DataShapeT _ ps => last ps t
  | _ => t
  end.

(** [a.info() == b.info()], coretypes.py:86-87: same class and element-wise equal
    parameters ([parameters], coretypes.py:79-84); [eq] is [==] on components.
    The parameters of a Record are one tuple of (name, type) pairs. *)
Definition field_eqb (eq : ty -> ty -> bool) (f g : str * ty) : bool :=
  str_eqb (fst f) (fst g) && eq (snd f) (snd g).
Definition info_eqb (eq : ty -> ty -> bool) (a b : ty) : bool :=
  match a, b with
  | CType n i al, CType n' i' al' => str_eqb n n' && Z.eqb i i' && Z.eqb al al'
  | NullT, NullT | BytesT, BytesT | DateT, DateT | JSONT, JSONT | VarT, VarT => true
  | TimeT z, TimeT z' => ostr_eqb z z'
  | DateTimeT z, DateTimeT z' => ostr_eqb z z'
  | TimeDeltaT u, TimeDeltaT u' => str_eqb u u'
  | UnitsT u t, UnitsT u' t' => str_eqb u u' && eq t t'
  | StringT f e, StringT f' e' => oZ_eqb f f' && str_eqb e e'
  | DecimalT p s, DecimalT p' s' => Z.eqb p p' && Z.eqb s s'
  | FixedT v, FixedT v' => Z.eqb v v'
  | TypeVarT s, TypeVarT s' => str_eqb s s'
  | EllipsisT o, EllipsisT o' => ostr_eqb o o'
  | DataShapeT _ ps, DataShapeT _ qs => list_eqb eq ps qs
  | OptionT t, OptionT u => eq t u
  | FunctionT ps, FunctionT qs => list_eqb eq ps qs
  | MapT k v, MapT k' v' => eq k k' && eq v v'
  | RecordT fs, RecordT gs => list_eqb (field_eqb eq) fs gs
  | CategoricalT c t o, CategoricalT c' t' o' =>
      list_eqb lit_eqb c c' && eq t t' && Bool.eqb o o'
  | TupleT ds, TupleT es => list_eqb eq ds es
  | TypeSetT ts n, TypeSetT us m => list_eqb eq ts us && ostr_eqb n m
  | _, _ => false
  end.

(** [a == b]: Mono.__eq__ coretypes.py:89-92, Fixed.__eq__ :848-850 (both
    operands datashape objects), TypeSet.__eq__ typesets.py:39-41. Recursion on
    fuel; [py_eq] gives enough (lemma [py_eq_unfold]). *)
Fixpoint py_eqF (n : nat) (a b : ty) : bool :=
  match n with
  | O => false
  | S n' =>
    match a with
    | FixedT v => match b with FixedT v' => Z.eqb v v' | _ => false end
    | TypeSetT ts nm =>
        match b with
        | TypeSetT us nm' => ostr_eqb nm nm' && list_eqb (py_eqF n') ts us
        | _ => false
        end
    | _ => list_eqb (py_eqF n') (shape a) (shape b)
           && info_eqb (py_eqF n') (measure a) (measure b)
    end
  end.
Definition py_eq (a b : ty) : bool := py_eqF (S (tsize a)) a b.
(** [Fixed(v) == n] for a Python int, Fixed.__eq__, coretypes.py:848-850 *)
Definition fixed_eq_int (v n : Z) : bool := Z.eqb v n.
(** [a != b]: Mono.__ne__, coretypes.py:94-95. *)
Definition py_ne (a b : ty) : bool := negb (py_eq a b).

(** ** hash *)
Section Hash.
  (** Python's hash of strings, ints, None/bools and classes, [hash] of a tuple
      from the hashes of its elements, and [^] on hashes: arbitrary functions. *)
  Variable hstr : str -> Z.
  Variable hint : Z -> Z.
  Variable hnone : Z.
  Variable hcls : nat -> Z.
  Variable htuple : list Z -> Z.
  Variable hxor : Z -> Z -> Z.

  Definition hostr (o : option str) := match o with None => hnone | Some s => hstr s end.
  Definition hoint (o : option Z) := match o with None => hnone | Some s => hint s end.
  (** [hash(True) == hash(1)] in CPython. *)
  Definition hbool (b : bool) := hint (if b then 1 else 0).
  Definition hlit (l : pylit) :=
    match l with LInt z => hint z | LBool b => hbool b | LStr s => hstr s end.

  (** an index per class, standing for the class object in [info()] *)
  Definition class_ix (t : ty) : nat :=
    match t with
    | CType _ _ _ => 0 | NullT => 1 | BytesT => 2 | DateT => 3 | JSONT => 4 | VarT => 5
    | TimeT _ => 6 | DateTimeT _ => 7 | TimeDeltaT _ => 8 | UnitsT _ _ => 9
    | StringT _ _ => 10 | DecimalT _ _ => 11 | FixedT _ => 12 | TypeVarT _ => 13
    | EllipsisT _ => 14 | DataShapeT _ _ => 15 | OptionT _ => 16 | FunctionT _ => 17
    | MapT _ _ => 18 | RecordT _ => 19 | CategoricalT _ _ _ => 20 | TupleT _ => 21
    | TypeSetT _ _ => 22
    end%nat.

  (** hashes of the elements of [t.parameters], given [hash] on components *)
  Definition params_hash (h : ty -> Z) (t : ty) : list Z :=
    match t with
    | CType n i a => [hstr n; hint i; hint a]
    | NullT | BytesT | DateT | JSONT | VarT => []
    | TimeT z | DateTimeT z => [hostr z]
    | TimeDeltaT u => [hstr u]
    | UnitsT u t' => [hstr u; h t']
    | StringT f e => [hoint f; hstr e]
    | DecimalT p s => [hint p; hint s]
    | FixedT v => [hint v]
    | TypeVarT s => [hstr s]
    | EllipsisT o =>
        (* parameters = (typevar,): hash of None or of the TypeVar object *)
        [match o with
         | None => hnone
         | Some s => hxor (htuple []) (htuple [hcls 13; htuple [hstr s]])
         end]
    | DataShapeT _ ps => map h ps
    | OptionT t' => [h t']
    | FunctionT ps => map h ps
    | MapT k v => [h k; h v]
    | RecordT fs => [htuple (map (fun f => htuple [hstr (fst f); h (snd f)]) fs)]
    | CategoricalT c t' o => [htuple (map hlit c); h t'; hbool o]
    | TupleT ds => [htuple (map h ds)]
    | TypeSetT ts n => [htuple (map h ts); hostr n]
    end.
  Definition info_hash (h : ty -> Z) (t : ty) : Z :=
    htuple [hcls (class_ix t); htuple (params_hash h t)].

  (** Mono.__hash__ coretypes.py:97-102 (also Fixed, :852), TypeSet.__hash__
      typesets.py:43-44. The cached [_hash] is the value computed first. *)
  Fixpoint py_hashF (n : nat) (t : ty) : Z :=
    match n with
    | O => 0
    | S n' =>
      match t with
      | TypeSetT ts nm => htuple [hostr nm; htuple (map (py_hashF n') ts)]
      | _ => hxor (htuple (map (py_hashF n') (shape t))) (info_hash (py_hashF n') (measure t))
      end
    end.
  Definition py_hash (t : ty) : Z := py_hashF (S (tsize t)) t.
End Hash.

(** ** Class invariants *)

(** coretypes.py:268 [_units] *)
Definition time_units : list str :=
  [$"ns"; $"us"; $"ms"; $"s"; $"m"; $"h"; $"D"; $"W"; $"M"; $"Y"].
(** values of [_canonical_string_encodings], coretypes.py:353-368 *)
Definition canonical_encodings : list str := [$"A"; $"U8"; $"U16"; $"U32"].

(** What [symbol[0].isupper()] (coretypes.py:873-877) guarantees whatever
    [str.isupper] answers on non-ASCII code points. *)
Definition upper_start (s : str) : bool :=
  match s with
  | [] => false
  | c :: _ => ((65 <=? c) && (c <=? 90))%N || (128 <=? c)%N
  end.

(** Results of [_launder] (coretypes.py:916-938) are never one-element DataShapes. *)
Definition laundered (t : ty) : bool :=
  match t with DataShapeT _ [_] => false | _ => true end.

(** The invariants the constructors of coretypes.py establish: DataShape :542-566,
    Fixed :833-840, TypeVar :873-877, TimeDelta :312, Units :327-337, String :383-406,
    Option :729, Map :903-905, Record :1040-1061, Tuple :1140-1149.
    A Function without any parameter is excluded. *)
Fixpoint wf (t : ty) : bool :=
  match t with
  | TimeDeltaT u => mem_str u time_units
  | UnitsT _ t' => is_DataShape t' && wf t'
  | StringT _ e => mem_str e canonical_encodings
  | FixedT v => 0 <=? v
  | TypeVarT s => upper_start s
  | EllipsisT (Some s) => upper_start s
  | DataShapeT _ ps =>
      match ps with [] => false | _ => true end
      && may_be_measure (last ps NullT)
      && forallb may_be_dim (removelast ps)
      && forallb (fun p => laundered p && wf p) ps
  | OptionT t' => laundered t' && wf t'
  | FunctionT ps => match ps with [] => false | _ => true end && forallb wf ps
  | MapT k v => laundered k && wf k && (laundered v && wf v)
  | RecordT fs => nodup_str (map fst fs) && forallb (fun f => laundered (snd f) && wf (snd f)) fs
  | CategoricalT _ t' _ => wf t'
  | TupleT ds => forallb (fun d => is_DataShape d && wf d) ds
  | TypeSetT ts _ => forallb wf ts
  | _ => true
  end.

(** No TypeSet object (typesets.py) occurs anywhere. *)
Fixpoint no_typeset (t : ty) : bool :=
  match t with
  | UnitsT _ t' | OptionT t' | CategoricalT _ t' _ => no_typeset t'
  | DataShapeT _ ps | FunctionT ps | TupleT ps => forallb no_typeset ps
  | MapT k v => no_typeset k && no_typeset v
  | RecordT fs => forallb (fun f => no_typeset (snd f)) fs
  | TypeSetT _ _ => false
  | _ => true
  end.
