(** Specifications for C17-C23, C44, C45. *)
From Coq Require Import Sorting.Sorted.
From Verif Require Import Base Types Construct Ops Spec_WF.
Local Open Scope Z_scope.

(** the components of a datashape: those of a DataShape, or the object itself *)
Definition components (t : ty) : list ty := match t with DataShapeT _ ps => ps | _ => [t] end.

(** [t] is a DataShape with dimensions [dims] and measure [m], which keeps no name *)
Definition IsArray (t : ty) (dims : list ty) (m : ty) : Prop := t = DataShapeT None (dims ++ [m]).

(** a dimension in the sense of [predicates.isdimension] *)
Inductive Dim : ty -> Prop :=
| Dim_fixed n : Dim (FixedT n)
| Dim_var : Dim VarT
| Dim_ellipsis o : Dim (EllipsisT o).

(** ** Python slices with a positive step on a sequence of length [n] (C21) *)

(** the bound [x] counted from the start, clamped into 0..n *)
Definition bound (n : Z) (dflt : Z) (x : option Z) : Z :=
  match x with
  | None => dflt
  | Some v => Z.max 0 (Z.min n (if v <? 0 then n + v else v))
  end.
(** index [i] is selected by start:stop:step *)
Definition Selected (n : Z) (start stop step : option Z) (i : Z) : Prop :=
  let s := match step with None => 1 | Some s => s end in
  let lo := bound n 0 start in
  let hi := bound n n stop in
  0 <= i < n /\ lo <= i < hi /\ exists k, i = lo + k * s.
(** the number of selected indices is [c] *)
Definition SliceLen (n : Z) (start stop step : option Z) (c : Z) : Prop :=
  exists l, NoDup l /\ Z.of_nat (length l) = c /\ forall i, In i l <-> Selected n start stop step i.

(** ** Field selection from a record by a list of fields (C22) *)
Definition FieldAt (fs : list (str * ty)) (i : index) (f : str * ty) : Prop :=
  match i with
  | IxStr s => In f fs /\ fst f = s
  | IxInt z =>
      let n := Z.of_nat (length fs) in
      - n <= z < n /\ nth_error fs (Z.to_nat (if z <? 0 then n + z else z)) = Some f
  | _ => False
  end.

(** [Select ps ixs qs]: the tuple of indices [ixs] applied to an array with components [ps]
    gives components [qs]; each index acts on its own dimension *)
Inductive Select : list ty -> list index -> list ty -> Prop :=
| Sel_end ps : ps <> [] -> Select ps [] ps
| Sel_new ps ixs qs : Select ps ixs qs -> Select ps (IxNone :: ixs) (FixedT 1 :: qs)
| Sel_int d ps z ixs qs : Dim d -> Select ps ixs qs -> Select (d :: ps) (IxInt z :: ixs) qs
| Sel_list d ps l ixs qs : Dim d -> Select ps ixs qs ->
    Select (d :: ps) (IxList l :: ixs) (FixedT (Z.of_nat (length l)) :: qs)
(* a slice of a fixed dimension, bounds in range and in order, stop not 0 *)
| Sel_slice n ps start stop step c ixs qs :
    0 <= n <= 2 ^ 53 ->
    (forall a, start = Some a -> - n <= a <= n) ->
    (forall b, stop = Some b -> - n <= b <= n /\ b <> 0) ->
    (forall s, step = Some s -> 1 <= s <= 2 ^ 1074) ->
    bound n 0 start <= bound n n stop ->
    SliceLen n start stop step c ->
    Select ps ixs qs -> Select (FixedT n :: ps) (IxSlice start stop step :: ixs) (FixedT c :: qs)
(* of a variable dimension: known length only for non-negative start and stop *)
| Sel_slice_open d ps start stop step ixs qs :
    Dim d -> (forall n, d <> FixedT n) ->
    (stop = None \/ (exists a, start = Some a /\ a < 0) \/ (exists b, stop = Some b /\ b < 0)) ->
    Select ps ixs qs -> Select (d :: ps) (IxSlice start stop step :: ixs) (VarT :: qs)
| Sel_slice_var d ps start b step c ixs qs :
    Dim d -> (forall n, d <> FixedT n) ->
    0 <= match start with None => 0 | Some a => a end <= b -> b <= 2 ^ 53 ->
    (forall s, step = Some s -> 1 <= s <= 2 ^ 1074) ->
    SliceLen b start (Some b) step c ->
    Select ps ixs qs ->
    Select (d :: ps) (IxSlice start (Some b) step :: ixs) (FixedT c :: qs)
(* one field of the record measure, by name or number *)
| Sel_field fs i f :
    (forall l, i <> IxList l) -> FieldAt fs i f -> ~ DimensionClass (snd f) ->
    Select [RecordT fs] [i] (components (snd f))
(* several fields *)
| Sel_fields fs l sel :
    Forall2 (FieldAt fs) l sel -> NoDup (map fst sel) ->
    Select [RecordT fs] [IxList l] [RecordT sel]
(* a slice of fields with positive step *)
| Sel_field_slice fs start stop step ks sel :
    (forall s, step = Some s -> 1 <= s) ->
    StronglySorted Z.lt ks ->
    (forall k, In k ks <-> Selected (Z.of_nat (length fs)) start stop step k) ->
    Forall2 (fun k f => nth_error fs (Z.to_nat k) = Some f) ks sel ->
    Select [RecordT fs] [IxSlice start stop step] [RecordT sel].

(** ** The same object with every registered DataShape name forgotten (C17) *)
Fixpoint forget_names (t : ty) : ty :=
  match t with
  | DataShapeT _ ps => DataShapeT None (map forget_names ps)
  | UnitsT u t' => UnitsT u (forget_names t')
  | OptionT t' => OptionT (forget_names t')
  | FunctionT ps => FunctionT (map forget_names ps)
  | MapT k v => MapT (forget_names k) (forget_names v)
  | RecordT fs => RecordT (map (fun f => (fst f, forget_names (snd f))) fs)
  | CategoricalT c t' o => CategoricalT c (forget_names t') o
  | TupleT ds => TupleT (map forget_names ds)
  | TypeSetT ts n => TypeSetT (map forget_names ts) n
  | _ => t
  end.

(** ** Concatenation along the first axis (C23) *)
(** [ds] is a DataShape whose first dimension is Fixed(n), followed by [rest] *)
Definition Leads (ds : ty) (n : Z) (rest : list ty) : Prop :=
  exists nm, ds = DataShapeT nm (FixedT n :: rest).
Definition EqTails (a b : list ty) : Prop := Forall2 (fun x y => py_eq x y = true) a b.

(** ** Spellings of string encodings (C45) *)
Inductive Spelling : str -> str -> Prop :=
| Sp_A e : In e [$"A"; $"ascii"] -> Spelling e $"A"
| Sp_U8 e : In e [$"U8"; $"utf-8"; $"utf_8"; $"utf8"] -> Spelling e $"U8"
| Sp_U16 e : In e [$"U16"; $"utf-16"; $"utf_16"; $"utf16"] -> Spelling e $"U16"
| Sp_U32 e : In e [$"U32"; $"utf-32"; $"utf_32"; $"utf32"] -> Spelling e $"U32".

(** the meaning of a successful concatenation of at least two datashapes *)
Definition Cat (l : list ty) (r : ty) : Prop :=
  exists rest ns,
    (exists d l', l = d :: l' /\ exists n, Leads d n rest) /\
    Forall2 (fun ds n => exists rest', Leads ds n rest' /\ EqTails rest' rest) l ns /\
    r = DataShapeT None (FixedT (fold_right Z.add 0 ns) :: rest).
(** the measure is not itself an array *)
Definition FlatMeasure (t : ty) : Prop := shape (measure t) = [] /\ ~ IsDataShape (measure t).

(** ** Record literals (C44) *)
(** the item is the slice name:type, without a step *)
Definition WellFormedItem (i : ritem) (f : str * parg) : Prop := i = RSlice (Some (PStr (fst f))) (Some (snd f)) None.

(** ** Repeated multiplication (C19): d1 * (d2 * (... * x)) *)
Fixpoint mul_all (dsh : str -> res ty) (dims : list ty) (x : ty) : res ty :=
  match dims with
  | [] => Ok x
  | d :: r => let! y := mul_all dsh r x in py_mul dsh (PTy d) (PTy y)
  end.

(** indices that are neither slices nor tuples (C22) *)
Definition PlainIx (i : index) : Prop := (forall a b c, i <> IxSlice a b c) /\ (forall l, i <> IxTuple l).

(** ** Slices with a negative step (C21): counted down from start to (excluding) stop *)
Definition bound_neg (n : Z) (dflt : Z) (x : option Z) : Z :=
  match x with
  | None => dflt
  | Some v => Z.max (-1) (Z.min (n - 1) (if v <? 0 then n + v else v))
  end.
Definition SelectedNeg (n : Z) (start stop : option Z) (step : Z) (i : Z) : Prop :=
  let hi := bound_neg n (n - 1) start in
  let lo := bound_neg n (-1) stop in
  0 <= i < n /\ lo < i <= hi /\ exists k, i = hi + k * step.
Definition SliceLenNeg (n : Z) (start stop : option Z) (step : Z) (c : Z) : Prop :=
  exists l, NoDup l /\ Z.of_nat (length l) = c /\ forall i, In i l <-> SelectedNeg n start stop step i.

(** what the code computes instead: bounds are not clamped, and a bound of 0 counts as
    missing (start 0, stop n, also for negative steps) *)
Definition raw_bound (n dflt : Z) (x : option Z) : Z :=
  match x with
  | None => dflt
  | Some v => if v =? 0 then dflt else if v <? 0 then n + v else v
  end.
(** [q] is the least integer not below a/b *)
Definition IsCeil (a b q : Z) : Prop :=
  (0 < b /\ (q - 1) * b < a <= q * b) \/ (b < 0 /\ q * b <= a < (q - 1) * b).

(** ** Python's slices, any step: from one index to the next in steps of [step], as long as
    [stop] is not reached. Bounds below 0 count from the end; bounds outside the sequence are
    moved to its ends; missing bounds are the ends, by the direction of the step. *)
Inductive Walk {A} (l : list A) (step stop : Z) : Z -> list A -> Prop :=
| Walk_end i : (0 < step /\ stop <= i) \/ (step < 0 /\ i <= stop) -> Walk l step stop i []
| Walk_go i x r : (0 < step /\ i < stop) \/ (step < 0 /\ stop < i) -> 0 <= i ->
    nth_error l (Z.to_nat i) = Some x -> Walk l step stop (i + step) r -> Walk l step stop i (x :: r).
Definition slice_start (n step : Z) (x : option Z) : Z :=
  let from_end v := if v <? 0 then v + n else v in
  match x with
  | None => if 0 <? step then 0 else n - 1
  | Some v => if 0 <? step then Z.max 0 (Z.min n (from_end v)) else Z.max (-1) (Z.min (n - 1) (from_end v))
  end.
Definition slice_stop (n step : Z) (x : option Z) : Z :=
  match x with
  | None => if 0 <? step then n else -1
  | Some _ => slice_start n step x
  end.
Definition SliceOf {A} (l : list A) (start stop step : option Z) (r : list A) : Prop :=
  let n := Z.of_nat (length l) in
  let k := match step with None => 1 | Some k => k end in
  k <> 0 /\ Walk l k (slice_stop n k stop) (slice_start n k start) r.

(** ** why datashapes cannot be concatenated (C23) *)
(** [y] leads with a fixed dimension and continues as [first] does *)
Definition Matches (first y : ty) : Prop := exists n r, Leads y n r /\ forall n0 r0, Leads first n0 r0 -> EqTails r r0.
(** the first datashape of the list that does not fit, and the exception for it *)
Definition CatError (first : ty) (l : list ty) (e : exn) : Prop := exists pre x post,
  l = pre ++ x :: post /\ (forall y, In y pre -> Matches first y) /\
  ((e = TypeErr /\ forall n r, ~ Leads x n r) \/
   (e = ValueErr /\ (exists n r, Leads x n r) /\ ~ Matches first x)).
