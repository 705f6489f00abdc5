(** Specification for C66: how [pprint] breaks a datashape into lines. *)
From Verif Require Import Base Types Spec_WF.
Local Open Scope N_scope.

(** a new line indented by [d] steps of two spaces *)
Definition NL (d : nat) : str := 10 :: repeat 32 (2 * d).
(** [Laid d s o]: [s] is the one-line text [o] spread over lines, where [d] is the indentation of
    the lines. A bracket is either kept on its line, or its entries are put on lines of their own,
    indented one step more, as is the closing bracket. *)
Inductive Laid (d : nat) : str -> str -> Prop :=
| LD_line s : ~ In 10 s -> Laid d s s
| LD_app s o s' o' : Laid d s o -> Laid d s' o' -> Laid d (s ++ s') (o ++ o')
| LD_break op cl ss os : (op, cl) = (123, 125) \/ (op, cl) = (40, 41) -> LaidAll (S d) ss os ->
    Laid d ([op] ++ NL (S d) ++ join ($"," ++ NL (S d)) ss ++ NL (S d) ++ [cl])
           ([op] ++ join $", " os ++ [cl])
with LaidAll (d : nat) : list str -> list str -> Prop :=
| LA_nil : LaidAll d [] []
| LA_cons s o ss os : Laid d s o -> LaidAll d ss os -> LaidAll d (s :: ss) (o :: os).

(** texts shown as they are hold no newline; no datashape has a name *)
Definition Tidy (t : ty) : Prop := forall u, Occurs u t ->
  match u with
  | CType s _ _ | TypeVarT s | EllipsisT (Some s) => ~ In 10 s
  | RecordT fs => forall f, In f fs -> ~ In 10 (fst f)
  | DataShapeT (Some _) _ => False
  | _ => True
  end.
(** arrays of records or tuples, records and tuples: what can be broken *)
Inductive Breakable : ty -> Prop :=
| BR_record fs : Breakable (RecordT fs)
| BR_tuple l : Breakable (TupleT l)
| BR_array n ds t : (exists fs, t = RecordT fs) \/ (exists l, t = TupleT l) -> Breakable (DataShapeT n (ds ++ [t])).
(** no record inside an option, map, function type, unit or category: [pprint] hands its width to
    every record *)
Definition Plain (t : ty) : Prop := forall fs, ~ Occurs (RecordT fs) t.
Inductive Open : ty -> Prop :=
| OP_plain t : Plain t -> Open t
| OP_record fs : (forall f, In f fs -> Open (snd f)) -> Open (RecordT fs)
| OP_tuple l : (forall t, In t l -> Open t) -> Open (TupleT l)
| OP_array n ds t : (forall d, In d ds -> Plain d) -> Open t -> (exists fs, t = RecordT fs) \/ (exists l, t = TupleT l) ->
    Open (DataShapeT n (ds ++ [t])).

(** ** Which brackets are broken. [one t] is the one-line notation of [t], [label n] how a field
    name is written. *)
Section Shown.
  Variables (one : ty -> str) (label : str -> str).
  Definition len (s : str) : Z := Z.of_nat (length s).
  (** the dimensions before a record or tuple *)
  Definition prefix (ds : list ty) : str := flat_map (fun d => one d ++ $" * ") ds.
  (** [t] is [b], or an array of [b] with the dimensions [ds] *)
  Definition ArrayOf (ds : list ty) (b t : ty) : Prop := (ds = [] /\ t = b) \/ t = DataShapeT None (ds ++ [b]).
  Definition broken (op cl : char) (d : nat) (entries : list str) : str :=
    [op] ++ NL (S d) ++ join ($"," ++ NL (S d)) entries ++ NL (S d) ++ [cl].
  (** [Shown d w t s]: [s] is [t] shown for width [w], [d] steps in. What is shorter than the width
      is on one line. Otherwise the bracket is broken; its fields are shown for the width less the
      dimensions before the bracket and the name of the field, the items of a tuple for the width
      less the dimensions. Anything else stays on one line. *)
  Inductive Shown : nat -> Z -> ty -> str -> Prop :=
  | SH_fits d w t : (len (one t) < w)%Z -> Shown d w t (one t)
  | SH_other d w t : ~ Breakable t -> Shown d w t (one t)
  | SH_record d w t ds fs ss : ArrayOf ds (RecordT fs) t -> (w <= len (one t))%Z ->
      ShownFields (S d) (w - len (prefix ds)) fs ss -> Shown d w t (prefix ds ++ broken 123 125 d ss)
  | SH_tuple d w t ds l ss : ArrayOf ds (TupleT l) t -> (w <= len (one t))%Z ->
      ShownItems (S d) (w - len (prefix ds)) l ss -> Shown d w t (prefix ds ++ broken 40 41 d ss)
  with ShownFields : nat -> Z -> list (str * ty) -> list str -> Prop :=
  | SF_nil d w : ShownFields d w [] []
  | SF_cons d w n t fs s ss : Shown d (w - len n) t s -> ShownFields d w fs ss ->
      ShownFields d w ((n, t) :: fs) ((label n ++ $": " ++ s) :: ss)
  with ShownItems : nat -> Z -> list ty -> list str -> Prop :=
  | SI_nil d w : ShownItems d w [] []
  | SI_cons d w t l s ss : Shown d w t s -> ShownItems d w l ss -> ShownItems d w (t :: l) (s :: ss).
End Shown.
