(** Sequence helpers of datashape/internal_utils.py. *)
From Verif Require Import Base Graph.

(** [groupby(func, seq)], internal_utils.py:97-118: a dict in insertion order; [eqb] is the
    [==] of the keys *)
Definition group_step {A K} (eqb : K -> K -> bool) (func : A -> K) (d : list (K * list A)) (item : A) : list (K * list A) :=
  let key := func item in
  let d' := match dget eqb d key with None => dset eqb d key [] | Some _ => d end in
  dset eqb d' key ((match dget eqb d' key with Some l => l | None => [] end) ++ [item]).
Definition groupby {A K} (eqb : K -> K -> bool) (func : A -> K) (seq : list A) : list (K * list A) :=
  fold_left (group_step eqb func) seq [].
(** [remove(predicate, seq)], internal_utils.py:32-33 *)
Definition remove_if {A} (pred : A -> bool) (seq : list A) : list A := filter (fun x => negb (pred x)) seq.
