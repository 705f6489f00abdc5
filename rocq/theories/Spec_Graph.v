(** What the graph functions are supposed to compute, independently of the code. *)
From Verif Require Import Base.
From Coq Require Import Relations.

Section Spec.
  Context {A : Type}.
  (** A Python dict whose values are sets (or duplicate-free tuples). *)
  Definition DictOfSets (g : list (A * list A)) : Prop :=
    NoDup (map fst g) /\ Forall (fun kv => NoDup (snd kv)) g.
  (** [b in g[a]] *)
  Definition Edge (g : list (A * list A)) (a b : A) : Prop :=
    exists l, In (a, l) g /\ In b l.
  (** a key or a successor *)
  Definition Node (g : list (A * list A)) (a : A) : Prop :=
    In a (map fst g) \/ exists b, Edge g b a.
  Definition Cyclic (g : list (A * list A)) : Prop :=
    exists a, clos_trans A (Edge g) a a.
  (** reachable in zero or more steps *)
  Definition Reaches (g : list (A * list A)) : A -> A -> Prop := clos_refl_trans A (Edge g).
  Definition Before (a b : A) (l : list A) : Prop :=
    exists l1 l2 l3, l = l1 ++ a :: l2 ++ b :: l3.
  (** the outcomes allowed for a topological sort *)
  Definition TopologicalOrder (g : list (A * list A)) (l : list A) : Prop :=
    NoDup l /\ (forall a, In a l <-> Node g a) /\ (forall a b, Edge g a b -> Before a b l).
End Spec.
