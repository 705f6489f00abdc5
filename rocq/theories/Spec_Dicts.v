(** Python data that differ only in the insertion order of plain dicts. *)
From Verif Require Import Base Types Discovery.
From Coq Require Import Permutation.

(** [SameData v w]: [w] is [v] with the items of some dicts (or mapping proxies) inserted in
    another order, at any depth; the order of OrderedDicts and of sequences is kept *)
Inductive SameData : dval -> dval -> Prop :=
| sd_refl v : SameData v v
| sd_seq k l m : Forall2 SameData l m -> SameData (DSeq k l) (DSeq k m)
| sd_map k l l' m : (k = KOrdered -> l' = l) -> Permutation l l' ->
    Forall2 (fun x y => fst x = fst y /\ SameData (snd x) (snd y)) l' m ->
    SameData (DMap k l) (DMap k m).

(** the keys of every dict are pairwise different *)
Inductive ValidDicts : dval -> Prop :=
| vd_atom v : match v with DSeq _ _ | DMap _ _ => False | _ => True end -> ValidDicts v
| vd_seq k l : Forall ValidDicts l -> ValidDicts (DSeq k l)
| vd_map k l : NoDup (map fst l) -> Forall (fun kv => ValidDicts (snd kv)) l -> ValidDicts (DMap k l).

(** [t] is the type of the entry of the dict [d] under [key], null when there is none *)
Definition EntryType (disc : dval -> res ty) (key : str) (d : list (str * dval)) (t : ty) : Prop :=
  (exists v, In (key, v) d /\ disc v = Ok t) \/ (~ In key (map fst d) /\ t = NullT).
