(** Graph functions: reverse_dict and _toposort (internal_utils.py), groupby, and
    descendents (discovery.py). A dict is an association list in iteration order with
    pairwise different keys; a set is a list without duplicates, its order being the
    iteration order. [eqb] is the [==] of the nodes. *)
From Verif Require Import Base.
Local Open Scope nat_scope.

Section Graph.
  Context {A : Type}.
  Variable eqb : A -> A -> bool.

  (** [x in l] *)
  Fixpoint memb (x : A) (l : list A) : bool :=
    match l with [] => false | y :: r => eqb x y || memb x r end.
  (** [d.get(x)] *)
  Fixpoint dget {B} (d : list (A * B)) (x : A) : option B :=
    match d with [] => None | (k, v) :: r => if eqb x k then Some v else dget r x end.
  (** [d[x] = v]: in place when the key is there, else a new entry at the end *)
  Fixpoint dset {B} (d : list (A * B)) (x : A) (v : B) : list (A * B) :=
    match d with
    | [] => [(x, v)]
    | (k, w) :: r => if eqb x k then (k, v) :: r else (k, w) :: dset r x v
    end.
  (** [s.add(x)]; [s.remove(x)] *)
  Definition sadd (x : A) (s : list A) : list A := if memb x s then s else s ++ [x].
  Definition sremove (x : A) (s : list A) : list A := filter (fun y => negb (eqb x y)) s.
  (** [set(l)] *)
  Definition mkset (l : list A) : list A := fold_left (fun s x => sadd x s) l [].

  (** the edges of the dict in the order of the nested loops *)
  Definition edge_list (d : list (A * list A)) : list (A * A) :=
    flat_map (fun kv => map (fun m => (fst kv, m)) (snd kv)) d.

  (** [reverse_dict], internal_utils.py:38-55: [result[val] = result.get(val, ()) + (key,)] *)
  Definition rev_step (r : list (A * list A)) (e : A * A) : list (A * list A) :=
    let (key, val) := e in
    dset r val ((match dget r val with Some t => t | None => [] end) ++ [key]).
  Definition reverse_dict (d : list (A * list A)) : list (A * list A) :=
    fold_left rev_step (edge_list d) [].

  (** [S.pop()]: any element; the schedule gives its position *)
  Definition pop_at (i : nat) (s : list A) : option (A * list A) :=
    match nth_error s (i mod (length s)) with
    | Some x => Some (x, firstn (i mod length s) s ++ skipn (S (i mod length s)) s)
    | None => None
    end.

  (** the [for m in edges.get(n, ())] loop, internal_utils.py:85-89 *)
  Fixpoint relax (n : A) (ms : list A) (inc : list (A * list A)) (s : list A)
    : res (list (A * list A) * list A) :=
    match ms with
    | [] => Ok (inc, s)
    | m :: ms' =>
        match dget inc m with
        | None => Raise KeyErr
        | Some l =>
            if memb n l then
              let l' := sremove n l in
              let inc' := dset inc m l' in
              relax n ms' inc' (match l' with [] => sadd m s | _ => s end)
            else Raise AssertErr
        end
    end.

  (** the [while S] loop, :82-89; [sch k] is the position popped when [k] nodes are out.
      [fuel] bounds the number of iterations (theorem: it is never exhausted) *)
  Fixpoint kahn (sch : nat -> nat) (edges : list (A * list A)) (fuel : nat)
      (l : list A) (s : list A) (inc : list (A * list A)) : res (list A * list (A * list A)) :=
    match s with
    | [] => Ok (l, inc)
    | _ :: _ =>
        match fuel with
        | O => Raise OutOfFuel
        | S f =>
            match pop_at (sch (length l)) s with
            | None => Raise NotModelled
            | Some (n, s') =>
                let! (inc', s'') :=
                  relax n (match dget edges n with Some ms => ms | None => [] end) inc s' in
                kahn sch edges f (l ++ [n]) s'' inc'
            end
        end
    end.

  (** [_toposort], :60-92 *)
  Definition toposort (sch : nat -> nat) (edges : list (A * list A)) : res (list A) :=
    let inc := map (fun kv => (fst kv, mkset (snd kv))) (reverse_dict edges) in
    let s := filter (fun v => match dget inc v with None => true | Some _ => false end)
                    (map fst edges) in
    let! (l, inc') := kahn sch edges (S (length edges + length (edge_list edges))) [] s inc in
    if existsb (fun v => match dget inc' v with Some (_ :: _) => true | _ => false end)
               (map fst edges)
    then Raise ValueErr
    else Ok l.

  (** [descendents], discovery.py:417-431. [fuel] bounds the iterations. *)
  Definition succs (d : list (A * list A)) (x : A) : list A :=
    match dget d x with Some l => l | None => [] end.
  Fixpoint desc_loop (d : list (A * list A)) (fuel : nat) (desc : list A) : res (list A) :=
    match fuel with
    | O => Raise OutOfFuel
    | S f =>
        let children := filter (fun c => negb (memb c desc)) (mkset (flat_map (succs d) desc)) in
        match children with
        | [] => Ok desc
        | _ :: _ => desc_loop d f (desc ++ children)
        end
    end.
  Definition descendents (d : list (A * list A)) (x : A) : res (list A) :=
    match succs d x with
    | [] => Ok [x]
    | _ :: _ => desc_loop d (S (S (length (edge_list d)))) [x]
    end.
End Graph.

(** [groupby(func, seq)], internal_utils.py:97-118, for a boolean [func]: the lists under
    [False] and [True] *)
Definition groupby_bool {A} (f : A -> bool) (l : list A) : list A * list A :=
  (filter (fun x => negb (f x)) l, filter f l).
