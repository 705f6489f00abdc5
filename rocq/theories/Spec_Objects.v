(** Specifications for C50-C55. *)
From Verif Require Import Base Types Spec_WF.
Local Open Scope Z_scope.

(** [x] is item [i] of the Python sequence [l]: counted from the left from 0, or from the
    right from -1 *)
Definition ItemAt {A} (l : list A) (i : Z) (x : A) : Prop :=
  exists pre post, l = pre ++ x :: post /\ (i = Z.of_nat (length pre) \/ i = - Z.of_nat (length (x :: post))).

(** ** Python string literals without escapes, and what they stand for *)
Definition Bare (s : str) : Prop := Forall (fun c => c <> 34%N /\ c <> 92%N /\ c <> 13%N) s.
Inductive Literal : str -> str -> Prop :=
| Literal_one s : Bare s -> ~ In 10%N s -> Literal ([34%N] ++ s ++ [34%N]) s
| Literal_three s : Bare s -> Literal ([34%N; 34%N; 34%N] ++ s ++ [34%N; 34%N; 34%N]) s.

(** Texts that Python's [repr] and a double-quoted literal leave alone: printable, without
    quotes and backslashes *)
From Verif Require Import Lexer Printer.
Definition QuietChar (U : uni) (c : char) : Prop :=
  ((32 <= c <= 126)%N /\ c <> 34%N /\ c <> 39%N /\ c <> 92%N) \/ ((128 <= c)%N /\ e_print U c = true).
Definition QuietText (U : uni) (s : str) : Prop := Forall (QuietChar U) s.
(** the texts stored in one object *)
Definition texts (t : ty) : list str :=
  match t with
  | CType n _ _ => [n]
  | TimeT (Some z) | DateTimeT (Some z) => [z]
  | TimeDeltaT u | UnitsT u _ => [u]
  | StringT _ e => [e]
  | TypeVarT s | EllipsisT (Some s) => [s]
  | DataShapeT (Some n) _ | TypeSetT _ (Some n) => [n]
  | RecordT fs => map fst fs
  | CategoricalT c _ _ => flat_map (fun l => match l with LStr s => [s] | _ => [] end) c
  | _ => []
  end.
Definition Quiet (U : uni) (t : ty) : Prop := forall u s, Occurs u t -> In s (texts u) -> QuietText U s.
