(** Base definitions shared by the whole model: Python strings as lists of code
    points, exceptions as values, and a few list helpers (Python builtins). *)
From Coq Require Import Ascii String.
From Coq Require Export List Bool Arith NArith ZArith Lia.
Export ListNotations.
Export String.StringSyntax.

(** A Python 3 [str] is a sequence of Unicode code points. *)
Notation char := N (only parsing).
Notation str := (list N).

Fixpoint s2l (s : String.string) : str :=
  match s with
  | EmptyString => []
  | String.String a r => N_of_ascii a :: s2l r
  end.

Declare Scope str_scope.
Delimit Scope str_scope with str.
Notation "$ x" := (s2l x%string) (at level 1, format "$ x").

(** [a == b] on strings. *)
Fixpoint str_eqb (a b : str) : bool :=
  match a, b with
  | [], [] => true
  | x :: a', y :: b' => N.eqb x y && str_eqb a' b'
  | _, _ => false
  end.

Lemma str_eqb_eq a b : str_eqb a b = true <-> a = b.
Proof.
  revert b; induction a as [|x a IH]; intros [|y b]; simpl; split; intro H; try discriminate; auto.
  - apply andb_true_iff in H as [H1 H2]. apply N.eqb_eq in H1. apply IH in H2. now subst.
  - inversion H; subst. rewrite N.eqb_refl. now apply IH.
Qed.
Lemma str_eqb_refl a : str_eqb a a = true.
Proof. now apply str_eqb_eq. Qed.
Lemma str_eqb_neq a b : str_eqb a b = false <-> a <> b.
Proof.
  rewrite <- str_eqb_eq. destruct (str_eqb a b); split; congruence.
Qed.
Lemma str_eqb_sym a b : str_eqb a b = str_eqb b a.
Proof.
  destruct (str_eqb b a) eqn:E.
  - apply str_eqb_eq in E; subst; apply str_eqb_refl.
  - apply str_eqb_neq in E. apply str_eqb_neq. congruence.
Qed.
Lemma str_eq_dec (a b : str) : {a = b} + {a <> b}.
Proof. apply (list_eq_dec N.eq_dec). Defined.

Definition ostr_eqb (a b : option str) : bool :=
  match a, b with
  | None, None => true
  | Some x, Some y => str_eqb x y
  | _, _ => false
  end.
Lemma ostr_eqb_eq a b : ostr_eqb a b = true <-> a = b.
Proof.
  destruct a, b; simpl; split; intro H; try discriminate; auto.
  - apply str_eqb_eq in H; now subst.
  - inversion H; apply str_eqb_refl.
Qed.

Definition oZ_eqb (a b : option Z) : bool :=
  match a, b with
  | None, None => true
  | Some x, Some y => Z.eqb x y
  | _, _ => false
  end.
Lemma oZ_eqb_eq a b : oZ_eqb a b = true <-> a = b.
Proof.
  destruct a, b; simpl; split; intro H; try discriminate; auto.
  - apply Z.eqb_eq in H; now subst.
  - inversion H; apply Z.eqb_refl.
Qed.

(** [x in l] for strings. *)
Fixpoint mem_str (x : str) (l : list str) : bool :=
  match l with
  | [] => false
  | y :: r => str_eqb x y || mem_str x r
  end.
Lemma mem_str_In x l : mem_str x l = true <-> In x l.
Proof.
  induction l as [|y l IH]; simpl; [split; [discriminate|tauto]|].
  rewrite orb_true_iff, IH, str_eqb_eq. split; intros [H|H]; auto.
Qed.

(** [len(set(l)) == len(l)]. *)
Fixpoint nodup_str (l : list str) : bool :=
  match l with
  | [] => true
  | x :: r => negb (mem_str x r) && nodup_str r
  end.
Lemma nodup_str_NoDup l : nodup_str l = true <-> NoDup l.
Proof.
  induction l as [|x l IH]; simpl.
  - split; [constructor|auto].
  - rewrite andb_true_iff, negb_true_iff, IH.
    split.
    + intros [H1 H2]; constructor; auto. rewrite <- mem_str_In. congruence.
    + intro H; inversion H; subst. split; auto.
      destruct (mem_str x l) eqn:E; auto. apply mem_str_In in E. contradiction.
Qed.

(** The messages of DataShapeSyntaxError, as given by lexer.py:96-98 and the [raise_error] and
    [parse_homogeneous_list] calls of parser.py; their texts are in Objects.v ([msg_text]). *)
Inductive synmsg :=
| MToken                       (* lexer.py:98 *)
| MMissing (name what : str)   (* parser.py:121-122, [syntactic_sugar] *)
| MDimOrDtype                  (* :167 *)
| MClosing                     (* :232 *)
| MNoArgument                  (* :300-301 *)
| MBadArgument                 (* :305 *)
| MKeyword                     (* :349-351 *)
| MListArgument                (* :389-390 *)
| MListSeparator               (* :392 *)
| MArgument                    (* :416 *)
| MAnotherDatashape            (* :426-428 *)
| MAnotherInteger              (* :449-451 *)
| MAnotherBoolean              (* :472-474 *)
| MAnotherString               (* :495-497 *)
| MField                       (* :511, 514 *)
| MColon                       (* :541-542 *)
| MFieldDatashape              (* :546 *)
| MTuple                       (* :568, 572 *)
| MReturn                      (* :584-585 *)
| MInvalid                     (* :608 *)
| MUnexpected.                 (* :612 *)

(** Python exceptions as values. Only the class is modelled, and
    for DataShapeSyntaxError its [lexpos] and message. [OutOfFuel] and [NotModelled] never
    come from Python: the first is the model's recursion bound (theorems show it
    is never produced), the second marks behaviour left out of the model. *)
Inductive exn :=
| SyntaxErr (pos : nat) (msg : synmsg)      (* DataShapeSyntaxError(lexpos, .., .., msg) *)
| TypeErr | ValueErr | KeyErr | IndexErr | AttributeErr | NotImplErr
| AssertErr | UnboundErr | OverflowErr | ZeroDivErr | StopIterErr | RecursionErr
| OutOfFuel
| NotModelled.

Inductive res (A : Type) :=
| Ok (a : A)
| Raise (e : exn).
Arguments Ok {A} a.
Arguments Raise {A} e.

Definition bind {A B} (r : res A) (f : A -> res B) : res B :=
  match r with Ok a => f a | Raise e => Raise e end.
Notation "'let!' x ':=' r 'in' k" := (bind r (fun x => k))
  (at level 200, x pattern, r at level 100, k at level 200, right associativity).
Definition is_ok {A} (r : res A) : bool := match r with Ok _ => true | _ => false end.

Definition mapM {A B} (f : A -> res B) : list A -> res (list B) :=
  fix go (l : list A) : res (list B) :=
  match l with
  | [] => Ok []
  | x :: r => let! y := f x in let! ys := go r in Ok (y :: ys)
  end.
Lemma mapM_cons {A B} (f : A -> res B) x l :
  mapM f (x :: l) = let! y := f x in let! ys := mapM f l in Ok (y :: ys).
Proof. reflexivity. Qed.

Lemma mapM_Ok_Forall2 {A B} (f : A -> res B) l l' :
  mapM f l = Ok l' <-> Forall2 (fun x y => f x = Ok y) l l'.
Proof.
  revert l'; induction l as [|x l IH]; intro l'; [simpl|rewrite mapM_cons].
  - split; intro H; [inversion H; constructor|inversion H; auto].
  - split.
    + destruct (f x) eqn:E; simpl; [|discriminate].
      destruct (mapM f l) eqn:E2; simpl; [|discriminate].
      intro H; inversion H; subst. constructor; auto. now apply IH.
    + intro H; inversion H as [|? ? ? ? H1 H2]; subst. rewrite H1; simpl. apply IH in H2. rewrite H2. reflexivity.
Qed.

Lemma mapM_length {A B} (f : A -> res B) l l' : mapM f l = Ok l' -> length l' = length l.
Proof. intro H; apply mapM_Ok_Forall2 in H. induction H; simpl; congruence. Qed.

(** Element-wise [==] of two tuples/lists. *)
Fixpoint list_eqb {A} (eq : A -> A -> bool) (l m : list A) : bool :=
  match l, m with
  | [], [] => true
  | x :: l', y :: m' => eq x y && list_eqb eq l' m'
  | _, _ => false
  end.

Lemma list_eqb_Forall2 {A} (eq : A -> A -> bool) l m :
  list_eqb eq l m = true <-> Forall2 (fun x y => eq x y = true) l m.
Proof.
  revert m; induction l as [|x l IH]; intros [|y m]; simpl.
  - split; auto.
  - split; intro H; [discriminate|inversion H].
  - split; intro H; [discriminate|inversion H].
  - rewrite andb_true_iff, IH. split.
    + intros [H1 H2]; constructor; auto.
    + intro H; inversion H; subst; auto.
Qed.

(** Association lists model dicts with string keys ([d.get(k)]). *)
Fixpoint assoc {A} (k : str) (l : list (str * A)) : option A :=
  match l with
  | [] => None
  | (k', v) :: r => if str_eqb k k' then Some v else assoc k r
  end.

(** [l[:-1]] is [removelast l]. *)
Definition last_opt {A} (l : list A) : option A :=
  match rev l with [] => None | x :: _ => Some x end.

Lemma last_opt_app {A} (l : list A) x : last_opt (l ++ [x]) = Some x.
Proof. unfold last_opt. rewrite rev_app_distr. reflexivity. Qed.

Lemma list_rev_case {A} (l : list A) : l = [] \/ exists l' x, l = l' ++ [x].
Proof.
  destruct (rev l) as [|x r] eqn:E.
  - left. rewrite <- (rev_involutive l), E. reflexivity.
  - right. exists (rev r), x. rewrite <- (rev_involutive l), E. reflexivity.
Qed.

(** drop the longest prefix of characters satisfying [p] *)
Fixpoint drop_while (p : char -> bool) (s : str) : str :=
  match s with
  | [] => []
  | c :: r => if p c then drop_while p r else s
  end.

(** ['sep'.join(l)] *)
Fixpoint join (sep : str) (l : list str) : str :=
  match l with
  | [] => []
  | [x] => x
  | x :: r => x ++ sep ++ join sep r
  end.
