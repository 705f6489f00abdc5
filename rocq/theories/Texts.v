(** The predicates of predicates.py called with any object: texts are read with [dshape] first. *)
From Verif Require Import Base Types Lexer Printer Construct Parser Ops Preds Numpy User Objects.
Local Open Scope Z_scope.

(** [dsarg] (Objects.v) is an argument: a text, a datashape object, a list, or another object,
    which is taken to be hashable and without [__getitem__], [measure] and [ty]. *)

(** [isscalar], predicates.py:19-33: only texts are read; [isinstance] answers False on the rest *)
Definition isscalar_any (E : env) (a : dsarg) : res bool :=
  match a with
  | AStr s => let! t := dshape E s in Ok (isscalar t)
  | ATy t => Ok (isscalar t)
  | AList _ | AOther => Ok false
  end.
(** [isrecord], predicates.py:36-50 *)
Definition isrecord_any (E : env) (a : dsarg) : res bool :=
  match a with
  | AStr s => let! t := dshape E s in Ok (isrecord t)
  | ATy t => Ok (isrecord t)
  | AList _ | AOther => Ok false
  end.
(** [ishomogeneous], predicates.py:67-79, [isfixed], :88-109, [istabular], :112-125, all begin
    with [dshape(ds)] *)
Definition ishomogeneous_any (E : env) (a : dsarg) : res bool :=
  let! t := dshape_any E a in ishomogeneous t.
Definition isfixed_any (E : env) (a : dsarg) : res (option bool) :=
  let! t := dshape_any E a in isfixed t.
Definition istabular_any (E : env) (a : dsarg) : res bool :=
  let! t := dshape_any E a in istabular t.
(** [iscollection], predicates.py:128-138: [isdimension(ds[0])] *)
Definition parg_dimension (x : parg) : bool :=
  match x with PTy t => is_dimension t | PInt _ => true | PStr _ | POther => false end.
Definition iscollection_any (E : env) (a : dsarg) : res bool :=
  match a with
  | AStr s => let! t := dshape E s in iscollection t
  | ATy t => iscollection t
  | AList [] => Raise IndexErr
  | AList (x :: _) => Ok (parg_dimension x)
  | AOther => Raise TypeErr                 (* not subscriptable *)
  end.
(** [isnumeric], predicates.py:141-160: [launder] :163-168, then [to_numpy_dtype] looks at [measure] *)
Definition isnumeric_any (E : env) (a : dsarg) : res bool :=
  match a with
  | AStr s => let! t := dshape E s in isnumeric t
  | ATy t => isnumeric t
  | AList _ | AOther => Raise AttributeErr
  end.
(** [isreal], predicates.py:171-182 *)
Definition isreal_any (E : env) (a : dsarg) : res bool :=
  match a with
  | AStr s => let! t := dshape E s in Ok (isreal t)
  | ATy t => Ok (isreal t)
  | AList _ | AOther => Ok false
  end.
(** [isboolean], predicates.py:185-195: membership in a set hashes the object *)
Definition isboolean_any (E : env) (a : dsarg) : res bool :=
  match a with
  | AStr s => let! t := dshape E s in Ok (isboolean t)
  | ATy t => Ok (isboolean t)
  | AList _ => Raise TypeErr                (* unhashable *)
  | AOther => Ok false
  end.
(** [isdatelike], predicates.py:198-209 *)
Definition isdatelike_any (E : env) (a : dsarg) : res bool :=
  match a with
  | AStr s => let! t := dshape E s in Ok (isdatelike t)
  | ATy t => Ok (isdatelike t)
  | AList _ | AOther => Ok false
  end.
