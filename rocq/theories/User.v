(** user.py: validate, issubschema. *)
From Verif Require Import Base Types Lexer Construct Parser Ops Preds.
Local Open Scope Z_scope.

(** Python values. Opaque payloads ([N]) stand for data [validate] never looks at.
    [VGeneric]: a numpy scalar; [VDict]: a dict (entries whose key is not a string are left
    out, [d.get] is only called with field names); [VArray d]: a numpy array for which
    [from_numpy(value.shape, value.dtype)] is [d]; [VOther]: any other object. *)
Inductive value :=
| VNone | VBool (b : bool) | VInt (z : Z) | VFloat (x : N) | VString (s : str)
| VDate (x : N) | VTime (x : N) | VDateTime (x : N) | VGeneric (x : N)
| VTuple (l : list value) | VList (l : list value) | VDict (l : list (str * value))
| VArray (d : ty) | VOther (x : N).

(** [isinstance(value, basetypes)], user.py:13 (bool is a subclass of int) *)
Definition is_base (v : value) : bool :=
  match v with
  | VGeneric _ | VInt _ | VBool _ | VFloat _ | VString _ | VDate _ | VTime _ | VDateTime _ => true
  | _ => false
  end.
(** [d.get(k)] *)
Definition dict_get (k : str) (d : list (str * value)) : value :=
  match assoc k d with Some v => v | None => VNone end.
(** [all(f(x) for x in l)] *)
Definition allM {A} (f : A -> res bool) : list A -> res bool :=
  fix go (l : list A) : res bool :=
  match l with
  | [] => Ok true
  | x :: r => let! b := f x in if b then go r else Ok false
  end.
(** [any(f(x) for x in l)] *)
Definition anyM {A} (f : A -> res bool) : list A -> res bool :=
  fix go (l : list A) : res bool :=
  match l with
  | [] => Ok false
  | x :: r => let! b := f x in if b then Ok true else go r
  end.
(** [issubschema(a, b)] for DataShapes, user.py:91-98; True or None *)
Definition issubschema (a b : ty) : bool := py_eq a b.

Section Validate.
  (** [np.issubdtype(type(value), to_numpy_dtype(schema))] for a CType schema, user.py:16-23 *)
  Variable np_sub : ty -> value -> res bool.

  (** [int(head)] of a dimension: Fixed.__int__; an Ellipsis has no [__int__] *)
  Definition dim_int (t : ty) : res Z :=
    match t with FixedT n => Ok n | _ => Raise TypeErr end.

  (** [validate(schema, value)] for a schema object, user.py:21-85, as truth value of the
      result (the code also returns None, which is false). Recursion on fuel. *)
  Fixpoint validF (n : nat) (t : ty) (v : value) : res bool :=
    match n with
    | O => Raise OutOfFuel
    | S n' =>
      match t, v with
      | DataShapeT _ ps, (VTuple l | VList l) =>                        (* :26-32 *)
          match ps with
          | [] => Raise IndexErr
          | head :: rest =>
              let! b := (match rest with [] => validF n' head v | _ => Ok false end) in
              if b then Ok true
              else if is_dimension head then
                let! ok := (match head with
                            | VarT => Ok true
                            | _ => let! k := dim_int head in Ok (Z.eqb k (Z.of_nat (length l)))
                            end) in
                if ok then allM (fun item => let! d := mk_ds rest in validF n' d item) l
                else Ok false
              else Ok false
          end
      | DataShapeT _ _, VArray d =>                                     (* :83-85 *)
          match d with
          | DataShapeT _ _ => Ok (issubschema d t)
          | _ => Raise RecursionErr      (* an array without dimensions: Objects.issubschema_any *)
          end
      | DataShapeT _ ps, _ =>                                           (* :35-38 *)
          match ps with [x] => validF n' x v | _ => Ok false end
      | RecordT fs, VDict d =>                                          (* :41-43 *)
          allM (fun f => validF n' (snd f) (dict_get (fst f) d)) fs
      | RecordT fs, (VTuple l | VList l) =>                             (* :46-49 *)
          allM (fun p => validF n' (snd (fst p)) (snd p)) (combine fs l)
      | StringT _ _, VString _ | TimeT _, VTime _ | DateT, (VDate _ | VDateTime _)
      | DateTimeT _, VDateTime _ => Ok true                             (* :75-80 *)
      | CType _ _ _, _ => if is_base v then np_sub t v else Ok false    (* :21-23 *)
      | _, _ => Ok false                                                (* :70-72 *)
      end
    end.
  Definition validate_value (t : ty) (v : value) : res bool := validF (S (tsize t)) t v.

  (** schemas: a datashape object, a string (:52-54), a tuple (:62-64), a class (:57-59,
      [isinstance] is a parameter), anything else (:70-72) *)
  Inductive schema :=
  | SchTy (t : ty) | SchStr (s : str) | SchTuple (l : list schema) | SchType (c : N) | SchOther.
  Variable py_isinstance : value -> N -> bool.
  Variable E : env.
  Fixpoint validate_schema (s : schema) (v : value) : res bool :=
    match s with
    | SchTy t => validate_value t v
    | SchStr s => let! d := dshape E s in validate_value d v
    | SchTuple l => anyM (fun x => validate_schema x v) l
    | SchType c => Ok (py_isinstance v c)
    | SchOther => Ok false
    end.
End Validate.
