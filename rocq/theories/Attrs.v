(** Attributes of datashape objects: [itemsize], [alignment], [argtypes], [restype] (coretypes.py),
    and reading an attribute of a type that lacks it. *)
From Verif Require Import Base Types.
Local Open Scope Z_scope.

(** [t.itemsize]: CType :796-799 (the size given to the constructor :757-760), Option :736-738
    (that of the type inside). No other class has the attribute. *)
Fixpoint py_itemsize (t : ty) : res Z :=
  match t with
  | CType _ i _ => Ok i
  | OptionT t' => py_itemsize t'
  | _ => Raise AttributeErr
  end.
(** [t.alignment]: only CType, :801-804 *)
Definition py_alignment (t : ty) : res Z :=
  match t with CType _ _ a => Ok a | _ => Raise AttributeErr end.
(** [t.restype], [t.argtypes]: Function, :886-892; [parameters[-1]] and [parameters[:-1]] *)
Definition py_restype (t : ty) : res ty :=
  match t with
  | FunctionT [] => Raise IndexErr
  | FunctionT l => Ok (last l NullT)
  | _ => Raise AttributeErr
  end.
Definition py_argtypes (t : ty) : res (list ty) :=
  match t with FunctionT l => Ok (removelast l) | _ => Raise AttributeErr end.
