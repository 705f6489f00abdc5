(** Specification for C60: the storage of NumPy's dtypes on 64-bit platforms, and options. *)
From Verif Require Import Base Types Numpy.
Local Open Scope Z_scope.

(** bytes per element (dtype.itemsize) *)
Fixpoint StoreBytes (d : npdt) : Z :=
  match d with
  | NBool => 1
  | NInt s | NUInt s => ibits s / 8
  | NFloat s => fbits s / 8
  | NComplex s => cbits s / 8
  | NObject => 8
  | NVoid n | NBytes n => n
  | NUnicode n => 4 * n
  | NDatetime _ _ | NTimedelta _ _ => 8
  | NSwap d' => StoreBytes d'
  | NStruct fs => fold_right (fun f acc => fold_right Z.mul 1 (fst (snd f)) * StoreBytes (snd (snd f)) + acc) 0 fs
  end.
(** the alignment of scalars (dtype.alignment): a complex number is a pair *)
Fixpoint StoreAlign (d : npdt) : Z :=
  match d with
  | NInt s | NUInt s => ibits s / 8
  | NFloat s => fbits s / 8
  | NComplex s => cbits s / 16
  | NObject | NDatetime _ _ | NTimedelta _ _ => 8
  | NUnicode _ => 4
  | NSwap d' => StoreAlign d'
  | _ => 1
  end.
(** [t], [?t], [??t], ... *)
Inductive Optional (t : ty) : ty -> Prop :=
| Optional_none : Optional t t
| Optional_some u : Optional t u -> Optional t (OptionT u).
