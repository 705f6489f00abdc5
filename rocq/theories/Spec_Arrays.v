(** When an array of Python objects counts as an array of strings. *)
From Verif Require Import Base Types Construct Printer Numpy Discovery Arrays.

Definition IsText (v : dval) : Prop := exists s, v = DStr s.
(** none of the first five values is anything but a string *)
Definition LooksText (l : list dval) : Prop := forall i v, (i < 5)%nat -> nth_error l i = Some v -> IsText v.
(** [t'] is [t], except that an object column that looks like text has become string *)
Inductive Column (l : list dval) : ty -> ty -> Prop :=
| co_text : LooksText l -> Column l object_t string_t
| co_object : ~ LooksText l -> Column l object_t object_t
| co_other t : t <> object_t -> Column l t t.
(** the measure of the array, given the one of its dtype *)
Inductive Measures (c : content) : ty -> ty -> Prop :=
| me_record fs gs :
    Forall2 (fun f g => fst g = fst f /\ Column (c_field c (fst f)) (snd f) (snd g)) fs gs ->
    Measures c (RecordT fs) (RecordT gs)
| me_plain m m' : (forall fs, m <> RecordT fs) -> Column (c_self c) m m' -> Measures c m m'.
