(** discovery.py: arrays of Python objects with their contents. *)
From Verif Require Import Base Types Lexer Printer Construct Parser Ops Preds Numpy Graph Discovery.
Local Open Scope Z_scope.

(** The elements of an array with dtype object, in the order of [x.flat]; for a structured array
    the elements of [x[name]] for each field. *)
Record content := { c_self : list dval; c_field : str -> list dval }.
(** [isinstance(i, _strtypes)] *)
Definition is_str (v : dval) : bool := match v with DStr _ => true | _ => false end.
(** [is_string_array], discovery.py:387-395: [x.flat[:5]] *)
Definition is_string_array (l : list dval) : bool := forallb is_str (firstn 5 l).
(** [discover] on an ndarray, discovery.py:398-414, the tests on its columns being those of
    [is_string_array] *)
Definition discover_ndarray (sc : sched) (so : strings) (shp : list Z) (dt : npdt) (c : content) : res ty :=
  discover sc so (DArr shp dt (fun col => match col with
                                          | None => is_string_array (c_self c)
                                          | Some n => is_string_array (c_field c n)
                                          end)).
