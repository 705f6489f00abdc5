(** Specification for C57: which names of a symbol table a text refers to. *)
From Verif Require Import Base Types Lexer Printer Construct Parser.

(** [name] occurs in [s] as a token of its own (a lower-case name) *)
Definition Mentions (s name : str) : Prop :=
  exists t, In t (fst (lex s)) /\ tk_kind t = KLower /\ tk_val t = VStr name.
(** the two tables bind [name] to the same things *)
Definition Agree (s1 s2 : symtab) (name : str) : Prop :=
  st_dtype s1 name = st_dtype s2 name /\ st_dtype_constr s1 name = st_dtype_constr s2 name /\
  st_dim s1 name = st_dim s2 name /\ st_dim_constr s1 name = st_dim_constr s2 name.
(** names behind the special syntax: {...}, (...), (...) -> ..., ?..., upper-case names, numbers
    and ... *)
Definition sugar_names : list str :=
  [$"struct"; $"tuple"; $"funcproto"; $"option"; $"typevar"; $"ellipsis"; $"fixed"].

Definition AgreeSugar (s1 s2 : symtab) : Prop :=
  forall n, In n sugar_names ->
    st_dtype_constr s1 n = st_dtype_constr s2 n /\ st_dim s1 n = st_dim s2 n /\ st_dim_constr s1 n = st_dim_constr s2 n.

(** [sym.dtype[name] = t] and [sym.dim[name] = t], type_symbol_table.py:117-155 (plain dicts) *)
Definition set_dtype (sym : symtab) (name : str) (t : ty) : symtab :=
  {| st_dtype := fun n => if str_eqb n name then Some t else st_dtype sym n;
     st_dtype_constr := st_dtype_constr sym; st_dim := st_dim sym; st_dim_constr := st_dim_constr sym |}.
Definition set_dim (sym : symtab) (name : str) (t : ty) : symtab :=
  {| st_dim := fun n => if str_eqb n name then Some t else st_dim sym n;
     st_dtype := st_dtype sym; st_dtype_constr := st_dtype_constr sym; st_dim_constr := st_dim_constr sym |}.
Definition set_dtype_constr (sym : symtab) (name : str) (c : list targ -> list (str * targ) -> res ty) : symtab :=
  {| st_dtype_constr := fun n => if str_eqb n name then Some c else st_dtype_constr sym n;
     st_dtype := st_dtype sym; st_dim := st_dim sym; st_dim_constr := st_dim_constr sym |}.
