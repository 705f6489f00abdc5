(** Sanity tests of the model against the repository's own test-suite and docs
    (these are tests, not proofs). *)
From Verif Require Import Base Types Lexer Printer Construct Parser.

Definition U0 : uni := {| e_print := fun c => (160 <? c)%N; e_upper := fun _ => false |}.
Definition E0 : env := {| e_uni := U0; e_disc := fun _ => Raise NotModelled |}.
Definition D (s : str) : res ty := dshape E0 s.
(** [dshape(a) == dshape(b)] *)
Definition same (a b : str) : bool :=
  match D a, D b with Ok x, Ok y => py_eq x y | _, _ => false end.
Definition shows (a b : str) : bool :=
  match D a with Ok x => str_eqb (py_str U0 x) b | _ => false end.
Definition shows_pp (w : Z) (a b : str) : bool :=
  match D a with Ok x => str_eqb (pprint U0 x w) b | _ => false end.
Definition fails (a : str) (e : exn) : Prop := D a = Raise e.
Definition nl : str := [10%N].
Definition id (s : str) : bool := shows s s.

Example t01 : D $"int32" = Ok (DataShapeT None [int32_t]). Proof. vm_compute; reflexivity. Qed.
Example t02 : id $"3 * int32" = true. Proof. vm_compute; reflexivity. Qed.
Example t03 : id $"var * {name: string, amount: int32}" = true. Proof. vm_compute; reflexivity. Qed.
Example t04 : id $"(int32, 3 * ?float64) -> 3 * (int8, string['A'])" = true. Proof. vm_compute; reflexivity. Qed.
Example t05 : id $"A... * M * map[string, ?int32]" = true. Proof. vm_compute; reflexivity. Qed.
Example t06 : shows $"timedelta[unit='days']" $"timedelta[unit='D']" = true. Proof. vm_compute; reflexivity. Qed.
Example t07 : id $"decimal[precision=11, scale=2]" = true. Proof. vm_compute; reflexivity. Qed.
Example t08 : id $"categorical[['a', 'b'], type=string, ordered=False]" = true. Proof. vm_compute; reflexivity. Qed.
Example t09 : shows $"string[10, ""ascii""]" $"string[10, 'A']" = true. Proof. vm_compute; reflexivity. Qed.
Example t10 : fails $"... * ... * int32" TypeErr. Proof. vm_compute; reflexivity. Qed.
Example t11 : fails $"T * ..." (SyntaxErr 4 MDimOrDtype). Proof. vm_compute; reflexivity. Qed.
Example t12 : fails $"int33" (SyntaxErr 0 MInvalid). Proof. vm_compute; reflexivity. Qed.
Example t13 : fails $"{a: int32, a: int8}" ValueErr. Proof. vm_compute; reflexivity. Qed.
Example t14 : same $"{'a': int32,}" $"{a: int}" = true. Proof. vm_compute; reflexivity. Qed.
Example t15 : same $"option[int32]" $"?int32" = true. Proof. vm_compute; reflexivity. Qed.
Example t16 : same $"option['3 * int32']" $"?3 * int32" = true. Proof. vm_compute; reflexivity. Qed.
Example t17 : same $"struct[['a', 'b'], ['int32', '4 * int8']]" $"{a: int32, b: 4 * int8}" = true. Proof. vm_compute; reflexivity. Qed.
Example t18 : fails $"fixed[3] * int32" NotImplErr. Proof. vm_compute; reflexivity. Qed.
(* the doctest of pprint, coretypes.py:1356-1400 *)
Definition pp_src : str :=
  $"5000000000 * { a: (int, float32, real, string, datetime), b: {c: 5 * int, d: var * 100 * float32} }".
Example t19 : shows_pp 80 pp_src
  ($"5000000000 * {" ++ nl ++
   $"  a: (int32, float32, float64, string, datetime)," ++ nl ++
   $"  b: {c: 5 * int32, d: var * 100 * float32}" ++ nl ++ $"  }") = true.
Proof. vm_compute; reflexivity. Qed.
Example t20 : shows_pp 30 pp_src
  ($"5000000000 * {" ++ nl ++ $"  a: (" ++ nl ++ $"    int32," ++ nl ++ $"    float32," ++ nl ++
   $"    float64," ++ nl ++ $"    string," ++ nl ++ $"    datetime" ++ nl ++ $"    )," ++ nl ++
   $"  b: {" ++ nl ++ $"    c: 5 * int32," ++ nl ++ $"    d: var * 100 * float32" ++ nl ++
   $"    }" ++ nl ++ $"  }") = true.
Proof. vm_compute; reflexivity. Qed.
Example t21 : id $"units['kg', int32]" = true. Proof. vm_compute; reflexivity. Qed.
Example t22 : id $"units['kg']" = true. Proof. vm_compute; reflexivity. Qed.
Example t23 : shows $"{'hello world': int, ""it's"": int}" $"{'hello world': int32, ""it's"": int32}" = true. Proof. vm_compute; reflexivity. Qed.
Example t24 : same $"var int32" $"int32" = true. Proof. vm_compute; reflexivity. Qed.
Example t25 : same $"(int32, ?)" $"(int32)" = true. Proof. vm_compute; reflexivity. Qed.
Example t26 : same $"string[?10]" $"string[10]" = true. Proof. vm_compute; reflexivity. Qed.
