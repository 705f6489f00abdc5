(** Examples from datashape/tests/test_discovery.py, run on the model. *)
From Verif Require Import Base Types Lexer Printer Construct Parser Ops Preds Numpy Graph Discovery Tests_Parser.
Local Open Scope Z_scope.

Definition sc0 : sched := {| sc_pop := fun _ => O; sc_rev := fun _ => false |}.
Definition sc1 : sched := {| sc_pop := fun n => n; sc_rev := fun _ => true |}.
(** stand-ins for Python's parsers, good for the strings below *)
Definition so0 : strings := {|
  so_int := fun s => forallb is_digit s;
  so_float := fun s => if forallb is_digit s then Some (Some (int_val s))
                       else if forallb (fun c => is_digit c || N.eqb c 46) s then Some None else None;
  so_time := fun s => str_eqb s $"12:00:01";
  so_alpha := fun s => forallb (fun c => (N.leb 65 c && N.leb c 90) || (N.leb 97 c && N.leb c 122))%bool s;
  so_date := fun s => if str_eqb s $"2014-01-01" then Ok true
                      else if str_eqb s $"1991-02-03 04:05:06" then Ok false else Raise ValueErr |}.
Definition disc0 := discover sc0 so0.
Definition S_ (s : str) := DStr s.
(** [r == t] *)
Definition is (r : res ty) (t : ty) : bool := match r with Ok u => py_eq u t | Raise _ => false end.
Definition L (l : list dval) := DSeq KList l.
Definition T_ (l : list dval) := DSeq KTuple l.
Definition D (l : list (str * dval)) := DMap KDict l.

Example t_simple : map disc0 [DInt 3; DFloat; DComplex; S_ $"Hello"; DBool true; DNone] =
  [Ok int64_t; Ok float64_t; Ok complex128_t; Ok string_t; Ok bool_t; Ok NullT].
Proof. vm_compute; reflexivity. Qed.
Example t_list : disc0 (L [DInt 1; DInt 2; DInt 3]) = mul_int 3 int64_t.
Proof. vm_compute; reflexivity. Qed.
Example t_heterogeneous : is (disc0 (T_ [S_ $"Hello"; DInt 1])) (TupleT [string_t; int64_t]) = true.
Proof. vm_compute; reflexivity. Qed.
Example t_string : map disc0 [S_ $"1"; S_ $"1.0"; S_ $"True"; S_ $"true"; S_ []; S_ $" "] =
  [Ok int64_t; Ok float64_t; Ok bool_t; Ok bool_t; Ok NullT; Ok string_t].
Proof. vm_compute; reflexivity. Qed.
Example t_record : disc0 (D [($"name", S_ $"Alice"); ($"amount", DInt 100)]) =
  Ok (RecordT [($"amount", int64_t); ($"name", string_t)]).
Proof. vm_compute; reflexivity. Qed.
Example t_ordered : disc0 (DMap KOrdered [($"c", DInt 1); ($"b", S_ $"cs"); ($"a", DFloat)]) =
  Ok (RecordT [($"c", int64_t); ($"b", string_t); ($"a", float64_t)]).
Proof. vm_compute; reflexivity. Qed.
Example t_dates : map disc0 [S_ $"2014-01-01"; S_ $"1991-02-03 04:05:06"; S_ $"12:00:01"; DDate; DTime] =
  [Ok DateT; Ok (DateTimeT None); Ok (TimeT None); Ok DateT; Ok (TimeT None)].
Proof. vm_compute; reflexivity. Qed.
Example t_deltas : map disc0 [S_ $"1 day"; S_ $"3 seconds"; S_ $"1003 milliseconds"] =
  [Ok (TimeDeltaT $"D"); Ok (TimeDeltaT $"s"); Ok (TimeDeltaT $"ms")].
Proof. vm_compute; reflexivity. Qed.
Example t_integrative :
  disc0 (L [D [($"name", S_ $"Alice"); ($"amount", S_ $"100")]; D [($"name", S_ $"Bob"); ($"amount", S_ $"200")];
            D [($"name", S_ $"Charlie"); ($"amount", S_ $"300")]]) =
  Ok (DataShapeT None [FixedT 3; RecordT [($"amount", int64_t); ($"name", string_t)]]).
Proof. vm_compute; reflexivity. Qed.
Example t_unite_tuples :
  is (disc0 (L [L [DInt 1; DInt 1; S_ $"hello"]; L [DInt 1; S_ []; S_ []]; L [DInt 1; DInt 1; S_ $"hello"]])) (DataShapeT None [FixedT 3; TupleT [int64_t; OptionT int64_t; OptionT string_t]]) = true.
Proof. vm_compute; reflexivity. Qed.
Example t_missing :
  is (disc0 (L [L [DInt 1; DInt 2; S_ []; DInt 3]; L [DInt 1; DInt 2; S_ []; DInt 3]; L [DInt 1; DInt 2; S_ []; DInt 3]])) (DataShapeT None [FixedT 3; TupleT [int64_t; int64_t; NullT; int64_t]]) = true.
Proof. vm_compute; reflexivity. Qed.
Example t_mixed :
  disc0 (L [L [DInt 1; DInt 2; DFloat; DFloat]; L [DFloat; DFloat; DInt 1; DInt 2]]) =
  Ok (DataShapeT None [FixedT 2; FixedT 4; float64_t]).
Proof. vm_compute; reflexivity. Qed.
Example t_appropriate : is (disc0 (T_ [DInt 1; DFloat])) (TupleT [int64_t; float64_t]) = true /\
  is (disc0 (L [T_ [DInt 1; DFloat]; T_ [DInt 1; DFloat]; T_ [DInt 1; DInt 1]])) (DataShapeT None [FixedT 3; TupleT [int64_t; float64_t]]) = true.
Proof. vm_compute; auto. Qed.
Example t_unite_base : unite_base sc0 [DateT; DateTimeT None] = mul_int 2 (DateTimeT None) /\
  unite_base sc0 [int32_t; NullT; int32_t] = mul_int 3 (OptionT int32_t).
Proof. vm_compute; auto. Qed.
Example t_unite_merge : unite_merge [DataShapeT None [FixedT 3; int32_t]; DataShapeT None [FixedT 2; int32_t]] =
  Ok (Some (DataShapeT None [FixedT 2; VarT; int32_t])).
Proof. vm_compute; auto. Qed.
Example t_records :
  unite_base sc0 [RecordT [($"name", string_t); ($"amount", int32_t)]; RecordT [($"name", string_t); ($"amount", int64_t)]] =
    Ok (DataShapeT None [FixedT 2; RecordT [($"name", string_t); ($"amount", int64_t)]]) /\
  unite_base sc0 [NullT; RecordT [($"name", string_t); ($"amount", int32_t)]] =
    Ok (DataShapeT None [FixedT 2; OptionT (RecordT [($"name", string_t); ($"amount", int32_t)])]).
Proof. vm_compute; auto. Qed.
Example t_difference :
  disc0 (L [D [($"name", S_ $"Alice"); ($"amount", DInt 100)]; D [($"name", S_ $"Bob"); ($"house_color", S_ $"blue")]]) =
  Ok (DataShapeT None [FixedT 2;
        RecordT [($"amount", OptionT int64_t); ($"house_color", OptionT string_t); ($"name", string_t)]]).
Proof. vm_compute; reflexivity. Qed.
Example t_array : disc0 (DArr [2] NObject (fun _ => true)) = mul_int 2 string_t.
Proof. vm_compute; reflexivity. Qed.
Example t_bytes : disc0 DBytes = mk_string None (Some $"A") /\ disc0 DOther = Raise NotImplErr.
Proof. vm_compute; auto. Qed.
Example t_empty : disc0 (L []) = Ok (DataShapeT None [VarT; string_t]) /\ disc0 (DSeq KSet []) = Ok (DataShapeT None [VarT; string_t]).
Proof. vm_compute; auto. Qed.
