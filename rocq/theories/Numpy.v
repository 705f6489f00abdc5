(** NumPy conversions: [to_numpy], [to_numpy_dtype], [from_numpy], the
    [to_numpy_dtype] methods and [CType.from_numpy_dtype] (coretypes.py),
    [promote]/[optionify] (promote.py), typesets.py and [isnumeric] (predicates.py). *)
From Verif Require Import Base Types Lexer Printer Construct Preds.
Local Open Scope Z_scope.

(** ** NumPy dtypes
    Sizes of the integer, floating and complex scalar types. [F128]/[C256] are the
    platform's long double. *)
Inductive isz := B8 | B16 | B32 | B64.
Inductive fsz := F16 | F32 | F64 | F128.
Inductive csz := C64 | C128 | C256.

(** A NumPy dtype up to dtype equality (which ignores metadata):
    - [NSwap d]: the scalar dtype [d] in the other byte order;
    - [NDatetime u k] / [NTimedelta u k]: datetime64[ku], timedelta64[ku] ([u] = "generic"
      for the unit-less dtypes);
    - [NBytes n] is 'S<n>', [NUnicode n] is 'U<n>', [NVoid n] is 'V<n>';
    - [NStruct]: fields in order, each with a sub-array shape (empty: no sub-array) and a
      base dtype. Offsets, titles and padding are not modelled, nor is a sub-array dtype
      outside a struct. *)
Inductive npdt :=
| NBool
| NInt (s : isz)
| NUInt (s : isz)
| NFloat (s : fsz)
| NComplex (s : csz)
| NObject
| NVoid (n : Z)
| NBytes (n : Z)
| NUnicode (n : Z)
| NDatetime (unit : str) (num : Z)
| NTimedelta (unit : str) (num : Z)
| NSwap (d : npdt)
| NStruct (fields : list (str * (list Z * npdt))).

Definition ibits (s : isz) : Z := match s with B8 => 8 | B16 => 16 | B32 => 32 | B64 => 64 end.
Definition fbits (s : fsz) : Z := match s with F16 => 16 | F32 => 32 | F64 => 64 | F128 => 128 end.
Definition cbits (s : csz) : Z := match s with C64 => 64 | C128 => 128 | C256 => 256 end.

(** [dt.name] (numpy.core._dtype). *)
Fixpoint np_name (d : npdt) : str :=
  match d with
  | NBool => $"bool"
  | NInt s => $"int" ++ z2s (ibits s)
  | NUInt s => $"uint" ++ z2s (ibits s)
  | NFloat s => $"float" ++ z2s (fbits s)
  | NComplex s => $"complex" ++ z2s (cbits s)
  | NObject => $"object"
  | NVoid n => $"void" ++ (if n =? 0 then [] else z2s (8 * n))
  | NBytes n => $"bytes" ++ (if n =? 0 then [] else z2s (8 * n))
  | NUnicode n => $"str" ++ (if n =? 0 then [] else z2s (32 * n))
  | NDatetime u k => $"datetime64" ++ (if str_eqb u $"generic" then []
                       else $"[" ++ (if k =? 1 then [] else z2s k) ++ u ++ $"]")
  | NTimedelta u k => $"timedelta64" ++ (if str_eqb u $"generic" then []
                       else $"[" ++ (if k =? 1 then [] else z2s k) ++ u ++ $"]")
  | NSwap d' => np_name d'
  | NStruct _ => $"void"      (* only used on the empty struct; others get 'void<bits>' *)
  end.

(** The instances registered with [Type.register] and by [CType.__init__] when
    coretypes is imported, coretypes.py:761,1172-1281 (64-bit Linux). Class names are
    registered too (:39-44) but are capitalised, so never equal to a NumPy name. *)
Definition type_registry : list (str * ty) :=
  [ ($"bool", bool_t); ($"char", char_t); ($"int8", int8_t); ($"int16", int16_t);
    ($"int32", int32_t); ($"int64", int64_t); ($"int", int32_t); ($"uint8", uint8_t);
    ($"uint16", uint16_t); ($"uint32", uint32_t); ($"uint64", uint64_t);
    ($"float16", float16_t); ($"float32", float32_t); ($"float64", float64_t);
    ($"real", float64_t); ($"complex[float32]", complex64_t);
    ($"complex[float64]", complex128_t); ($"complex64", complex64_t);
    ($"complex128", complex128_t); ($"date", DateT); ($"time", TimeT None);
    ($"datetime", DateTimeT None); ($"timedelta", TimeDeltaT $"us"); ($"null", NullT);
    ($"intptr", int64_t); ($"uintptr", uint64_t); ($"void", void_t); ($"object", object_t);
    ($"float", float32_t); ($"double", float64_t); ($"bytes", BytesT); ($"string", string_t) ].

(** ** from NumPy *)

(** [CType.from_numpy_dtype], coretypes.py:763-794 *)
Fixpoint ctype_from_numpy_dtype (d : npdt) : res ty :=
  match assoc (np_name d) type_registry with
  | Some t => Ok t
  | None =>
      match d with
      | NDatetime u _ =>
          if mem_str u [$"D"; $"Y"; $"M"; $"W"] then Ok DateT else Ok (DateTimeT None)
      | NTimedelta u _ => mk_timedelta u
      | NUnicode n => mk_string (Some n) (Some $"U32")
      | NBytes n => mk_string (Some n) (Some $"ascii")
      | NSwap d' => ctype_from_numpy_dtype d'
      | _ => Raise NotImplErr
      end
  end.

(** the end of [from_numpy], coretypes.py:1353-1355 *)
Definition np_array (shp : list Z) (m : ty) : res ty :=
  match shp with
  | [] => Ok m
  | _ => let! dims := mapM mk_fixed shp in mk_ds (dims ++ [m])
  end.

(** the measure computed by [from_numpy], coretypes.py:1338-1352 *)
Fixpoint np_measure (d : npdt) : res ty :=
  match d with
  | NBytes n => mk_string (Some n) (Some $"A")
  | NUnicode n => mk_string (Some n) (Some $"U32")
  | NSwap d' => np_measure d'
  | NStruct [] => ctype_from_numpy_dtype d          (* [dtype.fields] is falsy *)
  | NStruct fs =>
      let! rec := mapM (fun f => match f with (n, (shp, b)) =>
                           let! m := np_measure b in
                           let! t := np_array shp m in Ok (n, PTy t) end) fs in
      mk_record no_dsh rec
  | _ => ctype_from_numpy_dtype d
  end.
(** [from_numpy], coretypes.py:1325-1355 *)
Definition from_numpy (shp : list Z) (d : npdt) : res ty :=
  let! m := np_measure d in np_array shp m.

(** ** to NumPy *)

(** the string argument [np.dtype(name)] of CType.to_numpy_dtype for the names of the
    modelled dtypes; other names are left out *)
Definition ctype_np : list (str * npdt) :=
  [ ($"bool", NBool); ($"int8", NInt B8); ($"int16", NInt B16); ($"int32", NInt B32);
    ($"int64", NInt B64); ($"uint8", NUInt B8); ($"uint16", NUInt B16);
    ($"uint32", NUInt B32); ($"uint64", NUInt B64); ($"float16", NFloat F16);
    ($"float32", NFloat F32); ($"float64", NFloat F64); ($"complex64", NComplex C64);
    ($"complex128", NComplex C128); ($"void", NVoid 0); ($"object", NObject) ].
(** CType.to_numpy_dtype, coretypes.py:806-815 *)
Definition ctype_to_numpy (name : str) : res npdt :=
  let name' := if str_eqb name $"complex[float32]" then $"complex64"
               else if str_eqb name $"complex[float64]" then $"complex128" else name in
  match assoc name' ctype_np with Some d => Ok d | None => Raise NotModelled end.

(** Decimal.to_numpy_dtype, coretypes.py:479-506 *)
Definition decimal_to_numpy (precision scale : Z) : res npdt :=
  if scale =? 0 then
    if precision <=? 2 then Ok (NInt B8)
    else if precision <=? 4 then Ok (NInt B16)
    else if precision <=? 9 then Ok (NInt B32)
    else if precision <=? 18 then Ok (NInt B64)
    else Raise TypeErr
  else Ok (NFloat F64).

(** NumPy limits the item size to 2^31 - 1 bytes; longer strings and negative lengths are
    left out. *)
Definition np_maxlen : Z := 536870911.
(** String.to_numpy_dtype, coretypes.py:423-441 *)
Definition string_to_numpy (fixlen : option Z) (encoding : str) : res npdt :=
  match fixlen with
  | None => Ok NObject
  | Some n =>
      if n =? 0 then Ok NObject
      else if (n <? 0) || (np_maxlen <? n) then Raise NotModelled
      else if str_eqb encoding $"A" then Ok (NBytes n) else Ok (NUnicode n)
  end.

(** [np.dtype([(name, dtype), ...])]: an empty name becomes 'f<i>', equal names raise. *)
Fixpoint np_names (i : nat) (l : list str) : list str :=
  match l with
  | [] => []
  | n :: r => (match n with [] => 102%N :: z2s (Z.of_nat i) | _ => n end) :: np_names (S i) r
  end.
Definition mk_struct (names : list str) (ds : list npdt) : res npdt :=
  let ns := np_names 0 names in
  if nodup_str ns then Ok (NStruct (combine ns (map (fun d => ([], d)) ds)))
  else Raise ValueErr.

(** a dimension in [to_numpy], coretypes.py:1310-1317 *)
Definition np_dim (t : ty) : res Z :=
  match t with
  | FixedT v => Ok v
  | TypeVarT _ => Ok (-1)
  | _ => Raise TypeErr
  end.

(** [to_numpy(ds)], coretypes.py:1292-1322, given the [to_numpy_dtype] methods *)
Definition to_numpy_with (meth : ty -> res npdt) (ds : ty) : res (list Z * npdt) :=
  match ds with
  | DataShapeT _ ps =>
      let! shp := mapM np_dim (removelast ps) in
      let! d := meth (last ps ds) in Ok (shp, d)
  | _ => let! d := meth ds in Ok ([], d)
  end.
(** [to_numpy_dtype(ds)], coretypes.py:1284-1289 *)
Definition to_numpy_dtype_with (meth : ty -> res npdt) (ds : ty) : res npdt :=
  let ds' := match measure ds with MapT k _ => k | _ => ds end in
  let! r := to_numpy_with meth (measure ds') in Ok (snd r).

(** The [to_numpy_dtype] methods: Mono :172, Date :220, DateTime :264, TimeDelta :318,
    String :423, Decimal :479, Option :743, CType :806, Map :912, Record :1079,
    Tuple :1154. [numpy_provides_missing] :718 *)
Fixpoint npmethF (n : nat) (t : ty) : res npdt :=
  match n with
  | O => Raise OutOfFuel
  | S n' =>
    let f := to_numpy_dtype_with (npmethF n') in
    match t with
    | DateT => Ok (NDatetime $"D" 1)
    | DateTimeT _ => Ok (NDatetime $"us" 1)
    | TimeDeltaT u => Ok (NTimedelta u 1)
    | StringT fl e => string_to_numpy fl e
    | DecimalT p s => decimal_to_numpy p s
    | OptionT t' =>
        match t' with
        | DateT | DateTimeT _ | TimeDeltaT _ => npmethF n' t'
        | _ => Raise TypeErr
        end
    | CType name _ _ => ctype_to_numpy name
    | MapT _ _ => f t
    | RecordT fs =>
        let! ds := mapM (fun g => f (snd g)) fs in mk_struct (map fst fs) ds
    | TupleT l =>
        let! ds := mapM f l in
        mk_struct (map (fun i => 102%N :: z2s (Z.of_nat i)) (seq 0 (length l))) ds
    | _ => Raise TypeErr
    end
  end.
(** [t.to_numpy_dtype()] *)
Definition npmeth (t : ty) : res npdt := npmethF (S (tsize t)) t.
Definition to_numpy (t : ty) : res (list Z * npdt) := to_numpy_with npmeth t.
Definition to_numpy_dtype (t : ty) : res npdt := to_numpy_dtype_with npmeth t.

(** [np.issubdtype(dt, np.number)]; timedelta64 is a signed integer for NumPy *)
Fixpoint np_is_number (d : npdt) : bool :=
  match d with
  | NInt _ | NUInt _ | NFloat _ | NComplex _ | NTimedelta _ _ => true
  | NSwap d' => np_is_number d'
  | _ => false
  end.
(** [isnumeric] on a datashape object, predicates.py:141-160 *)
Definition isnumeric (ds : ty) : res bool :=
  let t := plaunder ds in
  match to_numpy_dtype t with
  | Raise TypeErr => Ok false
  | Raise e => Raise e
  | Ok d => Ok (is_Unit t && np_is_number d)
  end.

(** ** numpy.result_type on two dtypes: booleans, integers, floats, complexes, object, and
    object with dates, time differences and fixed strings, fixed strings with each other (the longer
    one), dates with dates, time differences
    with time differences. Other pairs are left out. *)
Definition isz_max (a b : isz) : isz := if ibits a <? ibits b then b else a.
Definition fsz_max (a b : fsz) : fsz := if fbits a <? fbits b then b else a.
Definition csz_max (a b : csz) : csz := if cbits a <? cbits b then b else a.
(** smallest float that NumPy takes for an integer of that size *)
Definition float_of_int (s : isz) : fsz := match s with B8 => F16 | B16 => F32 | _ => F64 end.
Definition complex_of_float (s : fsz) : csz :=
  match s with F16 | F32 => C64 | F64 => C128 | F128 => C256 end.
(** signed with unsigned *)
Definition int_uint (a b : isz) : npdt :=
  if ibits b <? ibits a then NInt a
  else match b with B8 => NInt B16 | B16 => NInt B32 | B32 => NInt B64 | B64 => NFloat F64 end.
(** units of time that are multiples of the next ones (no conversion factor comes near the limit of
    NumPy, 2^56) *)
Definition linear_units : list str :=
  [$"W"; $"D"; $"h"; $"m"; $"s"; $"ms"; $"us"; $"ns"].
(** calendar units, with no fixed length *)
Definition is_month_unit (u : str) : bool := str_eqb u $"Y" || str_eqb u $"M".
Fixpoint position (u : str) (l : list str) : option nat :=
  match l with
  | [] => None
  | x :: r => if str_eqb u x then Some O
              else match position u r with Some k => Some (S k) | None => None end
  end.
(** The common unit: the finer one. Years are months; time differences ([strict]) in them have
    nothing in common with other units, dates go to the other unit. *)
Definition common_unit (strict : bool) (u v : str) : res str :=
  if str_eqb u v then Ok u
  else match position u linear_units, position v linear_units with
  | Some i, Some j => Ok (if Nat.ltb i j then v else u)
  | None, Some _ => if is_month_unit u then if strict then Raise TypeErr else Ok v else Raise NotModelled
  | Some _, None => if is_month_unit v then if strict then Raise TypeErr else Ok u else Raise NotModelled
  | None, None => if is_month_unit u && is_month_unit v then Ok $"M" else Raise NotModelled
  end.
Definition result_type (a b : npdt) : res npdt :=
  match a, b with
  | NObject, (NBool | NInt _ | NUInt _ | NFloat _ | NComplex _ | NObject)
  | (NBool | NInt _ | NUInt _ | NFloat _ | NComplex _), NObject => Ok NObject
  | NBool, (NBool | NInt _ | NUInt _ | NFloat _ | NComplex _) => Ok b
  | (NInt _ | NUInt _ | NFloat _ | NComplex _), NBool => Ok a
  | NInt s, NInt s' => Ok (NInt (isz_max s s'))
  | NUInt s, NUInt s' => Ok (NUInt (isz_max s s'))
  | NInt s, NUInt s' => Ok (int_uint s s')
  | NUInt s, NInt s' => Ok (int_uint s' s)
  | NFloat s, NFloat s' => Ok (NFloat (fsz_max s s'))
  | (NInt s | NUInt s), NFloat s' => Ok (NFloat (fsz_max (float_of_int s) s'))
  | NFloat s', (NInt s | NUInt s) => Ok (NFloat (fsz_max (float_of_int s) s'))
  | NComplex s, NComplex s' => Ok (NComplex (csz_max s s'))
  | NFloat s, NComplex s' => Ok (NComplex (csz_max (complex_of_float s) s'))
  | NComplex s', NFloat s => Ok (NComplex (csz_max (complex_of_float s) s'))
  | (NInt s | NUInt s), NComplex s' =>
      Ok (NComplex (csz_max (complex_of_float (float_of_int s)) s'))
  | NComplex s', (NInt s | NUInt s) =>
      Ok (NComplex (csz_max (complex_of_float (float_of_int s)) s'))
  | NObject, (NDatetime _ _ | NTimedelta _ _ | NBytes _ | NUnicode _)
  | (NDatetime _ _ | NTimedelta _ _ | NBytes _ | NUnicode _), NObject => Ok NObject
  | NBytes n, NBytes m => Ok (NBytes (Z.max n m))
  | NBytes n, NUnicode m | NUnicode n, NBytes m | NUnicode n, NUnicode m => Ok (NUnicode (Z.max n m))
  | NDatetime u 1, NDatetime v 1 => let! w := common_unit false u v in Ok (NDatetime w 1)
  | NTimedelta u 1, NTimedelta v 1 => let! w := common_unit true u v in Ok (NTimedelta w 1)
  | _, _ => Raise NotModelled
  end.

(** ** promote.py *)

(** [getattr(t, 'ty', t)] and [hasattr(t, 'ty')]: only Option has that attribute *)
Definition get_ty (t : ty) : ty := match t with OptionT t' => t' | _ => t end.
Definition has_ty (t : ty) : bool := is_Option t.

(** [optionify], promote.py:58-81 *)
Definition optionify (lhs rhs ds : ty) : ty :=
  if has_ty (measure ds) then ds
  else if has_ty lhs || has_ty rhs then OptionT (launder_ty ds)
  else ds.

(** [promote], promote.py:10-55 *)
Definition promote (lhs rhs : ty) (promote_option : bool) : res ty :=
  if py_eq lhs rhs then Ok lhs
  else
    let left := get_ty lhs in
    let right := get_ty rhs in
    let! dtype :=
      if py_eq left right && py_eq right string_t then Ok string_t
      else
        let! l := to_numpy_dtype left in
        let! r := to_numpy_dtype right in
        let! d := result_type l r in
        ctype_from_numpy_dtype d in
    Ok (if promote_option then optionify lhs rhs dtype else dtype).

(** ** typesets.py *)

(** the default type sets, typesets.py:106-121 *)
Definition signed_l := [int8_t; int16_t; int32_t; int64_t].
Definition unsigned_l := [uint8_t; uint16_t; uint32_t; uint64_t].
Definition integral_l :=
  flat_map (fun p => [fst p; snd p]) (combine signed_l unsigned_l).
Definition floating_l := [float32_t; float64_t].
Definition complexes_l := [complex64_t; complex128_t].
Definition boolean_l := [bool_t].
(** [TypeSet.__or__], typesets.py:53-54, then unpacked into a new TypeSet *)
Definition real_l := integral_l ++ floating_l.
Definition numeric_l := integral_l ++ floating_l ++ complexes_l.
Definition scalar_l := boolean_l ++ numeric_l.

(** [val in typeset]: membership in the set of its types, typesets.py:46-47, 30-32 *)
Definition in_typeset (t : ty) (l : list ty) : bool := existsb (fun x => py_eq x t) l.

(** the elements delivered by [iter(t)], and whether the iteration then raises KeyError:
    TypeSet.__iter__ :56; __getitem__ of Mono coretypes.py:111-112, of DataShape :571-572,
    of Record :1086-1087 ([{}[0]] raises KeyError) *)
Definition py_iter (t : ty) : res (list ty) :=
  match t with
  | TypeSetT ts _ => Ok ts
  | DataShapeT _ ps => Ok ps
  | RecordT _ => Raise KeyErr
  | _ => Ok [t]
  end.
(** the loop of [matches_typeset], typesets.py:76-82, stopping at the first mismatch *)
Fixpoint match_zip (ts sig : list ty) : bool :=
  match ts, sig with
  | a :: ts', b :: sig' =>
      let ok := match b with
                | TypeSetT l _ => in_typeset a l
                | _ => negb (py_ne a b)
                end in
      ok && match_zip ts' sig'
  | _, _ => true
  end.
(** [matches_typeset(types, signature)] for a TypeSet signature, typesets.py:63-82 *)
Definition matches_typeset (t : ty) (sig : list ty) : res bool :=
  if in_typeset t sig then Ok true
  else let! ts := py_iter t in Ok (match_zip ts sig).

(** [supertype_map], typesets.py:124-139 *)
Definition supertype_map : list (ty * list ty) :=
  [ (int8_t, signed_l); (int16_t, signed_l); (int32_t, signed_l); (int64_t, signed_l);
    (uint8_t, unsigned_l); (uint16_t, unsigned_l); (uint32_t, unsigned_l);
    (uint64_t, unsigned_l); (float16_t, floating_l); (float32_t, floating_l);
    (float64_t, floating_l); (complex64_t, complexes_l); (complex128_t, complexes_l);
    (bool_t, boolean_l) ].
Fixpoint map_get (t : ty) (l : list (ty * list ty)) : res (list ty) :=
  match l with
  | [] => Raise KeyErr
  | (k, v) :: r => if py_eq k t then Ok v else map_get t r
  end.
(** [supertype], typesets.py:142-167 *)
Definition supertype (m : ty) : res (list ty) :=
  let m' := get_ty m in
  let! ok := matches_typeset m' scalar_l in
  if ok then map_get m' supertype_map else Raise AssertErr.

(** [max(types, key=lambda x: x.itemsize)]: the first of the largest *)
Definition ct_itemsize (t : ty) : Z := match t with CType _ i _ => i | _ => 0 end.
Fixpoint max_itemsize (best : ty) (l : list ty) : ty :=
  match l with
  | [] => best
  | x :: r => max_itemsize (if ct_itemsize best <? ct_itemsize x then x else best) r
  end.
Definition is_DecTD (t : ty) : bool :=
  match t with DecimalT _ _ | TimeDeltaT _ => true | _ => false end.

(** [maxtype], typesets.py:170-210 *)
Definition maxtype (ds : ty) : res ty :=
  let m0 := measure ds in
  let isoption := is_Option m0 in
  let m := get_ty m0 in
  let! ok := matches_typeset m scalar_l in
  if negb ok && negb (is_DecTD m) then Raise TypeErr
  else
    let! result :=
      if py_eq m bool_t then Ok bool_t
      else if is_DecTD m then Ok m
      else let! l := supertype m in
           match l with
           | [] => Raise ValueErr
           | x :: r => Ok (max_itemsize x r)
           end in
    Ok (if isoption then OptionT (launder_ty result) else result).
