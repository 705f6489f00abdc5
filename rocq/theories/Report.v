(** The paths in the error messages of [assert_dshape_equal], datashape/util/testing.py. *)
From Verif Require Import Base Types Lexer Printer Construct Ops Preds.
Local Open Scope Z_scope.

(** one entry of [path]; testing.py:73, :88, :125, :157, :171, :178, :187, :217, :237, :257, :262 *)
Inductive step :=
| StShape (i : nat)          (* .shape[i] *)
| StAttr (name : str)        (* .measure .ty .dshapes .restype, a slot *)
| StKey (name : str)         (* ['name'] *)
| StIndex (i : nat)          (* [i] *)
| StArg (i : nat).           (* .argtypes[i] *)

(** [str] of one entry *)
Definition fmt_step (U : uni) (s : step) : str :=
  match s with
  | StShape i => $".shape[" ++ z2s (Z.of_nat i) ++ $"]"
  | StAttr n => $"." ++ n
  | StKey n => $"[" ++ repr_str U n ++ $"]"
  | StIndex i => $"[" ++ z2s (Z.of_nat i) ++ $"]"
  | StArg i => $".argtypes[" ++ z2s (Z.of_nat i) ++ $"]"
  end.
(** [_fmt_path], testing.py:19-34 *)
Definition fmt_path (U : uni) (p : list step) : str :=
  match p with [] => [] | _ => $"path: _" ++ flat_map (fmt_step U) p end.

(** a check returns, or raises; an AssertionError carries the path it was formatted with (a
    missing path and an empty one are both printed as the empty string). The rest of the
    message is not modelled. *)
Inductive outcome := Pass | FailAt (p : list step) | Other (e : exn).
Definition andthen (o : outcome) (k : outcome) : outcome := match o with Pass => k | _ => o end.
Definition require (b : bool) (p : list step) : outcome := if b then Pass else FailAt p.

(** [__slots__] of each class *)
Definition slot_names (t : ty) : list str :=
  match t with
  | CType _ _ _ => [$"name"; $"_itemsize"; $"_alignment"]                    (* coretypes.py:755 *)
  | NullT | DataShapeT _ _ | FunctionT _ | RecordT _ => []                   (* none *)
  | BytesT | DateT | JSONT | VarT => []                                      (* :218, :350, :862, :1166 *)
  | TimeT _ | DateTimeT _ => [$"tz"]                                         (* :228, :248 *)
  | TimeDeltaT _ => [$"unit"]                                                (* :310 *)
  | UnitsT _ _ => [$"unit"; $"tp"]                                           (* :325 *)
  | StringT _ _ => [$"fixlen"; $"encoding"]                                  (* :381 *)
  | DecimalT _ _ => [$"precision"; $"scale"]                                 (* :468 *)
  | FixedT _ => [$"val"]                                                     (* :831 *)
  | TypeVarT _ => [$"symbol"]                                                (* :871 *)
  | EllipsisT _ => [$"typevar"]                                              (* :196 *)
  | OptionT _ => [$"ty"]                                                     (* :727 *)
  | MapT _ _ => [$"key"; $"value"]                                           (* :901 *)
  | CategoricalT _ _ _ => [$"categories"; $"type"; $"ordered"]               (* :1107 *)
  | TupleT _ => [$"dshapes"]                                                 (* :1137 *)
  | TypeSetT _ _ => [$"_order"; $"name"]                                     (* typesets.py:22 *)
  end.
(** number of a Python bool or int *)
Definition pv_num (v : pv) : option Z :=
  match v with PvInt z => Some z | PvBool b => Some (if b then 1 else 0) | _ => None end.
(** [x == y] on slot values; the numbers True and 1 are equal. Recursion on fuel. *)
Fixpoint pv_eqF (n : nat) (x y : pv) : bool :=
  match n with
  | O => false
  | S n' =>
    match x, y with
    | PvTy a, PvTy b => py_eq a b
    | PvTup l, PvTup m => list_eqb (pv_eqF n') l m
    | PvStr s, PvStr u => str_eqb s u
    | PvNone, PvNone => true
    | _, _ => match pv_num x, pv_num y with Some a, Some b => Z.eqb a b | _, _ => false end
    end
  end.
Definition pv_eq (x y : pv) : bool := pv_eqF (S (pvdepth x)) x y.

(** [_base_case], testing.py:129-131 *)
Definition base_case_at (p : list step) (a b : ty) : outcome := require (py_eq a b) p.
(** the loop over the slots, :118-126 *)
Fixpoint slots_at (p : list step) (names : list str) (xs ys : list pv) : outcome :=
  match names, xs, ys with
  | n :: names', x :: xs', y :: ys' => andthen (require (pv_eq x y) (p ++ [StAttr n])) (slots_at p names' xs' ys')
  | _, _, _ => Pass
  end.
(** [_check_slots], :108-126 *)
Definition check_slots_at (p : list step) (a b : ty) : outcome :=
  if same_class a b then slots_at p (slot_names a) (params a) (params b) else base_case_at p a b.

(** [for n, (x, y) in enumerate(zip(l, m))] *)
Definition zip_at {A B} (f : nat -> A -> B -> outcome) : nat -> list A -> list B -> outcome :=
  fix go (k : nat) (l : list A) (m : list B) : outcome :=
  match l, m with
  | x :: l', y :: m' => andthen (f k x y) (go (S k) l' m')
  | _, _ => Pass
  end.

(** [assert_dshape_equal(a, b, path=p, **checks)], testing.py:37-263; recursion on fuel *)
Fixpoint assert_atF (n : nat) (F : flags) (p : list step) (a b : ty) : outcome :=
  match n with
  | O => Other OutOfFuel
  | S n' =>
    match a, b with
    | DataShapeT _ _, DataShapeT _ _ =>
        andthen (if check_dim F
                 then zip_at (fun k x y => require (negb (py_ne x y)) (p ++ [StShape k])) 0 (shape a) (shape b)
                 else Pass)
          (assert_atF n' F (p ++ [StAttr $"measure"]) (measure a) (measure b))
    | DateTimeT _, DateTimeT _ | TimeT _, TimeT _ =>
        if check_tz F then check_slots_at p a b else Pass
    | DateTimeT _, TimeT _ | TimeT _, DateTimeT _ => base_case_at [] a b     (* :137, no path *)
    | TimeDeltaT _, TimeDeltaT _ => if check_timedelta_unit F then check_slots_at p a b else Pass
    | UnitsT u _, UnitsT v _ =>
        andthen (require (str_eqb u v) (p ++ [StAttr $"unit"])) (Other AttributeErr)
    | StringT f e, StringT g e' =>
        andthen (if check_str_encoding F then require (str_eqb e e') (p ++ [StAttr $"encoding"]) else Pass)
          (if check_str_fixlen F then
             (if oZ_eqb f g then Pass
              else match f, g with
                   | Some _, Some _ => FailAt (p ++ [StAttr $"fixlen"])
                   | _, _ => Other TypeErr
                   end)
           else Pass)
    | OptionT x, OptionT y => assert_atF n' F (p ++ [StAttr $"ty"]) x y
    | RecordT fs, RecordT gs =>
        let srt l := if check_record_order F then l else sort_fields l in
        andthen (require (Nat.eqb (length fs) (length gs)) p)
          (zip_at (fun k f g => andthen (require (str_eqb (fst f) (fst g)) p)
                                  (assert_atF n' F (p ++ [StKey (fst f)]) (snd f) (snd g))) 0 (srt fs) (srt gs))
    | TupleT l, TupleT m =>
        andthen (require (Nat.eqb (length l) (length m)) p)
          (zip_at (fun k x y => assert_atF n' F (p ++ [StAttr $"dshapes"; StIndex k]) x y) 0 l m)
    | FunctionT l, FunctionT m =>
        andthen (require (Nat.eqb (length (removelast l)) (length (removelast m))) p)
          (andthen (zip_at (fun k x y => assert_atF n' F (p ++ [StArg k]) x y) 0 (removelast l) (removelast m))
             (assert_atF n' F (p ++ [StAttr $"restype"]) (last l NullT) (last m NullT)))
    | _, _ => if is_slotted a && is_slotted b then check_slots_at p a b else base_case_at p a b
    end
  end.
Definition assert_at (F : flags) (a b : ty) : outcome := assert_atF (S (tsize a)) F [] a b.
