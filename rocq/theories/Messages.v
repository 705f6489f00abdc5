(** The texts of the AssertionErrors of [assert_dshape_equal], datashape/util/testing.py. The same
    functions as in Report.v, which gives the paths alone. *)
From Verif Require Import Base Types Lexer Printer Construct Ops Preds Objects Report.
Local Open Scope Z_scope.

(** [repr] of the value of a slot; a tuple of one element has a trailing comma. *)
Fixpoint pv_repr (U : uni) (v : pv) : str :=
  match v with
  | PvTy t => py_repr U t
  | PvInt z => z2s z
  | PvStr s => repr_str U s
  | PvBool b => bool_str b
  | PvNone => $"None"
  | PvTup [x] => $"(" ++ pv_repr U x ++ $",)"
  | PvTup l => $"(" ++ join $", " (map (pv_repr U) l) ++ $")"
  end.
(** [repr(a.names)], coretypes.py:1072-1073: a list of strings *)
Definition names_repr (U : uni) (fs : list (str * ty)) : str :=
  $"[" ++ join $", " (map (fun f => repr_str U (fst f)) fs) ++ $"]".
(** [type(a).__name__.lower()] *)
Definition class_lower (t : ty) : str :=
  match t with
  | CType _ _ _ => $"ctype" | NullT => $"null" | BytesT => $"bytes" | DateT => $"date" | JSONT => $"json" | VarT => $"var"
  | TimeT _ => $"time" | DateTimeT _ => $"datetime" | TimeDeltaT _ => $"timedelta" | UnitsT _ _ => $"units"
  | StringT _ _ => $"string" | DecimalT _ _ => $"decimal" | FixedT _ => $"fixed" | TypeVarT _ => $"typevar"
  | EllipsisT _ => $"ellipsis" | DataShapeT _ _ => $"datashape" | OptionT _ => $"option" | FunctionT _ => $"function"
  | MapT _ _ => $"map" | RecordT _ => $"record" | CategoricalT _ _ _ => $"categorical" | TupleT _ => $"tuple"
  | TypeSetT _ _ => $"typeset"
  end.
Definition nat_str (n : nat) : str := z2s (Z.of_nat n).

Inductive verdict := Passes | Fails (msg : str) | Raises (e : exn).
Definition then_ (o k : verdict) : verdict := match o with Passes => k | _ => o end.
Definition check (b : bool) (msg : str) : verdict := if b then Passes else Fails msg.

Section Msg.
  Variable U : uni.
  (** [x != y] and the line of the path *)
  Definition versus (x y : str) (p : list step) : str := x ++ $" != " ++ y ++ nls ++ fmt_path U p.
  (** [_base_case], testing.py:129-131 *)
  Definition base_msg (p : list step) (a b : ty) : verdict :=
    check (py_eq a b) (versus (py_str U a) (py_str U b) p).
  (** :118-126 *)
  Fixpoint slots_msg (p : list step) (cls : str) (names : list str) (xs ys : list pv) : verdict :=
    match names, xs, ys with
    | n :: names', x :: xs', y :: ys' =>
        then_ (check (pv_eq x y)
                 (cls ++ $" " ++ n ++ $"s do not match: " ++ versus (pv_repr U x) (pv_repr U y) (p ++ [StAttr n])))
          (slots_msg p cls names' xs' ys')
    | _, _, _ => Passes
    end.
  (** [_check_slots], :108-126 *)
  Definition check_slots_msg (p : list step) (a b : ty) : verdict :=
    if same_class a b then slots_msg p (class_lower a) (slot_names a) (params a) (params b) else base_msg p a b.
  Definition zip_msg {A B} (f : nat -> A -> B -> verdict) : nat -> list A -> list B -> verdict :=
    fix go (k : nat) (l : list A) (m : list B) : verdict :=
    match l, m with
    | x :: l', y :: m' => then_ (f k x y) (go (S k) l' m')
    | _, _ => Passes
    end.
  (** [' * '.join(map(str, shape))], :80 *)
  Definition shape_str (l : list ty) : str := join $" * " (map (py_str U) l).

  (** [assert_dshape_equal(a, b, path=p, **checks)], testing.py:37-263; recursion on fuel *)
  Fixpoint msgF (n : nat) (F : flags) (p : list step) (a b : ty) : verdict :=
    match n with
    | O => Raises OutOfFuel
    | S n' =>
      match a, b with
      | DataShapeT _ _, DataShapeT _ _ =>                                                  (* :37-97 *)
          then_ (if check_dim F
                 then zip_msg (fun k x y => check (negb (py_ne x y))
                        ($"dimensions do not match: " ++ py_str U x ++ $" != " ++ py_str U y ++
                         (if Nat.ltb 1 (length (shape a)) then nls ++ shape_str (shape a) ++ $" != " ++ shape_str (shape b) else []) ++
                         nls ++ fmt_path U (p ++ [StShape k]))) 0 (shape a) (shape b)
                 else Passes)
            (msgF n' F (p ++ [StAttr $"measure"]) (measure a) (measure b))
      | DateTimeT _, DateTimeT _ | TimeT _, TimeT _ =>                                     (* :134-139 *)
          if check_tz F then check_slots_msg p a b else Passes
      | DateTimeT _, TimeT _ | TimeT _, DateTimeT _ => base_msg [] a b                     (* :137 *)
      | TimeDeltaT _, TimeDeltaT _ => if check_timedelta_unit F then check_slots_msg p a b else Passes
      | UnitsT u _, UnitsT v _ =>                                                          (* :148-158 *)
          then_ (check (str_eqb u v) (class_lower a ++ $" units do not match: " ++ versus (repr_str U u) v (p ++ [StAttr $"unit"])))
            (Raises AttributeErr)
      | StringT f e, StringT g e' =>                                                       (* :161-180 *)
          then_ (if check_str_encoding F
                 then check (str_eqb e e') ($"string encodings do not match: " ++ versus (repr_str U e) (repr_str U e') (p ++ [StAttr $"encoding"]))
                 else Passes)
            (if check_str_fixlen F then
               (if oZ_eqb f g then Passes
                else match f, g with
                     | Some x, Some y => Fails ($"string fixlens do not match: " ++ versus (z2s x) (z2s y) (p ++ [StAttr $"fixlen"]))
                     | _, _ => Raises TypeErr
                     end)
             else Passes)
      | OptionT x, OptionT y => msgF n' F (p ++ [StAttr $"ty"]) x y                         (* :183-188 *)
      | RecordT fs, RecordT gs =>                                                          (* :191-221 *)
          let srt l := if check_record_order F then l else sort_fields l in
          then_ (check (Nat.eqb (length fs) (length gs))
                   ($"records have mismatched field counts: " ++ nat_str (length fs) ++ $" != " ++ nat_str (length gs) ++ nls ++
                    versus (names_repr U fs) (names_repr U gs) p))
            (zip_msg (fun k f g => then_ (check (str_eqb (fst f) (fst g))
                                            ($"record field name at position " ++ nat_str k ++ $" does not match: " ++
                                             versus (repr_str U (fst f)) (repr_str U (fst g)) p))
                                    (msgF n' F (p ++ [StKey (fst f)]) (snd f) (snd g))) 0 (srt fs) (srt gs))
      | TupleT l, TupleT m =>                                                              (* :224-240 *)
          then_ (check (Nat.eqb (length l) (length m))
                   ($"tuples have mismatched field counts: " ++ nat_str (length l) ++ $" != " ++ nat_str (length m) ++ nls ++
                    versus (py_repr U a) (py_repr U b) p))
            (zip_msg (fun k x y => msgF n' F (p ++ [StAttr $"dshapes"; StIndex k]) x y) 0 l m)
      | FunctionT l, FunctionT m =>                                                        (* :243-263 *)
          then_ (check (Nat.eqb (length (removelast l)) (length (removelast m)))
                   ($"functions have different arities: " ++ nat_str (length (removelast l)) ++ $" != " ++ nat_str (length (removelast m)) ++
                    nls ++ versus (py_repr U a) (py_repr U b) p))
            (then_ (zip_msg (fun k x y => msgF n' F (p ++ [StArg k]) x y) 0 (removelast l) (removelast m))
               (msgF n' F (p ++ [StAttr $"restype"]) (last l NullT) (last m NullT)))
      | _, _ => if is_slotted a && is_slotted b then check_slots_msg p a b else base_msg p a b
      end
    end.
  Definition assert_msg (F : flags) (a b : ty) : verdict := msgF (S (tsize a)) F [] a b.
End Msg.
