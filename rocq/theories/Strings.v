(** Python's own parsers as [discover] uses them on strings (discovery.py:132-197): [int(s)],
    [float(s)], [datetime.strptime] with the two time formats, [str.isalpha], as implemented by
    CPython 3.11. dateutil's parser is left as a parameter. *)
From Verif Require Import Base Types Lexer Printer Construct Ops Discovery.
Local Open Scope N_scope.

(** What the interpreter knows about the code points from 128 on, and its limit on the number
    of digits given to [int] ([sys.get_int_max_str_digits], None: no limit). *)
Record chars := {
  ch_dec : char -> option N;       (* value of a decimal digit (category Nd) *)
  ch_alpha : char -> bool;         (* isalpha *)
  ch_maxdigits : option nat }.

Section Strings.
  Variable X : chars.

  (** [_PyUnicode_TransformDecimalAndSpaceToASCII]: blanks become spaces, digits ASCII digits;
      any other character makes the number invalid, here '?' *)
  Definition to_ascii (c : char) : char :=
    if c <? 128 then c
    else if is_space c then 32
    else match ch_dec X c with Some d => 48 + d | None => 63 end.
  (** [Py_ISSPACE] *)
  Definition c_space (c : char) : bool := in_range 9 13 c || is_c 32 c.
  Definition c_strip (s : str) : str := rstrip c_space (drop_while c_space s).
  Definition drop_sign (s : str) : bool * str :=
    match s with
    | c :: r => if N.eqb c 43 then (false, r) else if N.eqb c 45 then (true, r) else (false, s)
    | [] => (false, s)
    end.

  (** ** [int(s)] succeeds: PyLong_FromUnicodeObject, base 10. [prev]: the previous character was
      a digit; an underscore must stand between two digits. *)
  Fixpoint digits_us (prev : bool) (s : str) : bool :=
    match s with
    | [] => prev
    | c :: r => if is_digit c then digits_us true r
                else if N.eqb c 95 && prev then digits_us false r else false
    end.
  Definition int_ok (s : str) : bool :=
    let t := snd (drop_sign (c_strip (map to_ascii s))) in
    digits_us false t &&
    match ch_maxdigits X with Some m => Nat.leb (length (filter is_digit t)) m | None => true end.

  (** ** [float(s)] *)

  (** [_Py_string_to_number_with_underscores]: the text without underscores *)
  Fixpoint del_us (prev : char) (s : str) : option str :=
    match s with
    | [] => if N.eqb prev 95 then None else Some []
    | c :: r =>
        if N.eqb c 95 then (if is_digit prev then del_us c r else None)
        else if N.eqb prev 95 && negb (is_digit c) then None
        else option_map (cons c) (del_us c r)
    end.
  Fixpoint span_digits (s : str) : str * str :=
    match s with
    | c :: r => if is_digit c then let (a, b) := span_digits r in (c :: a, b) else ([], s)
    | [] => ([], [])
    end.
  Definition ascii_lower (c : char) : char := if is_upper c then c + 32 else c.
  (** [_Py_dg_strtod]: the decimal [n] * 10^[e] *)
  Definition parse_decimal (s : str) : option (Z * Z) :=
    let (ip, r) := span_digits s in
    let (fp, r2) := match r with
                    | c :: r' => if N.eqb c 46 then span_digits r' else ([], r)
                    | [] => ([], r)
                    end in
    match ip ++ fp with
    | [] => None
    | ds =>
        let fin (e : Z) := Some (int_digits 0 ds, (e - Z.of_nat (length fp))%Z) in
        match r2 with
        | [] => fin 0%Z
        | c :: r3 =>
            if N.eqb c 101 || N.eqb c 69 then
              let (neg, r4) := drop_sign r3 in
              let (ed, r5) := span_digits r4 in
              match ed, r5 with
              | _ :: _, [] => fin (if neg then - int_digits 0 ed else int_digits 0 ed)%Z
              | _, _ => None
              end
            else None
        end
    end.
  (** the binary64 number nearest to n/d (n >= 0, d > 0), when it is a finite integer *)
  Definition fl_integer (n d : Z) : option Z :=
    (if n =? 0 then Some 0
     else let (m, e) := fl_div n d in
          if 0 <=? e then (if 2 ^ 1024 <=? m * 2 ^ e then None else Some (m * 2 ^ e))
          else if m mod 2 ^ (- e) =? 0 then Some (m / 2 ^ (- e)) else None)%Z.
  Definition dec_integer (n e : Z) : option Z :=
    (if 0 <=? e then fl_integer (n * 10 ^ e) 1 else fl_integer n (10 ^ (- e)))%Z.
  (** PyFloat_FromString: None when it raises ValueError; otherwise the value when it is an integer
      ([float.is_integer]; infinities and NaN are not) *)
  Definition float_of (s : str) : option (option Z) :=
    match del_us 0 (c_strip (map to_ascii s)) with
    | None => None
    | Some t =>
        let (neg, b) := drop_sign t in
        if mem_str (map ascii_lower b) [$"inf"; $"infinity"; $"nan"] then Some None
        else match parse_decimal b with
             | None => None
             | Some (n, e) => Some (option_map (fun z => if neg then (- z)%Z else z) (dec_integer n e))
             end
    end.

  (** ** [datetime.strptime(s, '%H:%M:%S')] and ['%H:%M:%S.%f'] (_strptime.py): the pattern is
      matched at the start, what it matches first must be the whole text, and 60 and 61
      seconds are refused by [datetime]. *)
  Definition any_digit (c : char) : bool :=
    if c <? 128 then is_digit c else match ch_dec X c with Some _ => true | None => false end.
  Definition hour_re : re :=
    RAlt (RSeq (ch 50) (RChr (in_range 48 51)))
         (RAlt (RSeq (RChr (in_range 48 49)) (RChr any_digit)) (RChr any_digit)).
  Definition minute_re : re := RAlt (RSeq (RChr (in_range 48 53)) (RChr any_digit)) (RChr any_digit).
  Definition second_re : re :=
    RAlt (RSeq (ch 54) (RChr (in_range 48 49)))
         (RAlt (RSeq (RChr (in_range 48 53)) (RChr any_digit)) (RChr any_digit)).
  (** [0-9]{1,6} *)
  Fixpoint upto (n : nat) (r : re) : re :=
    match n with O => REps | S O => r | S n' => RSeq r (opt (upto n' r)) end.
  Definition fraction_re : re := RSeq (ch 46) (upto 6 (RChr is_digit)).
  (** the ways to match H:M:S: the text of S and what follows *)
  Definition hms (s : str) : list (str * str) :=
    flat_map (fun s1 => map (fun s2 => (firstn (length s1 - length s2) s1, s2)) (rmatch second_re s1))
             (rmatch (RSeq hour_re (RSeq (ch 58) (RSeq minute_re (ch 58)))) s).
  Definition leap (t : str) : bool :=
    match t with a :: _ :: _ => N.eqb a 54 | _ => false end.
  Definition whole (ways : list (str * str)) : bool :=
    match ways with (t, []) :: _ => negb (leap t) | _ => false end.
  Definition time_ok (s : str) : bool :=
    whole (hms s)
    || whole (flat_map (fun p => map (pair (fst p)) (rmatch fraction_re (snd p))) (hms s)).

  (** [s.isalpha()] *)
  Definition py_isalpha (s : str) : bool :=
    match s with
    | [] => false
    | _ => forallb (fun c => if c <? 128 then is_lower c || is_upper c else ch_alpha X c) s
    end.

  (** the string parsers of [discover]; [date] is dateutil's *)
  Definition py_strings (date : str -> res bool) : strings :=
    {| so_int := int_ok; so_float := float_of; so_time := time_ok; so_alpha := py_isalpha;
       so_date := date |}.
End Strings.
