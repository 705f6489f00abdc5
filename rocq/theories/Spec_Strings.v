(** What the texts of numbers, times and durations look like (C59), independently of the
    scanners of Strings.v. *)
From Coq Require Import Reals.
From Flocq Require Import Core.
From Verif Require Import Base Lexer Strings Spec_Time.
Local Open Scope N_scope.

(** Unicode: decimal digits have values 0..9 and are not blank *)
Definition chars_ok (X : chars) : Prop :=
  forall c d, ch_dec X c = Some d -> d < 10 /\ is_space c = false.

Section Texts.
  Variable X : chars.

  (** a decimal digit and its value *)
  Inductive Digit : char -> N -> Prop :=
  | Digit_ascii d : d < 10 -> Digit (48 + d) d
  | Digit_other c d : 128 <= c -> ch_dec X c = Some d -> Digit c d.
  (** digits, with single underscores between them, and their values *)
  Inductive Digits : str -> list N -> Prop :=
  | Digits_one c d : Digit c d -> Digits [c] [d]
  | Digits_more c d s ds : Digit c d -> Digits s ds -> Digits (c :: s) (d :: ds)
  | Digits_under c d s ds : Digit c d -> Digits s ds -> Digits (c :: 95 :: s) (d :: ds).
  Definition value (ds : list N) : Z := fold_left (fun a d => (10 * a + Z.of_N d)%Z) ds 0%Z.

  (** blanks allowed around a number: all of Unicode's except U+001C to U+001F *)
  Definition NumBlank (c : char) : Prop := is_space c = true /\ ~ (28 <= c <= 31).
  Inductive Sign : str -> bool -> Prop :=
  | Sign_none : Sign [] false
  | Sign_plus : Sign [43] false
  | Sign_minus : Sign [45] true.
  Inductive Padded (P : str -> Prop) : str -> Prop :=
  | Padded_intro b1 t b2 : Forall NumBlank b1 -> Forall NumBlank b2 -> P t -> Padded P (b1 ++ t ++ b2).

  (** ** integers *)
  Inductive IntBody : str -> Prop :=
  | IntBody_intro sg neg t ds : Sign sg neg -> Digits t ds ->
      match ch_maxdigits X with Some m => (length ds <= m)%nat | None => True end -> IntBody (sg ++ t).
  Definition IntText : str -> Prop := Padded IntBody.

  (** ** decimals: the number m * 10^e *)
  (** possibly no digits at all *)
  Inductive Digits0 : str -> list N -> Prop :=
  | Digits0_none : Digits0 [] []
  | Digits0_some s ds : Digits s ds -> Digits0 s ds.
  (** digits with an optional point: the digits and how many come after the point *)
  Inductive Mantissa : str -> list N -> nat -> Prop :=
  | Mant_int t ds : Digits t ds -> Mantissa t ds 0
  | Mant_point t1 ds1 t2 ds2 : Digits0 t1 ds1 -> Digits0 t2 ds2 -> ds1 ++ ds2 <> [] ->
      Mantissa (t1 ++ 46 :: t2) (ds1 ++ ds2) (length ds2).
  Inductive Exponent : str -> Z -> Prop :=
  | Exp_none : Exponent [] 0
  | Exp_some c sg neg t ds : In c [101; 69] -> Sign sg neg -> Digits t ds ->
      Exponent (c :: sg ++ t) (if neg then - value ds else value ds)%Z.
  (** [Decimal s m e]: [s] is a signed decimal with the value m * 10^e *)
  Inductive DecBody : Z -> Z -> str -> Prop :=
  | DecBody_intro sg neg t ds k x e : Sign sg neg -> Mantissa t ds k -> Exponent x e ->
      DecBody (if neg then - value ds else value ds)%Z (e - Z.of_nat k) (sg ++ t ++ x).
  Definition Decimal (s : str) (m e : Z) : Prop := Padded (DecBody m e) s.
  (** ** infinities and NaN: the words in any case *)
  Definition lower_letter (c : char) : char := if (65 <=? c) && (c <=? 90) then c + 32 else c.
  Inductive SpecialBody : str -> Prop :=
  | SpecialBody_intro sg neg w : Sign sg neg ->
      In (map lower_letter w) [$"inf"; $"infinity"; $"nan"] -> SpecialBody (sg ++ w).
  Definition FloatText (s : str) : Prop := (exists m e, Decimal s m e) \/ Padded SpecialBody s.

  (** ** times of day *)
  Inductive UpTo (hi : N) : str -> Prop :=        (* one digit, or two with the first at most hi *)
  | UpTo_one c d : Digit c d -> UpTo hi [c]
  | UpTo_two k c d : k <= hi -> Digit c d -> UpTo hi [48 + k; c].
  Definition Hour (s : str) : Prop := UpTo 1 s \/ exists k, k <= 3 /\ s = [50; 48 + k].
  Definition Sixty (s : str) : Prop := UpTo 5 s.
  Definition Fraction (s : str) : Prop :=
    s = [] \/ exists f, s = 46 :: f /\ (1 <= length f <= 6)%nat /\ Forall (fun c => is_digit c = true) f.
  Definition TimeText (s : str) : Prop :=
    exists h m sec f, s = h ++ 58 :: m ++ 58 :: sec ++ f /\ Hour h /\ Sixty m /\ Sixty sec /\ Fraction f.

  (** ** durations: a number and a unit; the number is rounded to binary64 *)
  Definition radix10 : radix := Build_radix 10 eq_refl.
  Definition binary64 (x : R) : R := round radix2 (FLT_exp (-1074) 53) ZnearestE x.
  Definition NoBlank (s : str) : Prop := Forall (fun c => is_space c = false) s.
  Definition TwoWords (s v w : str) : Prop :=
    exists b0 b b1, s = b0 ++ v ++ b ++ w ++ b1 /\ Blanks b0 /\ Blanks b /\ Blanks b1 /\
      b <> [] /\ v <> [] /\ w <> [] /\ NoBlank v /\ NoBlank w.
  Definition Amount (v : str) (z : Z) : Prop :=
    exists m e, Decimal v m e /\ binary64 (F2R (Float radix10 m e)) = IZR z /\ (Z.abs z < 2 ^ 1024)%Z.
  Definition DurationText (s : str) (z : Z) (u : str) : Prop :=
    exists v w, TwoWords s v w /\ Amount v z /\ UnitOf w u.
End Texts.

(** ** What a string is discovered as. [date] is dateutil's parser: [Ok true] for a moment at
    midnight, [Ok false] for any other moment. *)
From Verif Require Import Types Printer Construct Ops.
Section Reads.
  Variable X : chars.
  Variable date : str -> res bool.
  Definition BoolText (s : str) : Prop := In s [$"True"; $"False"; $"true"; $"false"].
  (** an amount and a "unit" of three or more letters s *)
  Definition SssText (s : str) : Prop :=
    exists v k z, TwoWords s v (repeat 115 k) /\ (3 <= k)%nat /\ Amount X v z.
  Definition Special (s : str) : Prop :=
    s = [] \/ IntText X s \/ FloatText X s \/ BoolText s \/ TimeText X s \/
    (exists z u, DurationText X s z u) \/ SssText s.
  Definition Letter (c : char) : Prop :=
    65 <= c <= 90 \/ 97 <= c <= 122 \/ (128 <= c /\ ch_alpha X c = true).
  Definition fits64 (z : Z) : Prop := (- 2 ^ 63 <= z < 2 ^ 63)%Z.
  Inductive Reads (s : str) : res ty -> Prop :=
  | Reads_empty : s = [] -> Reads s (Ok NullT)
  | Reads_int : IntText X s -> Reads s (Ok int64_t)
  | Reads_float : FloatText X s -> ~ IntText X s -> Reads s (Ok float64_t)
  | Reads_bool : BoolText s -> Reads s (Ok bool_t)
  | Reads_duration z u : DurationText X s z u -> fits64 z -> Reads s (Ok (TimeDeltaT u))
  | Reads_overflow z u : DurationText X s z u -> ~ fits64 z -> Reads s (Raise OverflowErr)
  | Reads_sss : SssText s -> Reads s (Raise IndexErr)
  | Reads_time : TimeText X s -> Reads s (Ok (TimeT None))
  | Reads_word : ~ Special s -> Forall Letter s \/ Blanks s -> Reads s (Ok string_t)
  | Reads_date b : ~ Special s -> ~ Forall Letter s -> ~ Blanks s -> date s = Ok b ->
      Reads s (Ok (if b : bool then DateT else DateTimeT None))
  | Reads_text e : ~ Special s -> ~ Forall Letter s -> ~ Blanks s -> date s = Raise e ->
      In e [ValueErr; OverflowErr] -> Reads s (Ok string_t)
  | Reads_error e : ~ Special s -> ~ Forall Letter s -> ~ Blanks s -> date s = Raise e ->
      ~ In e [ValueErr; OverflowErr] -> Reads s (Raise e).
End Reads.
