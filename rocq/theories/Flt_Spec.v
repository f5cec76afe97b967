(** Specification of floating-point members: the number nearest to the text. *)

From Coq Require Import ZArith List Bool.
From Verif Require Import Base Flt_Model.
Import ListNotations.
Local Open Scope Z_scope.

(** Not in the code: the formats for which the theorems hold *)
Definition good_fmt (f : fmt) : Prop := 2 <= prec f /\ 0 <= scale f /\ 0 <= top f.

(** the pairs m, k that are values m * 2^(k - scale) of the format, each value once *)
Definition value_of (f : fmt) (m k : Z) : Prop :=
  0 <= m < 2 ^ prec f /\ 0 <= k <= top f /\ (k = 0 \/ 2 ^ (prec f - 1) <= m).
(** a result that the type can hold *)
Definition in_fmt (f : fmt) (x : flt) : Prop :=
  match x with FNum _ m k => value_of f m k | _ => True end.

(** the distance of m * 2^(k - scale) from n / d, times d * 2^scale *)
Definition distance (f : fmt) (n d m k : Z) : Z := Z.abs (n * 2 ^ scale f - m * 2 ^ k * d).

(** The value nearest to n / d: no other value of the format is nearer, and of two that are
    as near the one with the even significand is taken.  From the largest value and half a
    unit on it is infinite. *)
Definition nearest (f : fmt) (neg : bool) (n d : Z) (x : flt) : Prop :=
  match x with
  | FNum s m k => s = neg /\ value_of f m k /\
      2 * n * 2 ^ scale f < (2 * 2 ^ prec f - 1) * 2 ^ top f * d /\
      forall m' k', value_of f m' k' ->
        distance f n d m k <= distance f n d m' k' /\
        (distance f n d m k = distance f n d m' k' -> (m, k) = (m', k') \/ Z.even m = true)
  | FInf s => s = neg /\ (2 * 2 ^ prec f - 1) * 2 ^ top f * d <= 2 * n * 2 ^ scale f
  | FNan => False
  end.

(** ** Numerals *)

(** the digits of the base: 0-9, and a-f in any case *)
Definition digit_of (hex : bool) (c v : Z) : Prop :=
  (48 <= c <= 57 /\ v = c - 48) \/
  (hex = true /\ ((97 <= c <= 102 /\ v = c - 87) \/ (65 <= c <= 70 /\ v = c - 55))).
(** [s] is written with the digits [vs] *)
Definition written (hex : bool) (s vs : list Z) : Prop := Forall2 (digit_of hex) s vs.
(** the number with the digits [vs] *)
Definition positional (b : Z) (vs : list Z) : Z := fold_left (fun n v => n * b + v) vs 0.

(** a sign, or nothing *)
Inductive sign_text : list Z -> bool -> Prop :=
| no_sign : sign_text [] false
| plus_sign : sign_text [43] false
| minus_sign : sign_text [45] true.

(** digits, and perhaps a point with more digits *)
Inductive mantissa_text (hex : bool) (dp : Z) : list Z -> Z -> Z -> Prop :=
| whole : forall s vs, written hex s vs -> vs <> [] ->
    mantissa_text hex dp s (positional (if hex then 16 else 10) vs) 0
| fraction : forall s vs s' vs', written hex s vs -> written hex s' vs' -> vs ++ vs' <> [] ->
    mantissa_text hex dp (s ++ dp :: s') (positional (if hex then 16 else 10) (vs ++ vs')) (Z.of_nat (length vs')).

(** perhaps an exponent *)
Inductive exponent_text (x : Z) : list Z -> Z -> Prop :=
| no_exponent : exponent_text x [] 0
| an_exponent : forall c sg neg s vs, c = x \/ c = x - 32 -> sign_text sg neg -> written false s vs -> vs <> [] ->
    exponent_text x (c :: sg ++ s) (if neg then - positional 10 vs else positional 10 vs).

(** a numeral: its sign, an integer, the base and the exponent of what it is multiplied by *)
Inductive numeral (dp : Z) : list Z -> bool -> Z -> Z -> Z -> Prop :=
| decimal_numeral : forall sg neg ms v k es e,
    sign_text sg neg -> mantissa_text false dp ms v k -> exponent_text 101 es e ->
    numeral dp (sg ++ ms ++ es) neg v 10 (e - k)
| hex_numeral : forall sg neg x ms v k es e,
    sign_text sg neg -> x = 120 \/ x = 88 -> mantissa_text true dp ms v k -> exponent_text 112 es e ->
    numeral dp (sg ++ 48 :: x :: ms ++ es) neg v 2 (e - 4 * k).

(** v * b^e as a fraction *)
Definition numerator (v b e : Z) : Z := if 0 <=? e then v * b ^ e else v.
Definition denominator (b e : Z) : Z := if 0 <=? e then 1 else b ^ (- e).

(** what may follow a numeral: nothing, or a byte that is no letter, digit or point *)
Definition ends (dp : Z) (rest : list Z) : Prop :=
  match rest with
  | [] => True
  | c :: _ => c <> dp /\ ~ (48 <= c <= 57) /\ ~ (65 <= c <= 90) /\ ~ (97 <= c <= 122)
  end.
(** white space *)
Definition blank (c : Z) : Prop := c = 32 \/ 9 <= c <= 13.
(** a byte that can be the decimal point *)
Definition good_point (dp : Z) : Prop :=
  ~ blank dp /\ dp <> 43 /\ dp <> 45 /\ ~ (48 <= dp <= 57) /\ ~ (65 <= dp <= 90) /\ ~ (97 <= dp <= 122).
