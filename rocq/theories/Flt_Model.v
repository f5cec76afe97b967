(** Model of the conversion of texts to floating-point members: coda/txml.cpp:143-145, which
    call strtof, strtod and strtold of libc.

    The three functions are modelled in full, as the C standard and the documentation of
    glibc describe them: decimal and hexadecimal numbers, infinities, not-a-numbers, rounding
    to the nearest value (the rounding mode a program starts with).  The payload and the sign
    of a not-a-number are left out, and so is errno, which the code does not look at.
    [dp] is the decimal point of the locale that is in force (one byte). *)

From Coq Require Import ZArith List Bool.
From Verif Require Import Base.
Import ListNotations.
Local Open Scope Z_scope.

(** a binary format: significands below 2^[prec], multiples of 2^-[scale], and the largest
    exponent [top] above that; the types of txml.hpp:56-58, used in txml.cpp:143-145 *)
Record fmt := mkFmt { prec : Z; scale : Z; top : Z }.
(** float, txml.cpp:143 *)
Definition f32 : fmt := mkFmt 24 149 253.
(** double, txml.cpp:144 *)
Definition f64 : fmt := mkFmt 53 1074 2045.
(** long double (x86: 80 bits), txml.cpp:145 *)
Definition f80 : fmt := mkFmt 64 16445 32765.

(** values: not a number, an infinity, or plus or minus m * 2^(k - scale);
    txml.cpp:143-145 *)
Inductive flt := FNan | FInf (neg : bool) | FNum (neg : bool) (m k : Z).

(** libc: the value of the format nearest to n / d, even significand for a tie; called in
    txml.cpp:143-145 *)
Definition round_ratio (f : fmt) (neg : bool) (n d : Z) : flt :=
  let a := n * 2 ^ scale f in
  let k := Z.max 0 (Z.log2 (a / d) - (prec f - 1)) in
  let D := d * 2 ^ k in
  let q := a / D in
  let r := a mod D in
  let m := if (D <? 2 * r) || ((2 * r =? D) && Z.odd q) then q + 1 else q in
  let '(m, k) := (if m =? 2 ^ prec f then (2 ^ (prec f - 1), k + 1) else (m, k)) in
  if top f <? k then FInf neg else FNum neg m k.

(** libc: m * b^e, rounded; txml.cpp:143-145 *)
Definition round_pow (f : fmt) (neg : bool) (m b e : Z) : flt :=
  if 0 <=? e then round_ratio f neg (m * b ^ e) 1 else round_ratio f neg m (b ^ (- e)).

(** isspace(3) in the C locale, used by strtod; txml.cpp:143-145 *)
Definition is_space (c : Z) : bool := (c =? 32) || ((9 <=? c) && (c <=? 13)).
(** libc: white space before a number; txml.cpp:143-145 *)
Fixpoint skip_space (s : list Z) : list Z :=
  match s with c :: t => if is_space c then skip_space t else s | [] => [] end.
(** libc: the sign; txml.cpp:143-145 *)
Definition sign (s : list Z) : bool * list Z :=
  match s with
  | c :: t => if c =? 45 then (true, t) else if c =? 43 then (false, t) else (false, s)
  | [] => (false, [])
  end.
(** libc: [s] begins with the word [w] (lower case), in any letter case; txml.cpp:143-145 *)
Fixpoint word (w s : list Z) : bool :=
  match w, s with
  | [], _ => true
  | x :: w, c :: s => ((c =? x) || (c =? x - 32)) && word w s
  | _, [] => false
  end.
(** libc: the value of a digit in base 10 or 16; txml.cpp:143-145 *)
Definition digit_value (hex : bool) (c : Z) : option Z :=
  if (48 <=? c) && (c <=? 57) then Some (c - 48)
  else if hex && (97 <=? c) && (c <=? 102) then Some (c - 87)
  else if hex && (65 <=? c) && (c <=? 70) then Some (c - 55)
  else None.
(** libc: digits from the left: their value, their number and the rest; txml.cpp:143-145 *)
Fixpoint digits (hex : bool) (acc : Z) (n : nat) (s : list Z) : Z * nat * list Z :=
  match s with
  | c :: t => match digit_value hex c with
              | Some v => digits hex (acc * (if hex then 16 else 10) + v) (S n) t
              | None => (acc, n, s)
              end
  | [] => (acc, n, [])
  end.
(** libc: digits with a decimal point: all digits as one number, the number of digits, the
    number of those behind the point, and the rest; txml.cpp:143-145 *)
Definition mantissa (hex : bool) (dp : Z) (s : list Z) : Z * nat * nat * list Z :=
  let '(v, n, s) := digits hex 0 0 s in
  match s with
  | c :: t => if c =? dp then let '(v, k, r) := digits hex v 0 t in (v, (n + k)%nat, k, r)
              else (v, n, 0%nat, s)
  | [] => (v, n, 0%nat, s)
  end.
(** libc: an exponent behind the letter [x] (lower case); 0 if there is none;
    txml.cpp:143-145 *)
Definition exponent (x : Z) (s : list Z) : Z :=
  match s with
  | c :: t => if (c =? x) || (c =? x - 32) then
                let '(neg, t) := sign t in
                let '(v, _, _) := digits false 0 0 t in
                if neg : bool then - v else v
              else 0
  | [] => 0
  end.
(** libc: a decimal number; txml.cpp:143-145 *)
Definition decimal_number (f : fmt) (dp : Z) (neg : bool) (s : list Z) : flt :=
  let '(v, n, k, s) := mantissa false dp s in
  match n with
  | O => FNum false 0 0                              (* no number: 0 *)
  | S _ => round_pow f neg v 10 (exponent 101 s - Z.of_nat k)
  end.
(** libc: a number behind "0x"; None if there is no digit; txml.cpp:143-145 *)
Definition hex_number (f : fmt) (dp : Z) (neg : bool) (s : list Z) : option flt :=
  let '(v, n, k, s) := mantissa true dp s in
  match n with
  | O => None
  | S _ => Some (round_pow f neg v 2 (exponent 112 s - 4 * Z.of_nat k))
  end.
(** libc: strtof, strtod and strtold, txml.cpp:143-145; the end of the list is the
    terminator *)
Definition strtox (f : fmt) (dp : Z) (s : list Z) : flt :=
  let '(neg, s) := sign (skip_space s) in
  if word (zs "inf") s then FInf neg
  else if word (zs "nan") s then FNan
  else
    match (match s with
           | c :: x :: t => if (c =? 48) && ((x =? 120) || (x =? 88)) then hex_number f dp neg t else None
           | _ => None
           end) with
    | Some v => v
    | None => decimal_number f dp neg s
    end.
