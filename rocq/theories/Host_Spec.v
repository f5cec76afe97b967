(** Numbers-and-dots notation of IPv4 addresses, as described in inet(3). *)

From Coq Require Import ZArith List.
From Verif Require Import Base Net_Spec.
Import ListNotations.
Local Open Scope Z_scope.

(** The value of a character as a digit. *)
Inductive dig : Z -> Z -> Prop :=
| Dig_09 : forall c, 48 <= c <= 57 -> dig c (c - 48)
| Dig_AF : forall c, 65 <= c <= 70 -> dig c (c - 65 + 10)
| Dig_af : forall c, 97 <= c <= 102 -> dig c (c - 97 + 10).

(** The number that the digits [s] stand for in the base. *)
Inductive digits (base : Z) : list Z -> Z -> Prop :=
| D_one : forall c v, dig c v -> v < base -> digits base [c] v
| D_more : forall s n c v, digits base s n -> dig c v -> v < base -> digits base (s ++ [c]) (n * base + v).

(** A number as in C: decimal, octal with 0 in front, hexadecimal with 0x in front. *)
Inductive c_number : list Z -> Z -> Prop :=
| N_dec : forall c s v, 49 <= c <= 57 -> digits 10 (c :: s) v -> c_number (c :: s) v
| N_oct : forall s v, digits 8 (48 :: s) v -> c_number (48 :: s) v
| N_hex : forall x s v, x = 120 \/ x = 88 -> digits 16 s v -> c_number (48 :: x :: s) v.

(** a, a.b, a.b.c or a.b.c.d; all parts but the last are bytes, the last one fills the rest
    of the 32 bits.  The address is the number with these bytes, the first one highest. *)
Inductive notation : list Z -> Z -> Prop :=
| A_1 : forall s v, c_number s v -> v < 2 ^ 32 -> notation s v
| A_2 : forall s1 a s v, c_number s1 a -> a < 256 -> c_number s v -> v < 2 ^ 24 ->
    notation (s1 ++ [46] ++ s) (a * 2 ^ 24 + v)
| A_3 : forall s1 a s2 b s v, c_number s1 a -> a < 256 -> c_number s2 b -> b < 256 -> c_number s v -> v < 2 ^ 16 ->
    notation (s1 ++ [46] ++ s2 ++ [46] ++ s) (a * 2 ^ 24 + b * 2 ^ 16 + v)
| A_4 : forall s1 a s2 b s3 c s v, c_number s1 a -> a < 256 -> c_number s2 b -> b < 256 ->
    c_number s3 c -> c < 256 -> c_number s v -> v < 256 ->
    notation (s1 ++ [46] ++ s2 ++ [46] ++ s3 ++ [46] ++ s) (a * 2 ^ 24 + b * 2 ^ 16 + c * 2 ^ 8 + v).

(** What may stand in a host argument: the notation, and after it nothing or white space and
    anything. *)
Definition host_text (h : list Z) (v : Z) : Prop :=
  notation h v \/ exists s c t, h = s ++ c :: t /\ white c /\ notation s v.

(** The bytes of an address in the order of the network. *)
Definition net_bytes (v : Z) : list Z := [v / 2 ^ 24; v / 2 ^ 16 mod 256; v / 2 ^ 8 mod 256; v mod 256].

(** A decimal number without superfluous zeros. *)
Definition plain (s : list Z) : Prop := s = [48] \/ exists c t, s = c :: t /\ c <> 48.
(** The text a.b.c.d of four plain decimal numbers below 256. *)
Definition plain_quad (s : list Z) (a b c d : Z) : Prop :=
  exists s1 s2 s3 s4, dotted s s1 s2 s3 s4 /\ octet s1 a /\ octet s2 b /\ octet s3 c /\ octet s4 d /\
    plain s1 /\ plain s2 /\ plain s3 /\ plain s4.
