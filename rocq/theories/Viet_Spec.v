(** Vietnamese letters and UTF-8, independently of the code. *)

From Coq Require Import ZArith List Bool.
Import ListNotations.
Local Open Scope Z_scope.

(** UTF-8 (RFC 3629) *)
Definition utf8 (c : Z) : list Z :=
  if c <? 0x80 then [c]
  else if c <? 0x800 then [0xC0 + c / 64; 0x80 + c mod 64]
  else if c <? 0x10000 then [0xE0 + c / 4096; 0x80 + (c / 64) mod 64; 0x80 + c mod 64]
  else [0xF0 + c / 262144; 0x80 + (c / 4096) mod 64; 0x80 + (c / 64) mod 64; 0x80 + c mod 64].
Definition code_point (c : Z) : Prop := 0 <= c <= 0x10FFFF.
Definition encode (l : list Z) : list Z := flat_map utf8 l.

Definition btw (a c b : Z) : bool := (a <=? c) && (c <=? b).

(** The upper case letters of the three Unicode blocks that have Vietnamese letters, as
    ranges.  Latin-1 (lower case is 32 above), Latin Extended-A and B and Latin Extended
    Additional (lower case is the next code). *)
Definition latin1_upper (c : Z) : option Z :=
  if btw 0xC0 c 0xC3 then Some 65         (* grave, acute, circumflex, tilde *)
  else if btw 0xC8 c 0xCA then Some 69    (* grave, acute, circumflex *)
  else if btw 0xCC c 0xCD then Some 73    (* grave, acute *)
  else if c =? 0xD0 then Some 68          (* eth *)
  else if btw 0xD2 c 0xD5 then Some 79
  else if btw 0xD9 c 0xDA then Some 85
  else if c =? 0xDD then Some 89
  else None.
Definition extended_upper (c : Z) : option Z :=
  if c =? 0x102 then Some 65              (* breve *)
  else if c =? 0x110 then Some 68         (* stroke *)
  else if c =? 0x128 then Some 73         (* tilde *)
  else if c =? 0x168 then Some 85         (* tilde *)
  else if c =? 0x1A0 then Some 79         (* horn *)
  else if c =? 0x1AF then Some 85         (* horn *)
  else None.
(** U+1EA0..U+1EF9: even codes are upper case, odd ones lower case *)
Definition additional_upper (c : Z) : option Z :=
  if Z.odd c then None
  else if btw 0x1EA0 c 0x1EB6 then Some 65
  else if btw 0x1EB8 c 0x1EC6 then Some 69
  else if btw 0x1EC8 c 0x1ECA then Some 73
  else if btw 0x1ECC c 0x1EE2 then Some 79
  else if btw 0x1EE4 c 0x1EF0 then Some 85
  else if btw 0x1EF2 c 0x1EF8 then Some 89
  else None.
Definition first_some (a b : option Z) : option Z := match a with Some _ => a | None => b end.
Definition lower (a : option Z) : option Z := option_map (Z.add 32) a.
(** the base letter of a Vietnamese letter *)
Definition base_letter (c : Z) : option Z :=
  first_some (latin1_upper c) (first_some (extended_upper c) (first_some (additional_upper c)
  (first_some (lower (latin1_upper (c - 32))) (first_some (lower (extended_upper (c - 1))) (lower (additional_upper (c - 1))))))).

(** a code point without its tones *)
Definition toneless (c : Z) : list Z :=
  if btw 0x300 c 0x36F then []
  else match base_letter c with Some l => [l] | None => [c] end.
