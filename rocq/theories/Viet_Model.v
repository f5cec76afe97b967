(** Model of coda/vietnam.cpp. *)

From Coq Require Import ZArith List Bool.
From Verif Require Import Base.
Import ListNotations.
Local Open Scope Z_scope.

(** the cases of the switch, vietnam.cpp:67-112, and the letter each appends *)
Definition table : list (list Z * Z) :=
  [([0xD0; 0x110], 68); ([0xF0; 0x111], 100);
   ([0xC0; 0xC1; 0xC2; 0xC3; 0x102; 0x1EA0; 0x1EA2; 0x1EA4; 0x1EA6;
     0x1EA8; 0x1EAA; 0x1EAC; 0x1EAE; 0x1EB0; 0x1EB2; 0x1EB4; 0x1EB6], 65);
   ([0xE0; 0xE1; 0xE2; 0xE3; 0x103; 0x1EA1; 0x1EA3; 0x1EA5; 0x1EA7;
     0x1EA9; 0x1EAB; 0x1EAD; 0x1EAF; 0x1EB1; 0x1EB3; 0x1EB5; 0x1EB7], 97);
   ([0xC8; 0xC9; 0xCA; 0x1EB8; 0x1EBA; 0x1EBC; 0x1EBE; 0x1EC0; 0x1EC2; 0x1EC4; 0x1EC6], 69);
   ([0xE8; 0xE9; 0xEA; 0x1EB9; 0x1EBB; 0x1EBD; 0x1EBF; 0x1EC1; 0x1EC3; 0x1EC5; 0x1EC7], 101);
   ([0xCC; 0xCD; 0x128; 0x1EC8; 0x1ECA], 73);
   ([0xEC; 0xED; 0x129; 0x1EC9; 0x1ECB], 105);
   ([0xD2; 0xD3; 0xD4; 0xD5; 0x1A0; 0x1ECC; 0x1ECE; 0x1ED0; 0x1ED2;
     0x1ED4; 0x1ED6; 0x1ED8; 0x1EDA; 0x1EDC; 0x1EDE; 0x1EE0; 0x1EE2], 79);
   ([0xF2; 0xF3; 0xF4; 0xF5; 0x1A1; 0x1ECD; 0x1ECF; 0x1ED1; 0x1ED3;
     0x1ED5; 0x1ED7; 0x1ED9; 0x1EDB; 0x1EDD; 0x1EDF; 0x1EE1; 0x1EE3], 111);
   ([0xD9; 0xDA; 0x168; 0x1AF; 0x1EE4; 0x1EE6; 0x1EE8; 0x1EEA; 0x1EEC; 0x1EEE; 0x1EF0], 85);
   ([0xF9; 0xFA; 0x169; 0x1B0; 0x1EE5; 0x1EE7; 0x1EE9; 0x1EEB; 0x1EED; 0x1EEF; 0x1EF1], 117);
   ([0xDD; 0x1EF2; 0x1EF4; 0x1EF6; 0x1EF8], 89);
   ([0xFD; 0x1EF3; 0x1EF5; 0x1EF7; 0x1EF9], 121)].
(** the switch, vietnam.cpp:59-121: the letter appended for [code], if any *)
Definition letter (code : Z) : option Z :=
  option_map snd (find (fun x => existsb (Z.eqb code) (fst x)) table).

(** [n] bytes from [p] on; copied by the loops of vietnam.cpp:62-65 and 115-119 *)
Fixpoint copy (s : list Z) (p n : nat) : res (list Z) :=
  match n with
  | O => Ok []
  | S n => c <- rd s p ;; t <- copy s (S p) n ;; Ok (c :: t)
  end.

(** vietnam.cpp:20-52, decoding at [p]: code, char_len and the new position; the sums are
    those of uint32_t, which they do not exceed *)
Definition decode (s : list Z) (p sz : nat) : res (Z * nat * nat) :=
  c <- rd s p ;;
  if Z.land c 0xF0 =? 0xF0 then                                        (* 25 *)
    if (p + 3 <? sz)%nat then
      c1 <- rd s (p + 1) ;; c2 <- rd s (p + 2) ;; c3 <- rd s (p + 3) ;;
      Ok (Z.shiftl (Z.land c 0x07) 18 + Z.shiftl (Z.land c1 0x3F) 12 + Z.shiftl (Z.land c2 0x3F) 6 + Z.land c3 0x3F, 4%nat, (p + 4)%nat)
    else Ok (0, 0%nat, p)
  else if Z.land c 0xF0 =? 0xE0 then                                   (* 35 *)
    if (p + 2 <? sz)%nat then
      c1 <- rd s (p + 1) ;; c2 <- rd s (p + 2) ;;
      Ok (Z.shiftl (Z.land c 0x0F) 12 + Z.shiftl (Z.land c1 0x3F) 6 + Z.land c2 0x3F, 3%nat, (p + 3)%nat)
    else Ok (0, 0%nat, p)
  else                                                                 (* 44 *)
    if (p + 1 <? sz)%nat then
      c1 <- rd s (p + 1) ;;
      Ok (Z.shiftl (Z.land c 0x1F) 6 + Z.land c1 0x3F, 2%nat, (p + 2)%nat)
    else Ok (0, 0%nat, p).

(** coda_remove_tones_utf8, vietnam.cpp:4-126; the loop at position [p], the result so far
    in [out] *)
Fixpoint remove_loop (fuel : nat) (s : list Z) (sz p : nat) (out : list Z) : res (list Z) :=
  match fuel with
  | O => Fuel
  | S fuel =>
      if (p <? sz)%nat then
        c <- rd s p ;;
        if c <? 0x80 then remove_loop fuel s sz (S p) (out ++ [c])     (* 14-18 *)
        else
          '(code, char_len, p) <- decode s p sz ;;
          if (0x300 <=? code) && (code <=? 0x36F) then remove_loop fuel s sz p out   (* 54-57 *)
          else if code =? 0 then                                       (* 61-66 *)
            t <- copy s p (sz - p) ;; remove_loop fuel s sz (Nat.max p sz) (out ++ t)
          else
            match letter code with
            | Some l => remove_loop fuel s sz p (out ++ [l])
            | None => t <- copy s (p - char_len) char_len ;; remove_loop fuel s sz p (out ++ t)  (* 113-120 *)
            end
      else Ok out
  end.
(** coda_remove_tones_utf8, vietnam.cpp:4-126 *)
Definition remove_tones (s : list Z) (sz : nat) : res (list Z) := remove_loop (S sz) s sz 0 [].
