(** Specification of Base 58: positional notation of the number denoted by the
    bytes, one '1' per leading zero byte.  No tables, no buffers. *)

From Coq Require Import ZArith List Bool.
From Verif Require Import Base.
Import ListNotations.
Local Open Scope Z_scope.

(** The number denoted by a digit list, most significant digit first. *)
Fixpoint num_from (B acc : Z) (ds : list Z) : Z :=
  match ds with [] => acc | d :: t => num_from B (acc * B + d) t end.
Definition num (B : Z) (ds : list Z) : Z := num_from B 0 ds.

(** The Bitcoin alphabet: digits 1-9, A-Z without I and O, a-z without l. *)
Definition ch58 (d : Z) : Z :=
  if d <? 9 then 49 + d                    (* '1'..'9' *)
  else if d <? 17 then 65 + (d - 9)        (* 'A'..'H' *)
  else if d <? 22 then 74 + (d - 17)       (* 'J'..'N' *)
  else if d <? 33 then 80 + (d - 22)       (* 'P'..'Z' *)
  else if d <? 44 then 97 + (d - 33)       (* 'a'..'k' *)
  else 109 + (d - 44).                     (* 'm'..'z' *)

Definition is58 (c : Z) : Prop := exists d, 0 <= d < 58 /\ c = ch58 d.

Definition no_lead_zero (l : list Z) : Prop := match l with 0 :: _ => False | _ => True end.

(** [t] is the Base 58 text of the byte string [x]. *)
Definition base58_of (x t : list Z) : Prop :=
  exists z x' ds,
    x = repeat 0 z ++ x' /\ no_lead_zero x' /\
    t = repeat 49 z ++ map ch58 ds /\ no_lead_zero ds /\
    Forall (fun d => 0 <= d < 58) ds /\
    num 58 ds = num 256 x'.
