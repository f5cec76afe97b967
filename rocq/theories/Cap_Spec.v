(** The memory a value occupies. *)

From Coq Require Import ZArith List.
From Verif Require Import Cap_Model.
Import ListNotations.
Local Open Scope Z_scope.

(** the bytes of the memory blocks that belong to a value, not counting the value itself: a
    vector has one block for its elements if its capacity is not zero; a string has one block
    for its characters and the terminator if they do not fit in the 16 bytes inside it.  What
    a pointer points to does not belong to the value. *)
Fixpoint owned (v : val) : Z :=
  match v with
  | Num _ | Ptr _ => 0
  | Vec cap s elems => cap * s + fold_right Z.add 0 (map owned elems)
  | Str cap s => if (cap + 1) * s <=? 16 then 0 else (cap + 1) * s
  | Obj _ _ parts => fold_right Z.add 0 (map owned parts)
  end.
Definition held (v : val) : Z := size_of v + owned v.
(** values that can exist: sizes are positive, a vector holds at most its capacity, all of it
    fits in the address space, and a string is never smaller than what fits inside it *)
Fixpoint sane (v : val) : Prop :=
  match v with
  | Num s => 0 < s
  | Ptr _ => True
  | Vec cap s elems => 0 < s /\ Z.of_nat (length elems) <= cap /\ cap * s < 2 ^ 63 /\
      fold_right and True (map sane elems) /\ Forall (fun e => size_of e = s) elems
  | Str cap s => 0 < s /\ 0 <= cap /\ 16 <= (cap + 1) * s < 2 ^ 63
  | Obj own _ parts => 0 < own /\ fold_right and True (map sane parts)
  end.
(** numbers and pointers *)
Definition flat (v : val) : Prop := match v with Num _ | Ptr _ => True | _ => False end.
