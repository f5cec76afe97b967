(** The calls of Life_Model that failed on a semaphore set. *)

From Coq Require Import ZArith List Bool.
From Verif Require Import Base Life_Model Life_Spec.
Import ListNotations.
Local Open Scope Z_scope.

(** how many semops on a semaphore set failed *)
Fixpoint failed_semops (l : log) : Z :=
  match l with
  | [] => 0
  | (Lock id, a) :: l | (Unlock id, a) :: l =>
    (if andb (negb (id =? -1)) (negb (a =? 0)) then 1 else 0) + failed_semops l
  | _ :: l => failed_semops l
  end.
