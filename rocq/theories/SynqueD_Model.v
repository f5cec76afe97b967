(** Model of the destructor of coda/synque.hpp, for threads as in Synque_Model. *)

From Coq Require Import ZArith List Bool.
From Verif Require Import Base Synque_Spec Synque_Model.
Import ListNotations.

Section Model.
Variable A : Type.

(** Not in the code: a thread in pthread_cond_wait (synque.hpp:57, 85), asleep or not *)
Definition waits (p : pc A) : bool :=
  match p with GetSleep _ _ _ | GetWoken _ _ _ => true | _ => false end.
(** Not in the code: a thread that is not in a call *)
Definition outside (p : pc A) : bool := match p with Idle _ => true | _ => false end.

(** ~synque, synque.hpp:24-27: pthread_cond_destroy (26) is undefined while a thread waits,
    pthread_mutex_destroy (27) while the mutex is locked; a thread inside a call goes on to
    use what is gone *)
Definition destroy (s : state A) : res unit :=
  if existsb waits (pcs A s) then Ub BadLib
  else match owner A s with
       | Some _ => Ub BadLib
       | None => if forallb outside (pcs A s) then Ok tt else Ub UseAfterFree
       end.
End Model.
