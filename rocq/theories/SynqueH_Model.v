(** The executions of Synque_Model (coda/synque.hpp) with the mutex shown: which steps lock it and
    which unlock it.  pthread_mutex_lock, and pthread_cond_wait when it returns, acquire; the
    unlock, and pthread_cond_wait when it goes to sleep, release (POSIX, memory synchronization). *)

From Coq Require Import List Bool.
From Verif Require Import Base Synque_Spec Synque_Model.
Import ListNotations.

(** Not in the code: a step and the owner of the mutex before and after it. *)
Record shown (A : Type) := mkShown { s_event : event A; s_before : option nat; s_after : option nat }.
Arguments mkShown {A}. Arguments s_event {A}. Arguments s_before {A}. Arguments s_after {A}.

(** Not in the code: executions with the owner of the mutex (synque.hpp:14) at every step. *)
Inductive hexec (A : Type) (n : nat) : list (shown A) -> state A -> Prop :=
| hex_nil : hexec A n [] (init A n)
| hex_snoc : forall tr s e s', hexec A n tr s -> step A s e s' ->
    hexec A n (tr ++ [mkShown e (owner A s) (owner A s')]) s'.
