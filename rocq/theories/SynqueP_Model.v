(** Programs that pass elements through a chain of thread-safe queues (coda/synque.hpp), as the
    queue is meant to be used between the stages of a server.

    Queue number [j] leads from stage [j] to stage [j+1].  A thread of stage [j+1] gets from queue
    [j], with either overload of get, and adds what it got, in that order, to queue [j+1] before
    it gets more; a thread of stage 0 adds what it likes to queue 0.  There are [len] queues and the
    threads of stage [len] keep what they get.  All may call signal and size on every queue.  What a thread has got and not yet passed on is in a local deque, its hand.  The steps
    inside the calls are those of Synque_Model. *)

From Coq Require Import ZArith List Bool.
From Verif Require Import Base Synque_Spec Synque_Model.
Import ListNotations.

Section Model.
Variable A : Type.
(** Not in the code: the stage of each thread, and the number of queues. *)
Variable stage : nat -> nat.
Variable len : nat.

(** Not in the code: the queues, and the hand of each thread. *)
Record chain := mkChain { queues : nat -> state A; hand : nat -> list A }.
(** Not in the code: a function changed at one place. *)
Definition fupd {B} (f : nat -> B) (i : nat) (v : B) : nat -> B := fun j => if Nat.eqb j i then v else f j.

(** the elements that get hands to its caller; synque.hpp:66, 99 *)
Definition got_of (r : ret A) : list A := match r with RGet x => [x] | RBatch l => l | _ => [] end.

(** Not in the code: which calls the program makes, and the hands afterwards. *)
Inductive client (j : nat) (h : nat -> list A) : event A -> (nat -> list A) -> Prop :=
| c_produce : forall t x, stage t = j -> j = 0%nat -> client j h (Call t (OAdd x)) h
| c_pass : forall t x r, stage t = j -> (0 < j < len)%nat -> h t = x :: r -> client j h (Call t (OAdd x)) (fupd h t r)
| c_get : forall t w, stage t = S j -> h t = [] \/ S j = len -> client j h (Call t (OGet w)) h
| c_batch : forall t max w, stage t = S j -> h t = [] \/ S j = len -> client j h (Call t (OBatch max w)) h
| c_signal : forall t, client j h (Call t OSignal) h
| c_size : forall t, client j h (Call t OSize) h
| c_return : forall t r, client j h (Return t r) (fupd h t (h t ++ got_of r))
| c_effect : forall t o r, client j h (Effect t o r) h
| c_wake : forall t, client j h (Wake t) h
| c_tau : forall t, client j h (Tau t) h.

(** Not in the code: a thread makes one call at a time. *)
Definition free_to (c : chain) (e : event A) : Prop :=
  match e with Call t _ => forall i, nth_error (pcs A (queues c i)) t = Some (Idle A) | _ => True end.

(** Not in the code: one step of one thread on queue [j]; what the queue does is in Synque_Model
    (synque.hpp:30-114). *)
Inductive cstep : chain -> nat * event A -> chain -> Prop :=
| c_step : forall c j e s' h', step A (queues c j) e s' -> client j (hand c) e h' -> free_to c e ->
    cstep c (j, e) (mkChain (fupd (queues c) j s') h').

(** Not in the code: executions of [n] threads; all queues and hands are empty at first. *)
Inductive cexec (n : nat) : list (nat * event A) -> chain -> Prop :=
| cex_nil : cexec n [] (mkChain (fun _ => init A n) (fun _ => []))
| cex_snoc : forall tr c e c', cexec n tr c -> cstep c e c' -> cexec n (tr ++ [e]) c'.
End Model.
Arguments mkChain {A}. Arguments queues {A}. Arguments hand {A}.
