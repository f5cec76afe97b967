(** Threads that serve a thread-safe queue (coda/synque.hpp) until they are told to stop, over the
    executions of Synque_Model.  The library leaves the stopping to its user: signal
    (synque.hpp:38-43) is what it offers for it.  Two ways are modelled: a flag that is read before
    each get, with signal to wake the threads that wait (below), and elements that mean stop
    (SynqueS_Spec, which needs nothing but the history of the queue). *)

From Coq Require Import List Bool.
From Verif Require Import Base Synque_Spec Synque_Model.
Import ListNotations.

Section Model.
Variable A : Type.
Variable worker : nat -> bool.                 (* the threads that serve *)

(** Not in the code: where a serving thread is in  while (!stop) q.get(...);  *)
Inductive wpc := Checking | Allowed | InCall | Ended.
(** Not in the code: the queue, the flag the workers read, where each thread is. *)
Record wstate := mkW { w_q : state A; w_stop : bool; w_pc : nat -> wpc }.
(** Not in the code. *)
Definition wput (f : nat -> wpc) (t : nat) (p : wpc) : nat -> wpc := fun u => if Nat.eqb u t then p else f u.

(** Not in the code: what happens; [WSet] sets the flag. *)
Inductive wevent := WSet | WCheck (t : nat) | WQueue (e : event A).

(** Not in the code: the calls of a serving thread, and those of the others. *)
Definition takes (o : op A) : bool := match o with OGet _ | OBatch _ _ => true | _ => false end.

(** Not in the code: one step; the steps of the queue are those of synque.hpp:30-114. *)
Inductive wstep : wstate -> wevent -> wstate -> Prop :=
| w_set : forall s, wstep s WSet (mkW (w_q s) true (w_pc s))
| w_check : forall s t, worker t = true -> w_pc s t = Checking ->
    wstep s (WCheck t) (mkW (w_q s) (w_stop s) (wput (w_pc s) t (if w_stop s then Ended else Allowed)))
| w_call : forall s t o q', worker t = true -> w_pc s t = Allowed -> takes o = true ->
    step A (w_q s) (Call t o) q' -> wstep s (WQueue (Call t o)) (mkW q' (w_stop s) (wput (w_pc s) t InCall))
| w_other_call : forall s t o q', worker t = false -> takes o = false ->
    step A (w_q s) (Call t o) q' -> wstep s (WQueue (Call t o)) (mkW q' (w_stop s) (w_pc s))
| w_return : forall s t r q', step A (w_q s) (Return t r) q' ->
    wstep s (WQueue (Return t r)) (mkW q' (w_stop s) (if worker t then wput (w_pc s) t Checking else w_pc s))
| w_inner : forall s e q', match e with Call _ _ | Return _ _ => False | _ => True end ->
    step A (w_q s) e q' -> wstep s (WQueue e) (mkW q' (w_stop s) (w_pc s)).

(** Not in the code: executions from an empty queue and a clear flag. *)
Inductive wexec (n : nat) : list wevent -> wstate -> Prop :=
| wx_nil : wexec n [] (mkW (init A n) false (fun _ => Checking))
| wx_snoc : forall tr s e s', wexec n tr s -> wstep s e s' -> wexec n (tr ++ [e]) s'.
(** Not in the code: what happens from some state on. *)
Inductive wruns (s0 : wstate) : list wevent -> wstate -> Prop :=
| wr_nil : wruns s0 [] s0
| wr_snoc : forall tr s e s', wruns s0 tr s -> wstep s e s' -> wruns s0 (tr ++ [e]) s'.
End Model.
Arguments WSet {A}. Arguments WCheck {A}. Arguments WQueue {A}.
