(** Model of coda/synque.hpp when threads are cancelled with pthread_cancel.

    The steps are those of [Synque_Model].  Cancellation is deferred (the default): it acts in
    the calls that POSIX names as cancellation points, and of those the queue uses only
    pthread_cond_wait (synque.hpp:57, 85).  A thread cancelled there takes the mutex again
    before it runs its cleanup handlers (pthread_cond_wait(3p)); the code installs none, and
    none of its local variables has a destructor that unlocks, so the thread ends with the
    mutex locked. *)

From Coq Require Import ZArith List Bool.
From Verif Require Import Base Synque_Spec Synque_Model.
Import ListNotations.

Section Model.
Variable A : Type.

(** Not in the code: the events; [Cancelled t]: thread [t] has ended. *)
Inductive kevent := Ran (e : event A) | Cancelled (t : nat).
(** Not in the code: the queue and the threads that have ended. *)
Record kstate := mkK { k_st : state A; k_ended : list nat }.
(** Not in the code: whose step it is. *)
Definition who (e : event A) : nat :=
  match e with Call t _ => t | Effect t _ _ => t | Return t _ => t | Wake t => t | Tau t => t end.

(** one step, synque.hpp:30-114; a thread that has ended does nothing.  Simplified: a thread
    that is cancelled leaves the wait and takes the mutex in one step. *)
Inductive kstep : kstate -> kevent -> kstate -> Prop :=
| k_step : forall s e s' l, ~ In (who e) l -> step A s e s' -> kstep (mkK s l) (Ran e) (mkK s' l)
(** cancelled while it waits, 57 / 85 *)
| k_asleep : forall s t p g w l, ~ In t l -> nth_error (pcs A s) t = Some p ->
    p = GetSleep A g w \/ p = GetWoken A g w -> owner A s = None ->
    kstep (mkK s l) (Cancelled t) (mkK (mkState A (Some t) (dq A s) (upd (pcs A s) t (Idle A))) (t :: l))
(** the request was there when it called pthread_cond_wait, 57 / 85 *)
| k_enter : forall s t g l, ~ In t l -> nth_error (pcs A s) t = Some (GetTest A g true) -> dq A s = [] ->
    kstep (mkK s l) (Cancelled t) (mkK (mkState A (owner A s) (dq A s) (upd (pcs A s) t (Idle A))) (t :: l)).

(** Not in the code: executions from [n] threads and an empty queue (synque.hpp:18-22). *)
Inductive kexec (n : nat) : list kevent -> kstate -> Prop :=
| kex_nil : kexec n [] (mkK (init A n) [])
| kex_snoc : forall tr s e s', kexec n tr s -> kstep s e s' -> kexec n (tr ++ [e]) s'.
End Model.
Arguments Ran {A}. Arguments Cancelled {A}.
