(** unflush with the flags and the timeout its caller passes, shm_queue.tcc:265-298.
    ShmQ_Model has the call with its default arguments (shm_queue.hpp:87).  The flag that
    matters is SEM_UNDO: the kernel then remembers, per process, what the operation took
    from the count, and adds it back when the process exits. *)
From Coq Require Import ZArith List Bool.
From Verif Require Import Base Shm_Model ShmQ_Spec ShmQ_Model.
Import ListNotations.
Local Open Scope Z_scope.

(** the timespec of shm_queue.tcc:276-277; C's division truncates *)
Definition timeout (usec : Z) : Z * Z := (Z.quot usec 1000000, Z.rem usec 1000000 * 1000).
(** semop(2): an invalid timeout is refused with EINVAL before anything else is looked at;
    not in the code: the kernel below shm_queue.tcc:279 *)
Definition timeout_ok (ts : Z * Z) : bool :=
  (0 <=? fst ts) && (0 <=? snd ts) && (snd ts <? 1000000000).

Section Sys.
Variable lim : Z.
Variable n : nat.

(** the system of ShmQ_Model and, per process, what is to be given back to the count;
    not in the code: semadj of the kernel *)
Record usys := mkU { u_sys : sys; u_adj : list Z }.

(** Not in the code: the flags of the call that is being made, seen at shm_queue.tcc:274. *)
Inductive how := Plain | Flagged.

(** one step; shm_queue.tcc:265-298.  A call that is given an invalid timeout returns
    false at 281 whatever the count is. *)
Inductive ustep : usys -> event -> how -> usys -> Prop :=
| UPlain : forall s a e s', step lim n s e s' -> (forall i b, e <> EDie i b) ->
    ustep (mkU s a) e Plain (mkU s' a)
(** 274, 279 with SEM_UNDO among the flags *)
| UFlag : forall s a i u s', nth_error (procs s) i = Some (Ticket, u) -> step lim n s (ETau i) s' ->
    ustep (mkU s a) (ETau i) Flagged (mkU s' (upd a i (nth i a 0 + 1)))
(** 276-281 with a timeout the kernel does not accept *)
| UBadTime : forall l c m ps a i u usec, nth_error ps i = Some (Ticket, u) ->
    timeout_ok (timeout usec) = false ->
    ustep (mkU (mkS l c m ps) a) (EFail i) Plain (mkU (mkS l c m (upd ps i (Idle, u))) a)
(** the end of a process, also the normal one: both adjustments are applied *)
| UDie : forall s a i b s', step lim n s (EDie i b) s' ->
    ustep (mkU s a) (EDie i b) Plain
      (mkU (mkS (lk s') (Z.min semvmx (cnt s' + nth i a 0)) (sm s') (procs s')) (upd a i 0)).

(** Not in the code: [k] connected processes. *)
Definition uinit (k : nat) (m0 : mem) : usys := mkU (init k m0) (repeat 0 k).
(** Not in the code: executions. *)
Inductive uexec (k : nat) (m0 : mem) : list (event * how) -> usys -> Prop :=
| uexec_nil : uexec k m0 [] (uinit k m0)
| uexec_snoc : forall tr s e h s', uexec k m0 tr s -> ustep s e h s' ->
    uexec k m0 (tr ++ [(e, h)]) s'.

End Sys.
