(** Model of the synchronised part of coda/shm_hash_map.tcc: any number of processes that
    use one shared segment under the reader/writer lock, and processes that connect.

    A semaphore set has two values, R and W.  semop performs its operations atomically or
    blocks; every operation of this code carries SEM_UNDO, so the kernel keeps per process
    and semaphore the adjustment it applies when the process dies.  semop may also fail at
    any time while it waits (EINTR, ERANGE, EIDRM ...); the methods then throw. *)

From Coq Require Import ZArith List Bool.
From Verif Require Import Base Shm_Spec Shm_Model.
Import ListNotations.
Local Open Scope Z_scope.

(** shm_hash_map.tcc:3-4 *)
Inductive sem := SR | SW.
(** Not in the code: the values of the semaphore set of shm_hash_map.tcc:394-407 *)
Record sems := mkSems { vR : Z; vW : Z }.

(** Not in the code: value of one semaphore. *)
Definition sem_get (v : sems) (s : sem) : Z := match s with SR => vR v | SW => vW v end.
(** Not in the code: change of one semaphore. *)
Definition sem_set (v : sems) (s : sem) (x : Z) : sems :=
  match s with SR => mkSems x (vW v) | SW => mkSems (vR v) x end.

(** one struct sembuf: semaphore and sem_op; None: the call blocks; not in the code: semop(2) *)
Definition sem_try1 (v : sems) (o : sem * Z) : option sems :=
  let (s, d) := o in
  if d =? 0 then if sem_get v s =? 0 then Some v else None
  else if sem_get v s + d <? 0 then None
  else Some (sem_set v s (sem_get v s + d)).
(** semop(2) with several operations: all or nothing; not in the code: the kernel *)
Fixpoint sem_try (v : sems) (l : list (sem * Z)) : option sems :=
  match l with
  | [] => Some v
  | o :: l => match sem_try1 v o with Some v => sem_try v l | None => None end
  end.

(** the adjustments recorded by SEM_UNDO; not in the code: the kernel, semop(2) *)
Fixpoint undo_add (u : sems) (l : list (sem * Z)) : sems :=
  match l with
  | [] => u
  | (s, d) :: l => undo_add (sem_set u s (sem_get u s - d)) l
  end.
(** the death of a process: the kernel adds its adjustments, never going below zero *)
Definition undo_apply (v u : sems) : sems :=
  mkSems (Z.max 0 (vR v + vR u)) (Z.max 0 (vW v + vW u)).

(** shm_hash_map.tcc:459-468 *)
Definition lock_read : list (sem * Z) := [(SW, 0); (SR, 1)].
(** shm_hash_map.tcc:476-482 *)
Definition unlock_read : list (sem * Z) := [(SR, -1)].
(** shm_hash_map.tcc:490-502 *)
Definition lock_write : list (sem * Z) := [(SR, 0); (SW, 0); (SW, 1)].
(** shm_hash_map.tcc:510-516 *)
Definition unlock_write : list (sem * Z) := [(SW, -1)].

(** the two kinds of lock, shm_hash_map.tcc:459-522 *)
Inductive mode := Rd | Wr.
(** shm_hash_map.tcc:459-468, 490-502 *)
Definition lock_ops (g : mode) := match g with Rd => lock_read | Wr => lock_write end.
(** shm_hash_map.tcc:476-482, 510-516 *)
Definition unlock_ops (g : mode) := match g with Rd => unlock_read | Wr => unlock_write end.

Section Sys.
Variable R : Type.
Variable lim : Z.                       (* size of the segment *)

(** what a process is doing.  A call is a lock, a body and an unlock (140-213); the body
    of [Inside] is the rest still to be run, the first one is the whole. *)
Inductive pc :=
| Idle
| Wait (g : mode) (b : prog R)
| Inside (g : mode) (b0 b : prog R)
| Dead.
(** Not in the code: a process and its adjustments. *)
Record proc := mkProc { p_pc : pc; p_undo : sems }.
(** Not in the code: the state of the machine. *)
Record sys := mkSys { s_sems : sems; s_mem : mem; s_procs : list proc }.

(** Not in the code: what can be observed of a step. *)
Inductive event :=
| ECall (i : nat) (g : mode) (b : prog R)
| ELock (i : nat)
| EThrow (i : nat)
| EMem (i : nat)
| EDone (i : nat) (g : mode) (b : prog R) (r : R)
| ECrash (i : nat) (w : option (mode * prog R)).   (* in which section it died *)

(** Not in the code: the section a process is in. *)
Definition section_of (p : pc) : option (mode * prog R) :=
  match p with Inside g b0 _ => Some (g, b0) | _ => None end.

(** one step of one process, shm_hash_map.tcc:140-213 and 459-522; the lines stand beside each case *)
Inductive step : sys -> event -> sys -> Prop :=
(** a method is called: it waits for its lock *)
| SCall : forall v m ps i u g b,
    nth_error ps i = Some (mkProc Idle u) ->
    step (mkSys v m ps) (ECall i g b) (mkSys v m (upd ps i (mkProc (Wait g b) u)))
(** semop of lock_read_rw / lock_write_rw succeeds (470, 504) *)
| SLock : forall v m ps i u g b v',
    nth_error ps i = Some (mkProc (Wait g b) u) -> sem_try v (lock_ops g) = Some v' ->
    step (mkSys v m ps) (ELock i)
      (mkSys v' m (upd ps i (mkProc (Inside g b b) (undo_add u (lock_ops g)))))
(** semop fails, the method throws (472, 506) *)
| SThrow : forall v m ps i u g b,
    nth_error ps i = Some (mkProc (Wait g b) u) ->
    step (mkSys v m ps) (EThrow i) (mkSys v m (upd ps i (mkProc Idle u)))
(** one load or store of the body *)
| SMem : forall v m ps i u g b0 b b' m',
    nth_error ps i = Some (mkProc (Inside g b0 b) u) -> pstep lim b m b' m' ->
    step (mkSys v m ps) (EMem i) (mkSys v m' (upd ps i (mkProc (Inside g b0 b') u)))
(** semop of unlock_read_rw / unlock_write_rw (484, 518), and the method returns *)
| SDone : forall v m ps i u g b0 r v',
    nth_error ps i = Some (mkProc (Inside g b0 (Ret r)) u) ->
    sem_try v (unlock_ops g) = Some v' ->
    step (mkSys v m ps) (EDone i g b0 r)
      (mkSys v' m (upd ps i (mkProc Idle (undo_add u (unlock_ops g)))))
(** the process dies at any point *)
| SCrash : forall v m ps i p u,
    nth_error ps i = Some (mkProc p u) -> p <> Dead ->
    step (mkSys v m ps) (ECrash i (section_of p))
      (mkSys (undo_apply v u) m (upd ps i (mkProc Dead (mkSems 0 0)))).

(** executions of [n] processes from a segment [m0] with both semaphores at zero;
    shm_hash_map.tcc:400-410 sets the semaphores so. *)
Definition init (n : nat) (m0 : mem) : sys :=
  mkSys (mkSems 0 0) m0 (repeat (mkProc Idle (mkSems 0 0)) n).
(** Not in the code: executions. *)
Inductive exec (n : nat) (m0 : mem) : list event -> sys -> Prop :=
| exec_nil : exec n m0 [] (init n m0)
| exec_snoc : forall tr s e s', exec n m0 tr s -> step s e s' -> exec n m0 (tr ++ [e]) s'.

End Sys.
Arguments Idle {R}.
Arguments Wait {R} g b.
Arguments Inside {R} g b0 b.
Arguments Dead {R}.
Arguments mkProc {R} p_pc p_undo.
Arguments mkSys {R} s_sems s_mem s_procs.
Arguments ECall {R} i g b.
Arguments ELock {R} i.
Arguments EThrow {R} i.
Arguments EMem {R} i.
Arguments EDone {R} i g b r.
Arguments ECrash {R} i w.

(** the lock each method takes: shm_hash_map.tcc:105, 142 read; 151, 160, 177, 186, 203
    and 430 (attach in connect) write; an iteration is done by the user between
    lock_read_rw and unlock_read_rw *)
Definition lock_of (o : mop) : mode :=
  match o with MRead _ | MSize | MIterate => Rd | _ => Wr end.

(** ** connect, shm_hash_map.tcc:327-440

    The steps of several processes that connect to one key.  ftok and shmget succeed. *)
Inductive cpc :=
| KGet                 (* 394: semget(key, 2, 0) *)
| KCreate              (* 396: semget(key, 2, IPC_CREAT | 0666) *)
| KSetR                (* 402: semctl(SETVAL) of R *)
| KSetW                (* 407: semctl(SETVAL) of W *)
| KShmLock             (* 330: lock_write_rw in connect_shm *)
| KShmIn               (* 332-375: in the write section of connect_shm *)
| KLock                (* 430: lock_write_rw in connect *)
| KIn                  (* 431: attach, in the write section *)
| KErrUnlock           (* 436: unlock_write_rw in the exception handler *)
| KUp                  (* 440: connected *)
| KDown                (* 438: the exception is rethrown *)
| KDead.

(** Not in the code: does the set exist, its values, the processes. *)
Record csys := mkC { c_exists : bool; c_sems : sems; c_procs : list (cpc * sems) }.

(** SETVAL also clears the adjustments of all processes for this semaphore;
    not in the code: semctl(2), called in shm_hash_map.tcc:402, 407 *)
Definition clear_undo (s : sem) (l : list (cpc * sems)) : list (cpc * sems) :=
  map (fun p => (fst p, sem_set (snd p) s 0)) l.

(** the label says whether a semop was interrupted in 430 *)
Inductive cstep : bool -> csys -> csys -> Prop :=
| CGetOld : forall v ps i u, nth_error ps i = Some (KGet, u) ->
    cstep false (mkC true v ps) (mkC true v (upd ps i (KShmLock, u)))
| CGetNone : forall v ps i u, nth_error ps i = Some (KGet, u) ->
    cstep false (mkC false v ps) (mkC false v (upd ps i (KCreate, u)))
| CCreate : forall e v ps i u, nth_error ps i = Some (KCreate, u) ->
    cstep false (mkC e v ps) (mkC true (if e then v else mkSems 0 0) (upd ps i (KSetR, u)))
| CSetR : forall e v ps i u, nth_error ps i = Some (KSetR, u) ->
    cstep false (mkC e v ps) (mkC e (sem_set v SR 0) (clear_undo SR (upd ps i (KSetW, u))))
| CSetW : forall e v ps i u, nth_error ps i = Some (KSetW, u) ->
    cstep false (mkC e v ps) (mkC e (sem_set v SW 0) (clear_undo SW (upd ps i (KShmLock, u))))
| CShmLock : forall e v ps i u v', nth_error ps i = Some (KShmLock, u) ->
    sem_try v lock_write = Some v' ->
    cstep false (mkC e v ps) (mkC e v' (upd ps i (KShmIn, undo_add u lock_write)))
| CShmThrow : forall e v ps i u, nth_error ps i = Some (KShmLock, u) ->
    cstep false (mkC e v ps) (mkC e v (upd ps i (KDown, u)))          (* 424-425 *)
| CShmUnlock : forall e v ps i u v', nth_error ps i = Some (KShmIn, u) ->
    sem_try v unlock_write = Some v' ->
    cstep false (mkC e v ps) (mkC e v' (upd ps i (KLock, undo_add u unlock_write)))
| CLock : forall e v ps i u v', nth_error ps i = Some (KLock, u) ->
    sem_try v lock_write = Some v' ->
    cstep false (mkC e v ps) (mkC e v' (upd ps i (KIn, undo_add u lock_write)))
| CLockThrow : forall e v ps i u, nth_error ps i = Some (KLock, u) ->
    cstep true (mkC e v ps) (mkC e v (upd ps i (KErrUnlock, u)))     (* 434 *)
| CUnlock : forall e v ps i u v', nth_error ps i = Some (KIn, u) ->
    sem_try v unlock_write = Some v' ->
    cstep false (mkC e v ps) (mkC e v' (upd ps i (KUp, undo_add u unlock_write)))
| CAttachThrow : forall e v ps i u, nth_error ps i = Some (KIn, u) ->
    cstep false (mkC e v ps) (mkC e v (upd ps i (KErrUnlock, u)))     (* 65-69, 434 *)
| CErrUnlock : forall e v ps i u v', nth_error ps i = Some (KErrUnlock, u) ->
    sem_try v unlock_write = Some v' ->
    cstep false (mkC e v ps) (mkC e v' (upd ps i (KDown, undo_add u unlock_write)))
| CDie : forall e v ps i p u, nth_error ps i = Some (p, u) -> p <> KDead ->
    cstep false (mkC e v ps) (mkC e (undo_apply v u) (upd ps i (KDead, mkSems 0 0))).

(** Not in the code: executions. *)
Inductive csteps : csys -> list bool -> csys -> Prop :=
| CNil : forall s, csteps s [] s
| CSnoc : forall s l s1 b s2, csteps s l s1 -> cstep b s1 s2 -> csteps s (l ++ [b]) s2.

(** [n] processes that start to connect; does the semaphore set exist already?;
    not in the code: the start. *)
Definition cinit (e : bool) (n : nat) : csys :=
  mkC e (mkSems 0 0) (repeat (KGet, mkSems 0 0) n).
