(** Model of processes that share one pid file: coda_mkpidf (coda/system.c 57-116) and
    coda_daemon_stop (coda/daemon.c 123-131), system call by system call.

    The file system is what is needed of it: the inode the path names, if any, the content of
    each inode and the holder of its flock.  A process may die at any point; the kernel then
    drops its lock.  [Fd_Model.coda_mkpidf] is the same function for one process. *)

From Coq Require Import ZArith List Bool.
Import ListNotations.

(** where a process is; the argument is the inode it has open;
    lines of coda_mkpidf, system.c:57-116 *)
Inductive pc :=
| Idle
| Opened (i : nat)      (* open succeeded, 62; next flock, 65 *)
| Locked (i : nat)      (* next fstat, 74 *)
| Empty (i : nat)       (* st_size is not above 0, 82; next write, 97 *)
| Written (i : nat)     (* next unlock, 104 *)
| Unlocked (i : nat)    (* next close, 110 *)
| Undo (i : nat)        (* failed while locked; next unlock, 77, 85, 92 or 99 *)
| Leave (i : nat)       (* next close, result -1, 68, 78, 86, 93, 100 or 106 *)
| Owner (i : nat)       (* coda_mkpidf has returned 0 *)
| Dead.

(** Not in the code: the files and processes of the machine. *)
Record sys := mkSys
  { at_ : nat -> pc;                  (* processes *)
    path : option nat;                (* the inode of the pid file *)
    data : nat -> list Z;             (* contents *)
    lock : nat -> option nat;         (* holders of the locks *)
    next : nat }.                     (* first unused inode *)

(** Not in the code: update of a function at one point. *)
Definition put {A} (f : nat -> A) (i : nat) (v : A) : nat -> A := fun j => if Nat.eqb j i then v else f j.
(** Not in the code: no pid file, nobody has called anything. *)
Definition init : sys := mkSys (fun _ => Idle) None (fun _ => []) (fun _ => None) 0.

(** closing a file (or dying) gives back the lock if one is held;
    not in the code: what the kernel does. *)
Definition release (l : nat -> option nat) (p : nat) : nat -> option nat :=
  fun j => match l j with Some q => if Nat.eqb q p then None else Some q | None => None end.

Section Steps.
(** the text each process writes: its number and a newline *)
Variable text : nat -> list Z.
(** variants of the world: processes that own nothing may call coda_daemon_stop; write may
    report that it wrote nothing *)
Variables anyone zero : bool.

(** Not in the code: process [p] moves to [c]. *)
Definition go (s : sys) (p : nat) (c : pc) : sys := mkSys (put (at_ s) p c) (path s) (data s) (lock s) (next s).
(** Not in the code: the same, with a change of the locks. *)
Definition go_lock (s : sys) (p : nat) (c : pc) (l : nat -> option nat) : sys :=
  mkSys (put (at_ s) p c) (path s) (data s) l (next s).

(** coda_mkpidf, system.c:57-116, and coda_daemon_stop, daemon.c:123-131: one system call *)
Inductive step (s : sys) : sys -> Prop :=
(** open with O_CREAT, 62 *)
| s_open : forall p i, at_ s p = Idle -> path s = Some i -> step s (go s p (Opened i))
| s_creat : forall p, at_ s p = Idle -> path s = None ->
    step s (mkSys (put (at_ s) p (Opened (next s))) (Some (next s)) (put (data s) (next s) []) (lock s) (S (next s)))
(** flock LOCK_EX|LOCK_NB, 65; it may fail for any reason *)
| s_lock : forall p i, at_ s p = Opened i -> lock s i = None -> step s (go_lock s p (Locked i) (put (lock s) i (Some p)))
| s_lock_fail : forall p i, at_ s p = Opened i -> step s (go s p (Leave i))
(** fstat, 74 and 82 *)
| s_stat_empty : forall p i, at_ s p = Locked i -> data s i = [] -> step s (go s p (Empty i))
| s_stat_full : forall p i, at_ s p = Locked i -> data s i <> [] -> step s (go s p (Undo i))
| s_stat_fail : forall p i, at_ s p = Locked i -> step s (go s p (Undo i))
(** write, 97: at the beginning of the file, possibly a part of the text only *)
| s_write : forall p i k, at_ s p = Empty i -> (0 < k <= length (text p) \/ zero = true /\ k = 0) ->
    step s (mkSys (put (at_ s) p (Written i)) (path s) (put (data s) i (firstn k (text p) ++ skipn k (data s i))) (lock s) (next s))
| s_write_fail : forall p i, at_ s p = Empty i -> step s (go s p (Undo i))
(** flock LOCK_UN, 104 *)
| s_unlock : forall p i, at_ s p = Written i -> step s (go_lock s p (Unlocked i) (put (lock s) i None))
| s_unlock_fail : forall p i, at_ s p = Written i -> step s (go s p (Leave i))
(** close, 110; a failing close has released the file *)
| s_close : forall p i, at_ s p = Unlocked i -> step s (go_lock s p (Owner i) (release (lock s) p))
| s_close_fail : forall p i, at_ s p = Unlocked i -> step s (go_lock s p Idle (release (lock s) p))
(** flock LOCK_UN of the error paths, whatever it returns, and close *)
| s_undo : forall p i, at_ s p = Undo i -> step s (go_lock s p (Leave i) (put (lock s) i None))
| s_undo_fail : forall p i, at_ s p = Undo i -> step s (go s p (Leave i))
| s_leave : forall p i, at_ s p = Leave i -> step s (go_lock s p Idle (release (lock s) p))
(** coda_daemon_stop, daemon.c:125 *)
| s_stop : forall p i, at_ s p = Owner i \/ anyone = true /\ at_ s p = Idle -> path s = Some i ->
    step s (mkSys (put (at_ s) p Idle) None (data s) (lock s) (next s))
(** death *)
| s_die : forall p, step s (go_lock s p Dead (release (lock s) p)).

(** Not in the code: any number of steps. *)
Inductive reach (s0 : sys) : sys -> Prop :=
| r_refl : reach s0 s0
| r_step : forall s s', reach s0 s -> step s s' -> reach s0 s'.
End Steps.
