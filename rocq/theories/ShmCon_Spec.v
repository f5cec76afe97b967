(** When connecting processes exclude each other: the words used in ShmCon_Props. *)
From Coq Require Import ZArith List Bool.
From Verif Require Import Shm_Model ShmSys_Model.
Import ListNotations.
Local Open Scope Z_scope.

(** the process has taken the write lock in connect and not yet given it back *)
Definition choldsW (s : csys) (i : nat) : Prop :=
  exists p u, nth_error (c_procs s) i = Some (p, u) /\ (p = KShmIn \/ p = KIn \/ p = KErrUnlock).
(** the process that created the set has just reset the write semaphore *)
Definition resetsW (s s' : csys) : Prop :=
  exists i u u', nth_error (c_procs s) i = Some (KSetW, u) /\ nth_error (c_procs s') i = Some (KShmLock, u').
(** executions without interrupted calls in which it is never reset while it is taken *)
Inductive calm : csys -> csys -> Prop :=
| calm_nil : forall s, calm s s
| calm_snoc : forall s s1 s2, calm s s1 -> cstep false s1 s2 ->
    (resetsW s1 s2 -> forall i, ~ choldsW s1 i) -> calm s s2.
