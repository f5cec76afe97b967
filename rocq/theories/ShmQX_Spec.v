(** Calls of one process, one after the other, on the segment of a shared queue. *)

From Coq Require Import ZArith List.
From Verif Require Import Base Shm_Model ShmQ_Spec ShmQ_Model.
Import ListNotations.
Local Open Scope Z_scope.

Fixpoint calls (lim : Z) (n : nat) (os : list qop) (m : mem) : res (list qret * mem) :=
  match os with
  | [] => Ok ([], m)
  | o :: os => '(r, m) <- run lim (body n o) m ;; '(rs, m) <- calls lim n os m ;; Ok (r :: rs, m)
  end.

(** a box is stored and taken, [k] times *)
Fixpoint pairs (b : list Z) (k : nat) : list qop :=
  match k with O => [] | S k => QFlush b :: QUnflush :: pairs b k end.

(** the number of processes between lock and unlock *)
Definition holders (s : sys) : nat := length (filter (fun p => holds (fst p)) (procs s)).
