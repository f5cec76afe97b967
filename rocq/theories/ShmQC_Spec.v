(** What connecting to a shared queue should guarantee. *)
From Coq Require Import ZArith List Bool.
From Verif Require Import ShmQC_Model.
Import ListNotations.
Local Open Scope Z_scope.

(** the process is between lock_queue and unlock_queue *)
Definition inside (p : qpc) : bool :=
  match p with
  | QFind | QMake | QInit | QCheck | QUnlock | FBody | FPost | FUnlock | UBody | UUnlock => true
  | _ => false
  end.
Definition one_inside (s : csys) : Prop :=
  forall i j p q u v, nth_error (ps s) i = Some (p, u) -> nth_error (ps s) j = Some (q, v) ->
  inside p = true -> inside q = true -> i = j.
(** an unflush that has taken a ticket and not yet its box *)
Definition claims (p : qpc) : bool := match p with ULock | UBody => true | _ => false end.
(** a flush that has stored its box and not yet announced it *)
Definition pending (p : qpc) : bool := match p with FPost => true | _ => false end.
Definition number (f : qpc -> bool) (s : csys) : Z := Z.of_nat (length (filter (fun x => f (fst x)) (ps s))).
(** how often a set of semaphores was made, and a segment set up *)
Definition creations (tr : list kind) : nat := length (filter (fun k => match k with KCreate => true | _ => false end) tr).
Definition set_ups (tr : list kind) : nat := length (filter (fun k => match k with KInit => true | _ => false end) tr).
(** the boxes that are in the ring, by what was stored and taken since it was set up *)
Definition boxes (tr : list kind) : Z :=
  fold_left (fun n k => match k with KInit => 0 | KStore => n + 1 | KTake => n - 1 | _ => n end) tr 0.
Definition stores (tr : list kind) : nat := length (filter (fun k => match k with KStore => true | _ => false end) tr).
(** no lock call was interrupted *)
Definition undisturbed (tr : list kind) : Prop := ~ In KIntr tr.
(** the process has connected *)
Definition connected (p : qpc) : bool :=
  match p with QUp | FLock | FBody | FPost | FUnlock | UTicket | ULock | UBody | UUnlock => true | _ => false end.

(** the setting up of the semaphores disturbs nobody: the lock is reset only while it is free, the count only
    while it is 0 *)
Inductive calm (s0 : csys) : list kind -> csys -> Prop :=
| calm_nil : calm s0 [] s0
| calm_snoc : forall tr s k i s', calm s0 tr s -> step s k i s' ->
    (k = KReset -> forall j p u, nth_error (ps s) j = Some (p, u) -> inside p = false) ->
    (k = KZero -> cnt (gl s) = 0) ->
    calm s0 (tr ++ [k]) s'.
