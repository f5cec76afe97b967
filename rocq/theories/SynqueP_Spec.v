(** What is said of chains of thread-safe queues. *)
From Coq Require Import List Bool Arith.
From Verif Require Import Synque_Spec.
Import ListNotations.

(** what happened at queue [j] *)
Definition at_queue {A} (j : nat) (tr : list (nat * event A)) : list (event A) :=
  flat_map (fun x => if fst x =? j then [snd x] else []) tr.
(** what was added to queue [j], and what was handed out, in order *)
Definition into {A} (j : nat) (tr : list (nat * event A)) : list A := added (effects (at_queue j tr)).
Definition outof {A} (j : nat) (tr : list (nat * event A)) : list A := taken (effects (at_queue j tr)).
(** the same for one thread *)
Definition mine {A} (t : nat) (tr : list (event A)) : list (event A) :=
  filter (fun e => match e with Effect u _ _ => u =? t | _ => false end) tr.
Definition into_by {A} (t j : nat) (tr : list (nat * event A)) : list A := added (effects (mine t (at_queue j tr))).
Definition outof_by {A} (t j : nat) (tr : list (nat * event A)) : list A := taken (effects (mine t (at_queue j tr))).
