(** What the processes that share a queue should observe. *)

From Coq Require Import ZArith List Bool.
From Verif Require Import Base Shm_Model ShmQ_Spec ShmQ_Model.
Import ListNotations.
Local Open Scope Z_scope.

(** the completed calls of a trace *)
Fixpoint dones (tr : list event) : list (qop * qret) :=
  match tr with
  | [] => []
  | EDone _ o r :: tr => (o, r) :: dones tr
  | _ :: tr => dones tr
  end.
Definition is_intr (e : event) : bool := match e with EIntr _ => true | _ => false end.
Definition is_death (e : event) : bool := match e with EDie _ _ => true | _ => false end.
Definition is_inner_death (e : event) : bool := match e with EDie _ b => b | _ => false end.

(** no interrupted lock, and nobody died while it held the lock *)
Definition fine (e : event) : bool := negb (is_intr e) && negb (is_inner_death e).

(** a process in unflush that has a ticket, until it returns *)
Definition claims (p : pc) : bool :=
  match p with
  | Lock QUnflush | Body QUnflush _ _ | Unlock QUnflush _ => true
  | _ => false
  end.
(** a process in flush that has announced its box and has not returned yet *)
Definition posted (p : pc) : bool :=
  match p with
  | Unlock (QFlush _) (QStored true) => true
  | _ => false
  end.
Definition count (f : pc -> bool) (l : list (pc * Z)) : nat :=
  length (filter (fun p => f (fst p)) l).

(** at most one process is between lock and unlock *)
Definition one_holder (s : sys) : Prop :=
  forall i j p u q v, nth_error (procs s) i = Some (p, u) -> nth_error (procs s) j = Some (q, v) ->
  holds p = true -> holds q = true -> i = j.

(** the boxes put into the queue by the attach of a new segment: none; registers zero *)
Definition qempty : qst := mkQ [] (repeat 0 12).

(** [m0] is what connect leaves in a segment it created *)
Definition created (n : nat) (sz : Z) (m0 : mem) : Prop :=
  exists m, run (seg_size n sz) (attach_body true n sz) m = Ok (tt, m0).

(** sizes for which the arithmetic of the code does not wrap *)
Definition sane (n : nat) (sz : Z) : Prop := 1 <= sz < 2^32 /\ sz * Z.of_nat n < 2^32.

(** serialize always succeeds and writes size() bytes; deserialize recognises them *)
Record codec_ok (T : Type) (K : codec T) (enc : T -> list Z) : Prop := mkCodecOk
  { k_ser : forall x, c_ser K x = Some (enc x);
    k_len : forall x, length (enc x) = c_size K x;
    k_des : forall x rest, c_des K (enc x ++ rest) = Some x }.
