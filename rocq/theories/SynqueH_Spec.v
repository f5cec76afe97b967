(** What a thread may rely on about memory: happens-before, as in POSIX and C++. *)
From Coq Require Import List Arith.
From Verif Require Import Synque_Spec SynqueH_Model.
Import ListNotations.

Definition thread_of {A} (x : shown A) : nat :=
  match s_event x with Call t _ | Effect t _ _ | Return t _ | Wake t | Tau t => t end.
Definition acquires {A} (x : shown A) : Prop := s_before x = None /\ s_after x <> None.
Definition releases {A} (x : shown A) : Prop := s_before x <> None /\ s_after x = None.

(** step [i] of the history happens before step [j]: they are steps of one thread, in this order,
    or [i] unlocks the mutex and [j] locks it later, or by way of other steps *)
Inductive hb {A} (tr : list (shown A)) : nat -> nat -> Prop :=
| hb_program : forall i j x y, i < j -> nth_error tr i = Some x -> nth_error tr j = Some y ->
    thread_of x = thread_of y -> hb tr i j
| hb_mutex : forall i j x y, i < j -> nth_error tr i = Some x -> nth_error tr j = Some y ->
    releases x -> acquires y -> hb tr i j
| hb_trans : forall i j k, hb tr i j -> hb tr j k -> hb tr i k.

(** the steps without the mutex *)
Definition plain {A} (tr : list (shown A)) : list (event A) := map s_event tr.
(** step [a] adds the element that is number [k] of all elements ever added (from 0) *)
Definition adds {A} (tr : list (shown A)) (a k : nat) (x : A) : Prop :=
  exists t r y, nth_error tr a = Some y /\ s_event y = Effect t (OAdd x) r /\
    length (added (effects (plain (firstn a tr)))) = k.
(** step [b] hands out, perhaps among others, the element that is number [k] of all elements ever
    handed out *)
Definition hands_out {A} (tr : list (shown A)) (b k : nat) (x : A) : Prop :=
  length (taken (effects (plain (firstn b tr)))) <= k /\
  k < length (taken (effects (plain (firstn (S b) tr)))) /\
  nth_error (taken (effects (plain tr))) k = Some x.
