(** What a file name given to shared maps and queues should stand for. *)
From Coq Require Import ZArith List Bool.
From Verif Require Import Base Key_Model.
Import ListNotations.
Local Open Scope Z_scope.

(** two files *)
Definition same_file (u v : user) : Prop := u_dev u = u_dev v /\ u_ino u = u_ino v.
(** the device and inode numbers stat(2) gives on Linux *)
Definition file_ok (u : user) : Prop := 0 <= u_dev u < 2 ^ 64 /\ 0 <= u_ino u < 2 ^ 64.
(** the events of the users of one key *)
Definition of_key (us : list user) (k : Z) (e : event) : bool :=
  match nth_error us (fst e) with Some u => key u =? k | None => false end.
Definition seen (us : list user) (k : Z) (x : what) (tr : list event) : nat :=
  length (filter (fun e => of_key us k e && match snd e, x with Stored, Stored | Took, Took => true | _, _ => false end) tr).
(** what the users of one key see of a state: the entries of the kernel and themselves *)
Definition agree (us : list user) (k : Z) (s s' : sys) : Prop :=
  t_sem s k = t_sem s' k /\ t_seg s k = t_seg s' k /\
  forall i u, nth_error us i = Some u -> key u = k -> nth_error (ps s) i = nth_error (ps s') i.
(** maps are isolated: a writer is alone *)
Definition isolated (us : list user) (s : sys) : Prop :=
  forall i j u v q, nth_error us i = Some u -> nth_error us j = Some v -> key u = key v ->
  nth_error (ps s) i = Some Writing -> nth_error (ps s) j = Some q -> q = Reading \/ q = Writing -> i = j.
