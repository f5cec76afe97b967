(** What it means for calls on the shared queue to come to an end. *)

From Coq Require Import ZArith List Bool.
From Verif Require Import Base Shm_Model ShmQ_Spec ShmQ_Model.
Import ListNotations.
Local Open Scope Z_scope.

(** the call a process has made that has not returned *)
Definition pending (p : pc) : option qop :=
  match p with
  | Idle | Dead => None
  | Ticket => Some QUnflush
  | Lock o | Body o _ _ | Post o _ | Unlock o _ => Some o
  end.
Definition busy (s : sys) (i : nat) : Prop :=
  exists p u o, nth_error (procs s) i = Some (p, u) /\ pending p = Some o.
(** a step that goes on with a call that was made; deaths and interrupted calls included *)
Definition goes_on (s : sys) (e : event) : Prop :=
  match e with
  | ECall _ _ | ECount _ _ => False
  | EDone i _ _ => busy s i
  | _ => True
  end.
(** a step that goes on with a call that was made, without death or interruption *)
Definition works (s : sys) (e : event) : Prop :=
  match e with
  | ETau i | EFail i | EDone i _ _ => busy s i
  | _ => False
  end.
(** a run of several working steps *)
Inductive works_to (lim : Z) (n : nat) : sys -> list event -> sys -> Prop :=
| wt_nil : forall s, works_to lim n s [] s
| wt_cons : forall s e s1 tr s2, step lim n s e s1 -> works s e -> works_to lim n s1 tr s2 ->
    works_to lim n s (e :: tr) s2.
(** the call [o] of process [i] returns in [tr]: with a result, or unflush with false *)
Definition returns (i : nat) (o : qop) (tr : list event) : Prop :=
  (exists r, In (EDone i o r) tr) \/ (o = QUnflush /\ In (EFail i) tr).
