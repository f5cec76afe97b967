(** What it means for calls on the shared map to come to an end. *)

From Coq Require Import ZArith List Bool.
From Verif Require Import Base Shm_Spec Shm_Model ShmSys_Model.
Import ListNotations.
Local Open Scope Z_scope.

(** a step that goes on with calls that were made: no new call *)
Definition goes_on {R} (e : event R) : bool := match e with ECall _ _ _ => false | _ => true end.
(** a step that is not a death or an exception either *)
Definition works {R} (e : event R) : bool :=
  match e with ELock _ | EMem _ | EDone _ _ _ _ => true | _ => false end.

(** the call a process has made that has not returned *)
Definition pending (c : pc mret) : option (mode * prog mret) :=
  match c with Wait g b => Some (g, b) | Inside g b0 _ => Some (g, b0) | _ => None end.

(** a run of several steps *)
Inductive steps {R} (lim : Z) : sys R -> list (event R) -> sys R -> Prop :=
| steps_nil : forall s, steps lim s [] s
| steps_cons : forall s e s1 tr s2, step R lim s e s1 -> steps lim s1 tr s2 -> steps lim s (e :: tr) s2.
