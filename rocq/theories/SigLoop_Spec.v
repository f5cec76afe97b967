(** What a main loop owes to the signals, in terms of what can be seen of it. *)

From Coq Require Import ZArith List Bool.
From Verif Require Import Daemon_Model SigLoop_Model.
Import ListNotations.
Local Open Scope Z_scope.

(** the signals that ask for an action, and those that ask for the end, as documented in the list
    of signals *)
Definition asks (sig : Z) (k : kind) : bool :=
  match k with Cfg => sig =? SIGHUP | Rot => sig =? SIGUSR1 | Bin => sig =? SIGUSR2 end.
Definition ends (sig : Z) : bool := (sig =? SIGINT) || (sig =? SIGTERM).

Definition kind_eqb (a b : kind) : bool :=
  match a, b with Cfg, Cfg | Rot, Rot | Bin, Bin => true | _, _ => false end.

(** how often *)
Definition count (p : levent -> bool) (tr : list levent) : nat := length (filter p tr).
Definition is_act (k : kind) (e : levent) : bool := match e with EAct k' => kind_eqb k k' | _ => false end.
Definition is_ask (k : kind) (e : levent) : bool := match e with ESignal sig _ => asks sig k | _ => false end.
Definition is_sleep (e : levent) : bool := match e with ESleep => true | _ => false end.
