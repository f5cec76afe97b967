(** A program's main loop over the flags that coda_signal_handle sets (coda/daemon.c:195-208)
    and coda_msleep (coda/gmtime.h:8-16).  The loop is the user's; the library gives it the flags:

      while (!coda_terminate) {
        if (coda_changecfg) { coda_changecfg = 0; reload(); }      (the same for other flags)
        coda_msleep(ms);
      }

    [clear_first = false] is the loop that calls reload() before it clears the flag. *)

From Coq Require Import ZArith List Bool.
From Verif Require Import Base Daemon_Model.
Import ListNotations.
Local Open Scope Z_scope.

(** the flags a loop acts on, daemon.c:196-198 *)
Inductive kind := Cfg | Rot | Bin.
(** reading a flag, daemon.c:196-198 *)
Definition flag (f : flags) (k : kind) : Z :=
  match k with Cfg => changecfg f | Rot => rotatelog f | Bin => changebin f end.
(** clearing a flag, daemon.c:196-198 *)
Definition clear (f : flags) (k : kind) : flags :=
  match k with
  | Cfg => mkF (terminate f) 0 (rotatelog f) (changebin f)
  | Rot => mkF (terminate f) (changecfg f) 0 (changebin f)
  | Bin => mkF (terminate f) (changecfg f) (rotatelog f) 0
  end.

(** Not in the code: where the loop is; the list are the flags it has still to read this time
    round.  [Found]: the flag was read and is set.  [Acting]: the action has begun. *)
Inductive lpc := AtTop | AtTest (ks : list kind) | Found (k : kind) (ks : list kind)
  | Cleared (k : kind) (ks : list kind) | Acting (k : kind) (ks : list kind) | Sleeping | Left.
(** Not in the code: the flags of coda/daemon.c:195-198 and where the loop is. *)
Record lstate := mkL { l_flags : flags; l_pc : lpc }.

(** Not in the code: what can be seen.  [ESignal sig here]: coda_signal_handle ran for [sig], in
    the thread of the loop or in another one. *)
Inductive levent := ESignal (sig : Z) (here : bool) | EAct (k : kind) | ESleep | ETau.

Section Loop.
Variable clear_first : bool.
Variable kinds : list kind.

(** Not in the code: one step of the loop, or a signal.  nanosleep (gmtime.h:15) ends when its time
    is over or when a handler has run in its thread. *)
Inductive lstep : lstate -> levent -> lstate -> Prop :=
| l_leave : forall f, terminate f <> 0 -> lstep (mkL f AtTop) ETau (mkL f Left)
| l_enter : forall f, terminate f = 0 -> lstep (mkL f AtTop) ETau (mkL f (AtTest kinds))
| l_found : forall f k ks, flag f k <> 0 -> lstep (mkL f (AtTest (k :: ks))) ETau (mkL f (Found k ks))
| l_none : forall f k ks, flag f k = 0 -> lstep (mkL f (AtTest (k :: ks))) ETau (mkL f (AtTest ks))
| l_clear1 : forall f k ks, clear_first = true ->
    lstep (mkL f (Found k ks)) ETau (mkL (clear f k) (Cleared k ks))
| l_act1 : forall f k ks, lstep (mkL f (Cleared k ks)) (EAct k) (mkL f (Acting k ks))
| l_end1 : forall f k ks, clear_first = true -> lstep (mkL f (Acting k ks)) ETau (mkL f (AtTest ks))
| l_act2 : forall f k ks, clear_first = false -> lstep (mkL f (Found k ks)) (EAct k) (mkL f (Acting k ks))
| l_clear2 : forall f k ks, clear_first = false ->
    lstep (mkL f (Acting k ks)) ETau (mkL (clear f k) (AtTest ks))
| l_sleep : forall f, lstep (mkL f (AtTest [])) ESleep (mkL f Sleeping)
| l_wake : forall f, lstep (mkL f Sleeping) ETau (mkL f AtTop)
| l_signal : forall f p sig here, lstep (mkL f p) (ESignal sig here)
    (mkL (handle f sig) (match p, here with Sleeping, true => AtTop | _, _ => p end)).

(** Not in the code: what can happen from a state on. *)
Inductive lruns (s0 : lstate) : list levent -> lstate -> Prop :=
| lr_nil : lruns s0 [] s0
| lr_snoc : forall tr s e s', lruns s0 tr s -> lstep s e s' -> lruns s0 (tr ++ [e]) s'.
(** Not in the code: executions from the start; the flags are clear, daemon.c:195-198. *)
Definition lexec : list levent -> lstate -> Prop := lruns (mkL no_flags AtTop).
End Loop.
