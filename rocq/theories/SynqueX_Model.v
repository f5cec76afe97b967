(** Model of coda/synque.hpp when copying an element or growing a deque throws.

    The steps are those of [Synque_Model]; in addition the three statements that copy an
    element may throw instead.  push_front and push_back of std::deque have no effect when
    they throw.  No handler and no destructor releases the mutex: the exception leaves the
    function with the mutex locked.  The mutex has the default type, so locking it again
    waits, also for the thread that holds it. *)

From Coq Require Import ZArith List Bool.
From Verif Require Import Base Synque_Spec Synque_Model.
Import ListNotations.

Section Model.
Variable A : Type.

(** the statements that may throw, and what the batch has handed to the caller before;
    synque.hpp:33, 66, 99 *)
Definition may_throw (p : pc A) : option (list A) :=
  match p with
  | AddPush _ _ => Some []
  | GetBack _ _ => Some []
  | BatBack _ _ _ _ _ out => Some out
  | _ => None
  end.

(** Not in the code: the events; [Thrown t got]: the call of thread [t] ends with an
    exception, and the elements [got] are in the deque of the caller. *)
Inductive xevent := Ev (e : event A) | Thrown (t : nat) (got : list A).

(** one step of one thread; the exception goes past the unlock; synque.hpp:30-36, 45-72, 74-106 *)
Inductive xstep : state A -> xevent -> state A -> Prop :=
| x_step : forall s e s', step A s e s' -> xstep s (Ev e) s'
| x_throw : forall s t p got, nth_error (pcs A s) t = Some p -> may_throw p = Some got ->
    xstep s (Thrown t got) (mkState A (owner A s) (dq A s) (upd (pcs A s) t (Idle A))).

(** Not in the code: executions from [n] threads and an empty queue (synque.hpp:18-22). *)
Inductive xexec (n : nat) : list xevent -> state A -> Prop :=
| xex_nil : xexec n [] (init A n)
| xex_snoc : forall tr s e s', xexec n tr s -> xstep s e s' -> xexec n (tr ++ [e]) s'.
End Model.
Arguments Ev {A}. Arguments Thrown {A}.
