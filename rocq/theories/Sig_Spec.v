(** What users of the signal functions of daemon.h expect. *)

From Coq Require Import ZArith List Bool.
From Verif Require Import Base Fd_Model Daemon_Model Sig_Model.
Import ListNotations.
Local Open Scope Z_scope.

(** the action [a] of a signal is [b] but with the handler of the library and so that system
    calls are not resumed *)
Definition taken_over (a b : act) : Prop :=
  sa_handler a = Coda /\ sa_mask a = sa_mask b /\
  forall i, 0 <= i -> Z.testbit (sa_flags a) i = if i =? 28 then false else Z.testbit (sa_flags b) i.

(** main programs take the lock only to release it at once, as calls of localtime_r do *)
Fixpoint tidy (m : list mstep) (held : bool) : Prop :=
  match m with
  | [] => held = false
  | Lock :: m => held = false /\ tidy m true
  | Unlock :: m => held = true /\ tidy m false
  | Work :: m => tidy m held
  | Flag _ :: m => tidy m held
  end.

(** the thread can go on without another signal *)
Definition goes_on (log_level : Z) (s : thread) : Prop :=
  (frames s = [] /\ main s = []) \/
  exists s', sstep log_level s s' /\ (length (frames s') <= length (frames s))%nat.

(** executions where no signal arrives while the lock is taken *)
Inductive sexec_out (log_level : Z) : thread -> thread -> Prop :=
| SO_refl : forall s, sexec_out log_level s s
| SO_step : forall s s1 s2, sexec_out log_level s s1 -> sstep log_level s1 s2 ->
    ((length (frames s2) <= length (frames s1))%nat \/ locked s1 = false) -> sexec_out log_level s s2.

(** executions with the signals that arrived, the last one first *)
Inductive straced (log_level : Z) : thread -> list Z -> thread -> Prop :=
| ST_refl : forall s, straced log_level s [] s
| ST_run : forall s l s1 s2, straced log_level s l s1 -> sstep log_level s1 s2 ->
    (length (frames s2) <= length (frames s1))%nat -> straced log_level s l s2
| ST_arrive : forall s l s1 s2 sig r, straced log_level s l s1 -> sstep log_level s1 s2 ->
    frames s2 = (sig, r) :: frames s1 -> straced log_level s (sig :: l) s2.
(** main programs that leave the flags alone *)
Definition sets_no_flag (m : list mstep) : Prop := forall sig, ~ In (Flag sig) m.
