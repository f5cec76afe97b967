(** Model of the installation of the signal handler of coda/daemon.c, of the kernel's part in
    running it, and of a signal that arrives while the program writes to the log. *)

From Coq Require Import ZArith List Bool.
From Verif Require Import Base Fd_Model Daemon_Model.
Import ListNotations.
Local Open Scope Z_scope.

(** *** installation *)

(** what a signal does: the default, nothing, coda_signal_handle, or another function;
    used in daemon.c:178, 184 *)
Inductive hand := Dfl | Ign | Coda | Fun (n : Z).
(** struct sigaction, daemon.c:181 *)
Record act := mkAct { sa_handler : hand; sa_flags : Z; sa_mask : list Z }.
(** the actions of a process; not in the code: the kernel *)
Definition table := Z -> act.
(** SA_RESTART, used in daemon.c:183, and SA_RESETHAND on Linux *)
Definition SA_RESTART : Z := 268435456.
(** one-shot handlers; not in the code: sigaction(2) *)
Definition SA_RESETHAND : Z := 2147483648.
(** the action of [sig] becomes [a]; not in the code: the kernel *)
Definition put (t : table) (sig : Z) (a : act) : table := fun s => if s =? sig then a else t s.
(** the answers of the system for each signal: to sigaction or signal, and to the second
    sigaction; not in the code: the kernel *)
Definition answers := Z -> bool * bool.

(** CODA_SIG_INIT, daemon.c:178, over the list: coda_signal_init (210-214).  signal() of glibc
    installs the handler with SA_RESTART and with the signal itself in the mask *)
Fixpoint sig_init (ans : answers) (l : list Z) (t : table) : Z * table :=
  match l with
  | [] => (0, t)                                                     (* 213 *)
  | sig :: l =>
      if fst (ans sig) then sig_init ans l (put t sig (mkAct Coda SA_RESTART [sig])) else (-1, t)
  end.
(** CODA_SIG_INIT_NORESTART, daemon.c:180-186, over the list: coda_signal_init_norestart
    (216-220) *)
Fixpoint sig_init_norestart (ans : answers) (l : list Z) (t : table) : Z * table :=
  match l with
  | [] => (0, t)                                                     (* 219 *)
  | sig :: l =>
      if fst (ans sig) then                                          (* 182 *)
        let sa := t sig in
        let sa := mkAct (sa_handler sa) (Z.ldiff (sa_flags sa) SA_RESTART) (sa_mask sa) in  (* 183 *)
        let sa := mkAct Coda (sa_flags sa) (sa_mask sa) in           (* 184 *)
        if snd (ans sig) then sig_init_norestart ans l (put t sig sa) else (-1, t)   (* 185 *)
      else (-1, t)
  end.

(** *** arrival *)

(** [sig] arrives: what is run, whether a system call that it interrupts goes on afterwards,
    and the actions afterwards; not in the code: the kernel, sigaction(2) *)
Definition arrive (t : table) (sig : Z) : hand * bool * table :=
  let a := t sig in
  (sa_handler a, negb (Z.land (sa_flags a) SA_RESTART =? 0),
   if Z.land (sa_flags a) SA_RESETHAND =? 0 then t else put t sig (mkAct Dfl (sa_flags a) (sa_mask a))).
(** a process: it is alive with its actions and the flags of the library, or it was ended by
    a default action (every signal with a flag has one that ends the process);
    not in the code: the kernel *)
Inductive process := Alive (t : table) (f : flags) | Ended (sig : Z).
(** the signals arrive one after the other, coda_signal_handle (daemon.c:200-208) runs where
    it is installed; not in the code: the kernel *)
Fixpoint arrivals (sigs : list Z) (p : process) : process :=
  match sigs, p with
  | [], _ => p
  | _, Ended _ => p
  | sig :: sigs, Alive t f =>
      match arrive t sig with
      | (Dfl, _, _) => Ended sig
      | (Coda, _, t) => arrivals sigs (Alive t (handle f sig))
      | (_, _, t) => arrivals sigs (Alive t f)
      end
  end.

(** *** signals during a call of the logger *)

(** what matters of the steps of a thread: localtime_r of glibc takes a lock that is not
    recursive and releases it, the handler sets a flag, and the rest *)
Inductive mstep := Lock | Unlock | Work | Flag (sig : Z).
(** log_fmt, logger.h:53-75: gettimeofday, localtime_r, fprintf *)
Definition log_steps (log_level level : Z) : list mstep :=
  if level <=? log_level then [Work; Lock; Unlock; Work] else [].
(** coda_signal_handle, daemon.c:176, 200-208: log_notice comes first *)
Definition handler_steps (log_level sig : Z) : list mstep := log_steps log_level 6 ++ [Flag sig].
(** a thread: what remains of the running handlers, innermost first, and of the main program;
    the signals of the running handlers, which are blocked meanwhile; whether the lock is
    taken; the flags; not in the code: signals in a thread *)
Record thread := mkThr { frames : list (Z * list mstep); main : list mstep; locked : bool; fl : flags }.
(** one step of a thread: a lock that is taken is waited for;
    not in the code: pthread locks *)
Inductive mrun : mstep -> bool -> flags -> bool -> flags -> Prop :=
| MR_lock : forall f, mrun Lock false f true f
| MR_unlock : forall lk f, mrun Unlock lk f false f
| MR_work : forall lk f, mrun Work lk f lk f
| MR_flag : forall sig lk f, mrun (Flag sig) lk f lk (handle f sig).
(** the program runs on by one step, or a signal arrives that is not being handled already;
    not in the code: signals in a thread *)
Inductive sstep (log_level : Z) : thread -> thread -> Prop :=
| SS_arrive : forall sig fr m lk f, In sig sig_list -> ~ In sig (map fst fr) ->
    sstep log_level (mkThr fr m lk f) (mkThr ((sig, handler_steps log_level sig) :: fr) m lk f)
| SS_return : forall sig fr m lk f, sstep log_level (mkThr ((sig, []) :: fr) m lk f) (mkThr fr m lk f)
| SS_handler : forall sig o rest fr m lk f lk' f', mrun o lk f lk' f' ->
    sstep log_level (mkThr ((sig, o :: rest) :: fr) m lk f) (mkThr ((sig, rest) :: fr) m lk' f')
| SS_main : forall o rest lk f lk' f', mrun o lk f lk' f' ->
    sstep log_level (mkThr [] (o :: rest) lk f) (mkThr [] rest lk' f').
(** executions; not in the code *)
Inductive sexec (log_level : Z) : thread -> thread -> Prop :=
| SE_refl : forall s, sexec log_level s s
| SE_step : forall s s1 s2, sexec log_level s s1 -> sstep log_level s1 s2 -> sexec log_level s s2.
