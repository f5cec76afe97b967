(** The command that starts a daemon and the daemon itself: coda_daemon_load
    (coda/daemon.c:103-121) with the processes that fork makes, under any schedule. *)

From Coq Require Import ZArith List.
From Verif Require Import Base Fd_Model.
Import ListNotations.
Local Open Scope Z_scope.

(** Not in the code: a process, by what it has still to do and what the kernel keeps for it.
    [Ret None]: it has called exit(EXIT_SUCCESS), daemon.c:70; [Ret (Some r)]: coda_daemon_load has
    returned [r] in it. *)
Record proc := mkP { p_rest : prog (option Z); p_os : os }.

(** Not in the code: the command, and the daemon if there is one.  The histories are kept per
    process; that of the daemon begins with what the command did before fork. *)
Record start := mkS { s_cmd : proc; s_daemon : option proc }.

(** Not in the code: one system call of either process.  fork succeeds with the same return in
    both; the daemon starts with a copy of the table of descriptors. *)
Inductive sstep : start -> start -> Prop :=
| ss_cmd : forall c k s a s' d, kernel s c a = Some s' -> ~ (c = KFork /\ 0 <= rc a) ->
    sstep (mkS (mkP (Call c k) s) d) (mkS (mkP (k a) s') d)
| ss_fork : forall k s pid e v s1 s2, 0 < pid -> kernel s KFork (mkA pid e v) = Some s1 ->
    kernel s KFork (mkA 0 e v) = Some s2 ->
    sstep (mkS (mkP (Call KFork k) s) None)
          (mkS (mkP (k (mkA pid e v)) s1) (Some (mkP (k (mkA 0 e v)) s2)))
| ss_daemon : forall p c k s a s', kernel s c a = Some s' ->
    sstep (mkS p (Some (mkP (Call c k) s))) (mkS p (Some (mkP (k a) s'))).

(** Not in the code: executions; daemon.c:103 is called by the command. *)
Inductive sexec (o : opts) (text : list Z) (s0 : os) : start -> Prop :=
| sx_begin : sexec o text s0 (mkS (mkP (coda_daemon_load o text) s0) None)
| sx_step : forall x y, sexec o text s0 x -> sstep x y -> sexec o text s0 y.
