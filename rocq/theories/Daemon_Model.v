(** Model of the rest of coda/daemon.c (options and signals) and of log_levels in
    coda/logger.c. *)

From Coq Require Import ZArith List Bool.
From Verif Require Import Base Fd_Model.
Import ListNotations.
Local Open Scope Z_scope.

(** *** signals *)

(** numbers of the signals on Linux; used in the list of daemon.c:147-172 *)
Definition SIGHUP := 1. Definition SIGINT := 2. Definition SIGUSR1 := 10. Definition SIGUSR2 := 12.
(** the same, daemon.c:149 *)
Definition SIGTERM := 15.

(** coda_terminate, coda_changecfg, coda_rotatelog, coda_changebin, daemon.c:195-198 *)
Record flags := mkF { terminate : Z; changecfg : Z; rotatelog : Z; changebin : Z }.
(** the initial values, daemon.c:195-198 *)
Definition no_flags : flags := mkF 0 0 0 0.

(** coda_signal_handle, daemon.c:200-208, with the list of 138-174; the messages to the log
    are left out *)
Definition handle (f : flags) (sig : Z) : flags :=
  if sig =? 1 then mkF (terminate f) 1 (rotatelog f) (changebin f)           (* HUP *)
  else if sig =? 2 then mkF 1 (changecfg f) (rotatelog f) (changebin f)      (* INT *)
  else if sig =? 15 then mkF 1 (changecfg f) (rotatelog f) (changebin f)     (* TERM *)
  else if sig =? 10 then mkF (terminate f) (changecfg f) 1 (changebin f)     (* USR1 *)
  else if sig =? 12 then mkF (terminate f) (changecfg f) (rotatelog f) 1     (* USR2 *)
  else f.
(** the flags after a sequence of signals;
    not in the code: [coda_signal_handle] (daemon.c:200-208) called for each in turn *)
Definition deliver (f : flags) (sigs : list Z) : flags := fold_left handle sigs f.

(** coda_signal_mask, daemon.c:222-228: the set given to sigprocmask.  CODA_SIG_MASK (188)
    tests a bit of the unsigned mask; the shift of the int 1 by 31 (SIGSYS) is taken to give
    the sign bit, as gcc documents. *)
Definition signal_mask (mask : Z) : list Z :=
  filter (fun sig => negb (Z.land mask (2 ^ sig) =? 0)) sig_list.

(** *** options *)

(** coda_getopt_parse, daemon.c:40-60.  [got] are the results of getopt_long: the option
    and its argument; the list ends where getopt_long returns -1.  An unknown option or a
    missing argument is the result '?'. *)
Fixpoint getopt_loop (o : opts) (got : list (Z * option (list Z))) : Z * opts :=
  match got with
  | [] => (0, o)
  | (c, arg) :: got =>
      if c =? 99 then getopt_loop (mkO arg (o_pid o) (o_daemon o)) got         (* c *)
      else if c =? 112 then getopt_loop (mkO (o_config o) arg (o_daemon o)) got (* p *)
      else if c =? 100 then getopt_loop (mkO (o_config o) (o_pid o) true) got   (* d *)
      else if c =? 68 then getopt_loop (mkO (o_config o) (o_pid o) false) got   (* D *)
      else (-1, o)
  end.
(** coda_getopt_parse, daemon.c:40-60, from the structure cleared on line 44 *)
Definition getopt_parse (got : list (Z * option (list Z))) : Z * opts :=
  getopt_loop (mkO None None false) got.

(** *** log levels *)

(** log_levels, logger.c:11-37; [s] is the string with its terminator *)
Definition is_letter (c l : Z) : bool := (c =? l) || (c =? l - 32).
(** log_levels, logger.c:11-37: the position in the enumeration of logger.h *)
Definition log_levels (s : list Z) : res Z :=
  c <- rd s 0 ;;
  if is_letter c 97 then                                              (* a *)
    d <- rd s 1 ;;
    if is_letter d 99 then Ok 0                                       (* access *)
    else if is_letter d 108 then Ok 2                                 (* alert *)
    else Ok 7
  else if is_letter c 100 then Ok 8                                   (* debug *)
  else if is_letter c 99 then Ok 3                                    (* crit *)
  else if is_letter c 101 then                                        (* e *)
    d <- rd s 1 ;;
    if is_letter d 109 then Ok 1                                      (* emerg *)
    else if is_letter d 114 then Ok 4                                 (* error *)
    else Ok 7
  else if is_letter c 105 then Ok 7                                   (* info *)
  else if is_letter c 110 then Ok 6                                   (* notice *)
  else if is_letter c 119 then Ok 5                                   (* warn *)
  else Ok 7.
