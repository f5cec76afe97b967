(** C117-C118: command lines given to coda_getopt_parse. *)

From Coq Require Import ZArith List Bool Lia Permutation.
From Verif Require Import Base Fd_Model Daemon_Spec Getopt_Model Getopt_Spec Getopt_Proof.
Import ListNotations.
Local Open Scope Z_scope.

Lemma start_betw : forall posix prog args, betw posix (g_start (prog :: args)) [prog] [] args.
Proof.
  intros. assert (B : betw0 (g_start (prog :: args)) [prog] [] args) by (split; [left|right]; auto).
  destruct posix; cbn [betw]; auto. exists [], []. repeat split; auto.
Qed.

Lemma parse_from : forall posix st D ops, betw0 st D [] ops -> D <> [] ->
  (forall s ops', reads posix ops s ops' -> exists st' E,
    getopt_parse_args posix st = Ok (0, mkO (last_arg 99 s None) (last_arg 112 s None) (last_of 100 68 s false), st') /\
    betw0 st' (D ++ E) [] ops' /\ Permutation ops (E ++ ops')) /\
  ((forall s ops', ~ reads posix ops s ops') -> exists o st', getopt_parse_args posix st = Ok (-1, o, st')).
Proof.
  intros posix st D ops B ND.
  assert (BB : betw posix st D [] ops).
  { destruct posix; cbn [betw]; auto. exists [], []. split; [reflexivity|]. split; [constructor|exact B]. }
  assert (LE : (chars ops <= length (concat (g_argv st)) + length (g_argv st))%nat).
  { destruct B as (_ & [(d & m & X & _) | (_ & -> & _)]); [congruence|]. rewrite concat_app, app_length. unfold chars. lia. }
  unfold getopt_parse_args. split.
  - intros s ops' R. destruct (reads_sound _ _ _ _ R st D [] (mkO None None false) _ BB ND LE) as (st' & D' & L & F & (E & ->) & P).
    exists st', E. split; [exact L|]. split; [exact F|]. rewrite <- app_assoc in P. eapply Permutation_app_inv_l; eauto.
  - intros N. destruct (reads_complete (length ops) posix ops (Nat.le_refl _) st D [] (mkO None None false) _ BB ND LE) as [(s & o & R) | R]; auto.
    exfalso. eapply N; eauto.
Qed.

(** *** C117: what a command line means *)

(** A command line made up of the options of the usage text, in any order among the operands,
    is accepted: each setting is that of the last option that concerns it, optind points to the
    operands, these stand at the end of the array in their order, and no argument is lost.
    Every other command line is refused.  No call reads outside the array. *)
Theorem C117_command_lines : forall posix prog args,
  (forall s ops, reads posix args s ops -> exists st' E,
     getopt_parse_args posix (g_start (prog :: args)) =
       Ok (0, mkO (last_arg 99 s None) (last_arg 112 s None) (last_of 100 68 s false), st') /\
     g_argv st' = (prog :: E) ++ ops /\ g_ind st' = length (prog :: E) /\ Permutation args (E ++ ops)) /\
  ((forall s ops, ~ reads posix args s ops) ->
   exists o st', getopt_parse_args posix (g_start (prog :: args)) = Ok (-1, o, st')).
Proof.
  intros posix prog args.
  assert (B : betw0 (g_start (prog :: args)) [prog] [] args) by (split; [left|right]; auto).
  destruct (parse_from posix _ _ _ B ltac:(discriminate)) as (H1 & H2). split; [|exact H2].
  intros s ops R. destruct (H1 s ops R) as (st' & E & L & F & P). exists st', E.
  destruct F as (_ & [(d & m & X & _) | (_ & A & I & _)]); [congruence|]. auto.
Qed.
Print Assumptions C117_command_lines.

(** A command line has at most one reading: the same operands and the same settings. *)
Theorem C117_one_reading : forall posix args s1 ops1 s2 ops2,
  reads posix args s1 ops1 -> reads posix args s2 ops2 ->
  ops1 = ops2 /\ last_arg 99 s1 None = last_arg 99 s2 None /\ last_arg 112 s1 None = last_arg 112 s2 None /\
  last_of 100 68 s1 false = last_of 100 68 s2 false.
Proof.
  intros posix args s1 ops1 s2 ops2 R1 R2. destruct (C117_command_lines posix [] args) as (H & _).
  destruct (H _ _ R1) as (st1 & E1 & L1 & A1 & I1 & _). destruct (H _ _ R2) as (st2 & E2 & L2 & A2 & I2 & _).
  rewrite L1 in L2. injection L2 as C P D <-. repeat split; auto.
  assert (E1 = E2 /\ ops1 = ops2) as (_ & ->); auto.
  rewrite A1 in A2. rewrite I1 in I2. cbn [length app] in *. injection I2 as I2. injection A2 as A2.
  clear - I2 A2. revert E2 I2 A2. induction E1 as [|x E1 IH]; intros [|y E2] I A; try discriminate; auto.
  cbn in *. injection I as I. injection A as -> A. destruct (IH E2 I A). subst. auto.
Qed.
Print Assumptions C117_one_reading.

(** The call comes to an end without touching anything outside the array, whatever the
    arguments; an empty array of arguments gives the defaults. *)
Theorem C117_always_answers : forall posix argv, exists r o st,
  getopt_parse_args posix (g_start argv) = Ok (r, o, st) /\ (r = 0 \/ r = -1) /\ (argv = [] -> r = 0 /\ o = mkO None None false).
Proof.
  intros posix [|prog args].
  - exists 0, (mkO None None false), (g_start []). auto.
  - assert (B : betw posix (g_start (prog :: args)) [prog] [] args) by apply start_betw.
    assert (LE : (chars args <= length (concat (prog :: args)) + length (prog :: args))%nat)
      by (cbn [concat]; rewrite app_length; unfold chars; lia).
    destruct (reads_complete (length args) posix args (Nat.le_refl _) _ [prog] [] (mkO None None false) _ B ltac:(discriminate) LE)
      as [(s & ops & R) | (o & st & E)].
    + destruct (C117_command_lines posix prog args) as (H & _). destruct (H _ _ R) as (st & E & L & _).
      eexists _, _, _. split; [exact L|]. split; [auto|discriminate].
    + exists (-1), o, st. split; [exact E|]. split; [auto|discriminate].
Qed.
Print Assumptions C117_always_answers.

(** prog x -dc f y --pi=z -- -d *)
Definition ex_args : list (list Z) := [zs "x"; zs "-dc"; zs "f"; zs "y"; zs "--pi=z"; zs "--"; zs "-d"].
Example C117_ex_reads : reads false ex_args [(100, None); (99, Some (zs "f")); (112, Some (zs "z"))] [zs "x"; zs "y"; zs "-d"].
Proof.
  apply r_operand; [reflexivity|right; discriminate|].
  apply (r_separate false [100] 99 (zs "f")); [intros c [<-|[]]; cbn; auto|cbn; auto|].
  apply r_operand; [reflexivity|right; discriminate|].
  apply (r_long_joined false 112 (zs "pid") (zs "pi") (zs "z")); [cbn; auto|split; [discriminate|exists (zs "d"); reflexivity]|].
  apply r_dashes.
Qed.
Example C117_ex : getopt_parse_args false (g_start (zs "prog" :: ex_args)) =
  Ok (0, mkO (Some (zs "f")) (Some (zs "z")) true,
      mkG [zs "prog"; zs "-dc"; zs "f"; zs "--pi=z"; zs "--"; zs "x"; zs "y"; zs "-d"] 5 5 8 None).
Proof. vm_compute. reflexivity. Qed.
(** with POSIXLY_CORRECT the first operand ends the options *)
Example C117_ex_posix : getopt_parse_args true (g_start (zs "prog" :: ex_args)) =
  Ok (0, mkO None None false, mkG (zs "prog" :: ex_args) 1 1 1 None).
Proof. vm_compute. reflexivity. Qed.
(** refused: an unknown letter in a group, a missing argument, an argument nobody asked for *)
Example C117_ex_refused :
  (exists o st, getopt_parse_args false (g_start [zs "prog"; zs "-dx"]) = Ok (-1, o, st)) /\
  (exists o st, getopt_parse_args false (g_start [zs "prog"; zs "--config"]) = Ok (-1, o, st)) /\
  (exists o st, getopt_parse_args false (g_start [zs "prog"; zs "--daemon=1"]) = Ok (-1, o, st)) /\
  (exists o st, getopt_parse_args false (g_start [zs "prog"; zs "--="]) = Ok (-1, o, st)).
Proof. repeat split; eexists _, _; vm_compute; reflexivity. Qed.

(** *** C118: parsing again *)

(** A second call does not start over: it reads the operands the first one left as a command
    line of their own. *)
Theorem C118_second_call : forall posix prog args s ops st,
  reads posix args s ops ->
  (exists o, getopt_parse_args posix (g_start (prog :: args)) = Ok (0, o, st)) ->
  (forall s2 ops2, reads posix ops s2 ops2 -> exists st2,
     getopt_parse_args posix st = Ok (0, mkO (last_arg 99 s2 None) (last_arg 112 s2 None) (last_of 100 68 s2 false), st2)) /\
  ((forall s2 ops2, ~ reads posix ops s2 ops2) -> exists o st2, getopt_parse_args posix st = Ok (-1, o, st2)).
Proof.
  intros posix prog args s ops st R (o & E).
  assert (B : betw0 (g_start (prog :: args)) [prog] [] args) by (split; [left|right]; auto).
  destruct (parse_from posix _ _ _ B ltac:(discriminate)) as (H1 & _). destruct (H1 s ops R) as (st' & Ex & L & F & _).
  rewrite E in L. injection L as _ <-.
  destruct (parse_from posix st _ ops F ltac:(discriminate)) as (G1 & G2). split; [|exact G2].
  intros s2 ops2 R2. destruct (G1 _ _ R2) as (st2 & E2 & L2 & _). eauto.
Qed.
Print Assumptions C118_second_call.

(** So it forgets every option when the first call saw no "--". *)
Theorem C118_forgets : forall prog args s ops st o,
  ~ In [45; 45] args -> reads false args s ops ->
  getopt_parse_args false (g_start (prog :: args)) = Ok (0, o, st) ->
  exists st2, getopt_parse_args false st = Ok (0, mkO None None false, st2).
Proof.
  intros prog args s ops st o N R E.
  assert (Q : reads false ops [] ops).
  { clear E. assert (FO : Forall operand ops).
    { remember false as p. clear st o prog. induction R; try (constructor; fail); try discriminate;
        try (apply IHR; intros X; apply N; cbn [In]; auto; fail).
      - exfalso. apply N. left. reflexivity.
      - constructor; auto. apply IHR. intros X. apply N. right. auto.
      - congruence. }
    clear R N. induction ops as [|a ops IH]; [constructor|]. inversion FO; subst. apply r_operand; auto. }
  destruct (C118_second_call false prog args s ops st R (ex_intro _ o E)) as (H & _).
  destruct (H _ _ Q) as (st2 & E2). eauto.
Qed.
Print Assumptions C118_forgets.

(** the operands of C117_ex are [x], [y] and [-d]: the second call sees the option [d], which
    the first took for an operand *)
Example C118_ex : reads false [zs "x"; zs "y"; zs "-d"] [(100, None)] [zs "x"; zs "y"] /\
  exists o st o2 st2, getopt_parse_args false (g_start (zs "prog" :: ex_args)) = Ok (0, o, st) /\
    getopt_parse_args false st = Ok (0, o2, st2) /\ o2 = mkO None None true.
Proof.
  split.
  - apply r_operand; [reflexivity|right; discriminate|]. apply r_operand; [reflexivity|right; discriminate|].
    apply (r_flags false [100]); [discriminate|intros c [<-|[]]; cbn; auto|]. constructor.
  - eexists _, _, _, _. split; [vm_compute; reflexivity|]. split; vm_compute; reflexivity.
Qed.

(** It is false that a second call gives the same options: they are lost, and an operand
    protected by "--" becomes an option. *)
Theorem C118_same_again_refuted : exists argv o st,
  getopt_parse_args false (g_start argv) = Ok (0, o, st) /\ o_config o = Some (zs "f") /\ o_daemon o = false /\
  exists o2 st2, getopt_parse_args false st = Ok (0, o2, st2) /\ o_config o2 = None /\ o_daemon o2 = true.
Proof.
  exists [zs "prog"; zs "-cf"; zs "--"; zs "-d"]. eexists _, _. split; [vm_compute; reflexivity|].
  split; [reflexivity|]. split; [reflexivity|]. eexists _, _. split; [vm_compute; reflexivity|]. split; reflexivity.
Qed.
Print Assumptions C118_same_again_refuted.
