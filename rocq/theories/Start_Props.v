(** Property C154: what the command that starts a daemon can tell about it. *)

From Coq Require Import ZArith List Lia.
From Verif Require Import Base Fd_Model Start_Model.
Import ListNotations.
Local Open Scope Z_scope.

(** Specification: the calls a process has made since [s0]. *)
Definition calls_since (s0 s : os) (P : call -> Prop) : Prop :=
  exists h, hist s = h ++ hist s0 /\ Forall (fun x => P (fst x)) h.

(** programs in which the parent of a fork exits at once *)
Inductive no_fork : prog (option Z) -> Prop :=
| nf_ret : forall r, no_fork (Ret r)
| nf_call : forall c k, c <> KFork -> (forall a, no_fork (k a)) -> no_fork (Call c k).
Inductive parent_exits (P : call -> Prop) : prog (option Z) -> Prop :=
| pe_ret : forall r, 0 <= r -> P KFork -> parent_exits P (Ret (Some r))
| pe_fail : parent_exits P (Ret (Some (-1)))
| pe_call : forall c k, c <> KFork -> P c -> (forall a, parent_exits P (k a)) -> parent_exits P (Call c k)
| pe_fork : forall k, (forall a, 0 < rc a -> k a = Ret None) -> (forall a, rc a = 0 -> no_fork (k a)) ->
    (forall a, rc a < 0 -> k a = Ret (Some (-1))) -> parent_exits P (Call KFork k).

Ltac nf := repeat first [ apply nf_ret | apply nf_call; [discriminate|intro] |
  match goal with |- no_fork ?p => match p with context [if ?b then _ else _] => destruct b end end |
  progress cbn [pbind] ].

Lemma nf_pidf : forall p text (f : Z -> prog (option Z)), (forall x, no_fork (f x)) -> no_fork (pbind (coda_mkpidf p text) f).
Proof. intros p text f Hf. unfold coda_mkpidf, sys. nf; apply Hf. Qed.

Lemma load_exits : forall o text, o_daemon o = true ->
  parent_exits (fun c => exists x, c = KSignal x) (coda_daemon_load o text).
Proof.
  intros o text Ho. unfold coda_daemon_load. rewrite Ho. generalize sig_list.
  induction l as [|sig l IH]; cbn [signal_init].
  - cbn [pbind Z.ltb Z.compare]. unfold coda_daemon_fork, sys. cbn [pbind]. apply pe_fork; intros a Ha.
    + destruct (Z.ltb_spec (rc a) 0); [lia|]. destruct (Z.ltb_spec 0 (rc a)); [reflexivity|lia].
    + destruct (Z.ltb_spec (rc a) 0); [lia|]. destruct (Z.ltb_spec 0 (rc a)); [lia|].
      destruct (o_pid o) as [p|]; nf; apply nf_pidf; intro; nf.
    + destruct (Z.ltb_spec (rc a) 0); [reflexivity|lia].
  - unfold sys. cbn [pbind]. apply pe_call; [discriminate|eauto|]. intros a.
    destruct (rc a <? 0); [cbn [pbind Z.ltb Z.compare]; apply pe_fail|apply IH].
Qed.

Lemma load_no_fork : forall o text, o_daemon o = false -> no_fork (coda_daemon_load o text).
Proof.
  intros o text Ho. unfold coda_daemon_load. rewrite Ho. generalize sig_list.
  induction l as [|sig l IH]; cbn [signal_init].
  - cbn [pbind Z.ltb Z.compare]. destruct (o_pid o) as [p|]; [apply nf_pidf; intro; nf|nf].
  - unfold sys. cbn [pbind]. apply nf_call; [discriminate|]. intros a.
    destruct (rc a <? 0); [cbn [pbind Z.ltb Z.compare]; apply nf_ret|apply IH].
Qed.

Lemma kernel_hist : forall s c a s', kernel s c a = Some s' -> hist s' = (c, rc a) :: hist s.
Proof. unfold kernel. intros s c a s' H. destruct (effect s c a) as [[t m]|]; inversion H. reflexivity. Qed.

(** what every execution with detaching looks like *)
Lemma start_inv : forall o text s0 x, o_daemon o = true -> sexec o text s0 x ->
  calls_since s0 (p_os (s_cmd x)) (fun c => c = KFork \/ exists y, c = KSignal y) /\
  match s_daemon x with
  | None => parent_exits (fun c => exists y, c = KSignal y) (p_rest (s_cmd x))
  | Some d => p_rest (s_cmd x) = Ret None /\ no_fork (p_rest d)
  end.
Proof.
  intros o text s0 x Ho. induction 1 as [|x y H IH Hs].
  - cbn [s_daemon s_cmd p_rest p_os]. split; [exists []; split; [reflexivity|constructor]|]. apply load_exits. exact Ho.
  - destruct Hs as [c k s a s' d K N|k s pid e v s1 s2 Hp K1 K2|p c k s a s' K]; cbn [s_daemon s_cmd p_rest p_os] in *.
    + destruct IH as [(h & Eh & Fh) IH]. destruct d as [d|]; [destruct IH as [IH _]; discriminate|].
      assert (Hc : (c = KFork \/ exists y, c = KSignal y) /\ parent_exits (fun c => exists y, c = KSignal y) (k a)).
      { inversion IH as [| |? ? Hc HP Hk|? Hpos Hz Hneg]; subst; [auto|]. split; [auto|].
        rewrite Hneg; [apply pe_fail|]. destruct (Z_lt_le_dec (rc a) 0); auto. exfalso; apply N; auto. }
      split; [|tauto]. apply kernel_hist in K. exists ((c, rc a) :: h). rewrite K, Eh. split; [reflexivity|].
      constructor; [tauto|exact Fh].
    + destruct IH as [(h & Eh & Fh) IH]. inversion IH as [| |? ? Hc HP Hk|? Hpos Hz Hneg]; subst; [congruence|].
      split; [|split; [apply Hpos; cbn [rc]; lia|apply Hz; reflexivity]].
      apply kernel_hist in K1. exists ((KFork, pid) :: h). rewrite K1, Eh. split; [reflexivity|].
      constructor; [left; reflexivity|exact Fh].
    + destruct IH as [IH1 [IH2 IH3]]. split; [exact IH1|]. split; [exact IH2|].
      inversion IH3; subst; auto.
Qed.

(** C154 (exactly what the command tells).  As soon as there is a daemon, the command has exited
    with success: before the daemon made its first call and whatever becomes of it; the command
    itself has only installed handlers and forked. *)
Theorem C154_command_exits : forall o text s0 x d, o_daemon o = true -> sexec o text s0 x -> s_daemon x = Some d ->
  p_rest (s_cmd x) = Ret None /\
  calls_since s0 (p_os (s_cmd x)) (fun c => c = KFork \/ exists y, c = KSignal y).
Proof. intros o text s0 x d Ho H E. apply (start_inv o text s0 x Ho) in H. rewrite E in H. tauto. Qed.
Print Assumptions C154_command_exits.

(** C154 (what holds).  If the command fails, it says so with -1, there is no daemon, and no
    file was opened, so the pid file is not touched; the command never returns 0 itself. *)
Theorem C154_failure_partial : forall o text s0 x r, o_daemon o = true -> sexec o text s0 x ->
  p_rest (s_cmd x) = Ret (Some r) ->
  r = -1 /\ s_daemon x = None /\
  calls_since s0 (p_os (s_cmd x)) (fun c => c = KFork \/ exists y, c = KSignal y).
Proof.
  intros o text s0 x r Ho H E. apply (start_inv o text s0 x Ho) in H. destruct H as [C H].
  destruct (s_daemon x) as [d|]; [destruct H; congruence|]. rewrite E in H.
  inversion H as [r' Hr (y & Hy)| | |]; subst; [discriminate|]. auto.
Qed.
Print Assumptions C154_failure_partial.

(** C154 (what holds).  Without detaching there is only the command, which becomes the server. *)
Theorem C154_foreground_partial : forall o text s0 x, o_daemon o = false -> sexec o text s0 x -> s_daemon x = None.
Proof.
  intros o text s0 x Ho H.
  assert (s_daemon x = None /\ no_fork (p_rest (s_cmd x))) as [E _]; [|exact E].
  induction H as [|x y H IH Hs].
  - split; [reflexivity|apply load_no_fork; exact Ho].
  - destruct IH as [IHd IHn]. destruct Hs as [c k s a s' d K N|k s pid e v s1 s2 Hp K1 K2|p c k s a s' K];
      cbn [s_daemon s_cmd p_rest] in *.
    + split; [exact IHd|]. inversion IHn; subst; auto.
    + inversion IHn; subst. congruence.
    + discriminate.
Qed.
Print Assumptions C154_foreground_partial.

(** executions: the handlers are installed, then the command forks *)
Lemma start_forks : forall o text s0 pid, o_daemon o = true -> 0 < pid -> exists x d,
  sexec o text s0 x /\ s_daemon x = Some d /\ p_rest (s_cmd x) = Ret None /\
  hist (p_os d) = (KFork, 0) :: map (fun y => (KSignal y, 0)) (rev sig_list) ++ hist s0 /\
  tab (p_os d) = tab s0 /\
  p_rest d = pbind (a <~ sys KSetsid ;;
    if rc a <? 0 then Ret (Some (-1)) else
    fd <~ sys (KOpen devnull true false false) ;;
    if rc fd <? 0 then Ret (Some (-1)) else
    let fd := rc fd in
    a <~ sys (KDup2 fd 0) ;;
    if rc a <? 0 then Ret (Some (-1)) else
    a <~ sys (KDup2 fd 1) ;;
    if rc a <? 0 then Ret (Some (-1)) else
    if 2 <? fd then
      a <~ sys (KClose fd) ;;
      if rc a <? 0 then Ret (Some (-1)) else Ret (Some 0)
    else Ret (Some 0)) (fun r => match r with
      | None => Ret None
      | Some r => if r <? 0 then Ret (Some (-1)) else
          match o_pid o with
          | None => Ret (Some 0)
          | Some p => r <~ coda_mkpidf p text ;; if r <? 0 then Ret (Some (-1)) else Ret (Some 0)
          end end).
Proof.
  intros o text s0 pid Ho Hp.
  set (K := fun r => if r <? 0 then Ret (Some (-1)) else
     r <~ (if o_daemon o then coda_daemon_fork else Ret (Some 0)) ;;
     match r with
      | None => Ret None
      | Some r => if r <? 0 then Ret (Some (-1)) else
          match o_pid o with
          | None => Ret (Some 0)
          | Some p => r <~ coda_mkpidf p text ;; if r <? 0 then Ret (Some (-1)) else Ret (Some 0)
          end end).
  assert (Hl : forall l s, sexec o text s0 (mkS (mkP (pbind (signal_init l) K) s) None) ->
    sexec o text s0 (mkS (mkP (pbind (signal_init []) K) (mkOs (tab s) (maps s) (map (fun y => (KSignal y, 0)) (rev l) ++ hist s))) None)).
  { induction l as [|y l IH]; intros s H; [destruct s; exact H|].
    cbn [signal_init] in H. unfold sys in H. cbn [pbind] in H.
    assert (H1 : sexec o text s0 (mkS (mkP (pbind (signal_init l) K) (mkOs (tab s) (maps s) ((KSignal y, 0) :: hist s))) None)).
    { eapply sx_step; [exact H|]. refine (ss_cmd (KSignal y) (fun a => pbind (if rc a <? 0 then Ret (-1) else signal_init l) K) s (mkA 0 0 0) _ None eq_refl _).
      intros [E _]; discriminate. }
    apply IH in H1. cbn [tab maps hist] in H1. cbn [rev map]. rewrite map_app, <- app_assoc. exact H1. }
  specialize (Hl sig_list s0 (sx_begin o text s0)).
  cbn [signal_init pbind] in Hl. unfold K at 1 in Hl. cbn [Z.ltb Z.compare] in Hl. rewrite Ho in Hl.
  unfold coda_daemon_fork, sys in Hl. cbn [pbind] in Hl.
  eexists _, _. split; [eapply sx_step; [exact Hl|]; apply (ss_fork _ _ pid 0 0); [exact Hp|reflexivity|reflexivity]|].
  cbn [s_daemon s_cmd p_rest p_os rc]. split; [reflexivity|].
  destruct (Z.ltb_spec pid 0); [lia|]. destruct (Z.ltb_spec 0 pid); [|lia].
  split; [reflexivity|]. split; [reflexivity|]. split; [reflexivity|].
  unfold sys. cbn [pbind Z.ltb Z.compare]. reflexivity.
Qed.

(** C154 (what does not hold).  Success is reported too early: for every pid file and every state
    of the process there is an execution in which the command has exited with success and the
    daemon has not yet made a call of its own, so the pid file is not there. *)
Theorem C154_too_early_refuted : forall o text s0 pid, o_daemon o = true -> 0 < pid -> exists x d,
  sexec o text s0 x /\ p_rest (s_cmd x) = Ret None /\ s_daemon x = Some d /\
  calls_since s0 (p_os d) (fun c => c = KFork \/ exists y, c = KSignal y).
Proof.
  intros o text s0 pid Ho Hp. destruct (start_forks o text s0 pid Ho Hp) as (x & d & H & Ed & Ec & Eh & _).
  exists x, d. split; [exact H|]. split; [exact Ec|]. split; [exact Ed|].
  eexists ((KFork, 0) :: map _ (rev sig_list)). split; [rewrite Eh; reflexivity|].
  constructor; [left; reflexivity|]. apply Forall_map. apply Forall_forall. intros y _. right. exists y. reflexivity.
Qed.
Print Assumptions C154_too_early_refuted.

(** C154 (what does not hold).  Failure is not reported: for every set of options there is an
    execution in which coda_daemon_load fails in the daemon and the command exited with success. *)
Theorem C154_unnoticed_refuted : forall o text s0 pid, o_daemon o = true -> 0 < pid -> exists x d,
  sexec o text s0 x /\ p_rest (s_cmd x) = Ret None /\ s_daemon x = Some d /\ p_rest d = Ret (Some (-1)).
Proof.
  intros o text s0 pid Ho Hp. destruct (start_forks o text s0 pid Ho Hp) as (x & d & H & Ed & Ec & _ & _ & Er).
  destruct x as [c d']. cbn [s_daemon s_cmd] in *. subst d'. destruct d as [rest s]. cbn [p_rest p_os] in *. subst rest.
  unfold sys in H. cbn [pbind] in H.
  eexists _, _. split; [eapply sx_step; [exact H|]; apply (ss_daemon _ KSetsid _ s (mkA (-1) 1 0)); reflexivity|].
  cbn [s_daemon s_cmd p_rest]. split; [exact Ec|]. split; reflexivity.
Qed.
Print Assumptions C154_unnoticed_refuted.

Lemma daemon_runs : forall o text s0 c r l p s s', sexec o text s0 (mkS c (Some (mkP p s))) ->
  run p l s = Some (r, s') -> sexec o text s0 (mkS c (Some (mkP (Ret r) s'))).
Proof.
  intros o text s0 c r l p. revert l. induction p as [x|c0 k IH]; intros l s s' H E; cbn [run] in E.
  - destruct l; [|discriminate]. injection E as -> ->. exact H.
  - destruct l as [|a l]; [discriminate|]. destruct (kernel s c0 a) as [s1|] eqn:K; [|discriminate].
    eapply IH; [|exact E]. eapply sx_step; [exact H|]. apply ss_daemon. exact K.
Qed.

(** The usual case: another daemon runs and its pid is in the file. *)
Example C154_ex : exists x d,
  sexec (mkO None (Some (zs "/run/d.pid")) true) (zs "9")
    (mkOs (fun i => if (0 <=? i) && (i <=? 2) then Some (OFile (zs "tty") true) else None)%bool [] []) x /\
  p_rest (s_cmd x) = Ret None /\ s_daemon x = Some d /\ p_rest d = Ret (Some (-1)) /\
  exists h, hist (p_os d) = (KClose 3, 0) :: (KUnlock 3, 0) :: (KFstat 3, 0) :: (KLock 3, 0) ::
    (KOpen (zs "/run/d.pid") true true false, 3) :: h.
Proof.
  set (o := mkO None _ true). set (s0 := mkOs _ [] []).
  destruct (start_forks o (zs "9") s0 55 eq_refl ltac:(lia)) as (x & d & H & Ed & Ec & Eh & Et & Er).
  destruct x as [c d']. cbn [s_daemon s_cmd] in *. subst d'. destruct d as [rest [t m h]]. cbn [p_rest p_os hist tab] in *.
  assert (R : exists s' h', run rest [mkA 9 0 0; mkA 3 0 0; mkA 0 0 0; mkA 1 0 0; mkA 0 0 0; mkA 3 0 0; mkA 0 0 0; mkA 0 0 5; mkA 0 0 0; mkA 0 0 0] (mkOs t m h)
            = Some (Some (-1), s') /\ hist s' = (KClose 3, 0) :: (KUnlock 3, 0) :: (KFstat 3, 0) :: (KLock 3, 0) ::
              (KOpen (zs "/run/d.pid") true true false, 3) :: h').
  { subst rest t. clear. vm_compute. eexists _, _. split; reflexivity. }
  destruct R as (s' & h' & R & Eh'). eapply daemon_runs in R; [|exact H].
  eexists _, _. split; [exact R|]. cbn [s_daemon s_cmd p_rest p_os].
  split; [exact Ec|]. split; [reflexivity|]. split; [reflexivity|]. exists h'. exact Eh'.
Qed.
