(** Property C154: what a daemon that did start has done. *)

From Coq Require Import ZArith List Lia.
From Verif Require Import Base Fd_Model Fd_Spec Fd_Proof Fd_Props Start_Model Start_Props.
Import ListNotations.
Local Open Scope Z_scope.

(** what a process has done so far is the beginning of a run of coda_daemon_load *)
Lemma start_runs : forall o text s0 x, sexec o text s0 x -> forall p, p = s_cmd x \/ Some p = s_daemon x ->
  exists l, forall l2 r s', run (p_rest p) l2 (p_os p) = Some (r, s') ->
    run (coda_daemon_load o text) (l ++ l2) s0 = Some (r, s').
Proof.
  intros o text s0 x H. induction H as [|x y H IH Hs].
  - intros p [-> |E]; [|discriminate]. exists []. auto.
  - assert (Step : forall c k s a s1, kernel s c a = Some s1 ->
      (exists l, forall l2 r s', run (Call c k) l2 s = Some (r, s') -> run (coda_daemon_load o text) (l ++ l2) s0 = Some (r, s')) ->
      exists l, forall l2 r s', run (k a) l2 s1 = Some (r, s') -> run (coda_daemon_load o text) (l ++ l2) s0 = Some (r, s')).
    { intros c k s a s1 K (l & Hl). exists (l ++ [a]). intros l2 r s' R. rewrite <- app_assoc. cbn [app].
      apply Hl. cbn [run]. rewrite K. exact R. }
    destruct Hs as [c k s a s' d K N|k s pid e v s1 s2 Hp K1 K2|q c k s a s' K]; cbn [s_cmd s_daemon] in *; intros p [-> |E]; cbn [p_rest p_os].
    + apply (Step _ _ _ _ _ K). apply (IH (mkP (Call c k) s)). left. reflexivity.
    + apply IH. right. exact E.
    + apply (Step _ _ _ _ _ K1). apply (IH (mkP (Call KFork k) s)). left. reflexivity.
    + injection E as ->. cbn [p_rest p_os]. apply (Step _ _ _ _ _ K2). apply (IH (mkP (Call KFork k) s)). left. reflexivity.
    + apply IH. left. reflexivity.
    + injection E as ->. cbn [p_rest p_os]. apply (Step _ _ _ _ _ K). apply (IH (mkP (Call c k) s)). right. reflexivity.
Qed.

(** C154 (what holds).  The process that goes on as the server (the daemon, or the command when it
    does not detach) has installed all handlers, then detached itself if that was asked for, then
    written the pid file if one was asked for, in this order and without a failure, in every
    execution. *)
Theorem C154_server_partial : forall o text s0 x p, sexec o text s0 x ->
  p = s_cmd x \/ Some p = s_daemon x -> p_rest p = Ret (Some 0) ->
  exists fork pidf, did s0 (p_os p) (map KSignal sig_list ++ fork ++ pidf) /\
    (if o_daemon o then In KFork fork /\ In KSetsid fork else fork = []) /\
    (match o_pid o with
     | Some f => exists fd, pidf = [KOpen f true true false; KLock fd; KFstat fd; KWrite fd text; KUnlock fd; KClose fd]
     | None => pidf = []
     end).
Proof.
  intros o text s0 x p H Hp E. destruct (start_runs o text s0 x H p Hp) as (l & Hl).
  specialize (Hl [] (Some 0) (p_os p)). rewrite E in Hl. cbn [run] in Hl. specialize (Hl eq_refl).
  eapply C94_start_up_is_ordered. exact Hl.
Qed.
Print Assumptions C154_server_partial.

(** such an execution *)
Example C154_server_ex : exists x d, sexec (mkO None (Some (zs "/run/d.pid")) true) (zs "9") std x /\
  s_daemon x = Some d /\ p_rest d = Ret (Some 0).
Proof.
  set (o := mkO None _ true).
  destruct (start_forks o (zs "9") std 55 eq_refl ltac:(lia)) as (x & d & H & Ed & Ec & Eh & Et & Er).
  destruct x as [c d']. cbn [s_daemon s_cmd] in *. subst d'. destruct d as [rest [t m h]]. cbn [p_rest p_os hist tab] in *.
  assert (R : exists s', run rest [ok 9; ok 3; ok 0; ok 1; ok 0; ok 3; ok 0; ok 0; ok 1; ok 0; ok 0] (mkOs t m h) = Some (Some 0, s')).
  { subst rest t. clear. vm_compute. eexists. reflexivity. }
  destruct R as (s' & R). eapply daemon_runs in R; [|exact H].
  eexists _, _. split; [exact R|]. split; reflexivity.
Qed.
