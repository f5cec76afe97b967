(** Properties of the functions that talk to the kernel. *)

From Coq Require Import ZArith List Bool Lia.
From Verif Require Import Base Fd_Model Fd_Spec Fd_Proof.
Import ListNotations.
Local Open Scope Z_scope.

(** a process with the three standard streams open, and answers *)
Definition std : os := mkOs (fun i => if (0 <=? i) && (i <=? 2) then Some (OFile (zs "tty") true) else None) [] [].
Definition ok (r : Z) : ans := mkA r 0 0.
Definition err (e : Z) : ans := mkA (-1) e 0.

(** *** C71: descriptors are not leaked *)

(** coda_listen, coda_accept and coda_connect: if they fail the open descriptors are what
    they were; if they succeed there is exactly one more, the one returned. *)
Theorem C71_sockets_do_not_leak : forall l s r s',
  (forall b nb, run (coda_listen b nb) l s = Some (r, s') ->
     r = -1 /\ same_fds s s' \/ opened s s' r OSocket) /\
  (forall fd nb ip, run (coda_accept fd nb) l s = Some ((r, ip), s') ->
     r = -1 /\ ip = None /\ same_fds s s' \/ opened s s' r OConn /\ ip <> None) /\
  (forall nb, run (coda_connect nb) l s = Some (r, s') ->
     r = -1 /\ same_fds s s' \/ opened s s' r OSocket).
Proof.
  intros l s r s'. split; [|split].
  - intros b nb H. apply listen_ok in H. destruct H as [(H1 & H2 & _) | (_ & H & _)]; auto.
  - intros fd nb ip H. apply accept_ok in H. cbn [fst snd] in H. destruct H as [H I].
    destruct H as [(H1 & H2 & _) | (H0 & H & _)].
    + left. split; [auto|]. split; [apply I; lia | auto].
    + right. split; [auto|]. intros E. apply I in E. lia.
  - intros nb H. apply connect_ok in H. destruct H as [(H1 & H2 & _) | (_ & H & _)]; auto.
Qed.
Print Assumptions C71_sockets_do_not_leak.

(** coda_mkpidf and coda_mmap keep no descriptor at all, failing or not. *)
Theorem C71_files_do_not_leak : forall l s s',
  (forall p t r, run (coda_mkpidf p t) l s = Some (r, s') -> same_fds s s') /\
  (forall n w f r, run (coda_mmap n w f) l s = Some (r, s') -> same_fds s s').
Proof.
  intros l s s'. split.
  - intros p t r H. apply mkpidf_ok in H. tauto.
  - intros n w f r H. apply mmap_ok in H. tauto.
Qed.
Print Assumptions C71_files_do_not_leak.

(** coda_fdopen and coda_random_init keep nothing beyond what they promise unless dup2, or
    read, fails. *)
Theorem C71_open_does_not_leak_partial : forall l s s',
  (forall fd p w c ap r, run (coda_fdopen fd p w c ap) l s = Some (r, s') ->
     (forall td x, In (KDup2 td fd, x) (hist s') -> 0 <= x) ->
     (r = -1 -> fd < 0 -> same_fds s s') /\ (0 <= fd -> forall i, i <> fd -> tab s' i = tab s i)) /\
  (forall b x, run (coda_random_init b) l s = Some (x, s') ->
     (forall fd y, In (KRead fd 4, y) (hist s') -> 0 <= y) -> same_fds s s').
Proof.
  intros l s s'. split.
  - intros fd p w c ap r H D. apply fdopen_ok in H. destruct H as [_ H].
    destruct H as [(-> & H) | [(Hfd & Hr & H) | [(Hfd & Hr & H1 & H2) | (Hfd & Hr & td & x & _ & H1 & H2)]]].
    + split; auto.
    + split; intros; lia.
    + split; intros; [lia|auto].
    + apply D in H1. lia.
  - intros b [[r b'] seed] H D. apply random_ok in H. destruct H as (_ & _ & _ & [H | (_ & fd & x & _ & H1 & H2)] & _); [auto|].
    apply D in H1. lia.
Qed.
Print Assumptions C71_open_does_not_leak_partial.

(** What those two can leak: when they return -1, nothing, or exactly the one file they opened,
    and that only after a dup2, or read, that failed (or, for coda_fdopen, the file is where it
    was asked for). *)
Theorem C71_open_leak_exact : forall l s s',
  (forall fd p w c ap, run (coda_fdopen fd p w c ap) l s = Some (-1, s') ->
     same_fds s s' \/
     0 <= fd /\ tab s' fd = Some (OFile p w) /\ (forall i, i <> fd -> tab s' i = tab s i) \/
     0 <= fd /\ exists td x, opened s s' td (OFile p w) /\ In (KDup2 td fd, x) (hist s') /\ x < 0) /\
  (forall b b' seed, run (coda_random_init b) l s = Some (-1, b', seed, s') ->
     same_fds s s' \/
     exists fd x, opened s s' fd (OFile urandom false) /\ In (KRead fd 4, x) (hist s') /\ x < 0).
Proof.
  intros l s s'. split.
  - intros fd p w c ap H. apply fdopen_ok in H. destruct H as [_ H].
    destruct H as [(_ & H) | [(Hfd & Hr & H) | [(Hfd & Hr & H1 & H2) | (Hfd & Hr & H)]]]; [auto|lia|auto|auto].
  - intros b b' seed H. apply random_ok in H. destruct H as (_ & _ & _ & [H | (_ & H)] & _); auto.
Qed.
Print Assumptions C71_open_leak_exact.

Example C71_ex :
  (exists s', run (coda_listen 5 1) [ok 3; ok 0; ok 0; err 98; ok 0] std = Some (-1, s') /\ tab s' 3 = None) /\
  (exists s', run (coda_listen 5 1) [ok 3; ok 0; ok 0; ok 0; ok 0] std = Some (3, s') /\ tab s' 3 = Some OSocket) /\
  (exists s', run (coda_connect 1) [ok 3; ok 0; err EINPROGRESS] std = Some (3, s')) /\
  (exists s', run (coda_mkpidf (zs "/p") (zs "42")) [ok 3; ok 0; ok 0; ok 2; ok 0; ok 0] std = Some (0, s') /\ tab s' 3 = None) /\
  (exists s', run (coda_fdopen 2 (zs "log") true true true) [ok 3; ok 2; ok 0] std = Some (2, s') /\
     tab s' 2 = Some (OFile (zs "log") true) /\ tab s' 3 = None) /\
  (exists s', run (coda_random_init false) [ok 3; mkA 4 0 77; ok 0] std = Some (0, true, Some (Some 77), s')).
Proof. repeat split; eexists; repeat split. Qed.

(** False of coda_fdopen: when dup2 fails (EBADF or EMFILE for a number beyond the limit,
    EBUSY, EINTR) the file stays open under a number nobody knows. *)
Theorem C71_fdopen_leak_refuted : exists fd l s', 
  run (coda_fdopen fd (zs "log") true true true) l std = Some (-1, s') /\ ~ same_fds std s' /\
  tab s' 3 = Some (OFile (zs "log") true).
Proof.
  exists 1000000, [ok 3; err 9]. eexists. split; [reflexivity|]. split; [|reflexivity].
  intros H. specialize (H 3). discriminate.
Qed.
Print Assumptions C71_fdopen_leak_refuted.

(** False of coda_random_init: when read fails /dev/urandom stays open, once per attempt. *)
Theorem C71_random_leak_refuted : exists l s1 s2,
  run (coda_random_init false) l std = Some (-1, false, None, s1) /\
  run (coda_random_init false) [ok 4; err 5] s1 = Some (-1, false, None, s2) /\
  tab s2 3 = Some (OFile urandom false) /\ tab s2 4 = Some (OFile urandom false) /\ ~ same_fds std s2.
Proof.
  exists [ok 3; err 5]. eexists. eexists. split; [reflexivity|]. split; [reflexivity|].
  split; [reflexivity|]. split; [reflexivity|]. intros H. specialize (H 3). discriminate.
Qed.
Print Assumptions C71_random_leak_refuted.

(** *** C91: coda_fdopen puts the file where it was asked for *)

(** On success with a number [fd] the file is open as [fd], whatever was open there before
    is gone, and all other descriptors are unchanged; with a negative number it is open
    under the number returned. *)
Theorem C91_fdopen_target : forall fd p w c ap l s r s',
  run (coda_fdopen fd p w c ap) l s = Some (r, s') -> 0 <= r ->
  (fd < 0 -> opened s s' r (OFile p w)) /\
  (0 <= fd -> r = fd /\ tab s' fd = Some (OFile p w) /\ forall i, i <> fd -> tab s' i = tab s i).
Proof.
  intros fd p w c ap l s r s' H Hr. apply fdopen_ok in H. destruct H as [_ H].
  destruct H as [(-> & H) | [(Hfd & _ & H) | [(Hfd & Hr' & H1 & H2) | (_ & -> & _)]]]; try lia.
  - split; intros; [auto|lia].
  - split; intros; [lia|]. destruct Hr' as [-> | ->]; [auto|lia].
Qed.
Print Assumptions C91_fdopen_target.

(** a log file as standard error, and a file under the first free number *)
Example C91_ex :
  (exists s', run (coda_fdopen 2 (zs "log") true true true) [ok 3; ok 2; ok 0] std = Some (2, s') /\
     tab s' 2 = Some (OFile (zs "log") true) /\ tab std 2 <> tab s' 2 /\ tab s' 3 = None) /\
  (exists s', run (coda_fdopen (-1) (zs "log") true true true) [ok 3] std = Some (3, s') /\
     tab s' 3 = Some (OFile (zs "log") true) /\ tab s' 2 = tab std 2).
Proof. split; eexists; (split; [reflexivity|]); repeat split; discriminate. Qed.

(** *** C92: coda_daemon_fork *)

(** When it returns 0 (in the child) stdin and stdout are /dev/null and every other
    descriptor is unchanged, except that a closed stderr may be /dev/null too; the parent
    exits having made no call but fork. *)
Theorem C92_daemon_streams : forall l s r s', run coda_daemon_fork l s = Some (r, s') ->
  match r with
  | None => same_fds s s' /\ new_calls s s' (fun c _ => c = KFork)
  | Some 0 =>
      tab s' 0 = Some (OFile (zs "/dev/null") true) /\ tab s' 1 = Some (OFile (zs "/dev/null") true) /\
      forall i, 2 <= i -> tab s i <> None \/ i <> 2 -> tab s' i = tab s i
  | Some r => r = -1
  end.
Proof.
  intros l s r s' H. apply daemon_fork_ok in H. destruct H as [_ H]. destruct r as [r|]; [|exact H].
  destruct H as [[-> | ->] H]; [|reflexivity]. destruct (H eq_refl) as (H1 & H2 & H3). repeat split; auto.
  intros i Hi Hc. destruct (H3 i ltac:(lia) ltac:(lia)) as [X | (-> & X & _)]; [auto|]. destruct Hc; congruence.
Qed.
Print Assumptions C92_daemon_streams.

(** When it returns 0 the process has forked and is the leader of a new session. *)
Theorem C92_new_session : forall l s s', run coda_daemon_fork l s = Some (Some 0, s') -> exists fd,
  did s s' ([KFork; KSetsid; KOpen (zs "/dev/null") true false false; KDup2 fd 0; KDup2 fd 1] ++
            (if 2 <? fd then [KClose fd] else [])).
Proof. intros l s s' H. exact (daemon_fork_did s l _ s' H eq_refl). Qed.
Print Assumptions C92_new_session.

Example C92_ex :
  (exists s', run coda_daemon_fork [ok 0; ok 9; ok 3; ok 0; ok 1; ok 0] std = Some (Some 0, s') /\
     tab s' 0 = Some (OFile devnull true) /\ tab s' 2 = tab std 2 /\ tab s' 3 = None) /\
  (exists s', run coda_daemon_fork [ok 77] std = Some (None, s')).
Proof. repeat split; eexists; repeat split. Qed.

(** stderr is not detached, unlike daemon(3): output of the daemon still goes there. *)
Theorem C92_stderr_stays_refuted : exists l s', run coda_daemon_fork l std = Some (Some 0, s') /\
  tab s' 2 = Some (OFile (zs "tty") true).
Proof. exists [ok 0; ok 9; ok 3; ok 0; ok 1; ok 0]. eexists. split; reflexivity. Qed.
Print Assumptions C92_stderr_stays_refuted.

(** *** C73: coda_mkpath *)

(** For every path of at least one byte, in a buffer that ends right after the terminator or
    later, and for all results of mkdir: the buffer is unchanged afterwards; mkdir is called
    for the directories above the path, in order, each as a proper string, until it fails
    with another error than EEXIST; the result is 0 iff it never does. *)
Theorem C73_mkpath : forall path extra l s x s', path <> [] -> ~ In 0 path ->
  run (coda_mkpath (path ++ 0 :: extra)) l s = Some (x, s') ->
  same_fds s s' /\
  map fst (hist s') = rev (map KMkdir (firstn (length l) (parents path))) ++ map fst (hist s) /\
  exists r, x = Ok (r, path ++ 0 :: extra) /\
  (r = 0 /\ Forall dir_ok l /\ length l = length (parents path) \/
   r = -1 /\ exists l0 a, l = l0 ++ [a] /\ Forall dir_ok l0 /\ ~ dir_ok a).
Proof.
  intros [|c t] extra l s x s' N Z0 H; [congruence|]. unfold coda_mkpath in H.
  change ((c :: t) ++ 0 :: extra) with ([c] ++ t ++ 0 :: extra) in H |- *.
  apply (mkpath_loop_ok t [c]) in H.
  - destruct H as (H1 & _ & H2 & r & H3 & H4). split; [intros i; congruence|]. split; [exact H2|].
    exists r. split; [exact H3|]. destruct H4 as [H4 | (-> & _ & H4)]; auto.
  - intros [X | []]. apply Z0. left. auto.
  - intros X. apply Z0. right. auto.
  - rewrite !app_length. cbn [length]. lia.
Qed.
Print Assumptions C73_mkpath.

(** These are exactly the directories above the path; and the calls do not get stuck: if
    every directory can be made or exists the function returns 0. *)
Theorem C73_mkpath_is_complete : forall path extra s, path <> [] -> ~ In 0 path ->
  (forall d, In d (parents path) <-> parent path d) /\
  forall l, Forall dir_ok l -> length l = length (parents path) ->
    exists s', run (coda_mkpath (path ++ 0 :: extra)) l s = Some (Ok (0, path ++ 0 :: extra), s').
Proof.
  intros path extra s N Z0. split; [apply parents_ok|]. intros l F L.
  destruct path as [|c t]; [congruence|]. unfold coda_mkpath.
  change ((c :: t) ++ 0 :: extra) with ([c] ++ t ++ 0 :: extra).
  apply (mkpath_loop_runs t [c]); auto.
  - intros [X | []]. apply Z0. left. auto.
  - intros X. apply Z0. right. auto.
  - rewrite !app_length. cbn [length]. lia.
Qed.
Print Assumptions C73_mkpath_is_complete.

Example C73_ex : parents (zs "/var/log/x.log") = [zs "/var"; zs "/var/log"] /\
  (exists s', run (coda_mkpath (zs "/var/log/x.log" ++ [0])) [err EEXIST; ok 0] std =
     Some (Ok (0, zs "/var/log/x.log" ++ [0]), s') /\
     hist s' = [(KMkdir (zs "/var/log"), 0); (KMkdir (zs "/var"), -1)]) /\
  (exists s', run (coda_mkpath (zs "/var/log/x.log" ++ [0])) [err 13] std =
     Some (Ok (-1, zs "/var/log/x.log" ++ [0]), s')).
Proof. repeat split; eexists; repeat split. Qed.

(** False for the empty path: the byte after the terminator is read. *)
Theorem C73_empty_path_refuted : exists s', run (coda_mkpath [0]) [] std = Some (Ub OobRead, s').
Proof. eexists. reflexivity. Qed.
Print Assumptions C73_empty_path_refuted.

(** *** C93: log_create *)

(** On success stderr is the log file, opened for appending, the directories above it were
    there or have been made, the level is the new one and no other descriptor has changed;
    on failure the level is the old one. *)
Theorem C93_log_create : forall path extra level cur l s x s', path <> [] -> ~ In 0 path ->
  run (log_create (path ++ 0 :: extra) level cur) l s = Some (x, s') ->
  exists r lev, x = Ok (r, lev) /\
   (r = 2 /\ lev = level /\ tab s' 2 = Some (OFile path true) /\ (forall i, i <> 2 -> tab s' i = tab s i) /\
      (exists l0 l1, l = l0 ++ l1 /\ Forall dir_ok l0 /\ length l0 = length (parents path)) \/
    r = -1 /\ lev = cur).
Proof.
  intros path extra level cur l s x s' N Z0 H. unfold log_create in H.
  apply run_bind in H. destruct H as (l1 & l2 & y & s1 & -> & H1 & H2).
  pose proof (C73_mkpath _ _ _ _ _ _ N Z0 H1) as (S & _ & r & -> & D). cbv beta iota in H2.
  destruct D as [(-> & F & L) | (-> & _)].
  - cbn [Z.ltb Z.compare] in H2. rewrite cstr_app in H2 by auto.
    apply run_bind in H2. destruct H2 as (l3 & l4 & r & s2 & -> & H3 & H4).
    destruct (Z.ltb_spec r 0).
    + apply run_ret in H4. destruct H4 as (_ & -> & ->). exists (-1), cur. auto.
    + apply run_ret in H4. destruct H4 as (_ & -> & ->).
      destruct (C91_fdopen_target _ _ _ _ _ _ _ _ _ H3 H) as [_ T]. destruct (T ltac:(lia)) as (-> & T1 & T2).
      exists 2, level. split; [reflexivity|]. left. split; [auto|]. split; [auto|]. split; [auto|]. split.
      * intros i Hi. rewrite T2 by auto. apply S.
      * exists l1, (l3 ++ l4). auto.
  - cbn [Z.ltb Z.compare] in H2. apply run_ret in H2. destruct H2 as (_ & -> & ->). exists (-1), cur. auto.
Qed.
Print Assumptions C93_log_create.

Example C93_ex :
  (exists s', run (log_create (zs "d/x.log" ++ [0]) 8 7) [ok 0; ok 3; ok 2; ok 0] std = Some (Ok (2, 8), s') /\
     tab s' 2 = Some (OFile (zs "d/x.log") true) /\ tab s' 3 = None) /\
  (exists s', run (log_create (zs "d/x.log" ++ [0]) 8 7) [err 13] std = Some (Ok (-1, 7), s')).
Proof. repeat split; eexists; repeat split. Qed.

(** The calls of a successful log_create: the directories in order, then one open that
    creates the file or appends to it, then the move to descriptor 2. *)
Theorem C93_calls : forall path extra level cur l s lev s', path <> [] -> ~ In 0 path ->
  run (log_create (path ++ 0 :: extra) level cur) l s = Some (Ok (2, lev), s') ->
  exists td, map fst (hist s') =
    rev (map KMkdir (parents path) ++ [KOpen path true true true] ++
         (if td =? 2 then [] else [KDup2 td 2; KClose td])) ++ map fst (hist s).
Proof.
  intros path extra level cur l s lev s' N Z0 H. unfold log_create in H.
  apply run_bind in H. destruct H as (l1 & l2 & y & s1 & -> & H1 & H2).
  pose proof (C73_mkpath _ _ _ _ _ _ N Z0 H1) as (S & Hh & r & -> & D). cbv beta iota in H2.
  destruct D as [(-> & F & L) | (-> & _)].
  2:{ cbn [Z.ltb Z.compare] in H2. apply run_ret in H2. destruct H2 as (_ & H2 & _). discriminate. }
  cbn [Z.ltb Z.compare] in H2. rewrite cstr_app in H2 by auto. rewrite L, firstn_all in Hh.
  apply run_bind in H2. destruct H2 as (l3 & l4 & r & s2 & -> & H3 & H4).
  destruct (Z.ltb_spec r 0). { apply run_ret in H4. destruct H4 as (_ & H4 & _). discriminate. }
  apply run_ret in H4. destruct H4 as (_ & _ & ->).
  unfold coda_fdopen, sys in H3. cbn [pbind] in H3. apply run_call in H3.
  destruct H3 as (a & l5 & s3 & _ & K & H3). apply k_hist in K.
  destruct (Z.ltb_spec (rc a) 0). { apply run_ret in H3. destruct H3 as (_ & H3 & _). lia. }
  exists (rc a). rewrite rev_app_distr, <- app_assoc, <- Hh. unfold coda_fdmove, sys in H3. cbn [pbind] in H3.
  change (2 <? 0) with false in H3. cbn [orb] in H3. destruct (Z.eqb_spec (rc a) 2).
  - apply run_ret in H3. destruct H3 as (_ & _ & ->). rewrite K. reflexivity.
  - apply run_call in H3. destruct H3 as (b & l6 & s4 & _ & K2 & H3). apply k_hist in K2.
    destruct (rc b <? 0). { apply run_ret in H3. destruct H3 as (_ & H3 & _). lia. }
    apply run_call in H3. destruct H3 as (c & l7 & s5 & _ & K3 & H3). apply k_hist in K3.
    destruct (rc c <? 0); apply run_ret in H3; destruct H3 as (_ & H3 & ->); [lia|].
    rewrite K3, K2, K. reflexivity.
Qed.
Print Assumptions C93_calls.

(** *** C94: coda_daemon_load *)

(** The parent of a detached daemon exits without touching the pid file (it only installs
    the handlers and forks); when 0 is returned all handlers have been installed, in the
    child if the daemon is detached. *)
Theorem C94_daemon_load : forall o text l s r s',
  run (coda_daemon_load o text) l s = Some (r, s') ->
  match r with
  | None => o_daemon o = true /\ same_fds s s' /\ new_calls s s' (fun c _ => c = KFork \/ exists x, c = KSignal x)
  | Some r => (r = 0 \/ r = -1) /\
      (r = 0 -> forall x, In x sig_list -> exists y, In (KSignal x, y) (hist s'))
  end.
Proof.
  intros o text l s r s' H. unfold coda_daemon_load in H.
  apply run_bind in H. destruct H as (l1 & l2 & x & s1 & -> & H1 & H).
  apply signal_init_ok in H1. destruct H1 as (T1 & M1 & R1 & E1 & N1).
  destruct (Z.ltb_spec x 0).
  { apply run_ret in H. destruct H as (_ & -> & ->). split; [auto|]. discriminate. }
  assert (x = 0) by lia. subst x. specialize (E1 eq_refl).
  assert (Grow : forall A (p : prog A) l s y s', run p l s = Some (y, s') -> exists h, hist s' = h ++ hist s).
  { clear. intros A p. induction p as [y|c k IH]; intros l s z s' H.
    - apply run_ret in H. destruct H as (_ & _ & ->). exists []. reflexivity.
    - apply run_call in H. destruct H as (a & l' & s1 & _ & K & H). apply k_hist in K. apply IH in H.
      destruct H as [h E]. exists (h ++ [(c, rc a)]). rewrite E, K, <- app_assoc. reflexivity. }
  assert (Sig : forall s2, (exists h, hist s2 = h ++ hist s1) -> forall x, In x sig_list -> exists y, In (KSignal x, y) (hist s2)).
  { intros s2 (h & Eh) x Hx. assert (I : In (KSignal x) (map fst (hist s1))).
    { rewrite E1. apply in_or_app. left. apply in_rev. rewrite rev_involutive. apply in_map. auto. }
    apply in_map_iff in I. destruct I as ([c y] & Ec & Iy). cbn [fst] in Ec. subst c. exists y. rewrite Eh. apply in_or_app. auto. }
  apply run_bind in H. destruct H as (l3 & l4 & r2 & s2 & -> & H2 & H).
  pose proof (Grow _ _ _ _ _ _ H2) as G2. pose proof (Grow _ _ _ _ _ _ H) as G3.
  assert (G : exists h, hist s' = h ++ hist s1).
  { destruct G2 as [h2 E2], G3 as [h3 E3]. exists (h3 ++ h2). rewrite E3, E2, app_assoc. reflexivity. }
  destruct (o_daemon o) eqn:Eo.
  - apply daemon_fork_ok in H2. destruct H2 as [_ H2]. destruct r2 as [r2|].
    + destruct (r2 <? 0). { apply run_ret in H. destruct H as (_ & -> & ->). split; [auto|]. discriminate. }
      destruct (o_pid o) as [p|].
      * apply run_bind in H. destruct H as (l5 & l6 & r3 & s3 & _ & _ & H).
        destruct (r3 <? 0); apply run_ret in H; destruct H as (_ & -> & ->); split; auto; discriminate.
      * apply run_ret in H. destruct H as (_ & -> & ->). split; auto.
    + apply run_ret in H. destruct H as (_ & -> & ->). destruct H2 as [S2 (h2 & Eh2 & F2)].
      split; [auto|]. split; [intros i; rewrite S2; congruence|].
      destruct N1 as (h1 & Eh1 & F1). exists (h2 ++ h1). rewrite Eh2, Eh1, app_assoc. split; [reflexivity|].
      apply Forall_app. split; [eapply Forall_impl; [|exact F2]; cbv beta; auto | eapply Forall_impl; [|exact F1]; cbv beta; auto].
  - apply run_ret in H2. destruct H2 as (_ & -> & ->). cbn [Z.ltb Z.compare] in H.
    destruct (o_pid o) as [p|].
    + apply run_bind in H. destruct H as (l5 & l6 & r3 & s3 & _ & _ & H).
      destruct (r3 <? 0); apply run_ret in H; destruct H as (_ & -> & ->); split; auto; discriminate.
    + apply run_ret in H. destruct H as (_ & -> & ->). split; auto.
Qed.
Print Assumptions C94_daemon_load.

(** When it returns 0 the handlers were installed first, then the process was detached if
    that was asked for, then the pid file was written if one was asked for, by the process
    that goes on; nothing failed. *)
Theorem C94_start_up_is_ordered : forall o text l s s',
  run (coda_daemon_load o text) l s = Some (Some 0, s') ->
  exists fork pidf, did s s' (map KSignal sig_list ++ fork ++ pidf) /\
    (if o_daemon o then In KFork fork /\ In KSetsid fork else fork = []) /\
    (match o_pid o with
     | Some p => exists fd, pidf = [KOpen p true true false; KLock fd; KFstat fd; KWrite fd text; KUnlock fd; KClose fd]
     | None => pidf = []
     end).
Proof.
  intros o text l s s' H. unfold coda_daemon_load in H.
  apply run_bind in H. destruct H as (l1 & l2 & x & s1 & -> & H1 & H).
  pose proof (signal_init_ok _ _ _ _ _ H1) as (_ & _ & R1 & _ & _).
  destruct (Z.ltb_spec x 0). { apply run_ret in H. destruct H as (_ & H & _). discriminate. }
  assert (x = 0) by lia. subst x. pose proof (signal_init_did _ _ _ _ _ H1 eq_refl) as D1.
  apply run_bind in H. destruct H as (l3 & l4 & r2 & s2 & -> & H2 & H).
  assert (D2 : forall r, r2 = Some r -> 0 <= r -> exists fork, did s1 s2 fork /\
    (if o_daemon o then In KFork fork /\ In KSetsid fork else fork = [])).
  { intros r E Hr. subst r2. destruct (o_daemon o).
    - pose proof (daemon_fork_ok _ _ _ _ H2) as (_ & [E | E] & _); [|lia]. subst r.
      destruct (daemon_fork_did _ _ _ _ H2 eq_refl) as (fd & D). eexists. split; [exact D|].
      split; apply in_or_app; left; cbn; auto.
    - apply run_ret in H2. destruct H2 as (_ & _ & ->). exists []. split; [apply did_nil | reflexivity]. }
  destruct r2 as [r2|]; [|apply run_ret in H; destruct H as (_ & H & _); discriminate].
  destruct (Z.ltb_spec r2 0). { apply run_ret in H. destruct H as (_ & H & _). discriminate. }
  destruct (D2 r2 eq_refl ltac:(lia)) as (fork & Df & Ef). exists fork.
  destruct (o_pid o) as [p|].
  - apply run_bind in H. destruct H as (l5 & l6 & r3 & s3 & _ & Hpid & H).
    destruct (Z.ltb_spec r3 0). { apply run_ret in H. destruct H as (_ & H & _). discriminate. }
    pose proof (mkpidf_ok _ _ _ _ _ _ Hpid) as (R3 & _). assert (r3 = 0) by lia. subst r3.
    destruct (mkpidf_did _ _ _ _ _ _ Hpid eq_refl) as (fd & D3).
    apply run_ret in H. destruct H as (_ & _ & ->). eexists. split; [|split; [exact Ef | exists fd; reflexivity]].
    eapply did_trans; [exact D1|]. eapply did_trans; [exact Df | exact D3].
  - apply run_ret in H. destruct H as (_ & _ & ->). exists []. split; [|auto].
    rewrite app_nil_r. eapply did_trans; [exact D1 | exact Df].
Qed.
Print Assumptions C94_start_up_is_ordered.

Example C94_ex :
  let load := coda_daemon_load (mkO None (Some (zs "/p")) true) (zs "9") in
  option_map fst (run load (repeat (ok 0) 21 ++ [ok 55]) std) = Some None /\
  option_map (fun x => (fst x, nth_error (hist (snd x)) 2))
    (run load (repeat (ok 0) 21 ++ [ok 0; ok 9; ok 3; ok 0; ok 1; ok 0] ++ [ok 3; ok 0; ok 0; ok 1; ok 0; ok 0]) std) =
  Some (Some 0, Some (KWrite 3 (zs "9"), 1)).
Proof. split; vm_compute; reflexivity. Qed.

(** coda_daemon_stop removes the pid file that coda_daemon_load with the same options made,
    touches no other file and no descriptor, and returns 0 exactly if the file was removed
    (or none was asked for). *)
Theorem C94_stop_removes_the_pid_file : forall o l s r s',
  run (coda_daemon_stop o) l s = Some (r, s') ->
  same_fds s s' /\ (r = 0 \/ r = -1) /\
  match o_pid o with
  | Some p => exists x, hist s' = (KUnlink p, x) :: hist s /\ (r = 0 <-> 0 <= x)
  | None => r = 0 /\ hist s' = hist s
  end.
Proof.
  intros o l s r s' H. unfold coda_daemon_stop, sys in H. destruct (o_pid o) as [p|].
  - cbn [pbind] in H. apply run_call in H. destruct H as (a & l1 & s1 & _ & K & H).
    pose proof (k_hist _ _ _ _ K) as Hh. apply k_plain in K; [|exact I]. destruct K as (K & _).
    destruct (Z.ltb_spec (rc a) 0); apply run_ret in H; destruct H as (_ & -> & ->);
      (split; [intros i; rewrite K; reflexivity|]; split; [auto|]; exists (rc a); split; [exact Hh|]; split; intros; try lia; discriminate).
  - apply run_ret in H. destruct H as (_ & -> & ->). split; [intros i; reflexivity|]. auto.
Qed.
Print Assumptions C94_stop_removes_the_pid_file.
Example C94_stop_ex :
  option_map (fun x => (fst x, hist (snd x))) (run (coda_daemon_stop (mkO None (Some (zs "/p")) true)) [ok 0] std) =
    Some (0, [(KUnlink (zs "/p"), 0)]) /\
  option_map fst (run (coda_daemon_stop (mkO None (Some (zs "/p")) true)) [err 2] std) = Some (-1).
Proof. split; reflexivity. Qed.

(** *** C95: coda_mmap *)

(** When it returns 0 there is exactly one mapping more, at area->data; when it fails it has
    made no mapping, unless closing the descriptor is what failed. *)
Theorem C95_mmap_partial : forall n w f l s r size data s',
  run (coda_mmap n w f) l s = Some ((r, size, data), s') ->
  (r = 0 -> exists d, data = Some d /\ 0 <= d /\ maps s' = d :: maps s) /\
  (r <> 0 -> r = -1 /\ (maps s' = maps s \/ exists d, data = Some d /\ maps s' = d :: maps s)).
Proof.
  intros n w f l s r size data s' H. apply mmap_ok in H. cbn [fst snd] in H.
  destruct H as (_ & H1 & H2 & H3). split; [exact H2|]. intros Hn. destruct H1; [congruence|]. split; [auto|].
  destruct H3 as [H3 | (d & E & _ & H3)]; eauto.
Qed.
Print Assumptions C95_mmap_partial.

Example C95_ex :
  (exists s', run (coda_mmap 0 false (Some (zs "f"))) [ok 3; mkA 0 0 100; ok 4096; ok 0] std = Some (0, 100, Some 4096, s') /\
     maps s' = [4096] /\ tab s' 3 = None) /\
  (exists s', run (coda_mmap 64 false None) [ok 4096] std = Some (0, 64, Some 4096, s')).
Proof. repeat split; eexists; repeat split. Qed.

(** False: if close fails the function fails but the mapping stays. *)
Theorem C95_mapping_leak_refuted : exists l s' d, maps std = [] /\
  run (coda_mmap 0 false (Some (zs "f"))) l std = Some (-1, 100, Some d, s') /\ maps s' = [d].
Proof. exists [ok 3; mkA 0 0 100; ok 4096; err 5]. eexists. exists 4096. repeat split. Qed.
Print Assumptions C95_mapping_leak_refuted.

(** False: a file cannot be mapped for reading with a given size, whatever the kernel
    answers, because the size is imposed on the file, which is open for reading only. *)
Theorem C95_read_only_size_refuted : forall n f l s r size data s', n <> 0 ->
  run (coda_mmap n false (Some f)) l s = Some ((r, size, data), s') -> r = -1.
Proof.
  intros n f l s r size data s' Hn H. unfold coda_mmap, sys in H. cbn [pbind] in H.
  apply run_call in H. destruct H as (a & l' & s1 & _ & K & H).
  destruct (Z.ltb_spec (rc a) 0). { apply run_ret in H. destruct H as (_ & H & _). congruence. }
  destruct (Z.eqb_spec n 0); [congruence|]. cbn [negb pbind] in H.
  apply run_call in H. destruct H as (a1 & l1 & s2 & _ & K1 & H).
  apply (w_open _ _ (OFile f false)) in K; [|reflexivity|auto]. destruct K as (_ & _ & T & _).
  unfold kernel, effect, writable in K1. rewrite T in K1. unfold fput in K1. rewrite Z.eqb_refl in K1.
  destruct (Z.ltb_spec (rc a1) 0); [|discriminate].
  apply run_call in H. destruct H as (a2 & l2 & s3 & _ & _ & H). apply run_ret in H. destruct H as (_ & H & _). congruence.
Qed.
Print Assumptions C95_read_only_size_refuted.

(** *** C98: a socket that is returned is set up *)

(** A listening socket was made reusable, bound and told to listen, and is non-blocking if
    that was asked for; an accepted one has the mode asked for; a connecting one is
    connected, or connecting in the background. *)
Theorem C98_sockets_are_set_up : forall l s s' nb r,
  (forall b, run (coda_listen b nb) l s = Some (r, s') -> 0 <= r ->
    did s s' ([KSocket] ++ (if nb =? 0 then [] else [KNonblk r nb]) ++ [KReuse r; KBind r; KListen r b])) /\
  (forall fd ip, run (coda_accept fd nb) l s = Some ((r, ip), s') -> 0 <= r -> did s s' [KAccept fd; KNonblk r nb]) /\
  (run (coda_connect nb) l s = Some (r, s') -> 0 <= r -> exists s1 a,
    did s s1 ([KSocket] ++ (if nb =? 0 then [] else [KNonblk r nb])) /\ kernel s1 (KConnect r) a = Some s' /\
    (0 <= rc a \/ errno a = EINPROGRESS)).
Proof.
  intros l s s' nb r. split; [|split].
  - intros b H. exact (listen_did _ _ _ _ _ _ H).
  - intros fd ip H. exact (accept_did _ _ _ _ _ _ H).
  - intros H. exact (connect_did _ _ _ _ _ H).
Qed.
Print Assumptions C98_sockets_are_set_up.

Example C98_ex :
  (exists s', run (coda_listen 5 1) [ok 3; ok 0; ok 0; ok 0; ok 0] std = Some (3, s') /\
     did std s' [KSocket; KNonblk 3 1; KReuse 3; KBind 3; KListen 3 5]) /\
  (exists s', run (coda_connect 0) [ok 3; err 115] std = Some (3, s')) /\
  (exists s', run (coda_connect 0) [ok 3; err 111; ok 0] std = Some (-1, s')).
Proof.
  split; [|split; eexists; reflexivity]. eexists. split; [reflexivity|]. exists [(KListen 3 5, 0); (KBind 3, 0); (KReuse 3, 0); (KNonblk 3 1, 0); (KSocket, 3)].
  split; [reflexivity|]. split; [reflexivity|]. repeat constructor; cbn; lia.
Qed.

(** *** C95: when a mapping is left behind *)

Lemma kern_inv : forall s c a s', kernel s c a = Some s' -> exists t m, effect s c a = Some (t, m) /\
  s' = mkOs t m ((c, rc a) :: hist s).
Proof. intros s c a s' H. unfold kernel in H. destruct (effect s c a) as [[t m]|] eqn:E; [|discriminate]. injection H as <-. eauto. Qed.
Lemma eff_maps : forall s c a t m, effect s c a = Some (t, m) ->
  m = match c with KMmap _ _ => if rc a <? 0 then maps s else rc a :: maps s | _ => maps s end.
Proof.
  intros s c a t m H. destruct c; cbn [effect] in H; 
  repeat match goal with H : context [match ?x with _ => _ end] |- _ => destruct x eqn:?; try discriminate H end;
  injection H as <- <-; auto.
Qed.


Ltac kcall H :=
  cbn [pbind run] in H;
  match type of H with
  | context [match ?l with [] => None | _ => _ end] => is_var l;
    let a := fresh "a" in let s1 := fresh "s" in let E := fresh "E" in let t := fresh "t" in let m := fresh "m" in let F := fresh "F" in
    destruct l as [|a l]; [discriminate H|];
    match type of H with context [kernel ?s ?c a] =>
      destruct (kernel s c a) as [s1|] eqn:E; [|discriminate H];
      apply kern_inv in E; destruct E as (t & m & F & ->); apply eff_maps in F; cbn in F; subst m end
  end.
Ltac kret H :=
  cbn [pbind run] in H;
  match type of H with context [match ?l with [] => Some _ | _ => _ end] => is_var l; destruct l; [|discriminate H] end;
  injection H as <- <- <- <-; cbn [maps hist].
(** Exactly when a mapping is left behind by a call that fails: when mmap succeeds and then close fails. *)
Theorem C95_leak_exact : forall n w f l s r size data s',
  run (coda_mmap n w f) l s = Some ((r, size, data), s') -> r <> 0 ->
  (maps s' <> maps s <->
   exists fd sz d c h, hist s' = (KClose fd, c) :: (KMmap fd sz, d) :: h /\ 0 <= d /\ c < 0).
Proof.
  intros n w f l s r size data s' H Hr.
  assert (NE : forall (x : Z) l, x :: l <> l) by (intros x l0 E; apply (f_equal (@length Z)) in E; cbn in E; lia).
  unfold coda_mmap, sys in H. destruct f as [f|].
  - kcall H. destruct (Z.ltb_spec (rc a) 0) as [L1|L1].
    + kret H. split; [tauto|]. intros (fd & sz & d & c & h & E & _); discriminate.
    + destruct (n =? 0); cbn [negb] in H; kcall H; cbn [pbind run] in H;
      (destruct (rc a0 <? 0); [kcall H; kret H; split; [tauto|]; intros (fd & sz & d & c & h & E & _); discriminate|]);
      kcall H; cbn [maps] in H;
      (destruct (Z.ltb_spec (rc a1) 0) as [L2|L2]; kcall H;
        [kret H; split; [tauto|]; intros (fd & sz & d & c & h & E & A & B); injection E; intros; lia|]);
      destruct (Z.ltb_spec (rc a2) 0) as [L3|L3]; kret H; try congruence;
      (split; [intros _; do 5 eexists; split; [reflexivity|]; split; [exact L2|exact L3] | intros _; apply NE]).
  - kcall H. destruct (Z.ltb_spec (rc a) 0) as [L1|L1]; kret H; [|congruence].
    split; [tauto|]. intros (fd & sz & d & c & h & E & _); discriminate.
Qed.
Print Assumptions C95_leak_exact.
(** both sides occur: a failing close, and a failing mmap *)
Example C95_leak_ex :
  (exists s', run (coda_mmap 0 false (Some (zs "f"))) [ok 3; mkA 0 0 100; ok 4096; err 5] std = Some (-1, 100, Some 4096, s') /\
     maps s' <> maps std) /\
  (exists s', run (coda_mmap 0 false (Some (zs "f"))) [ok 3; mkA 0 0 100; err 12; ok 0] std = Some (-1, 100, Some (-1), s') /\
     maps s' = maps std).
Proof. split; eexists; (split; [reflexivity|]); [discriminate|reflexivity]. Qed.
