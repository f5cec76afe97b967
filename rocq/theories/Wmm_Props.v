(** Property C136: the shared map and the shared queue on processors that delay stores. *)

From Coq Require Import ZArith List Bool Lia.
From Verif Require Import Base Shm_Spec Shm_Model ShmSys_Model ShmSys_Spec ShmSys_Props Shm_Props ShmApi_Proof Wmm_Model Wmm_Proof.
From Verif Require ShmQ_Spec ShmQ_Model ShmQSys_Spec ShmQ_Props Synque_Spec Synque_Model Synque_Proof Synque_Props.
Import ListNotations.
Local Open Scope Z_scope.

(** *** the map *)

(** Whatever is seen on such a processor can be seen on one that does not delay stores: same calls,
    same results, same deaths, in the same order; and when no store is on its way the segment is
    the same.  Any bodies, as long as read sections store nothing. *)
Theorem C136_map : forall R lim n m0 tr w, wexec R lim true n m0 tr w ->
  (forall i b, In (ECall i Rd b) tr -> readonly R b) ->
  exists s, exec R lim n m0 tr s /\ s_sems R s = s_sems R (w_sys w) /\ s_procs R s = s_procs R (w_sys w) /\
    ((forall b, In b (w_bufs w) -> b = []) -> forall x, s_mem R s x = s_mem R (w_sys w) x).
Proof.
  intros R lim n m0 tr w H RO. destruct (wsim_exec R lim n m0 tr w H RO) as (s & E & [W1 W2 W3 W4 W5]).
  exists s. split; auto. split; auto. split; auto. intros Z0 x. rewrite W5, concat_none; [reflexivity|].
  intros j c Hj. apply nth_error_In in Hj. auto.
Qed.
Print Assumptions C136_map.

Lemma upd_rep : forall A (x : A) n i, upd (repeat x n) i x = repeat x n.
Proof.
  intros A x n i. destruct (nth_error (repeat x n) i) as [y|] eqn:E.
  - rewrite (repeat_spec _ _ _ (nth_error_In _ _ E)) in E. apply upd_id. auto.
  - apply nth_error_None in E. rewrite repeat_length in E. revert i E. induction n as [|n IH]; intros [|i] E; cbn; auto; try lia.
    f_equal. apply IH. lia.
Qed.
Lemma upd_over : forall A (l : list A) i x y, upd (upd l i x) i y = upd l i y.
Proof. induction l as [|a l IH]; intros [|i] x y; cbn; auto. f_equal. apply IH. Qed.
Lemma nth_rep : forall A (x : A) n i, (i < n)%nat -> nth_error (repeat x n) i = Some x.
Proof. intros. rewrite nth_error_repeat; auto. Qed.

(** Conversely everything seen without delays can be seen with them, so both processors show the same. *)
Theorem C136_map_conversely : forall R lim f n m0 tr s, exec R lim n m0 tr s ->
  wexec R lim f n m0 tr (mkW s (repeat [] n)).
Proof.
  intros R lim f n m0 tr s H.
  assert (L : length (s_procs R s) = n /\ wexec R lim f n m0 tr (mkW s (repeat [] n))); [|apply L].
  induction H as [|tr s e s' H IH St].
  - split; [cbn; apply repeat_length | apply we_nil].
  - destruct IH as (L & W).
    assert (L' : length (s_procs R s') = n) by (inversion St; subst; cbn [s_procs]; rewrite ?upd_length; auto).
    split; auto.
    assert (B : forall i p, nth_error (s_procs R s) i = Some p -> nth_error (repeat ([] : buf) n) i = Some []).
    { intros i p Hi. apply nth_rep. rewrite <- L. apply nth_error_Some. congruence. }
    clear L L'. destruct (quiet R e) eqn:Q.
    + eapply we_snoc; [exact W|]. apply WQuiet; auto. intros _ _. inversion St; subst; eapply B; cbn [s_procs actor]; eauto.
    + inversion St; subst; try discriminate Q; cbn [s_procs] in *.
      * match goal with K : pstep _ _ _ _ _ |- _ => inversion K; subst end.
        -- eapply we_snoc; [exact W|]. change (m' a) with (look [] m' a). eapply WLoad; eauto.
        -- eapply we_drain.
           ++ eapply we_snoc; [exact W|]. eapply WStore; eauto.
           ++ rewrite <- (upd_rep buf [] n i) at 2.
              replace (upd (repeat ([] : buf) n) i []) with (upd (upd (repeat [] n) i ([] ++ [(a, v0)])) i ([] ++ [])).
              2: { cbn [app]. apply upd_over. }
              eapply (WDrain R lim f v m _ _ i [] a v0 []); [|intros []].
              rewrite nth_error_upd_same; [reflexivity|]. apply nth_error_Some. erewrite B by eassumption. discriminate.
      * rewrite <- (upd_rep buf [] n i). eapply we_snoc; [exact W|]. eapply (WCrash R lim f v m ps _ i []); eauto.
Qed.
Print Assumptions C136_map_conversely.

(** The results of the methods of the map are those of a finite map (C55 on such a processor). *)
Theorem C136_map_is_linearizable : forall P fuel n mz m0 h tr w,
  fits P -> (Z.to_nat (nobj P) < fuel)%nat ->
  zeroed mz -> run (required_space P) (attach P) mz = Ok (h, m0) ->
  wexec mret (required_space P) true n m0 tr w -> api_trace P fuel tr ->
  exists l lk f, shows P fuel tr l /\ cruns (nobj P) 0 [] l lk f.
Proof.
  intros P fuel n mz m0 h tr w HP Hf Hz EA HE HT.
  destruct (C136_map _ _ _ _ _ _ HE) as (s & E & _).
  { intros j b' Hj. destruct (proj1 HT j Rd b' Hj) as (o' & _ & E' & ->). apply api_readonly. auto. }
  eapply C55_map_is_linearizable; eauto.
Qed.
Print Assumptions C136_map_is_linearizable.

(** *** semop has to wait for the stores: otherwise a completed write can be missed. *)
Definition wr1 : prog Z := Store 4 0 1 (Ret 0).
Definition rd1 : prog Z := Load 4 0 Ret.
Definition late : list (event Z) :=
  [ECall 0 Wr wr1; ELock 0; EMem 0; EDone 0 Wr wr1 0; ECall 1 Rd rd1; ELock 1; EMem 1; EDone 1 Rd rd1 0].

Ltac fwd E e tac :=
  match type of E with wexec ?R ?l ?f ?n ?m ?tr ?w =>
    let w' := fresh "w'" in evar (w' : wsys R);
    let N := fresh "N" in assert (N : wstep R l f w (Some e) w') by (subst w'; tac);
    let E' := fresh "E'" in pose proof (we_snoc R l f n m tr w e w' E N) as E'; subst w'; clear N E; rename E' into E;
    cbn [upd app] in E
  end.
Ltac quiet t := eapply WQuiet; [t|reflexivity|intros; try discriminate; try reflexivity].

Theorem C136_fence_needed : exists tr w, wexec Z 4 false 2 (fun _ => 0) tr w /\
  (forall i b, In (ECall i Rd b) tr -> readonly Z b) /\ forall s, ~ exec Z 4 2 (fun _ => 0) tr s.
Proof.
  pose proof (we_nil Z 4 false 2 (fun _ => 0)) as E. unfold init in E. cbn [repeat] in E.
  fwd E (ECall (R := Z) 0 Wr wr1) ltac:(quiet ltac:(eapply SCall; reflexivity)).
  fwd E (ELock (R := Z) 0) ltac:(quiet ltac:(eapply SLock; reflexivity)).
  fwd E (EMem (R := Z) 0) ltac:(eapply WStore; reflexivity).
  fwd E (EDone 0 Wr wr1 0) ltac:(quiet ltac:(eapply SDone; reflexivity)).
  fwd E (ECall (R := Z) 1 Rd rd1) ltac:(quiet ltac:(eapply SCall; reflexivity)).
  fwd E (ELock (R := Z) 1) ltac:(quiet ltac:(eapply SLock; reflexivity)).
  fwd E (EMem (R := Z) 1) ltac:(eapply WLoad; reflexivity).
  fwd E (EDone 1 Rd rd1 0) ltac:(quiet ltac:(eapply SDone; reflexivity)).
  exists late. eexists. split; [exact E|clear E]. split.
  - intros i b H. unfold late in H. cbn [In] in H. intuition try discriminate.
    match goal with K : ECall 1 Rd rd1 = _ |- _ => injection K as <- <- end. cbn. auto.
  - intros s H. destruct (C55_sections_are_atomic _ _ _ _ _ _ H) as (m1 & S & _).
    { intros i b K. unfold late in K. cbn [In] in K. intuition try discriminate.
      match goal with Q : ECall 1 Rd rd1 = _ |- _ => injection Q as <- <- end. cbn. auto. }
    unfold late in S.
    repeat match goal with
    | K : serial _ _ _ (_ :: _) _ |- _ => inversion K; subst; clear K; try contradiction
    | K : run _ _ _ = Ok _ |- _ => cbn in K; try discriminate K; injection K; intros; subst; clear K
    end; try discriminate.
Qed.
Print Assumptions C136_fence_needed.

(** *** the queue *)

(** The same for the shared queue, when no semop is interrupted (C62). *)
Theorem C136_queue : forall lim n k m0 tr w, vexec lim n k m0 tr w ->
  (forall e, In e tr -> ShmQSys_Spec.is_intr e = false) ->
  exists s, ShmQ_Model.exec lim n k m0 tr s /\ ShmQ_Model.lk s = ShmQ_Model.lk (v_sys w) /\
    ShmQ_Model.cnt s = ShmQ_Model.cnt (v_sys w) /\ ShmQ_Model.procs s = ShmQ_Model.procs (v_sys w) /\
    ((forall b, In b (v_bufs w) -> b = []) -> forall x, ShmQ_Model.sm s x = ShmQ_Model.sm (v_sys w) x).
Proof.
  intros lim n k m0 tr w H F. destruct (vsim_exec lim n k m0 tr w H F) as (s & E & [W1 W2 W3 W4 W5]).
  exists s. split; auto. split; auto. split; auto. split; auto. intros Z0 x. rewrite W5, concat_none; [reflexivity|].
  intros j c Hj. apply nth_error_In in Hj. auto.
Qed.
Print Assumptions C136_queue.

(** Conversely everything seen without delays can be seen with them. *)
Theorem C136_queue_conversely : forall lim n k m0 tr s, ShmQ_Model.exec lim n k m0 tr s ->
  vexec lim n k m0 tr (mkV s (repeat [] k)).
Proof.
  intros lim n k m0 tr s H.
  assert (L : length (ShmQ_Model.procs s) = k /\ vexec lim n k m0 tr (mkV s (repeat [] k))); [|apply L].
  induction H as [|tr s e s' H IH St].
  - split; [cbn; apply repeat_length | apply ve_nil].
  - destruct IH as (L & W).
    assert (L' : length (ShmQ_Model.procs s') = k) by (inversion St; subst; cbn [ShmQ_Model.procs]; rewrite ?upd_length; auto).
    split; auto.
    assert (B : forall i p, nth_error (ShmQ_Model.procs s) i = Some p -> nth_error (repeat ([] : buf) k) i = Some []).
    { intros i p Hi. apply nth_rep. rewrite <- L. apply nth_error_Some. congruence. }
    clear L L'. inversion St; subst; cbn [ShmQ_Model.procs] in *;
      try (eapply ve_snoc; [exact W|]; eapply VQuiet;
           [exact St|intros; discriminate|cbn [ShmQ_Model.procs qactor]; eassumption|exact I|intros _; cbn [qactor]; eauto]).
    + match goal with K : pstep _ _ _ _ _ |- _ => inversion K; subst end.
      * eapply ve_snoc; [exact W|]. change (m' a) with (look [] m' a). eapply VLoad; eauto.
      * eapply ve_drain.
        -- eapply ve_snoc; [exact W|]. eapply VStore; eauto.
        -- rewrite <- (upd_rep buf [] k i) at 2.
           replace (upd (repeat ([] : buf) k) i []) with (upd (upd (repeat [] k) i ([] ++ [(a, v)])) i ([] ++ [])).
           2: { cbn [app]. apply upd_over. }
           eapply (VDrain lim n l c m _ _ i [] a v []); [|intros []].
           rewrite nth_error_upd_same; [reflexivity|]. apply nth_error_Some. erewrite B by eassumption. discriminate.
    + rewrite <- (upd_rep buf [] k i). eapply ve_snoc; [exact W|]. eapply (VDie lim n l c m ps _ i []); eauto.
Qed.
Print Assumptions C136_queue_conversely.

(** ... so boxes are delivered in the order in which they were stored (C58 on such a processor), *)
Theorem C136_queue_is_fifo : forall n sz m0 k tr w,
  ShmQSys_Spec.sane n sz -> ShmQSys_Spec.created n sz m0 ->
  vexec (ShmQ_Model.seg_size n sz) n k m0 tr w -> (forall e, In e tr -> ShmQSys_Spec.fine e = true) ->
  exists rest, ShmQ_Spec.stored (ShmQSys_Spec.dones tr) = ShmQ_Spec.delivered (ShmQSys_Spec.dones tr) ++ rest
    /\ Z.of_nat (length rest) <= sz - 1.
Proof.
  intros n sz m0 k tr w S C H F. destruct (C136_queue _ _ _ _ _ _ H) as (s & E & _).
  { intros e He. specialize (F e He). unfold ShmQSys_Spec.fine in F. apply andb_true_iff in F. destruct F as [F _].
    apply negb_true_iff in F. auto. }
  eapply ShmQ_Props.C58_boxes_arrive_in_order; eauto.
Qed.
Print Assumptions C136_queue_is_fifo.
(** ... and the count never promises a box that is not there (C59). *)
Theorem C136_queue_count : forall n sz m0 k tr w q,
  ShmQSys_Spec.sane n sz -> ShmQSys_Spec.created n sz m0 ->
  vexec (ShmQ_Model.seg_size n sz) n k m0 tr w -> (forall e, In e tr -> ShmQSys_Spec.fine e = true) ->
  ShmQ_Spec.qruns sz ShmQSys_Spec.qempty (ShmQSys_Spec.dones tr) q ->
  0 <= ShmQ_Model.cnt (v_sys w) /\
  ShmQ_Model.cnt (v_sys w) + Z.of_nat (ShmQSys_Spec.count ShmQSys_Spec.claims (ShmQ_Model.procs (v_sys w)))
  <= Z.of_nat (length (ShmQ_Spec.q_boxes q))
     + Z.of_nat (ShmQSys_Spec.count ShmQSys_Spec.posted (ShmQ_Model.procs (v_sys w))).
Proof.
  intros n sz m0 k tr w q S C H F Q. destruct (C136_queue _ _ _ _ _ _ H) as (s & E & _ & E2 & E3 & _).
  { intros e He. specialize (F e He). unfold ShmQSys_Spec.fine in F. apply andb_true_iff in F. destruct F as [F _].
    apply negb_true_iff in F. auto. }
  rewrite <- E2, <- E3. eapply ShmQ_Props.C59_count_never_overpromises; eauto.
Qed.
Print Assumptions C136_queue_count.

(** *** no data races

    The processors above delay stores only.  C and C++ promise the order of the program to programs
    in which no two threads are about to access the same data, one of them to change it. *)

(** A process that is about to store is the only one about to access the segment. *)
Theorem C136_map_no_races : forall R lim n m0 tr s i g b0 sz a w k u, exec R lim n m0 tr s ->
  (forall i b, In (ECall i Rd b) tr -> readonly R b) ->
  nth_error (s_procs R s) i = Some (mkProc (Inside g b0 (Store sz a w k)) u) ->
  forall j g' b0' b' u', nth_error (s_procs R s) j = Some (mkProc (Inside g' b0' b') u') -> j = i.
Proof.
  intros R lim n m0 tr s i g b0 sz a w k u E RO Hi j g' b0' b' u' Hj.
  destruct g.
  - exfalso. destruct (ShmSys_Proof.minv_exec R lim n m0 tr s E RO) as (m1 & _ & M).
    apply (proj1 (ShmSys_Proof.mi_rd _ _ _ _ M _ _ _ _ Hi)).
  - symmetry. eapply (C54_writer_is_alone R lim n m0 tr s E); unfold inside; eauto.
Qed.
Print Assumptions C136_map_no_races.

(** Whoever is in a section of the shared queue is alone (C62), so nobody else accesses the segment. *)
Theorem C136_queue_no_races : forall lim n k m0 tr s i o b0 b u, ShmQ_Model.exec lim n k m0 tr s ->
  (forall e, In e tr -> ShmQSys_Spec.is_intr e = false) ->
  nth_error (ShmQ_Model.procs s) i = Some (ShmQ_Model.Body o b0 b, u) ->
  forall j o' b0' b' u', nth_error (ShmQ_Model.procs s) j = Some (ShmQ_Model.Body o' b0' b', u') -> j = i.
Proof.
  intros lim n k m0 tr s i o b0 b u E F Hi j o' b0' b' u' Hj.
  eapply (ShmQ_Props.C62_lock_excludes_partial _ _ _ _ _ _ E F); eauto.
Qed.
Print Assumptions C136_queue_no_races.

(** [touches] misses nothing: all other steps neither depend on the elements nor change them. *)
Lemma touches_all : forall A (d : list A) p d' p' e, touches p = false ->
  Synque_Model.inside A d p = Some (d', p', e) -> d' = d /\ forall d2, Synque_Model.inside A d2 p = Some (d2, p', e).
Proof.
  intros A d p d' p' e T H. destruct p; try discriminate T; try discriminate H.
  cbn [Synque_Model.inside] in *. destruct (_ <? _)%nat; injection H as <- <- <-; auto.
Qed.
(** A thread that is about to read or change the elements of a synque has the mutex, and is the only one. *)
Theorem C136_synque_no_races : forall A n tr s i p, Synque_Model.exec A n tr s ->
  nth_error (Synque_Model.pcs A s) i = Some p -> touches p = true ->
  Synque_Model.owner A s = Some i /\
  forall j q, nth_error (Synque_Model.pcs A s) j = Some q -> touches q = true -> j = i.
Proof.
  intros A n tr s i p E Hi T. pose proof (Synque_Proof.inv_ok A n tr s E) as I.
  assert (O : forall j q, nth_error (Synque_Model.pcs A s) j = Some q -> touches q = true -> Synque_Model.owner A s = Some j).
  { intros j q Hj Tq. apply (Synque_Proof.i_crit _ _ _ I j q Hj). destruct q; try discriminate Tq; reflexivity. }
  split; [eauto|]. intros j q Hj Tq. pose proof (O i p Hi T). pose proof (O j q Hj Tq). congruence.
Qed.
Print Assumptions C136_synque_no_races.

(** *** A concrete execution: two stores leave in the other order, and a reader that comes after sees both. *)
Definition wr2 : prog Z := Store 4 0 1 (Store 4 4 2 (Ret 0)).
Definition rd2 : prog Z := Load 4 4 (fun x => Load 4 0 (fun y => Ret (10 * x + y))).
Ltac drain E i b1 a v b2 :=
  match type of E with wexec ?R ?l ?f ?n ?m ?tr ?w =>
    let w' := fresh "w'" in evar (w' : wsys R);
    let N := fresh "N" in assert (N : wstep R l f w None w')
      by (subst w'; eapply (WDrain R l f _ _ _ _ i b1 a v b2); [reflexivity|cbn; intuition discriminate]);
    let E' := fresh "E'" in pose proof (we_drain R l f n m tr w w' E N) as E'; subst w'; clear N E; rename E' into E;
    cbn [upd app] in E
  end.
Example C136_ex : exists w, wexec Z 8 true 2 (fun _ => 0)
  [ECall 0 Wr wr2; ELock 0; EMem 0; EMem 0; EDone 0 Wr wr2 0;
   ECall 1 Rd rd2; ELock 1; EMem 1; EMem 1; EDone 1 Rd rd2 21] w.
Proof.
  pose proof (we_nil Z 8 true 2 (fun _ => 0)) as E. unfold init in E. cbn [repeat] in E.
  fwd E (ECall (R := Z) 0 Wr wr2) ltac:(quiet ltac:(eapply SCall; reflexivity)).
  fwd E (ELock (R := Z) 0) ltac:(quiet ltac:(eapply SLock; reflexivity)).
  fwd E (EMem (R := Z) 0) ltac:(eapply WStore; reflexivity).
  fwd E (EMem (R := Z) 0) ltac:(eapply WStore; reflexivity).
  drain E 0%nat [(0, 1)] 4 2 (@nil (Z * Z)).
  drain E 0%nat (@nil (Z * Z)) 0 1 (@nil (Z * Z)).
  fwd E (EDone 0 Wr wr2 0) ltac:(quiet ltac:(eapply SDone; reflexivity)).
  fwd E (ECall (R := Z) 1 Rd rd2) ltac:(quiet ltac:(eapply SCall; reflexivity)).
  fwd E (ELock (R := Z) 1) ltac:(quiet ltac:(eapply SLock; reflexivity)).
  fwd E (EMem (R := Z) 1) ltac:(eapply WLoad; reflexivity).
  fwd E (EMem (R := Z) 1) ltac:(eapply WLoad; reflexivity).
  fwd E (EDone 1 Rd rd2 21) ltac:(quiet ltac:(eapply SDone; reflexivity)).
  eexists. exact E.
Qed.

(** a thread that is about to push its element, and one about to test: the second has to wait *)
Example C136_synque_ex : exists tr s, Synque_Model.exec Z 2 tr s /\
  nth_error (Synque_Model.pcs Z s) 0 = Some (Synque_Model.AddPush Z 7) /\
  nth_error (Synque_Model.pcs Z s) 1 = Some (Synque_Model.GetLock Z Synque_Model.Single true).
Proof.
  pose proof (Synque_Model.ex_nil Z 2) as E. unfold Synque_Model.init in E. cbn [repeat] in E.
  eapply Synque_Model.ex_snoc in E; [|apply (Synque_Model.s_call Z _ 0 (Synque_Spec.OAdd 7)); reflexivity].
  eapply Synque_Model.ex_snoc in E; [|apply (Synque_Model.s_call Z _ 1 (Synque_Spec.OGet true)); reflexivity].
  eapply Synque_Model.ex_snoc in E; [|apply (Synque_Model.s_lock Z _ 0 (Synque_Model.AddLock Z 7) (Synque_Model.AddPush Z 7)); reflexivity].
  do 2 eexists. split; [exact E|]. split; reflexivity.
Qed.
