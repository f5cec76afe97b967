(** C56: exactly when the creation of the semaphore set breaks the exclusion of connecting processes. *)
From Coq Require Import ZArith List Bool Lia.
From Verif Require Import Base Shm_Spec Shm_Model ShmSys_Model ShmSys_Spec ShmSys_Proof ShmCon_Spec.
Import ListNotations.
Local Open Scope Z_scope.

(** nobody can be past semget while the set does not exist *)
Definition kfresh (p : cpc) : Prop := p = KGet \/ p = KCreate \/ p = KDead.
Record CInv (s : csys) : Prop := mkCInv
  { ci_e : c_exists s = false -> forall i p u, nth_error (c_procs s) i = Some (p, u) -> kfresh p;
    ci_R : vR (c_sems s) = 0;
    ci_W : vW (c_sems s) = sumz kW (c_procs s);
    ci_x : vW (c_sems s) <= 1;
    ci_u : forall i p u, nth_error (c_procs s) i = Some (p, u) -> u = mkSems 0 (- kW (p, u)) }.

Lemma cinv_init : forall e n, CInv (cinit e n).
Proof.
  intros e n. constructor; cbn [cinit c_exists c_sems c_procs vR vW]; auto; try lia.
  - intros _ i p u Hp. apply nth_error_In, repeat_spec in Hp. injection Hp as -> ->. left. auto.
  - symmetry. apply sumz_zero. intros x Hx. apply repeat_spec in Hx. now subst.
  - intros i p u Hp. apply nth_error_In, repeat_spec in Hp. injection Hp as -> ->. auto.
Qed.

Lemma cinv_upd : forall e v ps i p u q v' e', CInv (mkC e v ps) -> nth_error ps i = Some (p, u) ->
  vR v' = 0 -> vW v' = vW v - kW (p, u) + kW q -> vW v' <= 1 ->
  snd q = mkSems 0 (- kW q) -> (e' = false -> e = false /\ kfresh (fst q)) ->
  CInv (mkC e' v' (upd ps i q)).
Proof.
  intros e v ps i p u q v' e' [I1 I2 I3 I4 I5] E HR HW HX HU HO.
  cbn [c_exists c_sems c_procs] in *. constructor; cbn [c_exists c_sems c_procs]; auto.
  - intros He j p1 u1 Hj. destruct (HO He) as (He0 & Hq). rewrite nth_upd_cases in Hj by (apply nth_error_Some; congruence).
    destruct (Nat.eqb_spec i j).
    + injection Hj as ->. auto.
    + apply (I1 He0 j p1 u1). auto.
  - rewrite (sumz_upd _ kW _ _ _ _ E). lia.
  - intros j p1 u1 Hj. rewrite nth_upd_cases in Hj by (apply nth_error_Some; congruence).
    destruct (Nat.eqb_spec i j).
    + injection Hj as ->. cbn [fst snd] in *. auto.
    + apply (I5 j). auto.
Qed.

Lemma clear_same : forall (l : list (cpc * sems)) s, (forall i p u, nth_error l i = Some (p, u) -> sem_get u s = 0) ->
  clear_undo s l = l.
Proof.
  intros l s H. unfold clear_undo. rewrite <- (map_id l) at 2. apply map_ext_in. intros [p u] Hin.
  apply In_nth_error in Hin. destruct Hin as (i & Hi). specialize (H i p u Hi). cbn [fst snd].
  destruct u as [r w], s; cbn in *; congruence.
Qed.

Lemma sumz_none : forall (l : list (cpc * sems)), (forall i p u, nth_error l i = Some (p, u) -> kW (p, u) = 0) -> sumz kW l = 0.
Proof. intros l H. apply sumz_zero. intros [p u] Hx. apply In_nth_error in Hx. destruct Hx as (i & Hi). eauto. Qed.

Lemma cinv_step : forall s s', CInv s -> cstep false s s' ->
  (resetsW s s' -> forall i, ~ choldsW s i) -> CInv s'.
Proof.
  intros s s' HI HS HC. pose proof HI as [I1 I2 I3 I4 I5].
  inversion HS; subst; cbn [c_exists c_sems c_procs] in *; try discriminate;
    pose proof (I5 _ _ _ H) as HU;
    pose proof (sumz_in _ kW _ _ _ kW_nn H) as Hs;
    pose proof (sumz_nonneg _ kW ps kW_nn) as Hn;
    try (assert (EX : e = true) by (destruct e; auto; destruct (I1 eq_refl _ _ _ H) as [?|[?|?]]; discriminate); subst e);
    try (apply try_lock_write in H0; destruct H0 as (A & B & ->));
    try (apply try_unlock_write in H0; subst v');
    try (unfold kW at 1 in Hs; unfold kW in HU; cbn [fst] in Hs, HU;
      apply (cinv_upd _ _ _ _ _ _ _ _ _ HI H); unfold kW; cbn [fst snd vR vW sem_set] in *; auto; try lia;
      try discriminate; try (subst u; reflexivity);
      try (intros _; split; auto; unfold kfresh; auto; fail); fail).
  - (* semget creates the set *)
    unfold kW at 1 in Hs; unfold kW in HU; cbn [fst] in Hs, HU.
    assert (W0 : e = false -> vW v = 0).
    { intros He. rewrite I3. apply sumz_none. intros i0 p u0 H0. destruct (I1 He _ _ _ H0) as [->|[->| ->]]; reflexivity. }
    apply (cinv_upd _ _ _ _ _ _ _ _ _ HI H); unfold kW; cbn [fst snd]; auto; try discriminate;
      destruct e; cbn [vR vW]; try lia; rewrite W0; auto; lia.
  - (* SETVAL of R *)
    rewrite clear_same.
    + unfold kW at 1 in Hs; unfold kW in HU; cbn [fst] in Hs, HU.
      apply (cinv_upd _ _ _ _ _ _ _ _ _ HI H); unfold kW; cbn [fst snd vR vW sem_set] in *; auto; try lia; discriminate.
    + intros j p1 u1 Hj. rewrite nth_upd_cases in Hj by (apply nth_error_Some; congruence).
      destruct (Nat.eqb_spec i j).
      * injection Hj as <- <-. rewrite HU. reflexivity.
      * rewrite (I5 _ _ _ Hj). reflexivity.
  - (* SETVAL of W: nobody has it *)
    assert (N : forall j p1 u1, nth_error ps j = Some (p1, u1) -> kW (p1, u1) = 0).
    { assert (Rs : resetsW (mkC true v ps) (mkC true (sem_set v SW 0) (clear_undo SW (upd ps i (KShmLock, u))))).
      { exists i, u, (sem_set u SW 0). split; auto. cbn [c_procs]. unfold clear_undo.
        rewrite nth_error_map, nth_upd_cases by (apply nth_error_Some; congruence). rewrite Nat.eqb_refl. reflexivity. }
      intros j p1 u1 Hj. specialize (HC Rs j).
      destruct p1; try reflexivity; exfalso; apply HC; do 2 eexists; (split; [exact Hj|auto]). }
    assert (W0 : vW v = 0) by (rewrite I3; apply sumz_none; auto).
    rewrite clear_same.
    + unfold kW at 1 in Hs; unfold kW in HU; cbn [fst] in Hs, HU.
      apply (cinv_upd _ _ _ _ _ _ _ _ _ HI H); unfold kW; cbn [fst snd vR vW sem_set] in *; auto; try lia; discriminate.
    + intros j p1 u1 Hj. rewrite nth_upd_cases in Hj by (apply nth_error_Some; congruence).
      destruct (Nat.eqb_spec i j).
      * injection Hj as <- <-. rewrite HU. reflexivity.
      * rewrite (I5 _ _ _ Hj), (N _ _ _ Hj). reflexivity.
  - (* death *)
    rewrite HU. pose proof (kW_nn (p, u)).
    apply (cinv_upd _ _ _ _ _ _ _ _ _ HI H); cbn [undo_apply fst snd vR vW] in *.
    + lia.
    + unfold kW at 3. cbn [fst]. lia.
    + lia.
    + reflexivity.
    + intros ->. split; auto. right; right; auto.
Qed.

Lemma cinv_calm : forall s s', CInv s -> calm s s' -> CInv s'.
Proof. intros s s' HI H. induction H as [|s s1 s2 H IH St Rs]; auto. exact (cinv_step s1 s2 (IH HI) St Rs). Qed.

(** Also when the set is created by one or several of the processes: they exclude each other, with deaths at
    any point, as long as the write semaphore is not reset while somebody has it.  Missing for the full
    statement: that this cannot happen, which is false (C56_first_connect_refuted). *)
Theorem C56_creation_partial : forall e n s, calm (cinit e n) s -> cexclusive s.
Proof.
  intros e n s H. pose proof (cinv_calm _ _ (cinv_init e n) H) as [I1 I2 I3 I4 I5].
  intros i j (p & u & Hi & Pi) (q & u' & Hj & Pj).
  destruct (Nat.eq_dec i j) as [|Hne]; auto. exfalso.
  pose proof (sumz_two _ kW _ _ _ _ _ kW_nn Hne Hi Hj) as B.
  unfold kW at 1 2 in B. cbn [fst] in B.
  destruct Pi as [-> | ->], Pj as [-> | ->]; lia.
Qed.
Print Assumptions C56_creation_partial.

(** ... and wherever it is reset while somebody is in his section, the exclusion can be lost: the process that
    resets it can enter at once.  So the condition cannot be weakened. *)
Theorem C56_creation_breaks : forall e n s i j u, calm (cinit e n) s -> cinside s i ->
  nth_error (c_procs s) j = Some (KSetW, u) ->
  exists s', csteps s [false; false] s' /\ cinside s' i /\ cinside s' j /\ i <> j.
Proof.
  intros e n s i j u H (p & w & Hi & Pi) Hj. pose proof (cinv_calm _ _ (cinv_init e n) H) as [I1 I2 I3 I4 I5].
  destruct s as [e1 v ps]. cbn [c_procs c_sems] in *.
  assert (Hne : i <> j) by (intros ->; rewrite Hj in Hi; injection Hi as <- _; destruct Pi; discriminate).
  assert (L : nth_error (clear_undo SW (upd ps j (KShmLock, u))) j = Some (KShmLock, sem_set u SW 0)).
  { unfold clear_undo. rewrite nth_error_map, nth_upd_cases by (apply nth_error_Some; congruence). rewrite Nat.eqb_refl. reflexivity. }
  assert (Li : nth_error (clear_undo SW (upd ps j (KShmLock, u))) i = Some (p, sem_set w SW 0)).
  { unfold clear_undo. rewrite nth_error_map, nth_upd_cases by (apply nth_error_Some; congruence).
    destruct (Nat.eqb_spec j i); [congruence|]. rewrite Hi. reflexivity. }
  eexists. split.
  - eapply (CSnoc _ [false]); [eapply (CSnoc _ []); [apply CNil|apply CSetW; exact Hj]|].
    eapply CShmLock; [exact L|]. unfold lock_write, sem_try, sem_try1. cbn [sem_get sem_set vR vW]. rewrite I2. reflexivity.
  - split; [|split; auto].
    + exists p, (sem_set w SW 0). split; auto. cbn [c_procs]. rewrite nth_upd_cases by (apply nth_error_Some; congruence).
      destruct (Nat.eqb_spec j i); [congruence|]. auto.
    + exists KShmIn. eexists. cbn [c_procs]. rewrite nth_upd_cases by (apply nth_error_Some; congruence).
      rewrite Nat.eqb_refl. auto.
Qed.
Print Assumptions C56_creation_breaks.

(** A first connect of two processes: the one creates the set, sets it up and enters, while the other waits;
    and the state in which the other has entered between creation and reset. *)
Example C56_creation_ex :
  (exists s, calm (cinit false 2) s /\ cinside s 0 /\ nth_error (c_procs s) 1 = Some (KShmLock, mkSems 0 0)) /\
  (exists s, calm (cinit false 2) s /\ cinside s 1 /\ nth_error (c_procs s) 0 = Some (KSetW, mkSems 0 0)).
Proof.
  assert (NR : forall s s', (forall i u, nth_error (c_procs s) i <> Some (KSetW, u)) -> resetsW s s' -> forall i, ~ choldsW s i).
  { intros s s' H (i & u & u' & H1 & _). exfalso. eapply H; eauto. }
  assert (N2 : forall s s', (forall i p u, nth_error (c_procs s) i = Some (p, u) -> p = KSetW \/ p = KShmLock) -> resetsW s s' -> forall i, ~ choldsW s i).
  { intros s s' H _ i (p & u & Hi & P). destruct (H _ _ _ Hi) as [-> | ->], P as [?|[?|?]]; discriminate. }
  split.
  - eexists. split.
    + eapply calm_snoc; [eapply calm_snoc; [eapply calm_snoc; [eapply calm_snoc; [eapply calm_snoc; [eapply calm_snoc; [apply calm_nil|..]|..]|..]|..]|..]|..].
      * apply (CGetNone _ _ 0 (mkSems 0 0)). reflexivity.
      * apply NR. intros [|[|[|i]]] u; cbn; congruence.
      * apply (CCreate _ _ _ 0 (mkSems 0 0)). reflexivity.
      * apply NR. intros [|[|[|i]]] u; cbn; congruence.
      * apply (CGetOld _ _ 1 (mkSems 0 0)). reflexivity.
      * apply NR. intros [|[|[|i]]] u; cbn; congruence.
      * apply (CSetR _ _ _ 0 (mkSems 0 0)). reflexivity.
      * apply NR. intros [|[|[|i]]] u; cbn; congruence.
      * apply (CSetW _ _ _ 0 (mkSems 0 0)). reflexivity.
      * apply N2. intros [|[|[|i]]] p u; cbn; intros E; try discriminate; injection E as <- <-; auto.
      * apply (CShmLock _ _ _ 0 (mkSems 0 0) (mkSems 0 1)); reflexivity.
      * apply NR. intros [|[|[|i]]] u; cbn; congruence.
    + split; [exists KShmIn, (mkSems 0 (-1)); auto|reflexivity].
  - eexists. split.
    + eapply calm_snoc; [eapply calm_snoc; [eapply calm_snoc; [eapply calm_snoc; [eapply calm_snoc; [apply calm_nil|..]|..]|..]|..]|..].
      * apply (CGetNone _ _ 0 (mkSems 0 0)). reflexivity.
      * apply NR. intros [|[|[|i]]] u; cbn; congruence.
      * apply (CCreate _ _ _ 0 (mkSems 0 0)). reflexivity.
      * apply NR. intros [|[|[|i]]] u; cbn; congruence.
      * apply (CGetOld _ _ 1 (mkSems 0 0)). reflexivity.
      * apply NR. intros [|[|[|i]]] u; cbn; congruence.
      * apply (CShmLock _ _ _ 1 (mkSems 0 0) (mkSems 0 1)); reflexivity.
      * apply NR. intros [|[|[|i]]] u; cbn; congruence.
      * apply (CSetR _ _ _ 0 (mkSems 0 0)). reflexivity.
      * apply NR. intros [|[|[|i]]] u; cbn; congruence.
    + split; [exists KShmIn, (mkSems 0 (-1)); auto|reflexivity].
Qed.
