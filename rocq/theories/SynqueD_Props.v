(** C133: the destruction of a thread-safe queue. *)

From Coq Require Import ZArith List Bool Lia Arith.
From Verif Require Import Base Synque_Spec Synque_Model Synque_Proof Synque_Props SynqueD_Model SynqueD_Spec.
Import ListNotations.

Section Proofs.
Variable A : Type.
Notation pc := (pc A).
Notation state := (state A).

(** adds that have not taken effect; elements of a get that has not returned *)
Definition going (p : pc) : nat := match p with AddLock _ _ | AddPush _ _ => 1 | _ => 0 end.
Definition coming (p : pc) : nat := match p with GetUnlock _ _ => 1 | BatUnlock _ out => length out | _ => 0 end.
Definition after_push (p : pc) : Prop := match p with AddSignal _ _ | AddUnlock _ => True | _ => False end.

Lemma wake_total : forall f (l l' : list pc), (forall g w, f (GetWoken A g w) = f (GetSleep A g w)) ->
  Forall2 (wakes A) l l' -> total A f l' = total A f l.
Proof.
  intros f l l' F H. induction H as [|p p' l l' W _ IH]; [reflexivity|]. cbn [total]. rewrite IH.
  destruct W as [-> | (g & w & -> & ->)]; [reflexivity | rewrite F; reflexivity].
Qed.
Lemma wake_back : forall (l l' : list pc) t p', Forall2 (wakes A) l l' -> nth_error l' t = Some p' ->
  exists p, nth_error l t = Some p /\ wakes A p p'.
Proof.
  intros l l' t p' H. revert t. induction H as [|a b l l' W _ IH]; intros [|t] E; try discriminate.
  - injection E as <-. exists a. auto.
  - exact (IH t E).
Qed.

Record dinv (tr : list (event A)) (s : state) : Prop := mkD {
  d_sent : length (sent tr) = length (added (effects tr)) + total A going (pcs A s);
  d_recv : length (taken (effects tr)) = length (received tr) + total A coming (pcs A s);
  d_push : forall t p, nth_error (pcs A s) t = Some p -> after_push p -> dq A s <> [] }.

Lemma sent_app : forall a b : list (event A), sent (a ++ b) = sent a ++ sent b.
Proof. intros. unfold sent. apply flat_map_app. Qed.
Lemma received_app : forall a b : list (event A), received (a ++ b) = received a ++ received b.
Proof. intros. unfold received. apply flat_map_app. Qed.
Lemma added_app : forall a b : list (op A * ret A), added (a ++ b) = added a ++ added b.
Proof. intros. unfold added. apply flat_map_app. Qed.
Lemma taken_app : forall a b : list (op A * ret A), taken (a ++ b) = taken a ++ taken b.
Proof. intros. unfold taken. apply flat_map_app. Qed.

Definition ev_eff (e : event A) := effects [e].
Lemma dinv_local : forall tr s e t p p' d' own, dinv tr s -> nth_error (pcs A s) t = Some p ->
  length (sent [e]) + going p = length (added (effects [e])) + going p' ->
  length (taken (effects [e])) + coming p = length (received [e]) + coming p' ->
  (forall u q, nth_error (pcs A s) u = Some q -> u <> t -> after_push q -> d' <> []) ->
  (after_push p' -> d' <> []) ->
  dinv (tr ++ [e]) (mkState A own d' (upd (pcs A s) t p')).
Proof.
  intros tr s e t p p' d' own [D1 D2 D3] Hp E1 E2 H1 H2. pose proof (total_upd A going _ _ _ p' Hp) as G. pose proof (total_upd A coming _ _ _ p' Hp) as C.
  split; cbn [pcs dq].
  - rewrite sent_app, effects_app, added_app, !app_length. lia.
  - rewrite received_app, effects_app, taken_app, !app_length. lia.
  - intros u q E F. destruct (nth_upd_cases _ _ _ _ _ _ E) as [[-> ->]|[N E']]; [auto|]. exact (H1 u q E' N F).
Qed.

Theorem dinv_ok : forall n tr s, exec A n tr s -> dinv tr s.
Proof.
  intros n tr s H. induction H as [|tr s e s' H IH Hs].
  { split; cbn [init pcs dq].
    - cbn. induction n; cbn; auto.
    - cbn. induction n; cbn; auto.
    - intros t p E F. apply nth_error_In in E. apply repeat_spec in E. subst p. destruct F. }
  pose proof (inv_ok A n tr s H) as IV. pose proof (d_push _ _ IH) as DP.
  destruct Hs as [s t o Hp|s t p p' Hp Hl Hown|s t p d' p' e Hp Hi|s t x l Hp Hsg|s t l Hp Hsg|s t g w Hp Hd Hw|s t g w Hp|s t p r Hp Hr].
  - eapply dinv_local; [exact IH | exact Hp | | | intros; eapply DP; eauto |]; destruct o; cbn; auto; try contradiction.
  - eapply dinv_local; [exact IH | exact Hp | | | intros; eapply DP; eauto |]; destruct p; try discriminate; injection Hl as <-; cbn; auto; try contradiction.
  - (* inside: the thread owns the mutex *)
    assert (Cr : crit A p = true) by (destruct p; try discriminate; reflexivity).
    assert (Al : forall u q, nth_error (pcs A s) u = Some q -> u <> t -> after_push q -> d' <> []).
    { intros u q E N F. apply (i_crit _ _ _ IV t p Hp) in Cr.
      assert (Cu : owner A s = Some u) by (apply (i_crit _ _ _ IV u q E); destruct q; try contradiction; reflexivity). congruence. }
    eapply dinv_local; [exact IH | exact Hp | | | exact Al |];
      destruct p; cbn [inside] in Hi; try discriminate;
      repeat match type of Hi with
        | context [match dq A s with _ => _ end] => destruct (dq A s) eqn:?
        | context [if ?b then _ else _] => destruct b eqn:?
        | context [match rev ?d with _ => _ end] => destruct (rev d) eqn:?
      end; try discriminate; injection Hi as <- <- <-; cbn; auto; try discriminate; try contradiction;
      try (destruct g; cbn; auto; try contradiction); rewrite ?app_nil_r; try lia.
  - destruct Hsg as (Hf & _). pose proof (DP t _ Hp I) as Ne.
    assert (Hp' : nth_error l t = Some (AddSignal A x)).
    { apply (rel_nth A _ _ _ _ Hf Hp). reflexivity. }
    assert (IH' : dinv tr (mkState A (owner A s) (dq A s) l)).
    { destruct IH as [D1 D2 D3]. split; cbn [pcs dq].
      - rewrite (wake_total going _ _ ltac:(reflexivity) Hf). exact D1.
      - rewrite (wake_total coming _ _ ltac:(reflexivity) Hf). exact D2.
      - intros u q E F. exact Ne. }
    eapply (dinv_local tr (mkState A (owner A s) (dq A s) l) (Tau t)); [exact IH' | exact Hp' | reflexivity | reflexivity | intros; exact Ne | intros; exact Ne].
  - destruct Hsg as (Hf & _).
    assert (Hp' : nth_error l t = Some (SigSignal A)).
    { apply (rel_nth A _ _ _ _ Hf Hp). reflexivity. }
    assert (B : forall u q, nth_error l u = Some q -> after_push q -> dq A s <> []).
    { intros u q E F. destruct (wake_back _ _ _ _ Hf E) as (q0 & E0 & W). apply (DP u q0 E0). destruct W as [-> | (g & w & -> & ->)]; [exact F | destruct F]. }
    assert (IH' : dinv tr (mkState A (owner A s) (dq A s) l)).
    { destruct IH as [D1 D2 D3]. split; cbn [pcs dq].
      - rewrite (wake_total going _ _ ltac:(reflexivity) Hf). exact D1.
      - rewrite (wake_total coming _ _ ltac:(reflexivity) Hf). exact D2.
      - exact B. }
    eapply (dinv_local tr (mkState A (owner A s) (dq A s) l) (Effect t OSignal RUnit)); [exact IH' | exact Hp' | reflexivity | reflexivity | intros; eapply B; eauto | intros []].
  - eapply dinv_local; [exact IH | exact Hp | reflexivity | reflexivity | intros; eapply DP; eauto | intros []].
  - eapply dinv_local; [exact IH | exact Hp | reflexivity | reflexivity | intros; eapply DP; eauto | intros []].
  - eapply dinv_local; [exact IH | exact Hp | | | intros; eapply DP; eauto |]; destruct p; try discriminate; injection Hr as <-; cbn; auto; try contradiction; rewrite ?app_nil_r; auto.
Qed.
End Proofs.

(** A thread-safe queue may be destroyed as soon as no get, size or signal is in progress and
    as many elements have been received as add was called with: every add that was called is
    out of the queue by then, although it may not have been seen to return, whatever the
    number of threads and the schedule. *)
Theorem C133_destroy_after_last_element : forall A n tr s, exec A n tr s ->
  only_adds_open tr -> length (received tr) = length (sent tr) -> destroy A s = Ok tt.
Proof.
  intros A n tr s H O E. pose proof (inv_ok A n tr s H) as IV. pose proof (dinv_ok A n tr s H) as [D1 D2 D3].
  assert (Ph : forall t p, nth_error (pcs A s) t = Some p -> p = Idle A \/ going A p = 1%nat \/ after_push A p).
  { intros t p Hp. destruct (i_phase _ _ _ IV t p Hp) as (ph & P & Q). specialize (O t ph Q).
    destruct p; cbn in P |- *; auto; exfalso; repeat match goal with H : exists _, _ |- _ => destruct H end; subst; try contradiction; try exact O; match goal with g : mode |- _ => destruct g; exact O end. }
  assert (Co : total A (coming A) (pcs A s) = 0%nat).
  { destruct (total A (coming A) (pcs A s)) eqn:T; [reflexivity|]. destruct (total_pos A (coming A) (pcs A s) ltac:(lia)) as (t & p & Hp & L).
    destruct (Ph t p Hp) as [-> | [F|F]]; [cbn in L; lia | |]; destruct p; cbn in *; try lia; contradiction. }
  pose proof (qrun_fifo _ _ _ _ (i_queue _ _ _ IV)) as Q. cbn [app] in Q. apply (f_equal (@length A)) in Q. rewrite app_length in Q.
  assert (Go : total A (going A) (pcs A s) = 0%nat) by lia.
  assert (Em : absq A s = []) by (destruct (absq A s); [reflexivity | cbn in Q; lia]).
  unfold absq in Em. apply app_eq_nil in Em. destruct Em as (_ & Em). apply (f_equal (@rev A)) in Em. rewrite rev_involutive in Em. cbn in Em.
  assert (Id : forall t p, nth_error (pcs A s) t = Some p -> p = Idle A).
  { intros t p Hp. destruct (Ph t p Hp) as [-> | [F|F]]; [reflexivity | |].
    - pose proof (total_ge A (going A) _ _ _ Hp). lia.
    - exfalso. exact (D3 t p Hp F Em). }
  unfold destroy.
  assert (W : existsb (waits A) (pcs A s) = false).
  { apply not_true_is_false. intros W. apply existsb_exists in W. destruct W as (p & Hi & W). apply In_nth_error in Hi. destruct Hi as (t & Hp).
    rewrite (Id t p Hp) in W. discriminate. }
  rewrite W. destruct (owner A s) as [t|] eqn:Ow.
  - exfalso. pose proof (i_owner _ _ _ IV t Ow) as L. destruct (nth_error (pcs A s) t) as [p|] eqn:Hp; [|apply nth_error_None in Hp; lia].
    pose proof (proj2 (i_crit _ _ _ IV t p Hp) Ow) as C. rewrite (Id t p Hp) in C. discriminate.
  - assert (F : forallb (outside A) (pcs A s) = true).
    { apply forallb_forall. intros p Hi. apply In_nth_error in Hi. destruct Hi as (t & Hp). rewrite (Id t p Hp). reflexivity. }
    rewrite F. reflexivity.
Qed.
Print Assumptions C133_destroy_after_last_element.

(** the thread 0 receives the two elements of the threads 1 and 2, the second one while it
    waits; the last add is out of the queue when it returns *)
Definition sched : list (act Z) :=
  [DoCall 1 (OAdd 7%Z); DoCall 0 (OGet true); Do 1; Do 1; Do 1; Do 1; Do 0; Do 0; Do 0; Do 0; Do 0;
   DoCall 0 (OGet true); Do 0; Do 0; DoCall 2 (OAdd 8%Z); Do 2; Do 2; Do 2; Do 2; Do 0; Do 0; Do 0; Do 0; Do 0]%nat.
(** the phase of a thread, computed *)
Definition next_phase {A} (t : nat) (ph : phase A) (e : event A) : phase A :=
  match e with
  | Call u o => if (u =? t)%nat then PCalled o else ph
  | Effect u o r => if (u =? t)%nat then PDone o r else ph
  | Return u _ => if (u =? t)%nat then PIdle else ph
  | _ => ph
  end.
Lemma phase_is : forall A t (tr : list (event A)) ph, protocol t tr ph -> ph = fold_left (next_phase t) tr PIdle.
Proof.
  intros A t tr ph H. induction H as [|tr o H IH|tr o r H IH|tr o r H IH|tr e p H IH N]; [reflexivity| | | |];
    rewrite fold_left_app; cbn [fold_left next_phase]; try (rewrite Nat.eqb_refl; reflexivity).
  rewrite <- IH. destruct e as [u o|u o r|u r|u|u]; cbn [next_phase]; try reflexivity; (destruct (Nat.eqb_spec u t); [congruence | reflexivity]).
Qed.
Example C133_example : exists tr s, exec Z 3 tr s /\ only_adds_open tr /\ received tr = [7; 8]%Z /\ sent tr = [7; 8]%Z /\ destroy Z s = Ok tt.
Proof.
  destruct (fires [] (init Z 3) sched) as [[tr s]|] eqn:E; [|vm_compute in E; discriminate].
  exists tr, s. pose proof (fires_exec Z 3 _ _ _ _ _ (ex_nil Z 3) E) as X. split; [exact X|].
  vm_compute in E. injection E as <- <-. split.
  - intros t ph P. apply phase_is in P. destruct t as [|[|[|t]]]; cbn in P; subst ph; exact I.
  - repeat split.
Qed.

(** Not so while a get still waits: the thread 0 has received everything, the thread 2 is
    asleep in get. *)
Definition sched2 : list (act Z) :=
  [DoCall 2 (OGet true); Do 2; Do 2; DoCall 1 (OAdd 7%Z); Do 1; Do 1; Do 1; Do 1; DoCall 0 (OGet false); Do 0; Do 0; Do 0; Do 0; Do 0;
   Do 2; Do 2; Do 2; DoCall 2 (OGet true); Do 2; Do 2]%nat.
Theorem C133_waiting_get_refuted : exists tr s, exec Z 3 tr s /\ received tr = sent tr /\
  (forall t ph, t <> 2%nat -> protocol t tr ph -> ph = PIdle) /\ destroy Z s = Ub BadLib.
Proof.
  destruct (fires [] (init Z 3) sched2) as [[tr s]|] eqn:E; [|vm_compute in E; discriminate].
  exists tr, s. pose proof (fires_exec Z 3 _ _ _ _ _ (ex_nil Z 3) E) as X. split; [exact X|].
  vm_compute in E. injection E as <- <-. split; [reflexivity|]. split; [|reflexivity].
  intros t ph N P. apply phase_is in P. destruct t as [|[|[|t]]]; cbn in P; subst ph; congruence || reflexivity.
Qed.
Print Assumptions C133_waiting_get_refuted.

(** Nor when the queue was only seen empty: an add is in progress. *)
Theorem C133_empty_is_not_enough_refuted : exists tr s, exec Z 2 tr s /\ only_adds_open tr /\
  In (Return 0%nat (RSize 0)) tr /\ dq Z s = [] /\ destroy Z s = Ub UseAfterFree.
Proof.
  destruct (fires [] (init Z 2) [DoCall 0 OSize; DoCall 1 (OAdd 7%Z); Do 0; Do 0; Do 0]%nat) as [[tr s]|] eqn:E; [|vm_compute in E; discriminate].
  exists tr, s. pose proof (fires_exec Z 2 _ _ _ _ _ (ex_nil Z 2) E) as X. split; [exact X|].
  vm_compute in E. injection E as <- <-. split; [|split; [cbn; tauto | split; reflexivity]].
  intros t ph P. apply phase_is in P. destruct t as [|[|t]]; cbn in P; subst ph; exact I.
Qed.
Print Assumptions C133_empty_is_not_enough_refuted.

(** In every execution: the queue may be destroyed exactly when no thread is in a call. *)
Theorem C133_exact : forall A n tr s, exec A n tr s ->
  (destroy A s = Ok tt <-> forall t ph, (t < n)%nat -> protocol t tr ph -> ph = PIdle).
Proof.
  intros A n tr s H. pose proof (inv_ok A n tr s H) as IV. pose proof (exec_len A n tr s H) as L. split.
  - intros D t ph T P. unfold destroy in D. destruct (existsb (waits A) (pcs A s)); [discriminate|].
    destruct (owner A s); [discriminate|]. destruct (forallb (outside A) (pcs A s)) eqn:F; [|discriminate].
    destruct (nth_error (pcs A s) t) as [p|] eqn:Hp; [|apply nth_error_None in Hp; lia].
    rewrite forallb_forall in F. specialize (F p (nth_error_In _ _ Hp)).
    destruct (i_phase _ _ _ IV t p Hp) as (ph' & Q & R). destruct p; try discriminate. cbn in Q. subst ph'.
    rewrite (phase_is _ _ _ _ P), <- (phase_is _ _ _ _ R). reflexivity.
  - intros N.
    assert (Id : forall t p, nth_error (pcs A s) t = Some p -> p = Idle A).
    { intros t p Hp. destruct (i_phase _ _ _ IV t p Hp) as (ph & P & Q).
      assert (T : (t < n)%nat) by (rewrite <- L; apply nth_error_Some; congruence).
      specialize (N t ph T Q). subst ph. destruct p; cbn in P; try discriminate; try contradiction; try reflexivity;
        repeat match goal with X : exists _, _ |- _ => destruct X end; try discriminate. }
    unfold destroy.
    assert (W : existsb (waits A) (pcs A s) = false).
    { apply not_true_is_false. intros W. apply existsb_exists in W. destruct W as (p & Hi & W). apply In_nth_error in Hi. destruct Hi as (t & Hp).
      rewrite (Id t p Hp) in W. discriminate. }
    rewrite W. destruct (owner A s) as [t|] eqn:Ow.
    + exfalso. pose proof (i_owner _ _ _ IV t Ow) as B. destruct (nth_error (pcs A s) t) as [p|] eqn:Hp; [|apply nth_error_None in Hp; lia].
      pose proof (proj2 (i_crit _ _ _ IV t p Hp) Ow) as C. rewrite (Id t p Hp) in C. discriminate.
    + assert (F : forallb (outside A) (pcs A s) = true).
      { apply forallb_forall. intros p Hi. apply In_nth_error in Hi. destruct Hi as (t & Hp). rewrite (Id t p Hp). reflexivity. }
      rewrite F. reflexivity.
Qed.
Print Assumptions C133_exact.
