(** Theorems about threads that are cancelled while they use the thread-safe queue (property C143). *)

From Coq Require Import ZArith List Bool Lia Arith.
From Verif Require Import Base Synque_Spec Synque_Model Synque_Proof Synque_Props SynqueK_Model.
Import ListNotations.

(** ** As long as no thread has ended, all that is proved in C47-C49 holds *)
Lemma until : forall A n tr s, kexec A n tr s -> forall es, tr = map Ran es -> exec A n es (k_st A s) /\ k_ended A s = [].
Proof.
  intros A n tr s H. induction H as [|tr s e s' H IH Hs]; intros es E.
  - destruct es; [|discriminate]. split; [constructor|reflexivity].
  - destruct es as [|a es _] using rev_ind; [destruct tr; discriminate|]. rewrite map_app in E. cbn in E.
    apply app_inj_tail in E. destruct E as [E ->]. destruct (IH _ E) as [X Z]. inversion Hs; subst. cbn in *. split; [|assumption].
    econstructor; eauto.
Qed.
Theorem C143_until_a_cancellation : forall A n es s, kexec A n (map Ran es) s -> exec A n es (k_st A s).
Proof. intros A n es s H. now destruct (until A n _ s H es eq_refl). Qed.
Print Assumptions C143_until_a_cancellation.

(** the first thread that ends, or none *)
Lemma first_end : forall A (tr : list (kevent A)),
  (exists es, tr = map Ran es) \/ exists es t rest, tr = map Ran es ++ Cancelled t :: rest.
Proof.
  intros A tr. induction tr as [|a tr IH]; [left; exists []; reflexivity|].
  destruct a as [e|t]; [|right; exists [], t, tr; reflexivity].
  destruct IH as [[es ->]|(es & t & rest & ->)]; [left; exists (e :: es); reflexivity|].
  right. exists (e :: es), t, rest. reflexivity.
Qed.

(** what holds from then on: the thread keeps the mutex and nobody is inside *)
Definition shut {A} (t : nat) (d : list A) (k : kstate A) : Prop :=
  let s := k_st A k in owner A s = Some t /\ dq A s = d /\ forall u p, nth_error (pcs A s) u = Some p -> crit A p = false.

Lemma end_shut : forall A n es t k, kexec A n (map Ran es ++ [Cancelled t]) k ->
  exists s0, exec A n es s0 /\ shut t (dq A s0) k /\ absq A s0 = rev (dq A s0).
Proof.
  intros A n es t k H. remember (map Ran es ++ [Cancelled t]) as l eqn:E.
  destruct H as [|l k0 e k' H Hs]; [destruct (map Ran es); discriminate|].
  apply app_inj_tail in E. destruct E as [-> ->]. apply C143_until_a_cancellation in H.
  inversion Hs as [|s u p g w l Hn Hp Hq Ho|s u g l Hn Hp Hd]; subst; cbn [k_st] in *; exists s; (split; [exact H|]);
    pose proof (inv_ok A n es s H) as IV.
  - split; [split; [reflexivity|split; [reflexivity|]]|].
    + intros v q E. cbn [k_st pcs] in E. destruct (nth_upd_cases _ _ _ _ _ _ E) as [[-> ->]|[N E']]; [reflexivity|].
      destruct (crit A q) eqn:C; [|reflexivity]. apply (i_crit _ _ _ IV v q E') in C. congruence.
    + unfold absq, pend. rewrite Ho. reflexivity.
  - pose proof (proj1 (i_crit _ _ _ IV t _ Hp) eq_refl) as Ow.
    split; [split; [exact Ow|split; [reflexivity|]]|].
    + intros v q E. cbn [k_st pcs] in E. destruct (nth_upd_cases _ _ _ _ _ _ E) as [[-> ->]|[N E']]; [reflexivity|].
      destruct (crit A q) eqn:C; [|reflexivity]. apply (i_crit _ _ _ IV v q E') in C. congruence.
    + unfold absq, pend. rewrite Ow, Hp. reflexivity.
Qed.
Lemma shut_step : forall A t d k e k', shut t d k -> kstep A k e k' ->
  shut t d k' /\ ((exists u o, e = Ran (Call u o)) \/ exists u, e = Ran (Wake u)).
Proof.
  intros A t d k e k' (Ow & Dq & Nc) Hs. destruct Hs as [s e s' l Hn Hs|s u p g w l Hn Hp Hq Ho|s u g l Hn Hp Hd]; cbn [k_st] in *.
  - destruct Hs as [s u o Hp|s u p p' Hp Hl Ho|s u p d' p' e Hp Hi|s u x l0 Hp Hsg|s u l0 Hp Hsg
        |s u g w Hp Hd Hw|s u g w Hp|s u p r Hp Hr];
      try (specialize (Nc _ _ Hp); cbn in Nc; discriminate Nc).
    + split; [|left; eauto]. split; [exact Ow|]. split; [exact Dq|]. intros v q E. cbn [k_st pcs] in E.
      destruct (nth_upd_cases _ _ _ _ _ _ E) as [[-> ->]|[N E']]; [destruct o; reflexivity|eapply Nc; eauto].
    + congruence.
    + specialize (Nc _ _ Hp). destruct p; cbn in Nc, Hi; discriminate.
    + split; [|right; eauto]. split; [exact Ow|]. split; [exact Dq|]. intros v q E. cbn [k_st pcs] in E.
      destruct (nth_upd_cases _ _ _ _ _ _ E) as [[-> ->]|[N E']]; [reflexivity|eapply Nc; eauto].
    + specialize (Nc _ _ Hp). destruct p; cbn in Nc, Hr; discriminate.
  - congruence.
  - specialize (Nc _ _ Hp). discriminate.
Qed.
Lemma shut_for_ever : forall A n es t rest k, kexec A n (map Ran es ++ Cancelled t :: rest) k ->
  exists s0, exec A n es s0 /\ absq A s0 = rev (dq A s0) /\ shut t (dq A s0) k /\
    Forall (fun e => (exists u o, e = Ran (Call u o)) \/ exists u, e = Ran (Wake u)) rest.
Proof.
  intros A n es t rest. induction rest as [|e rest IH] using rev_ind; intros s H.
  - destruct (end_shut A n es t s H) as (s0 & H0 & St & Ab). exists s0. auto.
  - rewrite app_comm_cons, app_assoc in H. remember ((map Ran es ++ Cancelled t :: rest) ++ [e]) as l eqn:E.
    destruct H as [|l s e1 s' H Hs]; [destruct (map Ran es); discriminate|].
    apply app_inj_tail in E. destruct E as [-> ->].
    destruct (IH s H) as (s0 & H0 & Ab & St & F). exists s0. destruct (shut_step _ _ _ _ _ _ St Hs) as [St' Ev'].
    split; [exact H0|]. split; [exact Ab|]. split; [exact St'|]. apply Forall_app. split; [exact F|constructor; [exact Ev'|constructor]].
Qed.

(** ** C143: the claim and why it is false *)

(** The claim would be: when a waiting thread has been cancelled the others can still use the
    queue.  It is false of every history: from then on no call takes effect or returns any more,
    whatever the schedule, and no second thread can be cancelled in the queue. *)
Theorem C143_locked_for_ever : forall A n before t after k,
  kexec A n (before ++ Cancelled t :: after) k ->
  (forall u r, ~ In (Ran (Return u r)) after) /\ (forall u o r, ~ In (Ran (Effect u o r)) after) /\
  (forall u, ~ In (Cancelled u) after) /\ (forall u, ~ In (Cancelled u) before) /\ owner A (k_st A k) = Some t.
Proof.
  intros A n before t after k H.
  destruct (first_end A before) as [[es ->]|(es & t0 & rest & ->)].
  - destruct (shut_for_ever A n es t after k H) as (s0 & _ & _ & (Ow & _) & F). rewrite Forall_forall in F.
    split; [intros u r I; destruct (F _ I) as [(v & o & E)|(v & E)]; discriminate|].
    split; [intros u o r I; destruct (F _ I) as [(v & o' & E)|(v & E)]; discriminate|].
    split; [intros u I; destruct (F _ I) as [(v & o' & E)|(v & E)]; discriminate|].
    split; [|exact Ow]. intros u I. apply in_map_iff in I. destruct I as (e & E & _). discriminate.
  - exfalso. rewrite <- app_assoc in H. cbn [app] in H.
    destruct (shut_for_ever A n es t0 (rest ++ Cancelled t :: after) k H) as (s0 & _ & _ & _ & F).
    rewrite Forall_forall in F. destruct (F (Cancelled t)) as [(v & o & E)|(v & E)]; [apply in_elt|discriminate..].
Qed.
Print Assumptions C143_locked_for_ever.

Definition pre_cancel : list (event nat) := [Call 0 (OGet true); Tau 0; Tau 0].
Definition then_calls : list (kevent nat) := [Ran (Call 1 (OAdd 7)); Ran (Call 2 OSize)].
Definition cancelled_tr : list (kevent nat) := map Ran pre_cancel ++ Cancelled 0 :: then_calls.
(** Thread 0 waits for an element and is cancelled; thread 1 adds one and thread 2 asks for the
    size: neither call ever returns. *)
Theorem C143_cancel_refuted : exists k, kexec nat 3 cancelled_tr k /\
  forall more k', kexec nat 3 (cancelled_tr ++ more) k' -> forall u r, ~ In (Ran (Return u r)) more.
Proof.
  eexists. split.
  - change cancelled_tr with (((((([] ++ [Ran (Call 0 (OGet true))]) ++ [Ran (Tau 0)]) ++ [Ran (Tau 0)]) ++ [Cancelled 0]) ++
      [Ran (Call 1 (OAdd 7))]) ++ [Ran (@Call nat 2 OSize)]).
    eapply kex_snoc; [eapply kex_snoc; [eapply kex_snoc; [eapply kex_snoc; [eapply kex_snoc; [eapply kex_snoc; [apply kex_nil|]|]|]|]|]|].
    + apply k_step; [cbn; tauto|]. apply s_call. reflexivity.
    + apply k_step; [cbn; tauto|]. eapply s_lock; reflexivity.
    + apply k_step; [cbn; tauto|]. eapply s_wait; reflexivity.
    + eapply k_asleep; [cbn; tauto|reflexivity|left; reflexivity|reflexivity].
    + apply k_step; [cbn; intros [E|[]]; discriminate|]. apply s_call. reflexivity.
    + apply k_step; [cbn; intros [E|[]]; discriminate|]. apply s_call. reflexivity.
  - intros more k' H u r I. unfold cancelled_tr in H. rewrite <- app_assoc in H. cbn [app then_calls] in H.
    apply C143_locked_for_ever in H. destruct H as [R _]. apply (R u r). right. right. exact I.
Qed.
Print Assumptions C143_cancel_refuted.

(** ** What does hold *)

(** Nothing is lost or duplicated: the elements added are those handed out, in order, and those
    still in the queue. *)
Theorem C143_nothing_is_lost : forall A n es t after k,
  kexec A n (map Ran es ++ Cancelled t :: after) k ->
  added (effects es) = taken (effects es) ++ rev (dq A (k_st A k)).
Proof.
  intros A n es t after k H. destruct (shut_for_ever A n es t after k H) as (s0 & H0 & Ab & (_ & Dq & _) & _).
  rewrite Dq, <- Ab. pose proof (i_queue _ _ _ (inv_ok A n es s0 H0)) as Q. apply qrun_fifo in Q. exact Q.
Qed.
Print Assumptions C143_nothing_is_lost.

(** a waiting get *)
Definition may_wait {A} (o : op A) : bool := match o with OGet w => w | OBatch _ w => w | _ => false end.
(** where such a get is before and while it waits *)
Definition waiting_pc {A} (p : pc A) : bool :=
  match p with GetLock _ _ w | GetTest _ _ w => w | GetSleep _ _ _ | GetWoken _ _ _ => true | _ => false end.
Lemma wakes_waiting : forall A (l l' : list (pc A)) t p, Forall2 (wakes A) l l' -> nth_error l' t = Some p ->
  exists q, nth_error l t = Some q /\ waiting_pc q = waiting_pc p.
Proof.
  intros A l l' t p F. revert t. induction F as [|a b l l' R F IH]; intros [|t] E; try discriminate; cbn in *; [|now apply IH].
  injection E as ->. exists a. split; [reflexivity|]. destruct R as [->|(g & w & -> & ->)]; reflexivity.
Qed.
Lemma never_waits : forall A n tr s, kexec A n tr s -> forall t, (forall o, In (Ran (Call t o)) tr -> may_wait o = false) ->
  forall p, nth_error (pcs A (k_st A s)) t = Some p -> waiting_pc p = false.
Proof.
  intros A n tr s H. induction H as [|tr s e s' H IH Hs]; intros t N p E.
  - cbn in E. apply nth_error_In, repeat_spec in E. now subst.
  - assert (IH' : forall q, nth_error (pcs A (k_st A s)) t = Some q -> waiting_pc q = false)
      by (apply IH; intros o I; apply N; apply in_or_app; auto). clear IH.
    destruct Hs as [s e s' l Hn Hs|s u p0 g w l Hn Hp Hq Ho|s u g l Hn Hp Hd]; cbn [k_st] in *.
    2,3: cbn [pcs] in E; destruct (nth_upd_cases _ _ _ _ _ _ E) as [[-> ->]|[_ E']]; [reflexivity|eauto].
    destruct Hs as [s u o Hp|s u p0 p' Hp Hl Ho|s u p0 d' p' e Hp Hi|s u x l0 Hp Hsg|s u l0 Hp Hsg
        |s u g w Hp Hd Hw|s u g w Hp|s u p0 r Hp Hr]; cbn [pcs] in E;
      destruct (nth_upd_cases _ _ _ _ _ _ E) as [[-> ->]|[Ne E']]; eauto.
    + assert (M : may_wait o = false) by (apply N; apply in_or_app; right; left; reflexivity). destruct o; try reflexivity; exact M.
    + specialize (IH' _ Hp). destruct p0; cbn in Hl, IH'; try discriminate; injection Hl as <-; auto.
    + specialize (IH' _ Hp). destruct p0; cbn in Hi, IH'; try discriminate;
        repeat match type of Hi with context [match ?x with _ => _ end] => destruct x end; try discriminate; injection Hi; intros; subst; try reflexivity;
        try (destruct g; reflexivity).
    + destruct Hsg as [F _]. destruct (wakes_waiting _ _ _ _ _ F E') as (q & E1 & <-). eauto.
    + destruct Hsg as [F _]. destruct (wakes_waiting _ _ _ _ _ F E') as (q & E1 & <-). eauto.
    + specialize (IH' _ Hp). cbn in IH'. congruence.
    + specialize (IH' _ Hp). cbn in IH'. discriminate.
Qed.
(** Only a thread that has called get with leave to wait is ended by its cancellation inside the
    queue. *)
Theorem C143_only_waiting : forall A n tr k t, kexec A n tr k -> In (Cancelled t) tr ->
  exists o, In (Ran (Call t o)) tr /\ may_wait o = true.
Proof.
  intros A n tr k t H I.
  destruct (existsb (fun e => match e with Ran (Call u o) => (u =? t)%nat && may_wait o | _ => false end) tr) eqn:X.
  - apply existsb_exists in X. destruct X as (e & Ie & Xe). destruct e as [e|]; [|discriminate]. destruct e; try discriminate.
    apply andb_prop in Xe. destruct Xe as [E W]. apply Nat.eqb_eq in E. subst. eauto.
  - exfalso. assert (N : forall o, In (Ran (Call t o)) tr -> may_wait o = false).
    { intros o Io. destruct (may_wait o) eqn:W; [|reflexivity]. rewrite <- X. symmetry. apply existsb_exists.
      eexists. split; [exact Io|]. cbn. rewrite Nat.eqb_refl. exact W. }
    clear X. induction H as [|tr s e s' H IH Hs]; [destruct I|]. apply in_app_or in I. destruct I as [I|[->|[]]].
    { apply IH; [exact I|]. intros o Io. apply N. apply in_or_app. auto. }
    assert (N' : forall o, In (Ran (Call t o)) tr -> may_wait o = false) by (intros o Io; apply N; apply in_or_app; auto).
    pose proof (never_waits _ _ _ _ H t N') as W.
    inversion Hs as [|s0 u p g w l Hn Hp Hq Ho|s0 u g l Hn Hp Hd]; subst; cbn [k_st] in W.
    + specialize (W _ Hp). destruct Hq as [->| ->]; discriminate.
    + specialize (W _ Hp). discriminate.
Qed.
Print Assumptions C143_only_waiting.
(** Threads that never call get with leave to wait are not affected when they are cancelled:
    nobody ever ends inside the queue, and C47-C49 hold.
    Missing: threads that wait, see above. *)
Theorem C143_cancel_partial : forall A n tr k, kexec A n tr k ->
  (forall t, In (Cancelled t) tr -> forall o, In (Ran (Call t o)) tr -> may_wait o = false) ->
  exists es, tr = map Ran es /\ exec A n es (k_st A k).
Proof.
  intros A n tr k H C. assert (G : exists es, tr = map Ran es).
  { destruct (first_end A tr) as [G|(es & t & rest & E)]; [exact G|]. exfalso.
    assert (I : In (Cancelled t) tr) by (rewrite E; apply in_elt).
    destruct (C143_only_waiting _ _ _ _ t H I) as (o & Io & W). specialize (C t I o Io). congruence. }
  destruct G as [es ->]. exists es. split; [reflexivity|]. now apply C143_until_a_cancellation.
Qed.
Print Assumptions C143_cancel_partial.
(** a history of such threads *)
Definition busy_tr : list (event nat) := [Call 0 (OAdd 7); Tau 0; Effect 0 (OAdd 7) RUnit; Tau 0; Return 0 RUnit; Call 1 (OGet false)].
Example C143_ex : exists k, kexec nat 2 (map Ran busy_tr) k /\ dq nat (k_st nat k) = [7] /\
  (forall t, In (Cancelled t) (map Ran busy_tr) -> forall o, In (Ran (Call t o)) (map Ran busy_tr) -> may_wait o = false).
Proof.
  eexists. split; [|split].
  - change (map Ran busy_tr) with (((((([] ++ [Ran (Call 0 (OAdd 7))]) ++ [Ran (Tau 0)]) ++ [Ran (Effect 0 (OAdd 7) RUnit)]) ++ [Ran (Tau 0)]) ++
      [Ran (Return 0 RUnit)]) ++ [Ran (Call 1 (OGet false))]).
    eapply kex_snoc; [eapply kex_snoc; [eapply kex_snoc; [eapply kex_snoc; [eapply kex_snoc; [eapply kex_snoc; [apply kex_nil|]|]|]|]|]|];
      (apply k_step; [cbn; intros []|]).
    + apply s_call. reflexivity.
    + eapply s_lock; reflexivity.
    + change (Effect 0 (OAdd 7) RUnit) with (label nat 0 (Some (OAdd 7, RUnit))). eapply s_inside; reflexivity.
    + eapply s_add_signal with (l := [AddSignal nat 7; Idle nat]); [reflexivity|]. split.
      * repeat constructor.
      * intros (i & p & E & (g & w & ->)). destruct i as [|[|[|i]]]; discriminate.
    + eapply s_unlock; reflexivity.
    + apply s_call. reflexivity.
  - reflexivity.
  - intros t I. cbn in I. repeat (destruct I as [I|I]; [discriminate|]). destruct I.
Qed.
