(** Theorems about calls on the thread-safe queue that throw (property C119). *)

From Coq Require Import ZArith List Bool Lia Arith.
From Verif Require Import Base Synque_Spec Synque_Model Synque_Proof Synque_Props SynqueX_Model.
Import ListNotations.

(** ** While nothing throws, all that is proved in C47-C49 holds *)

Theorem C119_until_an_exception : forall A n tr s, xexec A n (map Ev tr) s -> exec A n tr s.
Proof.
  intros A n tr s H. remember (map Ev tr) as xt eqn:E. revert tr E.
  induction H as [|xt s e s' H IH Hs]; intros tr E.
  - destruct tr; [|discriminate]. constructor.
  - destruct tr as [|a tr _] using rev_ind; [destruct xt; discriminate|]. rewrite map_app in E. cbn in E.
    apply app_inj_tail in E. destruct E as [E ->]. inversion Hs; subst. econstructor; eauto.
Qed.
Print Assumptions C119_until_an_exception.

(** the first exception, or none *)
Lemma first_throw : forall A (tr : list (xevent A)),
  (exists es, tr = map Ev es) \/ exists es t got rest, tr = map Ev es ++ Thrown t got :: rest.
Proof.
  intros A tr. induction tr as [|a tr IH]; [left; exists []; reflexivity|].
  destruct a as [e|t got]; [|right; exists [], t, got, tr; reflexivity].
  destruct IH as [[es ->]|(es & t & got & rest & ->)]; [left; exists (e :: es); reflexivity|].
  right. exists (e :: es), t, got, rest. reflexivity.
Qed.
Lemma xexec_split : forall A n l1 l2 s, xexec A n (l1 ++ l2) s -> exists s1, xexec A n l1 s1.
Proof.
  intros A n l1 l2 s H. remember (l1 ++ l2) as l eqn:E. revert l2 E.
  induction H as [|l s e s' H IH Hs]; intros l2 E.
  - destruct l1; [|discriminate]. eexists; constructor.
  - destruct l2 as [|a l2 _] using rev_ind.
    + rewrite app_nil_r in E. subst. eexists; econstructor; eauto.
    + rewrite app_assoc in E. apply app_inj_tail in E. destruct E as [-> ->]. eapply IH; reflexivity.
Qed.

(** what holds from an exception on: its thread keeps the mutex and nobody is inside *)
Definition stuck {A} (t : nat) (d : list A) (s : state A) : Prop :=
  owner A s = Some t /\ dq A s = d /\ forall u p, nth_error (pcs A s) u = Some p -> crit A p = false.

Lemma throw_stuck : forall A n es t got s, xexec A n (map Ev es ++ [Thrown t got]) s ->
  exists s0, exec A n es s0 /\ stuck t (dq A s0) s /\ absq A s0 = got ++ rev (dq A s0).
Proof.
  intros A n es t got s H. remember (map Ev es ++ [Thrown t got]) as l eqn:E.
  destruct H as [|l s e s' H Hs]; [destruct (map Ev es); discriminate|].
  apply app_inj_tail in E. destruct E as [-> ->]. apply C119_until_an_exception in H.
  inversion Hs as [|? ? p ? Hp Ht]; subst. exists s. split; [exact H|].
  pose proof (inv_ok A n es s H) as IV.
  assert (Cp : crit A p = true) by (destruct p; cbn in Ht; try discriminate; reflexivity).
  pose proof (proj1 (i_crit _ _ _ IV t p Hp) Cp) as Ow.
  split; [split; [exact Ow|split; [reflexivity|]]|].
  - intros u q E. cbn [pcs] in E. destruct (nth_upd_cases _ _ _ _ _ _ E) as [[-> ->]|[N E']]; [reflexivity|].
    destruct (crit A q) eqn:C; [|reflexivity]. apply (i_crit _ _ _ IV u q E') in C. congruence.
  - unfold absq, pend. rewrite Ow, Hp. destruct p; cbn in Ht; try discriminate; injection Ht as <-; reflexivity.
Qed.
Lemma stuck_step : forall A t d s e s', stuck t d s -> xstep A s e s' ->
  stuck t d s' /\ ((exists u o, e = Ev (Call u o)) \/ exists u, e = Ev (Wake u)).
Proof.
  intros A t d s e s' (Ow & Dq & Nc) Hs. destruct Hs as [s e s' Hs|s u p got Hp Ht].
  - destruct Hs as [s u o Hp|s u p p' Hp Hl Ho|s u p d' p' e Hp Hi|s u x l Hp Hsg|s u l Hp Hsg
        |s u g w Hp Hd Hw|s u g w Hp|s u p r Hp Hr];
      try (specialize (Nc _ _ Hp); cbn in Nc; discriminate Nc).
    + split; [|left; eauto]. split; [exact Ow|]. split; [exact Dq|]. intros v q E. cbn [pcs] in E.
      destruct (nth_upd_cases _ _ _ _ _ _ E) as [[-> ->]|[N E']]; [destruct o; reflexivity|eapply Nc; eauto].
    + congruence.
    + specialize (Nc _ _ Hp). destruct p; cbn in Nc, Hi; discriminate.
    + split; [|right; eauto]. split; [exact Ow|]. split; [exact Dq|]. intros v q E. cbn [pcs] in E.
      destruct (nth_upd_cases _ _ _ _ _ _ E) as [[-> ->]|[N E']]; [reflexivity|eapply Nc; eauto].
    + specialize (Nc _ _ Hp). destruct p; cbn in Nc, Hr; discriminate.
  - specialize (Nc _ _ Hp). destruct p; cbn in Nc, Ht; discriminate.
Qed.
Lemma stuck_for_ever : forall A n es t got rest s, xexec A n (map Ev es ++ Thrown t got :: rest) s ->
  exists s0, exec A n es s0 /\ absq A s0 = got ++ rev (dq A s0) /\ stuck t (dq A s0) s /\
    Forall (fun e => (exists u o, e = Ev (Call u o)) \/ exists u, e = Ev (Wake u)) rest.
Proof.
  intros A n es t got rest. induction rest as [|e rest IH] using rev_ind; intros s H.
  - destruct (throw_stuck A n es t got s H) as (s0 & H0 & St & Ab). exists s0. auto.
  - rewrite app_comm_cons, app_assoc in H. remember ((map Ev es ++ Thrown t got :: rest) ++ [e]) as l eqn:E.
    destruct H as [|l s e1 s' H Hs]; [destruct (map Ev es); discriminate|].
    apply app_inj_tail in E. destruct E as [-> ->].
    destruct (IH s H) as (s0 & H0 & Ab & St & F). exists s0. destruct (stuck_step _ _ _ _ _ _ St Hs) as [St' Ev'].
    split; [exact H0|]. split; [exact Ab|]. split; [exact St'|]. apply Forall_app. split; [exact F|constructor; [exact Ev'|constructor]].
Qed.

(** ** C119: the claim and why it is false *)

(** The claim would be: after an exception other threads can still use the queue.  It is
    false of every history: from the first exception on no call takes effect, returns or
    throws any more, whatever the schedule; threads can only call, and wait for ever. *)
Theorem C119_locked_for_ever : forall A n before t got after s,
  xexec A n (before ++ Thrown t got :: after) s ->
  (forall u r, ~ In (Ev (Return u r)) after) /\ (forall u o r, ~ In (Ev (Effect u o r)) after) /\
  (forall u g, ~ In (Thrown u g) after) /\ (forall u g, ~ In (Thrown u g) before) /\ owner A s = Some t.
Proof.
  intros A n before t got after s H.
  destruct (first_throw A before) as [[es ->]|(es & t0 & got0 & rest & ->)].
  - destruct (stuck_for_ever A n es t got after s H) as (s0 & _ & _ & (Ow & _) & F). rewrite Forall_forall in F.
    split; [intros u r I; destruct (F _ I) as [(v & o & E)|(v & E)]; discriminate|].
    split; [intros u o r I; destruct (F _ I) as [(v & o' & E)|(v & E)]; discriminate|].
    split; [intros u g I; destruct (F _ I) as [(v & o' & E)|(v & E)]; discriminate|].
    split; [|exact Ow]. intros u g I. apply in_map_iff in I. destruct I as (e & E & _). discriminate.
  - exfalso. rewrite <- app_assoc in H. cbn [app] in H.
    destruct (stuck_for_ever A n es t0 got0 (rest ++ Thrown t got :: after) s H) as (s0 & _ & _ & _ & F).
    rewrite Forall_forall in F. destruct (F (Thrown t got)) as [(v & o & E)|(v & E)]; [apply in_elt|discriminate..].
Qed.
Print Assumptions C119_locked_for_ever.

(** such histories exist: thread 0 adds an element and memory runs out; thread 1 has asked
    for the size and thread 0 adds again, and neither call ever returns *)
Definition bad_add : list (xevent nat) :=
  [Ev (Call 0 (OAdd 7)); Ev (Tau 0); Thrown 0 []; Ev (Call 1 OSize); Ev (Call 0 (OAdd 7))].
Theorem C119_usable_refuted : exists s, xexec nat 2 bad_add s /\
  forall more s', xexec nat 2 (bad_add ++ more) s' -> forall u r, ~ In (Ev (Return u r)) more.
Proof.
  eexists. split.
  - unfold bad_add.
    change ([Ev (Call 0 (OAdd 7)); Ev (Tau 0); Thrown 0 []; Ev (Call 1 OSize); Ev (Call 0 (OAdd 7))])
      with ((((([] ++ [Ev (Call 0 (OAdd 7))]) ++ [Ev (Tau 0)]) ++ [Thrown 0 []]) ++ [Ev (Call 1 OSize)]) ++ [Ev (@Call nat 0 (OAdd 7))]).
    eapply xex_snoc; [eapply xex_snoc; [eapply xex_snoc; [eapply xex_snoc; [eapply xex_snoc; [apply xex_nil|]|]|]|]|].
    + apply x_step, s_call. reflexivity.
    + apply x_step. eapply s_lock; reflexivity.
    + eapply x_throw; reflexivity.
    + apply x_step, s_call. reflexivity.
    + apply x_step, s_call. reflexivity.
  - intros more s' H u r I.
    change (bad_add ++ more) with ([Ev (Call 0 (OAdd 7)); Ev (Tau 0)] ++ Thrown 0 [] :: ([Ev (Call 1 OSize); Ev (Call 0 (OAdd 7))] ++ more)) in H.
    apply C119_locked_for_ever in H. destruct H as [R _]. apply (R u r). apply in_or_app. right. exact I.
Qed.
Print Assumptions C119_usable_refuted.

(** ** What does hold: nothing is lost or duplicated by the exception *)

(** The elements added, in order, are those handed out by calls that returned or took
    effect, then those the interrupted batch has put into its caller's deque, then those
    still in the queue. *)
Theorem C119_nothing_is_lost : forall A n es t got after s,
  xexec A n (map Ev es ++ Thrown t got :: after) s ->
  added (effects es) = taken (effects es) ++ got ++ rev (dq A s).
Proof.
  intros A n es t got after s H. destruct (stuck_for_ever A n es t got after s H) as (s0 & H0 & Ab & (_ & Dq & _) & _).
  rewrite Dq, <- Ab. pose proof (i_queue _ _ _ (inv_ok A n es s0 H0)) as Q. apply qrun_fifo in Q. exact Q.
Qed.
Print Assumptions C119_nothing_is_lost.

(** a batch of two elements that throws at the second: the first is with the caller *)
Example C119_ex : exists es s, xexec nat 1 (map Ev es ++ [Thrown 0 [7]]) s /\ dq nat s = [8] /\ added (effects es) = [7; 8].
Proof.
  destruct (fires [] (init nat 1) [DoCall 0 (OAdd 7); Do 0; Do 0; Do 0; Do 0; DoCall 0 (OAdd 8); Do 0; Do 0; Do 0; Do 0;
    DoCall 0 (OBatch 0 false); Do 0; Do 0; Do 0; Do 0; Do 0; Do 0; Do 0]) as [[es s]|] eqn:E; [|vm_compute in E; discriminate].
  assert (H : exec nat 1 es s) by (eapply fires_exec; [apply ex_nil|exact E]).
  assert (X : forall es s, exec nat 1 es s -> xexec nat 1 (map Ev es) s).
  { clear. intros es s H. induction H; [constructor|]. rewrite map_app. econstructor; [eassumption|apply x_step; assumption]. }
  exists es. vm_compute in E. injection E as <- <-. eexists. split; [|split].
  - eapply xex_snoc; [apply X; exact H|]. eapply x_throw; reflexivity.
  - reflexivity.
  - reflexivity.
Qed.
