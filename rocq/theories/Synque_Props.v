(** Theorems about the thread-safe queue (properties C47-C49): all interleavings of any
    number of threads, with spurious wake-ups. *)

From Coq Require Import ZArith List Bool Lia Arith.
From Verif Require Import Base Synque_Spec Synque_Model Synque_Proof.
Import ListNotations.

(** ** Running a schedule, for the examples *)

Inductive act (A : Type) := Do (t : nat) | DoCall (t : nat) (o : op A) | DoWake (t : nat).
Arguments Do {A}. Arguments DoCall {A}. Arguments DoWake {A}.

Definition wake_all {A} (l : list (pc A)) : list (pc A) :=
  map (fun p => match p with GetSleep _ g w => GetWoken A g w | _ => p end) l.
Definition fire {A} (s : state A) (a : act A) : option (event A * state A) :=
  match a with
  | DoCall t o => match nth_error (pcs A s) t with
                  | Some (Idle _) => Some (Call t o, mkState A (owner A s) (dq A s) (upd (pcs A s) t (entry A o)))
                  | _ => None
                  end
  | DoWake t => match nth_error (pcs A s) t with
                | Some (GetSleep _ g w) => Some (Wake t, mkState A (owner A s) (dq A s) (upd (pcs A s) t (GetWoken A g w)))
                | _ => None
                end
  | Do t =>
    match nth_error (pcs A s) t with
    | None => None
    | Some p =>
      match locked A p, owner A s with
      | Some p', None => Some (Tau t, mkState A (Some t) (dq A s) (upd (pcs A s) t p'))
      | Some _, Some _ => None
      | None, _ =>
        match inside A (dq A s) p with
        | Some (d', p', e) => Some (label A t e, mkState A (owner A s) d' (upd (pcs A s) t p'))
        | None =>
          match result A p with
          | Some r => Some (Return t r, mkState A None (dq A s) (upd (pcs A s) t (Idle A)))
          | None =>
            match p with
            | AddSignal _ _ => Some (Tau t, mkState A (owner A s) (dq A s) (upd (wake_all (pcs A s)) t (AddUnlock A)))
            | SigSignal _ => Some (Effect t OSignal RUnit, mkState A (owner A s) (dq A s) (upd (wake_all (pcs A s)) t (SigUnlock A)))
            | GetTest _ g true => match dq A s with
                                  | [] => Some (Tau t, mkState A None (dq A s) (upd (pcs A s) t (GetSleep A g true)))
                                  | _ => None
                                  end
            | _ => None
            end
          end
        end
      end
    end
  end.
Fixpoint fires {A} (tr : list (event A)) (s : state A) (l : list (act A)) : option (list (event A) * state A) :=
  match l with
  | [] => Some (tr, s)
  | a :: l => match fire s a with Some (e, s) => fires (tr ++ [e]) s l | None => None end
  end.

Lemma wake_all_signals : forall A (l : list (pc A)), signals A l (wake_all l).
Proof.
  intros A l. split.
  - induction l as [|a l IH]; constructor; [|exact IH]. destruct a; try (left; reflexivity). right. eexists; eexists; split; reflexivity.
  - intros [i [p [E [g [w ->]]]]]. exists i, (GetSleep A g w), (GetWoken A g w).
    split; [exact E|]. split; [eexists; eexists; reflexivity|]. unfold wake_all. rewrite nth_error_map, E.
    split; [reflexivity|discriminate].
Qed.
Lemma fire_step : forall A (s : state A) a e s', fire s a = Some (e, s') -> step A s e s'.
Proof.
  intros A s a e s' H. destruct a as [t|t o|t]; cbn [fire] in H.
  - destruct (nth_error (pcs A s) t) as [p|] eqn:Ep; [|discriminate].
    destruct (locked A p) as [p'|] eqn:El.
    { destruct (owner A s) eqn:Eo; [discriminate|]. injection H as <- <-. eapply s_lock; eassumption. }
    destruct (inside A (dq A s) p) as [[[d' p'] x]|] eqn:Ei.
    { injection H as <- <-. eapply s_inside; eassumption. }
    destruct (result A p) as [r|] eqn:Er.
    { injection H as <- <-. eapply s_unlock; eassumption. }
    destruct p; try discriminate.
    + injection H as <- <-. eapply s_add_signal; [eassumption|apply wake_all_signals].
    + injection H as <- <-. eapply s_signal; [eassumption|apply wake_all_signals].
    + destruct w; [|discriminate]. destruct (dq A s) eqn:Ed; [|discriminate]. injection H as <- <-.
      rewrite <- Ed. eapply s_wait; [eassumption|exact Ed|reflexivity].
  - destruct (nth_error (pcs A s) t) as [[]|] eqn:Ep; try discriminate. injection H as <- <-. apply s_call. exact Ep.
  - destruct (nth_error (pcs A s) t) as [[]|] eqn:Ep; try discriminate. injection H as <- <-. apply s_spurious. exact Ep.
Qed.
Lemma fires_exec : forall A n l tr s tr' s', exec A n tr s -> fires tr s l = Some (tr', s') -> exec A n tr' s'.
Proof.
  intros A n. induction l as [|a l IH]; intros tr s tr' s' H E; cbn [fires] in E.
  - injection E as <- <-. exact H.
  - destruct (fire s a) as [[e s1]|] eqn:Ef; [|discriminate].
    eapply IH; [|exact E]. eapply ex_snoc; [exact H|eapply fire_step; exact Ef].
Qed.

(** ** C47 *)

(** Linearizability: the calls take effect one at a time like calls on a sequential FIFO
    queue, each between its call and its return and with the value it returns; whenever the
    mutex is free the deque holds that queue. *)
Theorem C47_linearizable : forall A n tr s, exec A n tr s ->
  exists q, qrun [] (effects tr) q /\
    (forall t, (t < n)%nat -> exists ph, protocol t tr ph) /\
    (owner A s = None -> q = rev (dq A s)).
Proof.
  intros A n tr s H. pose proof (inv_ok A n tr s H) as IV. exists (absq A s).
  split; [exact (i_queue _ _ _ IV)|]. split.
  - intros t Ht. destruct (nth_error (pcs A s) t) as [p|] eqn:E.
    + destruct (i_phase _ _ _ IV t p E) as [ph [_ P]]. eauto.
    + apply nth_error_None in E. rewrite (exec_len A n tr s H) in E. lia.
  - intros Ho. unfold absq, pend. rewrite Ho. reflexivity.
Qed.
Print Assumptions C47_linearizable.

Lemma qrun_fifo : forall A (q0 : list A) l q, qrun q0 l q -> q0 ++ added l = taken l ++ q.
Proof.
  intros A q0 l q H. induction H as [q|q l q1 o r q2 H IH Hs]; [cbn; rewrite app_nil_r; reflexivity|].
  unfold added, taken in *. rewrite !flat_map_app. cbn [flat_map]. rewrite !app_nil_r.
  rewrite app_assoc, IH. destruct Hs; cbn [app]; rewrite ?app_nil_r, <- ?app_assoc; cbn [app]; try reflexivity.
  rewrite firstn_skipn. reflexivity.
Qed.

(** FIFO: what was handed out, in order, is the beginning of what was added, in order; the
    rest is still queued *)
Theorem C47_fifo : forall A n tr s, exec A n tr s ->
  exists q, added (effects tr) = taken (effects tr) ++ q /\ (owner A s = None -> q = rev (dq A s)).
Proof.
  intros A n tr s H. destruct (C47_linearizable A n tr s H) as [q [Q [_ O]]]. exists q. split; [|exact O].
  apply qrun_fifo in Q. exact Q.
Qed.
Print Assumptions C47_fifo.

(** the deque is never read or popped when it is empty, and only the owner of the mutex is
    inside a critical section *)
Theorem C47_mutex : forall A n tr s t p, exec A n tr s -> nth_error (pcs A s) t = Some p ->
  p <> Bad A /\ (result A p <> None \/ (exists x, inside A (dq A s) p = Some x) -> owner A s = Some t).
Proof.
  intros A n tr s t p H Hp. pose proof (inv_ok A n tr s H) as IV. split.
  - intros ->. exact (i_pc _ _ _ IV t _ Hp).
  - intros F. apply (i_crit _ _ _ IV t p Hp). destruct p; try reflexivity; destruct F as [F|[y F]]; cbn in F; congruence.
Qed.
Print Assumptions C47_mutex.

(** two producers, a batch consumer that sleeps first, and a spurious wake-up *)
Definition ex_sched : list (act nat) :=
  [DoCall 0 (OBatch 0 true); Do 0; Do 0;                        (* thread 0 sleeps *)
   DoCall 1 (OAdd 7); Do 1; DoCall 2 (OAdd 8); Do 1; Do 1; Do 1; (* 7 is added *)
   Do 2; Do 2; Do 2; Do 2;                                       (* 8 is added *)
   Do 0; Do 0; Do 0; Do 0; Do 0; Do 0; Do 0; Do 0; Do 0; Do 0; Do 0].
Example C47_ex : exists tr s, exec nat 3 tr s /\ In (Return 0 (RBatch [7; 8])) tr /\ dq nat s = [].
Proof.
  destruct (fires [] (init nat 3) ex_sched) as [[tr s]|] eqn:E; [|vm_compute in E; discriminate].
  exists tr, s. split; [eapply fires_exec; [apply ex_nil|exact E]|].
  vm_compute in E. injection E as <- <-. split; [|reflexivity]. cbn. tauto.
Qed.

(** ** C48 *)

(** No lost wake-up: whenever the mutex is free and some thread sleeps in get, there are at
    least as many woken threads on their way as there are elements *)
Theorem C48_no_lost_wakeup : forall A n tr s, exec A n tr s -> owner A s = None ->
  (exists t g w, nth_error (pcs A s) t = Some (GetSleep A g w)) ->
  (length (dq A s) <= total A (woken A) (pcs A s))%nat.
Proof.
  intros A n tr s H Ho [t [g [w E]]]. rewrite <- (busy_woken A tr s (inv_ok A n tr s H) Ho).
  apply (winv_ok A n tr s H). pose proof (total_ge A (asleep A) _ _ _ E). cbn in *. lia.
Qed.
Print Assumptions C48_no_lost_wakeup.

(** when every thread is outside or asleep and some thread sleeps, the queue is empty *)
Theorem C48_quiescent : forall A n tr s, exec A n tr s ->
  (forall t p, nth_error (pcs A s) t = Some p -> p = Idle A \/ exists g w, p = GetSleep A g w) ->
  (exists t g w, nth_error (pcs A s) t = Some (GetSleep A g w)) -> dq A s = [].
Proof.
  intros A n tr s H Hq Hsl. pose proof (inv_ok A n tr s H) as IV.
  assert (Ho : owner A s = None).
  { destruct (owner A s) as [o|] eqn:E; [|reflexivity]. pose proof (i_owner _ _ _ IV o E) as L.
    destruct (nth_error (pcs A s) o) as [p|] eqn:Ep; [|apply nth_error_None in Ep; lia].
    apply (i_crit _ _ _ IV o p Ep) in E. destruct (Hq o p Ep) as [->|[g [w ->]]]; discriminate. }
  pose proof (C48_no_lost_wakeup A n tr s H Ho Hsl) as L.
  assert (Z0 : total A (woken A) (pcs A s) = 0%nat).
  { destruct (total A (woken A) (pcs A s)) eqn:E; [reflexivity|].
    destruct (total_pos A (woken A) (pcs A s)) as [t [p [A1 A2]]]; [lia|].
    destruct (Hq t p A1) as [->|[g [w ->]]]; cbn in A2; lia. }
  destruct (dq A s); [reflexivity|]. cbn in L. lia.
Qed.
Print Assumptions C48_quiescent.

(** no deadlock: while some thread is neither outside nor asleep, a step other than a call
    or a spurious wake-up is possible *)
Theorem C48_no_deadlock : forall A n tr s t p, exec A n tr s -> nth_error (pcs A s) t = Some p ->
  p <> Idle A -> (forall g w, p <> GetSleep A g w) ->
  exists e s', step A s e s' /\ (forall u, e <> Wake u) /\ (forall u o, e <> Call u o).
Proof.
  intros A n tr s t p H Hp N1 N2. apply (progress A n tr s t p H Hp).
  destruct p; try reflexivity; [congruence|destruct (N2 g w); reflexivity].
Qed.
Print Assumptions C48_no_deadlock.

(** without new calls every execution comes to an end, under every schedule *)
Inductive runs (A : Type) : state A -> nat -> state A -> Prop :=
| runs_nil : forall s, runs A s 0 s
| runs_cons : forall s e s1 k s2, step A s e s1 -> (forall u o, e <> Call u o) -> runs A s1 k s2 -> runs A s (S k) s2.
Theorem C48_terminates : forall A n tr s, exec A n tr s ->
  exists bound, forall k s', runs A s k s' -> (k <= bound)%nat.
Proof.
  intros A n tr s H. exists (measure A s). intros k s' R. revert tr H.
  induction R as [s|s e s1 k s2 Hs Hc R IH]; intros tr H; [lia|].
  pose proof (measure_step A n tr s e s1 H Hs Hc). pose proof (IH _ (ex_snoc A n tr s e s1 H Hs)). lia.
Qed.
Print Assumptions C48_terminates.

(** get with canwait = 0 never sleeps *)
Theorem C48_nowait : forall A n tr s t g w, exec A n tr s -> nth_error (pcs A s) t = Some (GetSleep A g w) -> w = true.
Proof.
  intros A n tr s t g w H.
  assert (G : forall t p, nth_error (pcs A s) t = Some p -> match p with GetSleep _ _ w | GetWoken _ _ w | GetTest2 _ _ w => w = true | _ => True end).
  { clear t g w. induction H as [|tr s e s' H IH Hs]; intros u q E.
    - cbn in E. apply nth_error_In in E. apply repeat_spec in E. subst q. exact I.
    - assert (Sig : forall l l' v, signals A l l' -> nth_error l' u = Some v ->
        (forall t p, nth_error l t = Some p -> match p with GetSleep _ _ w | GetWoken _ _ w | GetTest2 _ _ w => w = true | _ => True end) ->
        match v with GetSleep _ _ w | GetWoken _ _ w | GetTest2 _ _ w => w = true | _ => True end).
      { clear. intros l l' v [Hf _] E HI. revert u E. induction Hf as [|a b la lb R Hf IHf]; intros u E; [destruct u; discriminate|].
        destruct u as [|u].
        - injection E as ->. pose proof (HI 0%nat a eq_refl) as Ha. destruct R as [->|[g [w [-> ->]]]]; exact Ha.
        - cbn in E. apply (IHf (fun t p E => HI (S t) p E) u E). }
      destruct Hs as [s t o Hp|s t p p' Hp Hl Ho|s t p d' p' e Hp Hi|s t x l Hp Hsg|s t l Hp Hsg
        |s t g w Hp Hd Hw|s t g w Hp|s t p r Hp Hr]; cbn [pcs] in E;
        destruct (nth_upd_cases _ _ _ _ _ _ E) as [[-> ->]|[N E']]; try (exact (IH u q E')); try exact I;
        try (exact (Sig _ _ q Hsg E' IH)).
      + destruct o; exact I.
      + pose proof (IH t p Hp) as P. destruct p; try discriminate; injection Hl as <-; try exact I; exact P.
      + destruct p; cbn in Hi; try discriminate;
          repeat match type of Hi with context [match ?x with _ => _ end] => destruct x end;
          try discriminate; injection Hi as _ <- _; try exact I;
          match goal with |- context [take_of _ ?g _] => destruct g; exact I end.
      + exact Hw.
      + exact (IH t _ Hp). }
  intros E. exact (G t _ E).
Qed.
Print Assumptions C48_nowait.

Example C48_ex : exists tr s, exec nat 3 tr s /\ owner nat s = None /\
  (exists t g w, nth_error (pcs nat s) t = Some (GetSleep nat g w)) /\ length (dq nat s) = 0%nat.
Proof.
  destruct (fires [] (init nat 3) (firstn 3 ex_sched)) as [[tr s]|] eqn:E; [|vm_compute in E; discriminate].
  exists tr, s. split; [eapply fires_exec; [apply ex_nil|exact E]|].
  vm_compute in E. injection E as <- <-. split; [reflexivity|]. split; [|reflexivity].
  exists 0%nat, (Batch 0), true. reflexivity.
Qed.

(** ** C49 *)

(** thread 0 waits; thread 1 adds an element and wakes it; thread 2 takes the element first:
    the waiting get returns -1 *)
Definition stolen : list (act nat) :=
  [DoCall 0 (OGet true); Do 0; Do 0;
   DoCall 1 (OAdd 7); Do 1; Do 1; Do 1; Do 1;
   DoCall 2 (OGet false); Do 2; Do 2; Do 2; Do 2; Do 2;
   Do 0; Do 0; Do 0].
Theorem C49_blocking_get_refuted : exists tr s,
  exec nat 3 tr s /\ In (Call 0 (OGet true)) tr /\ In (Return 0 RFail) tr /\ (forall t, ~ In (Wake t) tr).
Proof.
  destruct (fires [] (init nat 3) stolen) as [[tr s]|] eqn:E; [|vm_compute in E; discriminate].
  exists tr, s. split; [eapply fires_exec; [apply ex_nil|exact E]|].
  vm_compute in E. injection E as <- <-. cbn. split; [tauto|]. split; [tauto|].
  intros t F. repeat (destruct F as [F|F]; [discriminate|]). destruct F.
Qed.
Print Assumptions C49_blocking_get_refuted.

(** a spurious wake-up has the same result with a single consumer *)
Theorem C49_spurious_refuted : exists tr s,
  exec nat 1 tr s /\ In (Call 0 (OGet true)) tr /\ In (Return 0 RFail) tr.
Proof.
  destruct (fires [] (init nat 1) [DoCall 0 (OGet true); Do 0; Do 0; DoWake 0; Do 0; Do 0; Do 0]) as [[tr s]|] eqn:E;
    [|vm_compute in E; discriminate].
  exists tr, s. split; [eapply fires_exec; [apply ex_nil|exact E]|].
  vm_compute in E. injection E as <- <-. cbn. tauto.
Qed.
Print Assumptions C49_spurious_refuted.

(** With one consumer, no signal() and no spurious wake-ups, every waiting get returns an
    element.  Missing: the other cases, where it can return -1 (refuted above). *)
Theorem C49_blocking_get_partial : forall A c n tr s, exec A n tr s -> Forall (one_consumer A c) tr ->
  (forall t r, In (Effect t (OGet true) r) tr -> exists x, r = RGet x) /\
  (forall t max r, In (Effect t (OBatch max true) r) tr -> exists l, l <> [] /\ r = RBatch l).
Proof.
  intros A c n tr s H. induction H as [|tr s e s' H IH Hs]; intros Hf.
  - split; intros; destruct H.
  - pose proof Hf as Hf0. apply Forall_app in Hf. destruct Hf as [Hf He]. inversion He as [|? ? Hone _]; subst.
    destruct (IH Hf) as [IH1 IH2]. pose proof (inv_ok A n tr s H) as IV. pose proof (cinv_ok A c n tr s H Hf) as CI.
    assert (G : forall t o r, e = Effect t o r -> (o = OGet true -> exists x, r = RGet x) /\
               (forall max, o = OBatch max true -> exists l, l <> [] /\ r = RBatch l)).
    { intros t o r Ee. destruct Hs as [s t1 o1 Hp|s t1 p p' Hp Hl Ho|s t1 p d' p' x Hp Hi|s t1 x l Hp Hsg|s t1 l Hp Hsg
        |s t1 g w Hp Hd Hw|s t1 g w Hp|s t1 p r1 Hp Hr]; try discriminate.
      - destruct x as [[o0 r0]|]; [|discriminate]. cbn in Ee. injection Ee as -> -> ->.
        pose proof (i_pc _ _ _ IV t p Hp) as PI. destruct (CI t p Hp) as [_ [C2 _]].
        destruct p; cbn [inside] in Hi; try discriminate.
        + injection Hi as _ _ <- <-. split; intros; discriminate.
        + destruct (dq A s); [destruct w; [discriminate|]|discriminate]. injection Hi as _ _ <- <-.
          destruct g; split; intros; discriminate.
        + specialize (C2 eq_refl). destruct (dq A s); [congruence|discriminate].
        + destruct (rev (dq A s)); discriminate.
        + destruct (dq A s); [discriminate|]. injection Hi as _ _ <- <-. split; [eauto|intros; discriminate].
        + destruct (Nat.ltb_spec i q) as [|Ge]; [discriminate|]. injection Hi as _ _ <- <-. split; [discriminate|]. intros m _.
          cbn in PI. destruct PI as [Lo [Li [Lq [Ld Eq]]]]. exists out.
          split; [|reflexivity]. intros ->. cbn in Lo. lia.
        + destruct (rev (dq A s)); discriminate.
        + destruct (dq A s); discriminate.
        + injection Hi as _ _ <- <-. split; intros; discriminate.
      - injection Ee as _ <- <-. split; intros; discriminate. }
    split.
    + intros t r F. apply in_app_or in F. destruct F as [F|[F|[]]]; [exact (IH1 t r F)|]. exact (proj1 (G _ _ _ F) eq_refl).
    + intros t max r F. apply in_app_or in F. destruct F as [F|[F|[]]]; [exact (IH2 t max r F)|].
      exact (proj2 (G _ _ _ F) max eq_refl).
Qed.
Print Assumptions C49_blocking_get_partial.

Lemma qrun_last : forall A (q0 : list A) l o r q, qrun q0 (l ++ [(o, r)]) q -> exists q1, qrun q0 l q1 /\ qstep q1 o r q.
Proof.
  intros A q0 l o r q H. remember (l ++ [(o, r)]) as m eqn:E. destruct H as [q|q0 l0 q1 o0 r0 q2 H S]; [destruct l; discriminate|].
  apply app_inj_tail in E. destruct E as [-> E]. injection E as -> ->. eauto.
Qed.
(** in every history a get returns -1 only if the queue is empty when it takes effect, and a
    batch that returns 0 has taken at least one element *)
Theorem C49_fail_empty : forall A n tr s l o l2, exec A n tr s -> effects tr = l ++ (o, RFail) :: l2 -> qrun [] l [].
Proof.
  intros A n tr s l o l2 H E. destruct (C47_linearizable A n tr s H) as [q [Q _]]. rewrite E in Q. clear -Q.
  revert q Q. induction l2 as [|[o1 r1] l2 IH] using rev_ind; intros q Q.
  - destruct (qrun_last _ _ _ _ _ _ Q) as [q1 [Q1 S]]. inversion S; subst; exact Q1.
  - replace (l ++ (o, RFail) :: l2 ++ [(o1, r1)]) with ((l ++ (o, RFail) :: l2) ++ [(o1, r1)]) in Q by (rewrite <- app_assoc; reflexivity).
    destruct (qrun_last _ _ _ _ _ _ Q) as [q1 [Q1 _]]. eapply IH. exact Q1.
Qed.
Print Assumptions C49_fail_empty.

Example C49_ex : exists tr s, exec nat 2 tr s /\ Forall (one_consumer nat 0) tr /\ In (Effect 0 (OGet true) (RGet 7)) tr.
Proof.
  destruct (fires [] (init nat 2) [DoCall 0 (OGet true); Do 0; Do 0; DoCall 1 (OAdd 7); Do 1; Do 1; Do 1; Do 1; Do 0; Do 0; Do 0; Do 0; Do 0])
    as [[tr s]|] eqn:E; [|vm_compute in E; discriminate].
  exists tr, s. split; [eapply fires_exec; [apply ex_nil|exact E]|].
  vm_compute in E. injection E as <- <-. split; [repeat constructor|]. cbn. tauto.
Qed.
