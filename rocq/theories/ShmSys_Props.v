(** Properties of processes that share a hash map. *)

From Coq Require Import ZArith List Bool Lia Permutation.
From Verif Require Import Base Shm_Model Shm_Spec Shm_Proof ShmMap_Proof ShmOps_Proof ShmOps2_Proof.
From Verif Require Import ShmSys_Model ShmSys_Spec ShmSys_Proof ShmApi_Proof Shm_Props.
Import ListNotations.
Local Open Scope Z_scope.

(** ** C54: the reader/writer lock *)

(** In every execution of any number of processes, with deaths and failing semop calls at
    any point, a process inside a write section is the only one inside a section. *)
Theorem C54_writer_is_alone : forall R lim n m0 tr s, exec R lim n m0 tr s -> exclusive R s.
Proof. intros. apply sinv_exclusive. eapply sinv_exec; eauto. Qed.

(** The lock is never lost, whatever died: a waiting reader can enter unless a writer is
    inside, a waiting writer can enter when nobody is inside, and who is inside can leave. *)
Theorem C54_lock_is_never_lost : forall R lim n m0 tr s, exec R lim n m0 tr s ->
  forall i p, nth_error (s_procs R s) i = Some p ->
  match p_pc R p with
  | Wait Rd _ => (forall j, ~ inside R s j Wr) -> exists s', step R lim s (ELock i) s'
  | Wait Wr _ => (forall j g, ~ inside R s j g) -> exists s', step R lim s (ELock i) s'
  | Inside g b0 (Ret r) => exists s', step R lim s (EDone i g b0 r) s'
  | _ => True
  end.
Proof.
  intros R lim n m0 tr s HE i [pc u] Hi. pose proof (sinv_exec _ _ _ _ _ _ HE) as [I1 I2 I3 I4].
  destruct s as [v m ps]. cbn [s_sems s_procs p_pc] in *.
  assert (ZW : (forall j, ~ inside R (mkSys v m ps) j Wr) -> vW v = 0).
  { intros H. rewrite I2. apply sumz_zero. intros x Hx. apply In_nth_error in Hx.
    destruct Hx as (j & Hj). destruct x as [[|g b|g b0 b|] u']; try reflexivity.
    destruct g; [reflexivity|]. exfalso. apply (H j). exists b0, b, u'. auto. }
  assert (ZR : (forall j g, ~ inside R (mkSys v m ps) j g) -> vR v = 0).
  { intros H. rewrite I1. apply sumz_zero. intros x Hx. apply In_nth_error in Hx.
    destruct Hx as (j & Hj). destruct x as [[|g b|g b0 b|] u']; try reflexivity.
    exfalso. apply (H j g). exists b0, b, u'. auto. }
  pose proof (sumz_in _ (cR R) _ _ _ (cR_nn R) Hi) as LR. pose proof (sumz_in _ (cW R) _ _ _ (cW_nn R) Hi) as LW.
  pose proof (sumz_nonneg _ (cR R) ps (cR_nn R)) as NR.
  destruct v as [r w]. cbn [vR vW] in *.
  destruct pc as [|g b|g b0 b|]; auto.
  - destruct g; intros H.
    + pose proof (ZW H) as Ew. eexists. eapply SLock; eauto. cbn. rewrite Ew. cbn.
      destruct (Z.ltb_spec (r + 1) 0); [lia|reflexivity].
    + pose proof (ZW (fun j => H j Wr)) as Ew. pose proof (ZR H) as Er.
      eexists. eapply SLock; eauto. cbn. rewrite Ew, Er. reflexivity.
  - destruct b as [x| | | |]; auto.
    destruct g; unfold cR at 1 in LR; unfold cW at 1 in LW; cbn [p_pc] in LR, LW.
    + eexists. eapply SDone; eauto. cbn. destruct (Z.ltb_spec (r + -1) 0); [lia|reflexivity].
    + eexists. eapply SDone; eauto. cbn. destruct (Z.ltb_spec (w + -1) 0); [lia|reflexivity].
Qed.

(** ** C55: sections are atomic *)

(** In every execution in which read sections store nothing, the results of all completed
    sections and the memory at any time when nobody is inside a write section are those of
    running the sections one after the other, in the order in which they were left, each
    alone; of the sections of dead writers only a first part. *)
Theorem C55_sections_are_atomic : forall R lim n m0 tr s, exec R lim n m0 tr s ->
  (forall i b, In (ECall i Rd b) tr -> readonly R b) ->
  exists m1, serial R lim m0 tr m1 /\ ((forall i, ~ inside R s i Wr) -> s_mem R s = m1).
Proof.
  intros R lim n m0 tr s HE HRO. destruct (minv_exec _ _ _ _ _ _ HE HRO) as (m1 & H1 & H2).
  exists m1. split; auto. apply H2.
Qed.

(** For the methods of the map: any number of processes call any methods at any time on a
    segment that was attached once; any of them may die at any point outside of write
    sections, and inside of insert.  The results of the completed calls, in the order in
    which they were completed, are those of a finite map; a batch counts as one call. *)
Theorem C55_map_is_linearizable : forall P fuel n mz m0 h tr s,
  fits P -> (Z.to_nat (nobj P) < fuel)%nat ->
  zeroed mz -> run (required_space P) (attach P) mz = Ok (h, m0) ->
  exec mret (required_space P) n m0 tr s -> api_trace P fuel tr ->
  exists l lk f, shows P fuel tr l /\ cruns (nobj P) 0 [] l lk f.
Proof.
  intros P fuel n mz m0 h tr s HP Hf Hz EA HE HT.
  destruct (attach_new P HP mz Hz) as (m1 & E & HS). rewrite EA in E. injection E as -> ->.
  apply (linear P fuel n m1 tr [] 0 s); auto.
Qed.

(** ... and no process ever makes an undefined access or gets stuck: whoever is inside a
    section can take its next step or leave. *)
Theorem C55_sections_are_safe : forall P fuel n mz m0 h tr s,
  fits P -> (Z.to_nat (nobj P) < fuel)%nat ->
  zeroed mz -> run (required_space P) (attach P) mz = Ok (h, m0) ->
  exec mret (required_space P) n m0 tr s -> api_trace P fuel tr ->
  forall i g b0 b u, nth_error (s_procs mret s) i = Some (mkProc (Inside g b0 b) u) ->
  exists e s', step mret (required_space P) s e s' /\
    (e = EMem i \/ exists r, e = EDone i g b0 r).
Proof.
  intros P fuel n mz m0 h tr s HP Hf Hz EA HE HT i g b0 b u Hi.
  destruct (attach_new P HP mz Hz) as (m1 & E & HS). rewrite EA in E. injection E as -> ->.
  destruct HT as (A1 & A2).
  destruct (exec_called _ _ _ _ _ _ HE) as (_ & C2 & C3 & C4).
  destruct (A1 i g b0 (C2 _ _ _ _ _ Hi)) as (o & Ho & Hg & Hb).
  destruct (trace_shows P fuel tr) as (l & Hl).
  { intros j g' b' r Hj. apply (A1 j). eauto. }
  { auto. }
  destruct (minv_exec _ _ _ _ _ _ HE) as (m2 & Hser & [M1 M2 M3 M4]).
  { intros j b' Hj. destruct (A1 j Rd b' Hj) as (o' & _ & E' & ->). apply api_readonly. auto. }
  destruct (serial_shows P HP fuel Hf _ _ _ Hser l [] 0 Hl HS) as (lk & f & HC & HS2).
  destruct (api_step P HP fuel Hf f lk m2 o HS2 Ho) as (r & m3 & s3 & lk3 & ER & _).
  assert (HR : exists mm, run (required_space P) b mm = Ok (r, m3) /\ (g = Wr -> mm = s_mem mret s)
               /\ (g = Rd -> mm = m2 /\ readonly mret b)).
  { subst b0. destruct g.
    - destruct (M2 _ _ _ _ Hi) as (X1 & X2). exists m2. split; [|split; auto; discriminate].
      rewrite <- (psteps_run _ _ _ _ _ _ X2). auto.
    - pose proof (M3 _ _ _ _ Hi) as X. exists (s_mem mret s). split; [|split; auto; discriminate].
      rewrite <- (psteps_run _ _ _ _ _ _ X). auto. }
  destruct HR as (mm & HR & HW & HRd).
  pose proof (C54_lock_is_never_lost _ _ _ _ _ _ HE i _ Hi) as HL. cbn [p_pc] in HL.
  destruct s as [v m ps]. cbn [s_procs s_mem] in *.
  destruct b as [x|sz a k|sz a w k|ub|]; cbn [run] in HR; try discriminate.
  - destruct HL as (s' & HL). exists (EDone i g b0 x), s'. split; auto. right. eauto.
  - destruct (inb (required_space P) sz a) eqn:EI; [|discriminate].
    do 2 eexists. split; [|left; reflexivity]. eapply SMem; eauto. constructor. auto.
  - destruct (inb (required_space P) sz a) eqn:EI; [|discriminate].
    do 2 eexists. split; [|left; reflexivity]. eapply SMem; eauto. constructor. auto.
Qed.

(** ** An executable scheduler, to show that the hypotheses are met *)

Inductive act := ACall (i : nat) (o : mop) | ALock (i : nat) | AMem (i : nat) | ADone (i : nat)
               | ADie (i : nat).
Definition fire (P : tpar) (fuel : nat) (s : sys mret) (a : act)
  : option (event mret * sys mret) :=
  let '(mkSys v m ps) := s in
  match a with
  | ACall i o =>
      match nth_error ps i with
      | Some (mkProc Idle u) =>
          Some (ECall i (lock_of o) (api P fuel o),
                mkSys v m (upd ps i (mkProc (Wait (lock_of o) (api P fuel o)) u)))
      | _ => None
      end
  | ALock i =>
      match nth_error ps i with
      | Some (mkProc (Wait g b) u) =>
          match sem_try v (lock_ops g) with
          | Some v' => Some (ELock i, mkSys v' m (upd ps i (mkProc (Inside g b b) (undo_add u (lock_ops g)))))
          | None => None
          end
      | _ => None
      end
  | AMem i =>
      match nth_error ps i with
      | Some (mkProc (Inside g b0 b) u) =>
          match b with
          | Load sz a k => if inb (required_space P) sz a
              then Some (EMem i, mkSys v m (upd ps i (mkProc (Inside g b0 (k (m a))) u))) else None
          | Store sz a x k => if inb (required_space P) sz a
              then Some (EMem i, mkSys v (mset m a x) (upd ps i (mkProc (Inside g b0 k) u))) else None
          | _ => None
          end
      | _ => None
      end
  | ADone i =>
      match nth_error ps i with
      | Some (mkProc (Inside g b0 (Ret r)) u) =>
          match sem_try v (unlock_ops g) with
          | Some v' => Some (EDone i g b0 r, mkSys v' m (upd ps i (mkProc Idle (undo_add u (unlock_ops g)))))
          | None => None
          end
      | _ => None
      end
  | ADie i =>
      match nth_error ps i with
      | Some (mkProc Dead u) => None
      | Some (mkProc p u) =>
          Some (ECrash i (section_of mret p), mkSys (undo_apply v u) m (upd ps i (mkProc Dead (mkSems 0 0))))
      | None => None
      end
  end.
Fixpoint fires (P : tpar) (fuel : nat) (tr : list (event mret)) (s : sys mret) (l : list act)
  : option (list (event mret) * sys mret) :=
  match l with
  | [] => Some (tr, s)
  | a :: l => match fire P fuel s a with
              | Some (e, s') => fires P fuel (tr ++ [e]) s' l
              | None => None
              end
  end.

Lemma fire_step : forall P fuel s a e s', fire P fuel s a = Some (e, s') ->
  step mret (required_space P) s e s'.
Proof.
  intros P fuel [v m ps] a e s' H. destruct a as [i o|i|i|i|i]; cbn [fire] in H;
    destruct (nth_error ps i) as [[p u]|] eqn:E; try discriminate.
  - destruct p; try discriminate. injection H as <- <-. now constructor.
  - destruct p as [|g b| |]; try discriminate. destruct (sem_try v (lock_ops g)) eqn:L; try discriminate.
    injection H as <- <-. eapply SLock; eauto.
  - destruct p as [| |g b0 b|]; try discriminate. destruct b as [x|sz a k|sz a w k|ub|]; try discriminate;
      destruct (inb (required_space P) sz a) eqn:I; try discriminate; injection H as <- <-;
      eapply SMem; eauto; constructor; auto.
  - destruct p as [| |g b0 b|]; try discriminate. destruct b as [x|sz a k|sz a w k|ub|]; try discriminate.
    destruct (sem_try v (unlock_ops g)) eqn:L; try discriminate. injection H as <- <-.
    eapply SDone; eauto.
  - assert (Hp : p <> Dead) by (intros ->; discriminate).
    pose proof (SCrash mret (required_space P) v m ps i p u E Hp) as X.
    destruct p; try discriminate; injection H as <- <-; exact X.
Qed.
Lemma fires_exec : forall P fuel n m0 l tr s tr' s', exec mret (required_space P) n m0 tr s ->
  fires P fuel tr s l = Some (tr', s') -> exec mret (required_space P) n m0 tr' s'.
Proof.
  induction l as [|a l IH]; intros tr s tr' s' HE H; cbn [fires] in H.
  - injection H as <- <-. auto.
  - destruct (fire P fuel s a) as [(e, s1)|] eqn:E; [|discriminate].
    apply (IH (tr ++ [e]) s1); auto. econstructor; eauto. eapply fire_step; eauto.
Qed.

Definition ex_m0 : mem := mem_after (run (required_space exP) (attach exP) (cells 0 [])).
(** two processes: 1 wants to read while 0 inserts; 0 dies half way through its next insert;
    1 goes on *)
Definition ex_acts : list act :=
  [ACall 0 (MInsert 4 [10]); ACall 1 (MRead 4); ALock 0] ++ repeat (AMem 0) 8 ++
  [ADone 0; ALock 1] ++ repeat (AMem 1) 3 ++
  [ADone 1; ACall 0 (MInsert 6 [20]); ALock 0; AMem 0; AMem 0; AMem 0; AMem 0; AMem 0; AMem 0;
   ADie 0; ACall 1 MSize; ALock 1] ++ repeat (AMem 1) 2 ++ [ADone 1].
Definition done_results (tr : list (event mret)) : list mret :=
  flat_map (fun e => match e with EDone _ _ _ r => [r] | _ => [] end) tr.
Example ex_concurrent :
  (exists tr s, exec mret (required_space exP) 2 ex_m0 tr s
     /\ fires exP 5 [] (init mret 2 ex_m0) ex_acts = Some (tr, s))
  /\ (match fires exP 5 [] (init mret 2 ex_m0) ex_acts with
      | Some (tr, _) => done_results tr
      | None => []
      end) = [MBool true; MVal (Some [10]); MNum 2].
Proof.
  split; [|vm_compute; reflexivity].
  destruct (fires exP 5 [] (init mret 2 ex_m0) ex_acts) as [(tr, s)|] eqn:E.
  - exists tr, s. split; auto. eapply fires_exec; [constructor|exact E].
  - exfalso. assert (X : (match fires exP 5 [] (init mret 2 ex_m0) ex_acts with
                          | Some _ => true | None => false end) = true) by (vm_compute; reflexivity).
    rewrite E in X. discriminate.
Qed.
(** its trace satisfies the hypothesis of the theorems *)
Lemma fires_events : forall P fuel l tr s tr' s', fires P fuel tr s l = Some (tr', s') ->
  forall e, In e tr' -> In e tr \/
    match e with ECall i g b => exists o, In (ACall i o) l /\ g = lock_of o /\ b = api P fuel o
               | _ => True end.
Proof.
  induction l as [|a l IH]; intros tr s tr' s' H e He; cbn [fires] in H.
  - injection H as <- <-. auto.
  - destruct (fire P fuel s a) as [(e1, s1)|] eqn:E; [|discriminate].
    destruct (IH _ _ _ _ H e He) as [X|X].
    + apply in_app_or in X. destruct X as [X|[X|[]]]; auto. subst e1. right.
      destruct s as [v m ps]. destruct e as [i g b|i|i|i|i g b r|i w]; auto.
      destruct a as [i' o|i'|i'|i'|i']; cbn [fire] in E;
        destruct (nth_error ps i') as [[p u]|]; try discriminate.
      * destruct p; try discriminate. injection E as <- <- <- _. exists o. split; auto. now left.
      * destruct p as [|g' b'| |]; try discriminate. destruct (sem_try v (lock_ops g')); discriminate.
      * destruct p as [| |g' b0 b'|]; try discriminate. destruct b' as [x|sz a k|sz a w k|ub|]; try discriminate;
          destruct (inb (required_space P) sz a); discriminate.
      * destruct p as [| |g' b0 b'|]; try discriminate. destruct b' as [x|sz a k|sz a w k|ub|]; try discriminate.
        destruct (sem_try v (unlock_ops g')); discriminate.
      * destruct p; discriminate.
    + right. destruct e as [i g b|i|i|i|i g b r|i w]; auto.
      destruct X as (o & X & Y). exists o. split; auto. now right.
Qed.

Lemma ex_acts_ok : forall i o, In (ACall i o) ex_acts -> mwf exP o
  /\ (lock_of o = Wr -> exists l, died_batch o = Some l).
Proof.
  intros i o Hi.
  assert (F : Forall (fun a => match a with
     | ACall _ o => mwf exP o /\ (lock_of o = Wr -> exists l, died_batch o = Some l)
     | _ => True end) ex_acts).
  { unfold ex_acts. repeat (apply Forall_app; split); cbn [repeat];
      repeat (apply Forall_cons || apply Forall_nil); try exact Logic.I;
      (split; [exact Logic.I || reflexivity|intro X; try discriminate X; eexists; reflexivity]). }
  rewrite Forall_forall in F. apply (F _ Hi).
Qed.
Example ex_api_trace : forall tr s,
  fires exP 5 [] (init mret 2 ex_m0) ex_acts = Some (tr, s) -> api_trace exP 5 tr.
Proof.
  generalize ex_acts_ok. generalize ex_acts ex_m0. intros acts m0 HA tr s H.
  pose proof (fires_exec exP 5 2 m0 acts _ _ tr s (exec_nil _ _ _ _) H) as HE.
  assert (HC : forall i g b, In (ECall i g b) tr ->
    exists o, In (ACall i o) acts /\ g = lock_of o /\ b = api exP 5 o).
  { intros i g b Hi. destruct (fires_events _ _ _ _ _ _ _ H _ Hi) as [X|X]; [destruct X|auto]. }
  split.
  - intros i g b Hi. destruct (HC i g b Hi) as (o & A & B & C). exists o. destruct (HA i o A). auto.
  - intros i b Hi. destruct (exec_called _ _ _ _ _ _ HE) as (_ & _ & _ & C4).
    destruct (HC i Wr b (C4 _ _ _ Hi)) as (o & A & B & C). destruct (HA i o A) as (D & F).
    destruct F as (l & F); auto. exists o, l. auto.
Qed.

(** ** C56: connect *)

(** With a semaphore set that exists already, and no interrupted semop, the write sections
    of any number of connecting processes exclude each other, with deaths at any point.
    Missing for the full statement: the creation of the set and interrupted calls, where it
    is false. *)
Theorem C56_connect_excludes_partial : forall n l s,
  csteps (cinit true n) l s -> (forall b, In b l -> b = false) -> cexclusive s.
Proof.
  intros n l s H Hl. apply kinv_exclusive. eapply kinv_steps; eauto. apply kinv_init.
Qed.

(** "Two processes that are the first to connect never initialise the segment at the same
    time": the one that created the set resets it after the other has locked it. *)
Theorem C56_first_connect_refuted : exists l s,
  csteps (cinit false 2) l s /\ (forall b, In b l -> b = false) /\ ~ cexclusive s.
Proof.
  assert (S : exists l s, csteps (cinit false 2) l s /\ (forall b, In b l -> b = false)
     /\ c_procs s = [(KShmIn, mkSems 0 (-1)); (KShmIn, mkSems 0 0)]).
  { do 2 eexists. split; [|split].
    - eapply CSnoc; [eapply CSnoc; [eapply CSnoc; [eapply CSnoc; [eapply CSnoc; [eapply CSnoc;
        [eapply CSnoc; [eapply CNil|]|]|]|]|]|]|].
      + apply (CGetNone _ _ 0 (mkSems 0 0)). reflexivity.
      + apply (CCreate _ _ _ 0 (mkSems 0 0)). reflexivity.
      + apply (CGetOld _ _ 1 (mkSems 0 0)). reflexivity.
      + apply (CShmLock _ _ _ 1 (mkSems 0 0) (mkSems 0 1)); reflexivity.
      + apply (CSetR _ _ _ 0 (mkSems 0 0)). reflexivity.
      + apply (CSetW _ _ _ 0 (mkSems 0 0)). reflexivity.
      + apply (CShmLock _ _ _ 0 (mkSems 0 0) (mkSems 0 1)); reflexivity.
    - cbn. intuition.
    - reflexivity. }
  destruct S as (l & s & H & Hl & E). exists l, s. split; [exact H|]. split; auto.
  intro X. specialize (X 0%nat 1%nat). cut (0 = 1)%nat; [discriminate|]. apply X.
  - exists KShmIn, (mkSems 0 (-1)). rewrite E. auto.
  - exists KShmIn, (mkSems 0 0). rewrite E. auto.
Qed.

(** "An interrupted connect leaves the lock as it was": its handler releases a lock that
    another process holds. *)
Theorem C56_interrupted_connect_refuted : exists l s,
  csteps (cinit true 3) l s /\ ~ cexclusive s.
Proof.
  assert (S : exists l s, csteps (cinit true 3) l s
     /\ c_procs s = [(KDown, mkSems 0 1); (KShmIn, mkSems 0 (-1)); (KShmIn, mkSems 0 (-1))]).
  { do 2 eexists. split; [|shelve].
    eapply CSnoc; [eapply CSnoc; [eapply CSnoc; [eapply CSnoc; [eapply CSnoc; [eapply CSnoc;
        [eapply CSnoc; [eapply CSnoc; [eapply CSnoc; [eapply CNil|]|]|]|]|]|]|]|]|].
    - apply (CGetOld _ _ 0 (mkSems 0 0)). reflexivity.
    - apply (CShmLock _ _ _ 0 (mkSems 0 0) (mkSems 0 1)); reflexivity.
    - apply (CShmUnlock _ _ _ 0 (mkSems 0 (-1)) (mkSems 0 0)); reflexivity.
    - apply (CGetOld _ _ 1 (mkSems 0 0)). reflexivity.
    - apply (CShmLock _ _ _ 1 (mkSems 0 0) (mkSems 0 1)); reflexivity.
    - apply (CLockThrow _ _ _ 0 (mkSems 0 0)). reflexivity.
    - apply (CErrUnlock _ _ _ 0 (mkSems 0 0) (mkSems 0 0)); reflexivity.
    - apply (CGetOld _ _ 2 (mkSems 0 0)). reflexivity.
    - apply (CShmLock _ _ _ 2 (mkSems 0 0) (mkSems 0 1)); reflexivity.
    Unshelve. reflexivity. }
  destruct S as (l & s & H & E). exists l, s. split; [exact H|].
  intro X. specialize (X 1%nat 2%nat). cut (1 = 2)%nat; [discriminate|]. apply X.
  - exists KShmIn, (mkSems 0 (-1)). rewrite E. auto.
  - exists KShmIn, (mkSems 0 (-1)). rewrite E. auto.
Qed.

Print Assumptions C54_writer_is_alone.
Print Assumptions C54_lock_is_never_lost.
Print Assumptions C55_sections_are_atomic.
Print Assumptions C55_map_is_linearizable.
Print Assumptions C55_sections_are_safe.
Print Assumptions C56_connect_excludes_partial.
Print Assumptions C56_first_connect_refuted.
Print Assumptions C56_interrupted_connect_refuted.
