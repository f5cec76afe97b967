(** Properties C108 and C109: calls on the shared map and on the shared queue come to an end. *)

From Coq Require Import ZArith List Bool Lia.
From Verif Require Import Base Shm_Spec Shm_Model ShmSys_Spec ShmSys_Model ShmSys_Proof ShmOps2_Proof Shm_Props ShmSys_Props Live_Spec Live_Proof.
Import ListNotations.
Local Open Scope Z_scope.

(** *** the map *)

(** the moves of one process *)
Inductive pcmove {R} : pc R -> pc R -> Prop :=
| mv_lock : forall g b, pcmove (Inside g b b) (Wait g b)
| mv_throw : forall g b, pcmove Idle (Wait g b)
| mv_load : forall g b0 sz a k v, pcmove (Inside g b0 (k v)) (Inside g b0 (Load sz a k))
| mv_store : forall g b0 sz a v k, pcmove (Inside g b0 k) (Inside g b0 (Store sz a v k))
| mv_done : forall g b0 r, pcmove Idle (Inside g b0 (Ret r))
| mv_die : forall p, p <> Dead -> pcmove Dead p.
Lemma acc_dead : forall R, Acc (@pcmove R) Dead.
Proof. intros R. constructor. intros p H. inversion H. congruence. Qed.
Lemma acc_idle : forall R, Acc (@pcmove R) Idle.
Proof. intros R. constructor. intros p H. inversion H. apply acc_dead. Qed.
Lemma acc_inside : forall R g b0 b, Acc (@pcmove R) (Inside g b0 b).
Proof.
  intros R g b0 b. revert b0. induction b as [r|sz a k IH|sz a v k IH|u|]; intros b0; constructor; intros p H;
    inversion H; subst; auto using acc_dead, acc_idle.
Qed.
Lemma acc_pc : forall R p, Acc (@pcmove R) p.
Proof.
  intros R [|g b|g b0 b|]; auto using acc_dead, acc_idle, acc_inside.
  constructor. intros p H. inversion H; subst; auto using acc_dead, acc_idle, acc_inside.
Qed.

Definition pmove {R} (p' p : proc R) : Prop := pcmove (p_pc R p') (p_pc R p).
Lemma acc_proc : forall R p, Acc (@pmove R) p.
Proof.
  intros R p. remember (p_pc R p) as c eqn:E. revert p E. induction (acc_pc R c) as [c _ IH]. intros p ->.
  constructor. intros p' H. eapply IH; [exact H|reflexivity].
Qed.
Lemma step_moves : forall R lim s e s', step R lim s e s' -> goes_on e = true -> one pmove (s_procs R s') (s_procs R s).
Proof.
  intros R lim s e s' H G. inversion H; subst; try discriminate G; cbn [s_procs];
    eapply one_upd; try eassumption; unfold pmove; cbn [p_pc]; try (constructor; fail).
  - match goal with H : pstep _ _ _ _ _ |- _ => inversion H; subst end; constructor.
  - constructor. assumption.
Qed.

(** Whatever the schedule: without new calls the system comes to rest.  For any bodies, and
    deaths and failures as they come. *)
Theorem C108_every_schedule_ends : forall R lim s,
  Acc (fun s' s => exists e, step R lim s e s' /\ goes_on e = true) s.
Proof.
  intros R lim s. remember (s_procs R s) as l eqn:E. revert s E.
  induction (acc_one _ _ (acc_proc R) l) as [l _ IH]. intros s ->.
  constructor. intros s' (e & H & G). eapply IH; [|reflexivity]. eapply step_moves; eassumption.
Qed.
Print Assumptions C108_every_schedule_ends.

(** No deadlock: while a call is going on some process can do the next step of its call. *)
Theorem C108_no_deadlock : forall P fuel n mz m0 h tr s,
  fits P -> (Z.to_nat (nobj P) < fuel)%nat ->
  zeroed mz -> run (required_space P) (attach P) mz = Ok (h, m0) ->
  exec mret (required_space P) n m0 tr s -> api_trace P fuel tr ->
  (exists i p, nth_error (s_procs mret s) i = Some p /\ p_pc mret p <> Idle /\ p_pc mret p <> Dead) ->
  exists e s', step mret (required_space P) s e s' /\ works e = true.
Proof.
  intros P fuel n mz m0 h tr s HP Hf Hz EA HE HT (i & p & Hi & N1 & N2).
  assert (D : (exists j g, inside mret s j g) \/ forall j g, ~ inside mret s j g).
  { clear. destruct s as [v m ps].
    induction ps as [|[c u] ps [(j & g & b0 & b & u' & E)|IH]].
    - right. intros [|j] g (b0 & b & u & E); discriminate E.
    - left. exists (S j), g, b0, b, u'. exact E.
    - destruct c as [|g b|g b0 b|].
      3:{ left. exists 0%nat, g, b0, b, u. reflexivity. }
      all: right; intros [|j] g' (b0' & b' & u' & E); [discriminate E|]; apply (IH j g'); exists b0', b', u'; exact E. }
  destruct D as [(j & g & b0 & b & u & E)|D].
  - destruct (C55_sections_are_safe P fuel n mz m0 h tr s HP Hf Hz EA HE HT j g b0 b u E) as (e & s' & St & [->|(r & ->)]);
      (eexists _, s'; split; [exact St|reflexivity]).
  - pose proof (C54_lock_is_never_lost _ _ _ _ _ _ HE i p Hi) as L. destruct p as [c u]. cbn [p_pc] in *.
    destruct c as [|g b|g b0 b|]; try congruence.
    + destruct g.
      * destruct L as (s' & L); [intros j; apply D|]. eexists _, s'. split; [exact L|reflexivity].
      * destruct L as (s' & L); [exact D|]. eexists _, s'. split; [exact L|reflexivity].
    + exfalso. apply (D i g). exists b0, b, u. exact Hi.
Qed.
Print Assumptions C108_no_deadlock.

Lemma api_trace_works : forall P fuel tr tr2, api_trace P fuel tr -> forallb works tr2 = true -> api_trace P fuel (tr ++ tr2).
Proof.
  intros P fuel tr tr2 (A & B) W. rewrite forallb_forall in W. split.
  - intros i g b H. apply in_app_or in H. destruct H as [H|H]; [eauto|]. apply W in H. discriminate.
  - intros i b H. apply in_app_or in H. destruct H as [H|H]; [eauto|]. apply W in H. discriminate.
Qed.
Lemma exec_snoc' : forall R lim n m0 tr s e s', exec R lim n m0 tr s -> step R lim s e s' -> exec R lim n m0 (tr ++ [e]) s'.
Proof. intros. econstructor; eassumption. Qed.

(** what the working steps do to one process *)
Lemma work_step : forall lim s e s' i p, step mret lim s e s' -> works e = true -> nth_error (s_procs mret s) i = Some p ->
  exists p', nth_error (s_procs mret s') i = Some p' /\
  (pending (p_pc mret p') = pending (p_pc mret p) /\ (p_pc mret p = Dead <-> p_pc mret p' = Dead) \/
   exists g b r, pending (p_pc mret p) = Some (g, b) /\ e = EDone i g b r /\ p_pc mret p' = Idle).
Proof.
  intros lim s e s' i p H W Hi.
  destruct H as [v m ps k u g b E|v m ps k u g b v' E V|v m ps k u g b E|v m ps k u g b0 b b' m' E M|v m ps k u g b0 r v' E V|v m ps k q u E N];
    try discriminate W; cbn [s_procs] in *;
    (destruct (Nat.eq_dec k i) as [->|N];
     [rewrite E in Hi; injection Hi as <-; eexists; split;
      [apply nth_error_upd_same; apply nth_error_Some; congruence|cbn [p_pc pending]]
     |exists p; rewrite nth_error_upd_other by auto; split; [exact Hi|left; split; [reflexivity|tauto]]]).
  - left. split; [reflexivity|split; discriminate].
  - left. split; [reflexivity|split; discriminate].
  - right. eauto 7.
Qed.

Lemma exec_steps : forall R lim n m0 s tr2 s2, steps lim s tr2 s2 -> forall tr, exec R lim n m0 tr s -> exec R lim n m0 (tr ++ tr2) s2.
Proof.
  induction 1 as [s|s e s1 tr2 s2 H1 H2 IH]; intros tr E.
  - rewrite app_nil_r. exact E.
  - change (e :: tr2) with ([e] ++ tr2). rewrite app_assoc. apply IH. econstructor; eassumption.
Qed.

(** what a run of working steps does: each call going on either still goes on or has returned *)
Lemma work_steps : forall lim s tr2 s2 i p, steps lim s tr2 s2 -> forallb works tr2 = true ->
  nth_error (s_procs mret s) i = Some p ->
  exists p', nth_error (s_procs mret s2) i = Some p' /\
  (pending (p_pc mret p') = pending (p_pc mret p) /\ (p_pc mret p = Dead <-> p_pc mret p' = Dead) \/
   exists g b r, pending (p_pc mret p) = Some (g, b) /\ In (EDone i g b r) tr2 /\ p_pc mret p' = Idle).
Proof.
  intros lim s tr2 s2 i p H. revert p. induction H as [s|s e s1 tr2 s2 H1 H2 IH]; intros p W Hi.
  - exists p. split; [exact Hi|left; split; [reflexivity|tauto]].
  - cbn in W. apply andb_prop in W. destruct W as [W1 W2].
    destruct (work_step _ _ _ _ _ _ H1 W1 Hi) as (p1 & E1 & C1).
    destruct (IH p1 W2 E1) as (p2 & E2 & C2). exists p2. split; [exact E2|].
    destruct C1 as [(P1 & D1)|(g & b & r & P1 & -> & I1)].
    + destruct C2 as [(P2 & D2)|(g & b & r & P2 & J2 & I2)].
      * left. split; [congruence|tauto].
      * right. exists g, b, r. rewrite <- P1. split; [exact P2|]. split; [right; exact J2|exact I2].
    + right. exists g, b, r. split; [exact P1|]. split; [left; reflexivity|].
      destruct C2 as [(P2 & D2)|(g' & b' & r' & P2 & _)].
      * rewrite I1 in *. destruct (p_pc mret p2); try discriminate P2; try reflexivity. destruct D2 as [_ D2]. now specialize (D2 eq_refl).
      * rewrite I1 in P2. discriminate.
Qed.

(** Every call returns: a run of working steps that cannot be continued has answered every call
    that was going on, and there is such a run from every state. *)
Theorem C108_calls_return : forall P fuel n mz m0 h tr s,
  fits P -> (Z.to_nat (nobj P) < fuel)%nat ->
  zeroed mz -> run (required_space P) (attach P) mz = Ok (h, m0) ->
  exec mret (required_space P) n m0 tr s -> api_trace P fuel tr ->
  (exists tr2 s2, steps (required_space P) s tr2 s2 /\ forallb works tr2 = true /\
     forall e s3, step mret (required_space P) s2 e s3 -> works e = false) /\
  (forall tr2 s2, steps (required_space P) s tr2 s2 -> forallb works tr2 = true ->
     (forall e s3, step mret (required_space P) s2 e s3 -> works e = false) ->
     (forall i p, nth_error (s_procs mret s2) i = Some p -> p_pc mret p = Idle \/ p_pc mret p = Dead) /\
     (forall i p g b, nth_error (s_procs mret s) i = Some p -> pending (p_pc mret p) = Some (g, b) ->
        exists r, In (EDone i g b r) tr2)).
Proof.
  intros P fuel n mz m0 h tr s HP Hf Hz EA HE HT. split.
  - assert (HE0 := HE). assert (HT0 := HT). rename tr into tr0. clear HE HT.
    assert (K : forall tr, exec mret (required_space P) n m0 tr s -> api_trace P fuel tr ->
      exists tr2 s2, steps (required_space P) s tr2 s2 /\ forallb works tr2 = true /\
        forall i p, nth_error (s_procs mret s2) i = Some p -> p_pc mret p = Idle \/ p_pc mret p = Dead).
    { clear HE0 HT0. induction (C108_every_schedule_ends mret (required_space P) s) as [s _ IH]. intros tr HE HT.
      assert (D : (exists i p, nth_error (s_procs mret s) i = Some p /\ p_pc mret p <> Idle /\ p_pc mret p <> Dead) \/
        (forall i p, nth_error (s_procs mret s) i = Some p -> p_pc mret p = Idle \/ p_pc mret p = Dead)).
      { clear. induction (s_procs mret s) as [|q l [(i & p & A)|IH]].
        - right. intros [|i] p E; discriminate E.
        - left. exists (S i), p. exact A.
        - destruct (p_pc mret q) eqn:Q.
          1,4: right; intros [|i] p E; [injection E as <-; rewrite Q; tauto|exact (IH i p E)].
          all: left; exists 0%nat, q; split; [reflexivity|rewrite Q; split; discriminate]. }
      destruct D as [D|D].
      - destruct (C108_no_deadlock P fuel n mz m0 h tr s HP Hf Hz EA HE HT D) as (e & s1 & St & W).
        destruct (IH s1) with (tr := tr ++ [e]) as (tr2 & s2 & S2 & W2 & Q2).
        + exists e. split; [exact St|]. destruct e; try discriminate W; reflexivity.
        + econstructor; eassumption.
        + apply api_trace_works; [exact HT|]. cbn. now rewrite W.
        + exists (e :: tr2), s2. split; [econstructor; eassumption|]. split; [cbn; now rewrite W, W2|exact Q2].
      - exists [], s. split; [constructor|]. split; [reflexivity|exact D]. }
    destruct (K tr0 HE0 HT0) as (tr2 & s2 & S2 & W2 & Q2). exists tr2, s2. split; [exact S2|]. split; [exact W2|].
    intros e s3 H. destruct (works e) eqn:W; [exfalso|reflexivity].
    destruct H as [v m ps k u g b E|v m ps k u g b v' E V|v m ps k u g b E|v m ps k u g b0 b b' m' E M|v m ps k u g b0 r v' E V|v m ps k q u E N];
      try discriminate W; destruct (Q2 _ _ E) as [X|X]; discriminate X.
  - intros tr2 s2 S2 W2 M.
    assert (E2 := exec_steps _ _ _ _ _ _ _ S2 _ HE).
    assert (T2 := api_trace_works _ _ _ _ HT W2).
    assert (Q : forall i p, nth_error (s_procs mret s2) i = Some p -> p_pc mret p = Idle \/ p_pc mret p = Dead).
    { intros i p Hi. destruct (p_pc mret p) eqn:C; auto; exfalso.
      1,2: destruct (C108_no_deadlock P fuel n mz m0 h _ s2 HP Hf Hz EA E2 T2) as (e & s3 & St & W);
        [exists i, p; rewrite C; split; [exact Hi|split; discriminate]|rewrite (M e s3 St) in W; discriminate]. }
    split; [exact Q|]. intros i p g b Hi Pe.
    destruct (work_steps _ _ _ _ _ _ S2 W2 Hi) as (p' & Hi' & [(Pp & Dd)|(g' & b' & r & Pp & J & _)]).
    + rewrite Pe in Pp. destruct (Q _ _ Hi') as [X|X]; rewrite X in Pp; discriminate.
    + rewrite Pe in Pp. injection Pp as <- <-. eauto.
Qed.
Print Assumptions C108_calls_return.

(** *** Readers that overlap keep a writer out for ever *)

(** process 0 and 1 ask for the size all the time, 2 waits to erase a key *)
Definition nx (m : mem) (b : prog mret) : prog mret := match b with Load _ a k => k (m a) | b => b end.
Definition sizeb : prog mret := api exP 5 MSize.
Definition eraseb : prog mret := api exP 5 (MErase 1).
Definition idle : proc mret := mkProc Idle (mkSems 0 0).
Definition asks : proc mret := mkProc (Wait Rd sizeb) (mkSems 0 0).
Definition reads (b : prog mret) : proc mret := mkProc (Inside Rd sizeb b) (mkSems (-1) 0).
Definition writer : proc mret := mkProc (Wait Wr eraseb) (mkSems 0 0).
Definition st (m : mem) (n : nat) : sys mret :=
  match n with
  | 0%nat => mkSys (mkSems 0 0) m [idle; idle; idle]
  | 1%nat => mkSys (mkSems 0 0) m [asks; idle; idle]
  | 2%nat => mkSys (mkSems 1 0) m [reads sizeb; idle; idle]
  | S (S (S n)) =>
      match (n mod 10)%nat with
      | 0%nat => mkSys (mkSems 1 0) m [reads sizeb; idle; writer]
      | 1%nat => mkSys (mkSems 1 0) m [reads sizeb; asks; writer]
      | 2%nat => mkSys (mkSems 2 0) m [reads sizeb; reads sizeb; writer]
      | 3%nat => mkSys (mkSems 2 0) m [reads (nx m sizeb); reads sizeb; writer]
      | 4%nat => mkSys (mkSems 2 0) m [reads (nx m (nx m sizeb)); reads sizeb; writer]
      | 5%nat => mkSys (mkSems 1 0) m [idle; reads sizeb; writer]
      | 6%nat => mkSys (mkSems 1 0) m [asks; reads sizeb; writer]
      | 7%nat => mkSys (mkSems 2 0) m [reads sizeb; reads sizeb; writer]
      | 8%nat => mkSys (mkSems 2 0) m [reads sizeb; reads (nx m sizeb); writer]
      | _ => mkSys (mkSems 2 0) m [reads sizeb; reads (nx m (nx m sizeb)); writer]
      end
  end.
Definition answer (m : mem) : mret := match nx m (nx m sizeb) with Ret r => r | _ => MDone end.
Definition ev (m : mem) (n : nat) : event mret :=
  match n with
  | 0%nat => ECall 0 Rd sizeb
  | 1%nat => ELock 0
  | 2%nat => ECall 2 Wr eraseb
  | S (S (S n)) =>
      match (n mod 10)%nat with
      | 0%nat => ECall 1 Rd sizeb
      | 1%nat => ELock 1
      | 2%nat | 3%nat => EMem 0
      | 4%nat => EDone 0 Rd sizeb (answer m)
      | 5%nat => ECall 0 Rd sizeb
      | 6%nat => ELock 0
      | 7%nat | 8%nat => EMem 1
      | _ => EDone 1 Rd sizeb (answer m)
      end
  end.

Lemma mod10 : forall n, (S n mod 10 = if n mod 10 =? 9 then 0 else S (n mod 10))%nat.
Proof.
  intros n. pose proof (Nat.div_mod n 10 ltac:(lia)) as D. pose proof (Nat.mod_upper_bound n 10 ltac:(lia)) as U.
  destruct (Nat.eqb_spec (n mod 10) 9) as [E|E].
  - symmetry. apply Nat.mod_unique with (q := S (n / 10)); lia.
  - symmetry. apply Nat.mod_unique with (q := (n / 10)%nat); lia.
Qed.
Lemma size1 : forall m, pstep (required_space exP) sizeb m (nx m sizeb) m.
Proof. intros m. unfold sizeb at 1. cbn [api]. unfold map_size. cbn. constructor. reflexivity. Qed.
Lemma size2 : forall m, pstep (required_space exP) (nx m sizeb) m (nx m (nx m sizeb)) m.
Proof. intros m. unfold sizeb at 1. cbn [api]. unfold map_size. cbn. constructor. reflexivity. Qed.
Lemma size3 : forall m, nx m (nx m sizeb) = Ret (answer m).
Proof. reflexivity. Qed.
Lemma mod10_cases : forall n (Q : nat -> Prop), Q 0%nat -> Q 1%nat -> Q 2%nat -> Q 3%nat -> Q 4%nat -> Q 5%nat -> Q 6%nat ->
  Q 7%nat -> Q 8%nat -> Q 9%nat -> Q (n mod 10)%nat.
Proof.
  intros n Q. intros. pose proof (Nat.mod_upper_bound n 10 ltac:(lia)) as U. revert U. generalize (n mod 10)%nat.
  intros r U. do 10 (destruct r as [|r]; [assumption|]). lia.
Qed.
Lemma st_step : forall m n, step mret (required_space exP) (st m n) (ev m n) (st m (S n)).
Proof.
  intros m [|[|[|n]]].
  - exact (SCall mret (required_space exP) (mkSems 0 0) m [idle; idle; idle] 0 (mkSems 0 0) Rd sizeb eq_refl).
  - exact (SLock mret (required_space exP) (mkSems 0 0) m [asks; idle; idle] 0 (mkSems 0 0) Rd sizeb _ eq_refl eq_refl).
  - exact (SCall mret (required_space exP) (mkSems 1 0) m [reads sizeb; idle; idle] 2 (mkSems 0 0) Wr eraseb eq_refl).
  - cbn [st ev]. rewrite mod10. apply (mod10_cases n); cbn [Nat.eqb].
    + exact (SCall mret (required_space exP) (mkSems 1 0) m [reads sizeb; idle; writer] 1 (mkSems 0 0) Rd sizeb eq_refl).
    + exact (SLock mret (required_space exP) (mkSems 1 0) m [reads sizeb; asks; writer] 1 (mkSems 0 0) Rd sizeb _ eq_refl eq_refl).
    + exact (SMem mret (required_space exP) (mkSems 2 0) m [reads sizeb; reads sizeb; writer] 0 _ Rd sizeb _ _ _ eq_refl (size1 m)).
    + exact (SMem mret (required_space exP) (mkSems 2 0) m [reads (nx m sizeb); reads sizeb; writer] 0 _ Rd sizeb _ _ _ eq_refl (size2 m)).
    + rewrite size3.
      exact (SDone mret (required_space exP) (mkSems 2 0) m [reads (Ret (answer m)); reads sizeb; writer] 0 _ Rd sizeb _ _ eq_refl eq_refl).
    + exact (SCall mret (required_space exP) (mkSems 1 0) m [idle; reads sizeb; writer] 0 (mkSems 0 0) Rd sizeb eq_refl).
    + exact (SLock mret (required_space exP) (mkSems 1 0) m [asks; reads sizeb; writer] 0 (mkSems 0 0) Rd sizeb _ eq_refl eq_refl).
    + exact (SMem mret (required_space exP) (mkSems 2 0) m [reads sizeb; reads sizeb; writer] 1 _ Rd sizeb _ _ _ eq_refl (size1 m)).
    + exact (SMem mret (required_space exP) (mkSems 2 0) m [reads sizeb; reads (nx m sizeb); writer] 1 _ Rd sizeb _ _ _ eq_refl (size2 m)).
    + rewrite size3.
      exact (SDone mret (required_space exP) (mkSems 2 0) m [reads sizeb; reads (Ret (answer m)); writer] 1 _ Rd sizeb _ _ eq_refl eq_refl).
Qed.
Lemma writer_waits : forall m n, (3 <= n)%nat -> forall s', ~ step mret (required_space exP) (st m n) (ELock 2) s'.
Proof.
  intros m n L s' H.
  assert (X : nth_error (s_procs mret (st m n)) 2 = Some writer /\ sem_try (s_sems mret (st m n)) lock_write = None).
  { destruct n as [|[|[|n]]]; try lia. cbn [st]. apply (mod10_cases n); split; reflexivity. }
  destruct X as [X Y]. remember (st m n) as s eqn:Es. clear Es. remember (@ELock mret 2) as e eqn:Ee.
  destruct H as [v m1 ps k u g b0 E|v m1 ps k u g b0 v' E V|v m1 ps k u g b0 E|v m1 ps k u g b0 b b' m' E M|v m1 ps k u g b0 r v' E V|v m1 ps k q u E N];
    try discriminate Ee. injection Ee as ->. cbn [s_procs s_sems] in *. rewrite X in E. injection E as <- <- <-.
  cbn [lock_ops] in V. congruence.
Qed.

(** "A writer gets its turn": no.  There is an endless schedule, without deaths and without
    failing calls, in which every section ends after a few steps and in which a writer that
    called before the third step is never able to take the lock, because there always is a
    reader inside. *)
Theorem C108_waiting_writer_gets_in_refuted : exists P fuel m0 (st : nat -> sys mret) (ev : nat -> event mret) k b,
  fits P /\ (Z.to_nat (nobj P) < fuel)%nat /\
  (exists mz h, zeroed mz /\ run (required_space P) (attach P) mz = Ok (h, m0)) /\
  st 0%nat = init mret 3 m0 /\
  (forall n, step mret (required_space P) (st n) (ev n) (st (S n))) /\
  (forall n, match ev n with
             | ECall i g b => exists o, mwf P o /\ g = lock_of o /\ b = api P fuel o
             | EThrow _ | ECrash _ _ => False
             | _ => True end) /\
  (forall n, exists n', (n' > n)%nat /\ exists i b r, ev n' = EDone i Rd b r) /\
  ev k = ECall 2 Wr b /\
  (forall n, (n > k)%nat -> forall s', ~ step mret (required_space P) (st n) (ELock 2) s').
Proof.
  exists exP, 5%nat, ex_m0, (st ex_m0), (ev ex_m0), 2%nat, eraseb.
  destruct (attach_new exP ex_fits (cells 0 [])) as (m1 & E & _). { intros a. reflexivity. }
  split. { exact ex_fits. }
  split. { vm_compute. lia. }
  split. { exists (cells 0 []). unfold ex_m0. rewrite E. cbn [mem_after]. eexists. split; [intros a; reflexivity|reflexivity]. }
  split; [reflexivity|].
  split. { apply st_step. }
  split.
  { assert (A : forall o, mwf exP o -> exists o0, mwf exP o0 /\ lock_of o = lock_of o0 /\ api exP 5 o = api exP 5 o0)
      by (intros o Ho; exists o; auto).
    intros [|[|[|n]]]; cbn [ev]; [exact (A MSize Logic.I)|exact Logic.I|exact (A (MErase 1) Logic.I)|].
    apply (mod10_cases n); try exact Logic.I; exact (A MSize Logic.I). }
  split.
  { intros n. exists (3 + (4 + n * 10))%nat. split; [lia|]. exists 0%nat, sizeb, (answer ex_m0).
    cbn [ev Nat.add]. replace (S (S (S (S (n * 10))))) with (4 + n * 10)%nat by lia.
    rewrite Nat.mod_add by lia. reflexivity. }
  split; [reflexivity|].
  intros n L. apply writer_waits. exact L.
Qed.
Print Assumptions C108_waiting_writer_gets_in_refuted.

(** the hypotheses are met: three processes, two readers inside and a writer waiting *)
Example C108_ex : exists tr s,
  exec mret (required_space exP) 3 ex_m0 tr s /\ api_trace exP 5 tr /\
  map (fun p => pending (p_pc mret p)) (s_procs mret s) = [Some (Rd, sizeb); Some (Rd, sizeb); Some (Wr, eraseb)].
Proof.
  assert (X : forall n, exec mret (required_space exP) 3 ex_m0 (map (ev ex_m0) (seq 0 n)) (st ex_m0 n)).
  { induction n as [|n IH]; [constructor|]. rewrite seq_S, map_app. econstructor; [exact IH|]. apply st_step. }
  exists (map (ev ex_m0) (seq 0 6)), (st ex_m0 6). split; [apply X|]. split; [|reflexivity].
  assert (A : forall o, mwf exP o -> exists o0, mwf exP o0 /\ lock_of o = lock_of o0 /\ api exP 5 o = api exP 5 o0)
    by (intros o Ho; exists o; auto).
  change (map (ev ex_m0) (seq 0 6)) with
    [@ECall mret 0 Rd sizeb; ELock 0; ECall 2 Wr eraseb; ECall 1 Rd sizeb; ELock 1; EMem 0]. split.
  - intros i g b H. repeat destruct H as [H|H]; try discriminate H; try contradiction; injection H as <- <- <-.
    + exact (A MSize Logic.I).
    + exact (A (MErase 1) Logic.I).
    + exact (A MSize Logic.I).
  - intros i b H. repeat destruct H as [H|H]; try discriminate H; contradiction.
Qed.
