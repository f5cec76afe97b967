(** C140: the random generator is seeded once. *)
From Coq Require Import ZArith List Bool Lia Arith.
From Verif Require Import Base Shm_Model Shm_Proof ShmQ_Model ShmQ_Proof Rand_Model Rand_Spec.
Import ListNotations.
Local Open Scope Z_scope.

Lemma nthu : forall B (l : list B) i v j y, nth_error (upd l i v) j = Some y ->
  (j = i /\ y = v) \/ (j <> i /\ nth_error l j = Some y).
Proof.
  intros B l i v j y H. destruct (Nat.eq_dec j i) as [->|N].
  - left. split; auto. assert (L : (i < length l)%nat) by (rewrite <- (upd_length _ l i v); apply nth_error_Some; congruence).
    rewrite nth_error_upd_same in H by auto. congruence.
  - right. rewrite nth_error_upd_other in H by auto. auto.
Qed.
Lemma inside_snoc : forall i tr e, inside i (tr ++ [e]) =
  match e with
  | Call k => if (k =? i)%nat then true else inside i tr
  | Ret k _ => if (k =? i)%nat then false else inside i tr
  | _ => inside i tr
  end.
Proof. intros. unfold inside. rewrite fold_left_app. reflexivity. Qed.
Lemma seeds_snoc : forall tr e, seeds (tr ++ [e]) = (seeds tr + if is_seed e then 1 else 0)%nat.
Proof. intros. unfold seeds. rewrite filter_app, app_length. cbn [filter]. destruct (is_seed e); reflexivity. Qed.

Definition seeded_pc (p : rpc) : bool := match p with AtMark => true | _ => false end.
Definition busy (p : rpc) : bool := match p with Out => false | _ => true end.
Definition may_seed (p : rpc) : bool := match p with AtOpen | AtRead | AtClose _ | AtSeed _ => true | _ => false end.

(** what holds in every execution: the flag and the threads past srandom mean that it was
    called, and [inside] tells the busy threads *)
Definition RInv (tr : list rnd_ev) (s : rsys) : Prop :=
  (flag s = true -> (1 <= seeds tr)%nat) /\
  (forall i p, nth_error (thr s) i = Some p ->
     (seeded_pc p = true -> (1 <= seeds tr)%nat) /\ (p = AtRet 0 -> (1 <= seeds tr)%nat /\ flag s = true) /\ inside i tr = busy p) /\
  (forall i, nth_error (thr s) i = None -> inside i tr = false).

Lemma rinv_step : forall tr s e s', RInv tr s -> rstep s e s' -> RInv (tr ++ [e]) s'.
Proof.
  intros tr s e s' (A & B & C) S.
  assert (M : (seeds tr <= seeds (tr ++ [e]))%nat) by (rewrite seeds_snoc; lia).
  assert (G : forall f (l : list rpc) i p0 p', nth_error l i = Some p0 ->
    (forall j p, nth_error l j = Some p -> (seeded_pc p = true -> (1 <= seeds tr)%nat) /\ (p = AtRet 0 -> (1 <= seeds tr)%nat /\ flag s = true) /\ inside j tr = busy p) ->
    (forall j, nth_error l j = None -> inside j tr = false) ->
    (flag s = true -> f = true) -> (f = true -> (1 <= seeds (tr ++ [e]))%nat) ->
    (seeded_pc p' = true -> (1 <= seeds (tr ++ [e]))%nat) -> (p' = AtRet 0 -> (1 <= seeds (tr ++ [e]))%nat /\ f = true) ->
    inside i (tr ++ [e]) = busy p' -> (forall j, j <> i -> inside j (tr ++ [e]) = inside j tr) ->
    RInv (tr ++ [e]) (mkR f (upd l i p'))).
  { intros f l i p0 p' H0 H1 H2 H3 H4 H5 H6 H7 H8. split; [exact H4|]. split.
    - intros j p E. cbn [thr] in E. destruct (nthu _ _ _ _ _ _ E) as [(-> & ->)|(N & E1)]; [cbn [flag]; auto|].
      destruct (H1 j p E1) as (Q1 & Q2 & Q3). rewrite H8 by auto. split; [intros; specialize (Q1 H); lia|].
      split; [|exact Q3]. intros X. destruct (Q2 X). cbn [flag]. split; [lia|auto].
    - intros j E. cbn [thr] in E. assert (L := E). apply nth_error_None in L. rewrite upd_length in L.
      rewrite H8; [apply H2; now apply nth_error_None|].
      intros ->. assert (i < length l)%nat by (apply nth_error_Some; congruence). lia. }
  destruct S; cbn [flag thr] in *.
  all: try (eapply G; eauto; cbn [seeded_pc busy]; try discriminate;
    try (rewrite inside_snoc, ?Nat.eqb_refl; reflexivity);
    try (intros j N; rewrite inside_snoc; try reflexivity; destruct (Nat.eqb_spec i j); congruence);
    try (rewrite inside_snoc; destruct (B _ _ H) as (_ & _ & ->); reflexivity);
    try (intros X; specialize (A X); lia); auto; try (rewrite seeds_snoc; cbn [is_seed]; intros; lia); fail).
  - destruct (B _ _ H) as (B1 & _ & B3). specialize (B1 eq_refl).
    eapply G; eauto; cbn [seeded_pc busy]; try discriminate; try lia.
    + now rewrite inside_snoc.
    + intros j N. now rewrite inside_snoc.
  - split; [cbn [flag]; intros X; specialize (A X); lia|]. split; [|intros j E; rewrite inside_snoc; auto].
    intros j p E. rewrite inside_snoc. destruct (B j p E) as (Q1 & Q2 & Q3). cbn [flag].
    split; [intros X; specialize (Q1 X); lia|]. split; [|exact Q3]. intros X. destruct (Q2 X). split; [lia|auto].
Qed.
Lemma rinv : forall k tr s, rexec k tr s -> RInv tr s.
Proof.
  intros k tr s X. induction X as [|tr s e s' X IH S]; [|eapply rinv_step; eauto].
  split; [discriminate|]. split.
  - intros i p E. cbn [thr] in E. apply nth_error_In, repeat_spec in E. subst p. repeat split; discriminate.
  - reflexivity.
Qed.

(** When coda_random_init has returned 0 to anybody, the generator has been seeded: every
    number drawn from then on comes from a seeded generator. *)
Theorem C140_seeded_before_use : forall k tr s i, rexec k (tr ++ [Ret i 0]) s -> (1 <= seeds tr)%nat.
Proof.
  intros k tr s i X. remember (tr ++ [Ret i 0]) as tr' eqn:E. destruct X as [|tr' s0 e s' X S]; [destruct tr; discriminate|].
  apply app_inj_tail in E. destruct E as [-> ->]. pose proof (rinv _ _ _ X) as (A & B & _).
  inversion S; subst; cbn [thr flag] in *.
  match goal with Y : nth_error _ _ = Some _ |- _ => destruct (B _ _ Y) as (_ & Q & _) end. now destruct (Q eq_refl).
Qed.
Print Assumptions C140_seeded_before_use.

(** a thread that may still seed was let in before the flag was set *)
Definition settled (s : rsys) : Prop := flag s = true /\ forall i p, nth_error (thr s) i = Some p -> may_seed p = false.
Lemma settled_step : forall s e s', settled s -> rstep s e s' -> settled s' /\ is_seed e = false.
Proof.
  intros s e s' [F N] S.
  assert (G : forall l i p', (forall j p, nth_error l j = Some p -> may_seed p = false) -> may_seed p' = false ->
    forall j p, nth_error (upd l i p') j = Some p -> may_seed p = false).
  { intros l i p' H1 H2 j p E. destruct (nthu _ _ _ _ _ _ E) as [(-> & ->)|(_ & E1)]; eauto. }
  destruct S; cbn [flag thr] in *; try discriminate F; unfold settled; cbn [flag thr is_seed];
    try (specialize (N _ _ H); discriminate N); (split; [split; [auto|]|reflexivity]);
    try (eapply G; [exact N|reflexivity]). exact N.
Qed.

Inductive rruns : rsys -> list rnd_ev -> rsys -> Prop :=
| rr_nil : forall s, rruns s [] s
| rr_snoc : forall s tr s1 e s2, rruns s tr s1 -> rstep s1 e s2 -> rruns s (tr ++ [e]) s2.
Lemma rexec_split : forall k tr1 tr2 s, rexec k (tr1 ++ tr2) s -> exists s1, rexec k tr1 s1 /\ rruns s1 tr2 s.
Proof.
  intros k tr1 tr2. revert tr1. induction tr2 as [|e tr2 IH] using rev_ind; intros tr1 s X.
  - rewrite app_nil_r in X. exists s. split; [auto|constructor].
  - rewrite app_assoc in X. remember ((tr1 ++ tr2) ++ [e]) as tr' eqn:E. destruct X as [|tr' s0 e' s' X S].
    + destruct (tr1 ++ tr2); discriminate.
    + apply app_inj_tail in E. destruct E as [-> ->]. destruct (IH _ _ X) as (s1 & X1 & R). exists s1. split; auto. econstructor; eauto.
Qed.
Lemma settled_runs : forall s tr s', rruns s tr s' -> settled s -> settled s' /\ seeds tr = 0%nat.
Proof.
  intros s tr s' R H. induction R as [|s tr s1 e s2 R IH S]; [auto|]. destruct (IH H) as [H1 E].
  destruct (settled_step _ _ _ H1 S) as [H2 E2]. rewrite seeds_snoc, E, E2. auto.
Qed.

(** Once a call has returned 0 and no call is running, the generator is never seeded again,
    whatever the threads do: all numbers drawn later continue one sequence. *)
Theorem C140_then_left_alone : forall k tr1 tr2 s, rexec k (tr1 ++ tr2) s ->
  (exists i, In (Ret i 0) tr1) -> (forall i, inside i tr1 = false) -> seeds tr2 = 0%nat.
Proof.
  intros k tr1 tr2 s X [i H] N. destruct (rexec_split _ _ _ _ X) as (s1 & X1 & R).
  assert (F : flag s1 = true).
  { clear -X1 H. induction X1 as [|tr s e s' X IH S]; [destruct H|]. apply in_app_or in H. destruct H as [H|[->|[]]].
    - specialize (IH H). destruct S; cbn [flag] in *; auto.
    - pose proof (rinv _ _ _ X) as (_ & B & _). inversion S; subst; cbn [thr flag] in *.
      match goal with Y : nth_error _ _ = Some _ |- _ => destruct (B _ _ Y) as (_ & Q & _) end. destruct (Q eq_refl). auto. }
  apply (settled_runs _ _ _ R). split; [exact F|].
  intros j p E. pose proof (rinv _ _ _ X1) as (_ & B & _). destruct (B j p E) as (_ & _ & Q). rewrite N in Q. destruct p; try discriminate; reflexivity.
Qed.
Print Assumptions C140_then_left_alone.

(** When no call begins while another one is running, the generator is seeded at most once, and
    exactly once after the first call that returned 0. *)
Theorem C140_once_partial : forall k tr s, rexec k tr s -> one_at_a_time tr ->
  (seeds tr <= 1)%nat /\ ((exists i, In (Ret i 0) tr) -> seeds tr = 1%nat).
Proof.
  intros k tr s X O.
  assert (V : (seeds tr <= 1)%nat /\
    (forall i j p q, nth_error (thr s) i = Some p -> nth_error (thr s) j = Some q -> busy p = true -> busy q = true -> i = j) /\
    ((1 <= seeds tr)%nat -> flag s = true \/ exists i, nth_error (thr s) i = Some AtMark) /\
    (forall i p, nth_error (thr s) i = Some p -> may_seed p = true -> flag s = false)).
  { induction X as [|tr s e s' X IH S].
    - cbn [seeds filter length flag thr]. split; [auto|]. split.
      { intros i j p q E. apply nth_error_In, repeat_spec in E. subst p. discriminate. }
      split; [cbn; lia|reflexivity].
    - assert (O' : one_at_a_time tr /\ (forall i, e = Call i -> forall k, inside k tr = false)).
      { remember (tr ++ [e]) as tr' eqn:E. destruct O as [|tr' e' O P]; [destruct tr; discriminate|].
        apply app_inj_tail in E. destruct E as [-> ->]. auto. }
      destruct O' as [O1 O2]. destruct (IH O1) as (V1 & V2 & V3 & V4). clear IH O.
      pose proof (rinv _ _ _ X) as (_ & RB & _). rewrite seeds_snoc.
      assert (FR : forall i, e = Call i -> forall j p, nth_error (thr s) j = Some p -> p = Out).
      { intros i E j p Hj. destruct (RB j p Hj) as (_ & _ & Q). rewrite (O2 i E j) in Q. destruct p; try discriminate; reflexivity. }
      assert (TB : forall l i p0 p', nth_error l i = Some p0 ->
        (forall i j p q, nth_error l i = Some p -> nth_error l j = Some q -> busy p = true -> busy q = true -> i = j) ->
        (busy p0 = true \/ (forall j p, nth_error l j = Some p -> p = Out)) ->
        forall i0 j p q, nth_error (upd l i p') i0 = Some p -> nth_error (upd l i p') j = Some q -> busy p = true -> busy q = true -> i0 = j).
      { intros l i p0 p' H0 H1 H2 i0 j p q E1 E2 B1 B2.
        destruct (nthu _ _ _ _ _ _ E1) as [(-> & ->)|(N1 & E3)]; destruct (nthu _ _ _ _ _ _ E2) as [(-> & ->)|(N2 & E4)]; auto.
        - destruct H2 as [H2|H2]; [exact (H1 _ _ _ _ H0 E4 H2 B2)|]. rewrite (H2 _ _ E4) in B2. discriminate.
        - destruct H2 as [H2|H2]; [exact (H1 _ _ _ _ E3 H0 B1 H2)|]. rewrite (H2 _ _ E3) in B1. discriminate.
        - eauto. }
      assert (MK : forall l i p0 p', nth_error l i = Some p0 -> p0 <> AtMark -> (exists j, nth_error l j = Some AtMark) ->
        exists j, nth_error (upd l i p') j = Some AtMark).
      { intros l i p0 p' H0 H1 [j Hj]. exists j. rewrite nth_error_upd_other; auto. intros ->. congruence. }
      assert (MS : forall l i p0 p' (P : Prop), nth_error l i = Some p0 -> (forall j p, nth_error l j = Some p -> may_seed p = true -> P) ->
        (may_seed p' = true -> may_seed p0 = true \/ P) ->
        forall j p, nth_error (upd l i p') j = Some p -> may_seed p = true -> P).
      { intros l i p0 p' P H0 H1 H2 j p E M. destruct (nthu _ _ _ _ _ _ E) as [(-> & ->)|(N & E1)]; eauto. destruct (H2 M); eauto. }
      destruct S; cbn [flag thr is_seed] in *.
      1: { split; [lia|]. split; [eapply TB; eauto|]. split.
           { intros Q. destruct V3 as [Q1|Q1]; [lia|auto|]. right. eapply MK; eauto. discriminate. }
           eapply MS; eauto. }
      1: { split; [lia|]. split; [eapply TB; eauto|]. split; [auto|]. eapply MS; eauto. }
      all: try (split; [lia|]; split; [eapply TB; eauto; left; reflexivity|]; split;
          [intros Q; destruct V3 as [Q1|Q1]; [lia|auto|]; right; eapply MK; eauto; discriminate|
           eapply MS; eauto; cbn [may_seed]; (discriminate || (left; reflexivity))]; fail).
      + (* seed *)
        assert (seeds tr = 0%nat).
        { destruct (seeds tr) eqn:Z; [reflexivity|]. exfalso. destruct V3 as [Q|[j Q]]; [lia| |].
          - rewrite (V4 _ _ H eq_refl) in Q. discriminate.
          - pose proof (V2 _ _ _ _ H Q eq_refl eq_refl). subst j. congruence. }
        split; [lia|]. split; [eapply TB; eauto; left; reflexivity|]. split.
        { intros _. right. exists i. apply nth_error_upd_same. apply nth_error_Some. congruence. }
        eapply MS; eauto.
      + (* mark *)
        split; [lia|]. split; [eapply TB; eauto; left; reflexivity|]. split; [auto|].
        intros j p E M. destruct (nthu _ _ _ _ _ _ E) as [(-> & ->)|(N & E1)]; [discriminate|].
        elim N. eapply V2; eauto. destruct p; try discriminate; reflexivity.
      + split; [lia|]. split; [exact V2|]. split; [intros Q; apply V3; lia|exact V4]. }
  destruct V as (V1 & _). split; [exact V1|]. intros [i H]. enough (1 <= seeds tr)%nat by lia.
  apply in_split in H. destruct H as (a & b & ->). destruct (rexec_split k (a ++ [Ret i 0]) b s) as (s1 & X1 & _).
  { rewrite <- app_assoc. exact X. }
  pose proof (C140_seeded_before_use _ _ _ _ X1) as Q. unfold seeds in *. rewrite filter_app, app_length. lia.
Qed.
Print Assumptions C140_once_partial.

(** Every seeding happens in a call that began before any call had returned 0. *)
Theorem C140_late_calls_do_not_seed : forall k tr1 tr2 tr3 s i sd, rexec k (tr1 ++ Call i :: tr2 ++ Seed i sd :: tr3) s ->
  ~ In (Call i) tr2 -> forall j, ~ In (Ret j 0) tr1.
Proof.
  intros k tr1 tr2 tr3 s i sd X NC j H.
  assert (E : tr1 ++ Call i :: tr2 ++ Seed i sd :: tr3 = (tr1 ++ [Call i]) ++ (tr2 ++ [Seed i sd]) ++ tr3).
  { rewrite <- !app_assoc. reflexivity. }
  rewrite E in X. clear E. destruct (rexec_split _ _ _ _ X) as (s1 & X1 & R1).
  assert (F : forall tr s0, rexec k tr s0 -> In (Ret j 0) tr -> flag s0 = true).
  { clear. intros tr s0 X H. induction X as [|tr s e s' X IH S]; [destruct H|]. apply in_app_or in H. destruct H as [H|[->|[]]].
    - specialize (IH H). destruct S; cbn [flag] in *; auto.
    - pose proof (rinv _ _ _ X) as (_ & B & _). inversion S; subst; cbn [thr flag] in *.
      match goal with Y : nth_error _ _ = Some _ |- _ => destruct (B _ _ Y) as (_ & Q & _) end. destruct (Q eq_refl). auto. }
  (* right after the call the thread is about to return *)
  assert (P1 : nth_error (thr s1) i = Some (AtRet 0)).
  { remember (tr1 ++ [Call i]) as tr' eqn:Et. destruct X1 as [|tr' s0 e s' X1 S]; [destruct tr1; discriminate|].
    apply app_inj_tail in Et. destruct Et as [-> ->]. pose proof (F _ _ X1 H) as Fl.
    inversion S; subst; cbn [flag] in Fl; [discriminate|]. cbn [thr]. apply nth_error_upd_same. apply nth_error_Some. congruence. }
  (* and it stays there or outside until it calls again *)
  assert (P2 : forall tr s0, rruns s1 tr s0 -> ~ In (Call i) tr -> (nth_error (thr s0) i = Some (AtRet 0) \/ nth_error (thr s0) i = Some Out) /\ forall x, ~ In (Seed i x) tr).
  { intros tr s0 R N. induction R as [|s1 tr s2 e s3 R IH S]; [auto|].
    destruct IH as [IH1 IH2]; auto. { intros Q. apply N. apply in_or_app. auto. }
    assert (Ne : e <> Call i) by (intros ->; apply N; apply in_or_app; right; left; reflexivity).
    assert (U : forall (l : list rpc) a v, a <> i -> nth_error (upd l a v) i = nth_error l i) by (intros; apply nth_error_upd_other; auto).
    split.
    - destruct S; cbn [thr] in *; auto;
        match goal with |- context [upd _ ?a _] => destruct (Nat.eq_dec a i) as [->|Na]; [|rewrite !U by auto; auto] end;
        try congruence; try (destruct IH1; congruence).
      right. apply nth_error_upd_same. apply nth_error_Some. congruence.
    - intros x Q. apply in_app_or in Q. destruct Q as [Q|[->|[]]]; [now apply (IH2 x)|].
      inversion S; subst. cbn [thr] in *. destruct IH1; congruence. }
  remember ((tr2 ++ [Seed i sd]) ++ tr3) as t eqn:Et. rewrite <- app_assoc in Et. cbn [app] in Et.
  assert (R2 : exists s2, rruns s1 (tr2 ++ [Seed i sd]) s2).
  { clear -R1 Et. revert tr3 t s Et R1. intros tr3. induction tr3 as [|e tr3 IH] using rev_ind; intros t s Et R1.
    - exists s. rewrite Et in R1. exact R1.
    - replace (tr2 ++ Seed i sd :: tr3 ++ [e]) with ((tr2 ++ Seed i sd :: tr3) ++ [e]) in Et by (rewrite <- app_assoc; reflexivity).
      destruct R1 as [|s0 t0 sa ea sb R1 S]; [destruct (tr2 ++ Seed i sd :: tr3); discriminate|].
      apply app_inj_tail in Et. destruct Et as [Et _]. eapply IH; eauto. }
  destruct R2 as [s2 R2]. destruct (P2 _ _ R2) as [_ Q].
  - intros Q. apply in_app_or in Q. destruct Q as [Q|[Q|[]]]; [auto|discriminate].
  - apply (Q sd). apply in_or_app. right. left. reflexivity.
Qed.
Print Assumptions C140_late_calls_do_not_seed.

(** a call that fails has not touched the generator: between a call and its -1 the thread does
    not seed *)
Theorem C140_failed_call : forall k tr1 tr2 s i, rexec k (tr1 ++ Call i :: tr2 ++ [Ret i (-1)]) s ->
  ~ In (Call i) tr2 -> forall x, ~ In (Seed i x) tr2.
Proof.
  intros k tr1 tr2 s i X NC x H.
  replace (tr1 ++ Call i :: tr2 ++ [Ret i (-1)]) with ((tr1 ++ [Call i] ++ tr2) ++ [Ret i (-1)]) in X by (rewrite <- !app_assoc; reflexivity).
  remember ((tr1 ++ [Call i] ++ tr2) ++ [Ret i (-1)]) as t eqn:E. destruct X as [|t s0 e s' X S]; [destruct tr1; discriminate|].
  apply app_inj_tail in E. destruct E as [-> ->].
  assert (At : nth_error (thr s0) i = Some (AtRet (-1))) by (inversion S; subst; assumption).
  destruct (rexec_split _ _ _ _ X) as (s1 & _ & R). clear X S.
  (* after a seeding the thread is at the mark, returning 0, or outside *)
  assert (P : forall tr sa sb, rruns sa tr sb -> ~ In (Call i) tr -> In (Seed i x) tr ->
    nth_error (thr sb) i = Some AtMark \/ nth_error (thr sb) i = Some (AtRet 0) \/ nth_error (thr sb) i = Some Out).
  { intros tr sa sb R0 N Q. induction R0 as [|sa tr sm e sb R0 IH S]; [destruct Q|].
    assert (Ne : e <> Call i) by (intros ->; apply N; apply in_or_app; right; left; reflexivity).
    assert (Nt : ~ In (Call i) tr) by (intros Y; apply N; apply in_or_app; auto).
    apply in_app_or in Q. destruct Q as [Q|[->|[]]].
    - specialize (IH Nt Q).
      assert (U : forall (l : list rpc) a v, a <> i -> nth_error (upd l a v) i = nth_error l i) by (intros; apply nth_error_upd_other; auto).
      destruct S; cbn [thr] in *; auto;
        match goal with |- context [upd _ ?a _] => destruct (Nat.eq_dec a i) as [->|Na]; [|rewrite !U by auto; auto] end;
        try congruence; try (destruct IH as [IH|[IH|IH]]; congruence);
        rewrite nth_error_upd_same by (apply nth_error_Some; congruence); auto.
    - inversion S; subst. cbn [thr]. left. apply nth_error_upd_same. apply nth_error_Some. congruence. }
  assert (R2 : exists sm, rruns sm tr2 s0).
  { clear -R. revert s0 R. induction tr2 as [|e tr2 IH] using rev_ind; intros s0 R; [exists s0; constructor|].
    replace ([Call i] ++ tr2 ++ [e]) with (([Call i] ++ tr2) ++ [e]) in R by (rewrite <- app_assoc; reflexivity).
    remember (([Call i] ++ tr2) ++ [e]) as t eqn:E. destruct R as [|sx t sa ea sb R S]; [discriminate|].
    apply app_inj_tail in E. destruct E as [-> ->]. destruct (IH _ R) as [sm Q]. exists sm. econstructor; eauto. }
  destruct R2 as [sm R2]. destruct (P _ _ _ R2 NC H) as [Q|[Q|Q]]; congruence.
Qed.
Print Assumptions C140_failed_call.

(** concrete executions: what a thread does next, given the answers of the system *)
Inductive ract := AGo | AFail | AGot (l : list Z) | ADraw.
Definition rfire (s : rsys) (i : nat) (a : ract) : option (rnd_ev * rsys) :=
  let '(mkR f l) := s in
  match nth_error l i, a with
  | Some Out, ADraw => Some (Draw i, s)
  | Some Out, _ => Some (Call i, mkR f (upd l i (if f then AtRet 0 else AtOpen)))
  | Some AtOpen, AFail => Some (Step i, mkR f (upd l i (AtRet (-1))))
  | Some AtOpen, _ => Some (Step i, mkR f (upd l i AtRead))
  | Some AtRead, AGot got => if (length got <=? 4)%nat
      then Some (Step i, mkR f (upd l i (AtClose (map Some got ++ repeat None (4 - length got))))) else None
  | Some AtRead, _ => Some (Step i, mkR f (upd l i (AtRet (-1))))
  | Some (AtClose sd), _ => Some (Step i, mkR f (upd l i (AtSeed sd)))
  | Some (AtSeed sd), _ => Some (Seed i sd, mkR f (upd l i AtMark))
  | Some AtMark, _ => Some (Step i, mkR true (upd l i (AtRet 0)))
  | Some (AtRet rc), _ => Some (Ret i rc, mkR f (upd l i Out))
  | None, _ => None
  end.
Lemma rfire_step : forall s i a e s', rfire s i a = Some (e, s') -> rstep s e s'.
Proof.
  intros [f l] i a e s' H. unfold rfire in H. destruct (nth_error l i) as [p|] eqn:E; [|discriminate].
  destruct p; destruct a as [| |got|]; try (destruct (Nat.leb_spec (length got) 4); [|discriminate]);
    try (injection H as <- <-); try (now constructor); try (destruct f; now constructor).
Qed.
Fixpoint rfires (l : list (nat * ract)) (tr : list rnd_ev) (s : rsys) : list rnd_ev * rsys :=
  match l with
  | [] => (tr, s)
  | (i, a) :: l => match rfire s i a with Some (e, s) => rfires l (tr ++ [e]) s | None => rfires l tr s end
  end.
Lemma rfires_exec : forall k l tr s, rexec k tr s -> rexec k (fst (rfires l tr s)) (snd (rfires l tr s)).
Proof.
  induction l as [|[i a] l IH]; intros tr s X; cbn [rfires]; [exact X|].
  destruct (rfire s i a) as [[e s1]|] eqn:E; [|auto]. apply IH. eapply rexec_snoc; eauto. eapply rfire_step; eauto.
Qed.
Definition start (k : nat) : rsys := mkR false (repeat Out k).
Definition one_call (i : nat) (got : list Z) : list (nat * ract) :=
  [(i, AGo); (i, AGo); (i, AGot got); (i, AGo); (i, AGo); (i, AGo); (i, AGo)].

(** two calls one after the other, the first without the device, and a third one that finds the
    generator seeded: the hypotheses of the theorems above hold *)
Definition run140 := rfires ([(0%nat, AGo); (0%nat, AFail); (0%nat, AGo)] ++ one_call 1 [1;2;3;4] ++
  [(0%nat, ADraw); (0%nat, AGo); (0%nat, AGo); (0%nat, ADraw)]) [] (start 2).
Example C140_ex : rexec 2 (fst run140) (snd run140) /\ one_at_a_time (fst run140) /\ seeds (fst run140) = 1%nat /\
  fst run140 = [Call 0; Step 0; Ret 0 (-1); Call 1; Step 1; Step 1; Step 1; Seed 1 [Some 1; Some 2; Some 3; Some 4];
    Step 1; Ret 1 0; Draw 0; Call 0; Ret 0 0; Draw 0].
Proof.
  split; [apply rfires_exec; constructor|]. split; [|split; vm_compute; reflexivity].
  replace (fst run140) with [Call 0; Step 0; Ret 0 (-1); Call 1; Step 1; Step 1; Step 1; Seed 1 [Some 1; Some 2; Some 3; Some 4];
    Step 1; Ret 1 0; Draw 0; Call 0; Ret 0 0; Draw 0] by (vm_compute; reflexivity).
  assert (G : forall rest tr, one_at_a_time tr ->
    (forall a i b, rest = a ++ Call i :: b -> forall k, inside k (tr ++ a) = false) -> one_at_a_time (tr ++ rest)).
  { induction rest as [|e rest IH]; intros tr O H; [now rewrite app_nil_r|].
    replace (tr ++ e :: rest) with ((tr ++ [e]) ++ rest) by now rewrite <- app_assoc. apply IH.
    - constructor; auto. intros i -> k. specialize (H [] i rest eq_refl k). now rewrite app_nil_r in H.
    - intros a i b E k. rewrite <- app_assoc. cbn [app]. apply (H (e :: a) i b). cbn [app]. now rewrite E. }
  apply (G _ []); [constructor|]. cbn [app]. intros a i b E k.
  do 14 (destruct a as [|? a]; cbn [app] in E; [try discriminate E; try (destruct k as [|[|k]]; reflexivity)|injection E as <- E]; subst).
  destruct a; discriminate E.
Qed.

(** The calls do not exclude each other: two threads that start together seed twice, and the
    number drawn between the two seedings comes from a sequence that is then abandoned. *)
Definition run_twice := rfires [(0%nat, AGo); (1%nat, AGo); (0%nat, AGo); (1%nat, AGo); (0%nat, AGot [1;2;3;4]); (1%nat, AGot [5;6;7;8]);
  (0%nat, AGo); (1%nat, AGo); (0%nat, AGo); (0%nat, AGo); (0%nat, AGo); (0%nat, ADraw); (1%nat, AGo); (1%nat, AGo); (1%nat, AGo); (0%nat, ADraw)] [] (start 2).
Theorem C140_once_refuted : exists tr s, rexec 2 tr s /\
  tr = [Call 0; Call 1; Step 0; Step 1; Step 0; Step 1; Step 0; Step 1;
        Seed 0 [Some 1; Some 2; Some 3; Some 4]; Step 0; Ret 0 0; Draw 0;
        Seed 1 [Some 5; Some 6; Some 7; Some 8]; Step 1; Ret 1 0; Draw 0] /\ seeds tr = 2%nat.
Proof.
  exists (fst run_twice), (snd run_twice). split; [apply rfires_exec; constructor|]. split; vm_compute; reflexivity.
Qed.
Print Assumptions C140_once_refuted.

(** A short read is not noticed: the generator is seeded with bytes that were never written, and
    the call returns 0. *)
Definition run_short := rfires (one_call 0 [1; 2]) [] (start 1).
Theorem C140_short_read_refuted : exists tr s sd, rexec 1 tr s /\ In (Seed 0 sd) tr /\ ~ whole_seed sd /\ In (Ret 0 0) tr.
Proof.
  exists (fst run_short), (snd run_short), [Some 1; Some 2; None; None]. split; [apply rfires_exec; constructor|].
  split; [vm_compute; tauto|]. split; [|vm_compute; tauto]. intros [_ N]. apply N. cbn. tauto.
Qed.
Print Assumptions C140_short_read_refuted.
