(** Invariants of the processes that share a hash map. *)

From Coq Require Import ZArith List Bool Lia.
From Verif Require Import Base Shm_Spec Shm_Model ShmSys_Model ShmSys_Spec ShmMap_Proof.
Import ListNotations.
Local Open Scope Z_scope.

Fixpoint sumz {A} (f : A -> Z) (l : list A) : Z :=
  match l with [] => 0 | x :: l => f x + sumz f l end.

Lemma sumz_upd : forall A (f : A -> Z) l i x y, nth_error l i = Some x ->
  sumz f (upd l i y) = sumz f l - f x + f y.
Proof.
  induction l as [|z l IH]; intros [|i] x y E; cbn [nth_error upd sumz] in *; try discriminate.
  - injection E as ->. lia.
  - rewrite (IH i x y E). lia.
Qed.
Lemma sumz_nonneg : forall A (f : A -> Z) l, (forall x, 0 <= f x) -> 0 <= sumz f l.
Proof. induction l as [|x l IH]; intros H; cbn; [lia|]. pose proof (H x). pose proof (IH H). lia. Qed.
Lemma sumz_in : forall A (f : A -> Z) l i x, (forall x, 0 <= f x) -> nth_error l i = Some x ->
  f x <= sumz f l.
Proof.
  induction l as [|z l IH]; intros [|i] x H E; cbn [nth_error sumz] in *; try discriminate.
  - injection E as ->. pose proof (sumz_nonneg _ f l H). lia.
  - specialize (IH i x H E). specialize (H z). lia.
Qed.
Lemma sumz_two : forall A (f : A -> Z) l i j x y, (forall x, 0 <= f x) -> i <> j ->
  nth_error l i = Some x -> nth_error l j = Some y -> f x + f y <= sumz f l.
Proof.
  induction l as [|z l IH]; intros [|i] [|j] x y H Hne Ex Ey; cbn [nth_error sumz] in *;
    try discriminate; try lia.
  - injection Ex as ->. pose proof (sumz_in _ f l j y H Ey). lia.
  - injection Ey as ->. pose proof (sumz_in _ f l i x H Ex). lia.
  - assert (i <> j) by congruence. specialize (IH i j x y H H0 Ex Ey). specialize (H z). lia.
Qed.
Lemma sumz_zero : forall A (f : A -> Z) l, (forall x, In x l -> f x = 0) -> sumz f l = 0.
Proof.
  induction l as [|x l IH]; intros H; cbn; auto. rewrite H, IH; auto.
  - intros y Hy. apply H. now right.
  - now left.
Qed.

Lemma nth_upd_cases : forall A (l : list A) i j x, (i < length l)%nat ->
  nth_error (upd l i x) j = if Nat.eqb i j then Some x else nth_error l j.
Proof.
  intros A l i j x Hi. destruct (Nat.eqb_spec i j) as [<-|Hne].
  - now apply nth_error_upd_same.
  - now apply nth_error_upd_other.
Qed.

Section Proof.
Variable R : Type.
Variable lim : Z.
Notation sys := (sys R).
Notation proc := (proc R).

Definition cR (p : proc) : Z := match p_pc R p with Inside Rd _ _ => 1 | _ => 0 end.
Definition cW (p : proc) : Z := match p_pc R p with Inside Wr _ _ => 1 | _ => 0 end.
Lemma cR_nn : forall p, 0 <= cR p.
Proof. intros [[]]; unfold cR; cbn; try lia. destruct g; lia. Qed.
Lemma cW_nn : forall p, 0 <= cW p.
Proof. intros [[]]; unfold cW; cbn; try lia. destruct g; lia. Qed.

(** the semaphores count the processes inside, and SEM_UNDO knows each contribution *)
Record SInv (s : sys) : Prop := mkSInv
  { si_R : vR (s_sems R s) = sumz cR (s_procs R s);
    si_W : vW (s_sems R s) = sumz cW (s_procs R s);
    si_u : forall i p, nth_error (s_procs R s) i = Some p ->
             p_undo R p = mkSems (- cR p) (- cW p);
    si_x : vW (s_sems R s) = 0 \/ (vW (s_sems R s) = 1 /\ vR (s_sems R s) = 0) }.

Lemma sinv_init : forall n m0, SInv (init R n m0).
Proof.
  intros n m0. unfold init. constructor; cbn [s_sems s_procs vR vW].
  - symmetry. apply sumz_zero. intros x Hx. apply repeat_spec in Hx. now subst.
  - symmetry. apply sumz_zero. intros x Hx. apply repeat_spec in Hx. now subst.
  - intros i p Hp. apply nth_error_In, repeat_spec in Hp. now subst.
  - auto.
Qed.

Ltac sums E :=
  rewrite (sumz_upd _ cR _ _ _ _ E), ?(sumz_upd _ cW _ _ _ _ E).

Lemma try_lock_read : forall v v', sem_try v lock_read = Some v' ->
  vW v = 0 /\ (0 <= vR v -> v' = mkSems (vR v + 1) (vW v)).
Proof.
  intros [r w] v' H. cbn in *. destruct (Z.eqb_spec w 0); [|discriminate].
  cbn in H. destruct (Z.ltb_spec (r + 1) 0).
  - split; auto. lia.
  - injection H as <-. auto.
Qed.
Lemma try_lock_write : forall v v', sem_try v lock_write = Some v' ->
  vR v = 0 /\ vW v = 0 /\ v' = mkSems 0 1.
Proof.
  intros [r w] v' H. cbn in *. destruct (Z.eqb_spec r 0); [|discriminate].
  cbn in H. destruct (Z.eqb_spec w 0); [|discriminate]. subst. cbn in H.
  injection H as <-. auto.
Qed.
Lemma try_unlock_read : forall v v', sem_try v unlock_read = Some v' ->
  v' = mkSems (vR v - 1) (vW v).
Proof.
  intros [r w] v' H. cbn in *. destruct (Z.ltb_spec (r + -1) 0); [discriminate|].
  injection H as <-. reflexivity.
Qed.
Lemma try_unlock_write : forall v v', sem_try v unlock_write = Some v' ->
  v' = mkSems (vR v) (vW v - 1).
Proof.
  intros [r w] v' H. cbn in *. destruct (Z.ltb_spec (w + -1) 0); [discriminate|].
  injection H as <-. reflexivity.
Qed.

(** a process is replaced: what has to be shown *)
Lemma sinv_upd : forall v m ps i p q v' m', SInv (mkSys v m ps) ->
  nth_error ps i = Some p ->
  vR v' = vR v - cR p + cR q -> vW v' = vW v - cW p + cW q ->
  p_undo R q = mkSems (- cR q) (- cW q) ->
  vW v' = 0 \/ (vW v' = 1 /\ vR v' = 0) ->
  SInv (mkSys v' m' (upd ps i q)).
Proof.
  intros v m ps i p q v' m' [I1 I2 I3 I4] E HR HW HU HX.
  cbn [s_sems s_procs] in *. constructor; cbn [s_sems s_procs]; auto.
  - rewrite (sumz_upd _ cR _ _ _ _ E). lia.
  - rewrite (sumz_upd _ cW _ _ _ _ E). lia.
  - intros j x Hx. rewrite nth_upd_cases in Hx by (apply nth_error_Some; congruence).
    destruct (Nat.eqb_spec i j).
    + injection Hx as <-. auto.
    + apply (I3 j). auto.
Qed.

Lemma sinv_step : forall s e s', SInv s -> step R lim s e s' -> SInv s'.
Proof.
  intros s e s' HI HS. pose proof HI as [I1 I2 I3 I4].
  inversion HS; subst; cbn [s_sems s_procs] in *; pose proof (I3 _ _ H) as HU;
    unfold cR, cW in HU; cbn [p_pc p_undo] in HU;
    pose proof (sumz_in _ cR _ _ _ cR_nn H) as HsR; pose proof (sumz_in _ cW _ _ _ cW_nn H) as HsW;
    pose proof (sumz_nonneg _ cR ps cR_nn) as HnR.
  - apply (sinv_upd _ _ _ _ _ _ _ _ HI H); unfold cR, cW; cbn [p_pc p_undo]; auto; lia.
  - destruct g; cbn [lock_ops] in *.
    + apply try_lock_read in H0. destruct H0 as (A & B). rewrite B by lia.
      apply (sinv_upd _ _ _ _ _ _ _ _ HI H); unfold cR, cW; cbn [p_pc p_undo vR vW]; try lia.
      subst u. reflexivity.
    + apply try_lock_write in H0. destruct H0 as (A & B & ->).
      apply (sinv_upd _ _ _ _ _ _ _ _ HI H); unfold cR, cW; cbn [p_pc p_undo vR vW]; try lia.
      subst u. reflexivity.
  - apply (sinv_upd _ _ _ _ _ _ _ _ HI H); unfold cR, cW; cbn [p_pc p_undo]; auto; lia.
  - apply (sinv_upd _ _ _ _ _ _ _ _ HI H); unfold cR, cW; cbn [p_pc p_undo]; auto; lia.
  - unfold cR at 1 in HsR. unfold cW at 1 in HsW. cbn [p_pc] in HsR, HsW. destruct g; cbn [unlock_ops] in *.
    + apply try_unlock_read in H0. subst v'.
      apply (sinv_upd _ _ _ _ _ _ _ _ HI H); unfold cR, cW; cbn [p_pc p_undo vR vW]; try lia.
      subst u. reflexivity.
    + apply try_unlock_write in H0. subst v'.
      apply (sinv_upd _ _ _ _ _ _ _ _ HI H); unfold cR, cW; cbn [p_pc p_undo vR vW]; try lia.
      subst u. reflexivity.
  - pose proof (I3 _ _ H) as HU'. cbn [p_undo] in HU'. rewrite HU'. unfold undo_apply. cbn [vR vW].
    pose proof (cW_nn (mkProc p u)). pose proof (cR_nn (mkProc p u)).
    apply (sinv_upd _ _ _ _ _ _ _ _ HI H); cbn [vR vW p_undo]; auto.
    + unfold cR at 3. cbn [p_pc]. lia.
    + unfold cW at 3. cbn [p_pc]. lia.
    + lia.
Qed.

Lemma sinv_exec : forall n m0 tr s, exec R lim n m0 tr s -> SInv s.
Proof.
  intros n m0 tr s H. induction H; [apply sinv_init|]. eapply sinv_step; eauto.
Qed.

Lemma sinv_exclusive : forall s, SInv s -> exclusive R s.
Proof.
  intros s [I1 I2 I3 I4] i j g (b0 & b & u & Hi) (c0 & c & u' & Hj).
  destruct (Nat.eq_dec i j) as [|Hne]; auto. exfalso.
  pose proof (sumz_in _ cW _ _ _ cW_nn Hi) as A. unfold cW at 1 in A. cbn [p_pc] in A.
  destruct g.
  - pose proof (sumz_in _ cR _ _ _ cR_nn Hj) as B. unfold cR at 1 in B. cbn [p_pc] in B. lia.
  - pose proof (sumz_two _ cW _ _ _ _ _ cW_nn Hne Hi Hj) as B.
    unfold cW at 1 2 in B. cbn [p_pc] in B. lia.
Qed.

(** *** The sections are serialisable *)

Lemma serial_app : forall m tr m1 e m2, serial R lim m tr m1 -> serial R lim m1 [e] m2 ->
  serial R lim m (tr ++ [e]) m2.
Proof.
  intros m tr m1 e m2 H. induction H; intros H2; cbn [app]; auto.
  - eapply serial_read; eauto.
  - eapply serial_write; eauto.
  - eapply serial_died; eauto.
  - eapply serial_other; eauto.
Qed.

Lemma readonly_step : forall b m b' m', readonly R b -> pstep lim b m b' m' ->
  readonly R b' /\ m' = m.
Proof. intros b m b' m' H HS. inversion HS; subst; cbn [readonly] in H; [auto|tauto]. Qed.

(** [m1] is the memory when the last section was left *)
Record MInv (m1 : mem) (s : sys) : Prop := mkMInv
  { mi_wait : forall i b u, nth_error (s_procs R s) i = Some (mkProc (Wait Rd b) u) -> readonly R b;
    mi_rd : forall i b0 b u, nth_error (s_procs R s) i = Some (mkProc (Inside Rd b0 b) u) ->
              readonly R b /\ psteps lim b0 m1 b m1;
    mi_wr : forall i b0 b u, nth_error (s_procs R s) i = Some (mkProc (Inside Wr b0 b) u) ->
              psteps lim b0 m1 b (s_mem R s);
    mi_eq : (forall i, ~ inside R s i Wr) -> s_mem R s = m1 }.

Lemma minv_init : forall n m0, MInv m0 (init R n m0).
Proof.
  intros n m0. constructor; cbn [init s_procs s_mem]; auto;
    intros; apply nth_error_In, repeat_spec in H; discriminate.
Qed.

Lemma upd_get : forall (ps : list proc) i p j q x, nth_error ps i = Some p ->
  nth_error (upd ps i q) j = Some x -> (i = j /\ x = q) \/ (i <> j /\ nth_error ps j = Some x).
Proof.
  intros ps i p j q x Hi Hj. rewrite nth_upd_cases in Hj by (apply nth_error_Some; congruence).
  destruct (Nat.eqb_spec i j); [injection Hj as <-|]; auto.
Qed.

Lemma minv_step : forall m0 tr m1 s e s',
  SInv s -> serial R lim m0 tr m1 -> MInv m1 s -> step R lim s e s' ->
  (forall i b, e = ECall i Rd b -> readonly R b) ->
  exists m2, serial R lim m0 (tr ++ [e]) m2 /\ MInv m2 s'.
Proof.
  intros m0 tr m1 s e s' HI HSer HM HS HRO. pose proof HM as [M1 M2 M3 M4].
  pose proof (sinv_exclusive _ HI) as HEx.
  assert (HI' : SInv s') by (eapply sinv_step; eauto).
  inversion HS; subst; cbn [s_sems s_procs s_mem] in *.
  - (* call *)
    exists m1. split. { apply (serial_app _ _ m1); auto. apply serial_other; auto. constructor. }
    constructor; cbn [s_procs s_mem].
    + intros j b1 u1 Hj. apply (upd_get _ _ _ _ _ _ H) in Hj.
      destruct Hj as [(<- & X)|(Hne & X)]; [|eapply M1; eauto].
      injection X as <- <- <-. eapply HRO. reflexivity.
    + intros j c0 c u1 Hj. apply (upd_get _ _ _ _ _ _ H) in Hj.
      destruct Hj as [(<- & X)|(Hne & X)]; [discriminate|eapply M2; eauto].
    + intros j c0 c u1 Hj. apply (upd_get _ _ _ _ _ _ H) in Hj.
      destruct Hj as [(<- & X)|(Hne & X)]; [discriminate|eapply M3; eauto].
    + intros Hn. apply M4. intros j (c0 & c & u1 & Hj). apply (Hn j). exists c0, c, u1.
      cbn [s_procs] in *. rewrite nth_error_upd_other; auto. intros ->. congruence.
  - (* lock *)
    assert (NW : vW v = 0).
    { destruct g; cbn [lock_ops] in H0.
      - apply try_lock_read in H0. tauto.
      - apply try_lock_write in H0. tauto. }
    assert (NoW : forall j, ~ inside R (mkSys v m ps) j Wr).
    { intros j (c0 & c & u1 & Hj). cbn [s_procs] in Hj.
      pose proof (sumz_in _ cW _ _ _ cW_nn Hj) as A. unfold cW at 1 in A. cbn [p_pc] in A.
      pose proof (si_W _ HI) as B. cbn [s_sems s_procs] in B. lia. }
    specialize (M4 NoW). subst m1.
    exists m. split. { apply (serial_app _ _ m); auto. apply serial_other; auto. constructor. }
    constructor; cbn [s_procs s_mem]; auto.
    + intros j b1 u1 Hj. apply (upd_get _ _ _ _ _ _ H) in Hj.
      destruct Hj as [(<- & X)|(Hne & X)]; [discriminate|eapply M1; eauto].
    + intros j c0 c u1 Hj. apply (upd_get _ _ _ _ _ _ H) in Hj.
      destruct Hj as [(<- & X)|(Hne & X)]; [|eapply M2; eauto].
      injection X as <- <- <- _. split; [eapply M1; eauto|constructor].
    + intros j c0 c u1 Hj. apply (upd_get _ _ _ _ _ _ H) in Hj.
      destruct Hj as [(<- & X)|(Hne & X)]; [|eapply M3; eauto].
      injection X as <- <- <- _. constructor.
  - (* throw *)
    exists m1. split. { apply (serial_app _ _ m1); auto. apply serial_other; auto. constructor. }
    constructor; cbn [s_procs s_mem].
    + intros j b1 u1 Hj. apply (upd_get _ _ _ _ _ _ H) in Hj.
      destruct Hj as [(<- & X)|(Hne & X)]; [discriminate|eapply M1; eauto].
    + intros j c0 c u1 Hj. apply (upd_get _ _ _ _ _ _ H) in Hj.
      destruct Hj as [(<- & X)|(Hne & X)]; [discriminate|eapply M2; eauto].
    + intros j c0 c u1 Hj. apply (upd_get _ _ _ _ _ _ H) in Hj.
      destruct Hj as [(<- & X)|(Hne & X)]; [discriminate|eapply M3; eauto].
    + intros Hn. apply M4. intros j (c0 & c & u1 & Hj). apply (Hn j). exists c0, c, u1.
      cbn [s_procs] in *. rewrite nth_error_upd_other; auto. intros ->. congruence.
  - (* load or store *)
    exists m1. split. { apply (serial_app _ _ m1); auto. apply serial_other; auto. constructor. }
    assert (Hm : m' = m \/ g = Wr).
    { destruct g; auto. left. destruct (M2 _ _ _ _ H) as (X & _).
      apply (readonly_step _ _ _ _ X H0). }
    assert (Ins : inside R (mkSys v m ps) i g).
    { exists b0, b, u. auto. }
    constructor; cbn [s_procs s_mem].
    + intros j b1 u1 Hj. apply (upd_get _ _ _ _ _ _ H) in Hj.
      destruct Hj as [(<- & X)|(Hne & X)]; [discriminate|eapply M1; eauto].
    + intros j c0 c u1 Hj. apply (upd_get _ _ _ _ _ _ H) in Hj.
      destruct Hj as [(<- & X)|(Hne & X)]; [|eapply M2; eauto].
      injection X as <- <- <- _. destruct (M2 _ _ _ _ H) as (X & Y).
      destruct (readonly_step _ _ _ _ X H0) as (Z & ->). split; auto.
      assert (m = m1).
      { apply M4. intros k Hk. pose proof (HEx k i Rd Hk Ins). subst k.
        destruct Hk as (d0 & d & u2 & Hk). cbn [s_procs] in Hk. congruence. }
      subst. econstructor; eauto.
    + intros j c0 c u1 Hj. apply (upd_get _ _ _ _ _ _ H) in Hj.
      destruct Hj as [(<- & X)|(Hne & X)].
      * injection X as <- <- <- _. specialize (M3 _ _ _ _ H). econstructor; eauto.
      * destruct Hm as [->| ->]; [eapply M3; eauto|].
        exfalso. apply Hne. apply (HEx i j Wr); auto. exists c0, c, u1. auto.
    + intros Hn. destruct g.
      * destruct Hm as [->|]; [|discriminate]. apply M4. intros j (c0 & c & u1 & Hj).
        apply (Hn j). exists c0, c, u1. cbn [s_procs] in *.
        rewrite nth_error_upd_other; auto. intros ->. congruence.
      * exfalso. apply (Hn i). exists b0, b', u. cbn [s_procs].
        apply nth_error_upd_same. apply nth_error_Some. congruence.
  - (* unlock *)
    assert (Ins : inside R (mkSys v m ps) i g) by (exists b0, (Ret r), u; auto).
    destruct g.
    + destruct (M2 _ _ _ _ H) as (_ & Y).
      exists m1. split.
      { apply (serial_app _ _ m1); auto. eapply serial_read; [|constructor].
        rewrite (psteps_run _ _ _ _ _ _ Y). reflexivity. }
      constructor; cbn [s_procs s_mem].
      * intros j b1 u1 Hj. apply (upd_get _ _ _ _ _ _ H) in Hj.
        destruct Hj as [(<- & X)|(Hne & X)]; [discriminate|eapply M1; eauto].
      * intros j c0 c u1 Hj. apply (upd_get _ _ _ _ _ _ H) in Hj.
        destruct Hj as [(<- & X)|(Hne & X)]; [discriminate|eapply M2; eauto].
      * intros j c0 c u1 Hj. apply (upd_get _ _ _ _ _ _ H) in Hj.
        destruct Hj as [(<- & X)|(Hne & X)]; [discriminate|eapply M3; eauto].
      * intros Hn. apply M4. intros j (c0 & c & u1 & Hj). apply (Hn j). exists c0, c, u1.
        cbn [s_procs] in *. rewrite nth_error_upd_other; auto. intros ->. congruence.
    + pose proof (M3 _ _ _ _ H) as Y.
      exists m. split.
      { apply (serial_app _ _ m1); auto. eapply serial_write; [|constructor].
        rewrite (psteps_run _ _ _ _ _ _ Y). reflexivity. }
      assert (Alone : forall j c0 c u1 gg,
        nth_error (upd ps i (mkProc Idle (undo_add u (unlock_ops Wr)))) j
          = Some (mkProc (Inside gg c0 c) u1) -> False).
      { intros j c0 c u1 gg Hj. apply (upd_get _ _ _ _ _ _ H) in Hj.
        destruct Hj as [(<- & X)|(Hne & X)]; [discriminate|].
        apply Hne. apply (HEx i j gg); auto. exists c0, c, u1. auto. }
      constructor; cbn [s_procs s_mem]; auto.
      * intros j b1 u1 Hj. apply (upd_get _ _ _ _ _ _ H) in Hj.
        destruct Hj as [(<- & X)|(Hne & X)]; [discriminate|eapply M1; eauto].
      * intros j c0 c u1 Hj. exfalso. eapply Alone; eauto.
      * intros j c0 c u1 Hj. exfalso. eapply Alone; eauto.
  - (* crash *)
    destruct p as [|g b|g b0 b|]; cbn [section_of]; try congruence.
    1, 2 : exists m1; split;
      [apply (serial_app _ _ m1); auto; apply serial_other; auto; constructor|];
      constructor; cbn [s_procs s_mem];
      [ intros j b1 u1 Hj; apply (upd_get _ _ _ _ _ _ H) in Hj;
        destruct Hj as [(<- & X)|(Hne & X)]; [discriminate|eapply M1; eauto]
      | intros j c0 c u1 Hj; apply (upd_get _ _ _ _ _ _ H) in Hj;
        destruct Hj as [(<- & X)|(Hne & X)]; [discriminate|eapply M2; eauto]
      | intros j c0 c u1 Hj; apply (upd_get _ _ _ _ _ _ H) in Hj;
        destruct Hj as [(<- & X)|(Hne & X)]; [discriminate|eapply M3; eauto]
      | intros Hn; apply M4; intros j (c0 & c & u1 & Hj); apply (Hn j); exists c0, c, u1;
        cbn [s_procs] in *; rewrite nth_error_upd_other; auto; intros ->; congruence ].
    assert (Ins : inside R (mkSys v m ps) i g) by (exists b0, b, u; auto).
    destruct g.
    + exists m1. split. { apply (serial_app _ _ m1); auto. apply serial_other; auto. constructor. }
      constructor; cbn [s_procs s_mem].
      * intros j b1 u1 Hj. apply (upd_get _ _ _ _ _ _ H) in Hj.
        destruct Hj as [(<- & X)|(Hne & X)]; [discriminate|eapply M1; eauto].
      * intros j c0 c u1 Hj. apply (upd_get _ _ _ _ _ _ H) in Hj.
        destruct Hj as [(<- & X)|(Hne & X)]; [discriminate|eapply M2; eauto].
      * intros j c0 c u1 Hj. apply (upd_get _ _ _ _ _ _ H) in Hj.
        destruct Hj as [(<- & X)|(Hne & X)]; [discriminate|eapply M3; eauto].
      * intros Hn. apply M4. intros j (c0 & c & u1 & Hj). apply (Hn j). exists c0, c, u1.
        cbn [s_procs] in *. rewrite nth_error_upd_other; auto. intros ->. congruence.
    + pose proof (M3 _ _ _ _ H) as Y.
      exists m. split.
      { apply (serial_app _ _ m1); auto. eapply serial_died; [exact Y|constructor]. }
      assert (Alone : forall j c0 c u1 gg,
        nth_error (upd ps i (mkProc Dead (mkSems 0 0))) j
          = Some (mkProc (Inside gg c0 c) u1) -> False).
      { intros j c0 c u1 gg Hj. apply (upd_get _ _ _ _ _ _ H) in Hj.
        destruct Hj as [(<- & X)|(Hne & X)]; [discriminate|].
        apply Hne. apply (HEx i j gg); auto. exists c0, c, u1. auto. }
      constructor; cbn [s_procs s_mem]; auto.
      * intros j b1 u1 Hj. apply (upd_get _ _ _ _ _ _ H) in Hj.
        destruct Hj as [(<- & X)|(Hne & X)]; [discriminate|eapply M1; eauto].
      * intros j c0 c u1 Hj. exfalso. eapply Alone; eauto.
      * intros j c0 c u1 Hj. exfalso. eapply Alone; eauto.
Qed.

Lemma minv_exec : forall n m0 tr s, exec R lim n m0 tr s ->
  (forall i b, In (ECall i Rd b) tr -> readonly R b) ->
  exists m1, serial R lim m0 tr m1 /\ MInv m1 s.
Proof.
  intros n m0 tr s H. induction H as [|tr s e s' H IH HS]; intros HRO.
  - exists m0. split; [constructor|apply minv_init].
  - destruct IH as (m1 & H1 & H2).
    { intros i b Hi. apply (HRO i). apply in_or_app. auto. }
    eapply minv_step; eauto.
    + eapply sinv_exec; eauto.
    + intros i b ->. apply (HRO i). apply in_or_app. right. now left.
Qed.

End Proof.

(** *** connect *)

Definition kW (p : cpc * sems) : Z :=
  match fst p with KShmIn | KIn | KErrUnlock => 1 | _ => 0 end.
Lemma kW_nn : forall p, 0 <= kW p.
Proof. intros [[] u]; unfold kW; cbn; lia. Qed.

(** a process that has not met the creation path *)
Definition kold (p : cpc) : Prop := p <> KCreate /\ p <> KSetR /\ p <> KSetW.

Record KInv (s : csys) : Prop := mkKInv
  { ki_e : c_exists s = true;
    ki_R : vR (c_sems s) = 0;
    ki_W : vW (c_sems s) = sumz kW (c_procs s);
    ki_x : vW (c_sems s) <= 1;
    ki_u : forall i p u, nth_error (c_procs s) i = Some (p, u) ->
             u = mkSems 0 (- kW (p, u)) /\ kold p }.

Lemma kinv_init : forall n, KInv (cinit true n).
Proof.
  intro n. constructor; cbn [cinit c_exists c_sems c_procs vR vW]; auto; try lia.
  - symmetry. apply sumz_zero. intros x Hx. apply repeat_spec in Hx. now subst.
  - intros i p u Hp. apply nth_error_In, repeat_spec in Hp. injection Hp as -> ->.
    split; auto. repeat split; discriminate.
Qed.

Lemma kinv_upd : forall v ps i p u q v', KInv (mkC true v ps) -> nth_error ps i = Some (p, u) ->
  vR v' = 0 -> vW v' = vW v - kW (p, u) + kW q -> vW v' <= 1 ->
  snd q = mkSems 0 (- kW q) -> kold (fst q) ->
  KInv (mkC true v' (upd ps i q)).
Proof.
  intros v ps i p u q v' [I1 I2 I3 I4 I5] E HR HW HX HU HO.
  cbn [c_exists c_sems c_procs] in *. constructor; cbn [c_exists c_sems c_procs]; auto.
  - rewrite (sumz_upd _ kW _ _ _ _ E). lia.
  - intros j p1 u1 Hj. rewrite nth_upd_cases in Hj by (apply nth_error_Some; congruence).
    destruct (Nat.eqb_spec i j).
    + injection Hj as ->. cbn [fst snd] in *. auto.
    + apply (I5 j). auto.
Qed.

Lemma kinv_step : forall s s', KInv s -> cstep false s s' -> KInv s'.
Proof.
  intros s s' HI HS. pose proof HI as [I1 I2 I3 I4 I5].
  assert (KO : forall p, p <> KCreate -> p <> KSetR -> p <> KSetW -> kold p) by (split; auto).
  inversion HS; subst; cbn [c_exists c_sems c_procs] in *; try discriminate;
    destruct (I5 _ _ _ H) as (HU & HO); destruct HO as (O1 & O2 & O3); try congruence;
    pose proof (sumz_in _ kW _ _ _ kW_nn H) as Hs;
    pose proof (sumz_nonneg _ kW ps kW_nn) as Hn;
    subst e || idtac.
  - unfold kW at 1 in Hs; unfold kW in HU; cbn [fst] in Hs, HU;
      apply (kinv_upd _ _ _ _ _ _ _ HI H); unfold kW; cbn [fst snd] in *; auto; try lia.
    apply KO; discriminate.
  - apply try_lock_write in H0. destruct H0 as (A & B & ->).
    unfold kW at 1 in Hs; unfold kW in HU; cbn [fst] in Hs, HU;
      apply (kinv_upd _ _ _ _ _ _ _ HI H); unfold kW; cbn [fst snd vR vW] in *; try lia.
    + subst u. reflexivity.
    + apply KO; discriminate.
  - unfold kW at 1 in Hs; unfold kW in HU; cbn [fst] in Hs, HU;
      apply (kinv_upd _ _ _ _ _ _ _ HI H); unfold kW; cbn [fst snd] in *; auto; try lia.
    apply KO; discriminate.
  - apply try_unlock_write in H0. subst v'.
    unfold kW at 1 in Hs; unfold kW in HU; cbn [fst] in Hs, HU;
      apply (kinv_upd _ _ _ _ _ _ _ HI H); unfold kW; cbn [fst snd vR vW] in *; try lia.
    + subst u. reflexivity.
    + apply KO; discriminate.
  - apply try_lock_write in H0. destruct H0 as (A & B & ->).
    unfold kW at 1 in Hs; unfold kW in HU; cbn [fst] in Hs, HU;
      apply (kinv_upd _ _ _ _ _ _ _ HI H); unfold kW; cbn [fst snd vR vW] in *; try lia.
    + subst u. reflexivity.
    + apply KO; discriminate.
  - apply try_unlock_write in H0. subst v'.
    unfold kW at 1 in Hs; unfold kW in HU; cbn [fst] in Hs, HU;
      apply (kinv_upd _ _ _ _ _ _ _ HI H); unfold kW; cbn [fst snd vR vW] in *; try lia.
    + subst u. reflexivity.
    + apply KO; discriminate.
  - unfold kW at 1 in Hs; unfold kW in HU; cbn [fst] in Hs, HU;
      apply (kinv_upd _ _ _ _ _ _ _ HI H); unfold kW; cbn [fst snd] in *; auto; try lia.
    apply KO; discriminate.
  - apply try_unlock_write in H0. subst v'.
    unfold kW at 1 in Hs; unfold kW in HU; cbn [fst] in Hs, HU;
      apply (kinv_upd _ _ _ _ _ _ _ HI H); unfold kW; cbn [fst snd vR vW] in *; try lia.
    + subst u. reflexivity.
    + apply KO; discriminate.
  - rewrite HU. pose proof (kW_nn (p, u)).
    apply (kinv_upd _ _ _ _ _ _ _ HI H); cbn [undo_apply fst snd vR vW] in *.
    + lia.
    + unfold kW at 3. cbn [fst]. lia.
    + lia.
    + reflexivity.
    + apply KO; discriminate.
Qed.

Lemma kinv_steps : forall s l s', KInv s -> csteps s l s' -> (forall b, In b l -> b = false) ->
  KInv s'.
Proof.
  intros s l s' HI HS. induction HS as [|s l s1 b s2 HS IH H1]; intros Hl; auto.
  assert (b = false) by (apply Hl; apply in_or_app; right; now left). subst b.
  apply (kinv_step s1); auto. apply IH; auto. intros x Hx. apply Hl. apply in_or_app. auto.
Qed.

Lemma kinv_exclusive : forall s, KInv s -> cexclusive s.
Proof.
  intros s [I1 I2 I3 I4 I5] i j (p & u & Hi & Pi) (q & u' & Hj & Pj).
  destruct (Nat.eq_dec i j) as [|Hne]; auto. exfalso.
  pose proof (sumz_two _ kW _ _ _ _ _ kW_nn Hne Hi Hj) as B.
  unfold kW at 1 2 in B. cbn [fst] in B.
  destruct Pi as [-> | ->], Pj as [-> | ->]; lia.
Qed.
