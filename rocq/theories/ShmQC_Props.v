(** C137: connecting to a shared queue. *)
From Coq Require Import ZArith List Bool Lia Arith.
From Verif Require Import Base ShmQ_Model ShmSys_Proof ShmQC_Model ShmQC_Spec ShmQC_Proof.
Import ListNotations.
Local Open Scope Z_scope.

(** ** The lock *)

(** If one process makes the set of semaphores, or the set is there already, at most one process is inside,
    whatever the others do and whoever dies where. *)
Theorem C137_one_creator : forall n tr s, exec (init false n) tr s -> undisturbed tr -> (creations tr <= 1)%nat ->
  one_inside s.
Proof. intros n tr s H U C. apply linv_one. eapply one_creator_inv; eauto. Qed.
Print Assumptions C137_one_creator.

Lemma old_ex : forall n tr s, exec (init true n) tr s -> ex (gl s) = true /\
  (forall i p u, nth_error (ps s) i = Some (p, u) -> p <> QCreate /\ p <> QSet0 /\ p <> QSet1) /\ ~ In KCreate tr.
Proof.
  intros n tr s H. induction H as [|tr s k i s' H (E & F & C) St].
  - split; [reflexivity|]. split; [|intros []]. intros i p u Hi. apply nth_error_In, repeat_spec in Hi. injection Hi as -> ->.
    repeat split; discriminate.
  - inversion St; subst; cbn [gl ps set_lk ex] in *.
    + destruct (F _ _ _ H0) as (F1 & F2 & F3).
      assert (X : ex g' = true /\ (q <> QCreate /\ q <> QSet0 /\ q <> QSet1) /\ k <> KCreate)
        by (inversion H1; subst; cbn [ex] in *; try congruence; repeat split; auto; discriminate).
      destruct X as (X1 & X2 & X3). split; auto. split.
      * intros j p1 u1 Hj. destruct (get_upd _ _ _ _ _ _ _ H0 Hj) as [(-> & Y)|(_ & Y)]; [injection Y as -> ->; auto|eauto].
      * intros Y. apply in_app_or in Y. destruct Y as [Y|[Y|[]]]; auto.
    + exfalso. destruct (F _ _ _ H0) as (_ & X & _). congruence.
    + split; auto. split.
      * intros j p1 u1 Hj. destruct (get_upd _ _ _ _ _ _ _ H0 Hj) as [(-> & Y)|(_ & Y)]; [injection Y as -> ->; repeat split; discriminate|eauto].
      * intros Y. apply in_app_or in Y. destruct Y as [Y|[Y|[]]]; auto; discriminate.
    + split; auto. split.
      * intros j p1 u1 Hj. destruct (get_upd _ _ _ _ _ _ _ H0 Hj) as [(-> & Y)|(_ & Y)]; [injection Y as -> ->; repeat split; discriminate|eauto].
      * intros Y. apply in_app_or in Y. destruct Y as [Y|[Y|[]]]; auto; discriminate.
Qed.
(** With a set that exists nothing is reset: all executions are calm, and the theorems below apply. *)
Theorem C137_old_set : forall n tr s, exec (init true n) tr s -> calm (init true n) tr s.
Proof.
  intros n tr s H. induction H as [|tr s k i s' H IH St]; [constructor|].
  destruct (old_ex _ _ _ H) as (_ & F & _). eapply calm_snoc; eauto; intros ->; exfalso.
  - inversion St; subst; cbn [ps] in *; [inversion H1|]. destruct (F _ _ _ H0) as (_ & X & _). congruence.
  - inversion St; subst; cbn [ps] in *. inversion H1; subst. destruct (F _ _ _ H0) as (_ & _ & X). congruence.
Qed.
Print Assumptions C137_old_set.

(** Also with several that make it, as long as the lock is not reset while somebody has it. *)
Theorem C137_exclusion_partial : forall e n tr s, calm (init e n) tr s -> undisturbed tr -> one_inside s.
Proof. intros e n tr s H U. apply linv_one. eapply calm_linv; eauto. Qed.
Print Assumptions C137_exclusion_partial.

(** This is all that can be said: wherever the lock is reset while somebody is inside, the process that reset it
    can join them in two more steps. *)
Theorem C137_reset_breaks : forall s i p u j v, nth_error (ps s) i = Some (p, u) -> inside p = true ->
  nth_error (ps s) j = Some (QSet0, v) ->
  exists s1 s2 s3, step s KReset j s1 /\ step s1 KZero j s2 /\ step s2 KTau j s3 /\ ~ one_inside s3.
Proof.
  intros [g l] i p u j v Hi P Hj. cbn [ps] in *.
  assert (N : i <> j) by (intros ->; rewrite Hi in Hj; injection Hj as -> ->; discriminate).
  assert (Lj : (j < length l)%nat) by (apply nth_error_Some; congruence).
  destruct g as [e k c sg n]. pose proof (SSet0 (mkG e k c sg n) l j v Hj) as S1. cbn [set_lk ex cnt seg stored] in S1.
  set (l1 := map (fun x => (fst x, 0)) (upd l j (QSet1, v))) in *.
  assert (J1 : nth_error l1 j = Some (QSet1, 0)) by (unfold l1; rewrite nth_error_map, nth_error_upd_same by auto; reflexivity).
  assert (I1 : nth_error l1 i = Some (p, 0)) by (unfold l1; rewrite nth_error_map, nth_error_upd_other by auto; rewrite Hi; reflexivity).
  clearbody l1. assert (L1 : (j < length l1)%nat) by (apply nth_error_Some; congruence).
  pose proof (SLoc _ _ _ _ _ _ _ _ _ J1 (LZero e 1 c sg n)) as S2.
  assert (J2 : nth_error (upd l1 j (QLock, 0 + 0)) j = Some (QLock, 0)) by (rewrite nth_error_upd_same by auto; reflexivity).
  pose proof (SLoc _ _ _ _ _ _ _ _ _ J2 (LLock e 1 0 sg n ltac:(lia))) as S3.
  do 3 eexists. split; [exact S1|]. split; [exact S2|]. split; [exact S3|].
  intros O. apply N. refine (O i j p QFind 0 (0 + 1) _ _ P eq_refl); cbn [ps].
  - rewrite !nth_error_upd_other by auto. exact I1.
  - rewrite nth_error_upd_same; [reflexivity|rewrite upd_length; auto].
Qed.
Print Assumptions C137_reset_breaks.

(** Building executions forward. *)
Ltac go E k i := eapply (ex_snoc _ _ _ k i) in E; [|eapply SLoc; [reflexivity|constructor; try reflexivity; try lia]]; cbn [app upd Z.add Z.sub Z.opp Z.pos_sub Z.max Z.ltb Z.compare] in E.
Ltac gor E i := eapply (ex_snoc _ _ _ KReset i) in E; [|eapply SSet0; reflexivity]; cbn [app upd map fst set_lk ex lk cnt seg stored] in E.

(** Two processes that both find no set: the second one resets the lock while the first is inside, and follows
    it, so that both set up the segment. *)
Theorem C137_two_creators_refuted : exists tr s, exec (init false 2) tr s /\ undisturbed tr /\
  nth_error (ps s) 0 = Some (QMake, 0) /\ nth_error (ps s) 1 = Some (QMake, 1).
Proof.
  pose proof (ex_nil (init false 2)) as E. unfold init in E at 2. cbn [repeat] in E.
  go E KTau 0%nat. go E KTau 1%nat. go E KCreate 0%nat. go E KCreate 1%nat. gor E 0%nat. go E KZero 0%nat. go E KTau 0%nat.
  gor E 1%nat. go E KZero 1%nat. go E KTau 1%nat. go E KTau 0%nat. go E KTau 1%nat.
  do 2 eexists. split; [exact E|]. split; [unfold undisturbed; cbn; intuition discriminate|]. split; reflexivity.
Qed.
Print Assumptions C137_two_creators_refuted.

Example C137_reset_breaks_ex : exists tr s, exec (init false 2) tr s /\ undisturbed tr /\
  nth_error (ps s) 0 = Some (QFind, 1) /\ nth_error (ps s) 1 = Some (QSet0, 0).
Proof.
  pose proof (ex_nil (init false 2)) as E. unfold init in E at 2. cbn [repeat] in E.
  go E KTau 0%nat. go E KTau 1%nat. go E KCreate 0%nat. go E KCreate 1%nat. gor E 0%nat. go E KZero 0%nat. go E KTau 0%nat.
  do 2 eexists. split; [exact E|]. split; [unfold undisturbed; cbn; intuition discriminate|]. split; reflexivity.
Qed.

(** ** The segment *)

(** The segment is set up at most once, before anybody is connected, and nobody finds it half made, unless a
    process dies between making it and writing its header. *)
Theorem C137_set_up_once : forall e n tr s, calm (init e n) tr s -> undisturbed tr -> ~ In (KDie true) tr ->
  (set_ups tr <= 1)%nat /\ ~ In KCrash tr /\
  (forall i p u, nth_error (ps s) i = Some (p, u) -> connected p = true -> set_ups tr = 1%nat).
Proof.
  intros e n tr s H U D. destruct (calm_inv _ _ _ _ H U D) as ([H1 H2 H3 H4 H5 H6] & NC).
  split; [rewrite H3; destruct (seg (gl s)) as [[]|]; lia|]. split; auto.
  intros i p u Hi Cp. destruct (H1 _ _ _ Hi) as (P & _). rewrite H3, P; auto. destruct p; auto; discriminate.
Qed.
Print Assumptions C137_set_up_once.

(** If it does, nobody ever connects again: every process that tries follows a null pointer. *)
Definition before (p : qpc) : bool :=
  match p with QGet | QCreate | QSet0 | QSet1 | QLock | QFind | QCheck | QDead => true | _ => false end.
Theorem C137_half_made_refuted : forall s tr s', seg (gl s) = Some false ->
  (forall i p u, nth_error (ps s) i = Some (p, u) -> before p = true) -> exec s tr s' ->
  forall i p u, nth_error (ps s') i = Some (p, u) -> connected p = false.
Proof.
  intros s tr s' S B H.
  assert (I : seg (gl s') = Some false /\ forall i p u, nth_error (ps s') i = Some (p, u) -> before p = true).
  { induction H as [|tr s1 k i s2 H (S1 & B1) St]; auto.
    inversion St; subst; cbn [gl ps set_lk seg] in *.
    - specialize (B1 _ _ _ H0) as Bp.
      assert (X : seg g' = Some false /\ before q = true) by (inversion H1; subst; cbn [seg] in *; try discriminate; try congruence; split; auto).
      split; [tauto|]. intros j p1 u1 Hj. destruct (get_upd _ _ _ _ _ _ _ H0 Hj) as [(-> & Y)|(_ & Y)]; [injection Y as -> ->; tauto|eauto].
    - split; auto. intros j p1 u1 Hj. apply get_clear in Hj. destruct Hj as (_ & w & Hj).
      destruct (get_upd _ _ _ _ _ _ _ H0 Hj) as [(-> & Y)|(_ & Y)]; [injection Y as -> ->; auto|eauto].
    - split; auto. intros j p1 u1 Hj. destruct (get_upd _ _ _ _ _ _ _ H0 Hj) as [(-> & Y)|(_ & Y)]; [injection Y as -> ->; auto|eauto].
    - split; auto. intros j p1 u1 Hj. destruct (get_upd _ _ _ _ _ _ _ H0 Hj) as [(-> & Y)|(_ & Y)]; [injection Y as -> ->; auto|eauto]. }
  intros i p u Hi. destruct I as (_ & I). specialize (I _ _ _ Hi). destruct p; auto; discriminate.
Qed.
Print Assumptions C137_half_made_refuted.
(** ... and such a state is reached: one process dies, the other has yet to start. *)
Example C137_half_made_ex : exists tr s, exec (init true 2) tr s /\ tr = [KTau; KTau; KTau; KTau; KDie true] /\
  seg (gl s) = Some false /\ ps s = [(QDead, 0); (QGet, 0)] /\
  (forall i p u, nth_error (ps s) i = Some (p, u) -> before p = true) /\
  exists s', exec s [KTau; KTau; KTau; KCrash] s' /\ nth_error (ps s') 1 = Some (QDead, 0).
Proof.
  pose proof (ex_nil (init true 2)) as E. unfold init in E at 2. cbn [repeat] in E.
  go E KTau 0%nat. go E KTau 0%nat. go E KTau 0%nat. go E KTau 0%nat.
  eapply (ex_snoc _ _ _ _ 0%nat) in E; [|eapply SDie; [reflexivity|discriminate]]. cbn [app upd set_lk ex lk cnt seg stored Z.max Z.add Z.compare] in E.
  do 2 eexists. split; [exact E|]. split; [reflexivity|]. split; [reflexivity|]. split; [reflexivity|]. split.
  { intros [|[|[|i]]] p u X; cbn in X; try discriminate; injection X as <- <-; reflexivity. }
  clear E. match goal with |- exists s', exec ?s _ s' /\ _ => pose proof (ex_nil s) as F end.
  go F KTau 1%nat. go F KTau 1%nat. go F KTau 1%nat.
  eapply (ex_snoc _ _ _ KCrash 1%nat) in F; [|eapply SCrash; [reflexivity|discriminate]].
  eexists. split; [exact F|reflexivity].
Qed.

(** If the process that makes the set dies before it sets the lock, nobody ever gets in (unless a lock call is
    interrupted). *)
Definition waits (p : qpc) : bool := match p with QGet | QLock | QDead => true | _ => false end.
Theorem C137_creator_dies_refuted : forall s tr s', ex (gl s) = true -> lk (gl s) = 0 ->
  (forall i p u, nth_error (ps s) i = Some (p, u) -> waits p = true /\ u = 0) -> exec s tr s' -> undisturbed tr ->
  forall i p u, nth_error (ps s') i = Some (p, u) -> inside p = false /\ connected p = false.
Proof.
  intros s tr s' E0 L0 B H U.
  assert (I : ex (gl s') = true /\ lk (gl s') = 0 /\ forall i p u, nth_error (ps s') i = Some (p, u) -> waits p = true /\ u = 0).
  { induction H as [|tr s1 k i s2 H IH St]; auto.
    destruct IH as (E1 & L1 & B1). { intros X. apply U. apply in_or_app. auto. }
    assert (K : k <> KIntr) by (intros ->; apply U; apply in_or_app; right; left; auto).
    inversion St; subst; cbn [gl ps set_lk ex lk] in *.
    - destruct (B1 _ _ _ H0) as (Bp & ->).
      assert (X : ex g' = true /\ lk g' = 0 /\ waits q = true /\ d = 0)
        by (inversion H1; subst; cbn [ex lk] in *; try discriminate; try congruence; try lia; repeat split; auto).
      destruct X as (X1 & X2 & X3 & ->). split; [tauto|]. split; [tauto|]. intros j p1 u1 Hj.
      destruct (get_upd _ _ _ _ _ _ _ H0 Hj) as [(-> & Y)|(_ & Y)]; [injection Y as -> ->; auto|eauto].
    - destruct (B1 _ _ _ H0) as (X & _). discriminate.
    - destruct (B1 _ _ _ H0) as (X & _). discriminate.
    - destruct (B1 _ _ _ H0) as (_ & ->). split; auto. split; [lia|]. intros j p1 u1 Hj.
      destruct (get_upd _ _ _ _ _ _ _ H0 Hj) as [(-> & Y)|(_ & Y)]; [injection Y as -> ->; auto|eauto]. }
  intros i p u Hi. destruct I as (_ & _ & I). destruct (I _ _ _ Hi) as (X & _). destruct p; auto; discriminate.
Qed.
Print Assumptions C137_creator_dies_refuted.
Example C137_creator_dies_ex : exists tr s, exec (init false 3) tr s /\ ex (gl s) = true /\ lk (gl s) = 0 /\
  ps s = [(QDead, 0); (QLock, 0); (QGet, 0)].
Proof.
  pose proof (ex_nil (init false 3)) as E. unfold init in E at 2. cbn [repeat] in E.
  go E KTau 0%nat. go E KCreate 0%nat. go E KTau 1%nat.
  eapply (ex_snoc _ _ _ _ 0%nat) in E; [|eapply SDie; [reflexivity|discriminate]]. cbn [app upd set_lk ex lk cnt seg stored Z.max Z.add Z.compare] in E.
  do 2 eexists. split; [exact E|]. repeat split.
Qed.

(** ** The count *)

Lemma boxes_snoc : forall tr k, boxes (tr ++ [k]) = match k with KInit => 0 | KStore => boxes tr + 1 | KTake => boxes tr - 1 | _ => boxes tr end.
Proof. intros. unfold boxes. rewrite fold_left_app. reflexivity. Qed.
Lemma calm_exec : forall s0 tr s, calm s0 tr s -> exec s0 tr s.
Proof. intros s0 tr s H. induction H; econstructor; eauto. Qed.
Lemma stored_boxes : forall e n tr s, exec (init e n) tr s -> stored (gl s) = boxes tr.
Proof.
  intros e n tr s H. induction H as [|tr s k i s' H IH St]; [reflexivity|]. rewrite boxes_snoc.
  inversion St; subst; cbn [gl set_lk stored] in *; auto. inversion H1; subst; cbn [stored] in *; congruence.
Qed.

(** If the setting up is calm the count never promises a box that is not there, wherever processes die (but not
    between making the segment and writing its header). *)
Theorem C137_count : forall e n tr s, calm (init e n) tr s -> undisturbed tr -> ~ In (KDie true) tr ->
  0 <= cnt (gl s) /\ cnt (gl s) + number claims s + number pending s <= boxes tr.
Proof.
  intros e n tr s H U D. destruct (calm_inv _ _ _ _ H U D) as ([H1 H2 H3 H4 H5 H6] & NC).
  rewrite !number_ind, <- (stored_boxes _ _ _ _ (calm_exec _ _ _ H)). split; auto. lia.
Qed.
Print Assumptions C137_count.

Definition early (p : qpc) : bool := match p with QGet | QCreate | QDead => true | _ => false end.
Lemma no_set : forall e n tr s, exec (init e n) tr s -> ex (gl s) = false ->
  cnt (gl s) = 0 /\ forall i p u, nth_error (ps s) i = Some (p, u) -> early p = true.
Proof.
  intros e n tr s H. induction H as [|tr s k i s' H IH St]; intros X.
  - split; [reflexivity|]. cbn. intros i p u Hi. apply nth_error_In, repeat_spec in Hi. injection Hi as -> ->. reflexivity.
  - inversion St; subst; cbn [gl ps set_lk ex cnt] in *.
    + assert (Y : ex g = false) by (inversion H1; subst; cbn [ex] in *; congruence).
      destruct (IH Y) as (C & A). pose proof (A _ _ _ H0) as Ap.
      inversion H1; subst; cbn [ex cnt early] in *; try discriminate. split; [exact C|].
      intros j p1 u1 Hj. destruct (get_upd _ _ _ _ _ _ _ H0 Hj) as [(-> & Z)|(_ & Z)]; [injection Z as -> ->; reflexivity|eauto].
    + destruct (IH X) as (C & A). specialize (A _ _ _ H0). discriminate.
    + destruct (IH X) as (C & A). specialize (A _ _ _ H0). discriminate.
    + destruct (IH X) as (C & A). split; [exact C|].
      intros j p1 u1 Hj. destruct (get_upd _ _ _ _ _ _ _ H0 Hj) as [(-> & Z)|(_ & Z)]; [injection Z as -> ->; reflexivity|eauto].
Qed.
Lemma stores_snoc : forall tr k, stores (tr ++ [k]) = (stores tr + match k with KStore => 1 | _ => 0 end)%nat.
Proof. intros tr k. unfold stores. rewrite filter_app, app_length. destruct k; reflexivity. Qed.
Lemma boxes_stores : forall tr, boxes tr <= Z.of_nat (stores tr).
Proof.
  intros tr. induction tr as [|k tr IH] using rev_ind; [unfold boxes; cbn; lia|]. rewrite boxes_snoc, stores_snoc. destruct k; lia.
Qed.
(** If besides nobody dies, and no more boxes are sent than the semaphore can count, the count is exact: every box
    in the ring is announced, or about to be, or claimed by a reader, and once only. *)
Theorem C137_count_exact : forall e n tr s, calm (init e n) tr s -> undisturbed tr -> (forall h, ~ In (KDie h) tr) ->
  Z.of_nat (stores tr) <= semvmx ->
  cnt (gl s) + number claims s + number pending s = boxes tr.
Proof.
  intros e n tr s H U D B. assert (G : boxes tr <= cnt (gl s) + sumz (ind claims) (ps s) + sumz (ind pending) (ps s)).
  { induction H as [|tr s k i s' H IH St C1 C2].
    - unfold boxes. cbn [fold_left init gl ps cnt].
      pose proof (sumz_nonneg _ (ind claims) (repeat (QGet, 0) n) (ind_nn claims)).
      pose proof (sumz_nonneg _ (ind pending) (repeat (QGet, 0) n) (ind_nn pending)). lia.
    - assert (U' : undisturbed tr) by (intros X; apply U; apply in_or_app; auto).
      assert (D' : forall h, ~ In (KDie h) tr) by (intros h X; apply (D h); apply in_or_app; auto).
      assert (K : k <> KIntr) by (intros ->; apply U; apply in_or_app; right; left; auto).
      assert (KD : forall h, k <> KDie h) by (intros h ->; apply (D h); apply in_or_app; right; left; auto).
      rewrite stores_snoc in B. assert (B' : Z.of_nat (stores tr) <= semvmx) by lia. specialize (IH U' D' B').
      destruct (calm_inv _ _ _ _ H U' (D' true)) as ([H1 H2 H3 H4 H5 H6] & NC).
      pose proof (no_set _ _ _ _ (calm_exec _ _ _ H)) as NS.
      pose proof (stored_boxes _ _ _ _ (calm_exec _ _ _ H)) as SB. pose proof (boxes_stores tr) as BS.
      rewrite boxes_snoc. inversion St; subst; cbn [gl ps set_lk cnt ex] in *.
      + rewrite (sumz_upd _ (ind claims) _ _ _ (q, u + d) H0), (sumz_upd _ (ind pending) _ _ _ (q, u + d) H0).
        unfold ind at 2 3 5 6. cbn [fst].
        inversion H7; subst; cbn [cnt ex claims pending stored] in *; try congruence; try lia.
        * destruct e0; [lia|]. destruct (NS eq_refl) as (-> & _). lia.
        * rewrite C2 in * by reflexivity. lia.
        * pose proof (sumz_nonneg _ (ind claims) l (ind_nn claims)). pose proof (sumz_nonneg _ (ind pending) l (ind_nn pending)). lia.
        * pose proof (sumz_nonneg _ (ind claims) l (ind_nn claims)) as X1.
          pose proof (sumz_in _ (ind pending) _ _ _ (ind_nn pending) H0) as X2. unfold ind at 1 in X2. cbn [fst pending] in X2.
          destruct (Z.ltb_spec c semvmx); lia.
      + rewrite !ind_clear, (sumz_upd _ (ind claims) _ _ _ (QSet1, u) H0), (sumz_upd _ (ind pending) _ _ _ (QSet1, u) H0).
        unfold ind at 2 3 5 6. cbn [fst claims pending]. lia.
      + exfalso. destruct (H1 _ _ _ H0) as (P1 & _). apply H7. apply P1. reflexivity.
      + exfalso. eapply KD. reflexivity. }
  pose proof (C137_count _ _ _ _ H U (D true)) as (_ & L). rewrite !number_ind in *. lia.
Qed.
Print Assumptions C137_count_exact.

(** Once the segment has its header it keeps it, whatever calls are interrupted and whoever dies: no later connect
    crashes on it. *)
Theorem C137_header_stays : forall s0 tr s, exec s0 tr s -> seg (gl s0) = Some true -> seg (gl s) = Some true /\ ~ In KCrash tr.
Proof.
  intros s0 tr s H E. induction H as [|tr s k i s' H IH St]; [split; [exact E|intros []]|]. destruct IH as (S & NC).
  assert (Z : seg (gl s') = Some true /\ k <> KCrash).
  { inversion St; subst; cbn [gl set_lk seg] in *; try (split; [assumption|discriminate]); [|congruence].
    inversion H1; subst; cbn [seg] in *; subst; split; congruence. }
  split; [apply Z|]. intros X. apply in_app_or in X. destruct X as [X|[X|[]]]; [auto|]. destruct Z. congruence.
Qed.
Print Assumptions C137_header_stays.

(** False even with one creator: it sets the lock free before it sets the count, so a box that another process
    stores in between is never announced. *)
Theorem C137_lost_box_refuted : exists tr s, exec (init false 2) tr s /\ undisturbed tr /\ creations tr = 1%nat /\
  ps s = [(QUp, 0); (QUp, 0)] /\ boxes tr = 1 /\ cnt (gl s) = 0 /\
  forall tr' s', exec s tr' s' -> ~ In KStore tr' -> cnt (gl s') = 0.
Proof.
  pose proof (ex_nil (init false 2)) as E. unfold init in E at 2. cbn [repeat] in E.
  go E KTau 0%nat. go E KCreate 0%nat. gor E 0%nat. 
  go E KTau 1%nat. go E KTau 1%nat. go E KTau 1%nat. go E KTau 1%nat. go E KInit 1%nat. go E KTau 1%nat. go E KTau 1%nat.
  go E KTau 1%nat. go E KTau 1%nat. go E KStore 1%nat. go E KPost 1%nat. go E KTau 1%nat.
  go E KZero 0%nat. go E KTau 0%nat. go E KTau 0%nat. go E KTau 0%nat. go E KTau 0%nat.
  do 2 eexists. split; [exact E|]. split; [unfold undisturbed; cbn; intuition discriminate|]. split; [reflexivity|]. split; [reflexivity|].
  split; [reflexivity|]. split; [reflexivity|]. clear E. intros tr' s' H N.
  assert (I : cnt (gl s') = 0 /\ forall i p u, nth_error (ps s') i = Some (p, u) -> connected p = true /\ pending p = false \/ p = QDead).
  { induction H as [|tr s1 k i s2 H IH St].
    - split; [reflexivity|]. intros [|[|[|i]]] p u X; cbn in X; try discriminate; injection X as <- <-; auto.
    - destruct IH as (C1 & B1). { intros X. apply N. apply in_or_app. auto. }
      assert (K : k <> KStore) by (intros ->; apply N; apply in_or_app; right; left; auto).
      inversion St; subst; cbn [gl ps set_lk cnt] in *.
      + pose proof (B1 _ _ _ H0) as Bp.
        assert (X : cnt g' = 0 /\ connected q = true /\ pending q = false)
          by (inversion H1; subst; cbn [cnt] in *; destruct Bp as [(Bp & Bq)|Bp]; try discriminate; try congruence; try lia; repeat split; auto).
        split; [tauto|]. intros j p1 u1 Hj. destruct (get_upd _ _ _ _ _ _ _ H0 Hj) as [(-> & Y)|(_ & Y)]; [injection Y as -> ->; tauto|eauto].
      + destruct (B1 _ _ _ H0) as [(X & _)|X]; discriminate.
      + destruct (B1 _ _ _ H0) as [(X & _)|X]; discriminate.
      + split; auto. intros j p1 u1 Hj. destruct (get_upd _ _ _ _ _ _ _ H0 Hj) as [(-> & Y)|(_ & Y)]; [injection Y as -> ->; auto|eauto]. }
  apply I.
Qed.
Print Assumptions C137_lost_box_refuted.

(** *** A calm execution of two processes that both create the set, in which a box is sent and received. *)
Example C137_ex : exists tr s, calm (init false 2) tr s /\ undisturbed tr /\ (forall h, ~ In (KDie h) tr) /\ stores tr = 1%nat /\ boxes tr = 0 /\ creations tr = 2%nat /\
  set_ups tr = 1%nat /\ In KTake tr /\ ps s = [(QUp, 0); (UUnlock, 1)].
Proof.
  pose proof (calm_nil (init false 2)) as E. unfold init in E at 2. cbn [repeat] in E.
  Ltac goc E k i := eapply (calm_snoc _ _ _ k i) in E;
    [| eapply SLoc; [reflexivity|constructor; try reflexivity; try lia] | discriminate | first [discriminate | reflexivity]];
    cbn [app upd Z.add Z.sub Z.opp Z.pos_sub Z.max Z.ltb Z.compare] in E.
  Ltac gocr E i := eapply (calm_snoc _ _ _ KReset i) in E;
    [| eapply SSet0; reflexivity | intros _ [|[|[|?]]] ? ? X; cbn in X; try discriminate; injection X as <- <-; reflexivity | discriminate];
    cbn [app upd map fst set_lk ex lk cnt seg stored] in E.
  goc E KTau 0%nat. goc E KTau 1%nat. goc E KCreate 0%nat. goc E KCreate 1%nat. gocr E 0%nat. goc E KZero 0%nat. gocr E 1%nat. goc E KZero 1%nat.
  do 3 goc E KTau 0%nat. goc E KInit 0%nat. do 2 goc E KTau 0%nat.
  do 4 goc E KTau 1%nat.
  do 2 goc E KTau 0%nat. goc E KStore 0%nat. goc E KPost 0%nat. goc E KTau 0%nat.
  eapply (calm_snoc _ _ _ KTau 1%nat) in E; [| eapply SLoc; [reflexivity|apply LUnflush] | discriminate | discriminate]; cbn [app upd Z.add] in E.
  do 2 goc E KTau 1%nat. goc E KTake 1%nat.
  do 2 eexists. split; [exact E|]. split; [unfold undisturbed; cbn; intuition discriminate|]. split; [intros h; cbn; intuition discriminate|].
  split; [reflexivity|]. split; [reflexivity|]. split; [reflexivity|]. split; [reflexivity|]. split; [cbn; tauto|reflexivity].
Qed.
