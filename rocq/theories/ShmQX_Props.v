(** C62: how far interrupted locks break the exclusion.  C85: the sizes that do not work. *)

From Coq Require Import ZArith List Bool Lia.
From Verif Require Import Base Shm_Model Shm_Proof ShmMap_Proof ShmSys_Proof ShmQ_Spec ShmQ_Model
  ShmQSys_Spec ShmQ_Proof ShmQSys_Proof ShmQ_Props ShmQX_Spec.
Import ListNotations.
Local Open Scope Z_scope.

(** ** C62 *)

Lemma holders_sum : forall l, Z.of_nat (length (filter (fun p : pc * Z => holds (fst p)) l)) = sumz hz l.
Proof.
  induction l as [|[p u] l IH]; cbn [filter sumz fst]; [reflexivity|]. unfold hz at 1. cbn [fst].
  destruct (holds p); cbn [length]; lia.
Qed.

Record XInv (N : Z) (s : sys) : Prop := mkX
  { x_sum : lk s + sumz hz (procs s) <= 1 + N;
    x_undo : forall i p u, nth_error (procs s) i = Some (p, u) -> u <= hz (p, u);
    x_nn : 0 <= lk s }.

Lemma xinv_upd : forall N N' l c m ps i p u q v l' c' m', XInv N (mkS l c m ps) ->
  nth_error ps i = Some (p, u) -> v <= hz (q, v) ->
  l' + hz (q, v) <= l + hz (p, u) + (N' - N) -> 0 <= l' -> XInv N' (mkS l' c' m' (upd ps i (q, v))).
Proof.
  intros N N' l c m ps i p u q v l' c' m' [A B C] E U H NN. cbn [lk procs] in *.
  assert (Li : (i < length ps)%nat) by (apply nth_error_Some; congruence).
  constructor; cbn [lk procs]; auto.
  - pose proof (sumz_upd _ hz ps i (p, u) (q, v) E). lia.
  - intros j p' u' Ej. destruct (nthu _ ps i j (q, v) Li) as [(-> & X)|(NE & X)]; rewrite X in Ej.
    + injection Ej as <- <-. exact U.
    + eauto.
Qed.

Definition intrs (tr : list event) : Z := Z.of_nat (count_ev is_intr tr).
Lemma intrs_app : forall tr e, intrs (tr ++ [e]) = intrs tr + (if is_intr e then 1 else 0).
Proof.
  intros tr e. unfold intrs, count_ev. rewrite filter_app, app_length. cbn [filter].
  destruct (is_intr e); cbn [length]; lia.
Qed.

Lemma xinv_step : forall lim n N s e s', XInv N s -> step lim n s e s' ->
  XInv (N + (if is_intr e then 1 else 0)) s'.
Proof.
  intros lim n N s e s' I ST.
  assert (W : forall M, N <= M -> XInv M s) by (intros M HM; destruct I; constructor; auto; lia).
  pose proof (x_undo _ _ I) as U. pose proof (x_nn _ _ I) as NN.
  destruct ST; cbn [lk procs is_intr] in *; try (apply W; lia);
    match goal with H : nth_error _ _ = Some _ |- _ => pose proof (U _ _ _ H) as Hu; unfold hz in Hu; cbn [fst holds] in Hu end;
    try (eapply xinv_upd; [exact I|eassumption| | |]; unfold hz; cbn [holds fst];
         try destruct o; cbn [holds entry after] in *;
         try destruct r as [[]| | |]; cbn [holds] in *; lia).
  { assert (A : holds (after o r) = true) by (destruct r as [[]| | |]; reflexivity).
    eapply xinv_upd; [exact I|eassumption| | |]; unfold hz; cbn [holds fst]; rewrite ?A; lia. }
  eapply xinv_upd; [exact I|eassumption| | |]; unfold hz; cbn [holds fst is_intr]; [lia| |lia].
  revert Hu. destruct (holds p); lia.
Qed.

(** The exclusion is lost by one process for each interrupted lock and by no more: the processes
    in their sections, together with those the semaphore would let in, are at most one more than
    the locks that were interrupted so far, whoever dies and where. *)
Theorem C62_excess : forall lim n k m0 tr s, exec lim n k m0 tr s ->
  lk s + Z.of_nat (holders s) <= 1 + Z.of_nat (count_ev is_intr tr).
Proof.
  intros lim n k m0 tr s X. unfold holders. rewrite holders_sum. fold (intrs tr). apply x_sum.
  induction X as [|tr s e s' X IH S].
  - pose proof (linv_init k m0) as [A B C]. constructor; [change (intrs []) with 0; lia| |exact C].
    intros i p u H. apply B in H. subst. unfold hz. cbn [fst]. destruct (holds p); lia.
  - rewrite intrs_app. eapply xinv_step; eauto.
Qed.

(** Without deaths they are exactly one more: what an interruption breaks is never repaired, and
    when nobody is inside, the semaphore lets in one process for each interruption and one. *)
Theorem C62_excess_stays : forall lim n k m0 tr s, exec lim n k m0 tr s ->
  (forall e, In e tr -> is_death e = false) ->
  lk s + Z.of_nat (holders s) = 1 + Z.of_nat (count_ev is_intr tr).
Proof.
  intros lim n k m0 tr s X. unfold holders. rewrite holders_sum. fold (intrs tr).
  induction X as [|tr s e s' X IH S]; intros D.
  - pose proof (linv_init k m0) as [A B C]. change (intrs []) with 0. lia.
  - rewrite intrs_app. specialize (IH (fun e He => D e (in_or_app _ _ _ (or_introl He)))).
    specialize (D e ltac:(apply in_or_app; right; now left)).
    assert (K : forall l c m ps l' c' m' i p u q v, s = mkS l c m ps -> s' = mkS l' c' m' (upd ps i (q, v)) ->
      nth_error ps i = Some (p, u) -> l' + hz (q, v) = l + hz (p, u) + (if is_intr e then 1 else 0) ->
      lk s' + sumz hz (procs s') = 1 + (intrs tr + (if is_intr e then 1 else 0))).
    { intros l c m ps l' c' m' i p u q v -> -> E H. cbn [lk procs] in *.
      pose proof (sumz_upd _ hz ps i (p, u) (q, v) E). lia. }
    assert (A : forall o r, holds (after o r) = true) by (intros o [[]| | |]; reflexivity).
    destruct S; cbn [lk procs is_intr is_death] in *; try discriminate; try lia;
      (eapply K; [reflexivity|reflexivity|eassumption|]; unfold hz; cbn [holds fst]; rewrite ?A;
         try destruct o; cbn [holds entry] in *; lia).
Qed.

(** two processes inside after one interrupted lock *)
Example C62_excess_ex : exists tr s, exec (seg_size 2 3) 2 4 m3 tr s /\
  (forall e, In e tr -> is_death e = false) /\ count_ev is_intr tr = 1%nat /\ holders s = 2%nat /\ lk s = 0.
Proof.
  set (l := (0%nat, ACall (QFlush [1;2])) :: many 0 3 ++ [(1%nat, ACall (QFlush [3;4])); (1%nat, AIntr)]).
  pose proof (witness (seg_size 2 3) 2 4 m3 l
    (fun tr s => forallb (fun e => negb (is_death e)) tr && (count_ev is_intr tr =? 1)%nat
                 && (holders s =? 2)%nat && (lk s =? 0)) dflt) as W.
  destruct W as (X & T). { vm_compute. reflexivity. }
  revert X T. generalize (match fires (seg_size 2 3) 2 l [] (init 4 m3) with Some o => o | None => dflt end).
  clear l. intros [tr s] X T. cbn [fst snd] in *.
  rewrite !andb_true_iff, !Nat.eqb_eq, Z.eqb_eq, forallb_forall in T. destruct T as (((T1 & T2) & T3) & T4).
  exists tr, s. repeat split; auto. intros e He. apply negb_true_iff. auto.
Qed.

(** ** C85 *)

Section Sizes.
Variable sz : Z.
Variable n : nat.
Notation K := (u32 (sz * Z.of_nat n)).
Notation lim := (seg_size n sz).

Definition hd (m : mem) (s e : Z) : Prop :=
  m a_size = sz /\ m a_bsz = Z.of_nat n /\ m a_start = s /\ m a_end = e.

Lemma K_range : 0 <= K < 2^32.
Proof. unfold u32. apply Z.mod_pos_bound. lia. Qed.
Lemma hdr_in : forall a, 0 <= a <= 60 -> a mod 4 = 0 -> inb lim 4 a = true.
Proof. intros a H1 H2. pose proof K_range. apply inb_true; auto; try lia. unfold seg_size. lia. Qed.

Lemma mzero_other : forall k m a b, (b < a) -> mzero m a k b = m b.
Proof. induction k as [|k IH]; intros m a b H; cbn [mzero]; [reflexivity|]. rewrite IH by lia. apply mset_other. lia. Qed.

Ltac hdr := rewrite hdr_in by (first [reflexivity | unfold a_size, a_bsz, a_start, a_end; lia]).

Lemma created_hd : forall m0, created n sz m0 -> hd m0 0 0.
Proof.
  intros m0 (m & R). unfold attach_body in R. pose proof K_range as HK.
  rewrite run_bind in R.
  rewrite run_bind, run_zero_words in R; [|lia|reflexivity|unfold seg_size; lia]. cbn [bind] in R.
  rewrite run_bind, run_store_bytes in R.
  2: unfold a_boxes; lia. 2: { rewrite repeat_length, Z2Nat.id by lia. unfold a_boxes, seg_size. lia. }
  cbn [bind] in R. unfold store, load in R. cbn [pbind run] in R.
  rewrite !hdr_in in R by (first [reflexivity | unfold a_size, a_bsz, a_start, a_end; lia]). cbn [bind] in R. cbn [run] in R.
  set (m1 := mbytes (mzero m 0 16) a_boxes (repeat 0 (Z.to_nat K))) in *.
  set (m2 := mset (mset m1 a_bsz (Z.of_nat n)) a_size sz) in *.
  assert (E1 : m2 a_bsz = Z.of_nat n).
  { unfold m2. rewrite mset_other by (unfold a_bsz, a_size; lia). apply mset_same. }
  assert (E2 : m2 a_size = sz) by apply mset_same.
  rewrite E1, E2, !Z.eqb_refl in R. cbn [negb orb run] in R. injection R as <-.
  split; [exact E2|]. split; [exact E1|].
  assert (Z0 : forall a, a = a_start \/ a = a_end -> m2 a = 0).
  { intros a Ha. unfold m2. rewrite !mset_other by (unfold a_bsz, a_size, a_start, a_end in *; lia).
    unfold m1. rewrite mbytes_other by (left; unfold a_boxes, a_start, a_end in *; lia).
    destruct Ha as [-> | ->]; reflexivity. }
  split; apply Z0; auto.
Qed.

(** no boxes: flush divides by zero *)
Lemma flush_zero : forall m b, hd m 0 0 -> sz = 0 -> run lim (flush_body b) m = Ub DivByZero.
Proof.
  intros m b (H1 & H2 & H3 & H4) Z0. unfold flush_body, load, umod. cbn [pbind run]. repeat hdr.
  rewrite H1. destruct (Z.eqb_spec sz 0); [reflexivity|contradiction].
Qed.

Lemma store_oob : forall ws a (k : unit -> prog qret) m, 0 <= a -> lim < a + Z.of_nat (length ws) -> a <= lim ->
  run lim (pbind (store_bytes a ws) k) m = Ub OobWrite.
Proof.
  induction ws as [|w ws IH]; intros a k m H0 H1 H2; cbn [length store_bytes] in *; [lia|].
  unfold store. cbn [pbind run]. unfold inb. rewrite Z.mod_1_r, Z.eqb_refl, andb_true_r.
  destruct (Z.leb_spec 0 a); [|lia]. destruct (Z.leb_spec (a + 1) lim) as [L|L]; cbn [andb]; [|reflexivity].
  apply IH; lia.
Qed.

Hypothesis Hsz : 2 <= sz < 2^32.
Hypothesis Hn : (0 < n)%nat.
Hypothesis Hbig : 2^32 <= sz * Z.of_nat n.

(** the first box that does not fit *)
Definition first_bad : Z := K / Z.of_nat n.
Lemma first_bad_ok : 0 <= first_bad < sz /\ first_bad * Z.of_nat n <= K < first_bad * Z.of_nat n + Z.of_nat n.
Proof.
  pose proof K_range as HK. unfold first_bad. pose proof (Z.div_mod K (Z.of_nat n) ltac:(lia)) as D.
  pose proof (Z.mod_pos_bound K (Z.of_nat n) ltac:(lia)) as M.
  assert (0 <= K / Z.of_nat n) by (apply Z.div_pos; lia).
  assert (K / Z.of_nat n < sz) by (apply Z.div_lt_upper_bound; lia). lia.
Qed.

Lemma flush_fits : forall m b e, hd m e e -> 0 <= e < first_bad -> length b = n ->
  exists m', run lim (flush_body b) m = Ok (QStored true, m') /\ hd m' e (e + 1).
Proof.
  intros m b e (H1 & H2 & H3 & H4) He Hb. pose proof K_range as HK. destruct first_bad_ok as (F1 & F2 & F3).
  assert (R : 0 <= e * Z.of_nat n /\ e * Z.of_nat n + Z.of_nat n <= K) by nia.
  unfold flush_body, load, store, umod. cbn [pbind run]. repeat hdr. rewrite H1, H4, (u32_small (e + 1)) by lia.
  destruct (Z.eqb_spec sz 0); [lia|]. cbn [pbind run]. hdr. rewrite H3, Z.mod_small by lia.
  destruct (Z.eqb_spec (e + 1) e); [lia|]. cbn [negb pbind run]. repeat hdr. rewrite H4, H2, (u32_small (e * Z.of_nat n)) by lia.
  rewrite run_bind, run_store_bytes.
  2: unfold a_boxes; lia. 2: { rewrite Hb. unfold a_boxes, seg_size. lia. }
  cbn [bind pbind run]. repeat hdr.
  set (m1 := mbytes m (a_boxes + e * Z.of_nat n) b).
  assert (O : forall a, a < 64 -> m1 a = m a) by (intros a Ha; unfold m1; apply mbytes_other; unfold a_boxes; lia).
  rewrite (O a_end), H4, (u32_small (e + 1)) by (unfold a_end; lia).
  rewrite mset_same. rewrite (mset_other _ a_end _ a_size) by (unfold a_end, a_size; lia).
  rewrite (O a_size), H1 by (unfold a_size; lia). destruct (Z.eqb_spec sz 0); [lia|]. cbn [pbind run]. hdr.
  rewrite Z.mod_small by lia. eexists. split; [reflexivity|]. unfold hd.
  rewrite !mset_other by (unfold a_size, a_bsz, a_start, a_end; lia).
  rewrite !O by (unfold a_size, a_bsz, a_start, a_end; lia). rewrite mset_same. auto.
Qed.

Lemma unflush_fits : forall m e, hd m e (e + 1) -> 0 <= e < first_bad ->
  exists b m', run lim (unflush_body n) m = Ok (QBox b, m') /\ hd m' (e + 1) (e + 1).
Proof.
  intros m e (H1 & H2 & H3 & H4) He. pose proof K_range as HK. destruct first_bad_ok as (F1 & F2 & F3).
  assert (R : 0 <= e * Z.of_nat n /\ e * Z.of_nat n + Z.of_nat n <= K) by nia.
  unfold unflush_body, load, store, umod. cbn [pbind run]. repeat hdr. rewrite H3, H2, (u32_small (e * Z.of_nat n)) by lia.
  rewrite run_bind, run_load_bytes by (unfold a_boxes, seg_size; lia). cbn [bind run]. hdr.
  rewrite H2, Nat2Z.id. rewrite run_bind, run_store_bytes.
  2: unfold a_boxes; lia. 2: { rewrite repeat_length. unfold a_boxes, seg_size. lia. }
  cbn [bind pbind run]. repeat hdr.
  set (m1 := mbytes m (a_boxes + e * Z.of_nat n) (repeat 0 n)).
  assert (O : forall a, a < 64 -> m1 a = m a) by (intros a Ha; unfold m1; apply mbytes_other; unfold a_boxes; lia).
  rewrite (O a_start), H3, (u32_small (e + 1)) by (unfold a_start; lia).
  rewrite mset_same. rewrite (mset_other _ a_start _ a_size) by (unfold a_start, a_size; lia).
  rewrite (O a_size), H1 by (unfold a_size; lia). destruct (Z.eqb_spec sz 0); [lia|]. cbn [pbind run]. hdr.
  rewrite Z.mod_small by lia. eexists _, _. split; [reflexivity|]. unfold hd.
  rewrite !mset_other by (unfold a_size, a_bsz, a_start, a_end; lia).
  rewrite !O by (unfold a_size, a_bsz, a_start, a_end; lia). rewrite mset_same, !mset_other, O by (unfold a_start, a_end; lia). auto.
Qed.

Lemma flush_bad : forall m b, hd m first_bad first_bad -> length b = n -> run lim (flush_body b) m = Ub OobWrite.
Proof.
  intros m b (H1 & H2 & H3 & H4) Hb. pose proof K_range as HK. destruct first_bad_ok as (F1 & F2 & F3).
  unfold flush_body, load, store, umod. cbn [pbind run]. repeat hdr. rewrite H1, H4, (u32_small (first_bad + 1)) by lia.
  destruct (Z.eqb_spec sz 0); [lia|]. cbn [pbind run]. hdr. rewrite H3.
  destruct (Z.eqb_spec ((first_bad + 1) mod sz) first_bad) as [X|_].
  { exfalso. destruct (Z.eq_dec (first_bad + 1) sz) as [E|E].
    - rewrite E, Z_mod_same_full in X. lia.
    - rewrite Z.mod_small in X by lia. lia. }
  cbn [negb pbind run]. repeat hdr. rewrite H4, H2, (u32_small (first_bad * Z.of_nat n)) by lia.
  apply store_oob; unfold a_boxes, seg_size; rewrite ?Hb; lia.
Qed.

Lemma pairs_bad : forall k m b e, hd m e e -> 0 <= e -> e + Z.of_nat k = first_bad -> length b = n ->
  calls lim n (pairs b k ++ [QFlush b]) m = Ub OobWrite.
Proof.
  induction k as [|k IH]; intros m b e H He Hk Hb; cbn [pairs app calls body].
  - assert (e = first_bad) by lia. subst e. rewrite (flush_bad m b H Hb). reflexivity.
  - destruct (flush_fits m b e H ltac:(lia) Hb) as (m1 & -> & H1). cbn [bind].
    destruct (unflush_fits m1 e H1 ltac:(lia)) as (b' & m2 & -> & H2). cbn [bind].
    rewrite (IH m2 b (e + 1) H2 ltac:(lia) ltac:(lia) Hb). reflexivity.
Qed.
End Sizes.

(** Every size of 2^32 bytes and more that connect accepts breaks: one process that stores boxes
    and takes them again writes behind the segment after some number of rounds. *)
Theorem C85_large_queues_break : forall n sz m0 b,
  2 <= sz < 2^32 -> (0 < n)%nat -> 2^32 <= sz * Z.of_nat n -> created n sz m0 -> length b = n ->
  exists k, (Z.of_nat k < sz) /\ calls (seg_size n sz) n (pairs b k ++ [QFlush b]) m0 = Ub OobWrite.
Proof.
  intros n sz m0 b Hsz Hn Hbig C Hb. destruct (first_bad_ok sz n Hn Hbig) as ((F0 & F1) & _).
  exists (Z.to_nat (first_bad sz n)). split; [lia|].
  apply (pairs_bad sz n Hsz Hn Hbig _ m0 b 0); auto; [|lia|lia]. apply created_hd. exact C.
Qed.

(** and with no boxes at all every flush divides by zero *)
Theorem C85_no_boxes_break : forall n m0 b, created n 0 m0 -> run (seg_size n 0) (flush_body b) m0 = Ub DivByZero.
Proof. intros n m0 b C. apply (flush_zero 0 n); [apply created_hd; exact C|reflexivity]. Qed.

(** 2^31 boxes of 2 bytes: the segment has room for none of them *)
Example C85_large_ex : 2 <= 2^31 < 2^32 /\ 2^32 <= 2^31 * Z.of_nat 2 /\ (exists m0, created 2 (2^31) m0) /\
  first_bad (2^31) 2 = 0.
Proof.
  split; [lia|]. split; [lia|]. split; [|reflexivity].
  set (o := run (seg_size 2 (2^31)) (attach_body true 2 (2^31)) (fun _ => 0)).
  exists (match o with Ok (_, m) => m | _ => fun _ => 0 end), (fun _ => 0). fold o.
  assert (E : match o with Ok (tt, _) => true | _ => false end = true) by (vm_compute; reflexivity).
  destruct o as [[[] m]| |]; try discriminate. reflexivity.
Qed.
(** 2^20 + 1 boxes of 4096 bytes: the second box does not fit *)
Example C85_large_ex2 : 2^32 <= (2^20 + 1) * Z.of_nat 4096 /\ first_bad (2^20 + 1) 4096 = 1.
Proof. unfold first_bad. split; vm_compute; congruence. Qed.

Print Assumptions C62_excess.
Print Assumptions C62_excess_stays.
Print Assumptions C85_large_queues_break.
Print Assumptions C85_no_boxes_break.
