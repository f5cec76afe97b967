(** Lemmas about the death of a process between lock and unlock of the shared queue. *)

From Coq Require Import ZArith List Bool Lia.
From Verif Require Import Base Shm_Model Shm_Proof ShmMap_Proof ShmSys_Proof ShmQ_Spec ShmQ_Model
  ShmQSys_Spec ShmQ_Proof ShmQSys_Proof ShmQD_Spec.
Import ListNotations.
Local Open Scope Z_scope.

(** [P] holds of the memory at every point of the program *)
Fixpoint alw {A} (P : mem -> Prop) (p : prog A) (m : mem) : Prop :=
  P m /\ match p with
         | Load _ a k => alw P (k (m a)) m
         | Store _ a v k => alw P k (mset m a v)
         | _ => True
         end.

Lemma alw_here : forall A P (p : prog A) m, alw P p m -> P m.
Proof. intros A P [] m H; exact (proj1 H). Qed.
Lemma alw_steps : forall A lim P (p : prog A) m p' m', psteps lim p m p' m' -> alw P p m -> alw P p' m'.
Proof.
  intros A lim P p m p' m' H. induction H as [|p m p1 m1 p2 m2 H IH S]; intros W; auto.
  specialize (IH W). destruct S; exact (proj2 IH).
Qed.
Lemma alw_load_bytes : forall A (P : mem -> Prop) n a (k : list Z -> prog A) m, P m ->
  alw P (k (rdb m a n)) m -> alw P (pbind (load_bytes a n) k) m.
Proof.
  induction n as [|n IH]; intros a k m H W; cbn [load_bytes rdb] in *; [exact W|].
  unfold load. cbn [pbind alw]. split; [exact H|].
  assert (E : forall B C D (p : prog B) (f : B -> prog C) (g : C -> prog D),
    alw P (pbind p (fun x => pbind (f x) g)) m -> alw P (pbind (pbind p f) g) m).
  { clear. intros B C D p f g. revert m. induction p as [b|s a k IHp|s a v p IHp|u|]; intros m; cbn [pbind alw]; auto.
    - intros [H1 H2]. split; auto.
    - intros [H1 H2]. split; auto. }
  apply E. cbn [pbind]. apply (IH (a + 1) (fun ws => k (m a :: ws)) m H W).
Qed.
Lemma alw_store_bytes : forall A (P : mem -> Prop) ws a (k : unit -> prog A) m,
  (forall j, (j <= length ws)%nat -> P (mbytes m a (firstn j ws))) ->
  alw P (k tt) (mbytes m a ws) -> alw P (pbind (store_bytes a ws) k) m.
Proof.
  induction ws as [|w ws IH]; intros a k m H W; cbn [store_bytes mbytes] in *; [exact W|].
  unfold store. cbn [pbind alw]. split; [exact (H 0%nat ltac:(lia))|].
  apply IH; [|exact W]. intros j Hj. exact (H (S j) ltac:(cbn; lia)).
Qed.

Section Ring.
Variable sz : Z.
Variable n : nat.
Hypothesis Hsz : 1 <= sz.
Hypothesis Hfit : sz * Z.of_nat n < 2^32.
Hypothesis Hsz32 : sz < 2^32.
Notation lim := (seg_size n sz).
Notation Rep := (Rep sz n).
Notation slot := (slot n).

Lemma rep_ext : forall m m' q s, (forall a, m a = m' a) -> Rep m q s -> Rep m' q s.
Proof.
  intros m m' q s E [R1 R2 R3 R4 R5 R6 R7 R8 R9].
  constructor; auto; try (rewrite <- E; auto).
  - intros k b H. rewrite <- (R7 k b H). apply rdb_ext. intros. symmetry. apply E.
  - intros o Ho. rewrite <- E. auto.
Qed.

(** bytes written to a box that is not in use *)
Lemma free_rep : forall m q s ws, Rep m q s -> (length ws <= n)%nat -> Rep (mbytes m (slot (m a_end)) ws) q s.
Proof.
  intros m q s ws [R1 R2 R3 R4 R5 R6 R7 R8 R9] L. set (e := m a_end) in *.
  assert (He : 0 <= e < sz) by (rewrite R5; apply Z.mod_pos_bound; lia).
  destruct (slot_range sz n Hsz Hfit e He) as (S1 & S2 & S3).
  assert (F : forall a, a < 64 -> mbytes m (slot e) ws a = m a) by (intros; apply mbytes_other; lia).
  constructor; auto; try (rewrite F; [auto|unfold a_size, a_bsz, a_start, a_end; lia]).
  - intros k b E. rewrite <- (R7 k b E). apply rdb_ext. intros a Ha.
    assert (Hk : (k < length (q_boxes q))%nat) by (apply nth_error_Some; congruence).
    assert (H : 0 <= (s + Z.of_nat k) mod sz < sz) by (apply Z.mod_pos_bound; lia).
    assert (NE : (s + Z.of_nat k) mod sz <> e) by (rewrite R5; apply (mod_slot_ne sz n Hsz); lia).
    apply mbytes_other. destruct (slot_sep n _ _ _ NE Ha); lia.
  - intros o Ho. rewrite F by (unfold a_reg; lia). auto.
Qed.

Lemma rdb_app : forall a b m x, rdb m x (a + b) = rdb m x a ++ rdb m (x + Z.of_nat a) b.
Proof.
  induction a as [|a IH]; intros b m x; cbn [Nat.add rdb app].
  - f_equal. lia.
  - f_equal. rewrite IH. f_equal. f_equal. lia.
Qed.
Lemma rdb_skip : forall j k m x b, rdb m x (j + k) = b -> rdb m (x + Z.of_nat j) k = skipn j b.
Proof.
  intros j k m x b <-. rewrite rdb_app, skipn_app, rdb_length, Nat.sub_diag. cbn [skipn].
  rewrite skipn_all2 by (rewrite rdb_length; lia). reflexivity.
Qed.

(** the first bytes of the oldest box overwritten by zeros *)
Lemma front_rep : forall m q s b l j, Rep m q s -> q_boxes q = b :: l -> (j <= n)%nat ->
  Rep (mbytes m (slot s) (repeat 0 j)) (mkQ ((repeat 0 j ++ skipn j b) :: l) (q_regs q)) s.
Proof.
  intros m q s b l j [R1 R2 R3 R4 R5 R6 R7 R8 R9] Hq L.
  destruct (slot_range sz n Hsz Hfit s R3) as (S1 & S2 & S3).
  rewrite Hq in R5, R6, R7. cbn [length] in *.
  assert (F : forall a, a < 64 -> mbytes m (slot s) (repeat 0 j) a = m a) by (intros; apply mbytes_other; lia).
  constructor; cbn [q_boxes q_regs length]; auto; try (rewrite F; [auto|unfold a_size, a_bsz, a_start, a_end; lia]).
  - intros k x E. destruct k as [|k].
    + cbn in E. injection E as <-. pose proof (R7 0%nat b eq_refl) as Rb.
      rewrite Z.add_0_r, Z.mod_small in * by lia.
      assert (RR : forall m x, rdb m x n = rdb m x j ++ rdb m (x + Z.of_nat j) (n - j)).
      { intros. rewrite <- rdb_app. f_equal. lia. }
      rewrite RR. f_equal.
      * pose proof (rdb_mbytes (repeat 0 j) m (slot s)) as X. rewrite repeat_length in X. exact X.
      * rewrite (rdb_ext _ _ m) by (intros; apply mbytes_other; rewrite repeat_length; lia).
        apply rdb_skip. replace (j + (n - j))%nat with n by lia. exact Rb.
    + specialize (R7 (S k) x E). rewrite <- R7. apply rdb_ext. intros a Ha.
      assert (Hk : (S k < S (length l))%nat).
      { cbn in E. apply -> Nat.succ_lt_mono. apply nth_error_Some. congruence. }
      assert (NE : (s + Z.of_nat (S k)) mod sz <> s).
      { pose proof (mod_slot_ne sz n Hsz s 0 (Z.of_nat (S k)) ltac:(lia) ltac:(lia) R3) as X.
        rewrite Z.add_0_r, (Z.mod_small s sz) in X by lia. auto. }
      apply mbytes_other. rewrite repeat_length. destruct (slot_sep n _ _ _ NE Ha); lia.
  - intros o Ho. rewrite F by (unfold a_reg; lia). auto.
Qed.

Definition left_by (q : qst) (o : qop) (m : mem) : Prop :=
  in_range sz m -> exists q' s', Rep m q' s' /\ died sz q o q'.

Lemma same_left : forall m q s o, Rep m q s -> left_by q o m.
Proof. intros m q s o R _. exists q, s. split; [exact R|]. left. reflexivity. Qed.

(** the memory at every point of a section *)
Lemma body_points : forall m q s o, Rep m q s -> qwf n o -> noreg o = None ->
  (o = QUnflush -> q_boxes q <> []) -> alw (left_by q o) (body n o) m.
Proof.
  intros m q s o R W N U. pose proof (same_left m q s o R) as S0.
  pose proof R as [R1 R2 R3 R4 R5 R6 R7 R8 R9].
  destruct o as [b| |o v|o]; cbn [body qwf noreg] in *.
  - set (e := m a_end) in *.
    assert (He : 0 <= e < sz) by (rewrite R5; apply Z.mod_pos_bound; lia).
    destruct (slot_range sz n Hsz Hfit e He) as (S1 & S2 & S3).
    unfold flush_body, load, store, umod. cbn [pbind alw]. fold e. rewrite R1.
    split; [exact S0|]. split; [exact S0|].
    destruct (Z.eqb_spec sz 0) as [?|_]; [lia|]. cbn [pbind alw]. split; [exact S0|].
    assert (E0 : u32 (e + 1) = e + 1) by (apply u32_small; lia). rewrite E0, R4.
    destruct (Z.eqb_spec ((e + 1) mod sz) s) as [F|F]; cbn [negb pbind alw]; [auto|].
    assert (L : Z.of_nat (length (q_boxes q)) < sz - 1).
    { destruct (Z.eq_dec (Z.of_nat (length (q_boxes q))) (sz - 1)) as [X|X]; [|lia].
      elim F. rewrite R5. apply (full_iff sz n Hsz); lia. }
    split; [exact S0|]. split; [exact S0|]. fold e. rewrite R2, u32_small by lia.
    fold (slot e).
    pose proof (flush_rep sz n Hsz Hfit m q s b R W L) as FR. fold e in FR.
    apply alw_store_bytes.
    { intros j Hj. eapply same_left. apply free_rep; [exact R|]. rewrite firstn_length. lia. }
    assert (S1' : left_by q (QFlush b) (mbytes m (slot e) b)) by (eapply same_left; apply free_rep; [exact R|lia]).
    cbn [pbind alw]. split; [exact S1'|].
    assert (E2 : mbytes m (slot e) b a_end = e).
    { rewrite mbytes_other by (left; unfold a_end; lia). reflexivity. }
    rewrite E2, E0. split; [exact S1'|].
    set (m1 := mset (mbytes m (slot e) b) a_end (e + 1)).
    assert (D : died sz q (QFlush b) (mkQ (q_boxes q ++ [b]) (q_regs q))).
    { right. left. exists (QStored true). cbn [qspec].
      destruct (Z.ltb_spec (Z.of_nat (length (q_boxes q))) (sz - 1)); [reflexivity|lia]. }
    assert (M1 : left_by q (QFlush b) m1).
    { intros [_ I]. unfold m1 in I. rewrite mset_same in I.
      eexists _, s. split; [|exact D]. eapply rep_ext; [|exact FR]. intros a. unfold flush_mem, m1.
      rewrite E0. destruct (Z.eq_dec a a_end) as [->|NE].
      - rewrite !mset_same. apply Z.mod_small. lia.
      - rewrite !mset_other by auto. reflexivity. }
    split; [exact M1|]. split; [exact M1|].
    assert (E3 : m1 a_size = sz).
    { unfold m1. rewrite mset_other by (unfold a_end, a_size; lia).
      rewrite mbytes_other by (left; unfold a_size; lia). auto. }
    assert (E4 : m1 a_end = e + 1) by apply mset_same.
    rewrite E3, E4. destruct (Z.eqb_spec sz 0) as [?|_]; [lia|]. cbn [pbind alw]. split; [exact M1|].
    split; [|exact I]. intros _. eexists _, s. split; [|exact D]. unfold flush_mem in FR. rewrite E0 in FR. exact FR.
  - destruct (q_boxes q) as [|b l] eqn:Hq; [now elim U|].
    destruct (slot_range sz n Hsz Hfit s R3) as (S1 & S2 & S3).
    unfold unflush_body, load, store, umod. cbn [pbind alw]. rewrite R4, R2, u32_small by lia.
    fold (slot s). split; [exact S0|]. split; [exact S0|].
    apply alw_load_bytes; [exact S0|]. cbn [pbind alw]. split; [exact S0|]. rewrite R2, Nat2Z.id.
    assert (Lb : length b = n).
    { rewrite <- (R7 0%nat b eq_refl). apply rdb_length. }
    assert (FR0 : forall j, (j <= n)%nat -> left_by q QUnflush (mbytes m (slot s) (repeat 0 j))).
    { intros j Hj _. eexists _, s. split; [apply (front_rep m q s b l j R Hq Hj)|].
      right. right. split; [reflexivity|]. exists b, l, j. split; [exact Hq|]. split; [lia|reflexivity]. }
    assert (FN : forall j k, (j <= k)%nat -> firstn j (repeat 0 k) = repeat 0 j).
    { induction j as [|j IH]; intros [|k] Hk; try reflexivity; [lia|]. cbn. f_equal. apply IH. lia. }
    pose proof (unflush_rep sz n Hsz Hfit m q s b l R Hq) as UR.
    apply alw_store_bytes.
    { intros j Hj. rewrite repeat_length in Hj. rewrite FN by exact Hj. apply FR0. exact Hj. }
    cbn [pbind alw].
    assert (E2 : mbytes m (slot s) (repeat 0 n) a_start = s).
    { rewrite mbytes_other by (left; unfold a_start; lia). auto. }
    rewrite E2. rewrite u32_small by lia.
    split; [apply FR0; lia|]. split; [apply FR0; lia|].
    set (m1 := mset (mbytes m (slot s) (repeat 0 n)) a_start (s + 1)).
    assert (D : died sz q QUnflush (mkQ l (q_regs q))).
    { right. left. exists (QBox b). cbn [qspec]. rewrite Hq. reflexivity. }
    unfold unflush_mem in UR. rewrite u32_small in UR by lia. fold m1 in UR.
    assert (M1 : left_by q QUnflush m1).
    { intros [I _]. unfold m1 in I. rewrite mset_same in I.
      eexists _, _. split; [|exact D]. eapply rep_ext; [|exact UR]. intros a.
      destruct (Z.eq_dec a a_start) as [->|NE].
      - rewrite mset_same. unfold m1. rewrite mset_same. apply Z.mod_small. lia.
      - rewrite mset_other by auto. reflexivity. }
    split; [exact M1|]. split; [exact M1|].
    assert (E3 : m1 a_size = sz).
    { unfold m1. rewrite mset_other by (unfold a_start, a_size; lia).
      rewrite mbytes_other by (left; unfold a_size; lia). auto. }
    assert (E4 : m1 a_start = s + 1) by apply mset_same.
    rewrite E3, E4. destruct (Z.eqb_spec sz 0) as [?|_]; [lia|]. cbn [pbind alw]. split; [exact M1|].
    split; [|exact I]. intros _. eexists _, _. split; [exact UR|exact D].
  - destruct (Z.leb_spec 12 o); [discriminate|]. unfold set_reg_body, store. cbn [pbind alw].
    split; [exact S0|]. split; [|exact I]. intros _. eexists _, s.
    split; [apply (set_reg_rep sz n Hsz Hfit Hsz32 m q s o v R); lia|]. right. left. exists QUnit. cbn [qspec].
    destruct (Z.ltb_spec o 12); [reflexivity|lia].
  - unfold get_reg_body, load. cbn [pbind alw]. auto.
Qed.

(** ** The system *)

(** the invariant of ShmQSys_Proof with a history of its own that has just begun; the event
    stands for any death before it *)
Definition start : list event := [EDie 0 false].
Definition DInv (s : sys) (q : qst) (st lost : Z) (m : mem) : Prop := MInv sz n q start s q st lost m.

Lemma dinv_of : forall q0 e s q st lost m, MInv sz n q0 (start ++ e) s q st lost m -> DInv s q st lost m.
Proof.
  intros q0 e s q st lost m [M1 M2 M3 M4 M5 M6 M7 M8]. constructor; auto.
  - constructor.
  - intros H. specialize (H (EDie 0 false) (or_introl eq_refl)). discriminate.
Qed.

Lemma dinv_step : forall s e s' q st lost m, LInv s -> DInv s q st lost m -> step (seg_size n sz) n s e s' ->
  fine e = true -> exists q' st' lost' m', DInv s' q' st' lost' m' /\ qruns sz q (dones [e]) q'.
Proof.
  intros s e s' q st lost m L D S F.
  destruct (minv_step sz n Hsz Hfit Hsz32 q start s e s' q st lost m L D S F) as (q' & st' & lost' & m' & M).
  exists q', st', lost', m'. split; [exact (dinv_of _ _ _ _ _ _ _ M)|].
  pose proof (m_runs _ _ _ _ _ _ _ _ _ M) as Q. unfold start in Q. rewrite dones_app in Q. exact Q.
Qed.

Lemma dinv_death : forall s i p u q st lost m, LInv s -> DInv s q st lost m ->
  nth_error (procs s) i = Some (p, u) -> holds p = true -> in_range sz (sm s) ->
  forall l', exists o q' st' lost', (match p with Body o' _ _ | Post o' _ | Unlock o' _ => o' = o | _ => False end) /\
    DInv (mkS l' (cnt s) (sm s) (upd (procs s) i (Dead, 0))) q' st' lost' (sm s) /\ died sz q o q'.
Proof.
  intros s i p u q st lost m L D E Hp I l'. pose proof D as [M1 M2 M3 M4 M5 M6 M7 M8].
  assert (Li : (i < length (procs s))%nat) by (apply nth_error_Some; congruence).
  pose proof (others_free s i p u L E Hp) as O.
  pose proof (wt_others n s i p u L E Hp) as WT.
  pose proof (M4 _ _ _ E) as P.
  assert (K : exists o q' st', (match p with Body o' _ _ | Post o' _ | Unlock o' _ => o' = o | _ => False end) /\
    Rep (sm s) q' st' /\ died sz q o q' /\
    0 <= wt (p, u) + Z.of_nat (length (q_boxes q')) - Z.of_nat (length (q_boxes q))).
  { destruct p as [| |o|o b0 b|o r|o r|]; try discriminate; cbn [pok] in P.
    - destruct P as (P1 & P2 & P3 & P4).
      assert (NE0 : o = QUnflush -> q_boxes q <> []).
      { intros -> X. rewrite X in M8. cbn [length] in M8. unfold wt at 1 in WT. cbn [fst] in WT. lia. }
      pose proof (body_points m q st o M2 P1 P2 NE0) as A. rewrite P3 in P4.
      pose proof (alw_here _ _ _ _ (alw_steps _ _ _ _ _ _ _ P4 A)) as B.
      destruct (B I) as (q' & st' & R' & Dd). exists o, q', st'. split; [reflexivity|]. split; [exact R'|]. split; [exact Dd|].
      unfold wt. cbn [fst]. destruct Dd as [->|[[r Q]|(-> & b' & l & k & Eq & _ & ->)]].
      + destruct o; lia.
      + destruct o; cbn [qspec] in Q.
        * destruct (_ <? _); injection Q as <- <-; cbn [q_boxes]; rewrite ?app_length; cbn [length]; lia.
        * destruct (q_boxes q) as [|b' l]; [discriminate|]. injection Q as <- <-. cbn [q_boxes length]. lia.
        * injection Q as <- <-. destruct (o <? 12); cbn [q_boxes]; lia.
        * injection Q as <- <-. lia.
      + rewrite Eq. cbn [q_boxes length]. lia.
    - destruct P as (-> & (b & ->) & q' & st' & R' & Q). exists (QFlush b), q', st'. split; [reflexivity|]. split; [exact R'|].
      split; [right; left; eauto|]. unfold wt. cbn [fst]. cbn [qspec] in Q.
      destruct (_ <? _); [|discriminate]. injection Q as <-. cbn [q_boxes]. rewrite app_length. cbn [length]. lia.
    - destruct P as (q' & st' & R' & Q). exists o, q', st'. split; [reflexivity|]. split; [exact R'|].
      split; [right; left; eauto|]. unfold wt. cbn [fst]. destruct o; cbn [qspec] in Q.
      + destruct (_ <? _); injection Q as <- <-; cbn [q_boxes]; rewrite ?app_length; cbn [length]; lia.
      + destruct (q_boxes q) as [|b' l]; [discriminate|]. injection Q as <- <-. cbn [q_boxes length]. lia.
      + injection Q as <- <-. destruct (o <? 12); cbn [q_boxes]; lia.
      + injection Q as <- <-. lia. }
  destruct K as (o & q' & st' & K1 & K2 & K3 & K4).
  exists o, q', st', (lost + (wt (p, u) + Z.of_nat (length (q_boxes q')) - Z.of_nat (length (q_boxes q)))).
  split; [exact K1|]. split; [|exact K3].
  constructor; cbn [sm cnt procs]; auto.
  - constructor.
  - intros j pj uj Ej. destruct (nthu _ (procs s) i j (Dead, 0) Li) as [(-> & X)|(NE & X)]; rewrite X in Ej.
    + injection Ej as <- <-. exact Logic.I.
    + eapply pok_free; eauto.
  - lia.
  - intros H. specialize (H (EDie 0 false) (or_introl eq_refl)). discriminate.
  - pose proof (sumz_upd _ wt (procs s) i (p, u) (Dead, 0) E) as SU. unfold wt at 4 in SU. cbn [fst] in SU. lia.
Qed.

(** the operation a process is in *)
Definition op_of (p : pc) : option qop :=
  match p with
  | Ticket => Some QUnflush
  | Lock o | Body o _ _ | Post o _ | Unlock o _ => Some o
  | _ => None
  end.

Lemma called_app : forall i a b acc, called i (a ++ b) acc = called i b (called i a acc).
Proof. induction a as [|e a IH]; intros b acc; [reflexivity|]. destruct e; cbn [app called]; apply IH. Qed.

Definition CInv (tr : list event) (s : sys) : Prop :=
  forall i p u o, nth_error (procs s) i = Some (p, u) -> op_of p = Some o -> called i tr None = Some o.

Lemma cinv_step : forall tr s e s', CInv tr s -> step (seg_size n sz) n s e s' -> CInv (tr ++ [e]) s'.
Proof.
  intros tr s e s' C S j p' u' o' Ej Eo. rewrite called_app.
  assert (K : forall ps i p u q v e', (forall i p u o, nth_error ps i = Some (p, u) -> op_of p = Some o -> called i tr None = Some o) ->
    nth_error ps i = Some (p, u) -> nth_error (upd ps i (q, v)) j = Some (p', u') ->
    (forall acc, called j [e'] acc = acc) -> (forall o, op_of q = Some o -> op_of p = Some o) -> called j [e'] (called j tr None) = Some o').
  { intros ps i p u q v e' H E X Y Z. rewrite Y.
    assert (Li : (i < length ps)%nat) by (apply nth_error_Some; congruence).
    destruct (nthu _ ps i j (q, v) Li) as [(-> & W)|(NE & W)]; rewrite W in X.
    - injection X as <- <-. eapply H; eauto.
    - eapply H; eauto. }
  unfold CInv in C.
  destruct S; cbn [procs] in *; try (eapply K; eauto; fail); try (cbn [called]; eapply C; eauto; fail).
  - (* call *) assert (Li : (i < length ps)%nat) by (apply nth_error_Some; congruence).
    destruct (nthu _ ps i j (entry o, u) Li) as [(-> & W)|(NE & W)]; rewrite W in Ej.
    + injection Ej as <- <-. cbn [called]. rewrite Nat.eqb_refl. destruct o; cbn in Eo; congruence.
    + cbn [called]. destruct (Nat.eqb_spec i j) as [X|X]; [congruence|]. eapply C; eauto.
  - eapply K; eauto. intros o0 Ho. discriminate.
  - eapply K; eauto. intros o0 Ho. destruct r as [[]| | |]; cbn [after op_of] in *; exact Ho.
  - eapply K; eauto. intros o0 Ho. discriminate.
  - eapply K; eauto. intros o0 Ho. discriminate.
Qed.

Lemma qruns_none : forall q q', qruns sz q [] q' -> q' = q.
Proof. intros q q' Q. remember [] as h eqn:E. destruct Q as [|s h s1 o r s2 A B]; [reflexivity|]. destruct h; discriminate. Qed.
Lemma qruns_single : forall q q' o r, qruns sz q [(o, r)] q' -> qspec sz q o = Some (r, q').
Proof.
  intros q q' o r Q. remember [(o, r)] as h eqn:E. destruct Q as [|s h s1 o' r' s2 A B]; [discriminate|].
  destruct h as [|x h]; [|destruct h; discriminate]. injection E as -> ->.
  apply qruns_none in A. subst. exact B.
Qed.
Lemma qruns_one : forall e q q', qruns sz q (dones [e]) q' -> fine e = true -> forall tr h q0, hist tr h -> cruns sz q0 h q ->
  exists h', hist (tr ++ [e]) h' /\ cruns sz q0 h' q'.
Proof.
  intros e q q' Q F tr h q0 H C.
  destruct (silent e) eqn:Se.
  - exists h. split; [apply h_other; assumption|].
    assert (E : dones [e] = []) by (destruct e; try reflexivity; discriminate). rewrite E in Q.
    apply qruns_none in Q. subst. exact C.
  - destruct e as [| | | |i o r| |i b]; try discriminate.
    + exists (h ++ [CDone o r]). split; [apply h_done; exact H|]. eapply cr_done; [exact C|]. apply qruns_single. exact Q.
    + destruct b; discriminate.
Qed.

Lemma dexec_inv : forall k m0 q0 st0 tr s, Rep m0 q0 st0 -> q_boxes q0 = [] -> dexec sz n k m0 tr s ->
  LInv s /\ CInv tr s /\ exists h q st lost m, DInv s q st lost m /\ hist tr h /\ cruns sz q0 h q.
Proof.
  intros k m0 q0 st0 tr s R E X. induction X as [|tr s e s' X (L & C & h & q & st & lost & m & D & H & Q) S NI IR].
  - split; [apply linv_init|]. split.
    { intros i p u o Hi. apply nth_error_In, repeat_spec in Hi. injection Hi as -> ->. discriminate. }
    exists [], q0, st0, 0, m0. split; [|split; constructor].
    pose proof (minv_init sz n k m0 q0 st0 R E) as M. destruct M as [M1 M2 M3 M4 M5 M6 M7 M8]. constructor; auto.
  - split; [eapply linv_step; eauto|]. split; [eapply cinv_step; eauto|].
    destruct (is_inner_death e) eqn:Ed.
    + specialize (IR eq_refl). destruct e as [| | | | | |i b]; try discriminate. cbn in Ed. subst b.
      remember (EDie i true) as ev eqn:Ev. destruct S; try discriminate. injection Ev as -> Hp.
      destruct (dinv_death _ i p u q st lost m L D ltac:(eassumption) Hp IR (Z.max 0 (l + u))) as (o & q' & st' & lost' & Ho & D' & Dd).
      exists (h ++ [CDied o]), q', st', lost', m1. split; [exact D'|]. split.
      * rewrite Hp. apply h_died; [exact H|]. eapply C; [eassumption|]. destruct p; try contradiction; cbn [op_of]; congruence.
      * eapply cr_died; eauto.
    + assert (F : fine e = true) by (unfold fine; rewrite NI, Ed; reflexivity).
      destruct (dinv_step s e s' q st lost m L D S F) as (q' & st' & lost' & m' & D' & Q').
      destruct (qruns_one e q q' Q' F tr h q0 H Q) as (h' & H' & C').
      exists h', q', st', lost', m'. auto.
Qed.
End Ring.
