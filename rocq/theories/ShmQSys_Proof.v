(** The processes that share a queue: the lock, the ring and the count. *)

From Coq Require Import ZArith List Bool Lia.
From Verif Require Import Base Shm_Model Shm_Proof ShmMap_Proof ShmSys_Proof ShmQ_Spec ShmQ_Model
  ShmQSys_Spec ShmQ_Proof.
Import ListNotations.
Local Open Scope Z_scope.

Lemma dones_app : forall a b, dones (a ++ b) = dones a ++ dones b.
Proof. induction a as [|e a IH]; intros b; simpl; auto. destruct e; rewrite IH; auto. Qed.

Lemma nthu : forall A (l : list A) i j x, (i < length l)%nat ->
  (j = i /\ nth_error (upd l i x) j = Some x)
  \/ (j <> i /\ nth_error (upd l i x) j = nth_error l j).
Proof.
  intros A l i j x Hi. destruct (Nat.eq_dec j i) as [->|NE]; [left|right]; split; auto.
  - now apply nth_error_upd_same.
  - apply nth_error_upd_other. auto.
Qed.

Definition hz (p : pc * Z) : Z := if holds (fst p) then 1 else 0.
Lemma hz_nn : forall p, 0 <= hz p.
Proof. intros [p u]. unfold hz. destruct (holds _); lia. Qed.

(** *** The lock *)
Record LInv (s : sys) : Prop := mkLInv
  { l_sum : lk s + sumz hz (procs s) = 1;
    l_undo : forall i p u, nth_error (procs s) i = Some (p, u) -> u = if holds p then 1 else 0;
    l_nn : 0 <= lk s }.

Lemma linv_init : forall k m0, LInv (init k m0).
Proof.
  intros. constructor; cbn [init lk procs].
  - rewrite sumz_zero; [lia|]. intros x H. apply repeat_spec in H. subst. reflexivity.
  - intros i p u H. apply nth_error_In, repeat_spec in H. injection H as -> ->. reflexivity.
  - lia.
Qed.

Section Inv.
Variable lim : Z.
Variable n : nat.

Lemma linv_upd : forall l c m ps i p u q v l' c' m', LInv (mkS l c m ps) ->
  nth_error ps i = Some (p, u) -> v = (if holds q then 1 else 0) ->
  l' + hz (q, v) = l + hz (p, u) -> 0 <= l' -> LInv (mkS l' c' m' (upd ps i (q, v))).
Proof.
  intros l c m ps i p u q v l' c' m' [A B C] E U H N. cbn [lk procs] in *.
  assert (Li : (i < length ps)%nat) by (apply nth_error_Some; congruence).
  constructor; cbn [lk procs]; auto.
  - pose proof (sumz_upd _ hz ps i (p, u) (q, v) E). lia.
  - intros j p' u' Ej. destruct (nthu _ ps i j (q, v) Li) as [(-> & X)|(NE & X)];
      rewrite X in Ej.
    + injection Ej as <- <-. auto.
    + eauto.
Qed.

Lemma linv_step : forall s e s', LInv s -> step lim n s e s' -> is_intr e = false -> LInv s'.
Proof.
  intros s e s' I ST NI.
  assert (U : forall i p u, nth_error (procs s) i = Some (p, u) -> u = if holds p then 1 else 0)
    by apply (l_undo _ I).
  pose proof (l_nn _ I) as NN. pose proof (l_sum _ I) as SUM.
  destruct ST; cbn [lk procs is_intr] in *; try discriminate; auto;
    match goal with H : nth_error _ _ = Some _ |- _ => pose proof (U _ _ _ H) as Hu; cbn [holds] in Hu;
      pose proof (sumz_in _ hz _ _ _ hz_nn H) as Hin end;
    try (eapply linv_upd; [eassumption|eassumption| | |]; cbn [holds hz fst] in *; unfold hz in *;
         cbn [holds fst] in *; try destruct o; cbn [holds entry after] in *; subst;
         try destruct r as [[]| | |]; cbn [holds] in *; try reflexivity; lia).
  (* death *)
  eapply linv_upd; [eassumption|eassumption|reflexivity| |].
  - unfold hz in *. cbn [fst holds] in *. destruct (holds p); lia.
  - lia.
Qed.

Lemma linv_exec : forall k m0 tr s, exec lim n k m0 tr s ->
  (forall e, In e tr -> is_intr e = false) -> LInv s.
Proof.
  induction 1 as [|tr s e s' X IH ST]; intros H. { apply linv_init. }
  eapply linv_step; eauto.
  - apply IH. intros. apply H. apply in_or_app. auto.
  - apply H. apply in_or_app. right. now left.
Qed.

Lemma linv_two : forall s i j p u q v, LInv s -> nth_error (procs s) i = Some (p, u) ->
  nth_error (procs s) j = Some (q, v) -> holds p = true -> holds q = true -> i = j.
Proof.
  intros s i j p u q v I Hi Hj Hp Hq. destruct (Nat.eq_dec i j) as [|NE]; auto.
  pose proof (sumz_two _ hz _ _ _ _ _ hz_nn NE Hi Hj) as X.
  unfold hz at 1 2 in X. cbn [fst] in X. rewrite Hp, Hq in X.
  pose proof (l_sum _ I). pose proof (l_nn _ I). lia.
Qed.
End Inv.

(** *** The ring and the count *)
Section Ring.
Variable sz : Z.
Variable n : nat.
Hypothesis Hsz : 1 <= sz.
Hypothesis Hfit : sz * Z.of_nat n < 2^32.
Hypothesis Hsz32 : sz < 2^32.
Notation lim := (seg_size n sz).
Notation Rep := (Rep sz n).

Definition pok (q : qst) (m0 m : mem) (p : pc) : Prop :=
  match p with
  | Lock o => qwf n o /\ noreg o = None
  | Body o b0 b => qwf n o /\ noreg o = None /\ b0 = body n o /\ psteps lim b0 m0 b m
  | Post o r => r = QStored true /\ (exists b, o = QFlush b)
                /\ exists q' s', Rep m q' s' /\ qspec sz q o = Some (r, q')
  | Unlock o r => exists q' s', Rep m q' s' /\ qspec sz q o = Some (r, q')
  | _ => True
  end.

(** tickets taken and not yet honoured; minus the box posted but not yet announced *)
Definition wt (p : pc * Z) : Z :=
  match fst p with
  | Lock QUnflush | Body QUnflush _ _ | Unlock QUnflush _ => 1
  | Unlock (QFlush _) (QStored true) => -1
  | _ => 0
  end.

Record MInv (q0 : qst) (tr : list event) (s : sys) (q : qst) (st lost : Z) (m0 : mem) : Prop := mkMInv
  { m_runs : qruns sz q0 (dones tr) q;
    m_rep : Rep m0 q st;
    m_free : (forall i p u, nth_error (procs s) i = Some (p, u) -> holds p = false) -> sm s = m0;
    m_pok : forall i p u, nth_error (procs s) i = Some (p, u) -> pok q m0 (sm s) p;
    m_cnt : 0 <= cnt s;
    m_lost : 0 <= lost;
    m_none : (forall e, In e tr -> is_death e = false) -> sz <= 32768 -> lost = 0;
    m_sum : cnt s + sumz wt (procs s) + lost = Z.of_nat (length (q_boxes q)) }.

Lemma pok_free : forall q m0 m q' m0' m' p, holds p = false -> pok q m0 m p -> pok q' m0' m' p.
Proof. intros q m0 m q' m0' m' p H. destruct p; cbn in *; auto; discriminate. Qed.

Lemma minv_init : forall k m0 q st, Rep m0 q st -> q_boxes q = [] -> MInv q [] (init k m0) q st 0 m0.
Proof.
  intros k m0 q st R E. constructor; cbn [init sm cnt procs dones]; auto; try lia.
  - constructor.
  - intros i p u H. apply nth_error_In, repeat_spec in H. injection H as -> ->. exact I.
  - rewrite E. rewrite sumz_zero; [reflexivity|].
    intros x H. apply repeat_spec in H. subst. reflexivity.
Qed.

(** the other processes do not hold the lock *)
Lemma others_free : forall s i p u, LInv s -> nth_error (procs s) i = Some (p, u) ->
  holds p = true -> forall j q v, j <> i -> nth_error (procs s) j = Some (q, v) -> holds q = false.
Proof.
  intros s i p u I Hi Hp j q v NE Hj. destruct (holds q) eqn:E; auto.
  elim NE. eapply linv_two; eauto.
Qed.

Lemma wt_others : forall s i p u, LInv s -> nth_error (procs s) i = Some (p, u) -> holds p = true ->
  wt (p, u) <= sumz wt (procs s).
Proof.
  intros s i p u I Hi Hp. pose proof (others_free s i p u I Hi Hp) as O. clear I.
  revert i Hi O. induction (procs s) as [|[q v] l IH]; intros [|i] Hi O; try discriminate;
    cbn [sumz nth_error] in *.
  - injection Hi as -> ->.
    assert (0 <= sumz wt l); [|lia]. clear IH.
    assert (F : forall j q v, nth_error l j = Some (q, v) -> holds q = false).
    { intros j q v E. apply (O (S j) q v); auto. }
    clear O Hp. induction l as [|[q v] l IH]; cbn [sumz]; [lia|].
    assert (0 <= wt (q, v)).
    { specialize (F 0%nat q v eq_refl). unfold wt. cbn [fst].
      destruct q as [| |o|o ? ?|o r|o r|]; try discriminate; try lia. destruct o; lia. }
    specialize (IH (fun j q v E => F (S j) q v E)). lia.
  - assert (0 <= wt (q, v)).
    { specialize (O 0%nat q v ltac:(lia) eq_refl). unfold wt. cbn [fst].
      destruct q as [| |o|o ? ?|o r|o r|]; try discriminate; try lia. destruct o; lia. }
    specialize (IH i Hi (fun j q v N E => O (S j) q v ltac:(lia) E)). lia.
Qed.

Lemma minv_step : forall q0 tr s e s' q st lost m0, LInv s -> MInv q0 tr s q st lost m0 ->
  step lim n s e s' -> fine e = true ->
  exists q' st' lost' m0', MInv q0 (tr ++ [e]) s' q' st' lost' m0'.
Proof.
  intros q0 tr s e s' q st lost m0 LI MI ST F.
  pose proof MI as [M1 M2 M3 M4 M5 M6 M7 M8].
  assert (M7' : forall lost', (lost = 0 -> is_death e = false -> lost' = 0) ->
    (forall e0, In e0 (tr ++ [e]) -> is_death e0 = false) -> sz <= 32768 -> lost' = 0).
  { intros lost' H0 H1 H2. apply H0.
    - apply M7; auto. intros. apply H1. apply in_or_app. auto.
    - apply H1. apply in_or_app. right. now left. }
  (* a step that leaves memory, ring and history alone, by a process that does not hold *)
  assert (Q : forall l c m ps i p u p' u' l' c' lost', s = mkS l c m ps ->
    nth_error ps i = Some (p, u) -> holds p = false -> holds p' = false ->
    pok q m0 m p' -> dones [e] = [] -> 0 <= c' -> 0 <= lost' ->
    (lost = 0 -> is_death e = false -> lost' = 0) ->
    c' + wt (p', u') + lost' = c + wt (p, u) + lost ->
    MInv q0 (tr ++ [e]) (mkS l' c' m (upd ps i (p', u'))) q st lost' m0).
  { intros l c m ps i p u p' u' l' c' lost' -> E H1 H2 H3 H4 H5 H6 H7 H8. cbn [sm cnt procs] in *.
    assert (Li : (i < length ps)%nat) by (apply nth_error_Some; congruence).
    constructor; cbn [sm cnt procs]; auto.
    - rewrite dones_app, H4, app_nil_r. auto.
    - intros H. apply M3. intros j pj uj Ej. destruct (Nat.eq_dec j i) as [->|NE].
      + rewrite E in Ej. injection Ej as <- <-. auto.
      + apply (H j pj uj). destruct (nthu _ ps i j (p', u') Li) as [(X & _)|(_ & X)];
          [congruence|]. rewrite X. auto.
    - intros j pj uj Ej. destruct (nthu _ ps i j (p', u') Li) as [(-> & X)|(NE & X)];
        rewrite X in Ej.
      + injection Ej as <- <-. auto.
      + eauto.
    - pose proof (sumz_upd _ wt ps i (p, u) (p', u') E). lia. }
  destruct ST; cbn [sm cnt procs lk] in *.
  - (* call *) exists q, st, lost, m0. eapply Q; eauto.
    + destruct o; reflexivity.
    + destruct o; cbn; auto.
    + destruct o; unfold wt; cbn; lia.
  - (* no such register *)
    exists q, st, lost, m0. constructor; cbn [sm cnt procs]; auto.
    rewrite dones_app. cbn [dones]. eapply qruns_snoc; [exact M1|].
    destruct o as [b| |o v|o]; cbn in *; try discriminate.
    + destruct (Z.leb_spec 12 o); [|discriminate]. destruct (Z.ltb_spec o 12); [lia|]. congruence.
    + destruct (Z.leb_spec 12 o); [|discriminate]. destruct (Z.ltb_spec o 12); [lia|]. congruence.
  - (* count *)
    exists q, st, lost, m0. constructor; cbn [sm cnt procs]; auto.
    rewrite dones_app. cbn [dones]. rewrite app_nil_r. auto.
  - (* ticket *)
    exists q, st, lost, m0. eapply Q; eauto; try reflexivity; try lia.
    + cbn. auto.
    + unfold wt; cbn; lia.
  - (* fail *)
    exists q, st, lost, m0. eapply Q; eauto; try reflexivity; try lia; try exact I.
  - (* lock *)
    exists q, st, lost, m0.
    assert (Li : (i < length ps)%nat) by (apply nth_error_Some; congruence).
    assert (NF : forall j p v, nth_error ps j = Some (p, v) -> holds p = false).
    { intros j p v E. destruct (holds p) eqn:Hp; auto. exfalso.
      pose proof (sumz_in _ hz _ _ _ hz_nn E) as X. unfold hz at 1 in X. cbn [fst] in X.
      rewrite Hp in X. pose proof (l_sum _ LI) as Y. cbn [lk procs] in Y. lia. }
    specialize (M3 NF). subst m0.
    pose proof (M4 _ _ _ H) as P. cbn [pok] in P.
    constructor; cbn [sm cnt procs]; auto.
    + rewrite dones_app, app_nil_r. auto.
    + intros j pj uj Ej. destruct (nthu _ ps i j (Body o (body n o) (body n o), u + 1) Li)
        as [(-> & X)|(NE & X)]; rewrite X in Ej.
      * injection Ej as <- <-. cbn [pok]. destruct P. repeat split; auto. constructor.
      * eauto.
    + pose proof (sumz_upd _ wt ps i (Lock o, u) (Body o (body n o) (body n o), u + 1) H) as S.
      unfold wt at 3 4 in S. cbn [fst] in S. destruct o; lia.
  - (* interrupted *) discriminate.
  - (* memory *)
    exists q, st, lost, m0.
    assert (Li : (i < length ps)%nat) by (apply nth_error_Some; congruence).
    pose proof (M4 _ _ _ H) as P. cbn [pok] in P. destruct P as (P1 & P2 & P3 & P4).
    assert (O := others_free _ i _ _ LI H eq_refl). cbn [procs] in O.
    constructor; cbn [sm cnt procs]; auto.
    + rewrite dones_app, app_nil_r. auto.
    + intros N. exfalso. specialize (N i (Body o b0 b') u).
      rewrite nth_error_upd_same in N by auto. specialize (N eq_refl). discriminate.
    + intros j pj uj Ej. destruct (nthu _ ps i j (Body o b0 b', u) Li)
        as [(-> & X)|(NE & X)]; rewrite X in Ej.
      * injection Ej as <- <-. cbn [pok]. repeat split; auto. eapply PCons; eauto.
      * eapply pok_free; eauto.
    + pose proof (sumz_upd _ wt ps i (Body o b0 b, u) (Body o b0 b', u) H) as S.
      unfold wt at 3 4 in S. cbn [fst] in S. destruct o; lia.
  - (* end of the body *)
    exists q, st, lost, m0.
    assert (Li : (i < length ps)%nat) by (apply nth_error_Some; congruence).
    pose proof (M4 _ _ _ H) as P. cbn [pok] in P. destruct P as (P1 & P2 & P3 & P4).
    assert (O := others_free _ i _ _ LI H eq_refl). cbn [procs] in O.
    pose proof (wt_others _ i _ _ LI H eq_refl) as WT. cbn [procs] in WT.
    assert (NE0 : o = QUnflush -> q_boxes q <> []).
    { intros -> E. rewrite E in M8. cbn [length] in M8. unfold wt at 1 in WT. cbn [fst] in WT. lia. }
    destruct (run_body sz n Hsz Hfit Hsz32 m0 q st o M2 P1 P2 NE0) as (r' & m' & q' & s' & B1 & B2 & B3).
    rewrite P3 in P4. rewrite (psteps_run _ _ _ _ _ _ P4) in B1. cbn [run] in B1.
    injection B1 as <- <-.
    constructor; cbn [sm cnt procs]; auto.
    + rewrite dones_app, app_nil_r. auto.
    + intros N. exfalso. specialize (N i (after o r) u).
      rewrite nth_error_upd_same in N by auto. specialize (N eq_refl).
      destruct r as [[]| | |]; discriminate.
    + intros j pj uj Ej. destruct (nthu _ ps i j (after o r, u) Li)
        as [(-> & X)|(NE & X)]; rewrite X in Ej.
      * injection Ej as <- <-.
        destruct r as [[]| | |]; cbn [after pok]; try (eexists _, _; eauto; fail).
        split; auto. split; [|eauto].
        destruct o; cbn [qspec] in B3; try discriminate; [eauto|].
        destruct (q_boxes q); discriminate.
      * eapply pok_free; eauto.
    + pose proof (sumz_upd _ wt ps i (Body o b0 (Ret r), u) (after o r, u) H) as S.
      assert (W : wt (after o r, u) = wt (Body o b0 (Ret r), u)).
      { unfold wt, after. destruct o; cbn [qspec] in B3.
        - destruct (Z.ltb_spec (Z.of_nat (length (q_boxes q))) (sz - 1)); injection B3 as <- _; reflexivity.
        - destruct (q_boxes q); [discriminate|]. injection B3 as <- _. reflexivity.
        - injection B3 as <- _. reflexivity.
        - injection B3 as <- _. reflexivity. }
      lia.
  - (* post *)
    assert (Li : (i < length ps)%nat) by (apply nth_error_Some; congruence).
    pose proof (M4 _ _ _ H) as P. cbn [pok] in P. destruct P as (P1 & (b & P2) & P3).
    assert (O := others_free _ i _ _ LI H eq_refl). cbn [procs] in O.
    pose proof (wt_others _ i _ _ LI H eq_refl) as WT. cbn [procs] in WT.
    unfold wt at 1 in WT. cbn [fst] in WT.
    subst r o.
    exists q, st, (if c <? semvmx then lost else lost + 1), m0.
    constructor; cbn [sm cnt procs]; auto.
    + rewrite dones_app, app_nil_r. auto.
    + intros N. exfalso. specialize (N i (Unlock (QFlush b) (QStored true)) u).
      rewrite nth_error_upd_same in N by auto. specialize (N eq_refl). discriminate.
    + intros j pj uj Ej. destruct (nthu _ ps i j (Unlock (QFlush b) (QStored true), u) Li)
        as [(-> & X)|(NE & X)]; rewrite X in Ej.
      * injection Ej as <- <-. cbn [pok]. auto.
      * eapply pok_free; eauto.
    + destruct (c <? semvmx); lia.
    + destruct (c <? semvmx); lia.
    + intros D SZ. assert (lost = 0). { apply M7; auto. intros. apply D. apply in_or_app. auto. }
      destruct P3 as (q' & s' & _ & P3). cbn [qspec] in P3.
      destruct (Z.ltb_spec (Z.of_nat (length (q_boxes q))) (sz - 1)) as [LL|LL]; [|discriminate].
      destruct (Z.ltb_spec c semvmx) as [CC|CC]; [auto|]. unfold semvmx in CC. lia.
    + pose proof (sumz_upd _ wt ps i (Post (QFlush b) (QStored true), u)
        (Unlock (QFlush b) (QStored true), u) H) as S.
      unfold wt at 3 4 in S. cbn [fst] in S. destruct (c <? semvmx); lia.
  - (* unlock *)
    assert (Li : (i < length ps)%nat) by (apply nth_error_Some; congruence).
    pose proof (M4 _ _ _ H) as P. cbn [pok] in P. destruct P as (q' & s' & P1 & P2).
    assert (O := others_free _ i _ _ LI H eq_refl). cbn [procs] in O.
    exists q', s', lost, m.
    constructor; cbn [sm cnt procs]; auto.
    + rewrite dones_app. cbn [dones]. eapply qruns_snoc; eauto.
    + intros j pj uj Ej. destruct (nthu _ ps i j (Idle, u - 1) Li)
        as [(-> & X)|(NE & X)]; rewrite X in Ej.
      * injection Ej as <- <-. exact I.
      * eapply pok_free; eauto.
    + pose proof (sumz_upd _ wt ps i (Unlock o r, u) (Idle, u - 1) H) as S.
      unfold wt at 3 4 in S. cbn [fst] in S.
      destruct o; cbn [qspec] in P2.
      * destruct (Z.ltb_spec (Z.of_nat (length (q_boxes q))) (sz - 1)); injection P2 as <- <-.
        -- cbn [q_boxes]. rewrite app_length. cbn [length]. lia.
        -- lia.
      * destruct (q_boxes q) eqn:Eq; [discriminate|]. injection P2 as <- <-. cbn [q_boxes length] in *. lia.
      * injection P2 as <- <-. destruct (o <? 12); cbn [q_boxes]; lia.
      * injection P2 as <- <-. lia.
  - (* death outside the section *)
    unfold fine in F. cbn [is_intr is_inner_death negb andb] in F.
    assert (Hp : holds p = false) by (destruct (holds p); auto; discriminate).
    exists q, st, (lost + wt (p, u)), m0.
    assert (W : 0 <= wt (p, u)).
    { unfold wt. cbn [fst]. destruct p as [| |o|o ? ?|o r|o r|]; try discriminate; try lia. destruct o; lia. }
    eapply Q; eauto; try lia; try reflexivity; try exact I.
    + intros _ D. discriminate.
    + unfold wt at 1. cbn [fst]. lia.
Qed.

Lemma minv_exec : forall k m0 q0 st0 tr s, Rep m0 q0 st0 -> q_boxes q0 = [] ->
  exec lim n k m0 tr s -> (forall e, In e tr -> fine e = true) ->
  LInv s /\ exists q st lost m, MInv q0 tr s q st lost m.
Proof.
  intros k m0 q0 st0 tr s R E X. induction X as [|tr s e s' X IH ST]; intros H.
  - split; [apply linv_init|]. exists q0, st0, 0, m0. apply minv_init; auto.
  - assert (F : fine e = true) by (apply H; apply in_or_app; right; now left).
    destruct IH as (LI & q & st & lost & m & MI).
    { intros. apply H. apply in_or_app. auto. }
    split.
    + eapply linv_step; eauto. unfold fine in F. destruct (is_intr e); auto.
    + eapply minv_step; eauto.
Qed.

Lemma wt_counts : forall l, sumz wt l = Z.of_nat (count claims l) - Z.of_nat (count posted l).
Proof.
  induction l as [|[p u] l IH]; auto. cbn [sumz]. rewrite IH. unfold count. cbn [filter fst].
  unfold wt. cbn [fst].
  destruct p as [| |o|o ? ?|o r|o r|]; cbn [claims posted]; try lia;
    destruct o; cbn [length]; try lia; destruct r as [[]| | |]; cbn [length]; lia.
Qed.

End Ring.
