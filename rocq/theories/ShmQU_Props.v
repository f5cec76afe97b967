(** The flags and the timeout of unflush. *)
From Coq Require Import ZArith List Bool Lia.
From Verif Require Import Base Shm_Model Shm_Proof ShmMap_Proof ShmSys_Proof ShmQ_Spec ShmQ_Model ShmQ_Proof ShmQSys_Spec ShmQSys_Proof ShmQ_Props
  ShmQU_Model ShmQU_Spec.
Import ListNotations.
Local Open Scope Z_scope.

(** *** the timeout *)
Theorem C138_timeout : forall usec, 0 <= usec ->
  timeout_ok (timeout usec) = true /\
  fst (timeout usec) * 1000000000 + snd (timeout usec) = usec * 1000.
Proof.
  intros u H. unfold timeout_ok, timeout. cbn [fst snd].
  rewrite Z.quot_div_nonneg, Z.rem_mod_nonneg by lia.
  pose proof (Z.div_mod u 1000000 ltac:(lia)). pose proof (Z.mod_pos_bound u 1000000 ltac:(lia)).
  pose proof (Z.div_pos u 1000000 ltac:(lia) ltac:(lia)).
  split; [|lia]. rewrite !andb_true_iff, !Z.leb_le, Z.ltb_lt. lia.
Qed.
Print Assumptions C138_timeout.
Example C138_timeout_ex : timeout 100000 = (0, 100000000) /\ timeout 2500000 = (2, 500000000).
Proof. split; reflexivity. Qed.

Theorem C138_timeout_refuted : forall usec, usec < 0 -> timeout_ok (timeout usec) = false.
Proof.
  intros u H. unfold timeout_ok, timeout. cbn [fst snd].
  replace u with (- (- u)) by lia. rewrite Z.quot_opp_l, Z.rem_opp_l by lia.
  rewrite Z.quot_div_nonneg, Z.rem_mod_nonneg by lia.
  pose proof (Z.div_mod (-u) 1000000 ltac:(lia)). pose proof (Z.mod_pos_bound (-u) 1000000 ltac:(lia)).
  pose proof (Z.div_pos (-u) 1000000 ltac:(lia) ltac:(lia)).
  rewrite !andb_false_iff, !Z.leb_gt, Z.ltb_ge. lia.
Qed.
Print Assumptions C138_timeout_refuted.

(** *** the flags *)
Section U.
Variables (lim : Z) (n : nat).

Lemma flagged_app : forall i a b, flagged i (a ++ b) = flagged i a + flagged i b.
Proof.
  induction a as [|[e h] a IH]; intros b; cbn [app flagged]; [lia|].
  destruct e; try apply IH. destruct h; [apply IH|]. rewrite IH. lia.
Qed.


Lemma step_len : forall s e s', step lim n s e s' -> length (procs s') = length (procs s).
Proof. intros s e s' H. destruct H; cbn [procs]; rewrite ?upd_length; reflexivity. Qed.

Lemma nth_upd : forall (a : list Z) i j v, (j < length a)%nat ->
  nth i (upd a j v) 0 = if (i =? j)%nat then v else nth i a 0.
Proof.
  induction a as [|x a IH]; intros i j v H; [cbn in H; lia|]. destruct j, i; cbn [upd nth]; auto.
  cbn [length] in H. rewrite IH by lia. reflexivity.
Qed.

(** the adjustments are the tickets taken with the flag *)
Lemma uexec_adj : forall k m0 tr w, uexec lim n k m0 tr w -> calm tr ->
  length (u_adj w) = length (procs (u_sys w)) /\ forall i, nth i (u_adj w) 0 = flagged i tr.
Proof.
  intros k m0 tr w X. induction X as [|tr w e h w' X IH ST]; intros C.
  - cbn [uinit u_adj u_sys init procs]. rewrite !repeat_length. split; auto.
    intros i. cbn [flagged]. destruct (Nat.ltb_spec i k).
    + pose proof (nth_In (repeat 0 k) 0 (n := i)) as Q. rewrite repeat_length in Q. specialize (Q H).
      now apply repeat_spec in Q.
    + apply nth_overflow. rewrite repeat_length. lia.
  - destruct IH as [L A]. { intros x Hx. apply C. apply in_or_app. auto. }
    assert (D : is_death e = false) by (apply (C (e, h)); apply in_or_app; right; now left).
    destruct ST as [s a e s' S _|s a i u s' N S|l c m ps a i u usec N T|s a i b s' S]; cbn [u_adj u_sys] in *.
    + split; [erewrite step_len by eassumption; auto|]. intros i. rewrite flagged_app, A.
      cbn [flagged]. destruct e; lia.
    + split; [rewrite upd_length; erewrite step_len by eassumption; auto|]. intros j. rewrite nth_upd.
      * rewrite flagged_app. cbn [flagged]. rewrite !A. destruct (Nat.eqb_spec j i); subst; lia.
      * rewrite L. apply nth_error_Some. congruence.
    + cbn [procs] in *. split; [rewrite upd_length; auto|]. intros j. rewrite flagged_app, A. cbn [flagged]. lia.
    + discriminate D.
Qed.
End U.

Lemma uminv : forall sz n, 1 <= sz -> sz * Z.of_nat n < 2^32 -> sz < 2^32 ->
  forall k m0 q0 st0 tr w, Rep sz n m0 q0 st0 -> q_boxes q0 = [] ->
  uexec (seg_size n sz) n k m0 tr w -> calm tr ->
  LInv (u_sys w) /\ exists q st lost m, MInv sz n q0 (map fst tr) (u_sys w) q st lost m.
Proof.
  intros sz n H1 H2 H3 k m0 q0 st0 tr w R E X. induction X as [|tr w e h w' X IH ST]; intros C.
  - split; [apply linv_init|]. exists q0, st0, 0, m0. apply minv_init; auto.
  - destruct IH as (LI & q & st & lost & m & MI). { intros x Hx. apply C. apply in_or_app. auto. }
    destruct (C (e, h)) as [I D]; [apply in_or_app; right; now left|]. cbn [fst] in I, D.
    assert (F : fine e = true) by (unfold fine; rewrite I; destruct e; try reflexivity; discriminate D).
    rewrite map_app. cbn [map fst].
    destruct ST as [s a e s' S _|s a i u s' N S|l c m1 ps a i u usec N T|s a i b s' S]; cbn [u_sys] in *.
    + split; [eapply linv_step; eauto|eapply minv_step; eauto].
    + split; [eapply linv_step; eauto|eapply minv_step; eauto].
    + split.
      * assert (L0 : LInv (mkS l 0 m1 ps)) by (destruct LI; constructor; auto).
        assert (L1 : LInv (mkS l 0 m1 (upd ps i (Idle, u)))).
        { eapply linv_step; [exact L0|apply (SFail (seg_size n sz) n); [exact N|reflexivity]|reflexivity]. }
        destruct L1; constructor; auto.
      * exists q, st, lost, m. destruct MI as [M1 M2 M3 M4 M5 M6 M7 M8]. cbn [sm cnt procs] in *.
        assert (Li : (i < length ps)%nat) by (apply nth_error_Some; congruence).
        constructor; cbn [sm cnt procs]; auto.
        -- rewrite dones_app. cbn [dones]. rewrite app_nil_r. auto.
        -- intros H. apply M3. intros j pj uj Ej. destruct (Nat.eq_dec j i) as [->|NE].
           ++ rewrite N in Ej. injection Ej as <- <-. auto.
           ++ apply (H j pj uj). rewrite nth_error_upd_other; auto.
        -- intros j pj uj Ej. destruct (Nat.eq_dec j i) as [->|NE].
           ++ rewrite nth_error_upd_same in Ej by auto. injection Ej as <- <-. exact Logic.I.
           ++ rewrite nth_error_upd_other in Ej by auto. eauto.
        -- intros Hd. apply M7. intros e0 He0. apply Hd. apply in_or_app. auto.
        -- pose proof (sumz_upd _ wt ps i (Ticket, u) (Idle, u) N) as Q. unfold wt at 3 4 in Q. cbn [fst] in Q. lia.
    + discriminate D.
Qed.

(** Until somebody exits, the flag changes nothing: the count is what is owed. *)
Theorem C138_count_exact : forall n sz m0 k tr w q, sane n sz -> sz <= 32768 -> created n sz m0 ->
  uexec (seg_size n sz) n k m0 tr w -> calm tr -> qruns sz qempty (dones (map fst tr)) q ->
  cnt (u_sys w) = owed (u_sys w) q.
Proof.
  intros n sz m0 k tr w q S SZ C X F Q. pose proof (created_rep n sz m0 S C) as R.
  destruct S as ((S1 & S2) & S3).
  destruct (uminv sz n S1 S3 S2 k m0 qempty 0 tr w R eq_refl X F) as (LI & q' & st & lost & m & MI).
  rewrite (qruns_fun _ _ _ _ Q _ (m_runs _ _ _ _ _ _ _ _ _ MI)). unfold owed.
  pose proof (m_sum _ _ _ _ _ _ _ _ _ MI) as M8. rewrite (wt_counts n) in M8.
  rewrite (m_none _ _ _ _ _ _ _ _ _ MI) in M8; auto; [lia|].
  intros e He. apply in_map_iff in He. destruct He as (x & <- & Hx). apply (F x Hx).
Qed.
Print Assumptions C138_count_exact.

(** When a process ends outside its section, the kernel gives back every ticket it ever took
    with the flag, though only the one it may be holding was not honoured. *)
Theorem C138_exit : forall n sz m0 k tr w q i p u w', sane n sz -> sz <= 32768 -> created n sz m0 ->
  uexec (seg_size n sz) n k m0 tr w -> calm tr -> qruns sz qempty (dones (map fst tr)) q ->
  nth_error (procs (u_sys w)) i = Some (p, u) ->
  ustep (seg_size n sz) n w (EDie i false) Plain w' ->
  cnt (u_sys w') = Z.min semvmx (owed (u_sys w') q + flagged i tr - claim p).
Proof.
  intros n sz m0 k tr w q i p u w' S SZ C X F Q N ST.
  pose proof (C138_count_exact _ _ _ _ _ _ _ S SZ C X F Q) as E.
  destruct (uexec_adj _ _ _ _ _ _ X F) as [_ A].
  inversion ST as [? ? ? ? ? NE| | |s a j b s' SD]; subst; [now elim (NE i false)|].
  cbn [u_sys u_adj cnt procs] in *. rewrite A.
  inversion SD as [| | | | | | | | | | |l c m ps j p0 u0 N0 ND]; subst. cbn [cnt procs] in *.
  rewrite N in N0. injection N0; intros; subst p0 u0.
  assert (HF : holds p = false) by (match goal with H : holds p = false |- _ => exact H | H : false = holds p |- _ => now symmetry end).
  unfold owed in *. cbn [procs] in *.
  assert (forall ps i, nth_error ps i = Some (p, u) ->
    Z.of_nat (count claims ps) = Z.of_nat (count claims (upd ps i (Dead, 0))) + claim p /\
    count posted (upd ps i (Dead, 0)) = count posted ps) as G.
  { clear -HF. induction ps as [|[p1 u1] ps IH]; intros [|i] H; try discriminate; cbn [nth_error upd] in *.
    - injection H as -> ->. unfold count. cbn [filter fst claims posted]. unfold claim.
      assert (posted p = false) by (destruct p; try reflexivity; discriminate). rewrite H.
      destruct (claims p); cbn [length]; split; auto; lia.
    - destruct (IH i H) as [G1 G2]. unfold count in *. cbn [filter fst].
      destruct (claims p1), (posted p1); cbn [length]; split; lia. }
  destruct (G ps i N) as [G1 G2]. rewrite G2. f_equal. lia.
Qed.
Print Assumptions C138_exit.

(** Hence a process that has taken its boxes and exits leaves a count that promises
    as many boxes that do not exist. *)
Theorem C138_flag_refuted : forall n sz m0 k tr w q i u w', sane n sz -> sz <= 32768 -> created n sz m0 ->
  uexec (seg_size n sz) n k m0 tr w -> calm tr -> qruns sz qempty (dones (map fst tr)) q ->
  nth_error (procs (u_sys w)) i = Some (Idle, u) -> 0 < flagged i tr ->
  ustep (seg_size n sz) n w (EDie i false) Plain w' ->
  owed (u_sys w') q < semvmx -> owed (u_sys w') q < cnt (u_sys w').
Proof.
  intros n sz m0 k tr w q i u w' S SZ C X F Q N P ST L.
  rewrite (C138_exit _ _ _ _ _ _ _ _ _ _ _ S SZ C X F Q N ST). unfold claim. cbn [claims]. lia.
Qed.
Print Assumptions C138_flag_refuted.

(** What the flag is for: a process that dies with its first ticket in hand gives it back. *)
Theorem C138_ticket_back : forall n sz m0 k tr w q i u w', sane n sz -> sz <= 32768 -> created n sz m0 ->
  uexec (seg_size n sz) n k m0 tr w -> calm tr -> qruns sz qempty (dones (map fst tr)) q ->
  nth_error (procs (u_sys w)) i = Some (Lock QUnflush, u) -> flagged i tr = 1 ->
  ustep (seg_size n sz) n w (EDie i false) Plain w' ->
  owed (u_sys w') q <= semvmx -> cnt (u_sys w') = owed (u_sys w') q.
Proof.
  intros n sz m0 k tr w q i u w' S SZ C X F Q N P ST L.
  rewrite (C138_exit _ _ _ _ _ _ _ _ _ _ _ S SZ C X F Q N ST). unfold claim. cbn [claims]. lia.
Qed.
Print Assumptions C138_ticket_back.

(** *** a concrete case *)
Definition ufire (lim : Z) (n : nat) (w : usys) (i : nat) (a : act) : option (event * how * usys) :=
  match fire lim n (u_sys w) i a with
  | Some (e, s') =>
      match e with
      | EDie _ _ => Some (e, Plain, mkU (mkS (lk s') (Z.min semvmx (cnt s' + nth i (u_adj w) 0)) (sm s') (procs s'))
                                     (upd (u_adj w) i 0))
      | ETau _ => match nth_error (procs (u_sys w)) i with
                  | Some (Ticket, _) => Some (e, Flagged, mkU s' (upd (u_adj w) i (nth i (u_adj w) 0 + 1)))
                  | _ => Some (e, Plain, mkU s' (u_adj w))
                  end
      | _ => Some (e, Plain, mkU s' (u_adj w))
      end
  | None => None
  end.

Lemma fire_who : forall lim n s i a e s', fire lim n s i a = Some (e, s') ->
  (forall j, e = ETau j -> j = i) /\ (forall j b, e = EDie j b -> j = i).
Proof.
  intros lim n [l c m ps] i a e s' H. unfold fire in H.
  destruct (nth_error ps i) as [[p u]|] eqn:E; [|discriminate].
  destruct a as [o| | |]; destruct p; try discriminate H;
    repeat match type of H with
    | (if ?b then _ else _) = _ => destruct b
    | match ?x with _ => _ end = _ => destruct x
    end; try discriminate H; injection H as <- <-; split; intros; congruence.
Qed.

Lemma ufire_step : forall lim n w i a e h w', ufire lim n w i a = Some (e, h, w') -> ustep lim n w e h w'.
Proof.
  intros lim n [s a0] i a e h w' H. unfold ufire in H. cbn [u_sys u_adj] in H.
  destruct (fire lim n s i a) as [[e1 s1]|] eqn:E; [|discriminate].
  pose proof (fire_step _ _ _ _ _ _ _ E) as S. destruct (fire_who _ _ _ _ _ _ _ E) as [W1 W2].
  destruct e1; try (injection H as <- <- <-; apply UPlain; [exact S|intros; discriminate]).
  - rewrite (W1 i0 eq_refl) in *. destruct (nth_error (procs s) i) as [[p u]|] eqn:N.
    + destruct p; injection H as <- <- <-;
        first [eapply UFlag; [exact N|exact S]|apply UPlain; [exact S|intros; discriminate]].
    + injection H as <- <- <-. apply UPlain; [exact S|intros; discriminate].
  - rewrite (W2 i0 inside eq_refl) in *. injection H as <- <- <-. now apply UDie.
Qed.

Fixpoint ufires (lim : Z) (n : nat) (l : list (nat * act)) (tr : list (event * how)) (w : usys)
  : list (event * how) * usys :=
  match l with
  | [] => (tr, w)
  | (i, a) :: l => match ufire lim n w i a with
                   | Some (e, h, w) => ufires lim n l (tr ++ [(e, h)]) w
                   | None => ufires lim n l tr w
                   end
  end.
Lemma ufires_exec : forall lim n k m0 l tr w, uexec lim n k m0 tr w ->
  uexec lim n k m0 (fst (ufires lim n l tr w)) (snd (ufires lim n l tr w)).
Proof.
  induction l as [|[i a] l IH]; intros tr w X; cbn [ufires]; auto.
  destruct (ufire lim n w i a) as [[[e h] w']|] eqn:E; auto.
  apply IH. eapply uexec_snoc; eauto. eapply ufire_step; eauto.
Qed.

(** Process 0 stores one box, process 1 takes it with the flag and exits; then process 2
    receives a box of zeros that nobody stored, and the queue, which is empty, refuses the
    next box of process 0. *)
Theorem C138_phantom_refuted : exists tr w, uexec (seg_size 2 3) 2 3 m3 tr w /\
  (forall x, In x tr -> fine (fst x) = true) /\
  dones (map fst tr) = [(QFlush [1;2], QStored true); (QUnflush, QBox [1;2]);
                        (QUnflush, QBox [0;0]); (QFlush [3;4], QStored false)].
Proof.
  set (l := call 0 (QFlush [1;2]) 40 ++ call 1 QUnflush 40 ++ [(1%nat, ADie)] ++ call 2 QUnflush 40
            ++ call 0 (QFlush [3;4]) 40).
  pose proof (ufires_exec (seg_size 2 3) 2 3 m3 l [] (uinit 3 m3) (uexec_nil _ _ _ _)) as X.
  eexists _, _. split; [exact X|]. clear X.
  assert (T : forallb (fun x => fine (fst x)) (fst (ufires (seg_size 2 3) 2 l [] (uinit 3 m3))) = true)
    by (vm_compute; reflexivity).
  split; [now rewrite forallb_forall in T|]. vm_compute. reflexivity.
Qed.
Print Assumptions C138_phantom_refuted.

(** the hypotheses of C138_exit, C138_flag_refuted and C138_ticket_back are met: a box taken
    with the flag, and a ticket in hand *)
Example C138_exit_ex : exists tr w w', uexec (seg_size 2 3) 2 3 m3 tr w /\ calm tr /\
  nth_error (procs (u_sys w)) 1 = Some (Idle, 0) /\ flagged 1 tr = 1 /\
  ustep (seg_size 2 3) 2 w (EDie 1 false) Plain w' /\ cnt (u_sys w) = 0 /\ cnt (u_sys w') = 1.
Proof.
  set (l := call 0 (QFlush [1;2]) 40 ++ call 1 QUnflush 40).
  pose proof (ufires_exec (seg_size 2 3) 2 3 m3 l [] (uinit 3 m3) (uexec_nil _ _ _ _)) as X.
  eexists _, _, _. split; [exact X|]. clear X.
  assert (T : forallb (fun x => negb (is_intr (fst x)) && negb (is_death (fst x)))
    (fst (ufires (seg_size 2 3) 2 l [] (uinit 3 m3))) = true) by (vm_compute; reflexivity).
  split. { rewrite forallb_forall in T. intros x Hx. specialize (T x Hx). apply andb_prop in T.
           destruct T as [A B]. apply negb_true_iff in A, B. auto. }
  split; [vm_compute; reflexivity|]. split; [vm_compute; reflexivity|]. split; [|split].
  - destruct (ufires (seg_size 2 3) 2 l [] (uinit 3 m3)) as [tr w] eqn:E.
    apply (ufire_step _ _ _ 1 ADie).
    replace w with (snd (ufires (seg_size 2 3) 2 l [] (uinit 3 m3))) by now rewrite E.
    vm_compute. reflexivity.
  - vm_compute. reflexivity.
  - vm_compute. reflexivity.
Qed.
Example C138_ticket_ex : exists tr w, uexec (seg_size 2 3) 2 3 m3 tr w /\ calm tr /\
  nth_error (procs (u_sys w)) 1 = Some (Lock QUnflush, 0) /\ flagged 1 tr = 1 /\ cnt (u_sys w) = 0.
Proof.
  set (l := call 0 (QFlush [1;2]) 40 ++ call 1 QUnflush 1).
  pose proof (ufires_exec (seg_size 2 3) 2 3 m3 l [] (uinit 3 m3) (uexec_nil _ _ _ _)) as X.
  eexists _, _. split; [exact X|]. clear X.
  assert (T : forallb (fun x => negb (is_intr (fst x)) && negb (is_death (fst x)))
    (fst (ufires (seg_size 2 3) 2 l [] (uinit 3 m3))) = true) by (vm_compute; reflexivity).
  split. { rewrite forallb_forall in T. intros x Hx. specialize (T x Hx). apply andb_prop in T.
           destruct T as [A B]. apply negb_true_iff in A, B. auto. }
  split; [vm_compute; reflexivity|]. split; vm_compute; reflexivity.
Qed.
