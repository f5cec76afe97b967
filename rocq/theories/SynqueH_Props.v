(** Theorems about what the thread-safe queue guarantees about memory (property C150). *)
From Coq Require Import ZArith List Bool Lia Arith.
From Verif Require Import Base Synque_Spec Synque_Model Synque_Proof Synque_Props SynqueH_Model SynqueH_Spec.
Import ListNotations.

Section H.
Variable A : Type.

Lemma hexec_exec : forall n tr s, hexec A n tr s -> exec A n (plain tr) s.
Proof.
  intros n tr s H. induction H as [|tr s e s' H IH S]; [apply ex_nil|].
  unfold plain. rewrite map_app. eapply ex_snoc; [exact IH|exact S].
Qed.
(** every execution can be shown so *)
Lemma exec_hexec : forall n tr s, exec A n tr s -> exists h, hexec A n h s /\ plain h = tr.
Proof.
  intros n tr s H. induction H as [|tr s e s' H (h & IH & E) S]; [exists []; split; [apply hex_nil|reflexivity]|].
  eexists. split; [eapply hex_snoc; [exact IH|exact S]|]. unfold plain in *. rewrite map_app, E. reflexivity.
Qed.
Lemma hexec_prefix : forall n tr s, hexec A n tr s -> forall k, exists s', hexec A n (firstn k tr) s'.
Proof.
  intros n tr s H. induction H as [|tr s e s' H IH S]; intros k; [rewrite firstn_nil; exists (init A n); apply hex_nil|].
  destruct (Nat.le_gt_cases k (length tr)) as [L|L].
  - rewrite firstn_app, (proj2 (Nat.sub_0_le _ _) L). cbn [firstn]. rewrite app_nil_r. apply IH.
  - exists s'. rewrite firstn_all2; [eapply hex_snoc; eassumption|]. rewrite app_length. cbn. lia.
Qed.

(** who may change the owner *)
Lemma step_owner : forall n tr s e s' o o', exec A n tr s -> step A s e s' ->
  let t := match e with Call t _ | Effect t _ _ | Return t _ | Wake t | Tau t => t end in
  (owner A s = None -> owner A s' = Some o -> o = t) /\
  (owner A s = Some o -> owner A s' = None -> o = t) /\
  (owner A s = Some o -> owner A s' = Some o' -> o' = o) /\
  (forall p r, e = Effect t p r -> owner A s = Some t /\ owner A s' = Some t).
Proof.
  intros n tr s e s' o o' H S. pose proof (inv_ok A n tr s H) as IV.
  assert (Cr : forall t p, nth_error (pcs A s) t = Some p -> crit A p = true -> owner A s = Some t).
  { intros t p P C. apply (i_crit _ _ _ IV t p P). exact C. }
  destruct S; cbn [owner];
    match goal with P : nth_error (pcs A s) ?t = Some ?p |- _ => pose proof (Cr t p P) as C end.
  - repeat split; intros; try congruence.
  - repeat split; intros; try congruence.
  - assert (K : crit A p = true) by (destruct p; try discriminate; reflexivity).
    specialize (C K). destruct e as [[? ?]|]; cbn; repeat split; intros; try congruence.
  - specialize (C eq_refl). repeat split; intros; try congruence.
  - specialize (C eq_refl). repeat split; intros; try congruence.
  - specialize (C eq_refl). repeat split; intros; try congruence.
  - repeat split; intros; try congruence.
  - assert (K : crit A p = true) by (destruct p; try discriminate; reflexivity).
    specialize (C K). repeat split; intros; try congruence.
Qed.

(** a step that takes effect *)
Definition effective (tr : list (shown A)) (a t : nat) : Prop :=
  exists x o r, nth_error tr a = Some x /\ s_event x = Effect t o r.
Definition at_step (tr : list (shown A)) (i t : nat) (P : shown A -> Prop) : Prop :=
  exists x, nth_error tr i = Some x /\ thread_of x = t /\ P x.
Lemma at_app : forall tr y i t P, at_step tr i t P -> at_step (tr ++ [y]) i t P.
Proof.
  intros tr y i t P (x & E & Q). exists x. split; [|exact Q]. rewrite nth_error_app1; [exact E|]. eapply nth_lt; exact E.
Qed.
Lemma hist : forall n tr s, hexec A n tr s ->
  (forall a t, effective tr a t -> owner A s = Some t \/ exists i, (a < i)%nat /\ at_step tr i t releases) /\
  (forall a t u, effective tr a t -> owner A s = Some u -> t <> u ->
     exists i j, (a < i < j)%nat /\ at_step tr i t releases /\ at_step tr j u acquires).
Proof.
  intros n tr s H. induction H as [|tr s e s' H (I1 & I2) S].
  - split; intros a t; [intros (x & o & r & E & _)|intros u (x & o & r & E & _)]; destruct a; discriminate.
  - set (y := mkShown e (owner A s) (owner A s')).
    pose proof (fun o o' => step_owner n _ s e s' o o' (hexec_exec n tr s H) S) as O. cbn zeta in O.
    set (who := match e with Call t _ | Effect t _ _ | Return t _ | Wake t | Tau t => t end) in *.
    assert (Last : nth_error (tr ++ [y]) (length tr) = Some y) by (rewrite nth_error_app2, Nat.sub_diag; auto).
    assert (Cases : forall a t, effective (tr ++ [y]) a t -> effective tr a t /\ (a < length tr)%nat \/ a = length tr /\ owner A s = Some t /\ owner A s' = Some t).
    { intros a t (x & o & r & E & Ev). destruct (Nat.lt_ge_cases a (length tr)) as [L|L].
      - left. split; [|exact L]. rewrite nth_error_app1 in E by exact L. exists x, o, r. auto.
      - right. assert (a = length tr) as -> by (pose proof (nth_lt _ _ _ _ E); rewrite app_length in *; cbn in *; lia).
        split; [reflexivity|]. rewrite Last in E. injection E as <-. cbn [s_event y] in Ev.
        destruct (O 0%nat 0%nat) as (_ & _ & _ & O4). assert (W : who = t) by (unfold who; rewrite Ev; reflexivity). rewrite W in O4. apply (O4 o r). exact Ev. }
    assert (New : forall P : shown A -> Prop, P y -> at_step (tr ++ [y]) (length tr) who P).
    { intros P Py. exists y. split; [exact Last|]. split; [reflexivity|exact Py]. }
    split.
    + intros a t E. destruct (Cases a t E) as [[E' L]|(-> & Os & Os')]; [|left; exact Os'].
      destruct (I1 a t E') as [Os|(i & Li & R)]; [|right; exists i; split; [exact Li|apply at_app; exact R]].
      destruct (owner A s') as [v|] eqn:Ov.
      * left. destruct (O t v) as (_ & _ & O3 & _). rewrite (O3 Os eq_refl). reflexivity.
      * right. exists (length tr). split; [exact L|]. destruct (O t t) as (_ & O2 & _ & _).
        rewrite (O2 Os eq_refl). apply New. split; cbn; congruence.
    + intros a t u E Ou N. destruct (Cases a t E) as [[E' L]|(-> & Os & Os')]; [|congruence].
      destruct (owner A s) as [v|] eqn:Ov.
      * destruct (O v u) as (_ & _ & O3 & _). specialize (O3 eq_refl Ou). subst v.
        destruct (I2 a t u E' eq_refl N) as (i & j & Lij & R & Q). exists i, j. split; [exact Lij|]. split; apply at_app; assumption.
      * destruct (I1 a t E') as [F|(i & Li & R)]; [discriminate|].
        exists i, (length tr). assert (Lt : (i < length tr)%nat) by (destruct R as (x & R & _); eapply nth_lt; exact R).
        split; [lia|]. split; [apply at_app; exact R|].
        destruct (O u u) as (O1 & _ & _ & _). rewrite (O1 eq_refl Ou). apply New. split; cbn; congruence.
Qed.

Lemma hb_app : forall (tr l : list (shown A)) i j, hb tr i j -> hb (tr ++ l) i j.
Proof.
  intros tr l i j H.
  assert (Nx : forall i x, nth_error tr i = Some x -> nth_error (tr ++ l) i = Some x).
  { intros k x E. rewrite nth_error_app1; [exact E|eapply nth_lt; exact E]. }
  induction H as [i j x y L E1 E2 T|i j x y L E1 E2 R Q|i j k H1 IH1 H2 IH2].
  - eapply hb_program; eauto.
  - eapply hb_mutex; eauto.
  - eapply hb_trans; eassumption.
Qed.
(** Effects are ordered: whatever took effect earlier happened before. *)
Theorem C150_effects_ordered : forall n tr s a b t u, hexec A n tr s -> (a < b)%nat ->
  effective tr a t -> effective tr b u -> hb tr a b.
Proof.
  intros n tr s a b t u H L Ea Eb.
  destruct (Nat.eq_dec t u) as [->|N].
  { destruct Ea as (x & o & r & E & Ev), Eb as (x' & o' & r' & E' & Ev').
    eapply hb_program; [exact L|exact E|exact E'|]. unfold thread_of. rewrite Ev, Ev'. reflexivity. }
  destruct Eb as (y & o & r & E & Ev). pose proof (nth_lt _ _ _ _ E) as Lb.
  destruct (hexec_prefix n tr s H (S b)) as (s2 & H2).
  assert (Ef : firstn (S b) tr = firstn b tr ++ [y]).
  { clear -E. revert b E. induction tr as [|z tr IH]; intros [|b] E; try discriminate.
    - injection E as ->. reflexivity.
    - cbn [firstn app]. f_equal. apply IH. exact E. }
  rewrite Ef in H2. inversion H2 as [|tr0 s0 e s' H0 S0 Q]; [destruct (firstn b tr); discriminate|].
  apply app_inj_tail in Q. destruct Q as [-> Qy]. subst s'.
  assert (Ow : owner A s0 = Some u).
  { subst y. cbn [s_event] in Ev. subst e.
    destruct (step_owner n _ _ _ _ 0%nat 0%nat (hexec_exec _ _ _ H0) S0) as (_ & _ & _ & O4). apply (O4 o r eq_refl). }
  assert (Ea' : effective (firstn b tr) a t).
  { destruct Ea as (x & o1 & r1 & E1 & Ev1). exists x, o1, r1. split; [|exact Ev1].
    rewrite <- (firstn_skipn b tr), nth_error_app1 in E1; [exact E1|]. rewrite firstn_length. lia. }
  destruct (proj2 (hist n _ _ H0) a t u Ea' Ow N) as (i & j & Lij & (xi & Ei & Ti & Ri) & (xj & Ej & Tj & Aj)).
  assert (Nx : forall k z, nth_error (firstn b tr) k = Some z -> nth_error tr k = Some z).
  { intros k z Ek. rewrite <- (firstn_skipn b tr), nth_error_app1; [exact Ek|]. eapply nth_lt; exact Ek. }
  assert (Lj : (j < b)%nat) by (pose proof (nth_lt _ _ _ _ Ej) as X; rewrite firstn_length in X; lia).
  destruct Ea as (x & o1 & r1 & E1 & Ev1).
  apply hb_trans with i; [eapply hb_program; [|exact E1|exact (Nx _ _ Ei)|]; [lia|rewrite Ti; unfold thread_of; rewrite Ev1; reflexivity]|].
  apply hb_trans with j; [eapply hb_mutex; [|exact (Nx _ _ Ei)|exact (Nx _ _ Ej)|exact Ri|exact Aj]; lia|].
  eapply hb_program; [exact Lj|exact (Nx _ _ Ej)|exact E|]. rewrite Tj. unfold thread_of. rewrite Ev. reflexivity.
Qed.

Lemma find_add : forall (tr : list (shown A)) k x, nth_error (added (effects (plain tr))) k = Some x -> exists a, adds tr a k x /\ (a < length tr)%nat.
Proof.
  intros tr. induction tr as [|y tr IH] using rev_ind; intros k x E; [destruct k; discriminate|].
  unfold plain in E. rewrite map_app, effects_app in E. unfold added in E. rewrite flat_map_app in E.
  destruct (Nat.lt_ge_cases k (length (added (effects (plain tr))))) as [L|L].
  - rewrite nth_error_app1 in E by exact L. destruct (IH k x E) as (a & (t & r & z & Ez & Ev & Ln) & La).
    exists a. split; [|rewrite app_length; lia]. exists t, r, z. split; [rewrite nth_error_app1; assumption|]. split; [exact Ev|].
    rewrite firstn_app, (proj2 (Nat.sub_0_le _ _)) by lia. cbn [firstn]. rewrite app_nil_r. exact Ln.
  - rewrite nth_error_app2 in E by exact L. exists (length tr). split; [|rewrite app_length; cbn; lia].
    fold (added (effects (map s_event tr))) in E. fold (plain tr) in E.
    set (d := (k - length (added (effects (plain tr))))%nat) in *.
    assert (G : exists t r, s_event y = Effect t (OAdd x) r /\ d = 0%nat).
    { cbn in E. destruct (s_event y) as [|t o r| | |]; cbn in E; try (destruct d; discriminate).
      rewrite app_nil_r in E. destruct o; cbn in E; try (destruct d; discriminate).
      destruct d as [|d]; cbn in E; [injection E as ->; eauto|destruct d; discriminate]. }
    destruct G as (t & r & Ev & D). exists t, r, y. split; [rewrite nth_error_app2, Nat.sub_diag; auto|]. split; [exact Ev|].
    rewrite firstn_app, Nat.sub_diag, firstn_all. cbn [firstn]. rewrite app_nil_r. unfold d in D. lia.
Qed.

Lemma plain_taken : forall l1 l2 : list (shown A),
  taken (effects (plain (l1 ++ l2))) = taken (effects (plain l1)) ++ taken (effects (plain l2)).
Proof. intros l1 l2. unfold plain. rewrite map_app, effects_app. unfold taken. apply flat_map_app. Qed.

(** Publication: the element number k that is handed out is the element number k that was added,
    and whatever the thread that added it did up to then happened before whatever the thread that
    got it does from then on. *)
Theorem C150_publication : forall n tr s b k x, hexec A n tr s -> hands_out tr b k x ->
  exists a, adds tr a k x /\ (a < b)%nat /\
    forall c d y1 y2 z1 z2, (c <= a)%nat -> (b <= d)%nat ->
      nth_error tr a = Some y1 -> nth_error tr c = Some y2 -> thread_of y2 = thread_of y1 ->
      nth_error tr b = Some z1 -> nth_error tr d = Some z2 -> thread_of z2 = thread_of z1 ->
      hb tr c d.
Proof.
  intros n tr s b k x H (B1 & B2 & B3).
  destruct (nth_error tr b) as [y|] eqn:E.
  2:{ apply nth_error_None in E. rewrite firstn_all2 in B1 by exact E. rewrite firstn_all2 in B2 by lia. lia. }
  assert (Ef : firstn (S b) tr = firstn b tr ++ [y]).
  { clear -E. revert b E. induction tr as [|z tr IH]; intros [|b] E; try discriminate.
    - injection E as ->. reflexivity.
    - cbn [firstn app]. f_equal. apply IH. exact E. }
  assert (Tk : exists u o r, s_event y = Effect u o r /\ forall z, o <> OAdd z).
  { rewrite Ef, plain_taken, app_length in B2. cbn in B2. destruct (s_event y) as [|u o r| | |] eqn:Ev; cbn in B2; try lia. exists u, o, r. split; [reflexivity|].
    intros z ->. 
    destruct (hexec_prefix n tr s H (S b)) as (s2 & H2). pose proof (hexec_exec _ _ _ H2) as X.
    destruct (C47_linearizable A n _ _ X) as (q & Q & _). rewrite Ef in Q. unfold plain in Q. rewrite map_app, effects_app in Q. cbn in Q. rewrite Ev in Q. cbn in Q.
    destruct (qrun_last _ _ _ _ _ _ Q) as (q1 & _ & St). inversion St; subst. cbn in B2. lia. }
  destruct Tk as (u & o & r & Ev & Na).
  destruct (hexec_prefix n tr s H (S b)) as (s2 & H2).
  destruct (C47_fifo A n _ _ (hexec_exec _ _ _ H2)) as (q & Q & _).
  assert (Pre : exists l, taken (effects (plain tr)) = taken (effects (plain (firstn (S b) tr))) ++ l).
  { exists (taken (effects (plain (skipn (S b) tr)))). rewrite <- plain_taken, firstn_skipn. reflexivity. }
  destruct Pre as (l & Pre).
  assert (Ka : nth_error (added (effects (plain (firstn (S b) tr)))) k = Some x).
  { rewrite Q, nth_error_app1 by exact B2. rewrite Pre, nth_error_app1 in B3 by exact B2. exact B3. }
  destruct (find_add _ _ _ Ka) as (a & (t & r1 & y1 & E1 & Ev1 & Ln) & La).
  assert (Lb : (b < length tr)%nat) by (eapply nth_lt; exact E).
  assert (Lab : (a < b)%nat).
  { rewrite firstn_length in La. destruct (Nat.eq_dec a b) as [->|]; [exfalso|lia].
    rewrite Ef, nth_error_app2 in E1 by (rewrite firstn_length; lia).
    rewrite firstn_length, Nat.min_l, Nat.sub_diag in E1 by lia. injection E1 as <-. rewrite Ev in Ev1. injection Ev1 as _ Eo _. exact (Na x Eo). }
  assert (E1' : nth_error tr a = Some y1).
  { rewrite <- (firstn_skipn (S b) tr), nth_error_app1; [exact E1|exact La]. }
  exists a. split; [|split; [exact Lab|]].
  - exists t, r1, y1. split; [exact E1'|]. split; [exact Ev1|]. rewrite firstn_firstn, Nat.min_l in Ln by lia. exact Ln.
  - intros c d w1 w2 z1 z2 Lc Ld Wa Wc Tc Zb Zd Td.
    assert (M : hb tr a b).
    { apply (C150_effects_ordered n tr s a b t u H Lab); [exists y1, (OAdd x), r1; auto|exists y, o, r; auto]. }
    assert (M2 : hb tr c b).
    { destruct (Nat.eq_dec c a) as [->|Nc]; [exact M|]. apply hb_trans with a; [|exact M].
      eapply hb_program; [|exact Wc|exact Wa|exact Tc]. lia. }
    destruct (Nat.eq_dec d b) as [->|Nd]; [exact M2|]. apply hb_trans with b; [exact M2|].
    eapply hb_program; [|rewrite E; exact Zb|exact Zd|congruence]. lia.
Qed.
End H.
Print Assumptions C150_effects_ordered.
Print Assumptions C150_publication.

(** two threads add 7 and 8, and a third, which slept, takes both in one batch: the hypotheses of
    C150_publication hold for the element 8, number 1 of the elements *)
Example C150_ex : exists tr s b, hexec nat 3 tr s /\ hands_out tr b 1 8%nat /\
  exists y, nth_error (plain tr) b = Some (Effect 0 (OBatch 0 true) y).
Proof.
  destruct (fires [] (init nat 3) ex_sched) as [[tr s]|] eqn:E; [|vm_compute in E; discriminate].
  assert (X : exec nat 3 tr s) by (eapply fires_exec; [apply ex_nil|exact E]).
  destruct (exec_hexec nat 3 tr s X) as (h & H & P). exists h, s.
  assert (F : forall k, plain (firstn k h) = firstn k tr) by (intros k; rewrite <- P; unfold plain; symmetry; apply firstn_map).
  vm_compute in E. injection E as Et _.
  assert (exists b, nth_error tr b = Some (Effect 0 (OBatch 0 true) (RBatch [7; 8]%nat)) /\
    (length (taken (effects (firstn b tr))) <= 1)%nat /\ (1 < length (taken (effects (firstn (S b) tr))))%nat) as (b & B1 & B2 & B3).
  { rewrite <- Et. first [exists 14%nat; split; [reflexivity|]|exists 15%nat; split; [reflexivity|]|exists 16%nat; split; [reflexivity|]|exists 17%nat; split; [reflexivity|]|exists 18%nat; split; [reflexivity|]|exists 19%nat; split; [reflexivity|]|exists 20%nat; split; [reflexivity|]|exists 21%nat; split; [reflexivity|]|exists 22%nat; split; [reflexivity|]]; cbn; lia. }
  exists b. split; [exact H|]. split.
  - unfold hands_out. rewrite !F, P. split; [exact B2|]. split; [exact B3|]. rewrite <- Et. reflexivity.
  - rewrite P. eauto.
Qed.
(** happens-before is not just the order of the history: before the first unlock, steps of
    different threads are not ordered by it *)
Theorem C150_not_all_ordered : exists tr s, hexec nat 2 tr s /\ length tr = 2%nat /\ ~ hb tr 0 1.
Proof.
  set (x := mkShown (Call 0 (OAdd 7%nat)) None None). set (y := mkShown (Call 1 (OGet (A := nat) true)) None None).
  set (s1 := mkState nat None [] (upd [Idle nat; Idle nat] 0 (entry nat (OAdd 7%nat)))).
  set (s2 := mkState nat None [] (upd (pcs nat s1) 1 (entry nat (OGet true)))).
  exists [x; y], s2. split; [|split; [reflexivity|]].
  - change (hexec nat 2 ([x] ++ [mkShown (Call 1 (OGet true)) (owner nat s1) (owner nat s2)]) s2). apply hex_snoc.
    + change (hexec nat 2 ([] ++ [mkShown (Call 0 (OAdd 7%nat)) (owner nat (init nat 2)) (owner nat s1)]) s1).
      apply hex_snoc; [apply hex_nil|]. apply (s_call nat (init nat 2) 0). reflexivity.
    + apply (s_call nat s1 1). reflexivity.
  - intros F.
    assert (G : forall i j, hb [x; y] i j -> (i < j < 2)%nat /\
      forall a b, nth_error [x; y] i = Some a -> nth_error [x; y] j = Some b -> thread_of a = thread_of b).
    { intros i j Hb. induction Hb as [i j a b L Ea Eb T|i j a b L Ea Eb R Q|i j k H1 IH1 H2 IH2].
      - split; [pose proof (nth_lt _ _ _ _ Eb) as X; cbn in X; lia|]. intros a' b' Ea' Eb'. congruence.
      - exfalso. destruct R as [R _]. destruct i as [|[|i]]; cbn in Ea; [| |destruct i; discriminate]; injection Ea as <-; exact (R eq_refl).
      - lia. }
    destruct (G _ _ F) as (_ & G2). specialize (G2 _ _ eq_refl eq_refl). discriminate.
Qed.
Print Assumptions C150_not_all_ordered.
