(** Proofs about the thread-safe queue. *)

From Coq Require Import ZArith List Bool Lia Arith.
From Verif Require Import Base Synque_Spec Synque_Model.
Import ListNotations.

Section Proofs.
Variable A : Type.
Notation pc := (pc A).
Notation state := (state A).
Notation event := (event A).

Definition crit (p : pc) : bool :=
  match p with
  | Idle _ | AddLock _ _ | SigLock _ | GetLock _ _ _ | GetSleep _ _ _ | GetWoken _ _ _ | SizeLock _ => false
  | _ => true
  end.

(** what is known about the deque while a thread is at a pc *)
Definition pinv (d : list A) (p : pc) : Prop :=
  match p with
  | GetBack _ _ | BatSize _ _ _ => d <> []
  | GetPop _ _ e => exists d', d = d' ++ [e]
  | BatLoop _ max w i q out => length out = i /\ (i <= q)%nat /\ (1 <= q)%nat /\ (q - i <= length d)%nat /\
      q = batch_count max (i + length d)
  | BatBack _ max w i q out => length out = i /\ (i < q)%nat /\ (q - i <= length d)%nat /\
      q = batch_count max (i + length d)
  | BatPop _ max w i q out => exists out' e d', out = out' ++ [e] /\ d = d' ++ [e] /\ length out' = i /\
      (i < q)%nat /\ (q - i <= length d)%nat /\ q = batch_count max (i + length d)
  | Bad _ => False
  | _ => True
  end.
(** elements taken by a batch that has not taken effect yet *)
Definition pending (p : pc) : list A :=
  match p with
  | BatLoop _ _ _ _ _ out | BatBack _ _ _ _ _ out => out
  | BatPop _ _ _ _ _ out => removelast out
  | _ => []
  end.
Definition pc_phase (p : pc) (ph : phase A) : Prop :=
  match p with
  | Idle _ => ph = PIdle
  | AddLock _ x | AddPush _ x => ph = PCalled (OAdd x)
  | AddSignal _ x => ph = PDone (OAdd x) RUnit
  | AddUnlock _ => exists x, ph = PDone (OAdd x) RUnit
  | SigLock _ | SigSignal _ => ph = PCalled OSignal
  | SigUnlock _ => ph = PDone OSignal RUnit
  | GetLock _ g w | GetTest _ g w | GetSleep _ g w | GetWoken _ g w | GetTest2 _ g w => ph = PCalled (op_of A g w)
  | GetFail _ => exists g w, ph = PDone (op_of A g w) RFail
  | GetBack _ w | GetPop _ w _ => ph = PCalled (OGet w)
  | GetUnlock _ e => exists w, ph = PDone (OGet w) (RGet e)
  | BatSize _ m w | BatLoop _ m w _ _ _ | BatBack _ m w _ _ _ | BatPop _ m w _ _ _ => ph = PCalled (OBatch m w)
  | BatUnlock _ out => exists m w, ph = PDone (OBatch m w) (RBatch out)
  | SizeLock _ | SizeRead _ => ph = PCalled OSize
  | SizeUnlock _ n => ph = PDone OSize (RSize n)
  | Bad _ => False
  end.

Definition pend (s : state) : list A :=
  match owner A s with
  | Some t => match nth_error (pcs A s) t with Some p => pending p | None => [] end
  | None => []
  end.
Definition absq (s : state) : list A := pend s ++ rev (dq A s).

Record inv (tr : list event) (s : state) : Prop := mkInv {
  i_crit : forall t p, nth_error (pcs A s) t = Some p -> (crit p = true <-> owner A s = Some t);
  i_owner : forall t, owner A s = Some t -> (t < length (pcs A s))%nat;
  i_pc : forall t p, nth_error (pcs A s) t = Some p -> pinv (dq A s) p;
  i_phase : forall t p, nth_error (pcs A s) t = Some p -> exists ph, pc_phase p ph /\ protocol t tr ph;
  i_queue : qrun [] (effects tr) (absq s) }.

Lemma nth_upd_cases : forall B (l : list B) i v j y, nth_error (upd l i v) j = Some y ->
  (j = i /\ y = v) \/ (j <> i /\ nth_error l j = Some y).
Proof.
  intros B l i v j y H. destruct (Nat.eq_dec j i) as [E|E].
  - left. split; [exact E|]. subst j. assert (L : (i < length l)%nat).
    { assert (nth_error (upd l i v) i <> None) by congruence. apply nth_error_Some in H0. rewrite upd_length in H0. exact H0. }
    rewrite nth_error_upd_same in H by exact L. congruence.
  - right. split; [exact E|]. rewrite nth_error_upd_other in H by congruence. exact H.
Qed.
Lemma nth_lt : forall B (l : list B) i x, nth_error l i = Some x -> (i < length l)%nat.
Proof. intros. apply nth_error_Some. congruence. Qed.

Lemma effects_app : forall (a b : list event), effects (a ++ b) = effects a ++ effects b.
Proof. intros. apply flat_map_app. Qed.

Lemma pending_crit : forall p, crit p = false -> pending p = [].
Proof. destruct p; cbn; congruence. Qed.
Lemma pinv_free : forall d d' p, crit p = false -> pinv d p -> pinv d' p.
Proof. destruct p; cbn; intros; try discriminate; auto. Qed.

(** a step of thread [t] from [p] to [p'] while it owns the mutex, or while the mutex is
    not involved; all other threads keep their pc up to waking *)
Definition rel (p p' : pc) : Prop := p' = p \/ exists g w, p = GetSleep A g w /\ p' = GetWoken A g w.

Lemma inv_step : forall tr s t p p' e own d' l,
  inv tr s -> nth_error (pcs A s) t = Some p ->
  Forall2 rel (pcs A s) l ->
  (* mutex *)
  (own = owner A s /\ crit p' = crit p \/
   own = None /\ crit p = true /\ crit p' = false \/
   own = Some t /\ owner A s = None /\ crit p = false /\ crit p' = true) ->
  (* deque *)
  (d' = dq A s \/ crit p = true) ->
  pinv d' p' ->
  (* history *)
  (forall ph, pc_phase p ph -> protocol t tr ph -> exists ph', pc_phase p' ph' /\ protocol t (tr ++ [e]) ph') ->
  (match e with Call t' _ | Effect t' _ _ | Return t' _ => t' = t | _ => True end) ->
  qrun [] (effects (tr ++ [e])) ((if crit p' then pending p' else pend (mkState A own d' (upd l t p'))) ++ rev d') ->
  inv (tr ++ [e]) (mkState A own d' (upd l t p')).
Proof.
  intros tr s t p p' e own d' l [IC IO IP IH IQ] Hp Hrel Hm Hd Hp' Hph He Hq.
  assert (Ll : length l = length (pcs A s)) by (symmetry; eapply Forall2_len; exact Hrel).
  assert (Lt : (t < length (pcs A s))%nat) by (eapply nth_lt; eassumption).
  assert (Old : forall j y, j <> t -> nth_error (upd l t p') j = Some y ->
            exists y0, nth_error (pcs A s) j = Some y0 /\ rel y0 y).
  { intros j y Hj E. destruct (nth_upd_cases _ _ _ _ _ _ E) as [[F _]|[_ E']]; [contradiction|].
    clear -Hrel E'. revert j E'. induction Hrel as [|a b la lb R _ IHr]; intros [|j] E; try discriminate.
    - injection E as <-. exists a. split; [reflexivity|exact R].
    - cbn in E. apply IHr in E. exact E. }
  assert (RC : forall y0 y, rel y0 y -> crit y = crit y0) by (intros y0 y [->|[g [w [-> ->]]]]; reflexivity).
  assert (Own : own = Some t <-> crit p' = true).
  { pose proof (IC t p Hp) as I. destruct Hm as [[-> E]|[[-> [E1 E2]]|[-> [E0 [E1 E2]]]]].
    - rewrite E. symmetry. exact I.
    - rewrite E2. split; discriminate.
    - rewrite E2. split; reflexivity. }
  constructor; cbn [owner dq pcs].
  - intros j y E. destruct (Nat.eq_dec j t) as [->|N].
    + rewrite nth_error_upd_same in E by lia. injection E as <-. symmetry. exact Own.
    + destruct (Old j y N E) as [y0 [E0 R]]. rewrite (RC _ _ R), (IC j y0 E0).
      destruct Hm as [[-> _]|[[-> [E1 E2]]|[-> [O [E1 E2]]]]]; [reflexivity| |].
      * apply (IC t p Hp) in E1. split; [intros F; congruence|discriminate].
      * rewrite O. split; [discriminate|intros F; congruence].
  - intros j E. rewrite upd_length, Ll. destruct Hm as [[-> _]|[[-> [E1 E2]]|[-> [O [E1 E2]]]]];
      [apply IO; exact E|discriminate|congruence].
  - intros j y E. destruct (Nat.eq_dec j t) as [->|N].
    + rewrite nth_error_upd_same in E by lia. injection E as <-. exact Hp'.
    + destruct (Old j y N E) as [y0 [E0 R]]. pose proof (IP j y0 E0) as P0.
      assert (P1 : pinv (dq A s) y) by (destruct R as [->|[g [w [-> ->]]]]; [exact P0|exact I]).
      destruct Hd as [->|Cp]; [exact P1|].
      apply (pinv_free (dq A s)); [|exact P1]. rewrite (RC _ _ R).
      destruct (crit y0) eqn:C; [|reflexivity]. apply (IC j y0 E0) in C. apply (IC t p Hp) in Cp. congruence.
  - intros j y E. destruct (Nat.eq_dec j t) as [->|N].
    + rewrite nth_error_upd_same in E by lia. injection E as <-.
      destruct (IH t p Hp) as [ph [A1 A2]]. exact (Hph ph A1 A2).
    + destruct (Old j y N E) as [y0 [E0 R]]. destruct (IH j y0 E0) as [ph [A1 A2]]. exists ph.
      split; [destruct R as [->|[g [w [-> ->]]]]; exact A1|]. apply pr_other; [exact A2|].
      destruct e; try exact I; subst; congruence.
  - replace (absq {| owner := own; dq := d'; pcs := upd l t p' |})
      with ((if crit p' then pending p' else pend {| owner := own; dq := d'; pcs := upd l t p' |}) ++ rev d');
      [exact Hq|]. unfold absq. cbn [dq]. f_equal. destruct (crit p') eqn:C; [|reflexivity].
    unfold pend. cbn [owner pcs]. rewrite (proj2 Own eq_refl). rewrite nth_error_upd_same by lia. reflexivity.
Qed.

Lemma rel_refl : forall l : list pc, Forall2 rel l l.
Proof. induction l; constructor; [left; reflexivity|assumption]. Qed.

Lemma pend_same : forall tr s t p p' d' l, inv tr s -> nth_error (pcs A s) t = Some p -> crit p = false -> crit p' = false ->
  Forall2 rel (pcs A s) l -> pend (mkState A (owner A s) d' (upd l t p')) = pend s.
Proof.
  intros tr s t p p' d' l [IC IO IP IH IQ] Hp C C' Hr. unfold pend. cbn [owner pcs].
  destruct (owner A s) as [o|] eqn:O; [|reflexivity].
  assert (N : o <> t). { intros ->. assert (F : crit p = true) by (apply (IC t p Hp); reflexivity). congruence. }
  rewrite nth_error_upd_other by congruence. pose proof (IO o eq_refl) as L.
  destruct (nth_error (pcs A s) o) as [y|] eqn:Ey; [|apply nth_error_None in Ey; lia].
  clear -Hr Ey. revert o Ey. induction Hr as [|a b la lb R _ IHr]; intros [|o] E; try discriminate; cbn in *.
  - injection E as ->. destruct R as [->|[g [w [-> ->]]]]; reflexivity.
  - apply IHr. exact E.
Qed.

Lemma tau_phase : forall (tr : list event) t ph, protocol t tr ph -> protocol t (tr ++ [Tau t]) ph.
Proof. intros. apply pr_other; [assumption|exact I]. Qed.

Lemma owner_pend : forall tr s t p, inv tr s -> nth_error (pcs A s) t = Some p -> crit p = true -> pend s = pending p.
Proof.
  intros tr s t p H Hp C. unfold pend. rewrite (proj1 (i_crit _ _ H t p Hp) C), Hp. reflexivity.
Qed.

Lemma eff_tau : forall tr t, effects (tr ++ [Tau t]) = effects (tr : list event).
Proof. intros. rewrite effects_app. cbn. apply app_nil_r. Qed.

Lemma rev_nonempty : forall (d : list A), d <> [] -> exists d' e, d = d' ++ [e].
Proof. intros d H. destruct (exists_last H) as [d' [e ->]]. eauto. Qed.

Lemma batch_count_pos : forall max n, (1 <= n)%nat -> (1 <= batch_count max n <= n)%nat.
Proof.
  intros max n H. unfold batch_count. destruct (Z.ltb_spec 0 max), (Z.ltb_spec max (Z.of_nat n)); cbn [andb]; lia.
Qed.

Ltac caught := match goal with H : pc_phase _ _ |- _ => cbn in H end.

Theorem inv_ok : forall n tr s, exec A n tr s -> inv tr s.
Proof.
  intros n tr s H. induction H as [|tr s e s' H IHe Hs].
  - constructor; cbn.
    + intros t p E. apply nth_error_In in E. apply repeat_spec in E. subst p. cbn. split; discriminate.
    + discriminate.
    + intros t p E. apply nth_error_In in E. apply repeat_spec in E. subst p. exact I.
    + intros t p E. apply nth_error_In in E. apply repeat_spec in E. subst p. exists PIdle. split; [reflexivity|constructor].
    + constructor.
  - pose proof IHe as IV. destruct Hs as [s t o Hp|s t p p' Hp Hl Ho|s t p d' p' e Hp Hi|s t x l Hp Hsg|s t l Hp Hsg
      |s t g w Hp Hd Hw|s t g w Hp|s t p r Hp Hr].
    + (* call *)
      eapply inv_step; try eassumption; try (apply rel_refl); try exact eq_refl.
      * left. split; [reflexivity|]. destruct o; reflexivity.
      * left; reflexivity.
      * destruct o; exact I.
      * intros ph P1 P2. cbn in P1. subst ph. exists (PCalled o). split; [destruct o; reflexivity|]. constructor. exact P2.
      * rewrite effects_app. cbn [effects flat_map app]. rewrite app_nil_r.
        replace (crit (entry A o)) with false by (destruct o; reflexivity).
        rewrite (pend_same tr s t (Idle A)); try assumption; try reflexivity; [|destruct o; reflexivity|apply rel_refl].
        exact (i_queue _ _ IV).
    + (* lock *)
      eapply inv_step; try eassumption; try (apply rel_refl); try exact I.
      * right. right. split; [reflexivity|]. split; [exact Ho|]. destruct p; try discriminate; injection Hl as <-; auto.
      * left; reflexivity.
      * destruct p; try discriminate; injection Hl as <-; exact I.
      * intros ph P1 P2. exists ph. split; [|apply tau_phase; exact P2].
        destruct p; try discriminate; injection Hl as <-; exact P1.
      * rewrite eff_tau. pose proof (i_queue _ _ IV) as Q. unfold absq, pend in Q. rewrite Ho in Q.
        destruct p; try discriminate; injection Hl as <-; exact Q.
    + (* inside *)
      assert (C : crit p = true) by (destruct p; try discriminate; reflexivity).
      pose proof (i_pc _ _ IV t p Hp) as PI. pose proof (i_queue _ _ IV) as Q. unfold absq in Q.
      rewrite (owner_pend tr s t p IV Hp C) in Q.
      assert (C' : crit p' = true).
      { destruct p; cbn in Hi; try discriminate;
          repeat match type of Hi with
                 | context [match ?x with _ => _ end] => destruct x
                 end; try discriminate; injection Hi as _ <- _; try reflexivity;
          match goal with |- crit (take_of _ ?g _) = _ => destruct g; reflexivity end. }
      assert (G : pinv d' p' /\ (forall ph, pc_phase p ph -> protocol t tr ph ->
                   exists ph', pc_phase p' ph' /\ protocol t (tr ++ [label A t e]) ph') /\
                  qrun [] (effects (tr ++ [label A t e])) (pending p' ++ rev d')).
      { destruct p; cbn [inside] in Hi; try discriminate.
        - (* AddPush *)
          injection Hi as <- <- <-. cbn [label]. split; [exact I|]. split.
          + intros ph P1 P2. cbn in P1. subst ph. eexists. split; [reflexivity|]. constructor. exact P2.
          + rewrite effects_app. cbn [effects flat_map app pending rev] in *. econstructor; [exact Q|constructor].
        - (* GetTest *)
          destruct (dq A s) as [|a d0] eqn:Ed.
          + destruct w; [discriminate|]. injection Hi as <- <- <-. cbn [label]. split; [exact I|]. split.
            * intros ph P1 P2. cbn in P1. subst ph. eexists. split; [eexists; eexists; reflexivity|]. constructor. exact P2.
            * rewrite effects_app. cbn [effects flat_map app pending rev] in *. econstructor; [exact Q|].
              destruct g; constructor.
          + injection Hi as <- <- <-. cbn [label]. split; [destruct g; discriminate|]. split.
            * intros ph P1 P2. cbn in P1. subst ph. exists (PCalled (op_of A g w)). split; [destruct g; reflexivity|].
              apply tau_phase. exact P2.
            * rewrite eff_tau. destruct g; exact Q.
        - (* GetTest2 *)
          destruct (dq A s) as [|a d0] eqn:Ed.
          + injection Hi as <- <- <-. cbn [label]. split; [exact I|]. split.
            * intros ph P1 P2. cbn in P1. subst ph. eexists. split; [eexists; eexists; reflexivity|]. constructor. exact P2.
            * rewrite effects_app. cbn [effects flat_map app pending rev] in *. econstructor; [exact Q|].
              destruct g; constructor.
          + injection Hi as <- <- <-. cbn [label]. split; [destruct g; discriminate|]. split.
            * intros ph P1 P2. cbn in P1. subst ph. exists (PCalled (op_of A g w)). split; [destruct g; reflexivity|].
              apply tau_phase. exact P2.
            * rewrite eff_tau. destruct g; exact Q.
        - (* GetBack *)
          cbn in PI. destruct (rev_nonempty _ PI) as [d0 [x Ed]]. rewrite Ed, rev_app_distr in Hi. cbn [rev app] in Hi.
          injection Hi as <- <- <-. cbn [label]. split; [exists d0; reflexivity|]. split.
          + intros ph P1 P2. exists ph. split; [exact P1|]. apply tau_phase. exact P2.
          + rewrite eff_tau. rewrite <- Ed. exact Q.
        - (* GetPop *)
          cbn in PI. destruct PI as [d0 Ed].
          assert (Hi' : Some (removelast (dq A s), GetUnlock A e0, Some (OGet w, RGet e0)) = Some (d', p', e)).
          { destruct (dq A s) as [|a d1]; [destruct d0; discriminate|exact Hi]. }
          injection Hi' as <- <- <-. cbn [label]. split; [exact I|]. split.
          + intros ph P1 P2. cbn in P1. subst ph. eexists. split; [eexists; reflexivity|]. constructor. exact P2.
          + rewrite effects_app. cbn [effects flat_map app pending rev] in *. econstructor; [exact Q|].
            rewrite Ed, rev_app_distr, removelast_last. cbn. constructor.
        - (* BatSize *)
          injection Hi as <- <- <-. cbn [label]. cbn in PI.
          assert (L : (1 <= length (dq A s))%nat) by (destruct (dq A s); [congruence|cbn; lia]).
          pose proof (batch_count_pos max _ L) as B. unfold batch_count in B. split.
          + cbn. unfold batch_count. repeat split; try lia. 
          + split.
            * intros ph P1 P2. exists ph. split; [exact P1|]. apply tau_phase. exact P2.
            * rewrite eff_tau. exact Q.
        - (* BatLoop *)
          cbn in PI. destruct PI as [Lo [Li [Lq [Ld Eq]]]].
          destruct (Nat.ltb_spec i q) as [Lt|Ge]; injection Hi as <- <- <-; cbn [label].
          + split; [cbn; auto|]. split.
            * intros ph P1 P2. exists ph. split; [exact P1|]. apply tau_phase. exact P2.
            * rewrite eff_tau. exact Q.
          + split; [exact I|]. split.
            * intros ph P1 P2. cbn in P1. subst ph. eexists. split; [eexists; eexists; reflexivity|]. constructor. exact P2.
            * rewrite effects_app. cbn [effects flat_map app pending] in *. econstructor; [exact Q|].
              assert (Eo : batch_count max (length (out ++ rev (dq A s))) = length out).
              { rewrite app_length, rev_length, Lo, <- Eq. lia. }
              pose proof (q_batch A (out ++ rev (dq A s)) max w) as B. rewrite Eo in B.
              rewrite firstn_app, Nat.sub_diag, firstn_all, firstn_O, app_nil_r in B.
              rewrite skipn_app, Nat.sub_diag, skipn_all in B. cbn [app skipn] in B. apply B.
              intros F. apply app_eq_nil in F. destruct F as [F _]. rewrite F in Lo. cbn in Lo. lia.
        - (* BatBack *)
          cbn in PI. destruct PI as [Lo [Li [Ld Eq]]].
          assert (Hne : dq A s <> []) by (intros F; rewrite F in Ld; cbn in Ld; lia).
          destruct (rev_nonempty _ Hne) as [d0 [x Ed]].
          assert (Er : rev (dq A s) = x :: rev d0) by (rewrite Ed, rev_app_distr; reflexivity).
          rewrite Er in Hi. injection Hi as <- <- <-. cbn [label].
          split; [exists out, x, d0; auto 10|]. split.
          + intros ph P1 P2. exists ph. split; [exact P1|]. apply tau_phase. exact P2.
          + rewrite eff_tau. cbn [pending]. rewrite removelast_last. exact Q.
        - (* BatPop *)
          cbn in PI. destruct PI as [out' [x [d0 [Eo [Ed [Lo [Li [Ld Eq]]]]]]]].
          assert (Hi' : Some (removelast (dq A s), BatLoop A max w (S i) q out, None) = Some (d', p', e)).
          { destruct (dq A s) as [|a d1]; [destruct d0; discriminate|exact Hi]. }
          injection Hi' as <- <- <-. cbn [label].
          assert (El : length (dq A s) = S (length d0)) by (rewrite Ed, app_length; cbn; lia).
          rewrite Ed, removelast_last. split.
          + cbn. rewrite Eo, app_length. cbn [length]. rewrite El in *. repeat split; try lia.
            rewrite Eq. f_equal. lia.
          + split.
            * intros ph P1 P2. exists ph. split; [exact P1|]. apply tau_phase. exact P2.
            * rewrite eff_tau. cbn [pending] in *. rewrite Eo in *. rewrite removelast_last in Q.
              rewrite Ed, rev_app_distr in Q. cbn [rev app] in Q. rewrite <- app_assoc. exact Q.
        - (* SizeRead *)
          injection Hi as <- <- <-. cbn [label]. split; [exact I|]. split.
          + intros ph P1 P2. cbn in P1. subst ph. eexists. split; [reflexivity|]. constructor. exact P2.
          + rewrite effects_app. cbn [effects flat_map app pending] in *. econstructor; [exact Q|].
            pose proof (q_size A (rev (dq A s))) as B. rewrite rev_length in B. exact B. }
      destruct G as [G1 [G2 G3]].
      eapply inv_step; try eassumption; try (apply rel_refl).
      * left. split; [reflexivity|congruence].
      * right. exact C.
      * destruct e as [[o r]|]; [reflexivity|exact I].
      * rewrite C'. exact G3.
    + (* signal in add *)
      pose proof (i_queue _ _ IV) as Q. unfold absq in Q. rewrite (owner_pend tr s t _ IV Hp eq_refl) in Q.
      destruct Hsg as [Hf _].
      eapply inv_step; try eassumption; try exact I.
      * left. split; reflexivity.
      * left; reflexivity.
      * intros ph P1 P2. exists ph. split; [exists x; exact P1|]. apply tau_phase. exact P2.
      * rewrite eff_tau. exact Q.
    + (* signal *)
      pose proof (i_queue _ _ IV) as Q. unfold absq in Q. rewrite (owner_pend tr s t _ IV Hp eq_refl) in Q.
      destruct Hsg as [Hf _].
      eapply inv_step; try eassumption; try exact I.
      * left. split; reflexivity.
      * left; reflexivity.
      * intros ph P1 P2. cbn in P1. subst ph. eexists. split; [reflexivity|]. constructor. exact P2.
      * reflexivity.
      * rewrite effects_app. cbn [effects flat_map app]. econstructor; [exact Q|constructor].
    + (* wait *)
      pose proof (i_queue _ _ IV) as Q. unfold absq in Q. rewrite (owner_pend tr s t _ IV Hp eq_refl) in Q.
      eapply inv_step; try eassumption; try (apply rel_refl); try exact I.
      * right. left. repeat split; reflexivity.
      * left; reflexivity.
      * intros ph P1 P2. exists ph. split; [exact P1|]. apply tau_phase. exact P2.
      * rewrite eff_tau. exact Q.
    + (* spurious wake-up *)
      eapply inv_step; try eassumption; try (apply rel_refl); try exact I.
      * left. split; reflexivity.
      * left; reflexivity.
      * intros ph P1 P2. exists ph. split; [exact P1|]. apply pr_other; [exact P2|exact I].
      * rewrite effects_app. cbn [effects flat_map app crit]. rewrite app_nil_r.
        rewrite (pend_same tr s t (GetSleep A g w)); try assumption; try reflexivity; [|apply rel_refl]. exact (i_queue _ _ IV).
    + (* unlock *)
      assert (C : crit p = true) by (destruct p; try discriminate; reflexivity).
      pose proof (i_queue _ _ IV) as Q. unfold absq in Q. rewrite (owner_pend tr s t _ IV Hp C) in Q.
      eapply inv_step; try eassumption; try (apply rel_refl); try exact I.
      * right. left. split; [reflexivity|]. split; [exact C|reflexivity].
      * left; reflexivity.
      * intros ph P1 P2. exists PIdle. split; [reflexivity|].
        destruct p; try discriminate; injection Hr as <-; cbn in P1;
          repeat match goal with H : exists _, _ |- _ => destruct H end; subst ph; eapply pr_return; exact P2.
      * reflexivity.
      * rewrite effects_app. cbn [effects flat_map app crit]. rewrite app_nil_r. unfold pend. cbn [owner app].
        destruct p; try discriminate; exact Q.
Qed.

(** ** Sums over the threads *)

Fixpoint total (f : pc -> nat) (l : list pc) : nat :=
  match l with [] => 0 | p :: l => f p + total f l end.
Lemma total_upd : forall f l t p p', nth_error l t = Some p -> (total f (upd l t p') + f p = total f l + f p')%nat.
Proof.
  intros f. induction l as [|a l IH]; intros [|t] p p' H; try discriminate; cbn in *.
  - injection H as ->. cbn. lia.
  - cbn. specialize (IH t p p' H). lia.
Qed.
Lemma total_ge : forall f l t p, nth_error l t = Some p -> (f p <= total f l)%nat.
Proof.
  intros f. induction l as [|a l IH]; intros [|t] p H; try discriminate; cbn in *; cbn.
  - injection H as ->. lia.
  - apply IH in H. lia.
Qed.
Lemma total_pos : forall f l, (0 < total f l)%nat -> exists t p, nth_error l t = Some p /\ (0 < f p)%nat.
Proof.
  intros f. induction l as [|a l IH]; cbn; intros H; [lia|].
  destruct (f a) as [|k] eqn:E.
  - destruct IH as [t [p [A1 A2]]]; [lia|]. exists (S t), p. auto.
  - exists 0%nat, a. split; [reflexivity|lia].
Qed.
Lemma total_rel : forall f l l', (forall g w, (f (GetSleep A g w) <= f (GetWoken A g w))%nat) ->
  Forall2 rel l l' -> (total f l <= total f l')%nat.
Proof.
  intros f l l' Hf H. induction H as [|a b la lb R _ IH]; cbn; [lia|].
  destruct R as [->|[g [w [-> ->]]]]; [lia|]. specialize (Hf g w). lia.
Qed.

Definition asleep (p : pc) : nat := match p with GetSleep _ _ _ => 1 | _ => 0 end.
Definition woken (p : pc) : nat := match p with GetWoken _ _ _ => 1 | _ => 0 end.
(** threads that will take an element or wake another thread *)
Definition busy (p : pc) : nat :=
  match p with
  | AddSignal _ _ | GetWoken _ _ _ | GetTest2 _ _ _ | GetBack _ _ | GetPop _ _ _ | BatSize _ _ _ => 1
  | BatLoop _ _ _ i _ _ | BatBack _ _ _ i _ _ | BatPop _ _ _ i _ _ => if (i =? 0)%nat then 1 else 0
  | _ => 0
  end.

Definition winv (s : state) : Prop :=
  (0 < total asleep (pcs A s))%nat -> (length (dq A s) <= total busy (pcs A s))%nat.

Lemma sig_woken : forall l l', signals A l l' -> (0 < total asleep l)%nat -> (total busy l < total busy l')%nat.
Proof.
  intros l l' [Hf Hs] H. destruct (total_pos _ _ H) as [t0 [p0 [A1 A2]]].
  destruct Hs as [i [p [p' [B1 [[g [w ->]] [B2 B3]]]]]].
  { exists t0, p0. split; [exact A1|]. destruct p0; cbn in A2; try lia. eexists; eexists; reflexivity. }
  clear t0 p0 A1 A2 H. revert i B1 B2. induction Hf as [|a b la lb R Hf IH]; intros [|i] B1 B2; try discriminate.
  - cbn in *. injection B1 as ->. injection B2 as ->.
    destruct R as [->|[g' [w' [E ->]]]]; [contradiction|]. cbn.
    assert (L : (total busy la <= total busy lb)%nat) by (apply total_rel; [intros; cbn; lia|exact Hf]).
    lia.
  - cbn in B1, B2. specialize (IH i B1 B2). cbn.
    destruct R as [->|[g' [w' [-> ->]]]]; cbn; lia.
Qed.
Lemma sig_asleep : forall l l', Forall2 rel l l' -> (total asleep l' <= total asleep l)%nat.
Proof.
  intros l l' H. induction H as [|a b la lb R _ IH]; cbn; [lia|].
  destruct R as [->|[g [w [-> ->]]]]; cbn; lia.
Qed.
Lemma rel_nth : forall l l' t p, Forall2 rel l l' -> nth_error l t = Some p -> asleep p = 0%nat -> nth_error l' t = Some p.
Proof.
  intros l l' t p H. revert t. induction H as [|a b la lb R _ IH]; intros [|t] E Hc; try discriminate; cbn in *.
  - injection E as ->. destruct R as [->|[g [w [-> ->]]]]; [reflexivity|discriminate].
  - apply IH; assumption.
Qed.

Lemma winv_local : forall s t p p' d' own, winv s -> nth_error (pcs A s) t = Some p -> asleep p' = asleep p ->
  (length d' = 0 \/ length d' + busy p <= length (dq A s) + busy p')%nat -> winv (mkState A own d' (upd (pcs A s) t p')).
Proof.
  intros s t p p' d' own W Hp Ha Hb. unfold winv. cbn [pcs dq]. intros H.
  pose proof (total_upd asleep _ _ _ p' Hp). pose proof (total_upd busy _ _ _ p' Hp).
  unfold winv in W. pose proof (total_ge busy _ _ _ Hp). lia.
Qed.

Theorem winv_ok : forall n tr s, exec A n tr s -> winv s.
Proof.
  intros n tr s H. induction H as [|tr s e s' H IHe Hs].
  - unfold winv. cbn. lia.
  - pose proof (inv_ok n tr s H) as IV.
    destruct Hs as [s t o Hp|s t p p' Hp Hl Ho|s t p d' p' e Hp Hi|s t x l Hp Hsg|s t l Hp Hsg
      |s t g w Hp Hd Hw|s t g w Hp|s t p r Hp Hr].
    + eapply winv_local; try eassumption; destruct o; cbn; try reflexivity; lia.
    + eapply winv_local; try eassumption; destruct p; try discriminate; injection Hl as <-; cbn; try reflexivity; lia.
    + pose proof (i_pc _ _ IV t p Hp) as PI.
      assert (TO : forall g w, busy (take_of A g w) = 1%nat /\ asleep (take_of A g w) = 0%nat) by (intros [|]; split; reflexivity).
      eapply winv_local; try eassumption.
      * destruct p; cbn in Hi; try discriminate;
          repeat match type of Hi with context [match ?x with _ => _ end] => destruct x end;
          try discriminate; injection Hi as _ <- _; try reflexivity; rewrite (proj2 (TO _ _)); reflexivity.
      * destruct p; cbn [inside] in Hi; try discriminate.
        -- injection Hi as <- <- _. cbn. lia.
        -- destruct (dq A s); [destruct w; [discriminate|]|]; injection Hi as <- <- _; rewrite ?(proj1 (TO _ _)); cbn; lia.
        -- destruct (dq A s); injection Hi as <- <- _; rewrite ?(proj1 (TO _ _)); cbn; lia.
        -- cbn in PI. destruct (rev_nonempty _ PI) as [d0 [x Ed]]. rewrite Ed, rev_app_distr in Hi. cbn [rev app] in Hi.
           injection Hi as <- <- _. rewrite <- Ed. cbn. lia.
        -- cbn in PI. destruct PI as [d0 Ed]. rewrite Ed in Hi.
           assert (Hi' : Some (removelast (d0 ++ [e0]), GetUnlock A e0, Some (OGet w, RGet e0)) = Some (d', p', e)).
           { destruct (d0 ++ [e0]) eqn:E; [destruct d0; discriminate|exact Hi]. }
           injection Hi' as <- <- _. rewrite removelast_last, Ed, app_length. cbn. lia.
        -- injection Hi as <- <- _. cbn. lia.
        -- cbn in PI. destruct (Nat.ltb_spec i q); injection Hi as <- <- _; cbn; [lia|].
           destruct (Nat.eqb_spec i 0); lia.
        -- cbn in PI. destruct PI as [Lo [Li [Ld Eq]]].
           assert (Hne : dq A s <> []) by (intros F; rewrite F in Ld; cbn in Ld; lia).
           destruct (rev_nonempty _ Hne) as [d0 [x Ed]].
           assert (Er : rev (dq A s) = x :: rev d0) by (rewrite Ed, rev_app_distr; reflexivity).
           rewrite Er in Hi. injection Hi as <- <- _. cbn. lia.
        -- cbn in PI. destruct PI as [out' [x [d0 [Eo [Ed _]]]]].
           assert (Hi' : Some (removelast (dq A s), BatLoop A max w (S i) q out, None) = Some (d', p', e)).
           { destruct (dq A s) as [|a d1]; [destruct d0; discriminate|exact Hi]. }
           injection Hi' as <- <- _. rewrite Ed, removelast_last, app_length. cbn [busy length].
           destruct (Nat.eqb_spec i 0), (Nat.eqb_spec (S i) 0); lia.
        -- injection Hi as <- <- _. cbn. lia.
    + (* signal in add *)
      unfold winv in *. cbn [pcs dq]. intros Hz. destruct Hsg as [Hf Hs]. pose proof (sig_asleep _ _ Hf) as La.
      pose proof (rel_nth _ _ _ _ Hf Hp eq_refl) as Hp'.
      pose proof (total_upd asleep _ _ _ (AddUnlock A) Hp') as U1. pose proof (total_upd busy _ _ _ (AddUnlock A) Hp') as U2.
      cbn [asleep busy] in U1, U2. assert (Hz' : (0 < total asleep (pcs A s))%nat) by lia.
      pose proof (sig_woken _ _ (conj Hf Hs) Hz'). specialize (IHe Hz'). lia.
    + unfold winv in *. cbn [pcs dq]. intros Hz. destruct Hsg as [Hf Hs]. pose proof (sig_asleep _ _ Hf) as La.
      pose proof (rel_nth _ _ _ _ Hf Hp eq_refl) as Hp'.
      pose proof (total_upd asleep _ _ _ (SigUnlock A) Hp') as U1. pose proof (total_upd busy _ _ _ (SigUnlock A) Hp') as U2.
      cbn [asleep busy] in U1, U2. assert (Hz' : (0 < total asleep (pcs A s))%nat) by lia.
      pose proof (sig_woken _ _ (conj Hf Hs) Hz'). specialize (IHe Hz'). lia.
    + unfold winv. cbn [pcs dq]. rewrite Hd. cbn. lia.
    + unfold winv in *. cbn [pcs dq]. intros Hz.
      pose proof (total_upd asleep _ _ _ (GetWoken A g w) Hp) as U1. pose proof (total_upd busy _ _ _ (GetWoken A g w) Hp) as U2.
      cbn [asleep busy] in U1, U2. lia.
    + eapply winv_local; try eassumption; destruct p; try discriminate; cbn; try reflexivity; lia.
Qed.

(** when the mutex is free, only woken threads are busy *)
Lemma busy_woken : forall tr s, inv tr s -> owner A s = None -> total busy (pcs A s) = total woken (pcs A s).
Proof.
  intros tr s IV Ho. assert (G : forall l, (forall p, In p l -> busy p = woken p) -> total busy l = total woken l).
  { induction l as [|a l IH]; intros H; [reflexivity|]. cbn. rewrite (H a) by (left; reflexivity).
    rewrite IH; [reflexivity|]. intros p Hp. apply H. right. exact Hp. }
  apply G. clear G. intros p Hp. apply In_nth_error in Hp. destruct Hp as [t Hp].
  destruct (crit p) eqn:C; [apply (i_crit _ _ IV t p Hp) in C; congruence|]. destruct p; try discriminate; reflexivity.
Qed.

(** ** Progress and termination *)

Definition running (p : pc) : bool := match p with Idle _ | GetSleep _ _ _ => false | _ => true end.

Lemma exec_len : forall n tr s, exec A n tr s -> length (pcs A s) = n.
Proof.
  intros n tr s H. induction H as [|tr s e s' H IH Hs]; [apply repeat_length|].
  assert (F : forall l l', signals A l l' -> length l' = length l) by (intros l l' [Hf _]; symmetry; eapply Forall2_len; exact Hf).
  destruct Hs; cbn [pcs]; rewrite upd_length; auto; rewrite (F _ _ H1); exact IH.
Qed.

(** every sleeping thread wakes up *)
Lemma signals_ex : forall l, exists l', signals A l l'.
Proof.
  intros l. exists (map (fun p => match p with GetSleep _ g w => GetWoken A g w | _ => p end) l). split.
  - induction l as [|a l IH]; constructor; [|exact IH]. destruct a; try (left; reflexivity). right. eexists; eexists; split; reflexivity.
  - intros [i [p [E [g [w ->]]]]]. exists i, (GetSleep A g w), (GetWoken A g w).
    split; [exact E|]. split; [eexists; eexists; reflexivity|]. rewrite nth_error_map, E. split; [reflexivity|discriminate].
Qed.

(** a thread inside a critical section can always go on *)
Lemma crit_step : forall n tr s t p, exec A n tr s -> nth_error (pcs A s) t = Some p -> crit p = true ->
  exists e s', step A s e s' /\ (forall u, e <> Wake u) /\ (forall u o, e <> Call u o).
Proof.
  intros n tr s t p H Hp C. pose proof (i_pc _ _ (inv_ok n tr s H) t p Hp) as PI.
  assert (L : forall e, (forall u, label A t e <> Wake u) /\ (forall u o, label A t e <> Call u o)).
  { intros [[o r]|]; split; discriminate. }
  destruct (inside A (dq A s) p) as [[[d' p'] e]|] eqn:Ei.
  { exists (label A t e), (mkState A (owner A s) d' (upd (pcs A s) t p')). split; [eapply s_inside; eassumption|apply L]. }
  destruct (result A p) as [r|] eqn:Er.
  { eexists. eexists. split; [eapply s_unlock; eassumption|]. split; discriminate. }
  destruct (signals_ex (pcs A s)) as [l Hl].
  destruct p; try discriminate; try (destruct PI; fail);
    try (cbn in Ei; repeat match type of Ei with context [match ?x with _ => _ end] => destruct x end; discriminate).
  - eexists. eexists. split; [eapply s_add_signal; eassumption|]. split; discriminate.
  - eexists. eexists. split; [eapply s_signal; eassumption|]. split; discriminate.
  - cbn in Ei. destruct (dq A s) eqn:Ed; [|discriminate]. destruct w; [|discriminate].
    eexists. eexists. split; [eapply s_wait; [eassumption|exact Ed|reflexivity]|]. split; discriminate.
Qed.

Theorem progress : forall n tr s t p, exec A n tr s -> nth_error (pcs A s) t = Some p -> running p = true ->
  exists e s', step A s e s' /\ (forall u, e <> Wake u) /\ (forall u o, e <> Call u o).
Proof.
  intros n tr s t p H Hp Hr. destruct (owner A s) as [o|] eqn:Ho.
  - pose proof (inv_ok n tr s H) as IV. pose proof (i_owner _ _ IV o Ho) as L.
    destruct (nth_error (pcs A s) o) as [po|] eqn:Eo; [|apply nth_error_None in Eo; lia].
    apply (crit_step n tr s o po H Eo). apply (i_crit _ _ IV o po Eo). exact Ho.
  - destruct (crit p) eqn:C; [exact (crit_step n tr s t p H Hp C)|].
    assert (El : exists p', locked A p = Some p') by (destruct p; try discriminate; cbn; eauto).
    destruct El as [p' El]. eexists. eexists. split; [eapply s_lock; eassumption|]. split; discriminate.
Qed.

(** the steps left before the thread is outside or asleep; [asleep] threads can be woken *)
Definition left (p : pc) : nat :=
  match p with
  | Idle _ => 0
  | AddLock _ _ => 20 | AddPush _ _ => 19 | AddSignal _ _ => 3 | AddUnlock _ => 1
  | SigLock _ => 3 | SigSignal _ => 2 | SigUnlock _ => 1
  | GetLock _ _ _ => 20 | GetTest _ _ _ => 19 | GetSleep _ _ _ => 18 | GetWoken _ _ _ => 17 | GetTest2 _ _ _ => 16
  | GetFail _ => 1
  | GetBack _ _ => 3 | GetPop _ _ _ => 2 | GetUnlock _ _ => 1
  | BatSize _ _ _ => 10 | BatLoop _ _ _ _ _ _ => 8 | BatBack _ _ _ _ _ _ => 7 | BatPop _ _ _ _ _ _ => 6
  | BatUnlock _ _ => 1
  | SizeLock _ => 3 | SizeRead _ => 2 | SizeUnlock _ _ => 1
  | Bad _ => 0
  end.
Definition measure (s : state) : nat := (4 * length (dq A s) + total left (pcs A s))%nat.

Lemma left_rel : forall l l', Forall2 rel l l' -> (total left l' <= total left l)%nat.
Proof.
  intros l l' H. induction H as [|a b la lb R _ IH]; cbn; [lia|].
  destruct R as [->|[g [w [-> ->]]]]; cbn; lia.
Qed.

Theorem measure_step : forall n tr s e s', exec A n tr s -> step A s e s' -> (forall u o, e <> Call u o) ->
  (measure s' < measure s)%nat.
Proof.
  intros n tr s e s' H Hs Hc. pose proof (inv_ok n tr s H) as IV.
  assert (Loc : forall t p p' d' own, nth_error (pcs A s) t = Some p ->
     (4 * length d' + left p' < 4 * length (dq A s) + left p)%nat ->
     (measure (mkState A own d' (upd (pcs A s) t p')) < measure s)%nat).
  { intros t p p' d' own Hp Hl. unfold measure. cbn [dq pcs]. pose proof (total_upd left _ _ _ p' Hp).
    pose proof (total_ge left _ _ _ Hp). lia. }
  destruct Hs as [s t o Hp|s t p p' Hp Hl Ho|s t p d' p' e Hp Hi|s t x l Hp Hsg|s t l Hp Hsg
      |s t g w Hp Hd Hw|s t g w Hp|s t p r Hp Hr].
  - destruct (Hc t o eq_refl).
  - eapply Loc; [eassumption|]. destruct p; try discriminate; injection Hl as <-; cbn; lia.
  - eapply Loc; [eassumption|]. pose proof (i_pc _ _ IV t p Hp) as PI.
    assert (TO : forall g w, (left (take_of A g w) <= 10)%nat) by (intros [|] w; cbn; lia).
    destruct p; cbn [inside] in Hi; try discriminate.
    + injection Hi as <- <- _. cbn. lia.
    + specialize (TO g w). destruct (dq A s); [destruct w; [discriminate|]|]; injection Hi as <- <- _; cbn [left length]; lia.
    + specialize (TO g w). destruct (dq A s); injection Hi as <- <- _; cbn [left length]; lia.
    + destruct (rev (dq A s)); injection Hi as <- <- _; cbn; lia.
    + cbn in PI. destruct PI as [d0 Ed]. rewrite Ed in Hi.
      assert (Hi' : Some (removelast (d0 ++ [e0]), GetUnlock A e0, Some (OGet w, RGet e0)) = Some (d', p', e)).
      { destruct (d0 ++ [e0]) eqn:E; [destruct d0; discriminate|exact Hi]. }
      injection Hi' as <- <- _. rewrite removelast_last, Ed, app_length. cbn. lia.
    + injection Hi as <- <- _. cbn. lia.
    + destruct (i <? q)%nat; injection Hi as <- <- _; cbn; lia.
    + destruct (rev (dq A s)); injection Hi as <- <- _; cbn; lia.
    + cbn in PI. destruct PI as [out' [x [d0 [_ [Ed _]]]]].
      assert (Hi' : Some (removelast (dq A s), BatLoop A max w (S i) q out, None) = Some (d', p', e)).
      { destruct (dq A s) as [|a d1]; [destruct d0; discriminate|exact Hi]. }
      injection Hi' as <- <- _. rewrite Ed, removelast_last, app_length. cbn. lia.
    + injection Hi as <- <- _. cbn. lia.
  - destruct Hsg as [Hf _]. pose proof (rel_nth _ _ _ _ Hf Hp eq_refl) as Hp'. unfold measure. cbn [dq pcs].
    pose proof (total_upd left _ _ _ (AddUnlock A) Hp'). pose proof (left_rel _ _ Hf). cbn [left] in *. lia.
  - destruct Hsg as [Hf _]. pose proof (rel_nth _ _ _ _ Hf Hp eq_refl) as Hp'. unfold measure. cbn [dq pcs].
    pose proof (total_upd left _ _ _ (SigUnlock A) Hp'). pose proof (left_rel _ _ Hf). cbn [left] in *. lia.
  - eapply Loc; [eassumption|]. cbn. lia.
  - eapply Loc; [eassumption|]. cbn. lia.
  - eapply Loc; [eassumption|]. destruct p; try discriminate; cbn; lia.
Qed.

(** ** One consumer *)

(** a history in which only thread [c] calls get, nobody calls signal and nobody wakes up
    without a signal *)
Definition one_consumer (c : nat) (e : event) : Prop :=
  match e with
  | Call t (OGet _) | Call t (OBatch _ _) => t = c
  | Call _ OSignal => False
  | Wake _ => False
  | _ => True
  end.

Definition consumer_pc (p : pc) : bool :=
  match p with
  | GetLock _ _ _ | GetTest _ _ _ | GetSleep _ _ _ | GetWoken _ _ _ | GetTest2 _ _ _ | GetFail _ | GetBack _ _
  | GetPop _ _ _ | GetUnlock _ _ | BatSize _ _ _ | BatLoop _ _ _ _ _ _ | BatBack _ _ _ _ _ _ | BatPop _ _ _ _ _ _
  | BatUnlock _ _ => true
  | _ => false
  end.
Definition has_elem (p : pc) : bool := match p with GetWoken _ _ _ | GetTest2 _ _ _ | AddSignal _ _ => true | _ => false end.
Definition cinv (c : nat) (s : state) : Prop :=
  forall t p, nth_error (pcs A s) t = Some p ->
    (consumer_pc p = true -> t = c) /\ (has_elem p = true -> dq A s <> []) /\
    (match p with SigLock _ | SigSignal _ | SigUnlock _ => False | _ => True end).

Lemma cinv_step : forall c n tr s e s', exec A n tr s -> cinv c s -> step A s e s' -> one_consumer c e -> cinv c s'.
Proof.
  intros c n tr s e s' H CI Hs Ho. pose proof (inv_ok n tr s H) as IV.
  assert (Loc : forall t p p' d' own, nth_error (pcs A s) t = Some p -> (consumer_pc p' = true -> t = c) ->
     (has_elem p' = true -> d' <> []) -> (match p' with SigLock _ | SigSignal _ | SigUnlock _ => False | _ => True end) ->
     (forall u q, u <> t -> nth_error (pcs A s) u = Some q -> has_elem q = true -> d' <> []) ->
     cinv c (mkState A own d' (upd (pcs A s) t p'))).
  { intros t p p' d' own Hp H1 H2 H3 H4 u q E. cbn [pcs dq] in *. destruct (nth_upd_cases _ _ _ _ _ _ E) as [[-> ->]|[N E']]; [auto|].
    destruct (CI u q E') as [B1 [B2 B3]]. split; [exact B1|]. split; [|exact B3]. intros F. exact (H4 u q N E' F). }
  assert (Keep : forall t u q, u <> t -> nth_error (pcs A s) u = Some q -> has_elem q = true -> dq A s <> []).
  { intros t u q _ E F. destruct (CI u q E) as [_ [B2 _]]. auto. }
  destruct Hs as [s t o Hp|s t p p' Hp Hl Hown|s t p d' p' e Hp Hi|s t x l Hp Hsg|s t l Hp Hsg
      |s t g w Hp Hd Hw|s t g w Hp|s t p r Hp Hr].
  - eapply Loc; [exact Hp|destruct o; cbn in *; try discriminate; auto|destruct o; cbn; discriminate|destruct o; cbn in *; auto|].
    intros u q N. apply (Keep t u q N).
  - destruct (CI t p Hp) as [B1 [B2 B3]].
    eapply Loc; [exact Hp| | | |intros u q N; apply (Keep t u q N)];
      destruct p; try discriminate; injection Hl as <-; cbn in *; auto; discriminate.
  - destruct (CI t p Hp) as [B1 [B2 B3]]. pose proof (i_pc _ _ IV t p Hp) as PI.
    assert (Cr : crit p = true) by (destruct p; try discriminate; reflexivity).
    (* a consumer that removes elements is the only consumer, and no add is at its signal *)
    assert (Alone : consumer_pc p = true -> forall u q, u <> t -> nth_error (pcs A s) u = Some q -> has_elem q = true -> False).
    { intros Cp u q N E F. assert (Et := B1 Cp). destruct (CI u q E) as [C1 [_ _]].
      destruct q; try discriminate F.
      - apply (i_crit _ _ IV t p Hp) in Cr. assert (Cu : owner A s = Some u) by (apply (i_crit _ _ IV u _ E); reflexivity). congruence.
      - rewrite (C1 eq_refl) in N. congruence.
      - rewrite (C1 eq_refl) in N. congruence. }
    assert (TO : forall g w, consumer_pc (take_of A g w) = true /\ has_elem (take_of A g w) = false /\
              match take_of A g w with SigLock _ | SigSignal _ | SigUnlock _ => False | _ => True end)
      by (intros [|] w; repeat split).
    destruct p; cbn [inside] in Hi; try discriminate.
    + injection Hi as <- <- _. eapply Loc; [exact Hp|discriminate|discriminate|exact I|]. intros; discriminate.
    + destruct (TO g w) as [T1 [T2 T3]].
      destruct (dq A s) eqn:Ed; [destruct w; [discriminate|]|]; injection Hi as <- <- _;
        (eapply Loc; [exact Hp|intros _; exact (B1 eq_refl)|cbn; rewrite ?T2; discriminate|try exact I; exact T3|]);
        intros u q N E F; destruct (Alone eq_refl u q N E F).
    + destruct (TO g w) as [T1 [T2 T3]].
      destruct (dq A s) eqn:Ed; injection Hi as <- <- _;
        (eapply Loc; [exact Hp|intros _; exact (B1 eq_refl)|cbn; rewrite ?T2; discriminate|try exact I; exact T3|]);
        intros u q N E F; destruct (Alone eq_refl u q N E F).
    + destruct (rev (dq A s)); injection Hi as <- <- _;
        (eapply Loc; [exact Hp|intros _; exact (B1 eq_refl)|discriminate|exact I|]);
        intros u q N E F; destruct (Alone eq_refl u q N E F).
    + destruct (dq A s); injection Hi as <- <- _;
        (eapply Loc; [exact Hp|intros _; exact (B1 eq_refl)|discriminate|exact I|]);
        intros u q N E F; destruct (Alone eq_refl u q N E F).
    + injection Hi as <- <- _; (eapply Loc; [exact Hp|intros _; exact (B1 eq_refl)|discriminate|exact I|]);
        intros u q N E F; destruct (Alone eq_refl u q N E F).
    + destruct (i <? q)%nat; injection Hi as <- <- _; (eapply Loc; [exact Hp|intros _; exact (B1 eq_refl)|discriminate|exact I|]);
        intros u q0 N E F; destruct (Alone eq_refl u q0 N E F).
    + destruct (rev (dq A s)); injection Hi as <- <- _;
        (eapply Loc; [exact Hp|intros _; exact (B1 eq_refl)|discriminate|exact I|]);
        intros u q0 N E F; destruct (Alone eq_refl u q0 N E F).
    + destruct (dq A s); injection Hi as <- <- _;
        (eapply Loc; [exact Hp|intros _; exact (B1 eq_refl)|discriminate|exact I|]);
        intros u q0 N E F; destruct (Alone eq_refl u q0 N E F).
    + injection Hi as <- <- _; (eapply Loc; [exact Hp|discriminate|discriminate|exact I|]);
        intros u q N E F; exact (Keep t u q N E F).
  - (* signal in add: the deque is not empty *)
    destruct (CI t _ Hp) as [_ [B2 _]]. specialize (B2 eq_refl). destruct Hsg as [Hf _].
    intros u q E. cbn [pcs dq] in *. destruct (nth_upd_cases _ _ _ _ _ _ E) as [[-> ->]|[N E']].
    { cbn. split; [discriminate|]. split; [discriminate|exact I]. }
    assert (O : exists q0, nth_error (pcs A s) u = Some q0 /\ rel q0 q).
    { clear -Hf E'. revert u E'. induction Hf as [|a b la lb R _ IHr]; intros [|u] E; try discriminate.
      - injection E as <-. exists a. split; [reflexivity|exact R].
      - cbn in E. apply IHr in E. exact E. }
    destruct O as [q0 [E0 R]]. destruct (CI u q0 E0) as [C1 [C2 C3]].
    destruct R as [->|[g [w [-> ->]]]]; [auto|]. cbn. split; [exact C1|]. split; [intros _; exact B2|exact I].
  - destruct (CI t _ Hp) as [_ [_ F]]. destruct F.
  - destruct (CI t _ Hp) as [B1 [B2 B3]]. eapply Loc; [exact Hp|exact B1|discriminate|exact I|]. intros u q N. apply (Keep t u q N).
  - destruct Ho.
  - eapply Loc; [exact Hp|discriminate|discriminate|exact I|]. intros u q N. apply (Keep t u q N).
Qed.

Theorem cinv_ok : forall c n tr s, exec A n tr s -> Forall (one_consumer c) tr -> cinv c s.
Proof.
  intros c n tr s H. induction H as [|tr s e s' H IH Hs]; intros Hf.
  - intros t p E. cbn in E. apply nth_error_In in E. apply repeat_spec in E. subst p. cbn.
    split; [discriminate|]. split; [discriminate|exact I].
  - apply Forall_app in Hf. destruct Hf as [Hf He]. inversion He; subst.
    eapply cinv_step; [exact H|exact (IH Hf)|exact Hs|assumption].
Qed.
End Proofs.
