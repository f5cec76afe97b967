(** Whole histories of calls on the stack, the pool and the hash map, alone and by several
    processes. *)

From Coq Require Import ZArith List Bool Lia Permutation.
From Verif Require Import Base Shm_Model Shm_Spec Shm_Proof ShmMap_Proof ShmOps_Proof ShmOps2_Proof.
From Verif Require Import ShmSys_Model ShmSys_Spec ShmSys_Proof.
Import ListNotations.
Local Open Scope Z_scope.

(** *** Stack *)


Lemma stack_step : forall lim s m l o r l', stack_ok lim s -> (0 < s_words s)%nat ->
  stack_rep s m l -> swf s o -> sspec (s_num s) l o = Some (r, l') ->
  exists m', run lim (stack_api s o) m = Ok (r, m') /\ stack_rep s m' l'
    /\ forall a, a <> s_cur s ->
         a < s_dat s \/ s_dat s + stack_data_size (s_num s) (s_words s) <= a -> m' a = m a.
Proof.
  intros lim s m l o r l' HS HW HR Hwf E. destruct o as [el| | | | |]; cbn [sspec stack_api swf] in *.
  - rewrite run_bind, (run_push _ _ _ l) by auto.
    destruct (Z.ltb_spec (Z.of_nat (length l)) (s_num s)); injection E as <- <-;
      cbn [bind run]; eexists; (split; [reflexivity|]); split; auto.
    + apply (push_rep lim); auto.
    + intros a H1 H2. apply (push_mem_frame lim); auto.
  - destruct l as [|el l]; [discriminate|]. injection E as <- <-.
    rewrite run_bind, (run_pop _ _ _ el l) by auto. cbn [bind run].
    eexists; (split; [reflexivity|]); split.
    + apply (pop_rep lim _ _ el); auto.
    + intros a H1 _. now apply mset_other.
  - injection E as <- <-. rewrite run_bind, (run_used_rep _ _ _ l) by auto. cbn [bind run]. eauto 6.
  - injection E as <- <-. rewrite run_bind, (run_empty_rep _ _ _ l) by auto. cbn [bind run]. eauto 6.
  - injection E as <- <-. unfold stack_clear. rewrite run_bind, run_store by apply so_inb_hdr, HS.
    cbn [bind run]. eexists; (split; [reflexivity|]); split.
    + apply (clear_rep lim _ _ l); auto.
    + intros a H1 _. now apply mset_other.
  - injection E as <- <-. pose proof HR as [R1 R2 R3 R4 R5].
    rewrite run_bind, run_stack_attach_old; auto; [|rewrite R2; lia].
    rewrite R1, R2, !Z.eqb_refl. cbn [andb bind run]. eauto 6.
Qed.

Lemma stack_calls : forall lim s, stack_ok lim s -> (0 < s_words s)%nat ->
  forall l h l', sruns (s_num s) l h l' -> forall m, stack_rep s m l ->
  Forall (swf s) (map fst h) ->
  exists m', calls lim (stack_api s) (map fst h) m = Ok (map snd h, m') /\ stack_rep s m' l'
    /\ forall a, a <> s_cur s ->
         a < s_dat s \/ s_dat s + stack_data_size (s_num s) (s_words s) <= a -> m' a = m a.
Proof.
  intros lim s HS HW l h l' H. induction H as [l|l o r l1 h l2 E H IH]; intros m HR HF; cbn [calls map fst snd].
  - eauto 6.
  - cbn [map fst] in HF. apply Forall_cons_iff in HF. destruct HF as (Ho & HF).
    destruct (stack_step lim s m l o r l1 HS HW HR Ho E) as (m1 & E1 & HR1 & F1).
    destruct (IH m1 HR1 HF) as (m2 & E2 & HR2 & F2).
    rewrite E1. cbn [bind]. rewrite E2. cbn [bind]. eexists. split; [reflexivity|]. split; auto.
    intros a A1 A2. rewrite F2, F1; auto.
Qed.

(** *** Pool *)

(** [live] is handed out, the rest is free or never used *)
Definition PState (p : pool) (isz : Z) (m : mem) (live : list Z) : Prop :=
  exists fs cur, pool_rep p isz m fs cur /\ NoDup (live ++ fs)
    /\ (forall i, In i (live ++ fs) <-> 0 <= i < cur).

Lemma pstate_len : forall live fs cur, NoDup (live ++ fs) ->
  (forall i, In i (live ++ fs) <-> 0 <= i < cur) -> 0 <= cur ->
  Z.of_nat (length live) + Z.of_nat (length fs) = cur.
Proof.
  intros live fs cur ND HI Hc.
  assert (E : Permutation (live ++ fs) (zrange (Z.to_nat cur))).
  { apply NoDup_Permutation; auto.
    - unfold zrange. apply FinFun.Injective_map_NoDup; [|apply seq_NoDup]. intros a b. lia.
    - intro i. rewrite HI. unfold zrange. rewrite in_map_iff. split.
      + intros Hi. exists (Z.to_nat i). split; [lia|]. apply in_seq. lia.
      + intros (n & <- & Hn). apply in_seq in Hn. lia. }
  apply Permutation_length in E. rewrite app_length in E. unfold zrange in E.
  rewrite map_length, seq_length in E. lia.
Qed.

Lemma remove_perm : forall l i, NoDup l -> In i l -> Permutation l (i :: remove Z.eq_dec i l).
Proof.
  induction l as [|x l IH]; intros i ND Hi; [destruct Hi|]. cbn [remove].
  apply NoDup_cons_iff in ND. destruct ND as (Hx & ND).
  destruct (Z.eq_dec i x) as [->|Hne].
  - rewrite notin_remove by auto. reflexivity.
  - destruct Hi as [->|Hi]; [congruence|]. rewrite (IH i ND Hi) at 1. apply perm_swap.
Qed.

Definition legal (live : list Z) (o : pop) : Prop :=
  match o with PFree i => In i live | _ => True end.

Lemma pool_step : forall lim p isz m live o, pool_ok lim p -> isz <> 0 ->
  PState p isz m live -> legal live o ->
  exists r m', run lim (pool_api p isz o) m = Ok (r, m')
    /\ pspec (p_num p) live o r (pool_live live [(o, r)])
    /\ PState p isz m' (pool_live live [(o, r)])
    /\ forall a, ~ pool_cell p a -> m' a = m a.
Proof.
  intros lim p isz m live o HP Hz (fs & cur & HR & ND & HI) Hleg.
  pose proof (pr_bnd _ _ _ _ _ HR) as HB. pose proof (pstate_len _ _ _ ND HI ltac:(lia)) as HL.
  pose proof (so_num _ _ (po_stack _ _ HP)) as HN. rewrite (po_num _ _ HP) in HN.
  pose proof (po_cur _ _ HP) as Hc. pose proof (so_cur _ _ (po_stack _ _ HP)) as Hsc.
  pose proof (po_fres _ _ HP) as Hf.
  destruct o as [|i| | |]; cbn [pool_api legal] in *.
  - (* allocate *)
    rewrite run_bind, (run_allocate lim p isz m fs cur) by auto. destruct fs as [|x fs].
    + destruct (Z.leb_spec (p_num p) cur); cbn [bind run].
      * rewrite Z.eqb_refl. do 2 eexists. split; [reflexivity|]. cbn [pool_live].
        split; [|split; auto].
        -- apply pspec_none. intros i Hi. rewrite app_nil_r in HI. apply HI. lia.
        -- exists [], cur. auto.
      * destruct (Z.eqb_spec cur nil32) as [Y|_]; [rewrite nil32_val in Y; lia|].
        do 2 eexists. split; [reflexivity|]. cbn [pool_live].
        split; [|split].
        -- apply pspec_alloc; [lia|]. intro Y. rewrite app_nil_r in HI. apply HI in Y. lia.
        -- exists [], (cur + 1). split; [apply (allocate_rep_fresh lim); auto; lia|].
           rewrite app_nil_r in *. split.
           ++ constructor; auto. rewrite HI. lia.
           ++ intro i. cbn [In]. rewrite HI. lia.
        -- intros a Ha. apply mset_other. intro Y. apply Ha. unfold pool_cell. lia.
    + assert (Hx : 0 <= x < cur) by (apply HI; apply in_or_app; right; now left).
      cbn [bind run]. destruct (Z.eqb_spec x nil32) as [Y|_]; [rewrite nil32_val in Y; lia|].
      do 2 eexists. split; [reflexivity|]. cbn [pool_live].
      assert (PP : Permutation (live ++ x :: fs) ((x :: live) ++ fs)).
      { cbn [app]. symmetry. apply Permutation_middle. }
      assert (ND' : NoDup ((x :: live) ++ fs)) by (apply (Permutation_NoDup PP); auto).
      split; [|split].
      * apply pspec_alloc; [lia|]. cbn [app] in ND'. apply NoDup_cons_iff in ND'.
        intro Y. apply ND'. apply in_or_app. auto.
      * exists fs, cur. split; [apply (allocate_rep_reuse lim _ _ _ x); auto|]. split; auto.
        intro i. rewrite <- HI. split; apply Permutation_in; auto. now symmetry.
      * intros a Ha. apply mset_other. intro Y. apply Ha. unfold pool_cell. lia.
  - (* free *)
    assert (NDl : NoDup live) by (apply (nodup_app_l _ live fs); auto).
    pose proof (remove_perm live i NDl Hleg) as PM.
    assert (Hlen : Z.of_nat (length fs) < p_num p).
    { destruct live as [|y live]; [destruct Hleg|]. cbn [length] in HL. lia. }
    rewrite run_bind, (run_free lim p isz m fs cur) by auto.
    destruct (Z.ltb_spec (Z.of_nat (length fs)) (p_num p)); try lia.
    cbn [bind run]. do 2 eexists. split; [reflexivity|]. cbn [pool_live].
    assert (PP : Permutation (live ++ fs) (remove Z.eq_dec i live ++ i :: fs)).
    { rewrite PM at 1. cbn [app]. apply Permutation_middle. }
    split; [|split].
    + now apply pspec_free.
    + exists (i :: fs), cur. split; [apply (free_rep lim); auto|]. split.
      * apply (Permutation_NoDup PP). auto.
      * intro j. rewrite <- HI. split; apply Permutation_in; auto. now symmetry.
    + intros a Ha. apply (free_mem_frame lim); auto.
  - rewrite run_bind, (run_allocated lim p isz m fs cur) by (auto; lia). cbn [bind run].
    do 2 eexists. split; [reflexivity|]. cbn [pool_live]. split; [|split; auto].
    + replace (cur - Z.of_nat (length fs)) with (Z.of_nat (length live)) by lia. constructor.
    + exists fs, cur. auto.
  - rewrite run_bind, (run_pool_clear lim) by auto. cbn [bind run].
    do 2 eexists. split; [reflexivity|]. cbn [pool_live]. split; [constructor|]. split.
    + exists [], 0. split; [apply (pool_clear_rep lim _ _ _ fs cur); auto|]. cbn [app].
      split; [constructor|]. intro i. cbn [In]. lia.
    + intros a Ha. unfold pool_clear_mem. unfold pool_cell in Ha. rewrite !mset_other by lia. auto.
  - rewrite run_bind, (run_pool_attach_old lim p isz m fs cur) by auto. cbn [bind run].
    do 2 eexists. split; [reflexivity|]. cbn [pool_live]. split; [constructor|]. split; auto.
    exists fs, cur. auto.
Qed.

Lemma pool_live_cons : forall live x h,
  pool_live live (x :: h) = pool_live (pool_live live [x]) h.
Proof. intros live (o, r) h. destruct o, r; reflexivity. Qed.

Lemma pool_calls : forall lim p isz, pool_ok lim p -> isz <> 0 ->
  forall h live m m', PState p isz m live -> frees_ok live h ->
  calls lim (pool_api p isz) (map fst h) m = Ok (map snd h, m') ->
  pruns (p_num p) live h (pool_live live h) /\ PState p isz m' (pool_live live h)
  /\ forall a, ~ pool_cell p a -> m' a = m a.
Proof.
  intros lim p isz HP Hz h. induction h as [|(o, r) h IH]; intros live m m' HS HF E.
  - cbn in *. injection E as <-. split; [constructor|]. auto.
  - cbn [calls map fst snd frees_ok] in *. destruct HF as (HF1 & HF).
    destruct (pool_step lim p isz m live o HP Hz HS HF1) as (r' & m1 & E1 & H1 & H2 & H3).
    rewrite E1 in E. cbn [bind] in E.
    destruct (calls lim (pool_api p isz) (map fst h) m1) as [(rs, m2)| |] eqn:E2; cbn [bind] in E; try discriminate.
    injection E as Er Ers <-. subst r' rs.
    rewrite pool_live_cons.
    destruct (IH _ m1 m2 H2 HF E2) as (K1 & K2 & K3).
    split; [econstructor; eauto|]. split; auto.
    intros a Ha. rewrite K3, H3; auto.
Qed.

(** *** Hash map *)
Section Map.
Variable P : tpar.
Hypothesis HP : fits P.
Notation N := (nobj P).
Notation lim := (required_space P).
Notation State := (State P).
Notation mwf := (mwf P).
Variable fuel : nat.
Notation shows := (shows P fuel).
Hypothesis Hfuel : (Z.to_nat N < fuel)%nat.


Lemma state_cap : forall s lk m, State s lk m -> 0 <= lk /\ Z.of_nat (length s) + lk <= N.
Proof.
  intros s lk m (ch & fs & cur & HI & Hlk & Hp). split; auto.
  pose proof (iv_len _ _ _ _ _ _ HI). pose proof (iv_cur _ _ _ _ _ _ HI).
  rewrite <- (Permutation_length Hp). unfold entries. rewrite map_length. lia.
Qed.

Lemma api_step : forall s lk m o, State s lk m -> mwf o ->
  exists r m' s' lk', run lim (api P fuel o) m = Ok (r, m') /\ State s' lk' m'
    /\ (forall h lk2 s2, cruns N lk' s' h lk2 s2 -> cruns N lk s (Did o r :: h) lk2 s2)
    /\ (lock_of o = Rd -> m' = m).
Proof.
  intros s lk m o HS Hwf. pose proof (state_holds P s lk m HS) as HH.
  destruct o as [k|k v|l|k|l| | | |]; cbn [api mwf lock_of] in *.
  - destruct (wp_run _ _ _ _ _ _ (read_ok P HP s m k fuel HH Hfuel)) as (r & m' & E & -> & ->).
    rewrite run_bind, E. cbn [bind run]. do 4 eexists. split; [reflexivity|].
    split; [exact HS|]. split; auto. intros. eapply cr_did; eauto; try discriminate. constructor.
  - destruct (wp_run _ _ _ _ _ _ (insert_ok P HP s lk m k v fuel HS Hwf Hfuel)) as (r & m' & E & HS' & ->).
    rewrite run_bind, E. cbn [bind run]. do 4 eexists. split; [reflexivity|].
    split; [exact HS'|]. split; [|discriminate]. intros. eapply cr_did; eauto; try discriminate. constructor.
  - destruct (wp_run _ _ _ _ _ _ (insert_many_ok P HP lk fuel l s m HS Hfuel Hwf)) as (r & m' & E & HS' & ->).
    rewrite run_bind, E. cbn [bind run]. do 4 eexists. split; [reflexivity|].
    split; [exact HS'|]. split; [|discriminate]. intros. eapply cr_did; eauto; try discriminate. constructor.
  - destruct (wp_run _ _ _ _ _ _ (erase_ok P HP s lk m k fuel HS Hfuel)) as (r & m' & E & HS' & ->).
    rewrite run_bind, E. cbn [bind run]. do 4 eexists. split; [reflexivity|].
    split; [exact HS'|]. split; [|discriminate]. intros. eapply cr_did; eauto; try discriminate. constructor.
  - destruct (wp_run _ _ _ _ _ _ (erase_many_ok P HP lk fuel l s m HS Hfuel)) as (r & m' & E & HS' & ->).
    rewrite run_bind, E. cbn [bind run]. do 4 eexists. split; [reflexivity|].
    split; [exact HS'|]. split; [|discriminate]. intros. eapply cr_did; eauto; try discriminate. constructor.
  - rewrite run_bind, (size_run P HP s lk m HS). cbn [bind run]. do 4 eexists. split; [reflexivity|].
    split; [exact HS|]. split; auto. intros. constructor. auto.
  - destruct (clear_ok P HP s lk m HS) as (m' & E & HS').
    rewrite run_bind, E. cbn [bind run]. do 4 eexists. split; [reflexivity|].
    split; [exact HS'|]. split; [|discriminate]. intros. constructor. auto.
  - rewrite run_bind, (attach_old P HP s lk m HS). cbn [bind run]. do 4 eexists. split; [reflexivity|].
    split; [exact HS|]. split; auto. intros. eapply cr_did; eauto; try discriminate. constructor.
  - destruct (iteration_ok P HP s m fuel HH Hfuel) as (l & E & Hp).
    rewrite run_bind, E. cbn [bind run]. do 4 eexists. split; [reflexivity|].
    split; [exact HS|]. split; auto. intros. eapply cr_did; eauto; try discriminate. now constructor.
Qed.

Lemma api_calls : forall ops s lk m, State s lk m -> Forall mwf ops ->
  exists rs m' s' lk', calls lim (api P fuel) ops m = Ok (rs, m') /\ length rs = length ops
    /\ cruns N lk s (map (fun x => Did (fst x) (snd x)) (combine ops rs)) lk' s' /\ State s' lk' m'.
Proof.
  induction ops as [|o ops IH]; intros s lk m HS HF; cbn [calls].
  - exists [], m, s, lk. split; [reflexivity|]. split; [reflexivity|]. split; auto. constructor.
  - apply Forall_cons_iff in HF. destruct HF as (Ho & HF).
    destruct (api_step s lk m o HS Ho) as (r & m1 & s1 & lk1 & E & HS1 & K & _).
    destruct (IH s1 lk1 m1 HS1 HF) as (rs & m2 & s2 & lk2 & E2 & EL & HC & HS2).
    rewrite E. cbn [bind]. rewrite E2. cbn [bind].
    exists (r :: rs), m2, s2, lk2. split; [reflexivity|]. split; [cbn; lia|]. split; auto.
    cbn [combine map fst snd]. apply K. auto.
Qed.

Lemma cruns_mruns : forall ops rs s lk' s', length rs = length ops ->
  cruns N 0 s (map (fun x => Did (fst x) (snd x)) (combine ops rs)) lk' s' ->
  lk' = 0 /\ mruns N s (combine ops rs) s'.
Proof.
  induction ops as [|o ops IH]; intros [|r rs] s lk' s' EL H; try discriminate.
  - cbn in H. inversion H; subst. split; auto. constructor.
  - cbn [combine map fst snd] in *. injection EL as EL. inversion H; subst.
    + match goal with K : cruns _ _ _ (map _ _) _ _ |- _ => destruct (IH rs _ _ _ EL K) as (-> & HM) end.
      split; auto. econstructor; eauto. rewrite Z.add_0_r. constructor.
    + match goal with K : cruns _ _ _ (map _ _) _ _ |- _ => destruct (IH rs _ _ _ EL K) as (-> & HM) end.
      split; auto. econstructor; eauto. constructor.
    + match goal with K : cruns _ _ _ (map _ _) _ _ |- _ => destruct (IH rs _ _ _ EL K) as (-> & HM) end.
      split; auto. econstructor; eauto.
      match goal with K : mspec _ _ _ _ _ |- _ => rewrite Z.sub_0_r in K; auto end.
Qed.

(** *** The memory while a batch is inserted *)

Definition batching (s : fmap) (lk : Z) (l : fmap) (m : mem) : Prop :=
  State s lk m \/
  exists l1 k v l2, l = l1 ++ (k, v) :: l2
    /\ inserting P (snd (put_all (N - lk) s l1)) lk k v m.

Lemma inserting_done : forall s lk k v m,
  State (snd (put1 (N - lk) s k v)) lk m -> length v = words P -> inserting P s lk k v m.
Proof.
  intros s lk k v m HS Hv. unfold inserting. unfold put1, has in HS.
  destruct (lookup s k) as [old|] eqn:E; cbn [snd] in HS.
  - exists v. split; auto. exists (length v + length old)%nat.
    rewrite firstn_all2, skipn_all2, app_nil_r by lia. reflexivity.
  - destruct (Z.of_nat (length s) <? N - lk); cbn [snd] in HS; [right; right|left]; auto.
Qed.

Lemma put_all_app : forall cap l1 k v s,
  snd (put_all cap s (l1 ++ [(k, v)])) = snd (put1 cap (snd (put_all cap s l1)) k v).
Proof.
  induction l1 as [|(k1, v1) l1 IH]; intros k v s; cbn [app put_all].
  - cbn [snd]. destruct (put1 cap s k v). reflexivity.
  - destruct (put1 cap s k1 v1) as (b, s1). specialize (IH k v s1).
    destruct (put_all cap s1 (l1 ++ [(k, v)])), (put_all cap s1 l1). cbn [snd] in *. auto.
Qed.

Lemma wp_batch : forall lk l2 s0 l1 m acc,
  State (snd (put_all (N - lk) s0 l1)) lk m -> batching s0 lk (l1 ++ l2) m ->
  Forall (fun e => length (snd e) = words P) (l1 ++ l2) ->
  wp lim (batching s0 lk (l1 ++ l2)) (insert_batch P fuel l2 acc) m (fun _ _ => True).
Proof.
  induction l2 as [|(k, v) l2 IH]; intros s0 l1 m acc HS HB HF; cbn [insert_batch].
  - apply wp_ret; auto.
  - assert (Hv : length v = words P).
    { rewrite Forall_forall in HF. apply (HF (k, v)). apply in_or_app. right. now left. }
    apply wp_bind.
    apply (wp_mono _ _ _ _ _ _ _ _ (insert_ok P HP _ lk m k v fuel HS Hv Hfuel)).
    { intros x Hx. right. exists l1, k, v, l2. auto. }
    intros b x Hx (HSx & _).
    replace (l1 ++ (k, v) :: l2) with ((l1 ++ [(k, v)]) ++ l2) by (rewrite <- app_assoc; reflexivity).
    apply IH.
    + rewrite put_all_app. auto.
    + rewrite <- app_assoc. cbn [app]. right. exists l1, k, v, l2. auto.
    + rewrite <- app_assoc. auto.
Qed.


Lemma batching_steps : forall o l s lk m b' m', State s lk m -> mwf o -> died_batch o = Some l ->
  psteps lim (api P fuel o) m b' m' -> batching s lk l m'.
Proof.
  intros o l s lk m b' m' HS Hwf Ho Hst.
  assert (W : wp lim (batching s lk l) (api P fuel o) m (fun _ _ => True)).
  { destruct o; try discriminate; injection Ho as <-; cbn [api mwf] in *.
    - apply wp_bind. apply (wp_mono _ _ _ _ _ _ _ _ (insert_ok P HP _ lk m k v fuel HS Hwf Hfuel)).
      + intros x Hx. right. exists [], k, v, []. auto.
      + intros b x Hx _. apply wp_ret; auto. right. exists [], k, v, []. auto.
    - unfold insert_many. apply wp_bind, wp_bind.
      assert (HB : batching s lk l0 m) by (left; auto).
      apply (wp_mono _ _ _ _ _ _ _ _ (wp_batch lk l0 s [] m 0 HS HB Hwf)); auto.
      intros a x Hx _. apply wp_ret; auto. apply wp_ret; auto. }
  apply (wp_here _ _ _ _ _ _ (wp_psteps _ _ _ _ _ _ _ _ W Hst)).
Qed.

Lemma batching_died : forall s lk l m, batching s lk l m ->
  exists lk1 s1, State s1 lk1 m
    /\ forall h lk2 s2, cruns N lk1 s1 h lk2 s2 -> cruns N lk s (Died l :: h) lk2 s2.
Proof.
  intros s lk l m [HS|(l1 & k & v & l2 & -> & HI)].
  - exists lk, s. split; auto. intros. now apply cr_died_early.
  - set (t := snd (put_all (N - lk) s l1)) in *. unfold inserting in HI.
    destruct (lookup t k) as [old|] eqn:E.
    + destruct HI as (w & Hw & HS). exists lk, ((k, w) :: del t k). split; auto.
      intros. apply (cr_died _ _ _ _ _ _ _ lk ((k, w) :: del t k)); auto. apply (pd_torn _ _ _ _ _ old); auto.
    + destruct HI as [HS|[HS|HS]].
      * exists lk, t. split; auto. intros. apply (cr_died _ _ _ _ _ _ _ lk t); auto. constructor.
      * exists (lk + 1), t. split; auto. intros. apply (cr_died _ _ _ _ _ _ _ (lk + 1) t); auto.
        pose proof (state_cap _ _ _ HS). apply pd_lost; auto. lia.
      * exists lk, ((k, v) :: t). split; auto. intros.
        apply (cr_died _ _ _ _ _ _ _ lk ((k, v) :: t)); auto.
        pose proof (state_cap _ _ _ HS) as (_ & Hl). cbn [length] in Hl. apply pd_all; auto. lia.
Qed.

(** *** Several processes *)


Lemma serial_shows : forall m tr m', serial mret lim m tr m' ->
  forall l s lk, shows tr l -> State s lk m ->
  exists lk' s', cruns N lk s l lk' s' /\ State s' lk' m'.
Proof.
  intros m tr m' H. induction H; intros l s lk HSh HS.
  - inversion HSh; subst. exists lk, s. split; auto. constructor.
  - inversion HSh; subst; [|contradiction].
    destruct (api_step s lk m o HS ltac:(auto)) as (r' & m1 & s1 & lk1 & E & HS1 & K & KR).
    rewrite H in E. injection E as <- <-.
    destruct (IHserial l0 s1 lk1 ltac:(auto) HS1) as (lk2 & s2 & HC & HS2). eauto.
  - inversion HSh; subst; [|contradiction].
    destruct (api_step s lk m o HS ltac:(auto)) as (r' & m2 & s1 & lk1 & E & HS1 & K & KR).
    rewrite H in E. injection E as <- <-.
    destruct (IHserial l0 s1 lk1 ltac:(auto) HS1) as (lk2 & s2 & HC & HS2). eauto.
  - inversion HSh; subst; [|contradiction].
    pose proof (batching_steps o b0 s lk m b' m1 HS ltac:(auto) ltac:(auto) H) as HB.
    destruct (batching_died _ _ _ _ HB) as (lk1 & s1 & HS1 & K).
    destruct (IHserial l0 s1 lk1 ltac:(auto) HS1) as (lk2 & s2 & HC & HS2). eauto.
  - inversion HSh; subst; try contradiction. eauto.
Qed.

End Map.

Fixpoint ro {A} (p : prog A) : Prop :=
  match p with Load _ _ k => forall v, ro (k v) | Store _ _ _ _ => False | _ => True end.
Lemma ro_bind : forall A B (p : prog A) (f : A -> prog B), ro p -> (forall a, ro (f a)) ->
  ro (pbind p f).
Proof. intros A B p f. induction p; cbn [pbind ro]; intuition. Qed.
Lemma ro_readonly : forall (p : prog mret), ro p -> readonly mret p.
Proof. induction p; cbn [ro readonly]; auto. Qed.
Lemma ro_load : forall sz a, ro (load sz a).
Proof. intros sz a v. exact Logic.I. Qed.
Lemma ro_load_words : forall n a, ro (load_words a n).
Proof.
  induction n; intro a; cbn [load_words]; [exact Logic.I|].
  apply ro_bind; [apply ro_load|]. intro w. apply ro_bind; [apply IHn|]. intro. exact Logic.I.
Qed.
Lemma ro_read_loop : forall P f k e, ro (read_loop P f k e).
Proof.
  induction f as [|f IH]; intros k e; cbn [read_loop]; [exact Logic.I|].
  destruct (e =? nil32); [exact Logic.I|]. apply ro_bind; [apply ro_load|]. intro x.
  destruct (k =? x).
  - apply ro_bind; [apply ro_load_words|]. intro. exact Logic.I.
  - apply ro_bind; [apply ro_load|]. intro. apply IH.
Qed.
Lemma ro_scan : forall P n i, ro (it_scan P n i).
Proof.
  induction n as [|n IH]; intros i; cbn [it_scan]; [exact Logic.I|].
  apply ro_bind; [apply ro_load|]. intro x. destruct (negb (x =? nil32)); [exact Logic.I|apply IH].
Qed.
Lemma ro_iterate : forall P f it, ro (iterate P f it).
Proof.
  induction f as [|f IH]; intros it; cbn [iterate]; [exact Logic.I|].
  destruct (it_neq it it_end); [|exact Logic.I].
  apply ro_bind; [apply ro_load|]. intro x. apply ro_bind; [apply ro_load_words|]. intro v.
  apply ro_bind.
  - unfold it_next. apply ro_bind; [apply ro_load|]. intro y.
    destruct (negb (y =? nil32)); [exact Logic.I|apply ro_scan].
  - intro it'. apply ro_bind; [apply IH|]. intro. exact Logic.I.
Qed.

Lemma api_readonly : forall P fuel o, lock_of o = Rd -> readonly mret (api P fuel o).
Proof.
  intros P fuel o H. apply ro_readonly. destruct o; try discriminate; cbn [api].
  - apply ro_bind; [|intro; exact Logic.I]. unfold read. destruct (hsize P =? 0); [exact Logic.I|].
    apply ro_bind; [apply ro_load|]. intro. apply ro_read_loop.
  - apply ro_bind; [|intro; exact Logic.I]. unfold map_size, pool_allocated.
    apply ro_bind; [apply ro_load|]. intro. apply ro_bind; [|intro; exact Logic.I].
    unfold stack_used. apply ro_bind; [apply ro_load|]. intro. exact Logic.I.
  - apply ro_bind; [|intro; exact Logic.I]. unfold iteration, it_begin.
    apply ro_bind; [apply ro_scan|]. intro. apply ro_iterate.
Qed.

(** every section and every completed call goes back to a call *)
Lemma exec_called : forall R lim n m0 tr (s : sys R), exec R lim n m0 tr s ->
  (forall i g b u, nth_error (s_procs R s) i = Some (mkProc (Wait g b) u) -> In (ECall i g b) tr)
  /\ (forall i g b0 b u, nth_error (s_procs R s) i = Some (mkProc (Inside g b0 b) u) ->
        In (ECall i g b0) tr)
  /\ (forall i g b r, In (EDone i g b r) tr -> In (ECall i g b) tr)
  /\ (forall i g b, In (ECrash i (Some (g, b))) tr -> In (ECall i g b) tr).
Proof.
  intros R lim n m0 tr s H. induction H as [|tr s e s' H IH HS].
  - split; [|split; [|split]]; try (intros; contradiction); intros; cbn [init s_procs] in *;
      apply nth_error_In, repeat_spec in H; discriminate.
  - destruct IH as (I1 & I2 & I3 & I4).
    assert (L : forall x, In x tr -> In x (tr ++ [e])) by (intros; apply in_or_app; auto).
    assert (Lx : In e (tr ++ [e])) by (apply in_or_app; right; now left).
    split; [|split; [|split]].
    + intros i g b u Hi. inversion HS; subst; cbn [s_procs] in *;
        apply (upd_get _ _ _ _ _ _ _ H0) in Hi; destruct Hi as [(<- & X)|(_ & X)];
        try discriminate; try (apply L; eapply I1; eauto; fail).
      injection X as <- <- <-. auto.
    + intros i g b0 b u Hi. inversion HS; subst; cbn [s_procs] in *;
        apply (upd_get _ _ _ _ _ _ _ H0) in Hi; destruct Hi as [(<- & X)|(_ & X)];
        try discriminate; try (apply L; eapply I2; eauto; fail).
      * injection X as <- <- _ _. apply L. eapply I1; eauto.
      * injection X as <- <- _ _. apply L. eapply I2; eauto.
    + intros i g b r Hi. apply in_app_or in Hi. destruct Hi as [Hi|[->|[]]]; [apply L; eauto|].
      inversion HS; subst. apply L. eapply I2; eauto.
    + intros i g b Hi. apply in_app_or in Hi. destruct Hi as [Hi|[->|[]]]; [apply L; eauto|].
      inversion HS; subst. destruct p; try discriminate. cbn [section_of] in *.
      injection H1 as <- <-. apply in_or_app. left. eapply I2; eauto.
Qed.


Lemma trace_shows : forall P fuel tr,
  (forall i g b r, In (EDone i g b r) tr ->
     exists o, mwf P o /\ g = lock_of o /\ b = api P fuel o) ->
  (forall i b, In (ECrash i (Some (Wr, b))) tr ->
     exists o l, mwf P o /\ died_batch o = Some l /\ b = api P fuel o) ->
  exists l, shows P fuel tr l.
Proof.
  intros P fuel. induction tr as [|e tr IH]; intros H1 H2.
  - exists []. constructor.
  - destruct IH as (l & Hl).
    { intros. apply (H1 i g b r). now right. }
    { intros. apply (H2 i b). now right. }
    destruct e as [i g b|i|i|i|i g b r|i w].
    1-4: exists l; apply sh_other; auto.
    + destruct (H1 i g b r) as (o & A & -> & ->); [now left|].
      exists (Did o r :: l). constructor; auto.
    + destruct w as [(g, b)|]; [destruct g|].
      * exists l. apply sh_other; auto.
      * destruct (H2 i b) as (o & d & A & B & ->); [now left|].
        exists (Died d :: l). econstructor; eauto.
      * exists l. apply sh_other; auto.
Qed.

Lemma linear : forall P fuel n m0 tr s0 lk0 sy, fits P -> (Z.to_nat (nobj P) < fuel)%nat ->
  State P s0 lk0 m0 -> exec mret (required_space P) n m0 tr sy -> api_trace P fuel tr ->
  exists l lk s, shows P fuel tr l /\ cruns (nobj P) lk0 s0 l lk s.
Proof.
  intros P fuel n m0 tr s0 lk0 sy HP Hf HS HE (A1 & A2).
  destruct (exec_called _ _ _ _ _ _ HE) as (_ & _ & C3 & C4).
  destruct (trace_shows P fuel tr) as (l & Hl).
  { intros i g b r Hi. apply (A1 i). eauto. }
  { auto. }
  destruct (minv_exec _ _ _ _ _ _ HE) as (m1 & Hser & _).
  { intros i b Hi. destruct (A1 i Rd b Hi) as (o & _ & E & ->). apply api_readonly. auto. }
  destruct (serial_shows P HP fuel Hf _ _ _ Hser l s0 lk0 Hl HS) as (lk & s & HC & _).
  eauto.
Qed.
