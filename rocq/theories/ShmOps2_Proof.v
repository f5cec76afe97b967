(** Batches, size, clear, attach and iteration of the shared hash map. *)

From Coq Require Import ZArith List Bool Lia Permutation.
From Verif Require Import Base Shm_Model Shm_Spec Shm_Proof ShmMap_Proof ShmOps_Proof.
Import ListNotations.
Local Open Scope Z_scope.

Definition anym : mem -> Prop := fun _ => True.

Section Ops2.
Variable P : tpar.
Hypothesis HP : fits P.
Notation N := (nobj P).
Notation hs := (hsize P).
Notation ns := (node_size P).
Notation lim := (required_space P).
Notation State := (State P).
Notation Holds := (Holds P).

(** *** Batches *)

(** number of successful operations of a batch *)
Fixpoint put_count (cap : Z) (s l : fmap) : nat :=
  match l with
  | [] => 0
  | (k, v) :: l =>
      (if fst (put1 cap s k v) then 1 else 0) + put_count cap (snd (put1 cap s k v)) l
  end.

Lemma put_count_le : forall cap l s, (put_count cap s l <= length l)%nat.
Proof.
  induction l as [|(k, v) l IH]; intro s; cbn [put_count length]; auto.
  specialize (IH (snd (put1 cap s k v))). destruct (fst (put1 cap s k v)); lia.
Qed.
Lemma put_count_all : forall cap l s,
  fst (put_all cap s l) = (put_count cap s l =? length l)%nat.
Proof.
  induction l as [|(k, v) l IH]; intro s; cbn [put_count put_all length]; auto.
  destruct (put1 cap s k v) as (b, s1) eqn:E. cbn [fst snd].
  specialize (IH s1). destruct (put_all cap s1 l) as (b', s2). cbn [fst] in *. subst b'.
  pose proof (put_count_le cap l s1).
  destruct b; cbn [andb]; auto. symmetry. apply Nat.eqb_neq. lia.
Qed.

Lemma insert_batch_ok : forall lk fuel l s m acc, State s lk m -> (Z.to_nat N < fuel)%nat ->
  Forall (fun e => length (snd e) = words P) l ->
  wp lim anym (insert_batch P fuel l acc) m
    (fun n m' => State (snd (put_all (N - lk) s l)) lk m'
                 /\ n = acc + Z.of_nat (put_count (N - lk) s l)).
Proof.
  induction l as [|(k, v) l IH]; intros s m acc HS Hf HF; cbn [insert_batch put_all put_count].
  - apply wp_ret. { exact Logic.I. } cbn [snd]. split; auto. lia.
  - inversion HF as [|? ? Hv HF']; subst. cbn [snd] in Hv.
    apply wp_bind.
    apply (wp_mono _ _ _ _ _ _ _ _ (insert_ok P HP s lk m k v fuel HS Hv Hf)).
    { intros; exact Logic.I. }
    intros b m1 _ (HS1 & Hb). destruct (put1 (N - lk) s k v) as (b1, s1) eqn:E.
    cbn [fst snd] in *. subst b.
    apply (wp_mono _ _ _ _ _ _ _ _ (IH s1 m1 _ HS1 Hf HF')). { auto. }
    intros n m2 _ (HS2 & Hn). destruct (put_all (N - lk) s1 l) as (b2, s2). cbn [snd] in *.
    split; auto. destruct b1; lia.
Qed.

Lemma insert_many_ok : forall lk fuel l s m, State s lk m -> (Z.to_nat N < fuel)%nat ->
  Forall (fun e => length (snd e) = words P) l ->
  wp lim anym (insert_many P fuel l) m
    (fun b m' => State (snd (put_all (N - lk) s l)) lk m' /\ b = fst (put_all (N - lk) s l)).
Proof.
  intros lk fuel l s m HS Hf HF. unfold insert_many. apply wp_bind.
  apply (wp_mono _ _ _ _ _ _ _ _ (insert_batch_ok lk fuel l s m 0 HS Hf HF)). { auto. }
  intros n m' _ (HS' & Hn). apply wp_ret. { exact Logic.I. } split; auto.
  rewrite put_count_all. subst n.
  destruct (Nat.eqb_spec (put_count (N - lk) s l) (length l)); [apply Z.eqb_eq | apply Z.eqb_neq]; lia.
Qed.

Fixpoint del_count (s : fmap) (l : list Z) : nat :=
  match l with
  | [] => 0
  | k :: l => (if has s k then 1 else 0) + del_count (del s k) l
  end.
Lemma del_count_le : forall l s, (del_count s l <= length l)%nat.
Proof.
  induction l as [|k l IH]; intro s; cbn [del_count length]; auto.
  specialize (IH (del s k)). destruct (has s k); lia.
Qed.
Lemma del_count_all : forall l s, fst (del_all s l) = (del_count s l =? length l)%nat.
Proof.
  induction l as [|k l IH]; intro s; cbn [del_count del_all length]; auto.
  unfold del1. specialize (IH (del s k)). destruct (del_all (del s k) l) as (b', s2).
  cbn [fst] in *. subst b'. pose proof (del_count_le l (del s k)).
  destruct (has s k); cbn [andb]; auto. symmetry. apply Nat.eqb_neq. lia.
Qed.

Lemma erase_batch_ok : forall lk fuel l s m acc, State s lk m -> (Z.to_nat N < fuel)%nat ->
  wp lim anym (erase_batch P fuel l acc) m
    (fun n m' => State (snd (del_all s l)) lk m' /\ n = acc + Z.of_nat (del_count s l)).
Proof.
  induction l as [|k l IH]; intros s m acc HS Hf; cbn [erase_batch del_all del_count].
  - apply wp_ret. { exact Logic.I. } cbn [snd]. split; auto. lia.
  - apply wp_bind.
    apply (wp_mono _ _ _ _ _ _ _ _ (erase_ok P HP s lk m k fuel HS Hf)).
    { intros; exact Logic.I. }
    intros b m1 _ (HS1 & Hb). subst b. unfold del1.
    apply (wp_mono _ _ _ _ _ _ _ _ (IH (del s k) m1 _ HS1 Hf)). { auto. }
    intros n m2 _ (HS2 & Hn). destruct (del_all (del s k) l) as (b2, s2). cbn [snd] in *.
    split; auto. destruct (has s k); lia.
Qed.

Lemma erase_many_ok : forall lk fuel l s m, State s lk m -> (Z.to_nat N < fuel)%nat ->
  wp lim anym (erase_many P fuel l) m
    (fun b m' => State (snd (del_all s l)) lk m' /\ b = fst (del_all s l)).
Proof.
  intros lk fuel l s m HS Hf. unfold erase_many. apply wp_bind.
  apply (wp_mono _ _ _ _ _ _ _ _ (erase_batch_ok lk fuel l s m 0 HS Hf)). { auto. }
  intros n m' _ (HS' & Hn). apply wp_ret. { exact Logic.I. } split; auto.
  rewrite del_count_all. subst n.
  destruct (Nat.eqb_spec (del_count s l) (length l)); [apply Z.eqb_eq | apply Z.eqb_neq]; lia.
Qed.

(** *** size *)

Lemma size_run : forall s lk m, State s lk m ->
  run lim (map_size P) m = Ok (Z.of_nat (length s) + lk, m).
Proof.
  intros s lk m (ch & fs & cur & HI & Hlk & Hp). unfold map_size.
  pose proof (iv_len _ _ _ _ _ _ HI) as HL.
  rewrite (run_allocated lim _ ns m fs cur).
  - do 2 f_equal. rewrite <- (Permutation_length Hp). unfold entries. rewrite map_length. lia.
  - apply the_pool_ok; auto.
  - apply (iv_pool _ _ _ _ _ _ HI).
  - lia.
Qed.

(** *** The hash array is filled *)

Fixpoint fill_mem (m : mem) (n : nat) (i : Z) : mem :=
  match n with O => m | S n => fill_mem (mset m (a_bucket P i) nil32) n (i + 1) end.

Lemma fill_run : forall n i m, 0 <= i -> i + Z.of_nat n <= hs ->
  run lim (hash_fill P n i) m = Ok (tt, fill_mem m n i).
Proof.
  induction n as [|n IH]; intros i m Hi Hn; cbn [hash_fill fill_mem]; auto.
  rewrite run_bind, run_store by (apply inb_bucket; auto; lia). cbn [bind]. apply IH; lia.
Qed.
Lemma fill_other : forall n i m a,
  (forall h, i <= h < i + Z.of_nat n -> a <> a_bucket P h) -> fill_mem m n i a = m a.
Proof.
  induction n as [|n IH]; intros i m a Ha; cbn [fill_mem]; auto.
  rewrite IH by (intros h Hh; apply Ha; lia). apply mset_other. apply Ha. lia.
Qed.
Lemma fill_in : forall n i m h, i <= h < i + Z.of_nat n -> fill_mem m n i (a_bucket P h) = nil32.
Proof.
  induction n as [|n IH]; intros i m h Hh; cbn [fill_mem]; [lia|].
  destruct (Z.eq_dec h i) as [->|].
  - rewrite fill_other. { apply mset_same. } intros x Hx E. apply bucket_inj in E. lia.
  - apply IH. lia.
Qed.
Lemma fill_low : forall m a, a < a_hash P -> fill_mem m (Z.to_nat hs) 0 a = m a.
Proof. intros m a Ha. apply fill_other. intros h Hh. unfold a_bucket. lia. Qed.

Lemma nodes_nil : ShmMap_Proof.nodes P (fun _ => []) = [].
Proof. unfold ShmMap_Proof.nodes. induction (buckets P); auto. Qed.

Lemma low_lt_hash : forall a, a < a_objs P -> a < a_hash P.
Proof.
  intros. pose proof (regions P HP) as (G1 & G2 & G3 & G4 & _).
  pose proof (node_facts P) as (_ & _ & _ & _ & NF). destruct HP. nia.
Qed.

(** an empty map: headers right, buckets empty, pool empty *)
Lemma empty_state : forall m,
  m 0 = N -> m 4 = wsz P -> m 8 = hs -> pool_rep (the_pool P) ns m [] 0 ->
  (forall h, 0 <= h < hs -> m (a_bucket P h) = nil32) -> State [] 0 m.
Proof.
  intros m H1 H2 H3 HR HB. exists (fun _ => []), [], 0.
  split; [|split; [lia|unfold entries; rewrite nodes_nil; reflexivity]].
  constructor; auto.
  - constructor; try rewrite nodes_nil.
    + intros h Hh. cbn. auto.
    + constructor.
    + intros i [].
    + intros h i _ [].
    + intros h _. cbn. constructor.
  - rewrite nodes_nil. constructor.
  - rewrite nodes_nil. intros i [].
  - rewrite nodes_nil. cbn. lia.
Qed.

(** *** clear *)

Lemma clear_ok : forall s lk m, State s lk m ->
  exists m', run lim (clear P) m = Ok (tt, m') /\ State [] 0 m'.
Proof.
  intros s lk m (ch & fs & cur & HI & Hlk & Hp).
  pose proof (the_pool_ok P HP) as HO. pose proof HP as (P1 & P2 & P3).
  pose proof (regions P HP) as (G1 & G2 & G3 & G4 & _).
  unfold clear. rewrite run_bind, (run_pool_clear lim) by auto. cbn [bind].
  rewrite fill_run by lia. eexists. split; [reflexivity|].
  set (m1 := pool_clear_mem (the_pool P) m).
  assert (Lo : forall a, a < a_objs P -> fill_mem m1 (Z.to_nat hs) 0 a = m1 a).
  { intros a Ha. apply fill_low. now apply low_lt_hash. }
  assert (H0 : forall a, a < 12 -> m1 a = m a).
  { intros a Ha. unfold m1, pool_clear_mem. change (p_cur (the_pool P)) with 20.
    change (s_cur (p_free (the_pool P))) with 32. rewrite !mset_other by lia. auto. }
  destruct (iv_hdr _ _ _ _ _ _ HI) as (D1 & D2 & D3).
  apply empty_state.
  - rewrite Lo, H0 by lia. auto.
  - rewrite Lo, H0 by lia. auto.
  - rewrite Lo, H0 by lia. auto.
  - apply (pool_rep_frame lim _ _ m1); auto.
    + unfold m1. apply (pool_clear_rep lim _ _ _ fs cur); auto. apply (iv_pool _ _ _ _ _ _ HI).
    + intros a Ha. apply Lo. apply (pool_cell_low P HP) in Ha. lia.
  - intros h Hh. apply fill_in. lia.
Qed.

(** *** attach *)


Lemma attach_new : forall m, zeroed m ->
  exists m', run lim (attach P) m = Ok (Some (the_pool P), m') /\ State [] 0 m'.
Proof.
  intros m Hz. pose proof (the_pool_ok P HP) as HO. pose proof HP as (P1 & P2 & P3).
  pose proof (regions P HP) as (G1 & G2 & G3 & G4 & _).
  assert (E0 : inb lim 4 0 = true) by (apply inb_low; auto; lia).
  assert (E4 : inb lim 4 4 = true) by (apply inb_low; auto; lia).
  assert (E8 : inb lim 4 8 = true) by (apply inb_low; auto; lia).
  unfold attach.
  rewrite run_bind, run_load by auto. cbn [bind].
  rewrite run_bind, run_load by auto. cbn [bind].
  rewrite run_bind, run_load by auto. cbn [bind].
  rewrite !Hz by lia. cbn [Z.eqb andb].
  rewrite run_bind, run_store by auto. cbn [bind].
  rewrite run_bind, run_store by auto. cbn [bind].
  rewrite run_bind, run_store by auto. cbn [bind].
  rewrite run_bind, fill_run by lia. cbn [bind].
  set (m0 := mset (mset (mset m 0 N) 4 (wsz P)) 8 hs).
  set (m1 := fill_mem m0 (Z.to_nat hs) 0).
  assert (Lo : forall a, a < a_objs P -> m1 a = m0 a).
  { intros a Ha. apply fill_low. now apply low_lt_hash. }
  assert (Z1 : forall a, 12 <= a < 1024 -> m1 a = 0).
  { intros a Ha. rewrite Lo by lia. unfold m0. rewrite !mset_other by lia. apply Hz. lia. }
  pose proof (run_pool_attach_new lim (the_pool P) ns m1 HO) as X.
  cbn [the_pool p_num p_res p_isz p_free p_dat s_dat s_res s_isz] in X.
  rewrite X by (apply Z1; unfold a_pool; lia).
  eexists. split; [reflexivity|].
  set (m2 := pool_init _ _ _).
  assert (Hi : forall a, a < 12 \/ a_objs P <= a -> m2 a = m1 a).
  { intros a Ha. unfold m2, pool_init, stack_init.
    cbn [the_pool p_num p_res p_isz p_cur p_free p_dat s_dat s_res s_isz s_cur s_num s_words].
    unfold a_pool. rewrite !mset_other by lia. auto. }
  apply empty_state.
  - rewrite Hi, Lo by lia. reflexivity.
  - rewrite Hi, Lo by lia. reflexivity.
  - rewrite Hi, Lo by lia. reflexivity.
  - apply (pool_init_rep lim (the_pool P) ns m1 HO).
  - intros h Hh. rewrite Hi.
    + apply fill_in. lia.
    + right. unfold a_bucket. pose proof (low_lt_hash (a_objs P - 1)). lia.
Qed.

Lemma attach_old : forall s lk m, State s lk m ->
  run lim (attach P) m = Ok (Some (the_pool P), m).
Proof.
  intros s lk m (ch & fs & cur & HI & Hlk & Hp).
  pose proof (the_pool_ok P HP) as HO. pose proof HP as (P1 & P2 & P3).
  assert (E0 : inb lim 4 0 = true) by (apply inb_low; auto; lia).
  assert (E4 : inb lim 4 4 = true) by (apply inb_low; auto; lia).
  assert (E8 : inb lim 4 8 = true) by (apply inb_low; auto; lia).
  destruct (iv_hdr _ _ _ _ _ _ HI) as (D1 & D2 & D3).
  unfold attach.
  rewrite run_bind, run_load by auto. cbn [bind].
  rewrite run_bind, run_load by auto. cbn [bind].
  rewrite run_bind, run_load by auto. cbn [bind].
  rewrite D1, D2, D3. destruct (Z.eqb_spec hs 0); [lia|]. rewrite !andb_false_r.
  rewrite !Z.eqb_refl. cbn [negb orb].
  pose proof (run_pool_attach_old lim (the_pool P) ns m fs cur HO (iv_pool _ _ _ _ _ _ HI)) as X.
  cbn [the_pool p_num p_res p_isz p_free p_dat s_dat s_res s_isz] in X.
  apply X. pose proof (node_facts P) as (_ & _ & _ & _ & NF). lia.
Qed.

(** another instantiation of the template is refused and nothing is changed *)
Lemma attach_mismatch : forall m,
  (m 0 <> 0 \/ m 4 <> 0 \/ m 8 <> 0) -> (m 0 <> N \/ m 4 <> wsz P \/ m 8 <> hs) ->
  run lim (attach P) m = Ok (None, m).
Proof.
  intros m H1 H2. pose proof HP as (P1 & P2 & P3).
  assert (E0 : inb lim 4 0 = true) by (apply inb_low; auto; lia).
  assert (E4 : inb lim 4 4 = true) by (apply inb_low; auto; lia).
  assert (E8 : inb lim 4 8 = true) by (apply inb_low; auto; lia).
  unfold attach.
  rewrite run_bind, run_load by auto. cbn [bind].
  rewrite run_bind, run_load by auto. cbn [bind].
  rewrite run_bind, run_load by auto. cbn [bind].
  destruct (Z.eqb_spec (m 0) 0), (Z.eqb_spec (m 4) 0), (Z.eqb_spec (m 8) 0);
    cbn [andb]; try (exfalso; tauto);
    (destruct (Z.eqb_spec (m 0) N), (Z.eqb_spec (m 4) (wsz P)), (Z.eqb_spec (m 8) hs);
     cbn [negb orb run]; try (exfalso; tauto); reflexivity).
Qed.

(** *** Iteration *)

Fixpoint zfrom (n : nat) (i : Z) : list Z :=
  match n with O => [] | S n => i :: zfrom n (i + 1) end.

Lemma zfrom_buckets : buckets P = zfrom (Z.to_nat hs) 0.
Proof.
  unfold buckets, zrange. assert (G : forall n k, map Z.of_nat (seq k n) = zfrom n (Z.of_nat k)).
  { induction n as [|n IH]; intro k; cbn [seq map zfrom]; auto. f_equal. rewrite IH. f_equal. lia. }
  apply (G _ 0%nat).
Qed.

Section Iter.
Variable m : mem.
Variable ch : Z -> list Z.
Hypothesis HC : Cont P m ch.

(** the buckets behind [h] *)
Definition after (h : Z) : list Z := flat_map ch (zfrom (Z.to_nat (hs - (h + 1))) (h + 1)).

(** the iterator stands before the nodes [rem] *)
Definition itat (it : iter) (rem : list Z) : Prop :=
  (rem = [] /\ it = it_end)
  \/ exists h x l1 l2, it = (h, x) /\ 0 <= h < hs /\ ch h = l1 ++ x :: l2
       /\ rem = x :: l2 ++ after h.

Lemma scan_ok : forall n i, 0 <= i -> i + Z.of_nat n = hs ->
  wp lim anym (it_scan P n i) m
    (fun it m' => m' = m /\ itat it (flat_map ch (zfrom n i))).
Proof.
  induction n as [|n IH]; intros i Hi Hn; cbn [it_scan zfrom flat_map].
  - apply wp_ret. { exact Logic.I. } split; auto. left. auto.
  - assert (Hh : 0 <= i < hs) by lia.
    apply wp_bind, wp_load; try exact Logic.I. { apply inb_bucket; auto. }
    pose proof (ct_ch _ _ _ HC i Hh) as C. destruct (ch i) as [|x l] eqn:E; cbn [chain] in C.
    + rewrite C, Z.eqb_refl. cbn [negb app]. apply IH; lia.
    + destruct C as (C1 & C2). rewrite C1.
      assert (Hx : 0 <= x < N).
      { apply (ct_chain_in P HP _ _ i _ HC); auto. rewrite E. now left. }
      destruct (Z.eqb_spec x nil32) as [Y|_]; [exfalso; revert Y; apply (N_nil P HP); auto|].
      cbn [negb]. apply wp_ret. { exact Logic.I. } split; auto. right.
      exists i, x, [], l. split; auto. split; auto. split; auto.
      unfold after. replace (Z.to_nat (hs - (i + 1))) with n by lia. reflexivity.
Qed.

Lemma next_ok : forall h x l1 l2, 0 <= h < hs -> ch h = l1 ++ x :: l2 ->
  wp lim anym (it_next P (h, x)) m (fun it m' => m' = m /\ itat it (l2 ++ after h)).
Proof.
  intros h x l1 l2 Hh E. unfold it_next. cbn [fst snd].
  assert (Hx : 0 <= x < N).
  { apply (ct_chain_in P HP _ _ h _ HC); auto. rewrite E. apply in_or_app. right. now left. }
  apply wp_bind, wp_load; try exact Logic.I. { apply inb_next; auto. }
  pose proof (ct_ch _ _ _ HC h Hh) as C. rewrite E in C. apply chain_split in C.
  cbn [chain] in C. destruct C as (C1 & C2).
  destruct l2 as [|y l2]; cbn [chain] in C2.
  - rewrite C2, Z.eqb_refl. cbn [negb app]. unfold after.
    apply scan_ok; lia.
  - destruct C2 as (C2 & C3). rewrite C2.
    assert (Hy : 0 <= y < N).
    { apply (ct_chain_in P HP _ _ h _ HC); auto. rewrite E. apply in_or_app. right. right. now left. }
    destruct (Z.eqb_spec y nil32) as [Y|_]; [exfalso; revert Y; apply (N_nil P HP); auto|].
    cbn [negb]. apply wp_ret. { exact Logic.I. } split; auto. right.
    exists h, y, (l1 ++ [x]), l2. rewrite <- app_assoc. auto.
Qed.

Lemma iterate_ok : forall rem it fuel, itat it rem -> (length rem < fuel)%nat ->
  wp lim anym (iterate P fuel it) m (fun l m' => m' = m /\ l = map (entry P m) rem).
Proof.
  induction rem as [|x rem IH]; intros it fuel HA Hf;
    (destruct fuel as [|fuel]; [cbn [length] in Hf; lia|]); cbn [iterate].
  - destruct HA as [(_ & ->)|(h & x & l1 & l2 & _ & _ & _ & X)]; [|discriminate].
    apply wp_ret. { exact Logic.I. } auto.
  - destruct HA as [(X & _)|(h & y & l1 & l2 & -> & Hh & E & X)]; [discriminate|].
    injection X as <- ->.
    assert (Hx : 0 <= x < N).
    { apply (ct_chain_in P HP _ _ h _ HC); auto. rewrite E. apply in_or_app. right. now left. }
    assert (Hne : it_neq (h, x) it_end = true).
    { unfold it_neq, it_end. cbn [fst snd].
      destruct (Z.eqb_spec h nil32) as [Y|]; auto. exfalso. rewrite nil32_val in Y.
      destruct HP as (_ & HH & _). lia. }
    rewrite Hne. cbn [fst snd].
    apply wp_bind, wp_load; try exact Logic.I. { apply inb_key; auto. }
    apply wp_bind, wp_load_words; try exact Logic.I. { apply wrange_val; auto. }
    apply wp_bind.
    apply (wp_mono _ _ _ _ _ _ _ _ (next_ok h x l1 l2 Hh E)). { auto. }
    intros it' m' _ (-> & HA'). apply wp_bind.
    cbn [length] in Hf.
    assert (Hf' : (length (l2 ++ after h) < fuel)%nat) by lia.
    apply (wp_mono _ _ _ _ _ _ _ _ (IH it' fuel HA' Hf')). { auto. }
    intros l m' _ (-> & ->). apply wp_ret. { exact Logic.I. } split; auto.
Qed.

End Iter.

Lemma iteration_ok : forall s m fuel, Holds s m -> (Z.to_nat N < fuel)%nat ->
  exists l, run lim (iteration P fuel) m = Ok (l, m) /\ Permutation l s.
Proof.
  intros s m fuel (ch & HC & Hp) Hf. pose proof HP as (P1 & P2 & P3).
  assert (Hlen : (length (nodes P ch) < fuel)%nat).
  { pose proof (len_in_le (nodes P ch) N (ct_nd _ _ _ HC) (ct_in _ _ _ HC)). lia. }
  assert (W : wp lim anym (iteration P fuel) m (fun l m' => m' = m /\ l = entries P m ch)).
  { unfold iteration, it_begin. apply wp_bind.
    apply (wp_mono _ _ _ _ _ _ _ _
      (scan_ok m ch HC (Z.to_nat hs) 0 ltac:(lia) ltac:(lia))). { auto. }
    intros it m' _ (-> & HA). unfold entries, nodes in *. rewrite zfrom_buckets in *.
    apply iterate_ok with (ch := ch); auto. }
  destruct (wp_run _ _ _ _ _ _ W) as (l & m' & E & -> & ->). eauto.
Qed.

End Ops2.
