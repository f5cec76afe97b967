(** Lemmas about the shared hash map: layout, invariant, and what each operation does to it. *)

From Coq Require Import ZArith List Bool Lia Permutation.
From Verif Require Import Base Shm_Model Shm_Spec Shm_Proof.
Import ListNotations.
Local Open Scope Z_scope.

(** *** Reasoning about every intermediate memory of a program.
    [wp I p m Q]: the program makes no undefined access, [I] holds of the memory before and
    after every load and store, and [Q] holds of the result and the final memory. *)
Fixpoint wp {A} (lim : Z) (I : mem -> Prop) (p : prog A) (m : mem) (Q : A -> mem -> Prop) : Prop :=
  I m /\
  match p with
  | Ret a => Q a m
  | Load sz a k => inb lim sz a = true /\ wp lim I (k (m a)) m Q
  | Store sz a v k => inb lim sz a = true /\ wp lim I k (mset m a v) Q
  | Stop _ | Spin => False
  end.

Lemma wp_here : forall A lim I (p : prog A) m Q, wp lim I p m Q -> I m.
Proof. intros A lim I [a|sz a k|sz a v k|u|] m Q H; destruct H; auto. Qed.

Lemma wp_bind : forall A B lim I (p : prog A) (f : A -> prog B) m Q,
  wp lim I p m (fun a m' => wp lim I (f a) m' Q) -> wp lim I (pbind p f) m Q.
Proof.
  induction p as [a|sz a k IH|sz a v k IH|u|]; intros f m Q (HI & H); cbn [pbind wp] in *; auto.
  - destruct H. split; auto.
  - destruct H. split; auto.
Qed.

Lemma wp_mono : forall A lim (I J : mem -> Prop) (p : prog A) m (Q R : A -> mem -> Prop),
  wp lim I p m Q -> (forall x, I x -> J x) -> (forall a x, I x -> Q a x -> R a x) ->
  wp lim J p m R.
Proof.
  induction p as [a|sz a k IH|sz a v k IH|u|]; intros m Q R (HI & H) HJ HQ; cbn [wp] in *; auto.
  - destruct H as (E & H). split; auto. split; auto. apply (IH _ _ Q); auto.
  - destruct H as (E & H). split; auto. split; auto. apply (IH _ Q); auto.
Qed.

Lemma wp_run : forall A lim I (p : prog A) m Q, wp lim I p m Q ->
  exists a m', run lim p m = Ok (a, m') /\ Q a m'.
Proof.
  induction p as [a|sz a k IH|sz a v k IH|u|]; intros m Q (HI & H); cbn [run]; try easy.
  - eauto.
  - destruct H as (E & H). rewrite E. eauto.
  - destruct H as (E & H). rewrite E. eauto.
Qed.

Lemma wp_run_eq : forall A lim I (p : prog A) m Q a m', wp lim I p m Q ->
  run lim p m = Ok (a, m') -> Q a m'.
Proof.
  intros. destruct (wp_run _ _ _ _ _ _ H) as (a1 & m1 & E & HQ). rewrite E in H0.
  injection H0 as <- <-. auto.
Qed.

Lemma wp_psteps : forall A lim I (p : prog A) m Q p' m', wp lim I p m Q ->
  psteps lim p m p' m' -> wp lim I p' m' Q.
Proof.
  intros A lim I p m Q p' m' H HS. induction HS as [|p m p1 m1 p2 m2 HS IH H1]; auto.
  specialize (IH H). inversion H1; subst; cbn [wp] in IH; tauto.
Qed.

(** a finished program has done what it does alone *)
Lemma psteps_run : forall A lim (p : prog A) m p' m', psteps lim p m p' m' ->
  run lim p m = run lim p' m'.
Proof.
  intros A lim p m p' m' HS. induction HS as [|p m p1 m1 p2 m2 HS IH H1]; auto.
  rewrite IH. inversion H1; subst; cbn [run]; rewrite H; auto.
Qed.

Lemma wp_load : forall lim (I : mem -> Prop) sz a m (Q : Z -> mem -> Prop),
  inb lim sz a = true -> I m -> Q (m a) m -> wp lim I (load sz a) m Q.
Proof. intros. cbn. auto. Qed.
Lemma wp_store : forall lim (I : mem -> Prop) sz a v m (Q : unit -> mem -> Prop),
  inb lim sz a = true -> I m -> I (mset m a v) -> Q tt (mset m a v) ->
  wp lim I (store sz a v) m Q.
Proof. intros. cbn. auto. Qed.
Lemma wp_ret : forall A lim (I : mem -> Prop) (x : A) m (Q : A -> mem -> Prop),
  I m -> Q x m -> wp lim I (Ret x) m Q.
Proof. intros. cbn. auto. Qed.

Lemma wp_load_words : forall lim (I : mem -> Prop) n a m (Q : list Z -> mem -> Prop),
  wrange lim a n -> I m -> Q (rdw m a n) m -> wp lim I (load_words a n) m Q.
Proof.
  unfold wrange. induction n as [|n IH]; intros a m Q (H1 & H2 & H3) HI HQ;
    cbn [load_words rdw] in *.
  - now apply wp_ret.
  - apply wp_bind, wp_load; auto. { apply inb_true; auto; lia. }
    apply wp_bind, IH; auto.
    + split; [lia|]. split; [now apply mod4_step | lia].
    + now apply wp_ret.
Qed.

Lemma wp_store_words : forall lim (I : mem -> Prop) ws a m (Q : unit -> mem -> Prop),
  wrange lim a (length ws) ->
  (forall ws1 ws2, ws = ws1 ++ ws2 -> I (mwords m a ws1)) ->
  Q tt (mwords m a ws) -> wp lim I (store_words a ws) m Q.
Proof.
  unfold wrange. induction ws as [|w ws IH]; intros a m Q (H1 & H2 & H3) HI HQ;
    cbn [store_words mwords length] in *.
  - apply wp_ret; auto. apply (HI [] []). reflexivity.
  - apply wp_bind, wp_store.
    + apply inb_true; auto; lia.
    + apply (HI [] (w :: ws)). reflexivity.
    + apply (HI [w] ws). reflexivity.
    + apply IH; auto.
      * split; [lia|]. split; [now apply mod4_step | lia].
      * intros ws1 ws2 E. apply (HI (w :: ws1) ws2). rewrite E. reflexivity.
Qed.

(** *** Layout *)

Lemma floor1024_val : forall p, 0 <= p <= 2^32 - 1024 ->
  floor1024 p = 1024 * ((p + 1023) / 1024).
Proof.
  intros p Hp. unfold floor1024. rewrite (u32_small p) by lia. rewrite u32_small by lia.
  set (x := p + 1023) in *.
  replace (2^32 - 1024) with (Z.shiftl (Z.ones 22) 10) by reflexivity.
  replace (1024 * (x / 1024)) with (Z.shiftl (Z.shiftr x 10) 10)
    by (rewrite Z.shiftl_mul_pow2, Z.shiftr_div_pow2 by lia; change (2^10) with 1024; lia).
  apply Z.bits_inj'. intros n Hn.
  rewrite Z.land_spec, !Z.shiftl_spec by lia.
  destruct (Z.ltb_spec n 10).
  - rewrite !(Z.testbit_neg_r _ (n - 10)) by lia. now rewrite andb_false_r.
  - rewrite Z.testbit_ones by lia. rewrite Z.shiftr_spec by lia.
    replace (n - 10 + 10) with n by lia.
    destruct (Z.ltb_spec (n - 10) 22).
    + destruct (Z.leb_spec 0 (n - 10)); [|lia]. cbn. now rewrite andb_true_r.
    + rewrite andb_false_r, andb_false_r. symmetry.
      apply Z.bits_above_log2; [lia|].
      destruct (Z.eq_dec x 0) as [->|]; [cbn; lia|].
      assert (x < 2^32) by lia. apply Z.log2_lt_pow2; try lia.
      apply Z.lt_le_trans with (2^32); auto. apply Z.pow_le_mono_r; lia.
Qed.

Lemma floor1024_bound : forall p, 0 <= p <= 2^32 - 1024 ->
  p <= floor1024 p < p + 1024 /\ floor1024 p mod 1024 = 0.
Proof.
  intros p Hp. rewrite floor1024_val by auto. split.
  - pose proof (Z.div_mod (p + 1023) 1024). pose proof (Z.mod_pos_bound (p + 1023) 1024). lia.
  - rewrite Z.mul_comm. apply Z_mod_mult.
Qed.


Section Layout.
Variable P : tpar.
Hypothesis HP : fits P.
Notation N := (nobj P).
Notation hs := (hsize P).
Notation ns := (node_size P).
Notation lim := (required_space P).

Lemma node_facts : 8 + wsz P <= o_next P /\ o_next P mod 8 = 0 /\ ns = o_next P + 8
  /\ ns mod 8 = 0 /\ 16 <= ns.
Proof.
  unfold node_size, o_next, wsz.
  pose proof (Z.div_mod (8 + 4 * Z.of_nat (words P) + 7) 8).
  pose proof (Z.mod_pos_bound (8 + 4 * Z.of_nat (words P) + 7) 8).
  split; [lia|]. split; [apply Z_mod_mult|]. split; [reflexivity|]. split; [|lia].
  rewrite <- Zplus_mod_idemp_l, Z_mod_mult. reflexivity.
Qed.

Lemma layout_facts : header_sz = 1024
  /\ 4 * N <= stacks_sz P < 4 * N + 1024 /\ stacks_sz P mod 1024 = 0
  /\ N * ns <= data_sz P < N * ns + 1024 /\ data_sz P mod 1024 = 0.
Proof.
  destruct HP as (H1 & H2 & H3). pose proof node_facts.
  split; [reflexivity|].
  unfold stacks_sz, data_sz, pool_stack_size, pool_data_size. rewrite sds1.
  destruct (floor1024_bound (4 * N)) as (A & B); [lia|].
  destruct (floor1024_bound (ns * N)) as (C & D); [nia|].
  rewrite (Z.mul_comm N ns). auto.
Qed.

Lemma mod_1024_4 : forall a, a mod 1024 = 0 -> a mod 4 = 0.
Proof.
  intros a H0. apply Z.mod_divide; try lia. apply Z.mod_divide in H0; try lia.
  destruct H0 as (q & ->). exists (q * 256). lia.
Qed.
Lemma mod_1024_8 : forall a, a mod 1024 = 0 -> a mod 8 = 0.
Proof.
  intros a H0. apply Z.mod_divide; try lia. apply Z.mod_divide in H0; try lia.
  destruct H0 as (q & ->). exists (q * 128). lia.
Qed.
Lemma mod_8_4 : forall a, a mod 8 = 0 -> a mod 4 = 0.
Proof.
  intros a H0. apply Z.mod_divide; try lia. apply Z.mod_divide in H0; try lia.
  destruct H0 as (q & ->). exists (q * 2). lia.
Qed.
Lemma mod_add : forall a b c, 0 < c -> a mod c = 0 -> b mod c = 0 -> (a + b) mod c = 0.
Proof. intros a b c H0 H1 H2. rewrite Z.add_mod, H1, H2 by lia. now apply Z.mod_small. Qed.

(** where the regions are *)
Lemma regions : a_stack = 1024 /\ a_stack + 4 * N <= a_objs P
  /\ a_objs P + N * ns <= a_hash P /\ lim = a_hash P + 4 * hs
  /\ a_objs P mod 1024 = 0 /\ a_hash P mod 1024 = 0.
Proof.
  pose proof layout_facts as (A & B & C & D & E).
  unfold a_stack, a_objs, a_hash, required_space. rewrite A.
  split; [reflexivity|]. split; [lia|]. split; [lia|]. split; [lia|].
  split; repeat apply mod_add; auto; lia.
Qed.

Lemma node_region : forall i, 0 <= i < N ->
  a_objs P <= a_key P i /\ a_key P i + ns <= a_hash P /\ a_key P i mod 8 = 0.
Proof.
  intros i Hi. pose proof regions as (A & B & C & D & E & F). pose proof node_facts as (G & _ & _ & K & L).
  unfold a_key. split; [nia|]. split; [nia|].
  apply mod_add; try lia. { now apply mod_1024_8. }
  rewrite Z.mul_mod, K, Z.mul_0_r by lia. reflexivity.
Qed.

Lemma node_sep : forall i j, i <> j ->
  a_key P i + ns <= a_key P j \/ a_key P j + ns <= a_key P i.
Proof. intros. pose proof node_facts as (_ & _ & _ & _ & L). unfold a_key. nia. Qed.

Lemma a_val_key : forall i, a_val P i = a_key P i + 8.
Proof. reflexivity. Qed.
Lemma a_next_key : forall i, a_next P i = a_key P i + o_next P.
Proof. reflexivity. Qed.

Lemma inb_key : forall i, 0 <= i < N -> inb lim 8 (a_key P i) = true.
Proof.
  intros i Hi. pose proof (node_region i Hi) as (A & B & C). pose proof regions as (D & E & F & G & _).
  pose proof node_facts. destruct HP as (H1 & H2 & H3). apply inb_true; auto; lia.
Qed.
Lemma inb_next : forall i, 0 <= i < N -> inb lim 4 (a_next P i) = true.
Proof.
  intros i Hi. pose proof (node_region i Hi) as (A & B & C). pose proof regions as (D & E & F & G & _).
  pose proof node_facts as (K & L & M & O & _). destruct HP as (H1 & H2 & H3).
  rewrite a_next_key. unfold wsz in *. apply inb_true; try lia.
  apply mod_add; try lia; now apply mod_8_4.
Qed.
Lemma wrange_val : forall i, 0 <= i < N -> wrange lim (a_val P i) (words P).
Proof.
  intros i Hi. pose proof (node_region i Hi) as (A & B & C). pose proof regions as (D & E & F & G & _).
  pose proof node_facts as (K & L & M & O & _). destruct HP as (H1 & H2 & H3).
  rewrite a_val_key. unfold wrange, wsz in *. split; [lia|]. split; [|lia].
  apply mod_add; try lia; auto. now apply mod_8_4.
Qed.
Lemma inb_bucket : forall h, 0 <= h < hs -> inb lim 4 (a_bucket P h) = true.
Proof.
  intros h Hh. pose proof regions as (D & E & F & G & K & L). pose proof node_facts.
  destruct HP as (H1 & H2 & H3). unfold a_bucket.
  apply inb_true; try nia. apply mod4_mul. now apply mod_1024_4.
Qed.
Lemma inb_low : forall a, 0 <= a < 1024 -> a mod 4 = 0 -> a <= 1020 -> inb lim 4 a = true.
Proof.
  intros a Ha Hm Hl. pose proof regions as (D & E & F & G & K & L). pose proof node_facts.
  destruct HP as (H1 & H2 & H3). apply inb_true; auto; nia.
Qed.

Lemma the_pool_ok : pool_ok lim (the_pool P).
Proof.
  pose proof regions as (D & E & F & G & K & L). pose proof node_facts as (_ & _ & _ & _ & M).
  destruct HP as (H1 & H2 & H3). assert (0 <= N * ns) by nia.
  unfold the_pool. constructor; cbn [p_free p_num p_res p_isz p_cur p_dat s_num s_words s_res
    s_isz s_cur s_dat]; auto.
  - apply stack_ok_ext; unfold a_pool; try lia; try (rewrite sds1); try lia; try reflexivity.
  - split; [unfold a_pool; lia|reflexivity].
  - left. rewrite D. unfold a_pool. lia.
Qed.

Lemma pool_cell_low : forall a, pool_cell (the_pool P) a -> 12 <= a < a_objs P.
Proof.
  intros a [Ha|Ha]; cbn [the_pool p_free p_num p_res s_dat] in Ha;
    pose proof regions as (D & E & F & G & K & L).
  - unfold a_pool in Ha. destruct HP. lia.
  - lia.
Qed.

(** *** Chains.  A chain starts in a cell (a bucket, or the next field of a node). *)
Fixpoint chain (m : mem) (b : Z) (l : list Z) : Prop :=
  match l with
  | [] => m b = nil32
  | i :: l => m b = i /\ chain m (a_next P i) l
  end.

(** the cell behind the chain [l] that starts in [b] *)
Definition endc (b : Z) (l : list Z) : Z := last (map (a_next P) l) b.

Lemma endc_snoc : forall b l z, endc b (l ++ [z]) = a_next P z.
Proof. intros. unfold endc. rewrite map_app. cbn [map]. apply last_last. Qed.
Lemma endc_cons : forall b i l, endc b (i :: l) = endc (a_next P i) l.
Proof.
  intros b i l. unfold endc. cbn [map]. destruct l as [|j l]; auto.
  cbn [map]. revert j. induction l as [|k l IH]; intro j; auto.
  cbn [map] in *. specialize (IH k). cbn [last] in *. auto.
Qed.

Lemma chain_end : forall m l b, chain m b l -> m (endc b l) = nil32.
Proof.
  induction l as [|i l IH]; intros b C; cbn [chain] in C; auto.
  rewrite endc_cons. apply IH. tauto.
Qed.

Lemma chain_split : forall m l1 b l2, chain m b (l1 ++ l2) -> chain m (endc b l1) l2.
Proof.
  induction l1 as [|i l1 IH]; intros b l2 C; cbn [app chain] in C; auto.
  rewrite endc_cons. apply IH. tauto.
Qed.

Lemma chain_frame : forall m m' l b, chain m b l -> m' b = m b ->
  (forall i, In i l -> m' (a_next P i) = m (a_next P i)) -> chain m' b l.
Proof.
  induction l as [|i l IH]; intros b C Eb En; cbn [chain] in *.
  - congruence.
  - destruct C as (C1 & C2). split; [congruence|]. apply IH; auto.
    + apply En. now left.
    + intros j Hj. apply En. now right.
Qed.

Lemma endc_in : forall l b, In (endc b l) (b :: map (a_next P) l).
Proof.
  induction l as [|i l IH]; intro b; [now left|].
  rewrite endc_cons. right. apply IH.
Qed.

(** replacing the rest of a chain *)
Lemma chain_replace : forall m m' l b r r', chain m b (l ++ r) ->
  chain m' (endc b l) r' -> NoDup (b :: map (a_next P) l) ->
  (forall a, In a (b :: map (a_next P) l) -> a <> endc b l -> m' a = m a) ->
  chain m' b (l ++ r').
Proof.
  induction l as [|i l IH]; intros b r r' C C' ND F; cbn [app chain] in *.
  - exact C'.
  - destruct C as (C1 & C2). rewrite endc_cons in C'.
    cbn [map] in ND. apply NoDup_cons_iff in ND. destruct ND as (ND1 & ND2).
    split.
    + rewrite F; auto. { now left. } rewrite endc_cons. intro E. apply ND1. rewrite E.
      apply endc_in.
    + apply (IH _ r r'); auto.
      intros a Ha Hne. apply F. { right. exact Ha. } now rewrite endc_cons.
Qed.

(** *** The invariant *)

Definition buckets : list Z := zrange (Z.to_nat hs).
Definition nodes (ch : Z -> list Z) : list Z := flat_map ch buckets.

Lemma in_buckets : forall h, In h buckets <-> 0 <= h < hs.
Proof.
  intro h. unfold buckets. split; intro Hh.
  - unfold zrange in Hh. apply in_map_iff in Hh. destruct Hh as (n & <- & Hn).
    apply in_seq in Hn. lia.
  - apply in_zrange. destruct HP. lia.
Qed.
Lemma nodup_buckets : NoDup buckets.
Proof.
  unfold buckets, zrange. apply FinFun.Injective_map_NoDup.
  - intros a b. lia.
  - apply seq_NoDup.
Qed.

Lemma in_nodes : forall ch i, In i (nodes ch) <-> exists h, 0 <= h < hs /\ In i (ch h).
Proof.
  intros. unfold nodes. rewrite in_flat_map. split; intros (h & A & B); exists h; split; auto;
    now apply in_buckets.
Qed.

Definition setch (ch : Z -> list Z) (h : Z) (l : list Z) : Z -> list Z :=
  fun x => if x =? h then l else ch x.
Lemma setch_same : forall ch h l, setch ch h l h = l.
Proof. intros. unfold setch. now rewrite Z.eqb_refl. Qed.
Lemma setch_other : forall ch h l x, x <> h -> setch ch h l x = ch x.
Proof. intros. unfold setch. destruct (Z.eqb_spec x h); congruence. Qed.

(** the nodes of the other buckets *)
Lemma focus : forall ch h, 0 <= h < hs -> exists rest,
  Permutation (nodes ch) (ch h ++ rest)
  /\ (forall l, Permutation (nodes (setch ch h l)) (l ++ rest))
  /\ (forall i, In i rest -> exists x, x <> h /\ 0 <= x < hs /\ In i (ch x)).
Proof.
  intros ch h Hh. apply in_buckets in Hh. apply in_split in Hh. destruct Hh as (b1 & b2 & E).
  pose proof nodup_buckets as ND. rewrite E in ND.
  assert (N1 : ~ In h (b1 ++ b2)) by (apply NoDup_remove_2; auto).
  exists (flat_map ch (b1 ++ b2)). unfold nodes. rewrite E.
  assert (X : forall l, flat_map (setch ch h l) (b1 ++ b2) = flat_map ch (b1 ++ b2)).
  { intro l. revert N1. generalize (b1 ++ b2). induction l0 as [|x t IH]; intros N1; auto.
    cbn [flat_map]. rewrite IH by (intro; apply N1; now right).
    rewrite setch_other; auto. intros ->. apply N1. now left. }
  assert (Y : forall c : Z -> list Z, Permutation (flat_map c (b1 ++ h :: b2)) (c h ++ flat_map c (b1 ++ b2))).
  { intro c. rewrite !flat_map_app. cbn [flat_map].
    rewrite !app_assoc. apply Permutation_app_tail, Permutation_app_comm. }
  split; [apply Y|]. split.
  - intro l. rewrite Y, X, setch_same. reflexivity.
  - intros i Hi. apply in_flat_map in Hi. destruct Hi as (x & Hx & Hi). exists x.
    split; [intros ->; auto|]. split; auto. apply in_buckets. rewrite E.
    apply in_app_iff in Hx. apply in_app_iff. cbn [In]. tauto.
Qed.

Definition entry (m : mem) (i : Z) : Z * list Z := (m (a_key P i), rdw m (a_val P i) (words P)).
Definition entries (m : mem) (ch : Z -> list Z) : fmap := map (entry m) (nodes ch).

(** the chains are sound; enough for read and for iteration *)
Record Cont (m : mem) (ch : Z -> list Z) : Prop := mkCont
  { ct_ch : forall h, 0 <= h < hs -> chain m (a_bucket P h) (ch h);
    ct_nd : NoDup (nodes ch);
    ct_in : forall i, In i (nodes ch) -> 0 <= i < N;
    ct_key : forall h i, 0 <= h < hs -> In i (ch h) -> m (a_key P i) mod hs = h;
    ct_kd : forall h, 0 <= h < hs -> NoDup (map (fun i => m (a_key P i)) (ch h)) }.

(** the whole map; [lk] indices are lost (after a crash) *)
Record Inv (m : mem) (ch : Z -> list Z) (fs : list Z) (cur lk : Z) : Prop := mkInv
  { iv_ct : Cont m ch;
    iv_hdr : m 0 = N /\ m 4 = wsz P /\ m 8 = hs;
    iv_pool : pool_rep (the_pool P) ns m fs cur;
    iv_nd : NoDup (nodes ch ++ fs);
    iv_in : forall i, In i (nodes ch ++ fs) -> 0 <= i < cur;
    iv_len : Z.of_nat (length (nodes ch)) + Z.of_nat (length fs) + lk = cur }.

Lemma iv_cur : forall m ch fs cur lk, Inv m ch fs cur lk -> 0 <= cur <= N.
Proof. intros m ch fs cur lk H0. apply (pr_bnd _ _ _ _ _ (iv_pool _ _ _ _ _ H0)). Qed.

Lemma N_nil : forall i, 0 <= i < N -> i <> nil32.
Proof.
  intros i Hi. rewrite nil32_val. destruct HP as (A & B & C).
  pose proof node_facts. nia.
Qed.

Lemma ct_chain_in : forall m ch h i, Cont m ch -> 0 <= h < hs -> In i (ch h) -> 0 <= i < N.
Proof. intros m ch h i H0 H1 H2. apply (ct_in _ _ H0). apply in_nodes. eauto. Qed.

Lemma ct_chain_nd : forall m ch h, Cont m ch -> 0 <= h < hs -> NoDup (ch h).
Proof.
  intros m ch h H0 H1. apply (NoDup_map_inv (fun i => m (a_key P i))). now apply (ct_kd _ _ H0).
Qed.

Lemma bucket_next : forall h i, 0 <= i < N -> 0 <= h -> a_bucket P h <> a_next P i.
Proof.
  intros h i H0 H1. pose proof (node_region i H0) as (A & B & _). pose proof node_facts as (C & _ & D & _).
  unfold a_bucket. rewrite a_next_key. lia.
Qed.

Lemma next_inj : forall i j, a_next P i = a_next P j -> i = j.
Proof.
  intros i j E. destruct (Z.eq_dec i j) as [|n]; auto.
  pose proof (node_sep i j n). rewrite !a_next_key in E. pose proof node_facts. lia.
Qed.

Lemma bucket_inj : forall h x, a_bucket P h = a_bucket P x -> h = x.
Proof. unfold a_bucket. intros. lia. Qed.

Lemma cells_nd : forall m ch h, Cont m ch -> 0 <= h < hs ->
  NoDup (a_bucket P h :: map (a_next P) (ch h)).
Proof.
  intros m ch h C Hh. constructor.
  - intro X. apply in_map_iff in X. destruct X as (i & E & Hi).
    apply (bucket_next h i); auto; try lia. apply (ct_chain_in m ch h); auto.
  - apply FinFun.Injective_map_NoDup. { intros a b. apply next_inj. }
    apply (ct_chain_nd m); auto.
Qed.

Lemma entry_ext : forall m m' i, m' (a_key P i) = m (a_key P i) ->
  (forall j, 0 <= j < Z.of_nat (words P) -> m' (a_val P i + 4 * j) = m (a_val P i + 4 * j)) ->
  entry m' i = entry m i.
Proof. intros m m' i H0 H1. unfold entry. rewrite H0. f_equal. apply rdw_ext. auto. Qed.

(** a memory that agrees on the buckets and on all fields of the linked nodes *)
Definition agree (ch : Z -> list Z) (m m' : mem) : Prop :=
  (forall h, 0 <= h < hs -> m' (a_bucket P h) = m (a_bucket P h))
  /\ (forall i a, In i (nodes ch) -> a_key P i <= a < a_key P i + ns -> m' a = m a).

Lemma agree_entry : forall ch m m' i, agree ch m m' -> In i (nodes ch) -> entry m' i = entry m i.
Proof.
  intros ch m m' i (A & B) Hi. pose proof node_facts as (C & _ & D & _ & E). unfold wsz in *.
  apply entry_ext.
  - apply (B i); auto. lia.
  - intros j Hj. apply (B i); auto. rewrite a_val_key. lia.
Qed.

Lemma agree_entries : forall ch m m', agree ch m m' -> entries m' ch = entries m ch.
Proof.
  intros. unfold entries. apply map_ext_in. intros. now apply (agree_entry ch).
Qed.

Lemma agree_next : forall ch m m' i, agree ch m m' -> In i (nodes ch) ->
  m' (a_next P i) = m (a_next P i).
Proof.
  intros ch m m' i (A & B) Hi. pose proof node_facts as (C & _ & D & _ & E). unfold wsz in *.
  apply (B i); auto. rewrite a_next_key. lia.
Qed.

Lemma agree_key : forall ch m m' i, agree ch m m' -> In i (nodes ch) ->
  m' (a_key P i) = m (a_key P i).
Proof.
  intros ch m m' i (A & B) Hi. pose proof node_facts as (C & _ & D & _ & E).
  apply (B i); auto. lia.
Qed.

Lemma agree_cont : forall ch m m', agree ch m m' -> Cont m ch -> Cont m' ch.
Proof.
  intros ch m m' HA [C1 C2 C3 C4 C5].
  assert (X : forall h i, 0 <= h < hs -> In i (ch h) -> In i (nodes ch)).
  { intros. apply in_nodes. eauto. }
  constructor; auto.
  - intros h Hh. apply (chain_frame m); auto. { apply HA; auto. }
    intros i Hi. apply (agree_next ch); eauto.
  - intros h i Hh Hi. rewrite (agree_key ch m) by eauto. auto.
  - intros h Hh. rewrite (map_ext_in _ (fun i => m (a_key P i))); auto.
    intros i Hi. apply (agree_key ch); eauto.
Qed.

(** only the fields of one floating node [x] change *)
Lemma inv_float : forall m m' ch fs cur lk x, Inv m ch fs cur lk -> 0 <= x < N ->
  ~ In x (nodes ch) ->
  (forall a, a < a_key P x \/ a_key P x + ns <= a -> m' a = m a) ->
  Inv m' ch fs cur lk /\ agree ch m m'.
Proof.
  intros m m' ch fs cur lk x HI Hx Hn F. pose proof HI as [C1 C2 C3 C4 C5 C6].
  pose proof (node_region x Hx) as (R1 & R2 & _). pose proof regions as (G1 & G2 & G3 & G4 & _).
  pose proof node_facts as (_ & _ & _ & _ & NF). destruct HP as (P1 & P2 & P3).
  assert (AG : agree ch m m').
  { split.
    - intros h Hh. apply F. unfold a_bucket. lia.
    - intros i a Hi Ha. apply F.
      assert (i <> x) by (intros ->; auto). pose proof (node_sep i x). lia. }
  split; auto. constructor; auto.
  - apply (agree_cont ch m); auto.
  - destruct C2 as (D1 & D2 & D3). rewrite !F by lia. auto.
  - apply (pool_rep_frame lim _ _ m); auto. { apply the_pool_ok. }
    intros a Ha. apply F. pose proof (pool_cell_low a Ha). lia.
Qed.

(** only pool cells change *)
Lemma cont_pool : forall m m' ch, Cont m ch ->
  (forall a, a_objs P <= a -> m' a = m a) -> Cont m' ch /\ agree ch m m'.
Proof.
  intros m m' ch HC F.
  assert (AG : agree ch m m').
  { pose proof regions as (G1 & G2 & G3 & G4 & _). pose proof node_facts as (_ & _ & _ & _ & NF).
    destruct HP as (P1 & P2 & P3). split.
    - intros h Hh. apply F. unfold a_bucket. nia.
    - intros i a Hi Ha. apply F. pose proof (node_region i (ct_in _ _ HC i Hi)). lia. }
  split; auto. apply (agree_cont ch m); auto.
Qed.

End Layout.
