(** Lemmas about shared-memory programs, the stack, the pool and the layout of the map. *)

From Coq Require Import ZArith List Bool Lia Permutation.
From Verif Require Import Base Shm_Model Shm_Spec.
Import ListNotations.
Local Open Scope Z_scope.

(** *** Programs *)

Lemma run_bind : forall A B lim (p : prog A) (f : A -> prog B) m,
  run lim (pbind p f) m = '(a, m') <- run lim p m ;; run lim (f a) m'.
Proof.
  induction p as [a|sz a k IH|sz a v k IH|u|]; intros f m; cbn [pbind run bind]; auto.
  - destruct (inb lim sz a); auto.
  - destruct (inb lim sz a); auto.
Qed.

Lemma mset_same : forall m a v, mset m a v a = v.
Proof. intros. unfold mset. now rewrite Z.eqb_refl. Qed.
Lemma mset_other : forall m a v b, b <> a -> mset m a v b = m b.
Proof. intros. unfold mset. destruct (Z.eqb_spec b a); congruence. Qed.

Fixpoint mwords (m : mem) (a : Z) (ws : list Z) : mem :=
  match ws with [] => m | w :: ws => mwords (mset m a w) (a + 4) ws end.
Fixpoint rdw (m : mem) (a : Z) (n : nat) : list Z :=
  match n with O => [] | S n => m a :: rdw m (a + 4) n end.

Lemma rdw_length : forall m n a, length (rdw m a n) = n.
Proof. induction n; simpl; intros; auto. Qed.

Lemma mwords_other : forall ws m a b,
  (forall j, 0 <= j < Z.of_nat (length ws) -> b <> a + 4 * j) -> mwords m a ws b = m b.
Proof.
  induction ws as [|w ws IH]; intros m a b H; cbn [mwords length] in *; auto.
  rewrite IH.
  - apply mset_other. specialize (H 0). rewrite Z.mul_0_r, Z.add_0_r in H. apply H. lia.
  - intros j Hj. specialize (H (j + 1)). intro. apply H; lia.
Qed.

Lemma rdw_ext : forall n m m' a,
  (forall j, 0 <= j < Z.of_nat n -> m (a + 4 * j) = m' (a + 4 * j)) -> rdw m a n = rdw m' a n.
Proof.
  induction n as [|n IH]; intros m m' a H; cbn [rdw]; auto. f_equal.
  - specialize (H 0). rewrite Z.mul_0_r, Z.add_0_r in H. apply H. lia.
  - apply IH. intros j Hj. specialize (H (j + 1)).
    replace (a + 4 * (j + 1)) with (a + 4 + 4 * j) in H by lia. apply H. lia.
Qed.

Lemma rdw_mwords : forall ws m a, rdw (mwords m a ws) a (length ws) = ws.
Proof.
  induction ws as [|w ws IH]; intros m a; cbn [mwords rdw length]; auto. f_equal.
  - rewrite mwords_other by lia. apply mset_same.
  - apply IH.
Qed.

Lemma inb_true : forall lim sz a, 0 <= a -> a + sz <= lim -> a mod sz = 0 -> inb lim sz a = true.
Proof.
  intros. unfold inb. rewrite !andb_true_iff, !Z.leb_le, Z.eqb_eq. auto.
Qed.

(** a range of [n] words inside the segment *)
Definition wrange (lim a : Z) (n : nat) : Prop :=
  0 <= a /\ a mod 4 = 0 /\ a + 4 * Z.of_nat n <= lim.

Lemma mod4_step : forall a, a mod 4 = 0 -> (a + 4) mod 4 = 0.
Proof. intros. rewrite <- Zplus_mod_idemp_l, H. reflexivity. Qed.

Lemma run_load_words : forall lim n a m, wrange lim a n ->
  run lim (load_words a n) m = Ok (rdw m a n, m).
Proof.
  unfold wrange. induction n as [|n IH]; intros a m (H0 & H1 & H2); cbn [load_words rdw]; auto.
  unfold load. cbn [pbind run]. rewrite inb_true by (auto; lia).
  rewrite run_bind, IH. { reflexivity. }
  split; [lia|]. split; [now apply mod4_step | lia].
Qed.

Lemma run_store_words : forall lim ws a m, wrange lim a (length ws) ->
  run lim (store_words a ws) m = Ok (tt, mwords m a ws).
Proof.
  unfold wrange. induction ws as [|w ws IH]; intros a m (H0 & H1 & H2);
    cbn [store_words mwords length] in *; auto.
  unfold store. cbn [pbind run]. rewrite inb_true by (auto; lia).
  apply IH. split; [lia|]. split; [now apply mod4_step | lia].
Qed.

Lemma run_load : forall lim sz a m, inb lim sz a = true -> run lim (load sz a) m = Ok (m a, m).
Proof. intros. unfold load. cbn [run]. now rewrite H. Qed.
Lemma run_store : forall lim sz a v m, inb lim sz a = true ->
  run lim (store sz a v) m = Ok (tt, mset m a v).
Proof. intros. unfold store. cbn [run]. now rewrite H. Qed.

Lemma u32_small : forall x, 0 <= x < 2^32 -> u32 x = x.
Proof. intros. unfold u32. now apply Z.mod_small. Qed.
Lemma nil32_val : nil32 = 2^32 - 1.
Proof. reflexivity. Qed.

(** *** The stack *)


Definition elem_at (s : stack) (k : Z) : Z := s_dat s + 4 * Z.of_nat (s_words s) * k.

(** the segment holds the stack with contents [l], top first *)
Record stack_rep (s : stack) (m : mem) (l : list (list Z)) : Prop := mkStackRep
  { sr_res : m (s_res s) = s_num s;
    sr_isz : m (s_isz s) = 4 * Z.of_nat (s_words s);
    sr_cur : m (s_cur s) = u32 (Z.of_nat (length l) - 1);
    sr_len : Z.of_nat (length l) <= s_num s;
    sr_el : forall k el, nth_error (rev l) k = Some el ->
              rdw m (elem_at s (Z.of_nat k)) (s_words s) = el }.

Lemma sr_word : forall s m l, stack_rep s m l -> forall el, In el l -> length el = s_words s.
Proof.
  intros s m l R el H. apply in_rev in H. apply In_nth_error in H. destruct H as (k & H).
  rewrite <- (sr_el _ _ _ R k el H). apply rdw_length.
Qed.

Lemma so_inb_hdr : forall lim s, stack_ok lim s ->
  inb lim 4 (s_res s) = true /\ inb lim 4 (s_isz s) = true /\ inb lim 4 (s_cur s) = true.
Proof.
  intros lim s [H1 H2 H3 (H4 & H5 & H6) H7 H8]. rewrite H2, H3.
  assert ((s_res s + 4) mod 4 = 0) by now apply mod4_step.
  assert ((s_res s + 8) mod 4 = 0).
  { replace (s_res s + 8) with (s_res s + 4 + 4) by lia. now apply mod4_step. }
  repeat split; apply inb_true; auto; lia.
Qed.

Lemma mod4_mul : forall a k, a mod 4 = 0 -> (a + 4 * k) mod 4 = 0.
Proof.
  intros. rewrite (Z.mul_comm 4 k). rewrite Z_mod_plus_full. auto.
Qed.

Lemma so_wrange : forall lim s k, stack_ok lim s -> 0 <= k < s_num s ->
  wrange lim (elem_at s k) (s_words s).
Proof.
  intros lim s k [H1 H2 H3 H4 (H5 & H6 & H7) H8] Hk. unfold wrange, elem_at, stack_data_size in *.
  assert (k * (4 * Z.of_nat (s_words s)) + 4 * Z.of_nat (s_words s)
          <= 4 * Z.of_nat (s_words s) * s_num s) by nia.
  split; [nia|]. split; [|nia].
  rewrite <- Z.mul_assoc. now apply mod4_mul.
Qed.

(** addresses of the data of element [k] *)
Lemma elem_addr : forall s k j, 0 <= k < s_num s -> 0 <= j < Z.of_nat (s_words s) ->
  s_dat s <= elem_at s k + 4 * j < s_dat s + stack_data_size (s_num s) (s_words s).
Proof. intros. unfold elem_at, stack_data_size. nia. Qed.

Lemma elem_sep : forall s k k' j j', 0 <= j < Z.of_nat (s_words s) ->
  0 <= j' < Z.of_nat (s_words s) -> elem_at s k + 4 * j = elem_at s k' + 4 * j' -> k = k'.
Proof. intros s k k' j j' H H' E. unfold elem_at in E. nia. Qed.

Lemma run_used : forall lim s m, stack_ok lim s ->
  run lim (stack_used s) m = Ok (u32 (m (s_cur s) + 1), m).
Proof.
  intros. destruct (so_inb_hdr _ _ H) as (_ & _ & E).
  unfold stack_used. rewrite run_bind, run_load by auto. reflexivity.
Qed.

Lemma cur_used : forall n, 0 <= n < 2^32 -> u32 (u32 (n - 1) + 1) = n.
Proof.
  intros. unfold u32. rewrite Zplus_mod_idemp_l. replace (n - 1 + 1) with n by lia.
  apply Z.mod_small. auto.
Qed.

Lemma run_used_rep : forall lim s m l, stack_ok lim s -> stack_rep s m l ->
  run lim (stack_used s) m = Ok (Z.of_nat (length l), m).
Proof.
  intros. rewrite run_used by auto. rewrite (sr_cur _ _ _ H0).
  rewrite cur_used; auto. pose proof (sr_len _ _ _ H0). pose proof (so_num _ _ H). lia.
Qed.

Lemma run_empty_rep : forall lim s m l, stack_ok lim s -> stack_rep s m l ->
  run lim (stack_empty s) m = Ok (match l with [] => true | _ => false end, m).
Proof.
  intros. unfold stack_empty. rewrite run_bind, (run_used_rep _ _ _ l) by auto.
  cbn [bind run]. destruct l; cbn [length]; auto.
Qed.

(** the memory after a push *)
Definition push_mem (s : stack) (m : mem) (l : list (list Z)) (el : list Z) : mem :=
  mwords (mset m (s_cur s) (Z.of_nat (length l))) (elem_at s (Z.of_nat (length l))) el.

Lemma run_push : forall lim s m l el, stack_ok lim s -> stack_rep s m l ->
  length el = s_words s ->
  run lim (stack_push s el) m
  = if Z.of_nat (length l) <? s_num s then Ok (true, push_mem s m l el) else Ok (false, m).
Proof.
  intros lim s m l el HS HR HE. unfold stack_push.
  rewrite run_bind, (run_used_rep _ _ _ l) by auto. cbn [bind].
  pose proof (so_num _ _ HS) as HN.
  destruct (Z.leb_spec (s_num s) (Z.of_nat (length l))) as [Hle|Hlt];
    destruct (Z.ltb_spec (Z.of_nat (length l)) (s_num s)); try lia; auto.
  destruct (so_inb_hdr _ _ HS) as (_ & _ & E).
  rewrite run_bind, run_load by auto. cbn [bind].
  rewrite (sr_cur _ _ _ HR), cur_used by lia.
  rewrite run_bind, run_store by auto. cbn [bind].
  rewrite run_bind, run_store_words; [reflexivity|].
  rewrite HE. apply so_wrange; auto. lia.
Qed.

Lemma push_mem_frame : forall lim s m l el a, stack_ok lim s -> length el = s_words s ->
  Z.of_nat (length l) < s_num s -> a <> s_cur s ->
  a < s_dat s \/ s_dat s + stack_data_size (s_num s) (s_words s) <= a ->
  push_mem s m l el a = m a.
Proof.
  intros lim s m l el a HS HE HL H1 H2. unfold push_mem. rewrite mwords_other.
  - now apply mset_other.
  - rewrite HE. intros j Hj. pose proof (elem_addr s (Z.of_nat (length l)) j). lia.
Qed.

Lemma push_rep : forall lim s m l el, stack_ok lim s -> stack_rep s m l ->
  length el = s_words s -> Z.of_nat (length l) < s_num s ->
  stack_rep s (push_mem s m l el) (el :: l).
Proof.
  intros lim s m l el HS HR HE HL. destruct HR as [R1 R2 R3 R4 R5].
  pose proof (so_sep _ _ HS) as Hsep. pose proof (so_isz _ _ HS) as Hi.
  pose proof (so_cur _ _ HS) as Hc.
  assert (Hw : 0 <= stack_data_size (s_num s) (s_words s)) by (unfold stack_data_size; nia).
  constructor.
  - rewrite (push_mem_frame lim) by (auto; lia). auto.
  - rewrite (push_mem_frame lim) by (auto; lia). auto.
  - unfold push_mem. rewrite mwords_other.
    + rewrite mset_same. cbn [length]. rewrite u32_small by (pose proof (so_num _ _ HS); lia). lia.
    + rewrite HE. intros j Hj. pose proof (elem_addr s (Z.of_nat (length l)) j). lia.
  - cbn [length]. lia.
  - intros k x Hk. cbn [rev] in Hk.
    assert (Hkl : (k < length (rev l ++ [el]))%nat) by (apply nth_error_Some; congruence).
    rewrite app_length, rev_length in Hkl. cbn [length] in Hkl.
    destruct (Nat.eq_dec k (length l)) as [->|Hne].
    + rewrite nth_error_app2 in Hk by (rewrite rev_length; lia).
      rewrite rev_length, Nat.sub_diag in Hk. cbn in Hk. injection Hk as <-.
      unfold push_mem. rewrite <- HE. apply rdw_mwords.
    + rewrite nth_error_app1 in Hk by (rewrite rev_length; lia).
      rewrite <- (R5 _ _ Hk). apply rdw_ext. intros j Hj. unfold push_mem.
      pose proof (elem_addr s (Z.of_nat k) j).
      rewrite mwords_other.
      * apply mset_other. lia.
      * rewrite HE. intros j' Hj' E. apply elem_sep in E; auto; lia.
Qed.

Lemma run_pop : forall lim s m el l, stack_ok lim s -> stack_rep s m (el :: l) ->
  run lim (stack_pop s) m = Ok (el, mset m (s_cur s) (u32 (Z.of_nat (length l) - 1))).
Proof.
  intros lim s m el l HS HR. destruct HR as [R1 R2 R3 R4 R5]. cbn [length] in *.
  pose proof (so_num _ _ HS) as HN.
  assert (Hc : m (s_cur s) = Z.of_nat (length l)) by (rewrite R3, u32_small; lia).
  destruct (so_inb_hdr _ _ HS) as (_ & _ & E).
  unfold stack_pop. rewrite run_bind, run_load by auto. cbn [bind].
  rewrite run_bind, run_store by auto. cbn [bind]. rewrite Hc.
  rewrite run_load_words by (apply (so_wrange lim s); auto; lia).
  do 2 f_equal. rewrite <- (R5 (length l) el).
  - apply rdw_ext. intros j Hj. apply mset_other.
    pose proof (elem_addr s (Z.of_nat (length l)) j). pose proof (so_sep _ _ HS).
    pose proof (so_cur _ _ HS). unfold elem_at in *. lia.
  - cbn [rev]. rewrite nth_error_app2 by (rewrite rev_length; lia).
    rewrite rev_length, Nat.sub_diag. reflexivity.
Qed.

(** a change of current only *)
Lemma cut_rep : forall lim s m l1 l2, stack_ok lim s -> stack_rep s m (l1 ++ l2) ->
  stack_rep s (mset m (s_cur s) (u32 (Z.of_nat (length l2) - 1))) l2.
Proof.
  intros lim s m l1 l2 HS HR. destruct HR as [R1 R2 R3 R4 R5].
  pose proof (so_sep _ _ HS) as Hsep. pose proof (so_isz _ _ HS) as Hi.
  pose proof (so_cur _ _ HS) as Hc. rewrite app_length in *.
  constructor.
  - rewrite mset_other by lia. auto.
  - rewrite mset_other by lia. auto.
  - rewrite mset_same. auto.
  - lia.
  - intros k el Hk.
    assert (Hkl : (k < length (rev l2))%nat) by (apply nth_error_Some; congruence).
    rewrite rev_length in Hkl.
    rewrite <- (R5 k el).
    + apply rdw_ext. intros j Hj. apply mset_other.
      pose proof (elem_addr s (Z.of_nat k) j). lia.
    + rewrite rev_app_distr, nth_error_app1 by (rewrite rev_length; lia). auto.
Qed.

Lemma pop_rep : forall lim s m el l, stack_ok lim s -> stack_rep s m (el :: l) ->
  stack_rep s (mset m (s_cur s) (u32 (Z.of_nat (length l) - 1))) l.
Proof. intros. now apply (cut_rep lim s m [el] l). Qed.

Lemma clear_rep : forall lim s m l, stack_ok lim s -> stack_rep s m l ->
  stack_rep s (mset m (s_cur s) nil32) [].
Proof.
  intros. rewrite <- (app_nil_r l) in H0. now apply (cut_rep lim s m l []).
Qed.

Lemma stack_ok_ext : forall lim num w hb bb, 0 <= num < 2^31 ->
  0 <= hb -> hb mod 4 = 0 -> hb + 12 <= lim -> 0 <= bb -> bb mod 4 = 0 ->
  bb + stack_data_size num w <= lim ->
  hb + 12 <= bb \/ bb + stack_data_size num w <= hb ->
  stack_ok lim (mkStack num w hb (hb + 4) (hb + 8) bb).
Proof. intros. constructor; cbn [s_num s_words s_res s_isz s_cur s_dat]; auto. Qed.

(** attach to a zeroed header *)
Definition stack_init (s : stack) (m : mem) : mem :=
  mset (mset (mset m (s_res s) (s_num s)) (s_isz s) (4 * Z.of_nat (s_words s))) (s_cur s) nil32.

Lemma run_stack_attach_new : forall lim s m, stack_ok lim s ->
  m (s_res s) = 0 -> m (s_isz s) = 0 ->
  run lim (stack_attach (s_num s) (s_words s) (s_res s) (s_dat s)) m
  = Ok (Some s, stack_init s m).
Proof.
  intros lim [num w hb isz cur bb] m HS H1 H2.
  pose proof (so_isz _ _ HS) as Ei. pose proof (so_cur _ _ HS) as Ec.
  cbn [s_num s_words s_res s_isz s_cur s_dat] in *. subst isz cur.
  destruct (so_inb_hdr _ _ HS) as (E1 & E2 & E3).
  cbn [s_num s_words s_res s_isz s_cur s_dat] in *.
  unfold stack_attach. cbn [s_num s_words s_res s_isz s_cur s_dat].
  rewrite run_bind, run_load by auto. cbn [bind].
  rewrite run_bind, run_load by auto. cbn [bind].
  rewrite H1, H2. cbn [Z.eqb andb].
  rewrite run_bind, run_store by auto. cbn [bind].
  rewrite run_bind, run_store by auto. cbn [bind].
  rewrite run_bind, run_store by auto. reflexivity.
Qed.

Lemma stack_init_rep : forall lim s m, stack_ok lim s -> stack_rep s (stack_init s m) [].
Proof.
  intros lim s m HS. unfold stack_init.
  pose proof (so_isz _ _ HS) as Ei. pose proof (so_cur _ _ HS) as Ec.
  pose proof (so_num _ _ HS).
  constructor.
  - rewrite !mset_other by lia. apply mset_same.
  - rewrite mset_other by lia. apply mset_same.
  - apply mset_same.
  - cbn [length]. lia.
  - intros [|k] el Hk; discriminate.
Qed.

(** attach to an initialised header: the parameters are compared, nothing is changed *)
Lemma run_stack_attach_old : forall lim s m, stack_ok lim s ->
  m (s_res s) <> 0 \/ m (s_isz s) <> 0 ->
  run lim (stack_attach (s_num s) (s_words s) (s_res s) (s_dat s)) m
  = Ok (if (m (s_res s) =? s_num s) && (m (s_isz s) =? 4 * Z.of_nat (s_words s))
        then Some s else None, m).
Proof.
  intros lim [num w hb isz cur bb] m HS H0.
  pose proof (so_isz _ _ HS) as Ei. pose proof (so_cur _ _ HS) as Ec.
  cbn [s_num s_words s_res s_isz s_cur s_dat] in *. subst isz cur.
  destruct (so_inb_hdr _ _ HS) as (E1 & E2 & E3).
  cbn [s_num s_words s_res s_isz s_cur s_dat] in *.
  unfold stack_attach. cbn [s_num s_words s_res s_isz s_cur s_dat].
  rewrite run_bind, run_load by auto. cbn [bind].
  rewrite run_bind, run_load by auto. cbn [bind].
  destruct (Z.eqb_spec (m hb) 0), (Z.eqb_spec (m (hb + 4)) 0); cbn [andb]; try lia;
    destruct (Z.eqb_spec (m hb) num), (Z.eqb_spec (m (hb + 4)) (4 * Z.of_nat w)); reflexivity.
Qed.

(** *** The pool *)


Definition ones (l : list Z) : list (list Z) := map (fun x => [x]) l.

(** the segment holds a pool with [cur] indices ever handed out and [fs] returned ones *)
Record pool_rep (p : pool) (isz : Z) (m : mem) (fs : list Z) (cur : Z) : Prop := mkPoolRep
  { pr_res : m (p_res p) = p_num p;
    pr_isz : m (p_isz p) = isz;
    pr_cur : m (p_cur p) = cur;
    pr_bnd : 0 <= cur <= p_num p;
    pr_fs : stack_rep (p_free p) m (ones fs) }.

Lemma po_inb : forall lim p, pool_ok lim p ->
  inb lim 4 (p_res p) = true /\ inb lim 4 (p_isz p) = true /\ inb lim 4 (p_cur p) = true.
Proof.
  intros lim p [H1 H2 H3 H4 H5 H6 (H7 & H8) H9]. rewrite H5, H6.
  pose proof (so_hdr _ _ H1) as (A & B & C). rewrite H4 in *.
  assert ((p_res p + 4) mod 4 = 0) by now apply mod4_step.
  assert ((p_res p + 8) mod 4 = 0).
  { replace (p_res p + 8) with (p_res p + 4 + 4) by lia. now apply mod4_step. }
  repeat split; apply inb_true; auto; lia.
Qed.

Lemma ones_length : forall l, length (ones l) = length l.
Proof. intros. apply map_length. Qed.

(** stack_rep only looks at the stack's own cells *)
Lemma stack_rep_frame : forall lim s m m' l, stack_ok lim s -> stack_rep s m l ->
  (forall a, s_res s <= a < s_res s + 12 -> m' a = m a) ->
  (forall a, s_dat s <= a < s_dat s + stack_data_size (s_num s) (s_words s) -> m' a = m a) ->
  stack_rep s m' l.
Proof.
  intros lim s m m' l HS [R1 R2 R3 R4 R5] F1 F2.
  pose proof (so_isz _ _ HS). pose proof (so_cur _ _ HS).
  constructor; auto; try (rewrite F1 by lia; auto).
  intros k el Hk. rewrite <- (R5 k el Hk). apply rdw_ext. intros j Hj.
  apply F2. apply elem_addr; auto.
  assert ((k < length (rev l))%nat) by (apply nth_error_Some; congruence).
  rewrite rev_length in *. lia.
Qed.


Lemma sds1 : forall n, stack_data_size n 1 = 4 * n.
Proof. reflexivity. Qed.

Lemma pool_rep_frame : forall lim p isz m m' fs cur, pool_ok lim p ->
  pool_rep p isz m fs cur -> (forall a, pool_cell p a -> m' a = m a) ->
  pool_rep p isz m' fs cur.
Proof.
  intros lim p isz m m' fs cur HP [R1 R2 R3 R4 R5] F.
  pose proof (po_isz _ _ HP). pose proof (po_cur _ _ HP). pose proof (po_fres _ _ HP).
  constructor; auto; try (rewrite F by (unfold pool_cell; lia); auto).
  apply (stack_rep_frame lim _ m); auto. { apply (po_stack _ _ HP). }
  - intros a Ha. apply F. unfold pool_cell. lia.
  - intros a Ha. rewrite (po_words _ _ HP), (po_num _ _ HP), sds1 in Ha.
    apply F. unfold pool_cell. lia.
Qed.

Lemma run_allocate : forall lim p isz m fs cur, pool_ok lim p -> pool_rep p isz m fs cur ->
  run lim (pool_allocate p) m
  = match fs with
    | [] => if p_num p <=? cur then Ok (nil32, m) else Ok (cur, mset m (p_cur p) (cur + 1))
    | x :: fs => Ok (x, mset m (s_cur (p_free p)) (u32 (Z.of_nat (length fs) - 1)))
    end.
Proof.
  intros lim p isz m fs cur HP HR. unfold pool_allocate.
  pose proof (po_stack _ _ HP) as HS. pose proof (pr_fs _ _ _ _ _ HR) as HF.
  rewrite run_bind, (run_empty_rep lim _ _ (ones fs)) by auto.
  destruct fs as [|x fs]; cbn [ones map bind].
  - destruct (po_inb _ _ HP) as (E1 & E2 & E3).
    rewrite run_bind, run_load by auto. cbn [bind]. rewrite (pr_cur _ _ _ _ _ HR).
    destruct (p_num p <=? cur) eqn:Hc; [reflexivity|].
    apply Z.leb_gt in Hc. pose proof (pr_bnd _ _ _ _ _ HR). pose proof (so_num _ _ HS) as HN.
    rewrite (po_num _ _ HP) in HN.
    rewrite run_bind, run_store by auto. cbn [bind run]. rewrite u32_small by lia. reflexivity.
  - rewrite run_bind, (run_pop lim _ _ [x] (ones fs)) by auto. cbn [bind run hd].
    rewrite ones_length. reflexivity.
Qed.

Lemma allocate_rep_fresh : forall lim p isz m cur, pool_ok lim p -> pool_rep p isz m [] cur ->
  cur < p_num p -> pool_rep p isz (mset m (p_cur p) (cur + 1)) [] (cur + 1).
Proof.
  intros lim p isz m cur HP [R1 R2 R3 R4 R5] Hc.
  pose proof (po_isz _ _ HP). pose proof (po_cur _ _ HP). pose proof (po_fres _ _ HP).
  constructor.
  - rewrite mset_other by lia. auto.
  - rewrite mset_other by lia. auto.
  - apply mset_same.
  - lia.
  - apply (stack_rep_frame lim _ m); auto. { apply (po_stack _ _ HP). }
    + intros a Ha. apply mset_other. lia.
    + intros a Ha. rewrite (po_words _ _ HP), (po_num _ _ HP) in Ha. apply mset_other.
      pose proof (po_sep _ _ HP). lia.
Qed.

Lemma allocate_rep_reuse : forall lim p isz m x fs cur, pool_ok lim p ->
  pool_rep p isz m (x :: fs) cur ->
  pool_rep p isz (mset m (s_cur (p_free p)) (u32 (Z.of_nat (length fs) - 1))) fs cur.
Proof.
  intros lim p isz m x fs cur HP [R1 R2 R3 R4 R5].
  pose proof (po_isz _ _ HP). pose proof (po_cur _ _ HP). pose proof (po_fres _ _ HP).
  pose proof (so_cur _ _ (po_stack _ _ HP)).
  constructor; try (rewrite mset_other by lia; auto); auto.
  rewrite <- (ones_length fs). apply (pop_rep lim _ _ [x]); auto. apply (po_stack _ _ HP).
Qed.

(** the memory after free *)
Definition free_mem (p : pool) (m : mem) (fs : list Z) (x : Z) : mem :=
  mset (mset m (s_cur (p_free p)) (Z.of_nat (length fs)))
       (s_dat (p_free p) + 4 * Z.of_nat (length fs)) x.

Lemma push_mem_free : forall lim p m fs x, pool_ok lim p ->
  push_mem (p_free p) m (ones fs) [x] = free_mem p m fs x.
Proof.
  intros. unfold push_mem, free_mem, elem_at. rewrite ones_length, (po_words _ _ H).
  cbn [mwords]. reflexivity.
Qed.

Lemma run_free : forall lim p isz m fs cur x, pool_ok lim p -> pool_rep p isz m fs cur ->
  run lim (pool_free p x) m
  = if Z.of_nat (length fs) <? p_num p then Ok (true, free_mem p m fs x) else Ok (false, m).
Proof.
  intros lim p isz m fs cur x HP HR. unfold pool_free.
  rewrite (run_push lim _ _ (ones fs)).
  - rewrite ones_length, (po_num _ _ HP), (push_mem_free lim) by auto. reflexivity.
  - apply (po_stack _ _ HP).
  - apply (pr_fs _ _ _ _ _ HR).
  - rewrite (po_words _ _ HP). reflexivity.
Qed.

Lemma free_mem_frame : forall lim p m fs x a, pool_ok lim p ->
  Z.of_nat (length fs) < p_num p -> ~ pool_cell p a -> free_mem p m fs x a = m a.
Proof.
  intros lim p m fs x a HP HL HC. unfold free_mem, pool_cell in *.
  pose proof (so_cur _ _ (po_stack _ _ HP)). pose proof (po_fres _ _ HP).
  rewrite !mset_other by lia. auto.
Qed.

Lemma free_rep : forall lim p isz m fs cur x, pool_ok lim p -> pool_rep p isz m fs cur ->
  Z.of_nat (length fs) < p_num p -> pool_rep p isz (free_mem p m fs x) (x :: fs) cur.
Proof.
  intros lim p isz m fs cur x HP HR HL. pose proof HR as [R1 R2 R3 R4 R5].
  pose proof (po_isz _ _ HP). pose proof (po_cur _ _ HP). pose proof (po_fres _ _ HP).
  pose proof (so_cur _ _ (po_stack _ _ HP)). pose proof (po_sep _ _ HP).
  rewrite sds1 in *.
  constructor; auto; try (unfold free_mem; rewrite !mset_other by lia; auto).
  rewrite <- (push_mem_free lim) by auto. cbn [ones map]. apply (push_rep lim); auto.
  - apply (po_stack _ _ HP).
  - rewrite (po_words _ _ HP). reflexivity.
  - change (Z.of_nat (length (ones fs)) < s_num (p_free p)).
    rewrite ones_length, (po_num _ _ HP). auto.
Qed.

Lemma run_allocated : forall lim p isz m fs cur, pool_ok lim p -> pool_rep p isz m fs cur ->
  Z.of_nat (length fs) <= cur ->
  run lim (pool_allocated p) m = Ok (cur - Z.of_nat (length fs), m).
Proof.
  intros lim p isz m fs cur HP HR Hle. unfold pool_allocated.
  destruct (po_inb _ _ HP) as (E1 & E2 & E3).
  rewrite run_bind, run_load by auto. cbn [bind].
  rewrite run_bind, (run_used_rep lim _ _ (ones fs)).
  - cbn [bind run]. rewrite ones_length, (pr_cur _ _ _ _ _ HR).
    rewrite Z.mod_small; auto. pose proof (pr_bnd _ _ _ _ _ HR).
    pose proof (so_num _ _ (po_stack _ _ HP)) as HN. rewrite (po_num _ _ HP) in HN. lia.
  - apply (po_stack _ _ HP).
  - apply (pr_fs _ _ _ _ _ HR).
Qed.

Definition pool_clear_mem (p : pool) (m : mem) : mem :=
  mset (mset m (p_cur p) 0) (s_cur (p_free p)) nil32.

Lemma run_pool_clear : forall lim p m, pool_ok lim p ->
  run lim (pool_clear p) m = Ok (tt, pool_clear_mem p m).
Proof.
  intros lim p m HP. unfold pool_clear, stack_clear.
  destruct (po_inb _ _ HP) as (E1 & E2 & E3).
  destruct (so_inb_hdr _ _ (po_stack _ _ HP)) as (E4 & E5 & E6).
  rewrite run_bind, run_store by auto. cbn [bind]. rewrite run_store by auto. reflexivity.
Qed.

Lemma pool_clear_rep : forall lim p isz m fs cur, pool_ok lim p -> pool_rep p isz m fs cur ->
  pool_rep p isz (pool_clear_mem p m) [] 0.
Proof.
  intros lim p isz m fs cur HP [R1 R2 R3 R4 R5]. unfold pool_clear_mem.
  pose proof (po_isz _ _ HP). pose proof (po_cur _ _ HP). pose proof (po_fres _ _ HP).
  pose proof (so_cur _ _ (po_stack _ _ HP)).
  constructor.
  - rewrite !mset_other by lia. auto.
  - rewrite !mset_other by lia. auto.
  - rewrite mset_other by lia. apply mset_same.
  - lia.
  - apply (clear_rep lim _ _ (ones fs)). { apply (po_stack _ _ HP). }
    apply (stack_rep_frame lim _ m); auto. { apply (po_stack _ _ HP). }
    + intros a Ha. apply mset_other. lia.
    + intros a Ha. rewrite (po_words _ _ HP), (po_num _ _ HP) in Ha. apply mset_other.
      pose proof (po_sep _ _ HP). lia.
Qed.

Definition pool_init (p : pool) (isz : Z) (m : mem) : mem :=
  mset (mset (mset m (p_res p) (p_num p)) (p_isz p) isz) (p_cur p) 0.

Lemma pool_eta : forall lim p, pool_ok lim p -> p_free p =
  mkStack (p_num p) 1 (p_res p + 12) (s_isz (p_free p)) (s_cur (p_free p)) (s_dat (p_free p)).
Proof.
  intros lim p HP. rewrite <- (po_words _ _ HP), <- (po_num _ _ HP), <- (po_fres _ _ HP).
  destruct (p_free p); reflexivity.
Qed.

Lemma run_pool_attach_new : forall lim p isz m, pool_ok lim p ->
  m (p_res p) = 0 -> m (p_isz p) = 0 ->
  m (s_res (p_free p)) = 0 -> m (s_isz (p_free p)) = 0 ->
  run lim (pool_attach (p_num p) isz (p_res p) (s_dat (p_free p)) (p_dat p)) m
  = Ok (Some p, pool_init p isz (stack_init (p_free p) m)).
Proof.
  intros lim p isz m HP H1 H2 H3 H4.
  pose proof (po_isz _ _ HP) as Ei. pose proof (po_cur _ _ HP) as Ec.
  pose proof (po_fres _ _ HP) as Ef. pose proof (po_stack _ _ HP) as HS.
  pose proof (so_cur _ _ HS). pose proof (so_isz _ _ HS).
  destruct (po_inb _ _ HP) as (E1 & E2 & E3).
  unfold pool_attach. rewrite run_bind.
  assert (ES : run lim (stack_attach (p_num p) 1 (p_res p + 12) (s_dat (p_free p))) m
               = Ok (Some (p_free p), stack_init (p_free p) m)).
  { rewrite <- (po_words _ _ HP), <- (po_num _ _ HP), <- Ef. now apply run_stack_attach_new. }
  rewrite ES. cbn [bind]. rewrite <- Ei, <- Ec.
  rewrite run_bind, run_load by auto. cbn [bind].
  rewrite run_bind, run_load by auto. cbn [bind].
  unfold stack_init at 1 2. rewrite !mset_other by lia. rewrite H1, H2. cbn [Z.eqb andb].
  rewrite run_bind, run_store by auto. cbn [bind].
  rewrite run_bind, run_store by auto. cbn [bind].
  rewrite run_bind, run_store by auto. cbn [bind run].
  destruct p; reflexivity.
Qed.

Lemma pool_init_rep : forall lim p isz m, pool_ok lim p ->
  pool_rep p isz (pool_init p isz (stack_init (p_free p) m)) [] 0.
Proof.
  intros lim p isz m HP. unfold pool_init.
  pose proof (po_isz _ _ HP). pose proof (po_cur _ _ HP). pose proof (po_fres _ _ HP).
  pose proof (so_num _ _ (po_stack _ _ HP)). pose proof (po_num _ _ HP).
  constructor.
  - rewrite !mset_other by lia. apply mset_same.
  - rewrite mset_other by lia. apply mset_same.
  - apply mset_same.
  - lia.
  - apply (stack_rep_frame lim _ (stack_init (p_free p) m)). { apply (po_stack _ _ HP). }
    + apply (stack_init_rep lim). apply (po_stack _ _ HP).
    + intros a Ha. rewrite !mset_other by lia. auto.
    + intros a Ha. rewrite (po_words _ _ HP), (po_num _ _ HP) in Ha.
      pose proof (po_sep _ _ HP). rewrite !mset_other by lia. auto.
Qed.

Lemma run_pool_attach_old : forall lim p isz m fs cur, pool_ok lim p ->
  pool_rep p isz m fs cur -> isz <> 0 ->
  run lim (pool_attach (p_num p) isz (p_res p) (s_dat (p_free p)) (p_dat p)) m = Ok (Some p, m).
Proof.
  intros lim p isz m fs cur HP [R1 R2 R3 R4 R5] Hz.
  pose proof (po_isz _ _ HP) as Ei. pose proof (po_cur _ _ HP) as Ec.
  pose proof (po_fres _ _ HP) as Ef. pose proof (po_stack _ _ HP) as HS.
  destruct (po_inb _ _ HP) as (E1 & E2 & E3).
  unfold pool_attach. rewrite run_bind.
  assert (ES : run lim (stack_attach (p_num p) 1 (p_res p + 12) (s_dat (p_free p))) m
               = Ok (Some (p_free p), m)).
  { rewrite <- (po_words _ _ HP), <- (po_num _ _ HP), <- Ef.
    rewrite run_stack_attach_old; auto.
    - rewrite (sr_res _ _ _ R5), (sr_isz _ _ _ R5), !Z.eqb_refl. reflexivity.
    - right. rewrite (sr_isz _ _ _ R5), (po_words _ _ HP). discriminate. }
  rewrite ES. cbn [bind]. rewrite <- Ei, <- Ec.
  rewrite run_bind, run_load by auto. cbn [bind].
  rewrite run_bind, run_load by auto. cbn [bind].
  rewrite R1, R2. destruct (Z.eqb_spec isz 0); [congruence|]. rewrite andb_false_r.
  rewrite !Z.eqb_refl. cbn [negb orb run]. destruct p; reflexivity.
Qed.
