(** Lemmas about the shared-memory queue. *)

From Coq Require Import ZArith List Bool Lia.
From Verif Require Import Base Shm_Model Shm_Proof ShmMap_Proof ShmSys_Proof ShmQ_Spec ShmQ_Model.
Import ListNotations.
Local Open Scope Z_scope.

(** *** Bytes of the segment *)
Fixpoint mbytes (m : mem) (a : Z) (ws : list Z) : mem :=
  match ws with [] => m | w :: ws => mbytes (mset m a w) (a + 1) ws end.
Fixpoint rdb (m : mem) (a : Z) (n : nat) : list Z :=
  match n with O => [] | S n => m a :: rdb m (a + 1) n end.

Lemma rdb_length : forall n m a, length (rdb m a n) = n.
Proof. induction n; simpl; intros; auto. Qed.
Lemma mbytes_other : forall ws m a b, (b < a \/ a + Z.of_nat (length ws) <= b) ->
  mbytes m a ws b = m b.
Proof.
  induction ws as [|w ws IH]; intros m a b H; cbn [mbytes length] in *; auto.
  rewrite IH by lia. apply mset_other. lia.
Qed.
Lemma rdb_ext : forall n m m' a, (forall b, a <= b < a + Z.of_nat n -> m b = m' b) ->
  rdb m a n = rdb m' a n.
Proof.
  induction n as [|n IH]; intros m m' a H; cbn [rdb]; auto. f_equal.
  - apply H. lia.
  - apply IH. intros. apply H. lia.
Qed.
Lemma rdb_mbytes : forall ws m a, rdb (mbytes m a ws) a (length ws) = ws.
Proof.
  induction ws as [|w ws IH]; intros m a; cbn [mbytes rdb length]; auto. f_equal.
  - rewrite mbytes_other by lia. apply mset_same.
  - apply IH.
Qed.

Lemma inb1 : forall lim a, 0 <= a -> a + 1 <= lim -> inb lim 1 a = true.
Proof. intros. apply inb_true; auto. apply Z.mod_1_r. Qed.

Lemma run_load_bytes : forall lim n a m, 0 <= a -> a + Z.of_nat n <= lim ->
  run lim (load_bytes a n) m = Ok (rdb m a n, m).
Proof.
  induction n as [|n IH]; intros a m H0 H1; cbn [load_bytes rdb]; auto.
  unfold load. cbn [pbind run]. rewrite inb1 by lia. rewrite run_bind, IH by lia. reflexivity.
Qed.
Lemma run_store_bytes : forall lim ws a m, 0 <= a -> a + Z.of_nat (length ws) <= lim ->
  run lim (store_bytes a ws) m = Ok (tt, mbytes m a ws).
Proof.
  induction ws as [|w ws IH]; intros a m H0 H1; cbn [store_bytes mbytes length] in *; auto.
  unfold store. cbn [pbind run]. rewrite inb1 by lia. apply IH; lia.
Qed.

(** *** The ring *)
Section Ring.
Variable sz : Z.
Variable n : nat.
Hypothesis Hsz : 1 <= sz.
Hypothesis Hfit : sz * Z.of_nat n < 2^32.
Hypothesis Hsz32 : sz < 2^32.
Notation lim := (seg_size n sz).

Lemma lim_eq : lim = sz * Z.of_nat n + 64.
Proof. unfold seg_size. rewrite u32_small by lia. reflexivity. Qed.

Definition slot (j : Z) : Z := a_boxes + j * Z.of_nat n.

Record Rep (m : mem) (q : qst) (s : Z) : Prop := mkRep
  { r_size : m a_size = sz;
    r_bsz : m a_bsz = Z.of_nat n;
    r_s : 0 <= s < sz;
    r_start : m a_start = s;
    r_end : m a_end = (s + Z.of_nat (length (q_boxes q))) mod sz;
    r_len : Z.of_nat (length (q_boxes q)) <= sz - 1;
    r_box : forall k b, nth_error (q_boxes q) k = Some b ->
              rdb m (slot ((s + Z.of_nat k) mod sz)) n = b;
    r_regs : length (q_regs q) = 12%nat;
    r_reg : forall o, 0 <= o < 12 -> m (a_reg o) = nth (Z.to_nat o) (q_regs q) 0 }.

Lemma full_iff : forall s l, 0 <= s < sz -> 0 <= l <= sz - 1 ->
  (((s + l) mod sz + 1) mod sz = s <-> l = sz - 1).
Proof.
  intros s l Hs Hl. rewrite Zplus_mod_idemp_l. split; intro H.
  - assert (E : (s + l + 1) = sz * ((s + l + 1) / sz) + s)
      by (rewrite <- H at 3; apply Z.div_mod; lia).
    assert (l + 1 = sz * ((s + l + 1) / sz)) by lia.
    assert (0 < (s + l + 1) / sz) by nia. nia.
  - subst. replace (s + (sz - 1) + 1) with (s + 1 * sz) by lia.
    rewrite Z_mod_plus_full. apply Z.mod_small; lia.
Qed.

Lemma slot_range : forall j, 0 <= j < sz ->
  64 <= slot j /\ slot j + Z.of_nat n <= lim /\ 0 <= j * Z.of_nat n < 2^32.
Proof. intros. rewrite lim_eq. unfold slot, a_boxes. nia. Qed.
Lemma slot_sep : forall j k a, j <> k ->
  slot j <= a < slot j + Z.of_nat n -> a < slot k \/ slot k + Z.of_nat n <= a.
Proof. unfold slot. intros. nia. Qed.

Lemma inb_hdr : forall a, 0 <= a <= 60 -> a mod 4 = 0 -> inb lim 4 a = true.
Proof. intros. apply inb_true; auto; try lia. rewrite lim_eq. nia. Qed.

Ltac hdr := rewrite inb_hdr by (first [reflexivity | unfold a_size, a_bsz, a_start, a_end; lia]).

Definition flush_mem (m : mem) (e : Z) (b : list Z) : mem :=
  mset (mset (mbytes m (slot e) b) a_end (u32 (e + 1))) a_end ((e + 1) mod sz).

Lemma run_flush : forall m q s b, Rep m q s -> length b = n ->
  run lim (flush_body b) m =
  if Z.of_nat (length (q_boxes q)) <? sz - 1
  then Ok (QStored true, flush_mem m (m a_end) b) else Ok (QStored false, m).
Proof.
  intros m q s b R Hb. destruct R as [R1 R2 R3 R4 R5 R6 R7 R8 R9].
  set (e := m a_end) in *.
  assert (He : 0 <= e < sz) by (rewrite R5; apply Z.mod_pos_bound; lia).
  destruct (slot_range e He) as (S1 & S2 & S3).
  unfold flush_body, load, store, umod. cbn [pbind run].
  repeat hdr. fold e. rewrite R1.
  destruct (Z.eqb_spec sz 0) as [?|_]; [lia|]. cbn [pbind run].
  hdr. rewrite R4.
  assert (E1 : u32 (e + 1) mod sz = (e + 1) mod sz).
  { destruct (Z.eq_dec (e + 1) (2^32)) as [X|X].
    - lia.
    - rewrite u32_small by lia. reflexivity. }
  rewrite E1.
  destruct (Z.eqb_spec ((e + 1) mod sz) s) as [F|F]; cbn [negb pbind run].
  - rewrite R5 in F. apply full_iff in F; try lia.
    destruct (Z.ltb_spec (Z.of_nat (length (q_boxes q))) (sz - 1)); [lia|]. reflexivity.
  - destruct (Z.ltb_spec (Z.of_nat (length (q_boxes q))) (sz - 1)) as [L|L].
    2: { exfalso. apply F. rewrite R5. apply full_iff; lia. }
    repeat hdr. fold e. rewrite R2, u32_small by lia.
    rewrite run_bind, run_store_bytes.
    2,3: unfold slot in *; rewrite ?Hb; lia.
    cbn [bind pbind run]. repeat hdr.
    fold (slot e).
    assert (E2 : mbytes m (slot e) b a_end = e).
    { rewrite mbytes_other by (left; unfold a_end; lia). reflexivity. }
    assert (E3 : mset (mbytes m (slot e) b) a_end (u32 (e + 1)) a_size = sz).
    { rewrite mset_other by (unfold a_end, a_size; lia).
      rewrite mbytes_other by (left; unfold a_size; lia). auto. }
    rewrite E2, E3, mset_same.
    destruct (Z.eqb_spec sz 0) as [?|_]; [lia|]. cbn [pbind run]. hdr. rewrite E1. reflexivity.
Qed.

Lemma flush_mem_other : forall m e b a, 0 <= e < sz -> length b = n -> a <> a_end ->
  (a < slot e \/ slot e + Z.of_nat n <= a) -> flush_mem m e b a = m a.
Proof.
  intros. unfold flush_mem. rewrite !mset_other by auto. apply mbytes_other. rewrite H0. auto.
Qed.

Lemma mod_slot_ne : forall s k j, 0 <= k < j -> j < sz -> 0 <= s < sz ->
  (s + k) mod sz <> (s + j) mod sz.
Proof.
  intros s k j H1 H2 H3 E.
  pose proof (Z.div_mod (s + k) sz ltac:(lia)). pose proof (Z.div_mod (s + j) sz ltac:(lia)).
  rewrite E in H. assert (X : j - k = sz * ((s + j) / sz - (s + k) / sz)) by lia.
  assert ((s + j) / sz - (s + k) / sz <= 0 \/ 1 <= (s + j) / sz - (s + k) / sz) as [?|?] by lia; nia.
Qed.

Lemma flush_rep : forall m q s b, Rep m q s -> length b = n ->
  Z.of_nat (length (q_boxes q)) < sz - 1 ->
  Rep (flush_mem m (m a_end) b) (mkQ (q_boxes q ++ [b]) (q_regs q)) s.
Proof.
  intros m q s b R Hb L. destruct R as [R1 R2 R3 R4 R5 R6 R7 R8 R9].
  set (e := m a_end) in *.
  assert (He : 0 <= e < sz) by (rewrite R5; apply Z.mod_pos_bound; lia).
  destruct (slot_range e He) as (S1 & S2 & S3).
  assert (F : forall a, a < 64 -> a <> a_end -> flush_mem m e b a = m a).
  { intros. apply flush_mem_other; auto. left. lia. }
  constructor; cbn [q_boxes q_regs]; auto.
  - rewrite F; auto; unfold a_size, a_end; lia.
  - rewrite F; auto; unfold a_bsz, a_end; lia.
  - rewrite F; auto; unfold a_start, a_end; lia.
  - unfold flush_mem at 1. rewrite mset_same, app_length. cbn [length].
    rewrite R5, Zplus_mod_idemp_l. f_equal. lia.
  - rewrite app_length; cbn [length]. lia.
  - intros k x E. destruct (Nat.lt_ge_cases k (length (q_boxes q))) as [K|K].
    + rewrite nth_error_app1 in E by auto. rewrite <- (R7 k x E). apply rdb_ext.
      intros a Ha.
      assert (0 <= (s + Z.of_nat k) mod sz < sz) by (apply Z.mod_pos_bound; lia).
      assert (NE : (s + Z.of_nat k) mod sz <> e) by (rewrite R5; apply mod_slot_ne; lia).
      pose proof (slot_range _ H).
      apply flush_mem_other; auto. { unfold a_end. lia. }
      apply (slot_sep _ _ _ NE). lia.
    + rewrite nth_error_app2 in E by auto.
      destruct (k - length (q_boxes q))%nat as [|k'] eqn:Ek; [|destruct k'; discriminate].
      cbn in E. injection E as <-. assert (k = length (q_boxes q)) by lia. subst k.
      rewrite <- R5. unfold flush_mem.
      rewrite (rdb_ext n _ (mbytes m (slot e) b)).
      * rewrite <- Hb. apply rdb_mbytes.
      * intros a Ha. rewrite !mset_other by (unfold a_end; lia). reflexivity.
  - intros o Ho. rewrite F; auto; unfold a_reg, a_end; lia.
Qed.

Definition unflush_mem (m : mem) (s : Z) : mem :=
  mset (mset (mbytes m (slot s) (repeat 0 n)) a_start (u32 (s + 1))) a_start ((s + 1) mod sz).

Lemma run_unflush : forall m q s b l, Rep m q s -> q_boxes q = b :: l ->
  run lim (unflush_body n) m = Ok (QBox b, unflush_mem m s).
Proof.
  intros m q s b l R Hq. destruct R as [R1 R2 R3 R4 R5 R6 R7 R8 R9].
  destruct (slot_range s R3) as (S1 & S2 & S3).
  unfold unflush_body, load, store, umod. cbn [pbind run]. repeat hdr. rewrite R4, R2, u32_small by lia.
  rewrite run_bind, run_load_bytes by (unfold slot in *; lia). cbn [bind run]. hdr.
  rewrite R2, Nat2Z.id. rewrite run_bind, run_store_bytes.
  2,3: rewrite ?repeat_length; unfold slot in *; lia.
  cbn [bind run]. fold (slot s). repeat hdr.
  assert (E2 : mbytes m (slot s) (repeat 0 n) a_start = s).
  { rewrite mbytes_other by (left; unfold a_start; lia). auto. }
  assert (E3 : mset (mbytes m (slot s) (repeat 0 n)) a_start (u32 (s + 1)) a_size = sz).
  { rewrite mset_other by (unfold a_start, a_size; lia).
    rewrite mbytes_other by (left; unfold a_size; lia). auto. }
  rewrite E2, E3, mset_same.
  destruct (Z.eqb_spec sz 0) as [?|_]; [lia|]. cbn [pbind run]. hdr.
  assert (Hb : rdb m (slot s) n = b).
  { specialize (R7 0%nat b). rewrite Hq in R7. specialize (R7 eq_refl).
    rewrite Z.add_0_r, Z.mod_small in R7 by lia. auto. }
  rewrite Hb. unfold unflush_mem. repeat f_equal. rewrite u32_small by lia. reflexivity.
Qed.

Lemma unflush_rep : forall m q s b l, Rep m q s -> q_boxes q = b :: l ->
  Rep (unflush_mem m s) (mkQ l (q_regs q)) ((s + 1) mod sz).
Proof.
  intros m q s b l R Hq. destruct R as [R1 R2 R3 R4 R5 R6 R7 R8 R9].
  destruct (slot_range s R3) as (S1 & S2 & S3).
  rewrite Hq in R5, R6, R7. cbn [length] in *.
  assert (G : forall a, a <> a_start -> (a < slot s \/ slot s + Z.of_nat n <= a) ->
              unflush_mem m s a = m a).
  { intros. unfold unflush_mem. rewrite !mset_other by auto. apply mbytes_other.
    rewrite repeat_length. auto. }
  assert (F : forall a, a < 64 -> a <> a_start -> unflush_mem m s a = m a).
  { intros. apply G; auto. left. lia. }
  constructor; cbn [q_boxes q_regs]; auto.
  - rewrite F; auto; unfold a_size, a_start; lia.
  - rewrite F; auto; unfold a_bsz, a_start; lia.
  - apply Z.mod_pos_bound; lia.
  - rewrite F by (unfold a_start, a_end; lia). rewrite R5, Zplus_mod_idemp_l. f_equal. lia.
  - lia.
  - intros k x E. specialize (R7 (S k) x E).
    rewrite Zplus_mod_idemp_l. replace (s + 1 + Z.of_nat k) with (s + Z.of_nat (S k)) by lia.
    assert (Hk : (S k < S (length l))%nat).
    { apply -> Nat.succ_lt_mono. apply nth_error_Some. congruence. }
    rewrite <- R7. apply rdb_ext. intros a Ha.
    assert (H : 0 <= (s + Z.of_nat (S k)) mod sz < sz) by (apply Z.mod_pos_bound; lia).
    pose proof (slot_range _ H).
    assert (NE : (s + Z.of_nat (S k)) mod sz <> s).
    { pose proof (mod_slot_ne s 0 (Z.of_nat (S k)) ltac:(lia) ltac:(lia) R3) as X.
      rewrite Z.add_0_r, (Z.mod_small s sz) in X by lia. auto. }
    apply G. { unfold a_start. lia. } apply (slot_sep _ _ _ NE). lia.
  - intros o Ho. rewrite F; auto; unfold a_reg, a_start; lia.
Qed.

(** *** Registers *)
Lemma set_nth_length : forall l i v, length (set_nth l i v) = length l.
Proof. induction l as [|x l IH]; intros [|i] v; simpl; auto. Qed.
Lemma nth_set_nth : forall l i v j d, (i < length l)%nat ->
  nth j (set_nth l i v) d = if (j =? i)%nat then v else nth j l d.
Proof.
  induction l as [|x l IH]; intros [|i] v [|j] d H; simpl in *; auto; try lia. apply IH. lia.
Qed.

Lemma a_reg_hdr : forall o, 0 <= o < 12 -> inb lim 4 (a_reg o) = true.
Proof.
  intros. apply inb_hdr; unfold a_reg; [lia|].
  replace (16 + 4 * o) with (0 + (4 + o) * 4) by lia. now rewrite Z_mod_plus_full.
Qed.

Lemma set_reg_rep : forall m q s o v, Rep m q s -> 0 <= o < 12 ->
  Rep (mset m (a_reg o) v) (mkQ (q_boxes q) (set_nth (q_regs q) (Z.to_nat o) v)) s.
Proof.
  intros m q s o v R Ho. destruct R as [R1 R2 R3 R4 R5 R6 R7 R8 R9].
  constructor; cbn [q_boxes q_regs]; auto;
    try (rewrite mset_other by (unfold a_size, a_bsz, a_start, a_end, a_reg; lia); auto).
  - intros k b E. rewrite <- (R7 k b E). apply rdb_ext. intros a Ha.
    assert (H : 0 <= (s + Z.of_nat k) mod sz < sz) by (apply Z.mod_pos_bound; lia).
    pose proof (slot_range _ H). apply mset_other. unfold a_reg. lia.
  - rewrite set_nth_length. auto.
  - intros p Hp. rewrite nth_set_nth by (rewrite R8; lia).
    destruct (Nat.eqb_spec (Z.to_nat p) (Z.to_nat o)).
    + assert (p = o) by lia. subst. apply mset_same.
    + rewrite mset_other by (unfold a_reg; lia). auto.
Qed.

(** the section of a well-formed call does what the specification says *)
Lemma run_body : forall m q s o, Rep m q s -> qwf n o -> noreg o = None ->
  (o = QUnflush -> q_boxes q <> []) ->
  exists r m' q' s', run lim (body n o) m = Ok (r, m') /\ Rep m' q' s'
    /\ qspec sz q o = Some (r, q').
Proof.
  intros m q s o R W N U. destruct o as [b| |o v|o]; cbn [body qwf noreg qspec] in *.
  - rewrite (run_flush m q s b R W).
    destruct (Z.ltb_spec (Z.of_nat (length (q_boxes q))) (sz - 1)).
    + do 4 eexists. split; [reflexivity|]. split; [|reflexivity]. eapply flush_rep; eauto.
    + do 4 eexists. split; [reflexivity|]. split; [|reflexivity]. eauto.
  - destruct (q_boxes q) as [|b l] eqn:E; [now elim U|].
    rewrite (run_unflush m q s b l R E).
    do 4 eexists. split; [reflexivity|]. split; [|reflexivity]. eapply unflush_rep; eauto.
  - destruct (Z.leb_spec 12 o); [discriminate|].
    unfold set_reg_body, store. cbn [pbind run]. rewrite a_reg_hdr by lia.
    destruct (Z.ltb_spec o 12); [|lia].
    do 4 eexists. split; [reflexivity|]. split; [|reflexivity]. eapply set_reg_rep; [eauto|lia].
  - destruct (Z.leb_spec 12 o); [discriminate|].
    unfold get_reg_body, load. cbn [pbind run]. rewrite a_reg_hdr by lia.
    destruct (Z.ltb_spec o 12); [|lia].
    do 4 eexists. split; [reflexivity|]. split; [eauto|]. now rewrite (r_reg _ _ _ R) by lia.
Qed.

(** *** A new segment *)
Fixpoint mzero (m : mem) (a : Z) (k : nat) : mem :=
  match k with O => m | S k => mzero (mset m a 0) (a + 4) k end.
Lemma run_zero_words : forall k a m, 0 <= a -> a mod 4 = 0 -> a + 4 * Z.of_nat k <= lim ->
  run lim (zero_words a k) m = Ok (tt, mzero m a k).
Proof.
  induction k as [|k IH]; intros a m H0 H1 H2; cbn [zero_words mzero]; auto.
  unfold store. cbn [pbind run]. rewrite inb_true by (auto; lia).
  apply IH; try lia. now apply mod4_step.
Qed.

Lemma run_attach_new : forall m,
  exists m', run lim (attach_body true n sz) m = Ok (tt, m') /\ Rep m' (mkQ [] (repeat 0 12)) 0.
Proof.
  intros m. unfold attach_body.
  assert (L : lim = sz * Z.of_nat n + 64) by apply lim_eq.
  assert (LN : Z.of_nat (Z.to_nat (u32 (sz * Z.of_nat n))) = sz * Z.of_nat n)
    by (rewrite u32_small by lia; lia).
  rewrite run_bind.
  rewrite run_bind, run_zero_words; [|lia|reflexivity|nia]. cbn [bind].
  rewrite run_bind, run_store_bytes.
  2: unfold a_boxes; lia. 2: { rewrite repeat_length, LN. unfold a_boxes. lia. }
  cbn [bind]. unfold store, load. cbn [pbind run]. repeat hdr. cbn [bind]. cbn [run]. repeat hdr.
  set (m1 := mbytes (mzero m 0 16) a_boxes (repeat 0 (Z.to_nat (u32 (sz * Z.of_nat n))))).
  set (m2 := mset (mset m1 a_bsz (Z.of_nat n)) a_size sz).
  assert (E1 : m2 a_bsz = Z.of_nat n).
  { unfold m2. rewrite mset_other by (unfold a_bsz, a_size; lia). apply mset_same. }
  assert (E2 : m2 a_size = sz) by apply mset_same.
  rewrite E1, E2, !Z.eqb_refl. cbn [negb orb run]. eexists. split; [reflexivity|].
  assert (Z0 : forall o, 2 <= o < 16 -> m2 (4 * o) = 0).
  { intros o Ho. unfold m2. rewrite !mset_other by (unfold a_bsz, a_size; lia).
    unfold m1. rewrite mbytes_other by (left; unfold a_boxes; lia).
    assert (D : o = 2 \/ o = 3 \/ o = 4 \/ o = 5 \/ o = 6 \/ o = 7 \/ o = 8 \/ o = 9 \/ o = 10
                \/ o = 11 \/ o = 12 \/ o = 13 \/ o = 14 \/ o = 15) by lia.
    repeat (destruct D as [D|D]; [subst o; reflexivity|]). subst o; reflexivity. }
  constructor; cbn [q_boxes q_regs length]; auto; try lia.
  - apply (Z0 2). lia.
  - rewrite Zmod_0_l. apply (Z0 3). lia.
  - intros [|k] b E; discriminate.
  - intros o Ho. replace (nth (Z.to_nat o) (repeat 0 12) 0) with 0.
    2: { symmetry. apply nth_repeat. }
    unfold a_reg. replace (16 + 4 * o) with (4 * (4 + o)) by lia. apply Z0. lia.
Qed.

End Ring.
