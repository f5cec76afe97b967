(** The chains while a loop of the user changes the shared hash map. *)

From Coq Require Import ZArith List Bool Lia Permutation.
From Verif Require Import Base Shm_Model Shm_Spec Shm_Proof ShmMap_Proof ShmOps_Proof
  ShmOps2_Proof ShmIter_Model ShmIter_Spec.
Import ListNotations.
Local Open Scope Z_scope.

Lemma split_unique : forall (A : Type) (f : A -> Z) l a x b a' y b',
  NoDup (map f l) -> l = a ++ x :: b -> l = a' ++ y :: b' -> f x = f y ->
  a = a' /\ x = y /\ b = b'.
Proof.
  intros A f l a. revert l. induction a as [|z a IH]; intros l x b a' y b' ND E E' Ef; subst l.
  - destruct a' as [|z' a']; cbn [app map] in *.
    + injection E' as -> ->. auto.
    + injection E' as -> ->. exfalso. apply NoDup_cons_iff in ND. apply (proj1 ND).
      rewrite map_app. apply in_or_app. right. cbn [map]. left. auto.
  - destruct a' as [|z' a']; cbn [app map] in *.
    + injection E' as -> <-. exfalso. apply NoDup_cons_iff in ND. apply (proj1 ND).
      rewrite map_app. apply in_or_app. right. cbn [map]. left. auto.
    + injection E' as -> E'. apply NoDup_cons_iff in ND. destruct ND as (_ & ND).
      destruct (IH _ x b a' y b' ND eq_refl E' Ef) as (-> & -> & ->). auto.
Qed.

Section Iter.
Variable P : tpar.
Hypothesis HP : fits P.
Notation N := (nobj P).
Notation hs := (hsize P).
Notation ns := (node_size P).
Notation lim := (required_space P).
Notation nodes := (nodes P).
Notation entry := (entry P).
Notation entries := (entries P).
Notation Cont := (Cont P).
Notation Inv := (Inv P).
Notation bucket := (a_bucket P).
Notation next := (a_next P).
Notation key := (a_key P).
Notation endc := (endc P).
Notation agree := (agree P).
Notation itat := (itat P).
Notation after := (after P).

(** *** erase, with the chains afterwards *)

Lemma erase_exact : forall m ch fs cur lk h l1 i l2 k f, Inv m ch fs cur lk -> 0 <= lk ->
  0 <= h < hs -> ch h = l1 ++ i :: l2 -> m (key i) = k -> (Z.to_nat N < f)%nat ->
  wp lim anym (erase P f k) m
    (fun _ m' => Inv m' (setch ch h (l1 ++ l2)) (i :: fs) cur lk
       /\ (forall j, In j (nodes (setch ch h (l1 ++ l2))) -> entry m' j = entry m j)
       /\ m' (next i) = nil32
       /\ Permutation (entries m ch) (entry m i :: entries m' (setch ch h (l1 ++ l2)))).
Proof.
  intros m ch fs cur lk h l1 i l2 k f HI Hlk Hh E Ek Hf.
  pose proof (iv_ct _ _ _ _ _ _ HI) as HC. pose proof HP as (P1 & P2 & P3).
  assert (Hich : In i (ch h)) by (rewrite E; apply in_or_app; right; now left).
  assert (Ehk : hidx P k = h).
  { pose proof (ct_key _ _ _ HC h i Hh Hich) as X. rewrite Ek in X. exact X. }
  assert (HIm : anym m) by exact Logic.I.
  set (Q := fun (_ : bool) m' => Inv m' (setch ch h (l1 ++ l2)) (i :: fs) cur lk
       /\ (forall j, In j (nodes (setch ch h (l1 ++ l2))) -> entry m' j = entry m j)
       /\ m' (next i) = nil32
       /\ Permutation (entries m ch) (entry m i :: entries m' (setch ch h (l1 ++ l2)))).
  assert (Qtail : wp lim anym (erase_tail P (endc (bucket h) l1) i) m Q).
  { destruct (inv_unlink P HP m ch fs cur lk h l1 i l2 HI Hh E) as (HI1 & Hp1 & Hfl & Hi).
    set (m1 := mset m (endc (bucket h) l1) (m (next i))) in *.
    set (ch1 := setch ch h (l1 ++ l2)) in *.
    pose proof (iv_cur _ _ _ _ _ _ HI) as HB.
    pose proof (node_facts P) as (F1 & F2 & F3 & F4 & F5). unfold wsz in F1.
    assert (HiN : 0 <= i < N) by lia.
    assert (Hfn : ~ In i (nodes ch1)) by (intro; apply Hfl; apply in_or_app; auto).
    assert (Fr2 : forall a, a < key i \/ key i + ns <= a -> mset m1 (next i) nil32 a = m1 a).
    { intros a Ha. apply mset_other. rewrite a_next_key. lia. }
    destruct (inv_float P HP _ _ _ _ _ _ _ HI1 HiN Hfn Fr2) as (HI2 & AG2).
    set (m2 := mset m1 (next i) nil32) in *.
    unfold erase_tail.
    apply wp_bind, wp_load; auto. { apply inb_next; auto. }
    apply wp_bind, wp_store; try exact Logic.I.
    { apply (endc_inb P HP m ch h l1 (i :: l2)); auto. }
    fold m1. apply wp_bind, wp_store; try exact Logic.I.
    { apply inb_next; auto. }
    fold m2. apply wp_bind.
    assert (WF : wp lim (fun m' => forall a, a_objs P <= a -> m' a = m2 a)
      (pool_free (the_pool P) i) m2 (fun _ m' => Inv m' ch1 (i :: fs) cur (lk + 1 - 1) /\ agree ch1 m2 m')).
    { apply (wp_free P HP _ m2 ch1 fs cur (lk + 1)); auto; lia. }
    apply (wp_mono _ _ _ _ _ _ _ _ WF). { intros; exact Logic.I. }
    intros b m' Fr3 (HI3 & AG3). replace (lk + 1 - 1) with lk in HI3 by lia.
    apply wp_ret. { exact Logic.I. }
    assert (HE1 : forall j, In j (nodes ch1) -> entry m' j = entry m1 j).
    { intros j Hj. rewrite (agree_entry P ch1 m2 m' j AG3 Hj). apply (agree_entry P ch1); auto. }
    split; [auto|split; [|split]].
    - intros j Hj. rewrite HE1 by auto. apply (entry_relink P HP m ch h); auto.
      + apply (endc_cell P h l1 (i :: l2)); auto.
      + apply (ct_in _ _ _ (iv_ct _ _ _ _ _ _ HI1)); auto.
    - rewrite Fr3. { apply mset_same. }
      pose proof (node_region P HP i HiN) as (R1 & R2 & _). rewrite a_next_key. lia.
    - rewrite Hp1. apply perm_skip. unfold ShmMap_Proof.entries.
      rewrite (map_ext_in (entry m') (entry m1)); auto. }
  assert (Qhit : forall l1' i' l2', ch h = l1' ++ i' :: l2' -> m (key i') = k ->
     wp lim anym (erase_tail P (endc (bucket h) l1') i') m Q).
  { intros l1' i' l2' E' Ek'.
    destruct (split_unique _ (fun j => m (key j)) (ch h) l1 i l2 l1' i' l2'
      (ct_kd _ _ _ HC h Hh) E E') as (<- & <- & <-); auto. congruence. }
  assert (Qmiss : (forall j, In j (ch h) -> m (key j) <> k) -> Q false m).
  { intro X. exfalso. apply (X i); auto. }
  unfold erase. destruct (Z.eqb_spec hs 0); [lia|]. rewrite Ehk.
  apply wp_bind, wp_load; auto. { apply inb_bucket; auto. }
  pose proof (ct_ch _ _ _ HC h Hh) as Hchain.
  pose proof (chain_len P HP _ _ _ HC Hh) as Hlen.
  destruct (ch h) as [|y l] eqn:Ec; [destruct l1; discriminate|].
  cbn [ShmMap_Proof.chain] in Hchain. destruct Hchain as (Hy & Hc2). rewrite Hy.
  assert (HyN : 0 <= y < N).
  { apply (ct_chain_in P HP _ _ h _ HC); auto. rewrite Ec. now left. }
  destruct (Z.eqb_spec y nil32) as [X|_]; [exfalso; revert X; apply (N_nil P HP); auto|].
  apply wp_bind, wp_load; auto. { apply inb_key; auto. }
  destruct (Z.eqb_spec k (m (key y))) as [Ek1|Ek1].
  - exact (Qhit [] y l eq_refl (eq_sym Ek1)).
  - apply wp_bind, wp_load; auto. { apply inb_next; auto. }
    rewrite <- Ec in Qmiss.
    apply (wp_erase_loop P HP _ m k _ h ch HC Hh HIm) with (l := l) (l0 := []); auto.
    + intros l1' j l2' E1 Ej. rewrite Ec in E1. apply (Qhit l1' j l2'); auto.
    + cbn [length] in Hlen. lia.
    + intros j [<-|[]]. auto.
Qed.

(** *** the iterator *)

(** the iterator stands on the first node of a bucket from [i] on *)
Definition itfrom (ch : Z -> list Z) (i : Z) (it : iter) (rem : list Z) : Prop :=
  (rem = [] /\ it = it_end)
  \/ exists h x l, it = (h, x) /\ i <= h < hs /\ ch h = x :: l /\ rem = x :: l ++ after ch h.

Lemma scan_from : forall m ch, Cont m ch -> forall n i, 0 <= i -> i + Z.of_nat n = hs ->
  wp lim anym (it_scan P n i) m
    (fun it m' => m' = m /\ itfrom ch i it (flat_map ch (zfrom n i))).
Proof.
  intros m ch HC. induction n as [|n IH]; intros i Hi Hn; cbn [it_scan zfrom flat_map].
  - apply wp_ret. { exact Logic.I. } split; auto. left. auto.
  - assert (Hh : 0 <= i < hs) by lia.
    apply wp_bind, wp_load; try exact Logic.I. { apply inb_bucket; auto. }
    pose proof (ct_ch _ _ _ HC i Hh) as C. destruct (ch i) as [|x l] eqn:E; cbn [ShmMap_Proof.chain] in C.
    + rewrite C, Z.eqb_refl. cbn [negb app].
      apply (wp_mono _ _ _ _ _ _ _ _ (IH (i + 1) ltac:(lia) ltac:(lia))). { auto. }
      intros it m' _ (-> & [X|(h & x & l & -> & Hr & E1 & ->)]); split; auto. { left. auto. }
      right. exists h, x, l. repeat split; auto; lia.
    + destruct C as (C1 & C2). rewrite C1.
      assert (Hx : 0 <= x < N).
      { apply (ct_chain_in P HP _ _ i _ HC); auto. rewrite E. now left. }
      destruct (Z.eqb_spec x nil32) as [Y|_]; [exfalso; revert Y; apply (N_nil P HP); auto|].
      cbn [negb]. apply wp_ret. { exact Logic.I. } split; auto. right.
      exists i, x, l. split; auto. split; [lia|]. split; auto.
      unfold ShmOps2_Proof.after. replace (Z.to_nat (hs - (i + 1))) with n by lia. reflexivity.
Qed.

Lemma next_from : forall m ch, Cont m ch -> forall h x l1 l2, 0 <= h < hs -> ch h = l1 ++ x :: l2 ->
  wp lim anym (it_next P (h, x)) m
    (fun it m' => m' = m /\ match l2 with
                            | y :: _ => it = (h, y)
                            | [] => itfrom ch (h + 1) it (after ch h)
                            end).
Proof.
  intros m ch HC h x l1 l2 Hh E. unfold it_next. cbn [fst snd].
  assert (Hx : 0 <= x < N).
  { apply (ct_chain_in P HP _ _ h _ HC); auto. rewrite E. apply in_or_app. right. now left. }
  apply wp_bind, wp_load; try exact Logic.I. { apply inb_next; auto. }
  pose proof (ct_ch _ _ _ HC h Hh) as C. rewrite E in C. apply chain_split in C.
  cbn [ShmMap_Proof.chain] in C. destruct C as (C1 & C2).
  destruct l2 as [|y l2]; cbn [ShmMap_Proof.chain] in C2.
  - rewrite C2, Z.eqb_refl. cbn [negb app]. unfold ShmOps2_Proof.after.
    apply scan_from; auto; lia.
  - destruct C2 as (C2 & C3). rewrite C2.
    assert (Hy : 0 <= y < N).
    { apply (ct_chain_in P HP _ _ h _ HC); auto. rewrite E. apply in_or_app. right. right. now left. }
    destruct (Z.eqb_spec y nil32) as [Y|_]; [exfalso; revert Y; apply (N_nil P HP); auto|].
    cbn [negb]. apply wp_ret. { exact Logic.I. } split; auto.
Qed.

(** ++ on a node that has left its chain goes on with the next bucket *)
Lemma next_cut : forall m ch, Cont m ch -> forall h x, 0 <= h < hs -> 0 <= x < N ->
  m (next x) = nil32 ->
  wp lim anym (it_next P (h, x)) m (fun it m' => m' = m /\ itfrom ch (h + 1) it (after ch h)).
Proof.
  intros m ch HC h x Hh Hx En. unfold it_next. cbn [fst snd].
  apply wp_bind, wp_load; try exact Logic.I. { apply inb_next; auto. }
  rewrite En, Z.eqb_refl. cbn [negb]. unfold ShmOps2_Proof.after. apply scan_from; auto; lia.
Qed.

Lemma zfrom_in : forall n i x, In x (zfrom n i) -> i <= x < i + Z.of_nat n.
Proof.
  induction n as [|n IH]; intros i x; cbn [zfrom In]; [tauto|].
  intros [<-|H]; [lia|]. apply IH in H. lia.
Qed.
Lemma after_ext : forall ch ch' h, 0 <= h -> (forall x, h < x < hs -> ch x = ch' x) ->
  after ch h = after ch' h.
Proof.
  intros ch ch' h Hh HE. unfold ShmOps2_Proof.after.
  assert (G : forall l, (forall x, In x l -> ch x = ch' x) -> flat_map ch l = flat_map ch' l).
  { induction l as [|y l IH]; intro Hl; cbn [flat_map]; auto.
    rewrite IH, (Hl y); auto. { now left. } intros x Hx. apply Hl. now right. }
  apply G. intros x Hx. apply zfrom_in in Hx. apply HE. lia.
Qed.
Lemma after_in : forall ch h j, 0 <= h -> In j (after ch h) -> In j (nodes ch).
Proof.
  intros ch h j Hh Hj. unfold ShmOps2_Proof.after in Hj. apply in_flat_map in Hj.
  destruct Hj as (x & Hx & Hj). apply zfrom_in in Hx. apply (in_nodes P HP). exists x. split; auto. lia.
Qed.

Lemma itfrom_itat : forall ch i it rem, 0 <= i -> itfrom ch i it rem -> itat ch it rem.
Proof.
  intros ch i it rem Hi [H|(h & x & l & -> & Hr & E & ->)]; [left; auto|].
  right. exists h, x, [], l. repeat split; auto; lia.
Qed.
Lemma itfrom_ext : forall ch ch' h it rem, 0 <= h -> (forall x, h < x < hs -> ch x = ch' x) ->
  itfrom ch (h + 1) it rem -> itfrom ch' (h + 1) it rem.
Proof.
  intros ch ch' h it rem Hh HE [H|(h' & x & l & -> & Hr & E & ->)]; [left; auto|].
  right. exists h', x, l. split; auto. split; auto. split. { rewrite <- HE by lia. auto. }
  f_equal. f_equal. apply after_ext; [lia|]. intros. apply HE. lia.
Qed.
Lemma itat_nodes : forall ch it rem j, itat ch it rem -> In j rem -> In j (nodes ch).
Proof.
  intros ch it rem j [(-> & _)|(h & x & l1 & l2 & _ & Hh & E & ->)] Hj; [destruct Hj|].
  change (x :: l2 ++ after ch h) with ((x :: l2) ++ after ch h) in Hj.
  apply in_app_or in Hj. destruct Hj as [Hj|Hj].
  - apply (in_nodes P HP). exists h. split; auto. rewrite E. apply in_or_app. auto.
  - apply (after_in ch h); auto. lia.
Qed.

Lemma it_neq_end : forall h x, 0 <= h < hs -> it_neq (h, x) it_end = true.
Proof.
  intros h x Hh. unfold it_neq, it_end. cbn [fst snd].
  destruct (Z.eqb_spec h nil32) as [Y|]; auto. exfalso. rewrite nil32_val in Y.
  destruct HP as (_ & HH & _). lia.
Qed.

Lemma begin_at : forall m ch, Cont m ch ->
  wp lim anym (it_begin P) m (fun it m' => m' = m /\ itat ch it (nodes ch)).
Proof.
  intros m ch HC. unfold it_begin. pose proof HP as (P1 & P2 & P3).
  apply (wp_mono _ _ _ _ _ _ _ _ (scan_ok P HP m ch HC (Z.to_nat hs) 0 ltac:(lia) ltac:(lia))).
  { auto. }
  intros it m' _ (-> & HA). split; auto. unfold ShmMap_Proof.nodes. rewrite zfrom_buckets. auto.
Qed.

Notation selE sel := (fun e : Z * list Z => sel (fst e) (snd e)) (only parsing).

(** *** moving on before erasing *)

Lemma sweep_loop_ok : forall f sel, (Z.to_nat N < f)%nat ->
  forall rem it n m ch fs cur lk, Inv m ch fs cur lk -> 0 <= lk -> itat ch it rem ->
  (length rem < n)%nat ->
  wp lim anym (sweep_loop P f sel n it) m
    (fun l m' => l = map (entry m) rem
       /\ exists ch' fs', Inv m' ch' fs' cur lk
       /\ Permutation (entries m ch) (filter (selE sel) (map (entry m) rem) ++ entries m' ch')).
Proof.
  intros f sel Hf. induction rem as [|x rem IH]; intros it n m ch fs cur lk HI Hlk HA Hn;
    (destruct n as [|n]; [cbn [length] in Hn; lia|]); cbn [sweep_loop].
  - destruct HA as [(_ & ->)|(h & x & l1 & l2 & _ & _ & _ & X)]; [|discriminate].
    apply wp_ret. { exact Logic.I. } split; auto. exists ch, fs. split; auto.
  - destruct HA as [(X & _)|(h & y & l1 & l2 & -> & Hh & E & X)]; [discriminate|].
    injection X as <- ->. pose proof (iv_ct _ _ _ _ _ _ HI) as HC.
    assert (Hxc : In x (ch h)) by (rewrite E; apply in_or_app; right; now left).
    assert (Hx : 0 <= x < N) by (apply (ct_chain_in P HP _ _ h _ HC); auto).
    rewrite it_neq_end by auto. cbn [fst snd length] in *.
    apply wp_bind, wp_load; try exact Logic.I. { apply inb_key; auto. }
    apply wp_bind, wp_load_words; try exact Logic.I. { apply wrange_val; auto. }
    apply wp_bind.
    apply (wp_mono _ _ _ _ _ _ _ _ (next_from m ch HC h x l1 l2 Hh E)). { auto. }
    intros it' m' _ (-> & HA'). apply wp_bind.
    set (k := m (key x)). set (v := rdw m (a_val P x) (words P)).
    assert (Ee : entry m x = (k, v)) by reflexivity.
    assert (HA0 : itat ch it' (l2 ++ after ch h)).
    { destruct l2 as [|y l2].
      - apply (itfrom_itat ch (h + 1)); auto. lia.
      - subst it'. right. exists h, y, (l1 ++ [x]), l2. rewrite <- app_assoc. auto. }
    destruct (sel k v) eqn:Es.
    + apply (wp_mono _ _ _ _ _ _ _ _
        (erase_exact m ch fs cur lk h l1 x l2 k f HI Hlk Hh E eq_refl Hf)). { auto. }
      intros _ m1 _ (HI1 & HE1 & _ & Hp1).
      set (ch1 := setch ch h (l1 ++ l2)) in *.
      assert (EA : forall z, h < z < hs -> ch z = ch1 z).
      { intros z Hz. unfold ch1. rewrite setch_other; auto. lia. }
      assert (EA' : after ch h = after ch1 h) by (apply after_ext; auto; lia).
      assert (HA1 : itat ch1 it' (l2 ++ after ch h)).
      { destruct l2 as [|y l2].
        - apply (itfrom_itat ch1 (h + 1)); [lia|]. apply (itfrom_ext ch); auto. lia.
        - subst it'. right. exists h, y, l1, l2. split; auto. split; auto.
          unfold ch1 at 1. rewrite setch_same. split; auto. now rewrite EA'. }
      apply wp_bind.
      assert (Hn' : (length (l2 ++ after ch h) < n)%nat) by lia.
      apply (wp_mono _ _ _ _ _ _ _ _ (IH it' n m1 ch1 (x :: fs) cur lk HI1 Hlk HA1 Hn')). { auto. }
      intros l m2 _ (-> & ch' & fs' & HI2 & Hp2).
      assert (EM : map (entry m1) (l2 ++ after ch h) = map (entry m) (l2 ++ after ch h)).
      { apply map_ext_in. intros j Hj. apply HE1. apply (itat_nodes ch1 it' _ j HA1 Hj). }
      rewrite EM in *.
      apply wp_ret. { exact Logic.I. } cbn [map]. rewrite Ee. split; auto.
      exists ch', fs'. split; auto. cbn [filter fst snd]. rewrite Es. cbn [app].
      rewrite Hp1, Ee. apply perm_skip. auto.
    + apply wp_ret. { exact Logic.I. } apply wp_bind.
      assert (Hn' : (length (l2 ++ after ch h) < n)%nat) by lia.
      apply (wp_mono _ _ _ _ _ _ _ _ (IH it' n m ch fs cur lk HI Hlk HA0 Hn')). { auto. }
      intros l m2 _ (-> & ch' & fs' & HI2 & Hp2).
      apply wp_ret. { exact Logic.I. } cbn [map]. rewrite Ee. split; auto.
      exists ch', fs'. split; auto. cbn [filter fst snd]. rewrite Es. auto.
Qed.

Lemma filter_split : forall (A : Type) (p : A -> bool) l,
  Permutation l (filter p l ++ filter (fun x => negb (p x)) l).
Proof.
  intros A p l. induction l as [|x l IH]; cbn [filter]; auto.
  destruct (p x); cbn [negb app]. { apply perm_skip. auto. }
  rewrite <- Permutation_middle. apply perm_skip. auto.
Qed.

Lemma kept_perm : forall sel s t, Permutation s t -> Permutation (kept sel s) (kept sel t).
Proof.
  intros sel s t H. unfold kept. induction H as [|x s t H IH|x y s|s t u H1 IH1 H2 IH2]; cbn [filter]; auto.
  - destruct (negb (sel (fst x) (snd x))); auto.
  - destruct (negb (sel (fst x) (snd x))), (negb (sel (fst y) (snd y))); auto. apply perm_swap.
  - rewrite IH1. auto.
Qed.

Lemma nodes_fuel : forall m ch n, Cont m ch -> (Z.to_nat N < n)%nat -> (length (nodes ch) < n)%nat.
Proof.
  intros m ch n HC Hn. pose proof HP as (P1 & P2 & P3).
  pose proof (len_in_le (nodes ch) N (ct_nd _ _ _ HC) (ct_in _ _ _ HC)). lia.
Qed.

Lemma sweep_ok : forall f sel n s lk m, (Z.to_nat N < f)%nat -> (Z.to_nat N < n)%nat ->
  State P s lk m ->
  wp lim anym (sweep P f sel n) m
    (fun l m' => Permutation l s /\ State P (kept sel s) lk m').
Proof.
  intros f sel n s lk m Hf Hn (ch & fs & cur & HI & Hlk & Hp).
  pose proof (iv_ct _ _ _ _ _ _ HI) as HC. unfold sweep. apply wp_bind.
  apply (wp_mono _ _ _ _ _ _ _ _ (begin_at m ch HC)). { auto. }
  intros it m' _ (-> & HA).
  apply (wp_mono _ _ _ _ _ _ _ _ (sweep_loop_ok f sel Hf (nodes ch) it n m ch fs cur lk HI Hlk HA
    (nodes_fuel m ch n HC Hn))). { auto. }
  intros l m1 _ (-> & ch' & fs' & HI1 & Hp1). fold (entries m ch) in *. split; auto.
  exists ch', fs', cur. split; auto. split; auto.
  rewrite <- (kept_perm sel _ _ Hp).
  apply (Permutation_app_inv_l (filter (selE sel) (entries m ch))).
  rewrite <- Hp1. apply (filter_split _ (selE sel)).
Qed.

(** *** erasing the entry under the iterator *)

Lemma weed_loop_ok : forall f sel, (Z.to_nat N < f)%nat ->
  forall n rem it m ch fs cur lk, Inv m ch fs cur lk -> 0 <= lk -> itat ch it rem ->
  (length rem < n)%nat ->
  wp lim anym (weed_loop P f sel n it) m
    (fun l m' => exists js skip ch' fs', l = map (entry m) js
       /\ Permutation rem (js ++ skip)
       /\ (forall j, In j skip -> exists i, In i js /\ sel (fst (entry m i)) (snd (entry m i)) = true
             /\ m (key i) mod hs = m (key j) mod hs)
       /\ Inv m' ch' fs' cur lk
       /\ Permutation (entries m ch) (filter (selE sel) (map (entry m) js) ++ entries m' ch')).
Proof.
  intros f sel Hf. induction n as [|n IH]; intros rem it m ch fs cur lk HI Hlk HA Hn; [lia|].
  cbn [weed_loop]. destruct HA as [(-> & ->)|(h & x & l1 & l2 & -> & Hh & E & ->)].
  - apply wp_ret. { exact Logic.I. } exists [], [], ch, fs.
    split; auto. split; auto. split; [intros j []|]. split; auto.
  - pose proof (iv_ct _ _ _ _ _ _ HI) as HC.
    assert (Hxc : In x (ch h)) by (rewrite E; apply in_or_app; right; now left).
    assert (Hx : 0 <= x < N) by (apply (ct_chain_in P HP _ _ h _ HC); auto).
    rewrite it_neq_end by auto. cbn [fst snd length] in *.
    apply wp_bind, wp_load; try exact Logic.I. { apply inb_key; auto. }
    apply wp_bind, wp_load_words; try exact Logic.I. { apply wrange_val; auto. }
    apply wp_bind.
    set (k := m (key x)). set (v := rdw m (a_val P x) (words P)).
    assert (Ee : entry m x = (k, v)) by reflexivity.
    destruct (sel k v) eqn:Es.
    + apply (wp_mono _ _ _ _ _ _ _ _
        (erase_exact m ch fs cur lk h l1 x l2 k f HI Hlk Hh E eq_refl Hf)). { auto. }
      intros _ m1 _ (HI1 & HE1 & En & Hp1).
      set (ch1 := setch ch h (l1 ++ l2)) in *.
      assert (EA' : after ch h = after ch1 h).
      { apply after_ext; [lia|]. intros z Hz. unfold ch1. rewrite setch_other; auto. lia. }
      apply wp_bind.
      apply (wp_mono _ _ _ _ _ _ _ _
        (next_cut m1 ch1 (iv_ct _ _ _ _ _ _ HI1) h x Hh Hx En)). { auto. }
      intros it' m' _ (-> & HA'). apply itfrom_itat in HA'; [|lia].
      apply wp_bind.
      assert (Hn' : (length (after ch1 h) < n)%nat).
      { rewrite app_length, EA' in Hn. lia. }
      apply (wp_mono _ _ _ _ _ _ _ _ (IH _ it' m1 ch1 (x :: fs) cur lk HI1 Hlk HA' Hn')). { auto. }
      intros l m2 _ (js & skip & ch' & fs' & -> & HR & HS & HI2 & Hp2).
      assert (HN : forall j, In j (js ++ skip) -> entry m1 j = entry m j).
      { intros j Hj. apply HE1. apply (itat_nodes ch1 it' _ j HA').
        apply (Permutation_in _ (Permutation_sym HR)). auto. }
      assert (EM : map (entry m1) js = map (entry m) js).
      { apply map_ext_in. intros j Hj. apply HN. apply in_or_app. auto. }
      assert (HK : forall j, In j (js ++ skip) -> m1 (key j) = m (key j)).
      { intros j Hj. pose proof (HN j Hj) as X. unfold ShmMap_Proof.entry in X. congruence. }
      rewrite EM in *.
      apply wp_ret. { exact Logic.I. }
      exists (x :: js), (l2 ++ skip), ch', fs'. split; [|split; [|split; [|split]]]; auto.
      * rewrite EA', HR. cbn [app]. apply perm_skip. rewrite !app_assoc.
        apply Permutation_app_tail. apply Permutation_app_comm.
      * intros j Hj. apply in_app_or in Hj. destruct Hj as [Hj|Hj].
        -- exists x. split; [now left|]. rewrite Ee. split; auto.
           rewrite (ct_key _ _ _ HC h x), (ct_key _ _ _ HC h j); auto.
           rewrite E. apply in_or_app. right. now right.
        -- destruct (HS j Hj) as (i & Hi & Hsi & Hki).
           assert (Ii : In i (js ++ skip)) by (apply in_or_app; auto).
           assert (Ij : In j (js ++ skip)) by (apply in_or_app; auto).
           rewrite (HN i Ii) in Hsi. rewrite (HK i Ii), (HK j Ij) in Hki.
           exists i. split; [now right|auto].
      * cbn [map filter]. rewrite Ee. cbn [fst snd]. rewrite Es. cbn [app].
        rewrite Hp1, Ee. apply perm_skip. auto.
    + apply wp_ret. { exact Logic.I. } apply wp_bind.
      apply (wp_mono _ _ _ _ _ _ _ _ (next_ok P HP m ch HC h x l1 l2 Hh E)). { auto. }
      intros it' m' _ (-> & HA'). apply wp_bind.
      assert (Hn' : (length (l2 ++ after ch h) < n)%nat) by lia.
      apply (wp_mono _ _ _ _ _ _ _ _ (IH _ it' m ch fs cur lk HI Hlk HA' Hn')). { auto. }
      intros l m2 _ (js & skip & ch' & fs' & -> & HR & HS & HI2 & Hp2).
      apply wp_ret. { exact Logic.I. }
      exists (x :: js), skip, ch', fs'. split; [|split; [|split; [|split]]]; auto.
      * cbn [app]. apply perm_skip. auto.
      * intros j Hj. destruct (HS j Hj) as (i & Hi & X). exists i. split; [now right|auto].
      * cbn [map filter]. rewrite Ee. cbn [fst snd]. rewrite Es. auto.
Qed.

Lemma weed_ok : forall f sel n s lk m, (Z.to_nat N < f)%nat -> (Z.to_nat N < n)%nat ->
  State P s lk m ->
  wp lim anym (weed P f sel n) m
    (fun l m' => exists skip, Permutation s (l ++ skip)
       /\ (forall e, In e skip -> exists d, In d l /\ sel (fst d) (snd d) = true
             /\ fst d mod hs = fst e mod hs)
       /\ State P (kept sel l ++ skip) lk m').
Proof.
  intros f sel n s lk m Hf Hn (ch & fs & cur & HI & Hlk & Hp).
  pose proof (iv_ct _ _ _ _ _ _ HI) as HC. unfold weed. apply wp_bind.
  apply (wp_mono _ _ _ _ _ _ _ _ (begin_at m ch HC)). { auto. }
  intros it m' _ (-> & HA).
  apply (wp_mono _ _ _ _ _ _ _ _ (weed_loop_ok f sel Hf n (nodes ch) it m ch fs cur lk HI Hlk HA
    (nodes_fuel m ch n HC Hn))). { auto. }
  intros l m1 _ (js & skip & ch' & fs' & -> & HR & HS & HI1 & Hp1).
  exists (map (entry m) skip).
  assert (HP1 : Permutation (entries m ch) (map (entry m) js ++ map (entry m) skip)).
  { unfold ShmMap_Proof.entries. rewrite HR, map_app. auto. }
  split; [|split].
  - rewrite <- Hp. auto.
  - intros e He. apply in_map_iff in He. destruct He as (j & <- & Hj).
    destruct (HS j Hj) as (i & Hi & X1 & X2). exists (entry m i). split; [now apply in_map|].
    split; auto.
  - exists ch', fs', cur. split; auto. split; auto.
    apply (Permutation_app_inv_l (filter (selE sel) (map (entry m) js))).
    rewrite <- Hp1, HP1. rewrite app_assoc. apply Permutation_app_tail.
    apply (filter_split _ (selE sel)).
Qed.

(** *** inserting under the iterator *)

(** the chains only got longer, and their nodes keep their keys *)
Definition grows (m : mem) (ch : Z -> list Z) (m' : mem) (ch' : Z -> list Z) : Prop :=
  (forall x, 0 <= x < hs -> exists t, ch' x = ch x ++ t)
  /\ (forall i, In i (nodes ch) -> m' (key i) = m (key i)).

Lemma grows_refl : forall m ch, grows m ch m ch.
Proof. intros. split; auto. intros x _. exists []. now rewrite app_nil_r. Qed.
Lemma grows_nodes : forall m ch m' ch' i, grows m ch m' ch' -> In i (nodes ch) -> In i (nodes ch').
Proof.
  intros m ch m' ch' i (G & _) Hi. apply (in_nodes P HP) in Hi. destruct Hi as (x & Hx & Hi).
  apply (in_nodes P HP). exists x. split; auto. destruct (G x Hx) as (t & ->). apply in_or_app. auto.
Qed.
Lemma grows_trans : forall m ch m1 ch1 m2 ch2, grows m ch m1 ch1 -> grows m1 ch1 m2 ch2 ->
  grows m ch m2 ch2.
Proof.
  intros m ch m1 ch1 m2 ch2 G1 G2. split.
  - intros x Hx. destruct (proj1 G1 x Hx) as (t & E). destruct (proj1 G2 x Hx) as (u & E').
    exists (t ++ u). rewrite E', E, app_assoc. auto.
  - intros i Hi. rewrite (proj2 G2), (proj2 G1); auto. apply (grows_nodes m ch m1); auto.
Qed.

Lemma update_exact : forall m ch fs cur lk s k i l1 l2 v, Inv m ch fs cur lk ->
  Permutation (entries m ch) s -> ch (hidx P k) = l1 ++ i :: l2 -> m (key i) = k ->
  length v = words P ->
  let m' := mwords m (a_val P i) v in
  Inv m' ch fs cur lk /\ Permutation (entries m' ch) ((k, v) :: del s k)
  /\ has s k = true /\ grows m ch m' ch.
Proof.
  intros m ch fs cur lk s k i l1 l2 v HI Hp E Ek Hv m'.
  pose proof HI as [C1 C2 C3 C4 C5 C6].
  pose proof (hidx_range P HP k) as Hh. set (h := hidx P k) in *.
  pose proof (node_facts P) as (F1 & F2 & F3 & F4 & F5). unfold wsz in F1.
  assert (Hi : 0 <= i < N).
  { apply (ct_chain_in P HP _ _ h _ C1); auto. rewrite E. apply in_or_app. right. now left. }
  pose proof (node_region P HP i Hi) as (R1 & R2 & _).
  pose proof (regions P HP) as (G1 & G2 & G3 & G4 & _). pose proof HP as (P1 & P2 & P3).
  assert (Fr : forall a, a < a_val P i \/ a_val P i + 4 * Z.of_nat (words P) <= a -> m' a = m a).
  { intros a Ha. apply mwords_other. intros j Hj. lia. }
  assert (Ft : forall j, m' (next j) = m (next j)).
  { intro j. apply Fr. rewrite a_val_key, a_next_key. destruct (Z.eq_dec i j) as [->|n]; [lia|].
    pose proof (node_sep P i j n). lia. }
  assert (Fk : forall j, m' (key j) = m (key j)).
  { intro j. apply Fr. rewrite a_val_key. destruct (Z.eq_dec i j) as [->|n]; [lia|].
    pose proof (node_sep P i j n). lia. }
  assert (Fb : forall x, 0 <= x -> m' (bucket x) = m (bucket x)).
  { intros x Hx. apply Fr. unfold a_bucket. rewrite a_val_key. lia. }
  assert (HC' : Cont m' ch).
  { destruct C1 as [A1 A2 A3 A4 A5]. constructor; auto.
    - intros x Hx. apply (chain_frame P m); auto. apply Fb. lia.
    - intros x j Hx Hj. rewrite Fk. auto.
    - intros x Hx. rewrite (map_ext _ (fun j => m (key j))); auto. }
  assert (HI' : Inv m' ch fs cur lk).
  { constructor; auto.
    - destruct C2 as (D1 & D2 & D3). rewrite !Fr by (rewrite a_val_key; lia). auto.
    - apply (pool_rep_frame lim _ _ m); auto. { apply the_pool_ok; auto. }
      intros a Ha. pose proof (pool_cell_low P HP a Ha). apply Fr. rewrite a_val_key. lia. }
  destruct (bucket_hit P HP _ _ _ _ _ _ _ C1 Hp E Ek) as (t & T1 & T2 & T3).
  assert (ND : NoDup (keys s)) by (apply (holds_nd P HP s m); exists ch; auto).
  split; [auto|split; [|split]].
  - assert (Dt : Permutation (del s k) t).
    { rewrite (del_perm _ _ k T1). unfold ShmMap_Proof.entry. rewrite Ek. rewrite del_head; auto. }
    rewrite Dt.
    destruct (focus P HP ch h Hh) as (rest & Q1 & _). rewrite E in Q1.
    specialize (T3 rest Q1). rewrite T3.
    unfold ShmMap_Proof.entries. rewrite (Permutation_map (entry m') Q1).
    rewrite <- app_assoc. cbn [app]. rewrite map_app. cbn [map].
    rewrite <- Permutation_middle, <- map_app.
    assert (Ei : entry m' i = (k, v)).
    { unfold ShmMap_Proof.entry. rewrite Fk, Ek. f_equal. unfold m'. rewrite <- Hv. apply rdw_mwords. }
    rewrite Ei. apply perm_skip.
    rewrite (map_ext_in (entry m') (entry m)); auto.
    intros j Hj. apply entry_ext; auto. intros q Hq. apply Fr.
    assert (j <> i).
    { intros ->. assert (ND' : NoDup (l1 ++ i :: l2 ++ rest)).
      { pose proof (Permutation_NoDup Q1 (ct_nd _ _ _ C1)) as X. rewrite <- app_assoc in X. exact X. }
      apply NoDup_remove_2 in ND'. apply ND'. exact Hj. }
    pose proof (node_sep P i j). rewrite !a_val_key. lia.
  - unfold has. rewrite (lookup_perm _ _ k ND T1). cbn [lookup ShmMap_Proof.entry].
    rewrite Ek, Z.eqb_refl. reflexivity.
  - split; auto. intros x _. exists []. now rewrite app_nil_r.
Qed.

Lemma insert_tail_exact : forall m ch fs cur lk s k v, Inv m ch fs cur lk -> 0 <= lk ->
  Permutation (entries m ch) s -> ~ In k (keys s) -> length v = words P ->
  wp lim anym (insert_tail P k v (endc (bucket (hidx P k)) (ch (hidx P k)))) m
    (fun _ m' => exists ch' fs' cur', Inv m' ch' fs' cur' lk
       /\ Permutation (entries m' ch') (snd (put1 (N - lk) s k v)) /\ grows m ch m' ch').
Proof.
  intros m ch fs cur lk s k v HI Hlk Hp Hk Hv.
  pose proof (hidx_range P HP k) as Hh. set (h := hidx P k) in *.
  pose proof (node_facts P) as (F1 & F2 & F3 & F4 & F5). unfold wsz in F1.
  assert (Hlen : length s = length (nodes ch)).
  { rewrite <- (Permutation_length Hp). apply map_length. }
  unfold put1, has. rewrite (lookup_none _ _ Hk).
  unfold insert_tail. apply wp_bind.
  apply (wp_allocate P HP _ m ch fs cur lk); auto.
  - exact Logic.I.
  - intros Hc Hf. rewrite Z.eqb_refl. apply wp_ret. { exact Logic.I. }
    exists ch, fs, cur. pose proof (iv_len _ _ _ _ _ _ HI) as X. subst fs. cbn [length] in X.
    destruct (Z.ltb_spec (Z.of_nat (length s)) (N - lk)); try lia.
    split; auto. split; auto. apply grows_refl.
  - intros nn m1 fs1 cur1 HI1 Fr1 Hnn HnN Hfl. split. { exact Logic.I. }
    destruct (cont_pool P HP m m1 ch (iv_ct _ _ _ _ _ _ HI) Fr1) as (_ & AG1).
    assert (Hp1 : Permutation (entries m1 ch) s).
    { rewrite (agree_entries P _ _ _ AG1). auto. }
    assert (HnN' : 0 <= nn < N) by lia.
    assert (Hfn : ~ In nn (nodes ch)) by (intro; apply Hfl; apply in_or_app; auto).
    destruct (Z.eqb_spec nn nil32) as [X|_]; [exfalso; revert X; apply (N_nil P HP); auto|].
    set (m2 := mwords (mset m1 (key nn) k) (a_val P nn) v).
    assert (Fr3 : forall a, a < key nn \/ key nn + ns <= a -> mset m2 (next nn) nil32 a = m1 a).
    { intros a Ha. rewrite mset_other by (rewrite a_next_key; lia). unfold m2. rewrite mwords_other.
      - apply mset_other. lia.
      - intros j Hj. rewrite a_val_key. lia. }
    unfold fill_node. apply wp_bind, wp_bind, wp_store; try exact Logic.I.
    { apply inb_key; auto. }
    apply wp_bind, wp_store_words.
    { rewrite Hv. apply wrange_val; auto. }
    { intros; exact Logic.I. }
    fold m2. apply wp_store; try exact Logic.I. { apply inb_next; auto. }
    set (m3 := mset m2 (next nn) nil32) in *.
    destruct (inv_float P HP _ _ _ _ _ _ _ HI1 HnN' Hfn Fr3) as (HI3 & AG3).
    assert (Hp3 : Permutation (entries m3 ch) s).
    { rewrite (agree_entries P _ _ _ AG3). auto. }
    assert (Ek : m3 (key nn) = k).
    { unfold m3. rewrite mset_other by (rewrite a_next_key; lia). unfold m2.
      rewrite mwords_other. { apply mset_same. } intros j Hj. rewrite a_val_key. lia. }
    assert (Ee : entry m3 nn = (k, v)).
    { unfold ShmMap_Proof.entry. rewrite Ek. f_equal. transitivity (rdw m2 (a_val P nn) (words P)).
      - apply rdw_ext. intros j Hj. unfold m3. apply mset_other.
        rewrite a_next_key, a_val_key. lia.
      - rewrite <- Hv. apply rdw_mwords. }
    destruct (inv_link P HP m3 ch fs1 cur1 (lk + 1) s k nn) as (HI4 & Hp4); auto.
    { apply mset_same. }
    fold h in HI4, Hp4. rewrite Ee in Hp4.
    replace (lk + 1 - 1) with lk in HI4 by lia.
    apply wp_bind, wp_store; try exact Logic.I.
    { apply (endc_inb P HP m ch h (ch h) []); auto. { apply (iv_ct _ _ _ _ _ _ HI). }
      now rewrite app_nil_r. }
    apply wp_ret. { exact Logic.I. }
    exists (setch ch h (ch h ++ [nn])), fs1, cur1. split; auto. split.
    + pose proof (iv_len _ _ _ _ _ _ HI1). pose proof (iv_cur _ _ _ _ _ _ HI1).
      destruct (Z.ltb_spec (Z.of_nat (length s)) (N - lk)); try lia. auto.
    + split.
      * intros x _. destruct (Z.eq_dec x h) as [->|n].
        -- rewrite setch_same. eauto.
        -- rewrite setch_other by auto. exists []. now rewrite app_nil_r.
      * intros i Hi.
        assert (X : entry (mset m3 (endc (bucket h) (ch h)) nn) i = entry m3 i).
        { apply (entry_relink P HP m3 ch h); auto.
          - apply (iv_ct _ _ _ _ _ _ HI3).
          - apply (endc_cell P h (ch h) []). now rewrite app_nil_r.
          - apply (ct_in _ _ _ (iv_ct _ _ _ _ _ _ HI)); auto. }
        unfold ShmMap_Proof.entry in X.
        transitivity (m3 (key i)); [congruence|].
        rewrite (agree_key P ch m1 m3 i AG3 Hi). apply (agree_key P ch); auto.
Qed.

Lemma insert_exact : forall m ch fs cur lk s k v f, Inv m ch fs cur lk -> 0 <= lk ->
  Permutation (entries m ch) s -> length v = words P -> (Z.to_nat N < f)%nat ->
  wp lim anym (insert P f k v) m
    (fun _ m' => exists ch' fs' cur', Inv m' ch' fs' cur' lk
       /\ Permutation (entries m' ch') (snd (put1 (N - lk) s k v)) /\ grows m ch m' ch').
Proof.
  intros m ch fs cur lk s k v f HI Hlk Hp Hv Hf.
  pose proof (iv_ct _ _ _ _ _ _ HI) as HC.
  pose proof (hidx_range P HP k) as Hh. pose proof HP as (P1 & P2 & P3).
  set (Q := fun (_ : bool) m' => exists ch' fs' cur', Inv m' ch' fs' cur' lk
       /\ Permutation (entries m' ch') (snd (put1 (N - lk) s k v)) /\ grows m ch m' ch').
  assert (HIm : anym m) by exact Logic.I.
  assert (Qhit : forall l1 i l2, ch (hidx P k) = l1 ++ i :: l2 -> m (key i) = k ->
    wp lim anym (store_words (a_val P i) v ;;; Ret true) m Q).
  { intros l1 i l2 E Ek.
    destruct (update_exact m ch fs cur lk s k i l1 l2 v HI Hp E Ek Hv) as (U1 & U2 & U3 & U4).
    assert (Hi : 0 <= i < N).
    { apply (ct_chain_in P HP _ _ (hidx P k) _ HC); auto. rewrite E. apply in_or_app. right. now left. }
    apply wp_bind, wp_store_words.
    - rewrite Hv. apply wrange_val; auto.
    - intros; exact Logic.I.
    - apply wp_ret. { exact Logic.I. } exists ch, fs, cur. split; auto. split; auto.
      unfold put1. rewrite U3. auto. }
  assert (Qmiss : (forall i, In i (ch (hidx P k)) -> m (key i) <> k) ->
    wp lim anym (insert_tail P k v (endc (bucket (hidx P k)) (ch (hidx P k)))) m Q).
  { intros Hn. pose proof (bucket_miss P HP _ _ _ _ HC Hp Hn) as Hk.
    apply (insert_tail_exact m ch fs cur lk s k v HI Hlk Hp Hk Hv). }
  unfold insert. destruct (Z.eqb_spec hs 0); [lia|].
  apply wp_bind, wp_load; auto. { apply inb_bucket; auto. }
  pose proof (ct_ch _ _ _ HC (hidx P k) Hh) as Hchain.
  pose proof (chain_len P HP _ _ _ HC Hh) as Hlen.
  destruct (ch (hidx P k)) as [|i l] eqn:E.
  - cbn [ShmMap_Proof.chain] in Hchain. rewrite Hchain, Z.eqb_refl. cbn [negb].
    apply Qmiss. intros i [].
  - cbn [ShmMap_Proof.chain] in Hchain. destruct Hchain as (Hi & _). rewrite Hi.
    assert (HiN : 0 <= i < N).
    { apply (ct_chain_in P HP _ _ (hidx P k) _ HC); auto. rewrite E. now left. }
    destruct (Z.eqb_spec i nil32) as [X|_]; [exfalso; revert X; apply (N_nil P HP); auto|].
    cbn [negb]. rewrite <- E in Qmiss, Qhit.
    apply (wp_insert_loop P HP _ m k v _ (hidx P k) ch HC Hh HIm Qhit Qmiss l []); auto.
    cbn [length] in Hlen. lia.
Qed.

Lemma insert_batch_exact : forall f, (Z.to_nat N < f)%nat -> forall l m ch fs cur lk s acc,
  Inv m ch fs cur lk -> 0 <= lk -> Permutation (entries m ch) s ->
  Forall (fun e => length (snd e) = words P) l ->
  wp lim anym (insert_batch P f l acc) m
    (fun _ m' => exists ch' fs' cur', Inv m' ch' fs' cur' lk
       /\ Permutation (entries m' ch') (snd (put_all (N - lk) s l)) /\ grows m ch m' ch').
Proof.
  intros f Hf. induction l as [|(k, v) l IH]; intros m ch fs cur lk s acc HI Hlk Hp HF;
    cbn [insert_batch put_all].
  - apply wp_ret. { exact Logic.I. } exists ch, fs, cur. split; auto. split; auto. apply grows_refl.
  - inversion HF as [|? ? Hv HF']; subst. cbn [snd] in Hv. apply wp_bind.
    apply (wp_mono _ _ _ _ _ _ _ _ (insert_exact m ch fs cur lk s k v f HI Hlk Hp Hv Hf)). { auto. }
    intros b m1 _ (ch1 & fs1 & cur1 & HI1 & Hp1 & G1).
    destruct (put1 (N - lk) s k v) as (b1, s1). cbn [snd] in Hp1.
    apply (wp_mono _ _ _ _ _ _ _ _ (IH m1 ch1 fs1 cur1 lk s1 _ HI1 Hlk Hp1 HF')). { auto. }
    intros n m2 _ (ch2 & fs2 & cur2 & HI2 & Hp2 & G2).
    destruct (put_all (N - lk) s1 l) as (b2, s2). cbn [snd] in *.
    exists ch2, fs2, cur2. split; auto. split; auto. apply (grows_trans m ch m1 ch1); auto.
Qed.

(** the buckets in front of [h] *)
Definition before (ch : Z -> list Z) (h : Z) : list Z := flat_map ch (zfrom (Z.to_nat h) 0).

Lemma zfrom_app : forall a b i, zfrom (a + b) i = zfrom a i ++ zfrom b (i + Z.of_nat a).
Proof.
  induction a as [|a IH]; intros b i; cbn [Nat.add zfrom app]. { f_equal. lia. }
  f_equal. rewrite IH. f_equal. f_equal. lia.
Qed.
Lemma nodes_at : forall ch h, 0 <= h < hs -> nodes ch = before ch h ++ ch h ++ after ch h.
Proof.
  intros ch h Hh. unfold ShmMap_Proof.nodes, before, ShmOps2_Proof.after. rewrite zfrom_buckets.
  replace (Z.to_nat hs) with (Z.to_nat h + S (Z.to_nat (hs - (h + 1))))%nat by lia.
  rewrite zfrom_app, flat_map_app. f_equal. cbn [zfrom flat_map].
  replace (0 + Z.of_nat (Z.to_nat h)) with h by lia. reflexivity.
Qed.
Lemma flat_grows : forall m ch m' ch' l, grows m ch m' ch' -> (forall x, In x l -> 0 <= x < hs) ->
  incl (flat_map ch l) (flat_map ch' l) /\ (length (flat_map ch l) <= length (flat_map ch' l))%nat.
Proof.
  intros m ch m' ch' l G. induction l as [|x l IH]; intro Hl; cbn [flat_map].
  - split; auto. apply incl_refl.
  - destruct IH as (I1 & I2). { intros. apply Hl. now right. }
    destruct (proj1 G x) as (t & ->). { apply Hl. now left. }
    split.
    + intros j Hj. apply in_app_or in Hj. rewrite <- app_assoc, !in_app_iff. destruct Hj; auto.
    + rewrite !app_length. lia.
Qed.

Lemma keys_inj : forall m ch i j, Cont m ch -> In i (nodes ch) -> In j (nodes ch) ->
  m (key i) = m (key j) -> i = j.
Proof.
  intros m ch i j HC Hi Hj E. pose proof (entries_nd P HP m ch HC) as ND.
  unfold keys, ShmMap_Proof.entries in ND. rewrite map_map in ND. cbn [fst ShmMap_Proof.entry] in ND.
  revert Hi Hj ND. generalize (nodes ch). induction l as [|x l IH]; cbn [In map]; [tauto|].
  intros Hi Hj ND. apply NoDup_cons_iff in ND. destruct ND as (N1 & N2).
  destruct Hi as [->|Hi], Hj as [->|Hj]; auto; exfalso; apply N1.
  - rewrite E. apply in_map_iff. eauto.
  - rewrite <- E. apply in_map_iff. eauto.
Qed.

Notation act body lk := (fun k v s => snd (put_all (N - lk) s (body k v))) (only parsing).

Lemma grow_loop_ok : forall f body, (Z.to_nat N < f)%nat ->
  (forall k v, Forall (fun e => length (snd e) = words P) (body k v)) ->
  forall n it pre rem m ch fs cur lk s seen, Inv m ch fs cur lk -> 0 <= lk ->
  Permutation (entries m ch) s -> itat ch it rem -> nodes ch = pre ++ rem ->
  (forall k, In k seen -> exists j, In j pre /\ m (key j) = k) ->
  (Z.to_nat N < n + length pre)%nat ->
  wp lim anym (grow_loop P f body n it) m
    (fun l m' => exists s', tour (act body lk) seen s l s' /\ State P s' lk m'
       /\ (forall j, In j rem -> In (m (key j)) (map fst l))).
Proof.
  intros f body Hf HB. induction n as [|n IH];
    intros it pre rem m ch fs cur lk s seen HI Hlk Hp HA EN HSeen Hn;
    pose proof (iv_ct _ _ _ _ _ _ HI) as HC; pose proof HP as (P1 & P2 & P3).
  { exfalso. pose proof (len_in_le (nodes ch) N (ct_nd _ _ _ HC) (ct_in _ _ _ HC)) as X.
    rewrite EN, app_length in X. lia. }
  cbn [grow_loop]. destruct HA as [(-> & ->)|(h & x & l1 & l2 & -> & Hh & E & ->)].
  - apply wp_ret. { exact Logic.I. } exists s. split; [constructor|]. split.
    + exists ch, fs, cur. auto.
    + intros j [].
  - assert (Hxc : In x (ch h)) by (rewrite E; apply in_or_app; right; now left).
    assert (Hxn : In x (nodes ch)) by (apply (in_nodes P HP); eauto).
    assert (Hx : 0 <= x < N) by (apply (ct_chain_in P HP _ _ h _ HC); auto).
    rewrite it_neq_end by auto. cbn [fst snd length] in *.
    apply wp_bind, wp_load; try exact Logic.I. { apply inb_key; auto. }
    apply wp_bind, wp_load_words; try exact Logic.I. { apply wrange_val; auto. }
    set (k := m (key x)). set (v := rdw m (a_val P x) (words P)).
    assert (Epre : pre = before ch h ++ l1).
    { rewrite (nodes_at ch h Hh), E in EN. rewrite <- (app_assoc l1), app_assoc in EN.
      cbn [app] in EN. apply app_inv_tail in EN. auto. }
    apply wp_bind. unfold insert_many. apply wp_bind.
    apply (wp_mono _ _ _ _ _ _ _ _
      (insert_batch_exact f Hf (body k v) m ch fs cur lk s 0 HI Hlk Hp (HB k v))). { auto. }
    intros b m1 _ (ch1 & fs1 & cur1 & HI1 & Hp1 & G1). apply wp_ret. { exact Logic.I. }
    set (s1 := snd (put_all (N - lk) s (body k v))) in *.
    pose proof (iv_ct _ _ _ _ _ _ HI1) as HC1.
    destruct (proj1 G1 h Hh) as (t & Et).
    assert (E1 : ch1 h = l1 ++ x :: (l2 ++ t)) by (rewrite Et, E, <- app_assoc; reflexivity).
    destruct (flat_grows m ch m1 ch1 (zfrom (Z.to_nat h) 0) G1) as (GB & GL).
    { intros z Hz. apply zfrom_in in Hz. lia. }
    fold (before ch h) in GB, GL. fold (before ch1 h) in GB, GL.
    destruct (flat_grows m ch m1 ch1 (zfrom (Z.to_nat (hs - (h + 1))) (h + 1)) G1) as (GA & _).
    { intros z Hz. apply zfrom_in in Hz. lia. }
    fold (after ch h) in GA. fold (after ch1 h) in GA.
    set (pre' := before ch1 h ++ l1 ++ [x]).
    set (rem' := (l2 ++ t) ++ after ch1 h).
    assert (EN' : nodes ch1 = pre' ++ rem').
    { unfold pre', rem'. rewrite (nodes_at ch1 h Hh), E1. rewrite <- !app_assoc. cbn [app].
      now rewrite <- !app_assoc. }
    assert (HPre : forall j, In j pre -> In j pre' /\ In j (nodes ch)).
    { intros j Hj. split.
      - rewrite Epre in Hj. unfold pre'. rewrite !in_app_iff in *. destruct Hj as [Hj|Hj]; auto.
      - rewrite EN. apply in_or_app. auto. }
    assert (Hkx : m1 (key x) = k) by (apply G1; auto).
    apply wp_bind.
    apply (wp_mono _ _ _ _ _ _ _ _ (next_ok P HP m1 ch1 HC1 h x l1 (l2 ++ t) Hh E1)). { auto. }
    intros it' m' _ (-> & HA'). fold rem' in HA'. apply wp_bind.
    assert (HSeen' : forall q, In q (k :: seen) -> exists j, In j pre' /\ m1 (key j) = q).
    { intros q [<-|Hq].
      - exists x. split; auto. unfold pre'. rewrite !in_app_iff. right. right. now left.
      - destruct (HSeen q Hq) as (j & Hj & Ej). destruct (HPre j Hj) as (X1 & X2).
        exists j. split; auto. rewrite (proj2 G1); auto. }
    assert (Hn' : (Z.to_nat N < n + length pre')%nat).
    { unfold pre'. rewrite Epre, app_length in Hn. rewrite !app_length. cbn [length]. lia. }
    apply (wp_mono _ _ _ _ _ _ _ _
      (IH it' pre' rem' m1 ch1 fs1 cur1 lk s1 (k :: seen) HI1 Hlk Hp1 HA' EN' HSeen' Hn')). { auto. }
    intros l m2 _ (s' & HT & HS & HR). apply wp_ret. { exact Logic.I. }
    exists s'. split; [|split]; auto.
    + constructor; auto.
      * intro X. destruct (HSeen k X) as (j & Hj & Ej).
        assert (j = x).
        { apply (keys_inj m ch); auto. apply HPre; auto. }
        subst j. pose proof (ct_nd _ _ _ HC) as ND. rewrite EN in ND.
        apply NoDup_remove_2 in ND. apply ND. apply in_or_app. auto.
      * assert (ND : NoDup (keys s)) by (apply (holds_nd P HP s m); exists ch; auto).
        apply lookup_in; auto. apply (Permutation_in _ Hp). unfold ShmMap_Proof.entries.
        apply in_map_iff. exists x. auto.
    + intros j Hj. cbn [map fst In]. destruct Hj as [<-|Hj]; [now left|]. right.
      assert (Hjn : In j (nodes ch)).
      { rewrite EN. apply in_or_app. right. now right. }
      rewrite <- (proj2 G1 j Hjn). apply HR. unfold rem'. rewrite !in_app_iff.
      apply in_app_or in Hj. destruct Hj; auto.
Qed.

Lemma grow_ok : forall f body n s lk m, (Z.to_nat N < f)%nat -> (Z.to_nat N < n)%nat ->
  (forall k v, Forall (fun e => length (snd e) = words P) (body k v)) ->
  State P s lk m ->
  wp lim anym (grow P f body n) m
    (fun l m' => exists s', tour (act body lk) [] s l s' /\ State P s' lk m'
       /\ (forall k, In k (map fst s) -> In k (map fst l))).
Proof.
  intros f body n s lk m Hf Hn HB (ch & fs & cur & HI & Hlk & Hp).
  pose proof (iv_ct _ _ _ _ _ _ HI) as HC. unfold grow. apply wp_bind.
  apply (wp_mono _ _ _ _ _ _ _ _ (begin_at m ch HC)). { auto. }
  intros it m' _ (-> & HA).
  assert (HS0 : forall k, In k [] -> exists j, In j [] /\ m (key j) = k) by (intros k []).
  assert (Hn' : (Z.to_nat N < n + length (@nil Z))%nat) by (cbn [length]; lia).
  apply (wp_mono _ _ _ _ _ _ _ _ (grow_loop_ok f body Hf HB n it [] (nodes ch) m ch fs cur lk s []
    HI Hlk Hp HA eq_refl HS0 Hn')). { auto. }
  intros l m1 _ (s' & HT & HS & HR). exists s'. split; auto. split; auto.
  intros k Hk. apply (Permutation_in _ (Permutation_map fst (Permutation_sym Hp))) in Hk.
  unfold ShmMap_Proof.entries in Hk. rewrite map_map in Hk. apply in_map_iff in Hk.
  destruct Hk as (j & <- & Hj). cbn [fst ShmMap_Proof.entry]. apply HR. auto.
Qed.

End Iter.
