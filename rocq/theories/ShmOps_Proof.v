(** What the operations of the shared hash map do, at every intermediate point. *)

From Coq Require Import ZArith List Bool Lia Permutation.
From Verif Require Import Base Shm_Model Shm_Spec Shm_Proof ShmMap_Proof.
Import ListNotations.
Local Open Scope Z_scope.

Lemma nodup_app_l : forall A (a b : list A), NoDup (a ++ b) -> NoDup a.
Proof.
  induction a as [|x a IH]; intros b ND; [constructor|]. cbn [app] in ND.
  apply NoDup_cons_iff in ND. destruct ND as (N1 & N2). apply NoDup_cons_iff. split; eauto.
  intro. apply N1. apply in_or_app. auto.
Qed.

Lemma NoDup_app_comm' : forall A (a b : list A), NoDup (a ++ b) -> NoDup (b ++ a).
Proof. intros A a b. apply Permutation_NoDup, Permutation_app_comm. Qed.

(** *** Finite maps as lists *)

Definition keys (s : fmap) : list Z := map fst s.

Lemma lookup_none : forall s k, ~ In k (keys s) -> lookup s k = None.
Proof.
  induction s as [|(k', v) s IH]; intros k Hk; cbn in *; auto.
  destruct (Z.eqb_spec k' k); [tauto|]. apply IH. tauto.
Qed.
Lemma lookup_in : forall s k v, NoDup (keys s) -> In (k, v) s -> lookup s k = Some v.
Proof.
  induction s as [|(k', v') s IH]; intros k v ND Hi; cbn in *; [tauto|].
  apply NoDup_cons_iff in ND. destruct ND as (N1 & N2).
  destruct Hi as [E|Hi].
  - injection E as -> ->. now rewrite Z.eqb_refl.
  - destruct (Z.eqb_spec k' k); auto. subst. exfalso. apply N1.
    change k with (fst (k, v)). now apply in_map.
Qed.
Lemma lookup_some_in : forall s k v, lookup s k = Some v -> In (k, v) s.
Proof.
  induction s as [|(k', v') s IH]; intros k v E; cbn in *; [discriminate|].
  destruct (Z.eqb_spec k' k); auto. left. congruence.
Qed.
Lemma lookup_perm : forall s t k, NoDup (keys s) -> Permutation s t -> lookup s k = lookup t k.
Proof.
  intros s t k ND HP. destruct (lookup t k) as [v|] eqn:E.
  - apply lookup_in; auto. apply (Permutation_in _ (Permutation_sym HP)).
    now apply lookup_some_in.
  - apply lookup_none. intro Hk. unfold keys in Hk. apply in_map_iff in Hk.
    destruct Hk as ((k', v) & E1 & Hi). cbn in E1. subst.
    rewrite (lookup_in t k v) in E; [discriminate| |].
    + apply (Permutation_NoDup (l := keys s)); auto. now apply Permutation_map.
    + now apply (Permutation_in _ HP).
Qed.

Lemma del_perm : forall s t k, Permutation s t -> Permutation (del s k) (del t k).
Proof.
  intros s t k HP. unfold del. induction HP; cbn [filter]; auto.
  - destruct (negb (fst x =? k)); auto.
  - destruct (negb (fst x =? k)), (negb (fst y =? k)); auto. apply perm_swap.
  - eapply perm_trans; eauto.
Qed.
Lemma del_none : forall s k, ~ In k (keys s) -> del s k = s.
Proof.
  induction s as [|(k', v) s IH]; intros k Hk; cbn in *; auto.
  destruct (Z.eqb_spec k' k); [tauto|]. cbn [negb]. f_equal. apply IH. tauto.
Qed.
Lemma del_head : forall s k v, ~ In k (keys s) -> del ((k, v) :: s) k = s.
Proof. intros. cbn. rewrite Z.eqb_refl. cbn [negb]. now apply del_none. Qed.

Section Ops.
Variable P : tpar.
Hypothesis HP : fits P.
Notation N := (nobj P).
Notation hs := (hsize P).
Notation ns := (node_size P).
Notation lim := (required_space P).
Notation nodes := (nodes P).
Notation entry := (entry P).
Notation entries := (entries P).
Notation Cont := (Cont P).
Notation Inv := (Inv P).
Notation bucket := (a_bucket P).
Notation next := (a_next P).
Notation key := (a_key P).
Notation endc := (endc P).
Notation chain := (chain P).
Notation agree := (agree P).

(** *** Changing one link *)

Lemma cell_facts : forall m ch h c, Cont m ch -> 0 <= h < hs ->
  In c (bucket h :: map next (ch h)) ->
  a_objs P <= c
  /\ (forall i, 0 <= i < N -> c <> key i
        /\ forall j, 0 <= j < Z.of_nat (words P) -> c <> a_val P i + 4 * j)
  /\ (forall x, 0 <= x -> x <> h -> c <> bucket x)
  /\ (forall i, 0 <= i < N -> ~ In i (ch h) -> c <> next i).
Proof.
  intros m ch h c HC Hh Hc.
  pose proof (regions P HP) as (G1 & G2 & G3 & G4 & _).
  pose proof (node_facts P) as (F1 & _ & F3 & _ & F5). unfold wsz in F1.
  pose proof HP as (P1 & P2 & P3).
  destruct Hc as [<-|Hc].
  - unfold a_bucket. split; [nia|]. split; [|split].
    + intros i Hi. pose proof (node_region P HP i Hi) as (A & B & _). split; [lia|].
      intros j Hj. rewrite a_val_key. lia.
    + intros. lia.
    + intros i Hi _. apply bucket_next; auto; lia.
  - apply in_map_iff in Hc. destruct Hc as (z & <- & Hz).
    pose proof (ct_chain_in P HP _ _ _ _ HC Hh Hz) as HzN.
    pose proof (node_region P HP z HzN) as (A & B & _).
    split; [rewrite a_next_key; lia|]. split; [|split].
    + intros i Hi. rewrite a_next_key.
      destruct (Z.eq_dec z i) as [->|Hne].
      * split; [lia|]. intros j Hj. rewrite a_val_key. lia.
      * pose proof (node_sep P z i Hne). split; [lia|]. intros j Hj. rewrite a_val_key. lia.
    + intros x Hx _ E. symmetry in E. revert E. apply bucket_next; auto.
    + intros i Hi Hn E. apply next_inj in E. congruence.
Qed.

Lemma entry_relink : forall m ch h c v i, Cont m ch -> 0 <= h < hs ->
  In c (bucket h :: map next (ch h)) -> 0 <= i < N -> entry (mset m c v) i = entry m i.
Proof.
  intros m ch h c v i HC Hh Hc Hi.
  destruct (cell_facts _ _ _ _ HC Hh Hc) as (_ & A & _). destruct (A i Hi) as (B & D).
  apply entry_ext.
  - apply mset_other. auto.
  - intros j Hj. apply mset_other. intro E. apply (D j Hj). auto.
Qed.

Lemma endc_cell : forall h l r ch, ch h = l ++ r ->
  In (endc (bucket h) l) (bucket h :: map next (ch h)).
Proof.
  intros h l r ch E. pose proof (endc_in P l (bucket h)) as [X|X].
  - left. auto.
  - right. rewrite E, map_app. apply in_or_app. auto.
Qed.

Lemma in_setch : forall ch h l r r' i, 0 <= h < hs -> ch h = l ++ r ->
  In i (nodes (setch ch h (l ++ r'))) -> In i (nodes ch) \/ In i r'.
Proof.
  intros ch h l r r' i Hh E Hi. apply in_nodes in Hi; auto. destruct Hi as (x & Hx & Hi).
  unfold setch in Hi. destruct (Z.eqb_spec x h) as [->|].
  - apply in_app_or in Hi. destruct Hi as [Hi|Hi]; auto.
    left. apply in_nodes; auto. exists h. rewrite E. split; auto. apply in_or_app. auto.
  - left. apply in_nodes; auto. eauto.
Qed.

Lemma cont_relink : forall m ch h l r r' v, Cont m ch -> 0 <= h < hs -> ch h = l ++ r ->
  let c := endc (bucket h) l in
  chain (mset m c v) c r' ->
  NoDup (nodes (setch ch h (l ++ r'))) ->
  (forall i, In i r' -> 0 <= i < N /\ m (key i) mod hs = h) ->
  NoDup (map (fun i => m (key i)) (l ++ r')) ->
  Cont (mset m c v) (setch ch h (l ++ r')).
Proof.
  intros m ch h l r r' v HC Hh E c HCh HND Hr HK.
  assert (Hc : In c (bucket h :: map next (ch h))) by (apply (endc_cell h l r); auto).
  destruct (cell_facts _ _ _ _ HC Hh Hc) as (F1 & F2 & F3 & F4).
  assert (Hin : forall i, In i (nodes (setch ch h (l ++ r'))) -> 0 <= i < N).
  { intros i Hi. apply (in_setch _ _ _ r) in Hi; auto. destruct Hi as [Hi|Hi].
    - now apply (ct_in _ _ _ HC).
    - apply Hr. auto. }
  assert (Hkey : forall i, 0 <= i < N -> mset m c v (key i) = m (key i)).
  { intros i Hi. apply mset_other. destruct (F2 i Hi). auto. }
  assert (HinX : forall x i, 0 <= x < hs -> In i (setch ch h (l ++ r') x) -> 0 <= i < N).
  { intros x i Hx Hi. apply Hin. apply in_nodes; auto. eauto. }
  constructor; auto.
  - intros x Hx. unfold setch. destruct (Z.eqb_spec x h) as [->|Hne].
    + apply (chain_replace P m _ _ _ r); auto.
      * rewrite <- E. apply (ct_ch _ _ _ HC); auto.
      * pose proof (cells_nd P HP _ _ _ HC Hh) as X. rewrite E, map_app in X.
        apply NoDup_cons_iff in X. destruct X as (X1 & X2). apply NoDup_cons_iff. split.
        -- intro Y. apply X1. apply in_or_app. auto.
        -- apply nodup_app_l in X2. auto.
      * intros a Ha Hne. apply mset_other. auto.
    + apply (chain_frame P m); auto.
      * apply (ct_ch _ _ _ HC); auto.
      * apply mset_other. intro X. apply (F3 x); auto; lia.
      * intros i Hi. apply mset_other. intro X. symmetry in X. revert X. apply F4.
        -- apply (ct_chain_in P HP _ _ x _ HC); auto.
        -- intro Y. apply Hne. rewrite <- (ct_key _ _ _ HC x i Hx Hi). now apply (ct_key _ _ _ HC).
  - intros x i Hx Hi. rewrite Hkey by eauto. unfold setch in Hi.
    destruct (Z.eqb_spec x h) as [->|Hne].
    + apply in_app_or in Hi. destruct Hi as [Hi|Hi].
      * apply (ct_key _ _ _ HC); auto. rewrite E. apply in_or_app. auto.
      * apply Hr. auto.
    + apply (ct_key _ _ _ HC); auto.
  - intros x Hx. rewrite (map_ext_in _ (fun i => m (key i))).
    + unfold setch. destruct (Z.eqb_spec x h) as [->|Hne]; auto. apply (ct_kd _ _ _ HC); auto.
    + intros i Hi. apply Hkey. eauto.
Qed.

(** *** The map as seen from outside *)

(** the segment holds the finite map [s], and [lk] indices are lost *)
Definition State (s : fmap) (lk : Z) (m : mem) : Prop :=
  exists ch fs cur, Inv m ch fs cur lk /\ 0 <= lk /\ Permutation (entries m ch) s.
(** the chains hold the finite map [s] *)
Definition Holds (s : fmap) (m : mem) : Prop :=
  exists ch, Cont m ch /\ Permutation (entries m ch) s.

Lemma state_holds : forall s lk m, State s lk m -> Holds s m.
Proof. intros s lk m (ch & fs & cur & HI & _ & Hp). exists ch. split; auto. apply HI. Qed.

Lemma entries_nd : forall m ch, Cont m ch -> NoDup (keys (entries m ch)).
Proof.
  intros m ch HC. unfold keys, ShmMap_Proof.entries. rewrite map_map. cbn [fst ShmMap_Proof.entry].
  unfold ShmMap_Proof.nodes.
  assert (G : forall bs, NoDup bs -> (forall h, In h bs -> 0 <= h < hs) ->
    NoDup (map (fun i => m (key i)) (flat_map ch bs))).
  { induction bs as [|h bs IH]; intros ND Hb; cbn [flat_map map]. { constructor. }
    apply NoDup_cons_iff in ND. destruct ND as (N1 & N2).
    rewrite map_app. 
    assert (Hh : 0 <= h < hs) by (apply Hb; now left).
    assert (X : forall a b : list Z, NoDup a -> NoDup b -> (forall x, In x a -> In x b -> False)
                -> NoDup (a ++ b)).
    { induction a as [|x a IHa]; intros b Ha Hb' D; cbn [app]; auto.
      apply NoDup_cons_iff in Ha. destruct Ha. apply NoDup_cons_iff. split.
      - intro Y. apply in_app_or in Y. destruct Y; auto. apply (D x); auto. now left.
      - apply IHa; auto. intros y Y1 Y2. apply (D y); auto. now right. }
    apply X.
    - apply (ct_kd _ _ _ HC); auto.
    - apply IH; auto. intros x Hx. apply Hb. now right.
    - intros k K1 K2. apply in_map_iff in K1. destruct K1 as (i & <- & Hi).
      apply in_map_iff in K2. destruct K2 as (j & Ej & Hj).
      apply in_flat_map in Hj. destruct Hj as (x & Hx & Hj).
      assert (0 <= x < hs) by (apply Hb; now right).
      pose proof (ct_key _ _ _ HC h i Hh Hi) as K. rewrite <- Ej in K.
      rewrite (ct_key _ _ _ HC x j) in K; auto. subst. auto. }
  apply G. { apply nodup_buckets. } intros h Hh. apply in_buckets; auto.
Qed.

Lemma holds_nd : forall s m, Holds s m -> NoDup (keys s).
Proof.
  intros s m (ch & HC & Hp). apply (Permutation_NoDup (l := keys (entries m ch))).
  - now apply Permutation_map.
  - now apply entries_nd.
Qed.

Lemma hidx_range : forall k, 0 <= hidx P k < hs.
Proof. intros. unfold hidx. apply Z.mod_pos_bound. destruct HP. lia. Qed.

(** the entry found in the key's bucket *)
Lemma bucket_hit : forall m ch s k i l1 l2, Cont m ch -> Permutation (entries m ch) s ->
  ch (hidx P k) = l1 ++ i :: l2 -> m (key i) = k ->
  exists t, Permutation s (entry m i :: t) /\ ~ In k (keys t) /\
    (forall rest, Permutation (nodes ch) ((l1 ++ i :: l2) ++ rest) ->
       Permutation t (map (entry m) (l1 ++ l2 ++ rest))).
Proof.
  intros m ch s k i l1 l2 HC Hp E Ek.
  destruct (focus P HP ch (hidx P k) (hidx_range k)) as (rest & Q1 & _). rewrite E in Q1.
  exists (map (entry m) (l1 ++ l2 ++ rest)).
  assert (X : Permutation s (entry m i :: map (entry m) (l1 ++ l2 ++ rest))).
  { rewrite <- Hp. unfold ShmMap_Proof.entries. rewrite (Permutation_map (entry m) Q1).
    change (entry m i :: map (entry m) (l1 ++ l2 ++ rest)) with
      (map (entry m) (i :: l1 ++ l2 ++ rest)).
    apply Permutation_map. rewrite <- app_assoc. cbn [app]. symmetry. apply Permutation_middle. }
  split; auto. split.
  - assert (ND : NoDup (keys (entry m i :: map (entry m) (l1 ++ l2 ++ rest)))).
    { apply (Permutation_NoDup (l := keys s)).
      - now apply Permutation_map.
      - apply (holds_nd s m). exists ch. auto. }
    cbn [keys map] in ND. apply NoDup_cons_iff in ND. destruct ND as (N1 & _).
    cbn [fst ShmMap_Proof.entry] in N1. rewrite Ek in N1. exact N1.
  - intros rest' Q'. apply Permutation_map. apply Permutation_app_head, Permutation_app_head.
    apply (Permutation_app_inv_l (l1 ++ i :: l2)). rewrite <- Q1. auto.
Qed.

Lemma bucket_miss : forall m ch s k, Cont m ch -> Permutation (entries m ch) s ->
  (forall i, In i (ch (hidx P k)) -> m (key i) <> k) -> ~ In k (keys s).
Proof.
  intros m ch s k HC Hp Hn Hk. unfold keys in Hk.
  apply (Permutation_in _ (Permutation_map fst (Permutation_sym Hp))) in Hk.
  unfold ShmMap_Proof.entries in Hk. rewrite map_map in Hk. apply in_map_iff in Hk.
  destruct Hk as (i & Ek & Hi). cbn [fst ShmMap_Proof.entry] in Ek.
  apply in_nodes in Hi; auto. destruct Hi as (x & Hx & Hi).
  apply (Hn i); auto. unfold hidx. rewrite <- Ek, (ct_key _ _ _ HC x i); auto.
Qed.

(** *** read *)

Lemma wp_read_loop : forall (I : mem -> Prop) m k (Q : option (list Z) -> mem -> Prop) l b fuel, chain m b l ->
  (forall i, In i l -> 0 <= i < N) -> (length l < fuel)%nat -> I m ->
  ((forall i, In i l -> m (key i) <> k) -> Q None m) ->
  (forall l1 i l2, l = l1 ++ i :: l2 -> m (key i) = k ->
     Q (Some (rdw m (a_val P i) (words P))) m) ->
  wp lim I (read_loop P fuel k (m b)) m Q.
Proof.
  intros I m k Q l. induction l as [|i l IH]; intros b fuel C Hb Hf HI Q0 Q1;
    (destruct fuel as [|fuel]; [cbn [length] in Hf; lia|]); cbn [read_loop chain] in *.
  - rewrite C, Z.eqb_refl. apply wp_ret; auto.
  - destruct C as (C1 & C2). rewrite C1.
    assert (Hi : 0 <= i < N) by (apply Hb; now left).
    destruct (Z.eqb_spec i nil32) as [X|_]; [exfalso; revert X; apply (N_nil P HP); auto|].
    apply wp_bind, wp_load; auto. { apply inb_key; auto. }
    destruct (Z.eqb_spec k (m (key i))) as [E|E].
    + apply wp_bind, wp_load_words; auto. { apply wrange_val; auto. }
      apply wp_ret; auto. apply (Q1 [] i l); auto.
    + apply wp_bind, wp_load; auto. { apply inb_next; auto. }
      apply IH; auto.
      * intros j Hj. apply Hb. now right.
      * cbn [length] in Hf. lia.
      * intro Hn. apply Q0. intros j [<-|Hj]; auto.
      * intros l1 j l2 El Ej. apply (Q1 (i :: l1) j l2); auto. rewrite El. reflexivity.
Qed.

Lemma len_in_le : forall l n, NoDup l -> (forall i, In i l -> 0 <= i < n) ->
  Z.of_nat (length l) <= Z.max 0 n.
Proof.
  intros l n ND Hi.
  assert ((length l <= length (zrange (Z.to_nat n)))%nat).
  { apply NoDup_incl_length; auto. intros i X. apply in_zrange. specialize (Hi i X). lia. }
  unfold zrange in *. rewrite map_length, seq_length in *. lia.
Qed.

Lemma chain_len : forall m ch h, Cont m ch -> 0 <= h < hs ->
  Z.of_nat (length (ch h)) <= N.
Proof.
  intros m ch h HC Hh. destruct HP as (A & _).
  pose proof (len_in_le (ch h) N (ct_chain_nd P _ _ _ HC Hh)
    (fun i Hi => ct_chain_in P HP _ _ _ i HC Hh Hi)). lia.
Qed.

Lemma read_ok : forall s m k fuel, Holds s m -> (Z.to_nat N < fuel)%nat ->
  wp lim (fun x => x = m) (read P fuel k) m (fun r m' => m' = m /\ r = lookup s k).
Proof.
  intros s m k fuel (ch & HC & Hp) Hf. unfold read.
  pose proof (hidx_range k) as Hh. pose proof HP as (P1 & P2 & P3).
  destruct (Z.eqb_spec hs 0); [lia|].
  apply wp_bind, wp_load; auto. { apply inb_bucket; auto. }
  apply (wp_read_loop _ _ _ _ (ch (hidx P k))); auto.
  - apply (ct_ch _ _ _ HC); auto.
  - intros i Hi. apply (ct_chain_in P HP _ _ _ _ HC Hh Hi).
  - pose proof (chain_len _ _ _ HC Hh). lia.
  - intro Hn. split; auto. symmetry. apply lookup_none. apply (bucket_miss m ch); auto.
  - intros l1 i l2 E Ek. split; auto.
    destruct (bucket_hit _ _ _ _ _ _ _ HC Hp E Ek) as (t & Ht & Hk & _).
    rewrite (lookup_perm _ _ k (holds_nd s m (ex_intro _ ch (conj HC Hp))) Ht).
    cbn [lookup ShmMap_Proof.entry]. rewrite Ek, Z.eqb_refl. reflexivity.
Qed.

(** *** insert *)

(** the common ends of unprotected_insert: append a new node in cell [c] *)
Definition insert_tail (k : Z) (v : list Z) (c : Z) : prog bool :=
  nn <~ pool_allocate (the_pool P) ;;
  if nn =? nil32 then Ret false
  else fill_node P nn k v ;;; store 4 c nn ;;; Ret true.

Lemma wp_empty : forall (I : mem -> Prop) s m l (Q : bool -> mem -> Prop), stack_ok lim s -> stack_rep s m l -> I m ->
  Q (match l with [] => true | _ => false end) m -> wp lim I (stack_empty s) m Q.
Proof.
  intros I s m l Q HS HR HI HQ. unfold stack_empty, stack_used.
  destruct (so_inb_hdr _ _ HS) as (_ & _ & E).
  apply wp_bind, wp_bind, wp_load; auto. apply wp_ret; auto. apply wp_ret; auto.
  rewrite (sr_cur _ _ _ HR), cur_used.
  - destruct l; cbn [length]; auto.
  - pose proof (sr_len _ _ _ HR). pose proof (so_num _ _ HS). lia.
Qed.

(** allocate takes an index that is not linked and not free *)
Lemma wp_allocate : forall (I : mem -> Prop) m ch fs cur lk (Q : Z -> mem -> Prop), Inv m ch fs cur lk -> I m ->
  (cur = N -> fs = [] -> Q nil32 m) ->
  (forall nn m1 fs1 cur1, Inv m1 ch fs1 cur1 (lk + 1) ->
     (forall a, a_objs P <= a -> m1 a = m a) -> 0 <= nn < cur1 -> nn < N ->
     ~ In nn (nodes ch ++ fs1) -> I m1 /\ Q nn m1) ->
  wp lim I (pool_allocate (the_pool P)) m Q.
Proof.
  intros I m ch fs cur lk Q HI HIm Q0 Q1. pose proof HI as [C1 C2 C3 C4 C5 C6].
  pose proof (the_pool_ok P HP) as HO. pose proof (po_stack _ _ HO) as HS.
  pose proof (regions P HP) as (G1 & G2 & G3 & G4 & _). pose proof HP as (P1 & P2 & P3).
  destruct (po_inb _ _ HO) as (E1 & E2 & E3).
  destruct (so_inb_hdr _ _ HS) as (E4 & E5 & E6).
  unfold pool_allocate. apply wp_bind.
  apply (wp_empty _ _ _ (ones fs)); auto. { apply (pr_fs _ _ _ _ _ C3). }
  destruct fs as [|x fs]; cbn [ones map].
  - apply wp_bind, wp_load; auto. rewrite (pr_cur _ _ _ _ _ C3).
    pose proof (pr_bnd _ _ _ _ _ C3) as HB. change (p_num (the_pool P)) with N in *.
    destruct (Z.leb_spec N cur).
    + apply wp_ret; auto. apply Q0; auto. lia.
    + assert (HN : N < 2^31) by (destruct (so_num _ _ HS); auto).
      assert (HI1 : Inv (mset m (p_cur (the_pool P)) (u32 (cur + 1))) ch [] (cur + 1) (lk + 1)).
      { rewrite u32_small by lia. constructor; auto.
        - apply (cont_pool P HP m); auto. intros a Ha. apply mset_other.
          change (p_cur (the_pool P)) with 20. lia.
        - apply (allocate_rep_fresh lim); auto.
        - intros i Hi. specialize (C5 i Hi). lia.
        - lia. }
      destruct (Q1 cur _ _ _ HI1) as (X1 & X2).
      * intros a Ha. apply mset_other. change (p_cur (the_pool P)) with 20. lia.
      * lia.
      * auto.
      * intro X. specialize (C5 cur X). lia.
      * apply wp_bind, wp_store; auto. apply wp_ret; auto.
  - unfold stack_pop. apply wp_bind, wp_bind, wp_load; auto. cbn [ones map] in *.
    pose proof (pr_fs _ _ _ _ _ C3) as HR.
    assert (Hc : m (s_cur (p_free (the_pool P))) = Z.of_nat (length fs)).
    { rewrite (sr_cur _ _ _ HR). cbn [ones map length]. rewrite map_length.
      pose proof (sr_len _ _ _ HR) as HL. cbn [ones map length] in HL. rewrite map_length in HL.
      pose proof (so_num _ _ HS). rewrite u32_small; lia. }
    rewrite Hc.
    set (m1 := mset m (s_cur (p_free (the_pool P))) (u32 (Z.of_nat (length fs) - 1))).
    assert (Hx : 0 <= x < cur) by (apply C5; apply in_or_app; right; now left).
    pose proof (iv_cur _ _ _ _ _ _ HI).
    assert (ND : ~ In x (nodes ch ++ fs)) by (apply NoDup_remove_2; auto).
    assert (HI1 : Inv m1 ch fs cur (lk + 1)).
    { constructor; auto.
      - apply (cont_pool P HP m); auto. intros a Ha. apply mset_other.
        change (s_cur (p_free (the_pool P))) with 32. lia.
      - apply (allocate_rep_reuse lim _ _ _ x); auto.
      - apply NoDup_remove_1 in C4. auto.
      - intros i Hi. apply C5. rewrite in_app_iff in *. cbn [In]. tauto.
      - cbn [length] in C6. lia. }
    assert (Fr : forall a, a_objs P <= a -> m1 a = m a).
    { intros a Ha. apply mset_other. change (s_cur (p_free (the_pool P))) with 32. lia. }
    destruct (Q1 x m1 fs cur HI1 Fr) as (X1 & X2); auto. { lia. }
    apply wp_bind, wp_store; auto. fold m1.
    change (s_words (p_free (the_pool P))) with 1%nat.
    assert (HL : Z.of_nat (length fs) < N).
    { pose proof (sr_len _ _ _ HR) as HL. cbn [ones map length] in HL. rewrite map_length in HL.
      change (s_num (p_free (the_pool P))) with N in HL. lia. }
    apply wp_load_words; auto.
    { apply (so_wrange lim (p_free (the_pool P))); auto. change (s_num (p_free (the_pool P))) with N. lia. }
    apply wp_ret; auto. cbn [rdw hd].
    replace (m1 _) with x; auto.
    unfold m1. rewrite mset_other.
    + pose proof (sr_el _ _ _ HR (length fs) [x]) as X.
      change (s_words (p_free (the_pool P))) with 1%nat in X. cbn [rdw] in X.
      assert (XX : [m (elem_at (p_free (the_pool P)) (Z.of_nat (length fs)))] = [x]).
      { apply X. cbn [ones map rev]. rewrite nth_error_app2 by (rewrite rev_length, map_length; lia).
        rewrite rev_length, map_length, Nat.sub_diag. reflexivity. }
      injection XX as XX. symmetry. exact XX.
    + change (s_cur (p_free (the_pool P))) with 32.
      change (s_dat (p_free (the_pool P))) with a_stack. lia.
Qed.

(** the contents are unchanged when only other nodes or pool cells change *)
Lemma state_float : forall s lk m m' ch fs cur x, Inv m ch fs cur lk -> 0 <= lk ->
  Permutation (entries m ch) s -> 0 <= x < N -> ~ In x (nodes ch) ->
  (forall a, a < key x \/ key x + ns <= a -> m' a = m a) ->
  Inv m' ch fs cur lk /\ Permutation (entries m' ch) s.
Proof.
  intros s lk m m' ch fs cur x HI Hlk Hp Hx Hn F.
  destruct (inv_float P HP _ _ _ _ _ _ _ HI Hx Hn F) as (X & AG). split; auto.
  rewrite (agree_entries P _ _ _ AG). auto.
Qed.

Lemma inv_link : forall m ch fs cur lk s k nn, Inv m ch fs cur lk ->
  Permutation (entries m ch) s -> ~ In k (keys s) ->
  0 <= nn < cur -> ~ In nn (nodes ch ++ fs) -> m (next nn) = nil32 -> m (key nn) = k ->
  let h := hidx P k in
  let m' := mset m (endc (bucket h) (ch h)) nn in
  let ch' := setch ch h (ch h ++ [nn]) in
  Inv m' ch' fs cur (lk - 1) /\ Permutation (entries m' ch') (entry m nn :: s).
Proof.
  intros m ch fs cur lk s k nn HI Hp Hk Hnn Hfl Hnx Hkey h m' ch'.
  pose proof HI as [C1 C2 C3 C4 C5 C6]. pose proof (iv_cur _ _ _ _ _ _ HI) as HB.
  pose proof (hidx_range k) as Hh. fold h in Hh.
  assert (HnN : 0 <= nn < N) by lia.
  assert (Hnc : ~ In nn (ch h)).
  { intro X. apply Hfl. apply in_or_app. left. apply in_nodes; auto. eauto. }
  assert (EC : ch h = ch h ++ []) by now rewrite app_nil_r.
  set (c := endc (bucket h) (ch h)) in *.
  assert (Hc : In c (bucket h :: map next (ch h))) by (apply (endc_cell h (ch h) []); auto).
  destruct (cell_facts _ _ _ _ C1 Hh Hc) as (F1 & F2 & F3 & F4).
  destruct (focus P HP ch h Hh) as (rest & Q1 & Q2 & Q3).
  assert (PN : Permutation (nodes ch') (nn :: nodes ch)).
  { unfold ch'. rewrite Q2, Q1. rewrite <- app_assoc. cbn [app]. symmetry. apply Permutation_middle. }
  assert (HC' : Cont m' ch').
  { unfold m', ch'. apply (cont_relink m ch h (ch h) [] [nn]); auto.
    - cbn [ShmMap_Proof.chain]. split; [apply mset_same|]. rewrite mset_other; auto.
      intro X. apply (F4 nn); auto.
    - apply (Permutation_NoDup (Permutation_sym PN)). apply NoDup_cons_iff. split.
      + intro X. apply Hfl. apply in_or_app. auto.
      + apply (ct_nd _ _ _ C1).
    - intros i [<-|[]]. split; auto. rewrite Hkey. reflexivity.
    - rewrite map_app. cbn [map].
      apply (Permutation_NoDup (Permutation_cons_append _ _)). apply NoDup_cons_iff. split.
      + intro X. apply in_map_iff in X. destruct X as (i & Ei & Hi). apply Hk.
        apply (Permutation_in _ (Permutation_map fst Hp)).
        unfold ShmMap_Proof.entries. rewrite map_map. apply in_map_iff. exists i.
        cbn [fst ShmMap_Proof.entry]. split; [congruence|]. apply in_nodes; auto. eauto.
      + apply (ct_kd _ _ _ C1); auto. }
  split.
  - pose proof (regions P HP) as (G1 & G2 & _). pose proof HP as (P1 & P2 & P3).
    constructor; auto.
    + destruct C2 as (D1 & D2 & D3). unfold m'. rewrite !mset_other by lia. auto.
    + apply (pool_rep_frame lim _ _ m); auto. { apply the_pool_ok; auto. }
      intros a Ha. pose proof (pool_cell_low P HP a Ha). apply mset_other. lia.
    + apply (Permutation_NoDup (l := nn :: nodes ch ++ fs)).
      * apply Permutation_sym. change (nn :: nodes ch ++ fs) with ((nn :: nodes ch) ++ fs).
        now apply Permutation_app_tail.
      * apply NoDup_cons_iff. auto.
    + intros i Hi. apply in_app_or in Hi. destruct Hi as [Hi|Hi].
      * apply (Permutation_in _ PN) in Hi. destruct Hi as [<-|Hi]; auto.
        apply C5. apply in_or_app. auto.
      * apply C5. apply in_or_app. auto.
    + rewrite (Permutation_length PN). cbn [length]. lia.
  - unfold ShmMap_Proof.entries at 1. rewrite (Permutation_map (entry m') PN). cbn [map].
    assert (EE : forall i, 0 <= i < N -> entry m' i = entry m i).
    { intros i Hi. apply (entry_relink m ch h); auto. }
    rewrite EE by auto. apply perm_skip. rewrite <- Hp. unfold ShmMap_Proof.entries.
    rewrite (map_ext_in (entry m') (entry m)); auto.
    intros i Hi. apply EE. apply (ct_in _ _ _ C1); auto.
Qed.

Lemma app_prefix_len : forall (A : Type) (l a b : list A), l = a ++ b -> (length a <= length l)%nat.
Proof. intros. subst. rewrite app_length. lia. Qed.

(** states between the start and the end of adding (k,v) to [s] *)
Definition adding (s : fmap) (lk k : Z) (v : list Z) (m : mem) : Prop :=
  State s lk m \/ State s (lk + 1) m \/ State ((k, v) :: s) lk m.

Lemma insert_tail_ok : forall m ch fs cur lk s k v, Inv m ch fs cur lk -> 0 <= lk ->
  Permutation (entries m ch) s -> ~ In k (keys s) -> length v = words P ->
  wp lim (adding s lk k v) (insert_tail k v (endc (bucket (hidx P k)) (ch (hidx P k)))) m
    (fun b m' => if b : bool then State ((k, v) :: s) lk m' /\ Z.of_nat (length s) < N - lk
                 else State s lk m' /\ m' = m /\ N - lk <= Z.of_nat (length s)).
Proof.
  intros m ch fs cur lk s k v HI Hlk Hp Hk Hv.
  pose proof (hidx_range k) as Hh. set (h := hidx P k) in *.
  pose proof (node_facts P) as (F1 & F2 & F3 & F4 & F5). unfold wsz in F1.
  assert (Hlen : length s = length (nodes ch)).
  { rewrite <- (Permutation_length Hp). apply map_length. }
  unfold insert_tail. apply wp_bind.
  apply (wp_allocate _ m ch fs cur lk); auto.
  - left. exists ch, fs, cur. auto.
  - intros Hc Hf. rewrite Z.eqb_refl.
    assert (SM : State s lk m) by (exists ch, fs, cur; auto).
    apply wp_ret; [left; auto|]. split; auto. split; auto.
    pose proof (iv_len _ _ _ _ _ _ HI) as X. subst fs. cbn [length] in X. lia.
  - intros nn m1 fs1 cur1 HI1 Fr1 Hnn HnN Hfl.
    assert (Hp1 : Permutation (entries m1 ch) s).
    { destruct (cont_pool P HP m m1 ch (iv_ct _ _ _ _ _ _ HI) Fr1) as (_ & AG).
      rewrite (agree_entries P _ _ _ AG). auto. }
    assert (HnN' : 0 <= nn < N) by lia.
    assert (Hfn : ~ In nn (nodes ch)) by (intro; apply Hfl; apply in_or_app; auto).
    assert (St : forall m2, (forall a, a < key nn \/ key nn + ns <= a -> m2 a = m1 a) ->
              Inv m2 ch fs1 cur1 (lk + 1) /\ Permutation (entries m2 ch) s).
    { intros m2 F. apply (state_float s (lk + 1) m1 m2 ch fs1 cur1 nn); auto. lia. }
    assert (Ad : forall m2, (forall a, a < key nn \/ key nn + ns <= a -> m2 a = m1 a) ->
              adding s lk k v m2).
    { intros m2 F. right. left. destruct (St m2 F). exists ch, fs1, cur1. split; auto.
      split; auto. lia. }
    split; [apply Ad; auto|].
    destruct (Z.eqb_spec nn nil32) as [X|_]; [exfalso; revert X; apply (N_nil P HP); auto|].
    assert (Fr2 : forall ws, (length ws <= words P)%nat -> forall a,
      a < key nn \/ key nn + ns <= a ->
      mwords (mset m1 (key nn) k) (a_val P nn) ws a = m1 a).
    { intros ws Hws a Ha. rewrite mwords_other.
      - apply mset_other. lia.
      - intros j Hj. rewrite a_val_key. lia. }
    set (m2 := mwords (mset m1 (key nn) k) (a_val P nn) v).
    assert (Fr3 : forall a, a < key nn \/ key nn + ns <= a -> mset m2 (next nn) nil32 a = m1 a).
    { intros a Ha. rewrite mset_other by (rewrite a_next_key; lia). apply Fr2; auto. lia. }
    unfold fill_node. apply wp_bind, wp_bind, wp_store.
    + apply inb_key; auto.
    + apply Ad. auto.
    + apply Ad. intros a Ha. apply mset_other. lia.
    + apply wp_bind, wp_store_words.
      * rewrite Hv. apply wrange_val; auto.
      * intros ws1 ws2 E. apply Ad. apply Fr2. rewrite <- Hv. now apply (app_prefix_len _ _ _ ws2).
      * fold m2. apply wp_store.
        -- apply inb_next; auto.
        -- apply Ad. apply Fr2. lia.
        -- apply Ad. auto.
        -- set (m3 := mset m2 (next nn) nil32) in *.
           destruct (St m3 Fr3) as (HI3 & Hp3).
           assert (Ek : m3 (key nn) = k).
           { unfold m3. rewrite mset_other by (rewrite a_next_key; lia). unfold m2.
             rewrite mwords_other. { apply mset_same. } intros j Hj. rewrite a_val_key. lia. }
           assert (Ee : entry m3 nn = (k, v)).
           { unfold ShmMap_Proof.entry. rewrite Ek. f_equal. transitivity (rdw m2 (a_val P nn) (words P)).
             - apply rdw_ext. intros j Hj. unfold m3. apply mset_other.
               rewrite a_next_key, a_val_key. lia.
             - rewrite <- Hv. apply rdw_mwords. }
           destruct (inv_link m3 ch fs1 cur1 (lk + 1) s k nn) as (HI4 & Hp4); auto.
           { apply mset_same. }
           fold h in HI4, Hp4. rewrite Ee in Hp4.
           replace (lk + 1 - 1) with lk in HI4 by lia.
           assert (S4 : State ((k, v) :: s) lk (mset m3 (endc (bucket h) (ch h)) nn)).
           { exists (setch ch h (ch h ++ [nn])), fs1, cur1. auto. }
           assert (HinbE : inb lim 4 (endc (bucket h) (ch h)) = true).
           { pose proof (endc_cell h (ch h) [] ch) as X. rewrite app_nil_r in X.
             destruct (X eq_refl) as [<-|X'].
             - apply inb_bucket; auto.
             - apply in_map_iff in X'. destruct X' as (z & <- & Hz). apply inb_next; auto.
               apply (ct_chain_in P HP _ _ _ _ (iv_ct _ _ _ _ _ _ HI) Hh Hz). }
           apply wp_bind, wp_store; auto.
           { right. right. auto. }
           apply wp_ret. { right. right. auto. }
           split; auto.
           pose proof (iv_len _ _ _ _ _ _ HI1). pose proof (iv_cur _ _ _ _ _ _ HI1). lia.
Qed.

Lemma torn_self : forall v v', torn v v' v.
Proof. intros. exists 0%nat. reflexivity. Qed.

(** overwriting words of a value *)
Lemma rdw_prefix : forall ws m a n, (length ws <= n)%nat ->
  rdw (mwords m a ws) a n = ws ++ skipn (length ws) (rdw m a n).
Proof.
  induction ws as [|w ws IH]; intros m a n Hn; cbn [mwords length app] in *; auto.
  destruct n as [|n]; [lia|]. cbn [rdw skipn]. f_equal.
  - rewrite mwords_other by lia. apply mset_same.
  - rewrite IH by lia. f_equal. f_equal. apply rdw_ext. intros j Hj. apply mset_other. lia.
Qed.

(** states while the value of [k] is overwritten *)
Definition updating (s : fmap) (lk k : Z) (v v' : list Z) (m : mem) : Prop :=
  exists w, torn v v' w /\ State ((k, w) :: del s k) lk m.

Lemma update_state : forall m ch fs cur lk s k v i l1 l2 ws, Inv m ch fs cur lk -> 0 <= lk ->
  Permutation (entries m ch) s -> ch (hidx P k) = l1 ++ i :: l2 -> m (key i) = k ->
  lookup s k = Some v -> (length ws <= words P)%nat ->
  State ((k, ws ++ skipn (length ws) v) :: del s k) lk (mwords m (a_val P i) ws).
Proof.
  intros m ch fs cur lk s k v i l1 l2 ws HI Hlk Hp E Ek Hv Hws.
  pose proof HI as [C1 C2 C3 C4 C5 C6].
  pose proof (hidx_range k) as Hh. set (h := hidx P k) in *.
  pose proof (node_facts P) as (F1 & F2 & F3 & F4 & F5). unfold wsz in F1.
  assert (Hi : 0 <= i < N).
  { apply (ct_chain_in P HP _ _ h _ C1); auto. rewrite E. apply in_or_app. right. now left. }
  pose proof (node_region P HP i Hi) as (R1 & R2 & _).
  pose proof (regions P HP) as (G1 & G2 & G3 & G4 & _). pose proof HP as (P1 & P2 & P3).
  set (m' := mwords m (a_val P i) ws).
  assert (Fr : forall a, a < a_val P i \/ a_val P i + 4 * Z.of_nat (length ws) <= a -> m' a = m a).
  { intros a Ha. apply mwords_other. intros j Hj. lia. }
  assert (Ft : forall j, m' (next j) = m (next j)).
  { intro j. apply Fr. rewrite a_val_key, a_next_key. destruct (Z.eq_dec i j) as [->|n]; [lia|].
    pose proof (node_sep P i j n). lia. }
  assert (Fk : forall j, m' (key j) = m (key j)).
  { intro j. apply Fr. rewrite a_val_key. destruct (Z.eq_dec i j) as [->|n]; [lia|].
    pose proof (node_sep P i j n). lia. }
  assert (Fb : forall x, 0 <= x -> m' (bucket x) = m (bucket x)).
  { intros x Hx. apply Fr. unfold a_bucket. rewrite a_val_key. lia. }
  assert (HC' : Cont m' ch).
  { destruct C1 as [A1 A2 A3 A4 A5]. constructor; auto.
    - intros x Hx. apply (chain_frame P m); auto. apply Fb. lia.
    - intros x j Hx Hj. rewrite Fk. auto.
    - intros x Hx. rewrite (map_ext _ (fun j => m (key j))); auto. }
  assert (HI' : Inv m' ch fs cur lk).
  { constructor; auto.
    - destruct C2 as (D1 & D2 & D3). rewrite !Fr by (rewrite a_val_key; lia). auto.
    - apply (pool_rep_frame lim _ _ m); auto. { apply the_pool_ok; auto. }
      intros a Ha. pose proof (pool_cell_low P HP a Ha). apply Fr. rewrite a_val_key. lia. }
  exists ch, fs, cur. split; auto. split; auto.
  destruct (bucket_hit _ _ _ _ _ _ _ C1 Hp E Ek) as (t & T1 & T2 & T3).
  assert (Ev : entry m i = (k, v)).
  { unfold ShmMap_Proof.entry. rewrite Ek. f_equal.
    rewrite (lookup_perm s _ k (holds_nd s m (ex_intro _ ch (conj C1 Hp))) T1) in Hv.
    cbn [lookup ShmMap_Proof.entry] in Hv. rewrite Ek, Z.eqb_refl in Hv. congruence. }
  assert (Dt : Permutation (del s k) t).
  { rewrite (del_perm _ _ k T1), Ev. rewrite del_head; auto. }
  rewrite Dt.
  destruct (focus P HP ch h Hh) as (rest & Q1 & _). rewrite E in Q1.
  specialize (T3 rest Q1). rewrite T3.
  unfold ShmMap_Proof.entries. rewrite (Permutation_map (entry m') Q1).
  rewrite <- app_assoc. cbn [app]. rewrite map_app. cbn [map].
  rewrite <- Permutation_middle, <- map_app.
  assert (Ei : entry m' i = (k, ws ++ skipn (length ws) v)).
  { unfold ShmMap_Proof.entry. rewrite Fk, Ek. f_equal. unfold m'. rewrite rdw_prefix by auto.
    f_equal. f_equal. unfold ShmMap_Proof.entry in Ev. congruence. }
  rewrite Ei. apply perm_skip.
  rewrite (map_ext_in (entry m') (entry m)); auto.
  intros j Hj. apply entry_ext; auto. intros q Hq. apply Fr.
  assert (j <> i).
  { intros ->. assert (ND : NoDup (l1 ++ i :: l2 ++ rest)).
    { pose proof (Permutation_NoDup Q1 (ct_nd _ _ _ C1)) as X. rewrite <- app_assoc in X. exact X. }
    apply NoDup_remove_2 in ND. apply ND. exact Hj. }
  pose proof (node_sep P i j). rewrite !a_val_key. lia.
Qed.

Lemma wp_insert_loop : forall (I : mem -> Prop) m k v (Q : bool -> mem -> Prop) h ch, Cont m ch -> 0 <= h < hs -> I m ->
  (forall l1 i l2, ch h = l1 ++ i :: l2 -> m (key i) = k ->
     wp lim I (store_words (a_val P i) v ;;; Ret true) m Q) ->
  ((forall i, In i (ch h) -> m (key i) <> k) ->
     wp lim I (insert_tail k v (endc (bucket h) (ch h))) m Q) ->
  forall l l0 i fuel, ch h = l0 ++ i :: l -> (length l < fuel)%nat ->
  (forall j, In j l0 -> m (key j) <> k) ->
  wp lim I (insert_loop P fuel k v i) m Q.
Proof.
  intros I m k v Q h ch HC Hh HI Qhit Qmiss l.
  induction l as [|j l IH]; intros l0 i fuel E Hf Hn;
    (destruct fuel as [|fuel]; [cbn [length] in Hf; lia|]); cbn [insert_loop].
  - assert (Hi : 0 <= i < N).
    { apply (ct_chain_in P HP _ _ h _ HC); auto. rewrite E. apply in_or_app. right. now left. }
    apply wp_bind, wp_load; auto. { apply inb_key; auto. }
    destruct (Z.eqb_spec k (m (key i))) as [Ek|Ek]. { apply (Qhit l0 i []); auto. }
    apply wp_bind, wp_load; auto. { apply inb_next; auto. }
    assert (Ee : endc (bucket h) (ch h) = next i) by (rewrite E; apply endc_snoc).
    assert (En : m (next i) = nil32).
    { rewrite <- Ee. apply chain_end. apply (ct_ch _ _ _ HC); auto. }
    rewrite En, Z.eqb_refl. cbn [negb]. rewrite <- Ee. apply Qmiss.
    intros x Hx. rewrite E in Hx. apply in_app_or in Hx. destruct Hx as [Hx|[<-|[]]]; auto.
  - assert (Hi : 0 <= i < N).
    { apply (ct_chain_in P HP _ _ h _ HC); auto. rewrite E. apply in_or_app. right. now left. }
    assert (Hj : 0 <= j < N).
    { apply (ct_chain_in P HP _ _ h _ HC); auto. rewrite E. apply in_or_app. right. right. now left. }
    apply wp_bind, wp_load; auto. { apply inb_key; auto. }
    destruct (Z.eqb_spec k (m (key i))) as [Ek|Ek]. { apply (Qhit l0 i (j :: l)); auto. }
    apply wp_bind, wp_load; auto. { apply inb_next; auto. }
    assert (En : m (next i) = j).
    { pose proof (ct_ch _ _ _ HC h Hh) as X. rewrite E in X. apply chain_split in X.
      cbn [ShmMap_Proof.chain] in X. tauto. }
    rewrite En. destruct (Z.eqb_spec j nil32) as [X|_]; [exfalso; revert X; apply (N_nil P HP); auto|].
    cbn [negb]. apply (IH (l0 ++ [i])).
    + rewrite E, <- app_assoc. reflexivity.
    + cbn [length] in Hf. lia.
    + intros x Hx. apply in_app_or in Hx. destruct Hx as [Hx|[<-|[]]]; auto.
Qed.

(** every point of an insert *)
Definition inserting (s : fmap) (lk k : Z) (v : list Z) (m : mem) : Prop :=
  match lookup s k with
  | Some old => updating s lk k old v m
  | None => adding s lk k v m
  end.

Lemma insert_ok : forall s lk m k v fuel, State s lk m -> length v = words P ->
  (Z.to_nat N < fuel)%nat ->
  wp lim (inserting s lk k v) (insert P fuel k v) m
    (fun b m' => State (snd (put1 (N - lk) s k v)) lk m' /\ b = fst (put1 (N - lk) s k v)).
Proof.
  intros s lk m k v fuel HSt Hv Hf. pose proof HSt as (ch & fs & cur & HI & Hlk & Hp).
  pose proof (iv_ct _ _ _ _ _ _ HI) as HC.
  pose proof (hidx_range k) as Hh. pose proof HP as (P1 & P2 & P3).
  assert (ND : NoDup (keys s)) by (apply (holds_nd s m); apply (state_holds s lk); auto).
  assert (HIm : inserting s lk k v m).
  { unfold inserting. destruct (lookup s k) as [old|] eqn:El.
    - exists old. split; [apply torn_self|].
      exists ch, fs, cur. split; auto. split; auto. rewrite Hp.
      pose proof (lookup_some_in _ _ _ El) as Hin.
      apply in_split in Hin. destruct Hin as (s1 & s2 & Es).
      assert (X : Permutation s ((k, old) :: s1 ++ s2)) by (rewrite Es; symmetry; apply Permutation_middle).
      rewrite X at 1. apply perm_skip. rewrite (del_perm _ _ k X).
      rewrite del_head; auto. intro Y.
      assert (Z : NoDup (keys ((k, old) :: s1 ++ s2))).
      { apply (Permutation_NoDup (l := keys s)); auto. now apply Permutation_map. }
      cbn [keys map fst] in Z. apply NoDup_cons_iff in Z. tauto.
    - left. auto. }
  assert (Qhit : forall l1 i l2, ch (hidx P k) = l1 ++ i :: l2 -> m (key i) = k ->
    wp lim (inserting s lk k v) (store_words (a_val P i) v ;;; Ret true) m
      (fun b m' => State (snd (put1 (N - lk) s k v)) lk m' /\ b = fst (put1 (N - lk) s k v))).
  { intros l1 i l2 E Ek.
    destruct (bucket_hit _ _ _ _ _ _ _ HC Hp E Ek) as (t & T1 & T2 & T3).
    assert (El : exists old, lookup s k = Some old /\ length old = words P).
    { exists (rdw m (a_val P i) (words P)). split; [|apply rdw_length].
      rewrite (lookup_perm _ _ k ND T1). cbn [lookup ShmMap_Proof.entry].
      rewrite Ek, Z.eqb_refl. reflexivity. }
    destruct El as (old & El & Hold).
    assert (Hi : 0 <= i < N).
    { apply (ct_chain_in P HP _ _ (hidx P k) _ HC); auto. rewrite E. apply in_or_app. right. now left. }
    assert (Fin : State ((k, v) :: del s k) lk (mwords m (a_val P i) v)).
    { pose proof (update_state m ch fs cur lk s k old i l1 l2 v HI Hlk Hp E Ek El) as X.
      rewrite Hv in X. specialize (X (le_n _)). rewrite skipn_all2, app_nil_r in X by lia. auto. }
    apply wp_bind, wp_store_words.
    - rewrite Hv. apply wrange_val; auto.
    - intros ws1 ws2 E12. unfold inserting. rewrite El.
      exists (ws1 ++ skipn (length ws1) old). split.
      + exists (length ws1). rewrite E12, firstn_app, firstn_all, Nat.sub_diag. cbn [firstn].
        rewrite app_nil_r. reflexivity.
      + apply (update_state m ch fs cur lk s k old i l1 l2); auto.
        pose proof (app_prefix_len _ _ _ _ E12). lia.
    - unfold put1, has. rewrite El. apply wp_ret.
      + unfold inserting. rewrite El. exists v. split; auto. exists (length v).
        rewrite firstn_all, skipn_all2, app_nil_r by lia. reflexivity.
      + split; auto. }
  assert (Qmiss : (forall i, In i (ch (hidx P k)) -> m (key i) <> k) ->
    wp lim (inserting s lk k v) (insert_tail k v (endc (bucket (hidx P k)) (ch (hidx P k)))) m
      (fun b m' => State (snd (put1 (N - lk) s k v)) lk m' /\ b = fst (put1 (N - lk) s k v))).
  { intros Hn. pose proof (bucket_miss _ _ _ _ HC Hp Hn) as Hk.
    pose proof (lookup_none _ _ Hk) as El.
    apply (wp_mono _ _ _ _ _ _ _ _ (insert_tail_ok m ch fs cur lk s k v HI Hlk Hp Hk Hv)).
    - intros x Hx. unfold inserting. rewrite El. auto.
    - intros b x _ Hq. unfold put1, has. rewrite El. destruct b.
      + destruct Hq as (Hq & Hl). destruct (Z.ltb_spec (Z.of_nat (length s)) (N - lk)); try lia.
        split; auto.
      + destruct Hq as (Hq & _ & Hl). destruct (Z.ltb_spec (Z.of_nat (length s)) (N - lk)); try lia.
        split; auto. }
  unfold insert. destruct (Z.eqb_spec hs 0); [lia|].
  apply wp_bind, wp_load; auto. { apply inb_bucket; auto. }
  pose proof (ct_ch _ _ _ HC (hidx P k) Hh) as Hchain.
  pose proof (chain_len _ _ _ HC Hh) as Hlen.
  destruct (ch (hidx P k)) as [|i l] eqn:E.
  - cbn [ShmMap_Proof.chain] in Hchain. rewrite Hchain, Z.eqb_refl. cbn [negb].
    apply Qmiss. intros i [].
  - cbn [ShmMap_Proof.chain] in Hchain. destruct Hchain as (Hi & _). rewrite Hi.
    assert (HiN : 0 <= i < N).
    { apply (ct_chain_in P HP _ _ (hidx P k) _ HC); auto. rewrite E. now left. }
    destruct (Z.eqb_spec i nil32) as [X|_]; [exfalso; revert X; apply (N_nil P HP); auto|].
    cbn [negb]. rewrite <- E in Qmiss, Qhit.
    apply (wp_insert_loop _ m k v _ (hidx P k) ch HC Hh HIm Qhit Qmiss l []); auto.
    cbn [length] in Hlen. lia.
Qed.

(** *** erase *)

(** the common end of unprotected_erase: take node [i] out of cell [c] *)
Definition erase_tail (c i : Z) : prog bool :=
  nx <~ load 4 (next i) ;;
  store 4 c nx ;;;
  store 4 (next i) nil32 ;;;
  pool_free (the_pool P) i ;;;
  Ret true.

Lemma inv_unlink : forall m ch fs cur lk h l1 i l2, Inv m ch fs cur lk -> 0 <= h < hs ->
  ch h = l1 ++ i :: l2 ->
  let m' := mset m (endc (bucket h) l1) (m (next i)) in
  let ch' := setch ch h (l1 ++ l2) in
  Inv m' ch' fs cur (lk + 1) /\ Permutation (entries m ch) (entry m i :: entries m' ch')
  /\ ~ In i (nodes ch' ++ fs) /\ 0 <= i < cur.
Proof.
  intros m ch fs cur lk h l1 i l2 HI Hh E m' ch'.
  pose proof HI as [C1 C2 C3 C4 C5 C6]. pose proof (iv_cur _ _ _ _ _ _ HI) as HB.
  set (c := endc (bucket h) l1) in *.
  assert (Hc : In c (bucket h :: map next (ch h))) by (apply (endc_cell h l1 (i :: l2)); auto).
  destruct (cell_facts _ _ _ _ C1 Hh Hc) as (F1 & F2 & F3 & F4).
  assert (Hich : In i (ch h)) by (rewrite E; apply in_or_app; right; now left).
  assert (Hin : In i (nodes ch)) by (apply in_nodes; eauto).
  assert (Hi : 0 <= i < cur) by (apply C5; apply in_or_app; auto).
  destruct (focus P HP ch h Hh) as (rest & Q1 & Q2 & Q3).
  assert (PN : Permutation (nodes ch) (i :: nodes ch')).
  { unfold ch'. rewrite Q2, Q1, E. rewrite <- app_assoc. cbn [app].
    rewrite <- app_assoc. symmetry. apply Permutation_middle. }
  pose proof (ct_chain_nd P _ _ _ C1 Hh) as NDc. rewrite E in NDc.
  pose proof (cells_nd P HP _ _ _ C1 Hh) as NDcell. rewrite E, map_app in NDcell. cbn [map] in NDcell.
  assert (Hcn : forall j, In j (i :: l2) -> c <> next j).
  { intros j Hj X. pose proof (endc_in P l1 (bucket h)) as Y. fold c in Y. rewrite X in Y.
    change (bucket h :: map next l1 ++ next i :: map next l2) with
      ((bucket h :: map next l1) ++ map next (i :: l2)) in NDcell.
    assert (Z : In (next j) (map next (i :: l2))) by now apply in_map.
    apply in_split in Z. destruct Z as (u1 & u2 & Z). rewrite Z in NDcell.
    rewrite app_assoc in NDcell. apply NoDup_remove_2 in NDcell. apply NDcell.
    rewrite !in_app_iff. auto. }
  assert (HC' : Cont m' ch').
  { unfold m', ch', c. apply (cont_relink m ch h l1 (i :: l2) l2); auto.
    - fold c. pose proof (ct_ch _ _ _ C1 h Hh) as X. rewrite E in X. apply chain_split in X.
      fold c in X. cbn [ShmMap_Proof.chain] in X. destruct X as (X1 & X2).
      destruct l2 as [|j l2]; cbn [ShmMap_Proof.chain] in *.
      + rewrite mset_same. auto.
      + destruct X2 as (X2 & X3). rewrite mset_same. split; auto.
        apply (chain_frame P m); auto.
        * apply mset_other. intro Y. symmetry in Y. revert Y. apply Hcn. right. now left.
        * intros q Hq. apply mset_other. intro Y. symmetry in Y. revert Y. apply Hcn.
          right. now right.
    - pose proof (Permutation_NoDup PN (ct_nd _ _ _ C1)) as X. apply NoDup_cons_iff in X. apply X.
    - intros j Hj. assert (In j (ch h)) by (rewrite E; apply in_or_app; right; now right).
      split. { apply (ct_chain_in P HP _ _ h _ C1); auto. } apply (ct_key _ _ _ C1); auto.
    - pose proof (ct_kd _ _ _ C1 h Hh) as X. rewrite E, map_app in X. cbn [map] in X.
      apply NoDup_remove_1 in X. rewrite map_app. auto. }
  assert (Hfl : ~ In i (nodes ch' ++ fs)).
  { pose proof (Permutation_NoDup (Permutation_app_tail fs PN) C4) as X.
    cbn [app] in X. apply NoDup_cons_iff in X. tauto. }
  split; [|split; [|split]]; auto.
  - pose proof (regions P HP) as (G1 & G2 & _). pose proof HP as (P1 & P2 & P3).
    constructor; auto.
    + destruct C2 as (D1 & D2 & D3). unfold m'. rewrite !mset_other by lia. auto.
    + apply (pool_rep_frame lim _ _ m); auto. { apply the_pool_ok; auto. }
      intros a Ha. pose proof (pool_cell_low P HP a Ha). apply mset_other. lia.
    + pose proof (Permutation_NoDup (Permutation_app_tail fs PN) C4) as X.
      cbn [app] in X. apply NoDup_cons_iff in X. tauto.
    + intros j Hj. apply C5. apply in_app_or in Hj. apply in_or_app. destruct Hj as [Hj|Hj]; auto.
      left. apply (Permutation_in _ (Permutation_sym PN)). now right.
    + rewrite (Permutation_length PN) in C6. cbn [length] in C6. lia.
  - unfold ShmMap_Proof.entries. rewrite (Permutation_map (entry m) PN). cbn [map].
    apply perm_skip. rewrite (map_ext_in (entry m') (entry m)); auto.
    intros j Hj. apply (entry_relink m ch h); auto.
    apply (ct_in _ _ _ C1). apply (Permutation_in _ (Permutation_sym PN)). now right.
Qed.

Lemma endc_inb : forall m ch h l r, Cont m ch -> 0 <= h < hs -> ch h = l ++ r ->
  inb lim 4 (endc (bucket h) l) = true.
Proof.
  intros m ch h l r HC Hh E. destruct (endc_cell h l r ch E) as [<-|X'].
  - apply inb_bucket; auto.
  - apply in_map_iff in X'. destruct X' as (z & <- & Hz). apply inb_next; auto.
    apply (ct_chain_in P HP _ _ _ _ HC Hh Hz).
Qed.

(** every point of an erase: the chains hold the map before or after *)
Definition erasing (s : fmap) (k : Z) (m : mem) : Prop := Holds s m \/ Holds (del s k) m.

Lemma wp_free : forall (I : mem -> Prop) m ch fs cur lk x (Q : bool -> mem -> Prop),
  Inv m ch fs cur lk -> 0 < lk -> 0 <= x < cur -> ~ In x (nodes ch ++ fs) ->
  (forall m', (forall a, a_objs P <= a -> m' a = m a) -> I m') ->
  (forall m', Inv m' ch (x :: fs) cur (lk - 1) -> agree ch m m' -> Q true m') ->
  wp lim I (pool_free (the_pool P) x) m Q.
Proof.
  intros I m ch fs cur lk x Q HI Hlk Hx Hfl HIm HQ. pose proof HI as [C1 C2 C3 C4 C5 C6].
  pose proof (the_pool_ok P HP) as HO. pose proof (po_stack _ _ HO) as HS.
  pose proof (regions P HP) as (G1 & G2 & G3 & G4 & _). pose proof HP as (P1 & P2 & P3).
  destruct (so_inb_hdr _ _ HS) as (E4 & E5 & E6).
  pose proof (iv_cur _ _ _ _ _ _ HI) as HB.
  pose proof (pr_fs _ _ _ _ _ C3) as HR.
  assert (HL : Z.of_nat (length fs) < N) by lia.
  assert (HN : N < 2^31) by (destruct (so_num _ _ HS); auto).
  assert (Hcu : u32 (m (s_cur (p_free (the_pool P))) + 1) = Z.of_nat (length fs)).
  { rewrite (sr_cur _ _ _ HR), ones_length, cur_used by lia. auto. }
  unfold pool_free, stack_push, stack_used.
  apply wp_bind, wp_bind, wp_load; auto. apply wp_ret; auto. rewrite Hcu.
  change (s_num (p_free (the_pool P))) with N.
  destruct (Z.leb_spec N (Z.of_nat (length fs))); [lia|].
  apply wp_bind, wp_load; auto. rewrite Hcu.
  assert (Fr : forall v, forall a, a_objs P <= a ->
     mset m (s_cur (p_free (the_pool P))) v a = m a).
  { intros v a Ha. apply mset_other. change (s_cur (p_free (the_pool P))) with 32. lia. }
  apply wp_bind, wp_store; auto.
  cbn [store_words].
  assert (HRn : wrange lim (elem_at (p_free (the_pool P)) (Z.of_nat (length fs))) 1).
  { apply (so_wrange lim (p_free (the_pool P))); auto.
    change (s_num (p_free (the_pool P))) with N. lia. }
  destruct HRn as (W1 & W2 & W3).
  assert (FF : forall a, a_objs P <= a -> free_mem (the_pool P) m fs x a = m a).
  { intros a Ha. apply (free_mem_frame lim); auto. intro X.
    pose proof (pool_cell_low P HP a X). lia. }
  destruct (cont_pool P HP m (free_mem (the_pool P) m fs x) ch C1 FF) as (HC' & AG).
  apply wp_bind, wp_bind, wp_store; auto.
  { apply inb_true; auto. }
  apply wp_ret. { apply (HIm (free_mem (the_pool P) m fs x)). auto. }
  apply wp_ret. { apply (HIm (free_mem (the_pool P) m fs x)). auto. }
  apply (HQ (free_mem (the_pool P) m fs x)); auto.
  constructor; auto.
  - destruct C2 as (D1 & D2 & D3).
    assert (X : forall a, 0 <= a < 12 -> free_mem (the_pool P) m fs x a = m a).
    { intros a Ha. apply (free_mem_frame lim); auto. intro Y.
      pose proof (pool_cell_low P HP a Y). lia. }
    rewrite !X by lia. auto.
  - apply (free_rep lim); auto.
  - apply NoDup_app_comm'. cbn [app]. apply NoDup_cons_iff. split.
    + intro X. apply Hfl. rewrite in_app_iff in *. tauto.
    + apply NoDup_app_comm'. auto.
  - intros j Hj. rewrite in_app_iff in Hj. cbn [In] in Hj.
    destruct Hj as [Hj|[<-|Hj]]; auto; apply C5; apply in_or_app; auto.
  - cbn [length]. lia.
Qed.

Lemma erase_tail_ok : forall m ch fs cur lk s k i l1 l2, Inv m ch fs cur lk -> 0 <= lk ->
  Permutation (entries m ch) s -> ch (hidx P k) = l1 ++ i :: l2 -> m (key i) = k ->
  wp lim (erasing s k) (erase_tail (endc (bucket (hidx P k)) l1) i) m
    (fun b m' => State (del s k) lk m' /\ b = has s k).
Proof.
  intros m ch fs cur lk s k i l1 l2 HI Hlk Hp E Ek.
  pose proof (iv_ct _ _ _ _ _ _ HI) as HC.
  pose proof (hidx_range k) as Hh. set (h := hidx P k) in *.
  pose proof (node_facts P) as (F1 & F2 & F3 & F4 & F5). unfold wsz in F1.
  assert (Hh0 : Holds s m) by (exists ch; auto).
  pose proof (holds_nd _ _ Hh0) as ND.
  destruct (bucket_hit _ _ _ _ _ _ _ HC Hp E Ek) as (t & T1 & T2 & _).
  assert (Hhas : has s k = true).
  { unfold has. rewrite (lookup_perm _ _ k ND T1). cbn [lookup ShmMap_Proof.entry].
    rewrite Ek, Z.eqb_refl. reflexivity. }
  assert (Dt : Permutation (del s k) t).
  { rewrite (del_perm _ _ k T1). unfold ShmMap_Proof.entry. rewrite Ek.
    rewrite del_head; auto. }
  destruct (inv_unlink m ch fs cur lk h l1 i l2 HI Hh E) as (HI1 & Hp1 & Hfl & Hi).
  set (m1 := mset m (endc (bucket h) l1) (m (next i))) in *.
  set (ch1 := setch ch h (l1 ++ l2)) in *.
  pose proof (iv_cur _ _ _ _ _ _ HI) as HB.
  assert (HiN : 0 <= i < N) by lia.
  assert (Ent : Permutation (entries m1 ch1) (del s k)).
  { rewrite Dt. apply (Permutation_cons_inv (a := entry m i)). rewrite <- Hp1, Hp. auto. }
  assert (Hfn : ~ In i (nodes ch1)) by (intro; apply Hfl; apply in_or_app; auto).
  destruct (state_float (del s k) (lk + 1) m1 (mset m1 (next i) nil32) ch1 fs cur i HI1)
    as (HI2 & Ent2); auto; try lia.
  { intros a Ha. apply mset_other. rewrite a_next_key. lia. }
  set (m2 := mset m1 (next i) nil32) in *.
  unfold erase_tail.
  apply wp_bind, wp_load; auto. { apply inb_next; auto. } { left. auto. }
  apply wp_bind, wp_store.
  { apply (endc_inb m ch h l1 (i :: l2)); auto. }
  { left. auto. }
  { right. exists ch1. split; auto. apply HI1. }
  fold m1. apply wp_bind, wp_store.
  { apply inb_next; auto. }
  { right. exists ch1. split; auto. apply HI1. }
  { right. exists ch1. split; auto. apply HI2. }
  fold m2. apply wp_bind, (wp_free _ m2 ch1 fs cur (lk + 1)); auto; try lia.
  - intros m' F. right. destruct (cont_pool P HP m2 m' ch1 (iv_ct _ _ _ _ _ _ HI2) F) as (X & AG).
    exists ch1. split; auto. rewrite (agree_entries P _ _ _ AG). auto.
  - intros m' HI3 AG. replace (lk + 1 - 1) with lk in HI3 by lia.
    assert (S3 : State (del s k) lk m').
    { exists ch1, (i :: fs), cur. split; auto. split; auto.
      rewrite (agree_entries P _ _ _ AG). auto. }
    apply wp_ret.
    + right. apply (state_holds _ lk). auto.
    + auto.
Qed.

Lemma wp_erase_loop : forall (I : mem -> Prop) m k (Q : bool -> mem -> Prop) h ch,
  Cont m ch -> 0 <= h < hs -> I m ->
  (forall l1 i l2, ch h = l1 ++ i :: l2 -> m (key i) = k ->
     wp lim I (erase_tail (endc (bucket h) l1) i) m Q) ->
  ((forall i, In i (ch h) -> m (key i) <> k) -> Q false m) ->
  forall l l0 prev fuel, ch h = (l0 ++ [prev]) ++ l -> (length l < fuel)%nat ->
  (forall j, In j (l0 ++ [prev]) -> m (key j) <> k) ->
  wp lim I (erase_loop P fuel k prev (m (next prev))) m Q.
Proof.
  intros I m k Q h ch HC Hh HI Qhit Qmiss l.
  induction l as [|i l IH]; intros l0 prev fuel E Hf Hn;
    (destruct fuel as [|fuel]; [cbn [length] in Hf; lia|]); cbn [erase_loop];
    pose proof (ct_ch _ _ _ HC h Hh) as X; rewrite E in X; apply chain_split in X;
    rewrite endc_snoc in X; cbn [ShmMap_Proof.chain] in X.
  - rewrite X, Z.eqb_refl. apply wp_ret; auto. apply Qmiss. rewrite E, app_nil_r. auto.
  - destruct X as (X1 & X2). rewrite X1.
    assert (Hi : 0 <= i < N).
    { apply (ct_chain_in P HP _ _ h _ HC); auto. rewrite E. apply in_or_app. right. now left. }
    destruct (Z.eqb_spec i nil32) as [Y|_]; [exfalso; revert Y; apply (N_nil P HP); auto|].
    apply wp_bind, wp_load; auto. { apply inb_key; auto. }
    destruct (Z.eqb_spec k (m (key i))) as [Ek|Ek].
    + pose proof (Qhit (l0 ++ [prev]) i l E (eq_sym Ek)) as Y. rewrite endc_snoc in Y. exact Y.
    + apply wp_bind, wp_load; auto. { apply inb_next; auto. }
      apply (IH (l0 ++ [prev]) i).
      * rewrite E, <- !app_assoc. reflexivity.
      * cbn [length] in Hf. lia.
      * intros j Hj. apply in_app_or in Hj. destruct Hj as [Hj|[<-|[]]]; auto.
Qed.

Lemma erase_ok : forall s lk m k fuel, State s lk m -> (Z.to_nat N < fuel)%nat ->
  wp lim (erasing s k) (erase P fuel k) m
    (fun b m' => State (del s k) lk m' /\ b = has s k).
Proof.
  intros s lk m k fuel HSt Hf. pose proof HSt as (ch & fs & cur & HI & Hlk & Hp).
  pose proof (iv_ct _ _ _ _ _ _ HI) as HC.
  pose proof (hidx_range k) as Hh. pose proof HP as (P1 & P2 & P3).
  assert (HIm : erasing s k m) by (left; apply (state_holds _ lk); auto).
  pose proof (fun l1 i l2 => erase_tail_ok m ch fs cur lk s k i l1 l2 HI Hlk Hp) as Qhit.
  assert (Qmiss : (forall i, In i (ch (hidx P k)) -> m (key i) <> k) ->
    State (del s k) lk m /\ false = has s k).
  { intros Hn. pose proof (bucket_miss _ _ _ _ HC Hp Hn) as Hk. unfold has.
    rewrite (lookup_none _ _ Hk), (del_none _ _ Hk). auto. }
  unfold erase. destruct (Z.eqb_spec hs 0); [lia|].
  apply wp_bind, wp_load; auto. { apply inb_bucket; auto. }
  pose proof (ct_ch _ _ _ HC (hidx P k) Hh) as Hchain.
  pose proof (chain_len _ _ _ HC Hh) as Hlen.
  destruct (ch (hidx P k)) as [|i l] eqn:E.
  - cbn [ShmMap_Proof.chain] in Hchain. rewrite Hchain, Z.eqb_refl.
    apply wp_ret; auto.
  - cbn [ShmMap_Proof.chain] in Hchain. destruct Hchain as (Hi & Hc2). rewrite Hi.
    assert (HiN : 0 <= i < N).
    { apply (ct_chain_in P HP _ _ (hidx P k) _ HC); auto. rewrite E. now left. }
    destruct (Z.eqb_spec i nil32) as [X|_]; [exfalso; revert X; apply (N_nil P HP); auto|].
    apply wp_bind, wp_load; auto. { apply inb_key; auto. }
    destruct (Z.eqb_spec k (m (key i))) as [Ek|Ek].
    + apply (Qhit [] i l); auto.
    + apply wp_bind, wp_load; auto. { apply inb_next; auto. }
      rewrite <- E in Qmiss.
      apply (wp_erase_loop _ m k _ (hidx P k) ch HC Hh HIm) with (l := l) (l0 := []); auto.
      * intros l1 j l2 E1 Ej. rewrite E in E1. apply (Qhit l1 j l2); auto.
      * cbn [length] in Hlen. lia.
      * intros j [<-|[]]. auto.
Qed.

End Ops.
