(** What a failed addition leaves behind (property C103). *)

From Coq Require Import ZArith List Bool Lia Permutation.
From Verif Require Import Base SStore_Model SStore_Spec SStoreTree_Proof SHeap_Model SHeap_Spec SHeap_Proof SHeap_Props.
Import ListNotations.
Local Open Scope nat_scope.

(** [r'] is [r], except that one node that has children has lost the array they are in. *)
Inductive cut : anode -> anode -> Prop :=
| cut_here : forall v a c l, l <> [] -> cut (ANode v a c l) (ANode v None c l)
| cut_in : forall v a c l1 x x' l2, cut x x' -> cut (ANode v a c (l1 ++ x :: l2)) (ANode v a c (l1 ++ x' :: l2)).

Lemma free_cut : forall r r', cut r r' -> forall h M, node_ok r -> holds h (owned r ++ M) ->
  free_struct h r' = Ub NullDeref.
Proof.
  induction 1 as [v a c l Hl|v a c l1 x x' l2 C IH]; intros h M N H.
  - destruct l as [|y l]; [congruence|]. reflexivity.
  - apply node_ok_eq in N. destruct N as [Na Nl]. cbn [free_struct].
    assert (Ha : a <> None) by (intros E; apply Na in E; destruct l1; discriminate).
    assert (G : forall l1 h, Forall node_ok (l1 ++ x :: l2) -> holds h (flat_map owned (l1 ++ x :: l2) ++ oid a ++ M) ->
      (fix go (h : heap) (l : list anode) : res heap :=
              match l with
              | [] => Ok h
              | y :: l => _ <- deref h a ;; h <- free_struct h y ;; go h l
              end) h (l1 ++ x' :: l2) = Ub NullDeref).
    { clear - IH Ha. induction l1 as [|y l1 IHl]; intros h N H.
      - cbn [app] in *. inversion N as [|? ? N1 N2]; subst.
        assert (D : deref h a = Ok tt).
        { destruct a as [p|]; [|congruence]. unfold deref. rewrite (live_in _ _ p H); [reflexivity|].
          apply in_or_app. right. left. reflexivity. }
        rewrite D. cbn [bind]. cbn [flat_map] in H. rewrite <- app_assoc in H.
        rewrite (IH _ _ N1 H). reflexivity.
      - cbn [app] in *. inversion N as [|? ? N1 N2]; subst.
        assert (D : deref h a = Ok tt).
        { destruct a as [p|]; [|congruence]. unfold deref. rewrite (live_in _ _ p H); [reflexivity|].
          apply in_or_app. right. left. reflexivity. }
        rewrite D. cbn [bind]. cbn [flat_map] in H. rewrite <- app_assoc in H.
        destruct (free_struct_ok _ _ _ N1 H) as (h1 & E1 & H1). rewrite E1. cbn [bind]. apply IHl; assumption. }
    rewrite G; [reflexivity|exact Nl|]. eapply holds_perm; [exact H|]. cbn [owned]. rewrite <- app_assoc.
    apply Permutation_app_swap_app.
Qed.

Lemma array_none : forall mv ok h a cnt h', array mv ok h a cnt = Ok (h', None) -> (a = None <-> cnt = 0) -> h_live h' = h_live h.
Proof.
  intros mv ok h a cnt h' E Ha. unfold array, alloc in E. destruct (Nat.eqb_spec cnt 0) as [->|N].
  { destruct (ok (h_next h)); inversion E; reflexivity. }
  destruct a as [p|]; [|exfalso; apply N, Ha; reflexivity].
  destruct ((cnt =? 2) || (Nat.land cnt 15 =? 0)); [|discriminate].
  destruct (ok (h_next h)); [|inversion E; reflexivity].
  destruct (mv _); [destruct (release _ p)|destruct (live _ _)]; inversion E.
Qed.

Lemma search_needs_blocks : forall fuel sb kids prev s o, s_blocks sb = [] -> kids <> [] ->
  search fuel sb kids prev s 0 (length kids) = Ok o -> False.
Proof.
  intros [|fuel] sb kids prev s o Hb Hk E; [discriminate|]. cbn [search] in E.
  destruct (Nat.ltb_spec 0 (length kids)); [|destruct kids; [congruence|cbn in *; lia]].
  destruct (rd kids _); try discriminate. cbn [bind] in E. destruct s as [|c s]; [discriminate|].
  cbn [strcmp] in E. unfold rdp at 1 in E. rewrite Hb in E. destruct (fst _); discriminate.
Qed.

(** the three things a failed addition can leave, see [C103_failed_add_partial] *)
Definition untouched (h h' : heap) (b b' : ablocks) (r r' : anode) : Prop :=
  h_live h' = h_live h /\ b' = b /\ r' = r.

Lemma afind_fail : forall mv ok fuel h b r prev s M h' b' r',
  holds h (bown b ++ owned r ++ M) -> node_ok r -> blk_ok b ->
  afind_add mv ok fuel h b r prev s = Ok (h', b', r', None) ->
  untouched h h' b b' r r' \/
  (holds h' (bown b ++ owned r ++ M) /\ b' = b /\ cut r r') \/
  (b_arr b' = None /\ b_ids b' = b_ids b /\ b_ids b <> []) \/
  (a_kids r = [] /\ b_arr b' = None /\ b_ids b' = [] /\ b_ids b = [] /\ a_kids r' = [] /\
   exists q leak, a_arr r' = Some q /\ length leak <= 1 /\ holds h' (q :: leak ++ M)).
Proof.
  induction fuel as [|fuel IH]; intros h b r prev s M h' b' r' H N B E; [discriminate|].
  cbn [afind_add] in E.
  destruct (if length (a_kids r) =? 0 then Ok tt else deref h (a_arr r)) as [[]| |]; try discriminate.
  cbn [bind] in E.
  destruct (search _ _ _ _ _ _ _) as [[mid|bg]| |] eqn:Es; try discriminate; cbn [bind] in E.
  { destruct (rd (a_kids r) mid) as [x| |]; try discriminate. }
  match type of E with (bind ?e _) = _ => destruct e as [cb| |] end; try discriminate.
  cbn [bind] in E. destruct r as [v a c kids]. cbn [a_kids a_arr a_val a_cap] in E, Es.
  apply node_ok_eq in N. destruct N as [Na Nk]. cbn [owned] in H.
  assert (Hnb : kids <> [] -> b_ids b <> []).
  { intros Hk Hb. destruct B as (_ & _ & B3). rewrite Hb in B3. cbn in B3.
    apply (search_needs_blocks (S (length kids)) (b_sb b) (map erase kids) prev s (inr bg)).
    - destruct (s_blocks (b_sb b)); [reflexivity|discriminate].
    - destruct kids; [congruence|discriminate].
    - rewrite map_length. exact Es. }
  destruct (8 <? cb).
  - destruct (rd kids (bg - 1)) as [x| |] eqn:Er; try discriminate. cbn [bind] in E.
    apply rd_inv in Er. destruct (kids_flat _ _ _ Er) as (l1 & l2 & -> & Hl).
    destruct (afind_add mv ok fuel h b x _ _) as [[[[h1 b1] x1] p1]| |] eqn:E1; try discriminate.
    cbn [bind] in E. inversion E; subst h' b' r' p1.
    apply Forall_app in Nk. destruct Nk as [Nk1 Nk2]. inversion Nk2 as [|? ? Nx Nk2']; subst.
    assert (H0 : holds h (bown b ++ owned x ++ oid a ++ flat_map owned l1 ++ flat_map owned l2 ++ M)).
    { eapply holds_perm; [exact H|]. apply Permutation_app_head.
      rewrite owned_split. rewrite <- !app_assoc. apply Permutation_refl. }
    rewrite <- Hl, upd_app.
    destruct (IH h b x _ _ _ _ _ _ H0 Nx B E1) as [(U1 & U2 & U3)|[(U1 & U2 & U3)|[U|(_ & _ & _ & U & _)]]].
    + left. subst. split; [exact U1|]. split; reflexivity.
    + right. left. split; [|split; [exact U2|constructor; exact U3]].
      eapply holds_perm; [exact U1|]. apply Permutation_app_head. cbn [owned].
      rewrite owned_split. rewrite <- !app_assoc. apply Permutation_refl.
    + right. right. left. exact U.
    + exfalso. apply Hnb; [destruct l1; discriminate|exact U].
  - assert (Hc : a = None <-> length kids = 0).
    { rewrite Na. destruct kids; cbn; split; intros; congruence. }
    destruct (array_ok mv ok h a (length kids) (bown b ++ flat_map owned kids ++ M)) as (h1 & a1 & E1 & S1 & S1'); auto.
    { eapply holds_perm; [exact H|]. rewrite <- app_assoc. apply Permutation_app_swap_app. }
    rewrite E1 in E. cbn [bind] in E. destruct a1 as [a1|].
    2:{ inversion E; subst. destruct kids as [|y kids].
      - left. split; [apply (array_none _ _ _ _ _ _ E1 Hc)|]. split; [reflexivity|].
        f_equal. symmetry. apply Na. reflexivity.
      - right. left. split; [|split; [reflexivity|constructor; discriminate]].
        eapply holds_perm; [exact (S1' eq_refl)|]. cbn [owned]. rewrite <- app_assoc. apply Permutation_app_swap_app. }
    specialize (S1 _ eq_refl).
    destruct (negb _); [discriminate|].
    destruct (anew_block mv ok h1 b (length s)) as [[[h2 b2] d]| |] eqn:E2; try discriminate.
    cbn [bind] in E. destruct d; cbn [negb] in E.
    { destruct (new_slot (b_sb b2) prev s) as [[sb v']| |]; discriminate. }
    inversion E; subst h' b' r'. clear E.
    unfold anew_block in E2. destruct (needs_block (b_sb b) (length s)); [|discriminate].
    destruct (alloc ok h1) as [h3 c3] eqn:E3.
    assert (H3 : holds h3 (oid c3 ++ a1 :: bown b ++ flat_map owned kids ++ M)).
    { destruct c3 as [c3|]; [exact (alloc_some _ _ _ _ _ S1 E3)|exact (alloc_none _ _ _ _ S1 E3)]. }
    destruct B as (B1 & B2 & B3).
    assert (Hb : b_arr b = None <-> length (b_ids b) = 0).
    { rewrite B1. destruct (b_ids b); cbn; split; intros; congruence. }
    destruct (array_ok mv ok h3 (b_arr b) (length (b_ids b)) (flat_map oid (b_ids b) ++ oid c3 ++ a1 :: flat_map owned kids ++ M))
      as (h4 & a4 & E4 & _ & S4); auto.
    { eapply holds_perm; [exact H3|]. unfold bown.
      change (a1 :: ?l) with ([a1] ++ l). rewrite <- !app_assoc.
      rewrite (app_assoc (oid c3) [a1]). rewrite (app_assoc (oid c3) [a1] (flat_map owned kids ++ M)).
      set (X := oid c3 ++ [a1]). set (K := flat_map owned kids ++ M).
      apply Permutation_trans with (flat_map oid (b_ids b) ++ X ++ oid (b_arr b) ++ K); [apply Permutation_app_swap_app|].
      apply Permutation_trans with (flat_map oid (b_ids b) ++ oid (b_arr b) ++ X ++ K); [|apply Permutation_app_swap_app].
      apply Permutation_app_head. apply Permutation_app_swap_app. }
    rewrite E4 in E2. cbn [bind] in E2. destruct a4 as [a4|].
    { destruct c3; discriminate. }
    inversion E2; subst h2 b2. cbn [b_arr b_ids b_sb].
    destruct (b_ids b) as [|q ids] eqn:Eb.
    2:{ right. right. left. split; [reflexivity|]. split; [reflexivity|discriminate]. }
    destruct kids as [|y kids]; [|exfalso; apply Hnb; [discriminate|reflexivity]].
    right. right. right. cbn [a_kids a_arr]. split; [reflexivity|]. split; [reflexivity|]. split; [reflexivity|]. split; [reflexivity|].
    assert (Sh : shifted [] bg = []) by (unfold shifted; destruct bg; reflexivity).
    split; [exact Sh|]. exists a1, (oid c3). split; [reflexivity|]. split; [destruct c3; cbn; lia|].
    assert (An : b_arr b = None) by (apply B1; reflexivity). rewrite An in *.
    eapply holds_perm; [exact (S4 eq_refl)|]. cbn [oid app flat_map].
    apply Permutation_sym, Permutation_middle.
Qed.

(** A history, in which an addition may return null if it leaves the storage and the
    memory in use as they were. *)
Definition unharmed (st st' : astorage) : Prop :=
  st_b st' = st_b st /\ st_r st' = st_r st /\ h_live (st_h st') = h_live (st_h st).
Inductive calm (mv ok : nat -> bool) : astorage * log -> list op -> astorage * log -> Prop :=
| calm_nil : forall s, calm mv ok s [] s
| calm_cons : forall st lg o st1 lg1 ops s2,
    aexec_op mv ok (st, lg) o = Ok (st1, lg1) ->
    (forall k, lg1 = lg ++ [(k, None)] -> unharmed st st1) ->
    calm mv ok (st1, lg1) ops s2 -> calm mv ok (st, lg) (o :: ops) s2.

Lemma afind_next : forall mv ok fuel h b r prev s h' b' r' p,
  afind_add mv ok fuel h b r prev s = Ok (h', b', r', p) -> h_next h <= h_next h'.
Proof.
  assert (AL : forall ok h h' q, alloc ok h = (h', q) -> h_next h <= h_next h').
  { intros ok h h' q E. unfold alloc in E. destruct (ok _); inversion E; subst; cbn; lia. }
  assert (AR : forall mv ok h a n h' a', array mv ok h a n = Ok (h', a') -> h_next h <= h_next h').
  { intros mv ok h a n h' a' E. unfold array in E. destruct (n =? 0).
    - destruct (alloc ok h) eqn:X. inversion E; subst. eapply AL; eauto.
    - destruct (_ || _); [|inversion E; subst; lia]. destruct (alloc ok h) as [h1 q] eqn:X. apply AL in X.
      destruct q as [q|]; [|inversion E; subst; lia]. destruct a as [p|]; [|inversion E; subst; lia].
      destruct (mv _).
      { unfold release in E. destruct (live h1 p); inversion E; subst. cbn. lia. }
      destruct (live h p); inversion E; subst. cbn. lia. }
  assert (AN : forall mv ok h b n h' b' d, anew_block mv ok h b n = Ok (h', b', d) -> h_next h <= h_next h').
  { intros mv ok h b n h' b' d E. unfold anew_block in E. destruct (needs_block _ _); [|inversion E; subst; lia].
    destruct (alloc ok h) as [h1 c] eqn:X. apply AL in X.
    destruct (array mv ok h1 _ _) as [[h2 a2]| |] eqn:X2; try discriminate. apply AR in X2. cbn [bind] in E.
    destruct a2; [destruct c; inversion E; subst; lia|inversion E; subst; lia]. }
  intros mv ok. induction fuel as [|fuel IH]; intros h b r prev s h' b' r' p E; [discriminate|].
  cbn [afind_add] in E.
  destruct (if length (a_kids r) =? 0 then Ok tt else deref h (a_arr r)) as [[]| |]; try discriminate.
  cbn [bind] in E.
  destruct (search _ _ _ _ _ _ _) as [[mid|bg]| |] eqn:Es; try discriminate; cbn [bind] in E.
  { destruct (rd (a_kids r) mid) as [x| |]; try discriminate. inversion E; subst. lia. }
  match type of E with (bind ?e _) = _ => destruct e as [cb| |] end; try discriminate. cbn [bind] in E.
  destruct (8 <? cb).
  - destruct (rd (a_kids r) (bg - 1)) as [x| |]; try discriminate. cbn [bind] in E.
    destruct (afind_add mv ok fuel h b x _ _) as [[[[h1 b1] x1] p1]| |] eqn:E1; try discriminate.
    inversion E; subst. eapply IH; eauto.
  - destruct (array mv ok h _ _) as [[h1 a1]| |] eqn:E1; try discriminate. apply AR in E1. cbn [bind] in E.
    destruct a1; [|inversion E; subst; lia]. destruct (negb _); [discriminate|].
    destruct (anew_block mv ok h1 b (length s)) as [[[h2 b2] d]| |] eqn:E2; try discriminate. apply AN in E2.
    cbn [bind] in E. destruct d; cbn [negb] in E; [|inversion E; subst; lia].
    destruct (new_slot (b_sb b2) prev s) as [[sb v']| |]; try discriminate. inversion E; subst. lia.
Qed.

Lemma calm_ok : forall mv ok L uds s ops s2, calm mv ok s ops s2 ->
  st_ok L (fst s) -> s_uds (b_sb (st_b (fst s))) = uds -> st_ok L (fst s2) /\ s_uds (b_sb (st_b (fst s2))) = uds.
Proof.
  intros mv ok L uds s ops s2 C. induction C as [s|st lg o st1 lg1 ops s2 E U C IH]; intros H Hu; [auto|].
  cbn [fst] in *. apply IH; clear IH C.
  - destruct o as [k|i d]; cbn [aexec_op] in E.
    + destruct (aadd mv ok st (cstr k)) as [[st' p]| |] eqn:E1; try discriminate. inversion E; subst.
      destruct p as [p|]; [exact (aadd_ok _ _ _ _ _ _ _ H E1)|].
      destruct (U k eq_refl) as (U1 & U2 & U3). destruct H as ((H1 & H2 & H3) & N & B).
      unfold st_ok. rewrite U1, U2. split; [|auto]. split; [exact H1|]. split; [rewrite U3; exact H2|].
      eapply Forall_impl; [|exact H3]. cbn beta. intros q Hq. eapply Nat.lt_le_trans; [exact Hq|].
      unfold aadd in E1. destruct (_ <? _); [inversion E1; subst; lia|].
      destruct (afind_add mv _ _ _ _ _ _ _) as [[[[h1 b1] r1] p1]| |] eqn:E2; try discriminate.
      inversion E1; subst. cbn [st_h]. eapply afind_next; eauto.
    + destruct (nth_error lg i) as [[? [q|]]|]; try (inversion E; subst; exact H).
      destruct (user_write _ _ _) as [[sb ?]| |] eqn:E1; try discriminate. cbn [bind] in E. inversion E; subst.
      apply user_write_blocks in E1. destruct E1 as [U1 U2].
      destruct H as (H & N & (B1 & B2 & B3)). split; [exact H|]. split; [exact N|].
      split; [exact B1|]. split; [exact B2|]. cbn [st_b b_ids b_sb]. congruence.
  - destruct o as [k|i d]; cbn [aexec_op] in E.
    + destruct (aadd mv ok st (cstr k)) as [[st' p]| |] eqn:E1; try discriminate. inversion E; subst.
      destruct p as [p|]; [eapply aadd_uds; [exact E1|discriminate]|].
      destruct (U k eq_refl) as (U1 & _). now rewrite U1.
    + destruct (nth_error lg i) as [[? [q|]]|]; try (inversion E; subst; reflexivity).
      destruct (user_write _ _ _) as [[sb ?]| |] eqn:E1; try discriminate. cbn [bind] in E. inversion E; subst.
      apply user_write_blocks in E1. destruct E1 as [U1 U2]. exact U2.
Qed.

(** ** C103: what an addition that fails for lack of memory leaves behind

    After any history in which additions returned a slot, or failed without harm, let the
    next addition of a key that fits return null.  Then one of three things is true,
    whatever requests were refused:
    - it failed without harm;
    - string_storage_free dereferences null;
    - no key had been stored; string_storage_free works, and leaks at most one block. *)
Theorem C103_failed_add_partial : forall mv ok uds ops h0 L st lg k st',
  holds h0 L -> calm mv ok (ainit uds h0, []) ops (st, lg) ->
  length k + 1 + uds <= 4096 -> aadd mv ok st (cstr k) = Ok (st', None) ->
  unharmed st st' \/
  storage_free st' = Ub NullDeref \/
  (s_blocks (b_sb (st_b st)) = [] /\ a_kids (st_r st) = [] /\
   exists h' leak, storage_free st' = Ok h' /\ length leak <= 1 /\ holds h' (leak ++ L)).
Proof.
  intros mv ok uds ops h0 L st lg k st' H0 E Hk F.
  destruct (calm_ok mv ok L uds _ _ _ E (st_ok_init mv uds h0 L H0) eq_refl) as ((H & N & B) & Hu). cbn [fst] in *.
  unfold aadd in F.
  assert (Y : (block_size <? length (cstr k) + s_uds (b_sb (st_b st))) = false).
  { apply Nat.ltb_ge. unfold cstr. rewrite app_length. cbn [length]. rewrite Hu.
    replace block_size with 4096 by (vm_compute; reflexivity). lia. }
  rewrite Y in F. clear Y.
  destruct (afind_add mv ok _ _ _ _ _ _) as [[[[h1 b1] r1] p1]| |] eqn:E1; try discriminate.
  cbn [bind] in F. inversion F; subst st' p1. clear F. unfold unharmed. cbn [st_b st_r st_h].
  destruct (afind_fail _ _ _ _ _ _ _ _ _ _ _ _ H N B E1) as [(U1 & U2 & U3)|[(U1 & U2 & U3)|[(U1 & U2 & U3)|(K & U1 & U2 & U3 & U4 & q & leak & Q & Ll & Hl)]]].
  - left. auto.
  - right. left. subst b1. unfold storage_free. cbn [st_h st_b st_r].
    destruct B as (B1 & B2 & B3). unfold bown in U1. rewrite <- app_assoc in U1.
    destruct (free_blocks_ok _ _ h1 (owned (st_r st) ++ L) U1 B2) as (h2 & E2 & H2).
    { intros X Y. apply X, B1, Y. }
    rewrite E2. cbn [bind]. destruct (b_arr (st_b st)) as [p|].
    + destruct (release_ok h2 _ p _ H2 (Permutation_refl _)) as (h3 & E3 & H3).
      rewrite E3. cbn [bind]. exact (free_cut _ _ U3 _ _ N H3).
    + cbn [bind]. exact (free_cut _ _ U3 _ _ N H2).
  - right. left. unfold storage_free. cbn [st_h st_b st_r]. rewrite U1, U2.
    destruct (b_ids (st_b st)) as [|x l]; [congruence|]. reflexivity.
  - right. right. destruct B as (B1 & B2 & B3). rewrite U3 in B3.
    split; [destruct (s_blocks _); [reflexivity|discriminate]|]. split; [exact K|].
    destruct r1 as [v a c l]. cbn [a_kids a_arr] in *. subst l a.
    destruct (release_ok h1 _ q (leak ++ L) Hl (Permutation_refl _)) as (h2 & E2 & H2).
    exists h2, leak. split; [|split; assumption].
    unfold storage_free. cbn [st_h st_b st_r]. rewrite U1, U2. cbn [free_blocks bind free_struct]. exact E2.
Qed.
Print Assumptions C103_failed_add_partial.

(** After failures without harm the storage is as good as before: a later addition that
    gets its memory returns what it would have returned without them, every look-up finds
    what it found, and string_storage_free gives everything back. *)
Theorem C103_unharmed_partial : forall mv ok uds ops h0 L st lg,
  holds h0 L -> calm mv ok (ainit uds h0, []) ops (st, lg) ->
  (exists h', storage_free st = Ok h' /\ holds h' L) /\
  (forall k ss p, add (b_sb (st_b st), erase (st_r st)) (cstr k) = Ok (ss, p) ->
     exists st', aadd mv (fun _ => true) st (cstr k) = Ok (st', p) /\
       (b_sb (st_b st'), erase (st_r st')) = ss /\
       exists h', storage_free st' = Ok h' /\ holds h' L).
Proof.
  intros mv ok uds ops h0 L st lg H0 E.
  destruct (calm_ok mv ok L uds _ _ _ E (st_ok_init mv uds h0 L H0) eq_refl) as (S0 & Hu). cbn [fst] in *.
  split; [exact (storage_free_ok L st S0)|]. intros k ss p A.
  unfold add in A. unfold aadd. destruct (block_size <? _).
  - inversion A; subst. exists st. split; [reflexivity|]. split; [reflexivity|]. exact (storage_free_ok L st S0).
  - destruct (find_add _ _ _ _ _ _) as [[[sb1 r1] p1]| |] eqn:E1; try discriminate. cbn [bind] in A. inversion A; subst ss p1.
    destruct S0 as (H & N & B).
    destruct (afind_sim mv _ _ _ _ _ _ _ _ _ _ H N B E1) as (h1 & b1 & ar & F1 & F2 & F3 & F4).
    change (fun _ : nat => true) with always. rewrite F1. cbn [bind]. eexists. split; [reflexivity|]. cbn [st_b st_r].
    split; [congruence|]. destruct p as [p|]; [|congruence].
    apply storage_free_ok. eapply afind_ok in F1; eauto.
Qed.
Print Assumptions C103_unharmed_partial.

(** a failure without harm that is not the first request: the key would be the first child
    of another key; both theorems apply, and the second attempt works *)
Example C103_unharmed_ex : exists st lg,
  calm Nat.even (but 3) (ainit 4 empty_heap, []) (map OAdd [zs "three hundred"; zs "three hundred and one"]) (st, lg) /\
  map snd lg = [Some (0, 1); None] /\
  exists st', aadd Nat.even (but 3) st (cstr (zs "three hundred and one")) = Ok (st', Some (0, 20)).
Proof.
  eexists _, _. split; [|split].
  - eapply calm_cons; [vm_compute; reflexivity| |].
    { intros k X. vm_compute in X. discriminate. }
    eapply calm_cons; [vm_compute; reflexivity| |constructor].
    intros k _. repeat split.
  - reflexivity.
  - eexists. vm_compute. reflexivity.
Qed.
