From Coq Require Import ZArith List Bool Lia Permutation.
From Verif Require Import Base SStore_Model SStore_Spec SHeap_Model SHeap_Spec.
Import ListNotations.
Local Open Scope nat_scope.

Definition oid (a : option nat) : list nat := match a with Some p => [p] | None => [] end.
Fixpoint owned (x : anode) : list nat :=
  match x with ANode _ a _ l => oid a ++ flat_map owned l end.
Fixpoint node_ok (x : anode) : Prop :=
  match x with ANode _ a _ l =>
    (a = None <-> l = []) /\
    (fix go l := match l with [] => True | y :: l => node_ok y /\ go l end) l
  end.
Definition bown (b : ablocks) : list nat := flat_map oid (b_ids b) ++ oid (b_arr b).
Definition blk_ok (b : ablocks) : Prop :=
  (b_arr b = None <-> b_ids b = []) /\ Forall (fun q => q <> None) (b_ids b) /\
  length (b_ids b) = length (s_blocks (b_sb b)).

Lemma anode_ind2 : forall P : anode -> Prop,
  (forall v a c l, Forall P l -> P (ANode v a c l)) -> forall x, P x.
Proof.
  intros P H. fix F 1. intros [v a c l]. apply H.
  induction l as [|y l IH]; [constructor|]. constructor; [apply F | exact IH].
Qed.

Lemma node_ok_eq : forall v a c l,
  node_ok (ANode v a c l) <-> (a = None <-> l = []) /\ Forall node_ok l.
Proof.
  intros. cbn [node_ok]. split; intros [A B]; (split; [exact A|]).
  - clear A. induction l as [|y l IHl]; [constructor|]. destruct B as [B1 B2]. constructor; [exact B1|exact (IHl B2)].
  - clear A. induction l as [|y l IHl]; [exact I|]. inversion B; subst. split; [auto|]. exact (IHl H2).
Qed.

(** *** the heap *)

Lemma holds_perm : forall h M M', holds h M -> Permutation M M' -> holds h M'.
Proof.
  intros h M M' (A & B & C) P. split; [|split].
  - eapply Permutation_NoDup; eauto.
  - eapply Permutation_trans; eauto.
  - eapply Permutation_Forall; eauto.
Qed.

Lemma live_in : forall h M p, holds h M -> In p M -> live h p = true.
Proof.
  intros h M p (A & B & C) H. unfold live. apply existsb_exists. exists p.
  split; [|apply Nat.eqb_refl]. eapply Permutation_in; [apply Permutation_sym; exact B | exact H].
Qed.

Lemma alloc_some : forall ok h M h' q, holds h M -> alloc ok h = (h', Some q) -> holds h' (q :: M).
Proof.
  intros ok h M h' q (A & B & C) E. unfold alloc in E. destruct (ok (h_next h)); inversion E; subst.
  split; [|split].
  - constructor; [|exact A]. intro X. rewrite Forall_forall in C. specialize (C _ X). lia.
  - cbn. constructor. exact B.
  - cbn. constructor; [lia|]. eapply Forall_impl; [|exact C]. cbn. intros; lia.
Qed.
Lemma alloc_none : forall ok h M h', holds h M -> alloc ok h = (h', None) -> holds h' M.
Proof.
  intros ok h M h' (A & B & C) E. unfold alloc in E. destruct (ok (h_next h)); inversion E; subst.
  split; [exact A|]. split; [exact B|]. cbn. eapply Forall_impl; [|exact C]. cbn. intros; lia.
Qed.

Lemma remove_perm : forall p l, NoDup l -> In p l ->
  Permutation (p :: remove Nat.eq_dec p l) l.
Proof.
  induction l as [|x l IH]; intros N I; [destruct I|]. inversion N; subst.
  cbn [remove]. destruct (Nat.eq_dec p x) as [->|D].
  - rewrite notin_remove by auto. apply Permutation_refl.
  - destruct I as [->|I]; [congruence|].
    eapply Permutation_trans; [apply perm_swap|]. constructor. auto.
Qed.

Lemma release_ok : forall h M p M', holds h M -> Permutation M (p :: M') ->
  exists h', release h p = Ok h' /\ holds h' M'.
Proof.
  intros h M p M' H P. pose proof (holds_perm _ _ _ H P) as H'.
  unfold release. rewrite (live_in _ _ p H') by (left; auto).
  eexists. split; [reflexivity|]. destruct H' as (A & B & C).
  inversion A; subst. inversion C; subst. split; [auto|]. split; [|cbn; auto].
  cbn. apply (Permutation_cons_inv (a := p)). eapply Permutation_trans; [|exact B].
  apply remove_perm.
  - eapply Permutation_NoDup; [apply Permutation_sym; exact B | exact A].
  - eapply Permutation_in; [apply Permutation_sym; exact B | left; auto].
Qed.

Section Moves.
Variable mv : nat -> bool.

(** the array functions keep the accounts *)
Lemma array_ok : forall ok h a cnt M, holds h (oid a ++ M) -> (a = None <-> cnt = 0) ->
  exists h' a', array mv ok h a cnt = Ok (h', a') /\
    (forall q, a' = Some q -> holds h' (q :: M)) /\
    (a' = None -> holds h' (oid a ++ M)).
Proof.
  intros ok h a cnt M H Ha. unfold array. destruct (Nat.eqb_spec cnt 0) as [->|N].
  - destruct a as [p|]; [destruct Ha as [_ X]; specialize (X eq_refl); discriminate|].
    destruct (alloc ok h) as [h' a'] eqn:E. exists h', a'. split; [reflexivity|]. split.
    + intros q ->. eapply alloc_some; eauto.
    + intros ->. eapply alloc_none; eauto.
  - destruct a as [p|]; [|exfalso; apply N, Ha; reflexivity].
    destruct ((cnt =? 2) || (Nat.land cnt 15 =? 0)).
    + destruct (alloc ok h) as [h1 [q|]] eqn:E.
      * pose proof (alloc_some _ _ _ _ _ H E) as H1.
        destruct (release_ok h1 _ p (q :: M) H1) as (h2 & R & H2); [apply perm_swap|].
        destruct (mv (h_next h)).
        { cbn [bind]. rewrite R. cbn [bind]. exists h2, (Some q). split; [reflexivity|].
          split; [intros q' X; inversion X; subst; auto | discriminate]. }
        rewrite (live_in _ _ p H) by (left; reflexivity).
        exists (mkH (S (h_next h)) (h_live h)), (Some p). split; [reflexivity|].
        split; [|discriminate]. intros q' X. inversion X; subst. destruct H as (X1 & X2 & X3).
        split; [exact X1|]. split; [exact X2|]. cbn [h_next].
        eapply Forall_impl; [|exact X3]. cbn. intros; lia.
      * exists h1, None. split; [reflexivity|]. split; [discriminate|]. intros _.
        eapply alloc_none; eauto.
    + exists h, (Some p). split; [reflexivity|]. split; [intros q X; inversion X; subst; exact H|discriminate].
Qed.
Lemma array_all : forall h a cnt h' a', array mv (fun _ => true) h a cnt = Ok (h', a') ->
  (a = None <-> cnt = 0) -> a' <> None.
Proof.
  intros h a cnt h' a' E Ha X. subst a'. unfold array, alloc in E. destruct (Nat.eqb_spec cnt 0).
  { inversion E. }
  destruct a as [p|]; [|apply n, Ha; reflexivity].
  destruct ((cnt =? 2) || (Nat.land cnt 15 =? 0)); [|inversion E].
  destruct (mv _); [destruct (release _ p)|destruct (live _ _)]; inversion E.
Qed.

(** *** string_storage_free *)

Lemma free_struct_ok : forall x h M, node_ok x -> holds h (owned x ++ M) ->
  exists h', free_struct h x = Ok h' /\ holds h' M.
Proof.
  induction x as [v a c l IH] using anode_ind2. intros h M N H.
  apply node_ok_eq in N. destruct N as [Na Nl]. cbn [free_struct owned] in *.
  assert (G : forall l h, Forall (fun x => forall h M, node_ok x -> holds h (owned x ++ M) ->
      exists h', free_struct h x = Ok h' /\ holds h' M) l ->
    Forall node_ok l -> (l <> [] -> a <> None) -> holds h (flat_map owned l ++ oid a ++ M) ->
    exists h', (fix go (h : heap) (l : list anode) : res heap :=
              match l with
              | [] => Ok h
              | y :: l => _ <- deref h a ;; h <- free_struct h y ;; go h l
              end) h l = Ok h' /\ holds h' (oid a ++ M)).
  { clear. induction l as [|y l IHl]; intros h F N Ha H.
    - exists h. split; [reflexivity|exact H].
    - inversion F as [|? ? F1 F2]; subst. inversion N as [|? ? N1 N2]; subst.
      assert (D : deref h a = Ok tt).
      { destruct a as [p|]; [|exfalso; apply Ha; congruence]. unfold deref.
        rewrite (live_in _ _ p H); [reflexivity|]. apply in_or_app. right. left. reflexivity. }
      rewrite D. cbn [bind]. cbn [flat_map] in H. rewrite <- app_assoc in H.
      destruct (F1 h _ N1 H) as (h1 & E1 & H1). rewrite E1. cbn [bind].
      apply IHl; auto. intros _. apply Ha. congruence. }
  destruct (G l h IH Nl) as (h1 & E1 & H1).
  - intros X Y. apply X, Na, Y.
  - eapply holds_perm; [exact H|]. rewrite <- app_assoc.
    apply Permutation_app_swap_app.
  - rewrite E1. cbn [bind]. destruct a as [p|].
    + apply (release_ok h1 _ p M H1). apply Permutation_refl.
    + exists h1. split; [reflexivity|exact H1].
Qed.

Lemma free_blocks_ok : forall ids a h M, holds h (flat_map oid ids ++ oid a ++ M) ->
  Forall (fun q => q <> None) ids -> (ids <> [] -> a <> None) ->
  exists h', free_blocks h a ids = Ok h' /\ holds h' (oid a ++ M).
Proof.
  induction ids as [|q ids IH]; intros a h M H F Ha.
  - exists h. split; [reflexivity|exact H].
  - inversion F as [|? ? F1 F2]; subst. cbn [free_blocks].
    destruct q as [q|]; [|congruence].
    assert (D : deref h a = Ok tt).
    { destruct a as [p|]; [|exfalso; apply Ha; congruence]. unfold deref.
      rewrite (live_in _ _ p H); [reflexivity|]. apply in_or_app. right. left. reflexivity. }
    rewrite D. cbn [bind]. cbn [flat_map oid app] in H.
    destruct (release_ok h _ q _ H (Permutation_refl _)) as (h1 & E1 & H1).
    rewrite E1. cbn [bind]. apply IH; auto. intros _. apply Ha. congruence.
Qed.

Definition st_ok (L : list nat) (st : astorage) : Prop :=
  holds (st_h st) (bown (st_b st) ++ owned (st_r st) ++ L) /\ node_ok (st_r st) /\ blk_ok (st_b st).

Lemma storage_free_ok : forall L st, st_ok L st -> exists h', storage_free st = Ok h' /\ holds h' L.
Proof.
  intros L [h b r] (H & N & (B1 & B2 & B3)). cbn [st_h st_b st_r] in *.
  unfold storage_free. cbn [st_h st_b st_r]. unfold bown in H. rewrite <- app_assoc in H.
  destruct (free_blocks_ok (b_ids b) (b_arr b) h (owned r ++ L) H B2) as (h1 & E1 & H1).
  { intros X Y. apply X, B1, Y. }
  rewrite E1. cbn [bind].
  destruct (b_arr b) as [p|].
  - destruct (release_ok h1 _ p _ H1 (Permutation_refl _)) as (h2 & E2 & H2).
    rewrite E2. cbn [bind]. apply free_struct_ok; auto.
  - cbn [bind]. apply free_struct_ok; auto.
Qed.

Lemma st_ok_init : forall uds h L, holds h L -> st_ok L (ainit uds h).
Proof.
  intros uds h L H. split; [exact H|]. split.
  - apply node_ok_eq. split; [tauto|constructor].
  - split; [cbn; tauto|]. split; [constructor|reflexivity].
Qed.

(** *** string_storage_add *)

Lemma owned_split : forall l1 x l2 a,
  Permutation (oid a ++ flat_map owned (l1 ++ x :: l2))
              (owned x ++ oid a ++ flat_map owned l1 ++ flat_map owned l2).
Proof.
  intros. rewrite flat_map_app. cbn [flat_map].
  rewrite !app_assoc. rewrite (Permutation_app_comm (owned x) (oid a)).
  rewrite <- (app_assoc (oid a) (flat_map owned l1)).
  rewrite <- !app_assoc. apply Permutation_app_head. rewrite !app_assoc.
  apply Permutation_app_tail. apply Permutation_app_comm.
Qed.

Lemma wrp_blocks : forall sb p l sb', wrp sb p l = Ok sb' ->
  length (s_blocks sb') = length (s_blocks sb) /\ s_uds sb' = s_uds sb.
Proof.
  intros sb p l sb' E. unfold wrp in E. destruct (nth_error _ _); [|discriminate].
  destruct (wrbs _ _ _); try discriminate. inversion E; subst. cbn. rewrite upd_length. auto.
Qed.

Lemma new_slot_blocks : forall sb prev s sb' v, new_slot sb prev s = Ok (sb', v) ->
  length (s_blocks sb') = (if needs_block sb (length s) then S (length (s_blocks sb)) else length (s_blocks sb))
  /\ s_uds sb' = s_uds sb.
Proof.
  intros sb prev s sb' v E. unfold new_slot in E.
  destruct (new_block sb (length s)) as [sb1| |] eqn:E1; try discriminate. cbn [bind] in E.
  assert (A : length (s_blocks sb1) = (if needs_block sb (length s) then S (length (s_blocks sb)) else length (s_blocks sb))
    /\ s_uds sb1 = s_uds sb).
  { unfold new_block in E1. unfold needs_block. destruct (_ || _).
    - destruct (_ <? _); inversion E1; subst. cbn [s_blocks s_uds]. rewrite app_length. cbn. lia.
    - inversion E1; subst. auto. }
  destruct (s_cur sb1) as [bk|]; [|discriminate].
  destruct (wrp sb1 _ _) as [sb2| |] eqn:E2; try discriminate. cbn [bind] in E.
  destruct (wrp sb2 _ _) as [sb3| |] eqn:E3; try discriminate. cbn [bind] in E.
  apply wrp_blocks in E2, E3. inversion E; subst. cbn [s_blocks s_uds].
  destruct A as [A1 A2], E2 as [E2 E2'], E3 as [E3 E3'].
  rewrite E3, E2, A1, E3', E2', A2. split; auto.
Qed.

Lemma anew_ok : forall ok h b len M h' b', blk_ok b -> holds h (bown b ++ M) ->
  anew_block mv ok h b len = Ok (h', b', true) ->
  holds h' (bown b' ++ M) /\ b_sb b' = b_sb b /\
  (b_arr b' = None <-> b_ids b' = []) /\ Forall (fun q => q <> None) (b_ids b') /\
  length (b_ids b') = (if needs_block (b_sb b) len then S (length (b_ids b)) else length (b_ids b)).
Proof.
  intros ok h b len M h' b' (B1 & B2 & B3) H E. unfold anew_block in E.
  destruct (needs_block (b_sb b) len) eqn:Nb.
  2:{ inversion E; subst. split; [exact H|]. split; [reflexivity|]. split; [exact B1|]. split; [exact B2|reflexivity]. }
  destruct (alloc ok h) as [h1 c] eqn:Ea.
  assert (Hn : b_arr b = None <-> length (b_ids b) = 0).
  { rewrite B1. destruct (b_ids b); cbn; split; intros; congruence. }
  destruct c as [q|].
  - pose proof (alloc_some _ _ _ _ _ H Ea) as H1.
    assert (H1' : holds h1 (oid (b_arr b) ++ q :: flat_map oid (b_ids b) ++ M)).
    { eapply holds_perm; [exact H1|]. unfold bown. rewrite <- app_assoc.
      rewrite <- (Permutation_middle (oid (b_arr b))). constructor.
      apply Permutation_app_swap_app. }
    destruct (array_ok ok h1 (b_arr b) _ _ H1' Hn) as (h2 & a' & E2 & S2 & _).
    rewrite E2 in E. cbn [bind] in E. destruct a' as [a'|]; [|inversion E].
    inversion E; subst. specialize (S2 _ eq_refl). cbn [b_sb b_arr b_ids].
    assert (I : (match b_arr b with None => repeat None (length (b_ids b)) | Some _ => b_ids b end) = b_ids b).
    { destruct (b_arr b); [reflexivity|]. destruct Hn as [X _]. specialize (X eq_refl).
      destruct (b_ids b); [reflexivity|discriminate]. }
    rewrite I. split; [|split; [reflexivity|split; [|split]]].
    + eapply holds_perm; [exact S2|]. unfold bown. cbn [b_ids b_arr]. rewrite flat_map_app.
      cbn [flat_map oid app]. rewrite <- !app_assoc. cbn [app].
      rewrite <- Permutation_middle.
      apply perm_trans with (q :: a' :: flat_map oid (b_ids b) ++ M); [apply perm_swap|].
      constructor. apply Permutation_middle.
    + split; [discriminate|]. intros X. destruct (b_ids b); discriminate.
    + apply Forall_app. split; [exact B2|]. repeat constructor. discriminate.
    + rewrite app_length. cbn. lia.
  - pose proof (alloc_none _ _ _ _ H Ea) as H1.
    assert (H1' : holds h1 (oid (b_arr b) ++ flat_map oid (b_ids b) ++ M)).
    { eapply holds_perm; [exact H1|]. unfold bown. rewrite <- app_assoc.
      apply Permutation_app_swap_app. }
    destruct (array_ok ok h1 (b_arr b) _ _ H1' Hn) as (h2 & a' & E2 & S2 & _).
    rewrite E2 in E. cbn [bind] in E. destruct a'; inversion E.
Qed.

Lemma kids_flat : forall l i (x : anode), nth_error l i = Some x ->
  exists l1 l2, l = l1 ++ x :: l2 /\ length l1 = i.
Proof. intros. apply nth_error_split in H. destruct H as (l1 & l2 & A & B). eauto. Qed.

Lemma afind_ok : forall ok fuel h b r prev s M h' b' r' p,
  holds h (bown b ++ owned r ++ M) -> node_ok r -> blk_ok b ->
  afind_add mv ok fuel h b r prev s = Ok (h', b', r', Some p) ->
  holds h' (bown b' ++ owned r' ++ M) /\ node_ok r' /\ blk_ok b'.
Proof.
  induction fuel as [|fuel IH]; intros h b r prev s M h' b' r' p H N B E; [discriminate|].
  cbn [afind_add] in E.
  destruct (if length (a_kids r) =? 0 then Ok tt else deref h (a_arr r)) as [[]| |]; try discriminate.
  cbn [bind] in E.
  destruct (search _ _ _ _ _ _ _) as [[mid|bg]| |]; try discriminate; cbn [bind] in E.
  { destruct (rd (a_kids r) mid) as [x| |]; try discriminate. cbn [bind] in E. inversion E; subst. auto. }
  match type of E with (bind ?e _) = _ => destruct e as [cb| |] end; try discriminate.
  cbn [bind] in E. destruct r as [v a c kids]. cbn [a_kids a_arr a_val a_cap] in E.
  apply node_ok_eq in N. destruct N as [Na Nk]. cbn [owned] in H.
  destruct (8 <? cb).
  - destruct (rd kids (bg - 1)) as [x| |] eqn:Er; try discriminate. cbn [bind] in E.
    apply rd_inv in Er. destruct (kids_flat _ _ _ Er) as (l1 & l2 & -> & Hl).
    destruct (afind_add mv ok fuel h b x _ _) as [[[[h1 b1] x1] p1]| |] eqn:E1; try discriminate.
    cbn [bind] in E. inversion E; subst h' b' r' p1.
    apply Forall_app in Nk. destruct Nk as [Nk1 Nk2]. inversion Nk2 as [|? ? Nx Nk2']; subst.
    assert (H0 : holds h (bown b ++ owned x ++ oid a ++ flat_map owned l1 ++ flat_map owned l2 ++ M)).
    { eapply holds_perm; [exact H|]. apply Permutation_app_head.
      rewrite owned_split. rewrite <- !app_assoc. apply Permutation_refl. }
    destruct (IH h b x _ _ _ _ _ _ _ H0 Nx B E1) as (H1 & N1 & B1).
    rewrite <- Hl, upd_app. split; [|split; [|exact B1]].
    + eapply holds_perm; [exact H1|]. apply Permutation_app_head. cbn [owned].
      rewrite owned_split. rewrite <- !app_assoc. apply Permutation_refl.
    + apply node_ok_eq. split.
      * rewrite Na. split; intros X; destruct l1; discriminate.
      * apply Forall_app. split; [exact Nk1|]. constructor; auto.
  - assert (Hc : a = None <-> length kids = 0).
    { rewrite Na. destruct kids; cbn; split; intros; congruence. }
    destruct (array_ok ok h a (length kids) (bown b ++ flat_map owned kids ++ M)) as (h1 & a1 & E1 & S1 & _); auto.
    { eapply holds_perm; [exact H|]. rewrite <- app_assoc. apply Permutation_app_swap_app. }
    rewrite E1 in E. cbn [bind] in E. destruct a1 as [a1|]; [|inversion E].
    specialize (S1 _ eq_refl).
    destruct (negb _); [discriminate|].
    destruct (anew_block mv ok h1 b (length s)) as [[[h2 b2] d]| |] eqn:E2; try discriminate.
    cbn [bind] in E. destruct d; cbn [negb] in E; [|inversion E].
    destruct (new_slot (b_sb b2) prev s) as [[sb v']| |] eqn:E3; try discriminate.
    cbn [bind] in E. inversion E; subst.
    apply anew_ok with (M := a1 :: flat_map owned kids ++ M) in E2; auto.
    2:{ eapply holds_perm; [exact S1|]. apply Permutation_middle. }
    destruct E2 as (H2 & Q1 & Q2 & Q3 & Q4). apply new_slot_blocks in E3. rewrite Q1 in E3.
    split; [|split].
    + unfold bown in *. cbn [b_ids b_arr]. eapply holds_perm; [exact H2|]. apply Permutation_app_head.
      cbn [owned]. rewrite flat_map_app. cbn [flat_map owned oid app].
      rewrite <- flat_map_app, firstn_skipn. apply Permutation_refl.
    + apply node_ok_eq. split.
      * split; [discriminate|]. intros X. destruct (firstn bg kids); discriminate.
      * apply Forall_app. split.
        { apply Forall_forall. intros y Hy. rewrite Forall_forall in Nk. apply Nk.
          rewrite <- (firstn_skipn bg kids). apply in_or_app. auto. }
        constructor; [apply node_ok_eq; split; [tauto|constructor]|].
        apply Forall_forall. intros y Hy. rewrite Forall_forall in Nk. apply Nk.
        rewrite <- (firstn_skipn bg kids). apply in_or_app. auto.
    + split; [exact Q2|]. split; [exact Q3|]. cbn [b_ids b_sb]. destruct E3 as [-> _]. rewrite Q4.
      destruct B as (_ & _ & ->). reflexivity.
Qed.

Lemma aadd_ok : forall ok L st s st' p, st_ok L st -> aadd mv ok st s = Ok (st', Some p) -> st_ok L st'.
Proof.
  intros ok L st s st' p (H & N & B) E. unfold aadd in E. destruct (_ <? _); [discriminate|].
  destruct (afind_add mv _ _ _ _ _ _ _) as [[[[h1 b1] r1] p1]| |] eqn:E1; try discriminate.
  cbn [bind] in E. inversion E; subst. eapply afind_ok in E1; eauto.
Qed.

Lemma aadd_uds : forall ok st s st' p, aadd mv ok st s = Ok (st', p) -> p <> None ->
  s_uds (b_sb (st_b st')) = s_uds (b_sb (st_b st)).
Proof.
  assert (G : forall ok fuel h b r prev s h' b' r' p, afind_add mv ok fuel h b r prev s = Ok (h', b', r', p) ->
    p <> None -> s_uds (b_sb b') = s_uds (b_sb b)).
  { induction fuel as [|fuel IH]; intros h b r prev s h' b' r' p E Hp; [discriminate|].
    cbn [afind_add] in E.
    destruct (if length (a_kids r) =? 0 then Ok tt else deref h (a_arr r)) as [[]| |]; try discriminate.
    cbn [bind] in E.
    destruct (search _ _ _ _ _ _ _) as [[mid|bg]| |]; try discriminate; cbn [bind] in E.
    { destruct (rd (a_kids r) mid) as [x| |]; try discriminate. cbn [bind] in E. inversion E; subst. auto. }
    match type of E with (bind ?e _) = _ => destruct e as [cb| |] end; try discriminate.
    cbn [bind] in E. destruct (8 <? cb).
    - destruct (rd (a_kids r) (bg - 1)) as [x| |] eqn:Er; try discriminate. cbn [bind] in E.
      destruct (afind_add mv ok fuel h b x _ _) as [[[[h1 b1] x1] p1]| |] eqn:E1; try discriminate.
      cbn [bind] in E. inversion E; subst. eauto.
    - destruct (array mv _ _ _ _) as [[h1 a1]| |]; try discriminate. cbn [bind] in E.
      destruct a1; [|inversion E; congruence]. destruct (negb _); [discriminate|].
      destruct (anew_block mv ok h1 b (length s)) as [[[h2 b2] d]| |] eqn:E2; try discriminate.
      cbn [bind] in E. destruct d; cbn [negb] in E; [|inversion E; congruence].
      destruct (new_slot (b_sb b2) prev s) as [[sb v']| |] eqn:E3; try discriminate.
      cbn [bind] in E. inversion E; subst. apply new_slot_blocks in E3. cbn [b_sb].
      destruct E3 as [_ ->]. unfold anew_block in E2. destruct (needs_block _ _); [|inversion E2; auto].
      destruct (alloc ok h1) as [h3 c]. destruct (array mv _ _ _ _) as [[h4 a4]| |]; try discriminate.
      cbn [bind] in E2. destruct a4; [|inversion E2]. destruct c; inversion E2. reflexivity. }
  intros ok st s st' p E Hp. unfold aadd in E. destruct (_ <? _); [inversion E; congruence|].
  destruct (afind_add mv _ _ _ _ _ _ _) as [[[[h1 b1] r1] p1]| |] eqn:E1; try discriminate.
  cbn [bind] in E. inversion E; subst. eapply G; eauto.
Qed.

Lemma user_write_blocks : forall sb r p d sb' r', user_write (sb, r) p d = Ok (sb', r') ->
  length (s_blocks sb') = length (s_blocks sb) /\ s_uds sb' = s_uds sb.
Proof.
  intros. unfold user_write in H. destruct (wrp sb p d) eqn:E; try discriminate.
  cbn [bind] in H. inversion H; subst. eapply wrp_blocks; eauto.
Qed.

(** histories in which nothing was refused for lack of memory *)
Lemma aexec_ok : forall ok L uds ops st lg st' lg',
  st_ok L st -> s_uds (b_sb (st_b st)) = uds ->
  aexec mv ok (st, lg) ops = Ok (st', lg') -> all_stored uds lg' ->
  (forall e, In e lg -> In e lg') /\ st_ok L st' /\ s_uds (b_sb (st_b st')) = uds.
Proof.
  intros ok L uds. induction ops as [|o ops IH]; intros st lg st' lg' H Hu E A.
  { inversion E; subst. auto. }
  cbn [aexec] in E. destruct o as [k|i d]; cbn [aexec_op] in E.
  - destruct (aadd mv ok st (cstr k)) as [[st1 p]| |] eqn:E1; try discriminate. cbn [bind] in E.
    assert (I : forall e, In e (lg ++ [(k, p)]) -> In e lg').
    { clear IH H Hu E1 A. revert lg st1 E. induction ops as [|o ops IH]; intros lg st1 E e He.
      - inversion E; subst. auto.
      - cbn [aexec] in E. destruct (aexec_op mv ok (st1, lg ++ [(k, p)]) o) as [[st2 lg2]| |] eqn:E2; try discriminate.
        cbn [bind] in E.
        assert (exists t, lg2 = lg ++ [(k, p)] ++ t) as (t & ->).
        { destruct o as [k2|i2 d2]; cbn [aexec_op] in E2.
          - destruct (aadd mv ok st1 (cstr k2)) as [[st3 p3]| |]; try discriminate. cbn [bind] in E2.
            inversion E2; subst. rewrite <- app_assoc. eauto.
          - destruct (nth_error _ i2) as [[? [q|]]|].
            + destruct (user_write _ _ _) as [[? ?]| |]; try discriminate. cbn [bind] in E2.
              inversion E2; subst. exists []. rewrite app_nil_r. reflexivity.
            + inversion E2; subst. exists []. rewrite app_nil_r. reflexivity.
            + inversion E2; subst. exists []. rewrite app_nil_r. reflexivity. }
        assert (X : forall ops st lg st' lg', aexec mv ok (st, lg) ops = Ok (st', lg') -> forall e, In e lg -> In e lg').
        { clear. induction ops as [|o ops IH]; intros st lg st' lg' E e He; [inversion E; subst; auto|].
          cbn [aexec] in E. destruct (aexec_op mv ok (st, lg) o) as [[st2 lg2]| |] eqn:E2; try discriminate.
          cbn [bind] in E. eapply IH; [exact E|].
          destruct o as [k2|i2 d2]; cbn [aexec_op] in E2.
          - destruct (aadd mv ok st (cstr k2)) as [[st3 p3]| |]; try discriminate. cbn [bind] in E2.
            inversion E2; subst. apply in_or_app; auto.
          - destruct (nth_error _ i2) as [[? [q|]]|].
            + destruct (user_write _ _ _) as [[? ?]| |]; try discriminate. cbn [bind] in E2.
              inversion E2; subst. auto.
            + inversion E2; subst. auto.
            + inversion E2; subst. auto. }
        eapply X; [exact E|]. rewrite app_assoc. apply in_or_app. auto. }
    assert (G : st_ok L st1 /\ s_uds (b_sb (st_b st1)) = uds).
    { destruct p as [p|].
      - split; [eapply aadd_ok; eauto|]. rewrite <- Hu. eapply aadd_uds; eauto. congruence.
      - assert (X : In (k, None) lg') by (apply I, in_or_app; right; left; auto).
        apply A in X. unfold aadd in E1.
        assert (Y : (block_size <? length (cstr k) + s_uds (b_sb (st_b st))) = true).
        { apply Nat.ltb_lt. unfold cstr. rewrite app_length. cbn [length]. rewrite Hu.
          replace block_size with 4096 by (vm_compute; reflexivity). lia. }
        rewrite Y in E1. inversion E1; subst. auto. }
    destruct G as [G1 G2]. destruct (IH _ _ _ _ G1 G2 E A) as (J1 & J2).
    split; [|exact J2]. intros e He. apply I, in_or_app. auto.
  - destruct (nth_error lg i) as [[? [q|]]|].
    + destruct (user_write _ _ _) as [[sb ?]| |] eqn:E1; try discriminate. cbn [bind] in E.
      apply user_write_blocks in E1. destruct E1 as [U1 U2].
      refine (IH _ _ _ _ _ _ E A); cbn [st_h st_b st_r b_sb]; [|congruence].
      destruct H as (H & N & (B1 & B2 & B3)). split; [exact H|]. split; [exact N|].
      split; [exact B1|]. split; [exact B2|]. cbn [st_b b_ids b_sb]. congruence.
    + eapply IH; eauto.
    + eapply IH; eauto.
Qed.

(** *** with enough memory the heap version does what SStore_Model does *)

Lemma erase_val : forall x, n_val (erase x) = a_val x.
Proof. intros [v a c l]. reflexivity. Qed.
Lemma erase_kids : forall x, n_kids (erase x) = map erase (a_kids x).
Proof. intros [v a c l]. reflexivity. Qed.
Lemma erase_cap : forall x, n_cap (erase x) = a_cap x.
Proof. intros [v a c l]. reflexivity. Qed.
Lemma map_upd : forall A B (f : A -> B) l i x, map f (upd l i x) = upd (map f l) i (f x).
Proof. induction l; intros [|i] x; cbn; auto. now rewrite IHl. Qed.
Lemma rd_map : forall A B (f : A -> B) l i y, rd (map f l) i = Ok y -> exists x, rd l i = Ok x /\ y = f x.
Proof.
  intros. unfold rd in *. rewrite nth_error_map in H. destruct (nth_error l i); inversion H; eauto.
Qed.

Definition always : nat -> bool := fun _ => true.

Lemma anew_all : forall h b len M, blk_ok b -> holds h (bown b ++ M) ->
  exists h' b', anew_block mv always h b len = Ok (h', b', true) /\ b_sb b' = b_sb b.
Proof.
  intros h b len M (B1 & B2 & B3) H. unfold anew_block. destruct (needs_block _ _); [|eauto].
  cbn [alloc always]. unfold alloc, always.
  set (h1 := mkH _ _).
  assert (H1 : holds h1 (h_next h :: bown b ++ M)).
  { eapply (alloc_some always); [exact H|]. reflexivity. }
  destruct (array_ok always h1 (b_arr b) (length (b_ids b)) (h_next h :: flat_map oid (b_ids b) ++ M))
    as (h2 & a2 & E2 & S2 & _).
  { eapply holds_perm; [exact H1|]. unfold bown. rewrite <- app_assoc.
    rewrite <- (Permutation_middle (oid (b_arr b))). constructor. apply Permutation_app_swap_app. }
  { rewrite B1. destruct (b_ids b); cbn; split; intros; congruence. }
  unfold always in E2. rewrite E2. cbn [bind].
  destruct a2 as [a2|].
  - eauto.
  - exfalso. eapply array_all; [exact E2| |reflexivity].
    rewrite B1. destruct (b_ids b); cbn; split; intros; congruence.
Qed.

Lemma afind_sim : forall fuel h b r prev s M sb' r' p,
  holds h (bown b ++ owned r ++ M) -> node_ok r -> blk_ok b ->
  find_add fuel (b_sb b) (erase r) prev s true = Ok (sb', r', p) ->
  exists h' b' ar, afind_add mv always fuel h b r prev s = Ok (h', b', ar, p) /\
    b_sb b' = sb' /\ erase ar = r' /\ p <> None.
Proof.
  induction fuel as [|fuel IH]; intros h b r prev s M sb' r' p H N B E; [discriminate|].
  cbn [find_add] in E. cbn [afind_add]. rewrite erase_kids, map_length in E.
  destruct r as [v a c kids]. cbn [a_kids a_arr a_val a_cap] in *.
  apply node_ok_eq in N. destruct N as [Na Nk].
  assert (D : (if length kids =? 0 then Ok tt else deref h a) = Ok tt).
  { destruct (Nat.eqb_spec (length kids) 0) as [|X]; [reflexivity|].
    destruct a as [q|].
    - unfold deref. rewrite (live_in _ _ q H); [reflexivity|]. apply in_or_app. right.
      cbn [owned oid]. left. reflexivity.
    - exfalso. apply X. destruct Na as [Na _]. rewrite Na; auto. }
  rewrite D. cbn [bind].
  destruct (search _ _ _ _ _ _ _) as [[mid|bg]| |]; try discriminate; cbn [bind] in E |- *.
  { destruct (rd (map erase kids) mid) as [x| |] eqn:Ex; try discriminate. cbn [bind] in E.
    apply rd_map in Ex. destruct Ex as (x' & -> & ->). cbn [bind]. rewrite erase_val in E.
    inversion E; subst. eexists _, _, _. split; [reflexivity|]. repeat split; auto. discriminate. }
  match type of E with (bind ?e _) = _ => destruct e as [cb| |] eqn:Ec end; try discriminate.
  cbn [bind] in E.
  assert (Ec' : (if bg =? 0 then Ok 0
             else x <- rd kids (bg - 1) ;;
                  n <- common_prefix (b_sb b) s (padd (a_val x) (s_uds (b_sb b) + 1)) ;;
                  Ok (n mod 256)) = Ok cb).
  { destruct (bg =? 0); [exact Ec|].
    destruct (rd (map erase kids) (bg - 1)) as [x| |] eqn:Ex; try discriminate. cbn [bind] in Ec.
    apply rd_map in Ex. destruct Ex as (x' & -> & ->). cbn [bind]. rewrite erase_val in Ec. exact Ec. }
  rewrite Ec'. cbn [bind].
  destruct (8 <? cb).
  - destruct (rd (map erase kids) (bg - 1)) as [x| |] eqn:Ex; try discriminate. cbn [bind] in E.
    apply rd_map in Ex. destruct Ex as (x' & Ex' & ->). rewrite Ex'. cbn [bind].
    apply rd_inv in Ex'. destruct (kids_flat _ _ _ Ex') as (l1 & l2 & -> & Hl).
    destruct (find_add fuel (b_sb b) (erase x') _ _ _) as [[[sb1 r1] p1]| |] eqn:E1; try discriminate.
    cbn [bind] in E. inversion E; subst sb' r' p1.
    apply Forall_app in Nk. destruct Nk as [Nk1 Nk2]. inversion Nk2 as [|? ? Nx Nk2']; subst.
    assert (H0 : holds h (bown b ++ owned x' ++ oid a ++ flat_map owned l1 ++ flat_map owned l2 ++ M)).
    { eapply holds_perm; [exact H|]. apply Permutation_app_head. cbn [owned].
      rewrite owned_split. rewrite <- !app_assoc. apply Permutation_refl. }
    destruct (IH h b x' _ _ _ _ _ _ H0 Nx B E1) as (h1 & b1 & ar & F1 & F2 & F3 & F4).
    rewrite F1. cbn [bind]. eexists _, _, _. split; [reflexivity|]. split; [exact F2|]. split; [|exact F4].
    cbn [erase n_val n_cap]. rewrite map_upd, F3. reflexivity.
  - cbn [negb] in E.
    assert (Hc : a = None <-> length kids = 0).
    { rewrite Na. destruct kids; cbn; split; intros; congruence. }
    destruct (array_ok always h a (length kids) (bown b ++ flat_map owned kids ++ M)) as (h1 & a1 & E1 & S1 & _); auto.
    { eapply holds_perm; [exact H|]. cbn [owned]. rewrite <- app_assoc. apply Permutation_app_swap_app. }
    pose proof (array_all _ _ _ _ _ E1 Hc) as A1. rewrite E1. cbn [bind].
    destruct a1 as [a1|]; [|congruence]. specialize (S1 _ eq_refl).
    destruct (new_slot (b_sb b) prev s) as [[sb1 v1]| |] eqn:E2; try discriminate. cbn [bind] in E.
    destruct (insert_child _ _ _) as [r1| |] eqn:E3; try discriminate. cbn [bind] in E.
    inversion E; subst. unfold insert_child in E3. cbn [erase n_kids n_cap n_val] in E3.
    rewrite map_length in E3. destruct (_ && _) eqn:G; [|discriminate]. inversion E3; subst.
    cbn [negb].
    destruct (anew_all h1 b (length s) (a1 :: flat_map owned kids ++ M) B) as (h2 & b2 & E4 & Q).
    { eapply holds_perm; [exact S1|]. apply Permutation_middle. }
    rewrite E4. cbn [bind negb]. rewrite Q, E2. cbn [bind].
    eexists _, _, _. split; [reflexivity|]. split; [reflexivity|]. split; [|discriminate].
    cbn [erase]. rewrite map_app, firstn_map. cbn [map erase]. rewrite skipn_map. reflexivity.
Qed.

Lemma aexec_sim : forall L ops st lg sb r lg', st_ok L st ->
  exec ((b_sb (st_b st), erase (st_r st)), lg) ops = Ok ((sb, r), lg') ->
  exists st', aexec mv always (st, lg) ops = Ok (st', lg') /\ st_ok L st'.
Proof.
  intros L. induction ops as [|o ops IH]; intros st lg sb r lg' H E.
  { inversion E; subst. exists st. auto. }
  cbn [exec] in E. cbn [aexec]. destruct o as [k|i d]; cbn [exec_op aexec_op] in E |- *.
  - unfold add in E. unfold aadd. destruct (block_size <? _).
    + cbn [bind] in E |- *. eapply IH; eauto.
    + destruct H as (H & N & B).
      destruct (find_add _ _ _ _ _ _) as [[[sb1 r1] p1]| |] eqn:E1; try discriminate.
      cbn [bind] in E.
      destruct (afind_sim _ _ _ _ _ _ _ _ _ _ H N B E1) as (h1 & b1 & ar & F1 & F2 & F3 & F4).
      rewrite F1. cbn [bind]. subst sb1 r1.
      destruct p1 as [p1|]; [|congruence]. eapply IH; [|exact E].
      eapply afind_ok in F1; eauto.
  - destruct (nth_error lg i) as [[? [q|]]|].
    + destruct (user_write _ _ _) as [[sb1 r1]| |] eqn:E1; try discriminate. cbn [bind] in E |- *.
      pose proof E1 as E1'. apply user_write_blocks in E1'. destruct E1' as [U1 U2].
      assert (r1 = erase (st_r st)).
      { unfold user_write in E1. destruct (wrp _ _ _); try discriminate. cbn [bind] in E1. now inversion E1. }
      subst r1.
      refine (IH (mkAs (st_h st) (mkAb sb1 (b_arr (st_b st)) (b_ids (st_b st))) (st_r st)) _ _ _ _ _ E).
      destruct H as (H & N & (B1 & B2 & B3)). split; [exact H|]. split; [exact N|].
      split; [exact B1|]. split; [exact B2|]. cbn [st_b b_ids b_sb]. congruence.
    + eapply IH; eauto.
    + eapply IH; eauto.
Qed.

End Moves.
