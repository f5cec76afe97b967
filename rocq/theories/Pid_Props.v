(** The pid file. *)

From Coq Require Import ZArith List Bool Lia.
From Verif Require Import Base Pid_Model.
Import ListNotations.

(** *** invariants *)

Definition inode (c : pc) : option nat :=
  match c with
  | Opened i | Locked i | Empty i | Written i | Unlocked i | Undo i | Leave i | Owner i => Some i
  | Idle | Dead => None
  end.
(** the process has written its number and has not failed since *)
Definition claims (c : pc) : Prop := match c with Written _ | Unlocked _ | Owner _ => True | _ => False end.
(** the process holds the lock for certain *)
Definition holds_lock (c : pc) : Prop := match c with Locked _ | Empty _ | Written _ | Undo _ => True | _ => False end.

Record inv (text : nat -> list Z) (s : sys) : Prop := mkInv
  { i_fresh : forall i, (next s <= i)%nat -> lock s i = None;
    i_open : forall p i, inode (at_ s p) = Some i -> (i < next s)%nat;
    i_path : forall i, path s = Some i -> (i < next s)%nat;
    i_empty : forall i, (i < next s)%nat -> data s i = [] -> path s = Some i;
    i_lock : forall p i, holds_lock (at_ s p) -> inode (at_ s p) = Some i -> lock s i = Some p;
    i_stat : forall p i, at_ s p = Empty i -> data s i = [];
    i_claim : forall p i, claims (at_ s p) -> inode (at_ s p) = Some i ->
      path s = Some i /\ exists k, (0 < k <= length (text p))%nat /\ data s i = firstn k (text p);
    i_one : forall p q, claims (at_ s p) -> claims (at_ s q) -> p = q }.

Lemma put_eq : forall A (f : nat -> A) i v, put f i v i = v.
Proof. intros. unfold put. rewrite Nat.eqb_refl. reflexivity. Qed.
Lemma put_ne : forall A (f : nat -> A) i v j, j <> i -> put f i v j = f j.
Proof. intros. unfold put. destruct (Nat.eqb_spec j i); congruence. Qed.
Lemma release_other : forall l p q i, p <> q -> l i = Some q -> release l p i = Some q.
Proof. intros l p q i N E. unfold release. rewrite E. destruct (Nat.eqb_spec q p); congruence. Qed.
Lemma release_none : forall l p i, l i = None -> release l p i = None.
Proof. intros l p i E. unfold release. rewrite E. reflexivity. Qed.

Lemma firstn_nonempty : forall (l : list Z) k, (0 < k <= length l)%nat -> firstn k l <> [].
Proof. intros [|x l] [|k] H; cbn in *; try lia. discriminate. Qed.

(** a step of [p] that changes neither the path nor the contents, does not make it a
    claimant, and may give back locks of [p] only *)
Lemma inv_go : forall text s p c l, inv text s ->
  (forall i, inode c = Some i -> (i < next s)%nat) ->
  (forall i, (next s <= i)%nat -> l i = None) ->
  (forall q i, q <> p -> lock s i = Some q -> l i = Some q) ->
  (forall i, holds_lock c -> inode c = Some i -> l i = Some p) ->
  (forall i, c = Empty i -> data s i = []) ->
  (claims c -> claims (at_ s p) /\ inode c = inode (at_ s p)) ->
  inv text (mkSys (put (at_ s) p c) (path s) (data s) l (next s)).
Proof.
  intros text s p c l H H1 H2 H3 H4 H5 H6. destruct H. constructor; cbn [at_ path data lock next]; auto.
  - intros q i E. destruct (Nat.eq_dec q p); [subst; rewrite put_eq in E; auto | rewrite put_ne in E by auto; eauto].
  - intros q i E1 E2. destruct (Nat.eq_dec q p); [subst; rewrite put_eq in *; auto | rewrite put_ne in * by auto; auto].
  - intros q i E. destruct (Nat.eq_dec q p); [subst; rewrite put_eq in *; auto | rewrite put_ne in * by auto; eauto].
  - intros q i E1 E2. destruct (Nat.eq_dec q p) as [-> | N]; [|rewrite put_ne in * by auto; auto].
    rewrite put_eq in *. destruct (H6 E1) as [C E]. apply i_claim0; [auto | congruence].
  - intros q q' E1 E2. apply i_one0.
    + destruct (Nat.eq_dec q p) as [-> | N]; [rewrite put_eq in E1; apply H6; auto | rewrite put_ne in E1 by auto; auto].
    + destruct (Nat.eq_dec q' p) as [-> | N]; [rewrite put_eq in E2; apply H6; auto | rewrite put_ne in E2 by auto; auto].
Qed.

Lemma inv_step : forall text s s', inv text s -> step text false false s s' -> inv text s'.
Proof.
  intros text s s' H St. pose proof H as H0. destruct H as [Fr Op Pa Em Lo Sta Cl On].
  assert (Rel : forall p q i, q <> p -> lock s i = Some q -> release (lock s) p i = Some q) by (intros; apply release_other; auto).
  assert (RelF : forall p i, (next s <= i)%nat -> release (lock s) p i = None) by (intros; apply release_none; auto).
  assert (PutF : forall p i, inode (at_ s p) = Some i -> forall v j, (next s <= j)%nat -> put (lock s) i v j = None)
    by (intros p i E v j L; apply Op in E; rewrite put_ne by lia; auto).
  inversion St as
    [p i Ea Ep | p Ea Ep | p i Ea El | p i Ea | p i Ea Ed | p i Ea Ed | p i Ea | p i k Ea Hk | p i Ea | p i Ea | p i Ea | p i Ea | p i Ea
    | p i Ea | p i Ea | p i Ea | p i Ea Ep | p]; subst s'; unfold go, go_lock.
  - (* open *) apply inv_go; auto; cbn; try contradiction; try discriminate. intros j E. inversion E. subst. auto.
  - (* creat *) constructor; cbn [at_ path data lock next].
    + intros j L. apply Fr. lia.
    + intros q j E. destruct (Nat.eq_dec q p) as [-> | N]; [rewrite put_eq in E; injection E as <-; lia|].
      rewrite put_ne in E by auto. apply Op in E. lia.
    + intros j E. injection E as <-. lia.
    + intros j L E. destruct (Nat.eq_dec j (next s)) as [-> | N]; [reflexivity|]. rewrite put_ne in E by auto.
      apply Em in E; [congruence | lia].
    + intros q j E1 E2. destruct (Nat.eq_dec q p) as [-> | N]; [rewrite put_eq in E1; contradiction E1|].
      rewrite put_ne in * by auto. auto.
    + intros q j E. destruct (Nat.eq_dec q p) as [-> | N]; [rewrite put_eq in E; discriminate E|].
      rewrite put_ne in E by auto. assert (j < next s)%nat by (apply (Op q); rewrite E; reflexivity).
      rewrite put_ne by lia. eauto.
    + intros q j E1 E2. destruct (Nat.eq_dec q p) as [-> | N]; [rewrite put_eq in E1; contradiction E1|].
      rewrite put_ne in E1, E2 by auto. destruct (Cl q j E1 E2). congruence.
    + intros q q' E1 E2. assert (q <> p) by (intros ->; rewrite put_eq in E1; contradiction E1).
      assert (q' <> p) by (intros ->; rewrite put_eq in E2; contradiction E2). rewrite put_ne in * by auto. auto.
  - (* lock *) assert (Ei : inode (at_ s p) = Some i) by (rewrite Ea; reflexivity).
    apply inv_go; auto; cbn; try contradiction; try discriminate.
    + intros j E. injection E as <-. eauto.
    + eauto.
    + intros q j N E. destruct (Nat.eq_dec j i) as [-> | Nj]; [congruence | rewrite put_ne by auto; auto].
    + intros j _ E. injection E as <-. apply put_eq.
  - (* lock fails *) apply inv_go; auto; cbn; try contradiction; try discriminate.
    intros j E. injection E as <-. apply (Op p). rewrite Ea. reflexivity.
  - (* stat: empty *) apply inv_go; auto; cbn; try contradiction.
    + intros j E. injection E as <-. apply (Op p). rewrite Ea. reflexivity.
    + intros j _ E. injection E as <-. apply Lo; rewrite Ea; cbn; auto.
    + intros j E. injection E as <-. auto.
  - (* stat: not empty *) apply inv_go; auto; cbn; try contradiction; try discriminate.
    + intros j E. injection E as <-. apply (Op p). rewrite Ea. reflexivity.
    + intros j _ E. injection E as <-. apply Lo; rewrite Ea; cbn; auto.
  - (* stat fails *) apply inv_go; auto; cbn; try contradiction; try discriminate.
    + intros j E. injection E as <-. apply (Op p). rewrite Ea. reflexivity.
    + intros j _ E. injection E as <-. apply Lo; rewrite Ea; cbn; auto.
  - (* write *) destruct Hk as [Hk | [Hk _]]; [|discriminate]. 
    assert (Ed : data s i = []) by eauto. assert (Li : (i < next s)%nat) by (apply (Op p); rewrite Ea; reflexivity).
    assert (Ep : path s = Some i) by auto.
    assert (No : forall q, ~ claims (at_ s q)).
    { intros q C. assert (exists j, inode (at_ s q) = Some j) as [j Ej].
      { destruct (at_ s q); try contradiction C; eexists; reflexivity. }
      destruct (Cl q j C Ej) as [Ep' (k' & Hk' & Ed')]. assert (j = i) by congruence. subst j.
      rewrite Ed in Ed'. symmetry in Ed'. apply (firstn_nonempty _ _ Hk') in Ed'. exact Ed'. }
    assert (Own : forall q, holds_lock (at_ s q) -> inode (at_ s q) = Some i -> q = p).
    { intros q C E. assert (lock s i = Some q) by auto.
      assert (lock s i = Some p) by (apply Lo; rewrite Ea; cbn; auto). congruence. }
    rewrite Ed, skipn_nil, app_nil_r. constructor; cbn [at_ path data lock next]; auto.
    + intros q j E. destruct (Nat.eq_dec q p) as [-> | N]; [rewrite put_eq in E; injection E as <-; auto | rewrite put_ne in E by auto; eauto].
    + intros j Lj E. destruct (Nat.eq_dec j i) as [-> | N]; [auto | rewrite put_ne in E by auto; auto].
    + intros q j E1 E2. destruct (Nat.eq_dec q p) as [-> | N]; [|rewrite put_ne in * by auto; auto].
      rewrite put_eq in *. injection E2 as <-. apply Lo; rewrite Ea; cbn; auto.
    + intros q j E. destruct (Nat.eq_dec q p) as [-> | N]; [rewrite put_eq in E; discriminate E|].
      rewrite put_ne in E by auto. destruct (Nat.eq_dec j i) as [-> | Nj].
      * exfalso. apply N. apply Own; rewrite E; cbn; auto.
      * rewrite put_ne by auto. eauto.
    + intros q j E1 E2. destruct (Nat.eq_dec q p) as [-> | N]; [|rewrite put_ne in E1 by auto; destruct (No q E1)].
      rewrite put_eq in E2. injection E2 as <-. split; [auto|]. exists k. rewrite put_eq. auto.
    + intros q q' E1 E2. destruct (Nat.eq_dec q p) as [-> | N]; [|rewrite put_ne in E1 by auto; destruct (No q E1)].
      destruct (Nat.eq_dec q' p) as [-> | N']; [reflexivity|rewrite put_ne in E2 by auto; destruct (No q' E2)].
  - (* write fails *) apply inv_go; auto; cbn; try contradiction; try discriminate.
    + intros j E. injection E as <-. apply (Op p). rewrite Ea. reflexivity.
    + intros j _ E. injection E as <-. apply Lo; rewrite Ea; cbn; auto.
  - (* unlock *) assert (Ei : inode (at_ s p) = Some i) by (rewrite Ea; reflexivity).
    assert (lock s i = Some p) by (apply Lo; rewrite Ea; cbn; auto).
    apply inv_go; auto; cbn; try contradiction; try discriminate.
    + intros j E. injection E as <-. eauto.
    + eauto.
    + intros q j N E. destruct (Nat.eq_dec j i) as [-> | Nj]; [congruence | rewrite put_ne by auto; auto].
    + intros _. rewrite Ea. cbn. auto.
  - (* unlock fails *) apply inv_go; auto; cbn; try contradiction; try discriminate.
    intros j E. injection E as <-. apply (Op p). rewrite Ea. reflexivity.
  - (* close *) apply inv_go; auto; cbn; try contradiction; try discriminate.
    + intros j E. injection E as <-. apply (Op p). rewrite Ea. reflexivity.
    + intros _. rewrite Ea. cbn. auto.
  - (* close fails *) apply inv_go; auto; cbn; try contradiction; try discriminate.
  - (* undo *) assert (Ei : inode (at_ s p) = Some i) by (rewrite Ea; reflexivity).
    assert (lock s i = Some p) by (apply Lo; rewrite Ea; cbn; auto).
    apply inv_go; auto; cbn; try contradiction; try discriminate.
    + intros j E. injection E as <-. eauto.
    + eauto.
    + intros q j N E. destruct (Nat.eq_dec j i) as [-> | Nj]; [congruence | rewrite put_ne by auto; auto].
  - (* undo fails *) apply inv_go; auto; cbn; try contradiction; try discriminate.
    intros j E. injection E as <-. apply (Op p). rewrite Ea. reflexivity.
  - (* leave *) apply inv_go; auto; cbn; try contradiction; try discriminate.
  - (* stop *) destruct Ea as [Ea | [Ea _]]; [|discriminate].
    assert (C : claims (at_ s p)) by (rewrite Ea; exact I).
    destruct (Cl p i C ltac:(rewrite Ea; reflexivity)) as [_ (k & Hk & Ed)].
    constructor; cbn [at_ path data lock next]; auto; try discriminate.
    + intros q j E. destruct (Nat.eq_dec q p) as [-> | N]; [rewrite put_eq in E; discriminate E | rewrite put_ne in E by auto; eauto].
    + intros j Lj E. exfalso. pose proof (Em j Lj E) as Ej. assert (j = i) by congruence. subst j.
      rewrite Ed in E. apply (firstn_nonempty _ _ Hk) in E. exact E.
    + intros q j E1 E2. destruct (Nat.eq_dec q p) as [-> | N]; [rewrite put_eq in E1; contradiction E1 | rewrite put_ne in * by auto; auto].
    + intros q j E. destruct (Nat.eq_dec q p) as [-> | N]; [rewrite put_eq in E; discriminate E | rewrite put_ne in * by auto; eauto].
    + intros q j E1 E2. exfalso. destruct (Nat.eq_dec q p) as [-> | N]; [rewrite put_eq in E1; contradiction E1|].
      rewrite put_ne in E1 by auto. apply N. auto.
    + intros q q' E1 E2. exfalso. destruct (Nat.eq_dec q p) as [-> | N]; [rewrite put_eq in E1; contradiction E1|].
      rewrite put_ne in E1 by auto. apply N. auto.
  - (* die *) apply inv_go; auto; cbn; try contradiction; try discriminate.
Qed.

Lemma inv_init : forall text, inv text init.
Proof.
  intros text. constructor; cbn; intros; try contradiction; try discriminate; auto; lia.
Qed.
Lemma inv_reach : forall text s, reach text false false init s -> inv text s.
Proof. intros text s H. induction H; [apply inv_init | eapply inv_step; eauto]. Qed.

(** *** C72: at most one owner *)

(** Any number of processes, any interleaving, any failures and deaths: two processes for
    which coda_mkpidf has returned 0 and that have not stopped or died are the same.  While
    there is one, the path names its file and the file has its number (or the part of it
    that write accepted). *)
Theorem C72_one_owner : forall text s, reach text false false init s ->
  (forall p q i j, at_ s p = Owner i -> at_ s q = Owner j -> p = q) /\
  (forall p i, at_ s p = Owner i ->
     path s = Some i /\ exists k, (0 < k <= length (text p))%nat /\ data s i = firstn k (text p)).
Proof.
  intros text s H. apply inv_reach in H. split.
  - intros p q i j Ep Eq. apply (i_one _ _ H); [rewrite Ep | rewrite Eq]; exact I.
  - intros p i E. apply (i_claim _ _ H p i); rewrite E; cbn; auto.
Qed.
Print Assumptions C72_one_owner.

(** *** running the model *)

Definition txt (p : nat) : list Z := [Z.of_nat p; 10%Z].
Lemma then_ : forall t a z s0 s s', reach t a z s0 s -> step t a z s s' -> reach t a z s0 s'.
Proof. intros. eapply r_step; eauto. Qed.

Definition same_sys (s s' : sys) : Prop :=
  (forall p, at_ s p = at_ s' p) /\ path s = path s' /\ (forall i, data s i = data s' i) /\ (forall i, lock s i = lock s' i) /\
  next s = next s'.

(** a process that nothing stops in its way becomes the owner *)
Definition alone (text : nat -> list Z) (s : sys) (p i : nat) : sys :=
  let s1 := match path s with
            | Some _ => go s p (Opened i)
            | None => mkSys (put (at_ s) p (Opened (next s))) (Some (next s)) (put (data s) (next s) []) (lock s) (S (next s))
            end in
  let s2 := go_lock s1 p (Locked i) (put (lock s1) i (Some p)) in
  let s3 := go s2 p (Empty i) in
  let s4 := mkSys (put (at_ s3) p (Written i)) (path s3)
              (put (data s3) i (firstn (length (text p)) (text p) ++ skipn (length (text p)) (data s3 i))) (lock s3) (next s3) in
  let s5 := go_lock s4 p (Unlocked i) (put (lock s4) i None) in
  go_lock s5 p (Owner i) (release (lock s5) p).

Lemma alone_runs : forall text an ze s p i, at_ s p = Idle -> text p <> [] ->
  (path s = None -> i = next s /\ lock s i = None) ->
  (forall j, path s = Some j -> i = j /\ lock s i = None /\ data s i = []) ->
  reach text an ze s (alone text s p i).
Proof.
  intros text an ze s p i Ea Ht Hn Hs. unfold alone.
  set (s1 := match path s with Some _ => _ | None => _ end).
  assert (H1 : step text an ze s s1 /\ at_ s1 p = Opened i /\ lock s1 i = None /\ data s1 i = []).
  { subst s1. destruct (path s) as [j|] eqn:Ep.
    - destruct (Hs j eq_refl) as (-> & El & Ed). split; [apply s_open; auto|]. cbn. rewrite put_eq. auto.
    - destruct (Hn eq_refl) as (-> & El). split; [apply s_creat; auto|]. cbn. rewrite !put_eq. auto. }
  destruct H1 as (St & Ea1 & El1 & Ed1). clearbody s1.
  assert (Len : (0 < length (text p))%nat) by (destruct (text p); [congruence | cbn; lia]).
  eapply then_. eapply then_. eapply then_. eapply then_. eapply then_. eapply then_. apply r_refl.
  exact St. apply s_lock; [exact Ea1 | exact El1].
  apply s_stat_empty; [cbn; apply put_eq | exact Ed1].
  eapply (s_write _ _ _ _ p i (length (text p))); [cbn; apply put_eq | left; lia].
  apply s_unlock; cbn; apply put_eq. apply s_close; cbn; apply put_eq.
Qed.

Example C72_ex :
  (* 1 owns the file and stops while 2 is about to lock the old inode; then 3 owns a new one *)
  exists s, reach txt false false init s /\ at_ s 3%nat = Owner 1 /\ at_ s 2%nat = Undo 0 /\ data s 1%nat = [3; 10]%Z.
Proof.
  set (s1 := alone txt init 1 0). set (s2 := go s1 2 (Opened 0)).
  set (s3 := mkSys (put (at_ s2) 1 Idle) None (data s2) (lock s2) (next s2)).
  set (s4 := go_lock s3 2 (Locked 0) (put (lock s3) 0%nat (Some 2%nat))). set (s5 := go s4 2 (Undo 0)).
  exists (alone txt s5 3 1).
  assert (R1 : reach txt false false init s1) by (apply alone_runs; cbn; auto; discriminate).
  assert (R5 : reach txt false false init s5).
  { eapply then_; [eapply then_; [eapply then_; [eapply then_; [exact R1|]|]|]|].
    - apply (s_open _ _ _ _ 2 0); reflexivity.
    - apply (s_stop _ _ _ _ 1 0); [left|]; reflexivity.
    - apply (s_lock _ _ _ _ 2 0); reflexivity.
    - apply (s_stat_full _ _ _ _ 2 0); [reflexivity | discriminate]. }
  assert (R6 : reach txt false false s5 (alone txt s5 3 1)).
  { apply alone_runs; try reflexivity; [discriminate | intros _; split; reflexivity | intros j E; discriminate E]. }
  split; [|split; [|split]]; try reflexivity.
  induction R6; [exact R5 | eapply r_step; eauto].
Qed.

(** The claim needs its two provisos.  If a process that failed calls coda_daemon_stop, it
    removes the file of the owner, and there can be two owners. *)
Theorem C72_stop_by_a_loser_refuted : exists s, reach txt true false init s /\
  at_ s 1%nat = Owner 0 /\ at_ s 3%nat = Owner 1.
Proof.
  set (s1 := alone txt init 1 0).
  set (s3 := mkSys (put (at_ s1) 2 Idle) None (data s1) (lock s1) (next s1)).
  exists (alone txt s3 3 1).
  assert (R1 : reach txt true false init s1) by (apply alone_runs; cbn; auto; discriminate).
  assert (R3 : reach txt true false init s3).
  { eapply then_; [exact R1|]. apply (s_stop _ _ _ _ 2 0); [right|]; auto. }
  assert (R6 : reach txt true false s3 (alone txt s3 3 1)).
  { apply alone_runs; try reflexivity; [discriminate | intros _; split; reflexivity | intros j E; discriminate E]. }
  split; [|split]; try reflexivity.
  induction R6; [exact R3 | eapply r_step; eauto].
Qed.
Print Assumptions C72_stop_by_a_loser_refuted.

(** If write may report 0 bytes, which the code takes for success, two processes own the
    same empty file. *)
Theorem C72_empty_write_refuted : exists s, reach txt false true init s /\
  at_ s 1%nat = Owner 0 /\ at_ s 2%nat = Owner 0.
Proof.
  set (s1 := mkSys (put (at_ init) 1%nat (Opened 0)) (Some 0%nat) (put (data init) 0%nat []) (lock init) 1).
  set (s2 := go_lock s1 1 (Locked 0) (put (lock s1) 0%nat (Some 1%nat))).
  set (s3 := go s2 1 (Empty 0)).
  set (s4 := mkSys (put (at_ s3) 1%nat (Written 0)) (path s3)
              (put (data s3) 0%nat (firstn 0 (txt 1) ++ skipn 0 (data s3 0%nat))) (lock s3) (next s3)).
  set (s5 := go_lock s4 1 (Unlocked 0) (put (lock s4) 0%nat None)).
  set (s6 := go_lock s5 1 (Owner 0) (release (lock s5) 1)).
  exists (alone txt s6 2 0).
  assert (R6 : reach txt false true init s6).
  { eapply then_. eapply then_. eapply then_. eapply then_. eapply then_. eapply then_. apply r_refl.
    apply (s_creat _ _ _ _ 1); reflexivity. apply (s_lock _ _ _ _ 1 0); reflexivity.
    apply (s_stat_empty _ _ _ _ 1 0); reflexivity.
    apply (s_write _ _ _ _ 1 0 0); [reflexivity | right; auto].
    apply (s_unlock _ _ _ _ 1 0); reflexivity. apply (s_close _ _ _ _ 1 0); reflexivity. }
  assert (R : reach txt false true s6 (alone txt s6 2 0)).
  { apply alone_runs; try reflexivity; [discriminate | discriminate |].
    intros j E. injection E as <-. repeat split. }
  split; [|split]; try reflexivity.
  induction R; [exact R6 | eapply r_step; eauto].
Qed.
Print Assumptions C72_empty_write_refuted.

(** *** C99: a pid file without owner *)

(** When there is no file, a process that tries and is not disturbed gets it, whatever the
    others are in the middle of.  Missing to the full claim: the case that a file is there without an
    owner, see the refutations. *)
Theorem C99_free_path_partial : forall text s p, reach text false false init s ->
  at_ s p = Idle -> text p <> [] -> path s = None ->
  exists s' i, reach text false false s s' /\ at_ s' p = Owner i /\ data s' i = text p.
Proof.
  intros text s p H Ea Ht Ep. apply inv_reach in H. exists (alone text s p (next s)), (next s). split; [|split].
  - apply alone_runs; auto; [|congruence]. intros _. split; [reflexivity|]. apply (i_fresh _ _ H). lia.
  - unfold alone. rewrite Ep. cbn. apply put_eq.
  - unfold alone. rewrite Ep. cbn. rewrite put_eq, firstn_all, put_eq, skipn_nil, app_nil_r. reflexivity.
Qed.
Print Assumptions C99_free_path_partial.

(** the owner has stopped; another process is still about to lock the removed file *)
Example C99_ex : exists s, reach txt false false init s /\ at_ s 3%nat = Idle /\ txt 3 <> [] /\ path s = None /\
  at_ s 2%nat = Opened 0.
Proof.
  set (s1 := alone txt init 1 0). set (s2 := go s1 2 (Opened 0)).
  exists (mkSys (put (at_ s2) 1 Idle) None (data s2) (lock s2) (next s2)).
  assert (R1 : reach txt false false init s1) by (apply alone_runs; cbn; auto; discriminate).
  split; [|repeat split; discriminate].
  eapply then_; [eapply then_; [exact R1|]|].
  - apply (s_open _ _ _ _ 2 0); reflexivity.
  - apply (s_stop _ _ _ _ 1 0); [left|]; reflexivity.
Qed.

(** once there is a file with content and no claimant, nobody will ever be the owner *)
Lemma stuck : forall text s i, inv text s -> path s = Some i -> data s i <> [] -> (forall p, ~ claims (at_ s p)) ->
  forall s', reach text false false s s' -> inv text s' /\ path s' = Some i /\ data s' i <> [] /\ forall p, ~ claims (at_ s' p).
Proof.
  intros text s i H Ep Ed Nc s' R. induction R as [|s1 s2 R IH St]; [auto|].
  destruct IH as (H1 & Ep1 & Ed1 & Nc1). pose proof (inv_step _ _ _ H1 St) as H2. split; [exact H2|]. clear R.
  assert (K : forall p c l, (claims c -> claims (at_ s1 p)) ->
    path (mkSys (put (at_ s1) p c) (path s1) (data s1) l (next s1)) = Some i /\
    data (mkSys (put (at_ s1) p c) (path s1) (data s1) l (next s1)) i <> [] /\
    forall q, ~ claims (at_ (mkSys (put (at_ s1) p c) (path s1) (data s1) l (next s1)) q)).
  { intros p c l Hc. cbn. split; [auto|]. split; [auto|]. intros q C. destruct (Nat.eq_dec q p) as [-> | N].
    - rewrite put_eq in C. exact (Nc1 p (Hc C)).
    - rewrite put_ne in C by auto. exact (Nc1 q C). }
  inversion St as
    [p j Ea Epp | p Ea Epp | p j Ea El | p j Ea | p j Ea Edd | p j Ea Edd | p j Ea | p j k Ea Hk | p j Ea | p j Ea | p j Ea | p j Ea | p j Ea
    | p j Ea | p j Ea | p j Ea | p j Ea Epp | p]; subst s2; unfold go, go_lock;
    try (apply K; cbn; try contradiction; rewrite Ea; cbn; auto; fail).
  - congruence.
  - exfalso. pose proof (i_stat _ _ H1 p j Ea) as E0.
    assert (path s1 = Some j) by (apply (i_empty _ _ H1); [apply (i_open _ _ H1 p); rewrite Ea; reflexivity | auto]). congruence.
  - exfalso. destruct Ea as [Ea | [Ea _]]; [|discriminate]. apply (Nc1 p). rewrite Ea. exact I.
Qed.

(** False: when the owner dies without coda_daemon_stop, no process will ever own the file
    again (until someone removes it). *)
Theorem C99_stale_file_refuted : exists s, reach txt false false init s /\ (forall p i, at_ s p <> Owner i) /\
  forall s' p i, reach txt false false s s' -> at_ s' p <> Owner i.
Proof.
  set (s1 := alone txt init 1 0). set (s2 := go_lock s1 1 Dead (release (lock s1) 1)).
  assert (R1 : reach txt false false init s1) by (apply alone_runs; cbn; auto; discriminate).
  assert (R2 : reach txt false false init s2) by (eapply then_; [exact R1 | apply s_die]).
  assert (N2 : forall p, ~ claims (at_ s2 p)).
  { intros p. cbn. unfold put. destruct (p =? 1)%nat; cbn; auto. }
  exists s2. split; [exact R2|]. split.
  - intros p i E. apply (N2 p). rewrite E. exact I.
  - intros s' p i R E. destruct (stuck txt s2 0 (inv_reach _ _ R2) eq_refl ltac:(discriminate) N2 s' R) as (_ & _ & _ & N).
    apply (N p). rewrite E. exact I.
Qed.
Print Assumptions C99_stale_file_refuted.

(** False: when the last unlock of coda_mkpidf fails the function fails, but the file keeps
    the number of the process, and no process, not even the same one, will ever own it. *)
Theorem C99_failed_attempt_refuted : exists s, reach txt false false init s /\
  (forall p, at_ s p = Idle) /\ path s <> None /\
  forall s' p i, reach txt false false s s' -> at_ s' p <> Owner i.
Proof.
  set (s1 := mkSys (put (at_ init) 1%nat (Opened 0)) (Some 0%nat) (put (data init) 0%nat []) (lock init) 1).
  set (s2 := go_lock s1 1 (Locked 0) (put (lock s1) 0%nat (Some 1%nat))).
  set (s3 := go s2 1 (Empty 0)).
  set (s4 := mkSys (put (at_ s3) 1%nat (Written 0)) (path s3)
              (put (data s3) 0%nat (firstn 2 (txt 1) ++ skipn 2 (data s3 0%nat))) (lock s3) (next s3)).
  set (s5 := go s4 1 (Leave 0)).
  set (s6 := go_lock s5 1 Idle (release (lock s5) 1)).
  assert (R6 : reach txt false false init s6).
  { eapply then_. eapply then_. eapply then_. eapply then_. eapply then_. eapply then_. apply r_refl.
    apply (s_creat _ _ _ _ 1); reflexivity. apply (s_lock _ _ _ _ 1 0); reflexivity.
    apply (s_stat_empty _ _ _ _ 1 0); reflexivity.
    apply (s_write _ _ _ _ 1 0 2); [reflexivity | left; cbn; lia].
    apply (s_unlock_fail _ _ _ _ 1 0); reflexivity. apply (s_leave _ _ _ _ 1 0); reflexivity. }
  assert (I6 : forall p, at_ s6 p = Idle).
  { intros p. cbn. unfold put. destruct (p =? 1)%nat; reflexivity. }
  exists s6. split; [exact R6|]. split; [exact I6|]. split; [discriminate|].
  intros s' p i R E.
  destruct (stuck txt s6 0 (inv_reach _ _ R6) eq_refl ltac:(discriminate) ltac:(intros q; rewrite I6; cbn; auto) s' R) as (_ & _ & _ & N).
  apply (N p). rewrite E. exact I.
Qed.
Print Assumptions C99_failed_attempt_refuted.

(** *** C99: exactly when the file can be taken *)

(** a lock is held only by a process in the middle of coda_mkpidf, on the inode it has open *)
Definition lock_ok (s : sys) : Prop :=
  forall p i, lock s i = Some p -> inode (at_ s p) = Some i /\ forall j, at_ s p <> Owner j.

Lemma lock_ok_go : forall s p c l pa d nx, lock_ok s ->
  (forall q i, q <> p -> l i = Some q -> lock s i = Some q) ->
  (forall i, l i = Some p -> inode c = Some i /\ forall j, c <> Owner j) ->
  lock_ok (mkSys (put (at_ s) p c) pa d l nx).
Proof.
  intros s p c l pa d nx H H1 H2 q i. cbn [at_ lock]. intros E. destruct (Nat.eq_dec q p) as [-> | N].
  - rewrite put_eq. auto.
  - rewrite put_ne by auto. eauto.
Qed.
Lemma release_inv : forall l p i q, release l p i = Some q -> l i = Some q /\ q <> p.
Proof.
  intros l p i q E. unfold release in E. destruct (l i) as [r|]; [|discriminate].
  destruct (Nat.eqb_spec r p); [discriminate|]. injection E as <-. auto.
Qed.
Lemma put_none_inv : forall (l : nat -> option nat) i j q, put l i None j = Some q -> l j = Some q /\ j <> i.
Proof. intros l i j q E. unfold put in E. destruct (Nat.eqb_spec j i); [discriminate|]. auto. Qed.

Lemma lock_ok_step : forall text s s', lock_ok s -> step text false false s s' -> lock_ok s'.
Proof.
  intros text s s' H St.
  assert (Rq : forall p q i, q <> p -> release (lock s) p i = Some q -> lock s i = Some q).
  { intros p q i _ E. apply release_inv in E. tauto. }
  assert (Rp : forall p i (P : Prop), release (lock s) p i = Some p -> P).
  { intros p i P E. apply release_inv in E. tauto. }
  inversion St as
    [p i Ea Ep | p Ea Ep | p i Ea El | p i Ea | p i Ea Ed | p i Ea Ed | p i Ea | p i k Ea Hk | p i Ea | p i Ea | p i Ea | p i Ea | p i Ea
    | p i Ea | p i Ea | p i Ea | p i Ea Ep | p]; subst s'; unfold go, go_lock;
    try (apply lock_ok_go; auto; intros j E; destruct (H p j E) as [I O]; rewrite Ea in I; cbn in I |- *;
         split; [congruence|discriminate]);
    try (apply lock_ok_go; [exact H|apply Rq|intros j E; exact (Rp _ _ _ E)]).
  - (* lock *) apply lock_ok_go; auto.
    + intros q j N E. unfold put in E. destruct (Nat.eqb_spec j i); [congruence|exact E].
    + intros j E. unfold put in E. destruct (Nat.eqb_spec j i) as [X | N]; [rewrite X; cbn; split; [reflexivity|discriminate]|].
      destruct (H p j E) as [I O]. rewrite Ea in I. cbn in I. congruence.
  - (* unlock *) apply lock_ok_go; auto.
    + intros q j N E. apply put_none_inv in E. tauto.
    + intros j E. apply put_none_inv in E. destruct E as [E N]. destruct (H p j E) as [I O]. rewrite Ea in I. cbn in I. congruence.
  - (* undo *) apply lock_ok_go; auto.
    + intros q j N E. apply put_none_inv in E. tauto.
    + intros j E. apply put_none_inv in E. destruct E as [E N]. destruct (H p j E) as [I O]. rewrite Ea in I. cbn in I. congruence.
  - (* stop *) destruct Ea as [Ea | [Ea _]]; [|discriminate]. apply lock_ok_go; auto.
    intros j E. destruct (H p j E) as [I O]. destruct (O i Ea).
Qed.
Lemma lock_ok_reach : forall text s, reach text false false init s -> lock_ok s.
Proof.
  intros text s H. induction H; [intros p i E; discriminate E | eapply lock_ok_step; eauto].
Qed.

(** No process is at work and none is the owner: a process can become the owner if and only if
    there is no file or the file is empty. *)
Theorem C99_exact : forall text s p, reach text false false init s ->
  (forall q, at_ s q = Idle \/ at_ s q = Dead) -> at_ s p = Idle -> text p <> [] ->
  ((exists s' i, reach text false false s s' /\ at_ s' p = Owner i) <->
   forall i, path s = Some i -> data s i = []).
Proof.
  intros text s p R Q Ea Ht. pose proof (inv_reach _ _ R) as H. pose proof (lock_ok_reach _ _ R) as L. split.
  - intros (s' & i & R' & O) j Ep. destruct (data s j) as [|z l] eqn:Ed; [reflexivity|]. exfalso.
    assert (N : forall q, ~ claims (at_ s q)) by (intros q; destruct (Q q) as [-> | ->]; cbn; auto).
    destruct (stuck text s j H Ep ltac:(congruence) N s' R') as (_ & _ & _ & N'). apply (N' p). rewrite O. exact I.
  - intros E. assert (F : forall i, lock s i = None).
    { intros i. destruct (lock s i) as [q|] eqn:El; [|reflexivity]. destruct (L q i El) as [X _].
      destruct (Q q) as [Eq | Eq]; rewrite Eq in X; discriminate X. }
    set (i := match path s with Some i => i | None => next s end).
    exists (alone text s p i), i. split.
    + apply alone_runs; auto; unfold i.
      * intros ->. auto.
      * intros j Ej. rewrite Ej. auto.
    + unfold alone. cbn. apply put_eq.
Qed.
Print Assumptions C99_exact.

(** a process died between creating the file and writing to it: the file is empty and free *)
Example C99_exact_ex : exists s, reach txt false false init s /\ (forall q, at_ s q = Idle \/ at_ s q = Dead) /\
  at_ s 2%nat = Idle /\ txt 2 <> [] /\ path s = Some 0%nat /\ data s 0%nat = [] /\ at_ s 1%nat = Dead.
Proof.
  set (s1 := mkSys (put (at_ init) 1%nat (Opened 0)) (Some 0%nat) (put (data init) 0%nat []) (lock init) 1).
  set (s2 := go_lock s1 1 (Locked 0) (put (lock s1) 0%nat (Some 1%nat))).
  exists (go_lock s2 1 Dead (release (lock s2) 1)). split; [|split].
  - eapply then_; [eapply then_; [eapply then_; [apply r_refl|]|]|].
    + apply (s_creat _ _ _ _ 1); reflexivity.
    + apply (s_lock _ _ _ _ 1 0); reflexivity.
    + apply s_die.
  - intros q. cbn. unfold put. destruct (q =? 1)%nat; auto.
  - repeat split; discriminate.
Qed.
