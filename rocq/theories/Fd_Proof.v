(** Lemmas about the functions that talk to the kernel. *)

From Coq Require Import ZArith List Bool Lia.
From Verif Require Import Base Fd_Model Fd_Spec.
Import ListNotations.
Local Open Scope Z_scope.

(** *** the kernel's rules, as implications *)

Definition same (s s' : os) : Prop := tab s' = tab s /\ maps s' = maps s.

Lemma k_hist : forall s c a s', kernel s c a = Some s' -> hist s' = (c, rc a) :: hist s.
Proof. unfold kernel. intros s c a s' H. destruct (effect s c a) as [[t m]|]; inversion H. reflexivity. Qed.

Definition plain (c : call) : Prop :=
  match c with KOpen _ _ _ _ | KSocket | KAccept _ | KClose _ | KDup2 _ _ | KMmap _ _ => False | _ => True end.
Lemma k_plain : forall s c a s', plain c -> kernel s c a = Some s' -> same s s'.
Proof.
  unfold kernel, effect, same. intros s c a s' P H.
  destruct c; try contradiction P; cbn in H; repeat (match type of H with
    | context [if ?b then _ else _] => destruct b; cbn in H end); inversion H; auto.
Qed.

Definition opens (c : call) : option obj :=
  match c with KOpen p w _ _ => Some (OFile p w) | KSocket => Some OSocket | KAccept _ => Some OConn | _ => None end.
Lemma isopen_some : forall s i, isopen s i = false -> tab s i = None.
Proof. unfold isopen. intros s i. destruct (tab s i); congruence. Qed.
Lemma k_open : forall s c o a s', opens c = Some o -> kernel s c a = Some s' ->
  rc a < 0 /\ same s s' \/
  0 <= rc a /\ tab s (rc a) = None /\ tab s' = fput (tab s) (rc a) (Some o) /\ maps s' = maps s.
Proof.
  unfold kernel, effect, same. intros s c o a s' E H.
  destruct c; try discriminate E; injection E as <-; cbn in H; destruct (Z.ltb_spec (rc a) 0).
  all: try (left; split; [auto|]; inversion H; auto; fail).
  1,2: destruct (isopen s (rc a)) eqn:I; [discriminate|].
  1,2: right; inversion H; cbn; apply isopen_some in I; auto.
  destruct (isopen s fd); [|discriminate].
  destruct (isopen s (rc a)) eqn:I; [discriminate|].
  right; inversion H; cbn; apply isopen_some in I; auto.
Qed.

Lemma k_close : forall s fd a s', kernel s (KClose fd) a = Some s' ->
  (forall i, tab s' i = if i =? fd then None else tab s i) /\ maps s' = maps s.
Proof.
  unfold kernel, effect, isopen. intros s fd a s' H. destruct (tab s fd) eqn:E.
  - inversion H. cbn. split; [intros i; unfold fput; reflexivity | reflexivity].
  - destruct (rc a <? 0); inversion H; cbn. split; [|reflexivity]. intros i.
    destruct (Z.eqb_spec i fd); [subst; auto | auto].
Qed.

Lemma k_dup : forall s fd nd a s', kernel s (KDup2 fd nd) a = Some s' ->
  rc a < 0 /\ same s s' \/
  0 <= rc a /\ rc a = nd /\ maps s' = maps s /\
  exists o, tab s fd = Some o /\ forall i, tab s' i = if i =? nd then Some o else tab s i.
Proof.
  unfold kernel, effect, same. intros s fd nd a s' H. destruct (Z.ltb_spec (rc a) 0).
  - inversion H. auto.
  - destruct (tab s fd) as [o|]; [|discriminate]. destruct (Z.eqb_spec (rc a) nd); [|discriminate].
    right. inversion H. cbn. repeat split; auto. exists o. split; auto.
Qed.

Lemma k_mmap : forall s fd n a s', kernel s (KMmap fd n) a = Some s' ->
  tab s' = tab s /\ (rc a < 0 /\ maps s' = maps s \/ 0 <= rc a /\ maps s' = rc a :: maps s).
Proof.
  unfold kernel, effect. intros s fd n a s' H. destruct (Z.ltb_spec (rc a) 0).
  - inversion H. auto.
  - destruct ((fd =? -1) || isopen s fd); [|discriminate]. inversion H. cbn. auto.
Qed.

(** *** running a program call by call *)

Lemma run_ret : forall A (x y : A) l s s', run (Ret x) l s = Some (y, s') -> l = [] /\ y = x /\ s' = s.
Proof. intros A x y [|a l] s s' H; [injection H as <- <-; auto | discriminate]. Qed.
Lemma run_call : forall A c (k : ans -> prog A) l s y s', run (Call c k) l s = Some (y, s') ->
  exists a l' s1, l = a :: l' /\ kernel s c a = Some s1 /\ run (k a) l' s1 = Some (y, s').
Proof.
  intros A c k [|a l] s y s' H; [discriminate|]. cbn [run] in H.
  destruct (kernel s c a) as [s1|] eqn:E; [|discriminate]. exists a, l, s1. auto.
Qed.
Lemma run_bind : forall A B (p : prog A) (f : A -> prog B) l s y s', run (pbind p f) l s = Some (y, s') ->
  exists l1 l2 x s1, l = l1 ++ l2 /\ run p l1 s = Some (x, s1) /\ run (f x) l2 s1 = Some (y, s').
Proof.
  intros A B p f. induction p as [x|c k IH]; intros l s y s' H.
  - exists [], l, x, s. auto.
  - cbn [pbind] in H. apply run_call in H. destruct H as (a & l' & s1 & -> & K & H).
    apply IH in H. destruct H as (l1 & l2 & x & s2 & -> & H1 & H2).
    exists (a :: l1), l2, x, s2. split; [reflexivity|]. split; [|exact H2]. cbn [run]. rewrite K. exact H1.
Qed.
(** every run from [s] ends in [Q] *)
Definition holds {A} (p : prog A) (s : os) (Q : A -> os -> Prop) : Prop :=
  forall l r s', run p l s = Some (r, s') -> Q r s'.
Lemma h_ret : forall A (x : A) s (Q : A -> os -> Prop), Q x s -> holds (Ret x) s Q.
Proof. intros A x s Q H l r s' E. apply run_ret in E. destruct E as (_ & -> & ->). exact H. Qed.
Lemma h_call : forall A c (k : ans -> prog A) s (Q : A -> os -> Prop),
  (forall a s1, kernel s c a = Some s1 -> holds (k a) s1 Q) -> holds (Call c k) s Q.
Proof. intros A c k s Q H l r s' E. apply run_call in E. destruct E as (a & l' & s1 & _ & K & E). eapply H; eauto. Qed.
Lemma h_bind : forall A B (p : prog A) (f : A -> prog B) s (Q : B -> os -> Prop),
  holds p s (fun x s1 => holds (f x) s1 Q) -> holds (pbind p f) s Q.
Proof.
  intros A B p f s Q H l r s' E. apply run_bind in E. destruct E as (l1 & l2 & x & s1 & _ & E1 & E2).
  eapply H; eauto.
Qed.
Lemma h_impl : forall A (p : prog A) s (Q Q' : A -> os -> Prop), holds p s Q -> (forall r s', Q r s' -> Q' r s') -> holds p s Q'.
Proof. intros A p s Q Q' H I l r s' E. apply I. eapply H; eauto. Qed.

(** a function that opens [sd], uses it and closes it again when something fails *)
Definition closing (s : os) (r : Z) (s' : os) (o : obj) : Prop :=
  r = -1 /\ same_fds s s' /\ maps s' = maps s \/
  0 <= r /\ opened s s' r o /\ maps s' = maps s.

Lemma close_back : forall s s1 s2 fd o a, tab s fd = None -> tab s1 = fput (tab s) fd (Some o) ->
  kernel s1 (KClose fd) a = Some s2 -> same_fds s s2 /\ maps s2 = maps s1.
Proof.
  intros s s1 s2 fd o a E E1 K. apply k_close in K. destruct K as [T M]. split; [|exact M].
  intros i. rewrite T, E1. unfold fput. destruct (Z.eqb_spec i fd); congruence.
Qed.
Lemma open_stays : forall s s1 fd o, 0 <= fd -> tab s fd = None -> tab s1 = fput (tab s) fd (Some o) ->
  opened s s1 fd o.
Proof.
  intros s s1 fd o H E E1. unfold opened. rewrite E1. unfold fput. rewrite Z.eqb_refl.
  repeat split; auto. intros i Hi. destruct (Z.eqb_spec i fd); congruence.
Qed.

(** the state has [fd] open for [o] on top of [s] *)
Definition with_fd (s s1 : os) (fd : Z) (o : obj) : Prop :=
  0 <= fd /\ tab s fd = None /\ tab s1 = fput (tab s) fd (Some o) /\ maps s1 = maps s.
Lemma w_open : forall s c o a s1, kernel s c a = Some s1 -> opens c = Some o -> 0 <= rc a -> with_fd s s1 (rc a) o.
Proof.
  intros s c o a s1 K E H. apply (k_open _ _ _ _ _ E) in K. destruct K as [[L _] | (L & K)]; [lia|].
  unfold with_fd. tauto.
Qed.
Lemma w_fail : forall s c o a s1, kernel s c a = Some s1 -> opens c = Some o -> rc a < 0 -> same_fds s s1 /\ maps s1 = maps s.
Proof.
  intros s c o a s1 K E H. apply (k_open _ _ _ _ _ E) in K. destruct K as [[L [K1 K2]] | (L & K)]; [|lia].
  split; [intros i; congruence | auto].
Qed.
Lemma w_plain : forall s s1 s2 fd o c a, with_fd s s1 fd o -> kernel s1 c a = Some s2 -> plain c -> with_fd s s2 fd o.
Proof. intros s s1 s2 fd o c a (W1 & W2 & W3 & W4) K P. apply k_plain in K; auto. destruct K. unfold with_fd. repeat split; auto; congruence. Qed.
Lemma w_close : forall s s1 s2 fd o a, with_fd s s1 fd o -> kernel s1 (KClose fd) a = Some s2 -> same_fds s s2 /\ maps s2 = maps s.
Proof.
  intros s s1 s2 fd o a (W1 & W2 & W3 & W4) K. eapply close_back in K; eauto. destruct K. split; [auto|congruence].
Qed.
Lemma w_done : forall s s1 fd o, with_fd s s1 fd o -> opened s s1 fd o /\ maps s1 = maps s.
Proof. intros s s1 fd o (W1 & W2 & W3 & W4). split; [apply open_stays; auto | auto]. Qed.

Ltac call a s1 K := apply h_call; intros a s1 K.
Ltac close_up W := apply h_call; let a := fresh in let s2 := fresh in let K := fresh in intros a s2 K;
  apply h_ret; left; split; [reflexivity | exact (w_close _ _ _ _ _ _ W K)].
Ltac start o a s1 W := let K := fresh in let L := fresh in
  apply h_call; intros a s1 K; destruct (Z.ltb_spec (rc a) 0) as [L | L];
  [ apply h_ret; left; split; [reflexivity | exact (w_fail _ _ o _ _ K eq_refl L)]
  | pose proof (w_open _ _ o _ _ K eq_refl L) as W].
Ltac use W a s2 W' := let K := fresh in
  apply h_call; intros a s2 K; pose proof (w_plain _ _ _ _ _ _ _ W K I) as W'; clear K.
Ltac done_up W := apply h_ret; right; split; [destruct W; assumption | exact (w_done _ _ _ _ W)].

Lemma listen_ok : forall b nb s, holds (coda_listen b nb) s (fun r s' => closing s r s' OSocket).
Proof.
  intros b nb s. unfold coda_listen, sys. cbn [pbind]. start OSocket a s1 W.
  assert (Rest : forall s1, with_fd s s1 (rc a) OSocket ->
    holds (Call (KReuse (rc a)) (fun a0 => if rc a0 <? 0 then Call (KClose (rc a)) (fun _ => Ret (-1))
      else Call (KBind (rc a)) (fun a1 => if rc a1 <? 0 then Call (KClose (rc a)) (fun _ => Ret (-1))
      else Call (KListen (rc a) b) (fun a2 => if rc a2 <? 0 then Call (KClose (rc a)) (fun _ => Ret (-1)) else Ret (rc a)))))
      s1 (fun r s' => closing s r s' OSocket)).
  { clear. intros s1 W. use W a1 s2 W2. destruct (rc a1 <? 0); [close_up W2|].
    use W2 a2 s3 W3. destruct (rc a2 <? 0); [close_up W3|].
    use W3 a3 s4 W4. destruct (rc a3 <? 0); [close_up W4|]. done_up W4. }
  destruct (nb =? 0); cbn [pbind]; [apply Rest; exact W|].
  use W a1 s2 W2. destruct (rc a1 <? 0); [close_up W2|]. apply Rest. exact W2.
Qed.

Lemma accept_ok : forall fd nb s, holds (coda_accept fd nb) s (fun r s' =>
  closing s (fst r) s' OConn /\ (snd r = None <-> fst r < 0)).
Proof.
  intros fd nb s. unfold coda_accept, sys. cbn [pbind]. call a s1 K.
  destruct (Z.ltb_spec (rc a) 0) as [L | L].
  - apply h_ret. cbn [fst snd]. split; [|split; [lia|auto]].
    left; split; [reflexivity | exact (w_fail _ _ OConn _ _ K eq_refl L)].
  - pose proof (w_open _ _ OConn _ _ K eq_refl L) as W. use W a1 s2 W2.
    destruct (rc a1 <? 0).
    + call a2 s3 K3. apply h_ret. cbn [fst snd]. split; [|split; [lia|auto]].
      left. split; [reflexivity | exact (w_close _ _ _ _ _ _ W2 K3)].
    + apply h_ret. cbn [fst snd]. split; [|split; [discriminate|lia]].
      right. split; [auto | exact (w_done _ _ _ _ W2)].
Qed.

Lemma connect_ok : forall nb s, holds (coda_connect nb) s (fun r s' => closing s r s' OSocket).
Proof.
  intros nb s. unfold coda_connect, sys. cbn [pbind]. start OSocket a s1 W.
  assert (Rest : forall s1, with_fd s s1 (rc a) OSocket ->
    holds (Call (KConnect (rc a)) (fun a0 => if (rc a0 <? 0) && negb (EINPROGRESS =? errno a0)
      then Call (KClose (rc a)) (fun _ => Ret (-1)) else Ret (rc a)))
      s1 (fun r s' => closing s r s' OSocket)).
  { clear. intros s1 W. use W a1 s2 W2. destruct ((rc a1 <? 0) && _); [close_up W2|]. done_up W2. }
  destruct (nb =? 0); cbn [pbind]; [apply Rest; exact W|].
  use W a1 s2 W2. destruct (rc a1 <? 0); [close_up W2|]. apply Rest. exact W2.
Qed.

Lemma mkpidf_ok : forall p t s, holds (coda_mkpidf p t) s (fun r s' => (r = 0 \/ r = -1) /\ same_fds s s' /\ maps s' = maps s).
Proof.
  intros p t s. unfold coda_mkpidf, sys. cbn [pbind]. call a s1 K.
  destruct (Z.ltb_spec (rc a) 0) as [L | L].
  { apply h_ret. split; [auto|]. exact (w_fail _ _ (OFile p true) _ _ K eq_refl L). }
  pose proof (w_open _ _ (OFile p true) _ _ K eq_refl L) as W. clear K.
  assert (C1 : forall s1 r, r = 0 \/ r = -1 -> with_fd s s1 (rc a) (OFile p true) ->
    holds (Call (KClose (rc a)) (fun _ => Ret r)) s1 (fun r s' => (r = 0 \/ r = -1) /\ same_fds s s' /\ maps s' = maps s)).
  { clear. intros s1 r Hr W. call a1 s2 K. apply h_ret. split; [auto|]. exact (w_close _ _ _ _ _ _ W K). }
  assert (C2 : forall s1, with_fd s s1 (rc a) (OFile p true) ->
    holds (Call (KUnlock (rc a)) (fun _ => Call (KClose (rc a)) (fun _ => Ret (-1)))) s1
      (fun r s' => (r = 0 \/ r = -1) /\ same_fds s s' /\ maps s' = maps s)).
  { clear - C1. intros s1 W. use W a1 s2 W2. apply C1; auto. }
  use W a1 s2 W2. destruct (rc a1 <? 0); [apply C1; auto|].
  use W2 a2 s3 W3. destruct (rc a2 <? 0); [apply C2; auto|].
  destruct (0 <? val a2); [apply C2; auto|].
  use W3 a3 s4 W4. destruct (rc a3 <? 0); [apply C2; auto|].
  use W4 a4 s5 W5. destruct (rc a4 <? 0); [apply C1; auto|].
  call a5 s6 K. destruct (rc a5 <? 0); apply h_ret; (split; [auto|]; exact (w_close _ _ _ _ _ _ W5 K)).
Qed.

(** coda_mmap never leaves a descriptor behind, whatever it returns; a mapping stays exactly
    if mmap succeeded *)
Lemma mmap_ok : forall n w f s, holds (coda_mmap n w f) s (fun r s' =>
  same_fds s s' /\ (fst (fst r) = 0 \/ fst (fst r) = -1) /\
  (fst (fst r) = 0 -> exists d, snd r = Some d /\ 0 <= d /\ maps s' = d :: maps s) /\
  (maps s' = maps s \/ exists d, snd r = Some d /\ 0 <= d /\ maps s' = d :: maps s)).
Proof.
  intros n w [f|] s; unfold coda_mmap, sys; cbn [pbind].
  - call a s1 K. destruct (Z.ltb_spec (rc a) 0) as [L | L].
    { destruct (w_fail _ _ (OFile f w) _ _ K eq_refl L). apply h_ret. cbn [fst snd]. repeat split; auto; intros; lia. }
    pose proof (w_open _ _ (OFile f w) _ _ K eq_refl L) as W. clear K.
    apply h_bind. apply h_impl with (Q := fun _ s2 => with_fd s s2 (rc a) (OFile f w)).
    { destruct (negb (n =? 0)); cbn [pbind]; use W a1 s2 W2; apply h_ret; auto. }
    clear W s1. intros [r sz] s1 W. destruct (r <? 0).
    { call a1 s2 K. destruct (w_close _ _ _ _ _ _ W K). apply h_ret. cbn [fst snd]. repeat split; auto; intros; lia. }
    call a1 s2 K. apply k_mmap in K. destruct W as (W1 & W2 & W3 & W4).
    destruct K as [K1 [[K2 K3] | [K2 K3]]]; destruct (Z.ltb_spec (rc a1) 0); try lia.
    + call a2 s3 K. eapply close_back in K; [|exact W2|rewrite K1; exact W3]. destruct K.
      apply h_ret. cbn [fst snd]. repeat split; auto; [intros; lia|]. left. congruence.
    + call a2 s3 K. eapply close_back in K; [|exact W2|rewrite K1; exact W3]. destruct K as [S M].
      assert (X : exists d, Some (rc a1) = Some d /\ 0 <= d /\ maps s3 = d :: maps s)
        by (exists (rc a1); repeat split; auto; congruence).
      destruct (rc a2 <? 0); apply h_ret; cbn [fst snd]; repeat split; auto; intros; try lia; auto.
  - call a s1 K. apply k_mmap in K. destruct K as [K1 [[K2 K3] | [K2 K3]]]; destruct (Z.ltb_spec (rc a) 0); try lia.
    + apply h_ret. cbn [fst snd]. repeat split; auto; [intros i; congruence | intros; lia].
    + apply h_ret. cbn [fst snd]. assert (X : exists d, Some (rc a) = Some d /\ 0 <= d /\ maps s1 = d :: maps s)
        by (exists (rc a); repeat split; auto).
      repeat split; auto. intros i; congruence.
Qed.

(** moving a descriptor *)
Lemma fdmove_ok : forall fd nd s o, tab s fd = Some o -> 0 <= fd -> holds (coda_fdmove fd nd) s (fun r s' =>
  maps s' = maps s /\
  ((nd < 0 \/ nd = fd) /\ r = fd /\ same_fds s s' \/
   0 <= nd /\ nd <> fd /\
    ((r = nd \/ r = -1) /\ tab s' nd = Some o /\ tab s' fd = None /\ (forall i, i <> nd -> i <> fd -> tab s' i = tab s i) \/
     r = -1 /\ same_fds s s'))).
Proof.
  intros fd nd s o E Hfd. unfold coda_fdmove, sys. cbn [pbind].
  destruct (Z.ltb_spec nd 0); cbn [orb].
  { apply h_ret. split; [auto|]. left. repeat split; auto. }
  destruct (Z.eqb_spec fd nd).
  { apply h_ret. split; [auto|]. left. repeat split; auto. }
  call a s1 K. apply k_dup in K. destruct K as [[L [K1 K2]] | (L & Er & M & o' & Eo & T)].
  { destruct (Z.ltb_spec (rc a) 0); [|lia]. apply h_ret. split; [auto|]. right. repeat split; auto.
    right. split; [auto|]. intros i; congruence. }
  destruct (Z.ltb_spec (rc a) 0); [lia|]. assert (o' = o) by congruence. subst o'.
  call a2 s2 K. apply k_close in K. destruct K as [T2 M2].
  assert (F : tab s2 nd = Some o /\ tab s2 fd = None /\ (forall i, i <> nd -> i <> fd -> tab s2 i = tab s i)).
  { repeat split.
    - rewrite T2, T, Z.eqb_refl. destruct (Z.eqb_spec nd fd); congruence.
    - rewrite T2, Z.eqb_refl. reflexivity.
    - intros i H1 H2. rewrite T2, T. destruct (Z.eqb_spec i fd); [congruence|]. destruct (Z.eqb_spec i nd); congruence. }
  destruct (rc a2 <? 0); apply h_ret; (split; [congruence|]; right; split; [auto|]; split; [auto|]; left; split; [auto|exact F]).
Qed.

(** *** the history of calls only grows *)

Definition new_calls (s s' : os) (P : call -> Z -> Prop) : Prop :=
  exists h, hist s' = h ++ hist s /\ Forall (fun x => P (fst x) (snd x)) h.
Lemma nc_refl : forall s P, new_calls s s P.
Proof. intros s P. exists []. split; auto. Qed.
Lemma nc_step : forall s s1 s2 (P : call -> Z -> Prop) c a, new_calls s s1 P -> kernel s1 c a = Some s2 -> P c (rc a) ->
  new_calls s s2 P.
Proof.
  intros s s1 s2 P c a (h & E & F) K H. apply k_hist in K. exists ((c, rc a) :: h).
  rewrite K, E. split; [reflexivity|]. constructor; auto.
Qed.

(** opening a file at a given number *)
Lemma fdopen_ok : forall fd p w c ap s, holds (coda_fdopen fd p w c ap) s (fun r s' =>
  maps s' = maps s /\
  (r = -1 /\ same_fds s s' \/
   fd < 0 /\ 0 <= r /\ opened s s' r (OFile p w) \/
   0 <= fd /\ (r = fd \/ r = -1) /\ tab s' fd = Some (OFile p w) /\ (forall i, i <> fd -> tab s' i = tab s i) \/
   0 <= fd /\ r = -1 /\ exists td x, opened s s' td (OFile p w) /\ In (KDup2 td fd, x) (hist s') /\ x < 0)).
Proof.
  intros fd p w c ap s. unfold coda_fdopen, sys. cbn [pbind]. call a s1 K.
  destruct (Z.ltb_spec (rc a) 0) as [L | L].
  { destruct (w_fail _ _ (OFile p w) _ _ K eq_refl L). apply h_ret. split; [auto|]. left. auto. }
  pose proof (w_open _ _ (OFile p w) _ _ K eq_refl L) as W. clear K.
  pose proof (w_done _ _ _ _ W) as [O M]. destruct W as (W1 & W2 & W3 & W4).
  unfold coda_fdmove, sys. cbn [pbind].
  destruct (Z.ltb_spec fd 0); cbn [orb].
  { apply h_ret. split; [auto|]. right. left. auto. }
  destruct (Z.eqb_spec (rc a) fd) as [E | N].
  { apply h_ret. split; [auto|]. right. right. left. split; [auto|]. split; [auto|].
    rewrite <- E. destruct O as (O1 & O2 & O3 & O4). auto. }
  call a1 s2 K. pose proof (k_hist _ _ _ _ K) as Hh. apply k_dup in K.
  destruct K as [[L2 [K1 K2]] | (L2 & Er & M2 & o' & Eo & T)].
  { destruct (Z.ltb_spec (rc a1) 0); [|lia]. apply h_ret. split; [congruence|]. right. right. right.
    split; [auto|]. split; [auto|]. exists (rc a), (rc a1). split; [|rewrite Hh; split; [left; reflexivity|auto]].
    destruct O as (O1 & O2 & O3 & O4). unfold opened. rewrite K1. auto. }
  destruct (Z.ltb_spec (rc a1) 0); [lia|].
  assert (o' = OFile p w).
  { rewrite W3 in Eo. unfold fput in Eo. rewrite Z.eqb_refl in Eo. congruence. } subst o'.
  call a2 s3 K. apply k_close in K. destruct K as [T3 M3].
  assert (F : tab s3 fd = Some (OFile p w) /\ (forall i, i <> fd -> tab s3 i = tab s i)).
  { split.
    - rewrite T3, T, Z.eqb_refl. destruct (Z.eqb_spec fd (rc a)); congruence.
    - intros i Hi. rewrite T3, T, W3. unfold fput. destruct (Z.eqb_spec i (rc a)); [congruence|].
      destruct (Z.eqb_spec i fd); congruence. }
  destruct (rc a2 <? 0); apply h_ret; (split; [congruence|]; right; right; left; split; [auto|]; split; [auto|exact F]).
Qed.

Lemma random_ok : forall b s, holds (coda_random_init b) s (fun r s' =>
  let '(r, b', seed) := r in
  (r = 0 \/ r = -1) /\ (r = 0 -> b' = true) /\ (r = -1 -> b' = false /\ seed = None) /\
  (same_fds s s' \/ r = -1 /\ exists fd x, opened s s' fd (OFile urandom false) /\ In (KRead fd 4, x) (hist s') /\ x < 0) /\
  (r = 0 -> same_fds s s') /\
  (seed = Some None -> exists fd x, In (KRead fd 4, x) (hist s') /\ 0 <= x < 4) /\ (b = true -> hist s' = hist s)).
Proof.
  intros b s. unfold coda_random_init, sys. cbn [pbind]. destruct b.
  { apply h_ret. split; [auto|]. split; [auto|]. split; [discriminate|]. split; [left; intros i; reflexivity|].
    split; [intros _ i; reflexivity|]. split; [discriminate|auto]. }
  call a s1 K. destruct (Z.ltb_spec (rc a) 0) as [L | L].
  { destruct (w_fail _ _ (OFile urandom false) _ _ K eq_refl L). apply h_ret. 
    split; [auto|]. split; [discriminate|]. split; [auto|]. split; [auto|]. split; [auto|]. split; discriminate. }
  pose proof (w_open _ _ (OFile urandom false) _ _ K eq_refl L) as W. clear K.
  call a1 s2 K. pose proof (k_hist _ _ _ _ K) as Hh. pose proof (w_plain _ _ _ _ _ _ _ W K I) as W2. clear K.
  destruct (Z.ltb_spec (rc a1) 0) as [L1 | L1].
  { apply h_ret. split; [auto|]. split; [discriminate|]. split; [auto|]. split.
    - right. split; [auto|]. exists (rc a), (rc a1). destruct (w_done _ _ _ _ W2) as [O _]. split; [exact O|].
      rewrite Hh. split; [left; reflexivity | auto].
    - split; [discriminate|]. split; discriminate. }
  call a2 s3 K. pose proof (k_hist _ _ _ _ K) as Hh3. destruct (w_close _ _ _ _ _ _ W2 K) as [S M].
  apply h_ret. split; [auto|]. split; [auto|]. split; [discriminate|]. split; [auto|]. split; [auto|].
  split; [|discriminate]. intros E. exists (rc a), (rc a1). rewrite Hh3, Hh. split; [right; left; reflexivity|].
  destruct (Z.ltb_spec (rc a1) 4); [lia | discriminate].
Qed.

Lemma daemon_fork_ok : forall s, holds coda_daemon_fork s (fun r s' =>
  maps s' = maps s /\
  match r with
  | None => same_fds s s' /\ new_calls s s' (fun c _ => c = KFork)
  | Some r =>
      (r = 0 \/ r = -1) /\
      (r = 0 -> tab s' 0 = Some (OFile devnull true) /\ tab s' 1 = Some (OFile devnull true) /\
        forall i, i <> 0 -> i <> 1 -> tab s' i = tab s i \/ i = 2 /\ tab s 2 = None /\ tab s' 2 = Some (OFile devnull true))
  end).
Proof.
  intros s. unfold coda_daemon_fork, sys. cbn [pbind]. call a s1 K.
  assert (N1 : new_calls s s1 (fun c _ => c = KFork)) by (eapply nc_step; [apply nc_refl | exact K | reflexivity]).
  apply k_plain in K; [|exact I]. destruct K as [T M].
  destruct (rc a <? 0); [apply h_ret; split; [auto|]; split; [auto|discriminate]|].
  destruct (0 <? rc a); [apply h_ret; split; [auto|]; split; [intros i; congruence | exact N1]|].
  call a1 s2 K. apply k_plain in K; [|exact I]. destruct K as [T2 M2].
  destruct (rc a1 <? 0); [apply h_ret; split; [congruence|]; split; [auto|discriminate]|].
  call a2 s3 K. destruct (Z.ltb_spec (rc a2) 0) as [L | L].
  { destruct (w_fail _ _ (OFile devnull true) _ _ K eq_refl L). apply h_ret; split; [congruence|]; split; [auto|discriminate]. }
  pose proof (w_open _ _ (OFile devnull true) _ _ K eq_refl L) as (W1 & W2 & W3 & W4). clear K.
  set (fd := rc a2) in *. set (o := OFile devnull true) in *.
  call a3 s4 K. apply k_dup in K. destruct K as [[L4 [K1 K2]] | (L4 & Er4 & M4 & o4 & Eo4 & T4)].
  { destruct (Z.ltb_spec (rc a3) 0); [|lia]. apply h_ret; split; [congruence|]; split; [auto|discriminate]. }
  destruct (Z.ltb_spec (rc a3) 0); [lia|].
  assert (o4 = o) by (rewrite W3 in Eo4; unfold fput in Eo4; rewrite Z.eqb_refl in Eo4; congruence). subst o4.
  call a4 s5 K. apply k_dup in K. destruct K as [[L5 [K1 K2]] | (L5 & Er5 & M5 & o5 & Eo5 & T5)].
  { destruct (Z.ltb_spec (rc a4) 0); [|lia]. apply h_ret; split; [congruence|]; split; [auto|discriminate]. }
  destruct (Z.ltb_spec (rc a4) 0); [lia|].
  assert (o5 = o).
  { rewrite T4, W3 in Eo5. unfold fput in Eo5. rewrite Z.eqb_refl in Eo5. destruct (fd =? 0); congruence. } subst o5.
  assert (F0 : tab s5 0 = Some o) by (rewrite T5, T4; reflexivity).
  assert (F1 : tab s5 1 = Some o) by (rewrite T5; reflexivity).
  assert (F : forall i, i <> 0 -> i <> 1 -> i <> fd -> tab s5 i = tab s i).
  { intros i H0' H1' Hf. rewrite T5, T4, W3. unfold fput. 
    destruct (Z.eqb_spec i 1); [congruence|]. destruct (Z.eqb_spec i 0); [congruence|]. destruct (Z.eqb_spec i fd); congruence. }
  assert (Ff : fd = 2 -> tab s 2 = None /\ tab s5 2 = Some o).
  { intros E. split; [congruence|]. rewrite T5, T4, W3, E. reflexivity. }
  destruct (Z.ltb_spec 2 fd).
  - call a5 s6 K. apply k_close in K. destruct K as [T6 M6].
    assert (G : tab s6 0 = Some o /\ tab s6 1 = Some o /\ forall i, i <> 0 -> i <> 1 -> tab s6 i = tab s i).
    { split; [|split].
      - rewrite T6. destruct (Z.eqb_spec 0 fd); [lia|auto].
      - rewrite T6. destruct (Z.eqb_spec 1 fd); [lia|auto].
      - intros i H0' H1'. rewrite T6. destruct (Z.eqb_spec i fd); [congruence|auto]. }
    destruct (rc a5 <? 0); apply h_ret; (split; [congruence|]; split; [auto|]; intros X; try discriminate X).
    destruct G as (G0 & G1 & G2). auto.
  - apply h_ret. split; [congruence|]. split; [auto|]. intros _. split; [auto|]. split; [auto|].
    intros i H0' H1'. destruct (Z.eq_dec i fd) as [-> | N]; [|left; auto].
    right. assert (fd = 2) by lia. split; [auto|]. auto.
Qed.

Lemma signal_init_ok : forall l s, holds (signal_init l) s (fun r s' =>
  tab s' = tab s /\ maps s' = maps s /\ (r = 0 \/ r = -1) /\
  (r = 0 -> map fst (hist s') = rev (map KSignal l) ++ map fst (hist s)) /\
  new_calls s s' (fun c _ => exists x, c = KSignal x)).
Proof.
  induction l as [|x l IH]; intros s; cbn [signal_init].
  - apply h_ret. repeat split; auto. apply nc_refl.
  - unfold sys. cbn [pbind]. call a s1 K. 
    assert (N : new_calls s s1 (fun c _ => exists x, c = KSignal x)) by (eapply nc_step; [apply nc_refl | exact K | eauto]).
    pose proof (k_hist _ _ _ _ K) as Hh. apply k_plain in K; [|exact I]. destruct K as [T M].
    destruct (rc a <? 0).
    + apply h_ret. repeat split; auto. discriminate.
    + eapply h_impl; [apply IH|]. cbv beta. intros r s' (H1 & H2 & H3 & H4 & h & Eh & Fh). repeat split; try congruence; auto.
      * intros E. rewrite (H4 E), Hh. cbn [map rev fst]. rewrite <- app_assoc. reflexivity.
      * destruct N as (h0 & E0 & F0). exists (h ++ h0). rewrite Eh, E0, app_assoc. split; [reflexivity|].
        apply Forall_app. auto.
Qed.

(** *** coda_mkpath *)

Lemma cstr_app : forall p t, ~ In 0 p -> cstr (p ++ 0 :: t) = p.
Proof.
  induction p as [|c p IH]; intros t H; [reflexivity|]. cbn [app cstr].
  destruct (Z.eqb_spec c 0); [subst; destruct H; left; auto|]. f_equal. apply IH. intros X. apply H. right. auto.
Qed.

Lemma mkpath_loop_ok : forall rest pre extra fuel s l x s', ~ In 0 pre -> ~ In 0 rest -> (length rest < fuel)%nat ->
  run (mkpath_loop fuel (pre ++ rest ++ 0 :: extra) (length pre)) l s = Some (x, s') ->
  tab s' = tab s /\ maps s' = maps s /\
  map fst (hist s') = rev (map KMkdir (firstn (length l) (parents_from pre rest))) ++ map fst (hist s) /\
  exists r, x = Ok (r, pre ++ rest ++ 0 :: extra) /\
  (r = 0 /\ Forall dir_ok l /\ length l = length (parents_from pre rest) \/
   r = -1 /\ (length l <= length (parents_from pre rest))%nat /\ exists l0 a, l = l0 ++ [a] /\ Forall dir_ok l0 /\ ~ dir_ok a).
Proof.
  induction rest as [|c rest IH]; intros pre extra fuel s l x s' Hp Hr Hf H.
  - destruct fuel as [|fuel]; [simpl in Hf; lia|]. cbn [mkpath_loop app] in H. rewrite rd_app in H by reflexivity.
    cbn [Z.eqb] in H. apply run_ret in H. destruct H as (-> & -> & ->). cbn [parents_from length firstn map rev app].
    repeat split; auto. exists 0. split; [reflexivity|]. left. auto.
  - destruct fuel as [|fuel]; [simpl in Hf; lia|]. cbn [length] in Hf. cbn [mkpath_loop] in H.
    change (pre ++ (c :: rest) ++ 0 :: extra) with (pre ++ c :: (rest ++ 0 :: extra)) in H |- *.
    rewrite rd_app in H by reflexivity.
    assert (Hc : c <> 0) by (intros ->; apply Hr; left; auto).
    assert (Hr' : ~ In 0 rest) by (intros X; apply Hr; right; auto).
    assert (Hp' : ~ In 0 (pre ++ [c])).
    { intros X. apply in_app_or in X. destruct X as [X | [X | []]]; [auto|congruence]. }
    assert (E : pre ++ c :: rest ++ 0 :: extra = (pre ++ [c]) ++ rest ++ 0 :: extra) by (rewrite <- app_assoc; reflexivity).
    assert (L : S (length pre) = length (pre ++ [c])) by (rewrite app_length; simpl; lia).
    destruct (Z.eqb_spec c 0); [congruence|]. cbn [parents_from].
    destruct (Z.eqb_spec c 47) as [-> | N]; cbn [negb] in H.
    + rewrite wr_app in H by reflexivity. unfold sys in H. cbn [pbind] in H.
      apply run_call in H. destruct H as (a & l' & s1 & -> & K & H). rewrite cstr_app in K by auto.
      rewrite wr_app in H by reflexivity. pose proof (k_hist _ _ _ _ K) as Hh. apply k_plain in K; [|exact I].
      destruct K as [T M].
      destruct ((rc a <? 0) && negb (EEXIST =? errno a)) eqn:D.
      * apply run_ret in H. destruct H as (-> & -> & ->). cbn [length firstn map rev app].
        repeat split; auto. { rewrite Hh. reflexivity. } exists (-1). split; [reflexivity|]. right. split; [auto|]. split; [cbn; lia|].
        exists [], a. split; [reflexivity|]. split; [constructor|].
        apply andb_true_iff in D. destruct D as [D1 D2]. apply Z.ltb_lt in D1. apply negb_true_iff in D2. apply Z.eqb_neq in D2.
        intros [X | X]; [lia|congruence].
      * rewrite E, L in H. apply IH in H; auto; [|lia]. destruct H as (H1 & H2 & H3 & r & H4 & H5).
        rewrite <- E in H4. repeat split; try congruence.
        { rewrite H3, Hh. cbn [length firstn map rev fst]. rewrite <- app_assoc. reflexivity. }
        exists r. split; [auto|].
        assert (Da : dir_ok a).
        { unfold dir_ok. destruct (Z.ltb_spec (rc a) 0); [|left; auto]. cbn [andb] in D. apply negb_false_iff in D.
          apply Z.eqb_eq in D. right. auto. }
        destruct H5 as [(-> & F & Ln) | (-> & Ln & l0 & a0 & -> & F & Na)].
        { left. split; [auto|]. split; [constructor; auto|]. cbn [length]. lia. }
        { right. split; [auto|]. split; [cbn [length]; lia|]. exists (a :: l0), a0. split; [reflexivity|]. split; [constructor; auto|auto]. }
    + rewrite E, L in H. apply IH in H; auto; [|lia]. rewrite E. exact H.
Qed.

Lemma mkpath_loop_runs : forall rest pre extra fuel s l, ~ In 0 pre -> ~ In 0 rest -> (length rest < fuel)%nat ->
  Forall dir_ok l -> length l = length (parents_from pre rest) ->
  exists s', run (mkpath_loop fuel (pre ++ rest ++ 0 :: extra) (length pre)) l s = Some (Ok (0, pre ++ rest ++ 0 :: extra), s').
Proof.
  induction rest as [|c rest IH]; intros pre extra fuel s l Hp Hr Hf F Hl.
  - destruct fuel as [|fuel]; [simpl in Hf; lia|]. cbn [mkpath_loop app]. rewrite rd_app by reflexivity.
    destruct l; [|discriminate]. cbn. eauto.
  - destruct fuel as [|fuel]; [simpl in Hf; lia|]. cbn [length] in Hf. cbn [mkpath_loop].
    change (pre ++ (c :: rest) ++ 0 :: extra) with (pre ++ c :: (rest ++ 0 :: extra)).
    rewrite rd_app by reflexivity.
    assert (Hc : c <> 0) by (intros ->; apply Hr; left; auto).
    assert (Hr' : ~ In 0 rest) by (intros X; apply Hr; right; auto).
    assert (Hp' : ~ In 0 (pre ++ [c])).
    { intros X. apply in_app_or in X. destruct X as [X | [X | []]]; [auto|congruence]. }
    assert (E : pre ++ c :: rest ++ 0 :: extra = (pre ++ [c]) ++ rest ++ 0 :: extra) by (rewrite <- app_assoc; reflexivity).
    assert (L : S (length pre) = length (pre ++ [c])) by (rewrite app_length; simpl; lia).
    destruct (Z.eqb_spec c 0); [congruence|]. cbn [parents_from] in Hl.
    destruct (Z.eqb_spec c 47) as [-> | N]; cbn [negb].
    + rewrite wr_app by reflexivity. unfold sys. cbn [pbind].
      destruct l as [|a l]; [discriminate|]. cbn [length] in Hl. inversion F as [|? ? Da Fl]; subst.
      cbn [run]. unfold kernel at 1. cbn [effect]. rewrite wr_app by reflexivity.
      assert (D : (rc a <? 0) && negb (EEXIST =? errno a) = false).
      { destruct Da as [Da | Da]; [destruct (Z.ltb_spec (rc a) 0); [lia|reflexivity]|].
        rewrite Da, Z.eqb_refl, andb_false_r. reflexivity. }
      rewrite D, E, L. apply IH; auto; lia.
    + rewrite E, L. apply IH; auto; lia.
Qed.

Lemma parents_from_In : forall rest pre d, In d (parents_from pre rest) <->
  exists r1 r2, rest = r1 ++ 47 :: r2 /\ d = pre ++ r1.
Proof.
  induction rest as [|c rest IH]; intros pre d; cbn [parents_from].
  - split; [intros [] | intros ([|? ?] & r2 & E & _); discriminate].
  - assert (Q : In d (parents_from (pre ++ [c]) rest) <-> exists r1 r2, c :: rest = c :: r1 ++ 47 :: r2 /\ d = pre ++ c :: r1).
    { rewrite IH. split; intros (r1 & r2 & E & D).
      - exists r1, r2. rewrite <- app_assoc in D. split; [congruence|auto].
      - exists r1, r2. rewrite <- app_assoc. split; [congruence|auto]. }
    destruct (Z.eqb_spec c 47) as [-> | N].
    + cbn [In]. rewrite Q. split.
      * intros [<- | (r1 & r2 & E & D)]; [exists [], rest; rewrite app_nil_r; auto | exists (47 :: r1), r2; auto].
      * intros ([|x r1] & r2 & E & D); [left; rewrite app_nil_r in D; auto|].
        injection E as <- E. right. exists r1, r2. split; [congruence|auto].
    + rewrite Q. split.
      * intros (r1 & r2 & E & D). exists (c :: r1), r2. auto.
      * intros ([|x r1] & r2 & E & D); [injection E as E _; congruence|]. injection E as <- E. exists r1, r2. split; [congruence|auto].
Qed.

Lemma parents_ok : forall path d, In d (parents path) <-> parent path d.
Proof.
  intros [|c t] d; unfold parents, parent.
  - split; [intros [] | intros ([|? ?] & E & N); try discriminate; destruct d; discriminate].
  - rewrite parents_from_In. split.
    + intros (r1 & r2 & -> & ->). exists r2. split; [reflexivity|discriminate].
    + intros (rest & E & N). destruct d as [|x d]; [congruence|]. injection E as <- E. exists d, rest. auto.
Qed.

(** *** the calls of a function that succeeds *)

Lemma did_nil : forall s, did s s [].
Proof. intros s. exists []. repeat split. constructor. Qed.
Lemma did_step : forall s s1 s2 l c a, did s s1 l -> kernel s1 c a = Some s2 -> 0 <= rc a -> did s s2 (l ++ [c]).
Proof.
  intros s s1 s2 l c a (h & E & M & F) K R. apply k_hist in K. exists ((c, rc a) :: h). split; [|split].
  - rewrite K, E. reflexivity.
  - cbn [rev]. rewrite map_app, M. reflexivity.
  - constructor; auto.
Qed.
Lemma did_trans : forall s s1 s2 l l', did s s1 l -> did s1 s2 l' -> did s s2 (l ++ l').
Proof.
  intros s s1 s2 l l' (h & E & M & F) (h' & E' & M' & F'). exists (h' ++ h). split; [|split].
  - rewrite E', E, app_assoc. reflexivity.
  - rewrite rev_app_distr, map_app, M, M'. reflexivity.
  - apply Forall_app. auto.
Qed.

(** one call that must succeed for the function to succeed *)
Ltac step_ok D := let a := fresh "a" in let s := fresh "t" in let K := fresh "K" in
  call a s K; let L := fresh "L" in
  destruct (Z.ltb_spec (rc a) 0) as [L | L];
  [ clear K; repeat (let a' := fresh "a" in let s' := fresh "t" in let K' := fresh "K" in call a' s' K'; clear K');
    apply h_ret; cbn; intros; try lia; try discriminate
  | pose proof (did_step _ _ _ _ _ _ D K L) as D'; clear D K; rename D' into D; cbn [app] in D ].

Lemma listen_did : forall b nb s, holds (coda_listen b nb) s (fun r s' => 0 <= r ->
  did s s' ([KSocket] ++ (if nb =? 0 then [] else [KNonblk r nb]) ++ [KReuse r; KBind r; KListen r b])).
Proof.
  intros b nb s. unfold coda_listen, sys. cbn [pbind]. pose proof (did_nil s) as D.
  step_ok D. destruct (nb =? 0); cbn [pbind].
  - change (0 <? 0) with false. cbv iota. step_ok D. step_ok D. step_ok D. apply h_ret. intros _. exact D.
  - step_ok D. step_ok D. step_ok D. step_ok D. apply h_ret. intros _. exact D.
Qed.
Lemma accept_did : forall fd nb s, holds (coda_accept fd nb) s (fun r s' => 0 <= fst r ->
  did s s' [KAccept fd; KNonblk (fst r) nb]).
Proof.
  intros fd nb s. unfold coda_accept, sys. cbn [pbind]. pose proof (did_nil s) as D.
  step_ok D. step_ok D. apply h_ret. intros _. exact D.
Qed.
(** the last call of coda_connect may still be in progress *)
Lemma connect_did : forall nb s, holds (coda_connect nb) s (fun r s' => 0 <= r -> exists s1 a,
  did s s1 ([KSocket] ++ (if nb =? 0 then [] else [KNonblk r nb])) /\ kernel s1 (KConnect r) a = Some s' /\
  (0 <= rc a \/ errno a = EINPROGRESS)).
Proof.
  intros nb s. unfold coda_connect, sys. cbn [pbind]. pose proof (did_nil s) as D.
  assert (E : forall s1 sd, 0 <= sd -> did s s1 ([KSocket] ++ (if nb =? 0 then [] else [KNonblk sd nb])) ->
    holds (Call (KConnect sd) (fun a => if (rc a <? 0) && negb (EINPROGRESS =? errno a)
       then Call (KClose sd) (fun _ => Ret (-1)) else Ret sd)) s1 (fun r s' => 0 <= r -> exists s1 a,
      did s s1 ([KSocket] ++ (if nb =? 0 then [] else [KNonblk r nb])) /\ kernel s1 (KConnect r) a = Some s' /\
      (0 <= rc a \/ errno a = EINPROGRESS))).
  { intros s1 sd Hsd D1. call a s2 K. destruct ((rc a <? 0) && negb (EINPROGRESS =? errno a)) eqn:B.
    - call a' s3 K'. apply h_ret. lia.
    - apply h_ret. intros _. exists s1, a. split; [exact D1|]. split; [exact K|].
      apply andb_false_iff in B. destruct B as [B | B]; [apply Z.ltb_ge in B; auto|].
      apply negb_false_iff, Z.eqb_eq in B. auto. }
  step_ok D. destruct (nb =? 0); cbn [pbind].
  - change (0 <? 0) with false. cbv iota. apply E; auto.
  - step_ok D. apply E; auto.
Qed.
Lemma mkpidf_did : forall p t s, holds (coda_mkpidf p t) s (fun r s' => r = 0 -> exists fd,
  did s s' [KOpen p true true false; KLock fd; KFstat fd; KWrite fd t; KUnlock fd; KClose fd]).
Proof.
  intros p t s. unfold coda_mkpidf, sys. cbn [pbind]. pose proof (did_nil s) as D.
  step_ok D. step_ok D. step_ok D. destruct (0 <? val a1).
  - call a2 s2 K2. call a3 s3 K3. apply h_ret. lia.
  - step_ok D. step_ok D. step_ok D. apply h_ret. intros _. exists (rc a). exact D.
Qed.
Lemma daemon_fork_did : forall s, holds coda_daemon_fork s (fun r s' => r = Some 0 -> exists fd,
  did s s' ([KFork; KSetsid; KOpen devnull true false false; KDup2 fd 0; KDup2 fd 1] ++ (if 2 <? fd then [KClose fd] else []))).
Proof.
  intros s. unfold coda_daemon_fork, sys. cbn [pbind]. pose proof (did_nil s) as D.
  step_ok D. destruct (0 <? rc a); [apply h_ret; discriminate|].
  step_ok D. step_ok D. step_ok D. step_ok D. destruct (2 <? rc a1) eqn:B.
  - step_ok D. apply h_ret. intros _. exists (rc a1). rewrite B. exact D.
  - apply h_ret. intros _. exists (rc a1). rewrite B. exact D.
Qed.
Lemma signal_init_did : forall l s, holds (signal_init l) s (fun r s' => r = 0 -> did s s' (map KSignal l)).
Proof.
  intros l. induction l as [|x l IH]; intros s; cbn [signal_init].
  - apply h_ret. intros _. apply did_nil.
  - unfold sys. cbn [pbind]. pose proof (did_nil s) as D. step_ok D.
    eapply h_impl; [apply IH|]. cbv beta. intros r s' H E. cbn [map].
    change (KSignal x :: map KSignal l) with ([KSignal x] ++ map KSignal l). eapply did_trans; [exact D | auto].
Qed.
