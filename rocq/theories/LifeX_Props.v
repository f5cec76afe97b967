(** Property C106, for kernels in which a semop may fail (it is interrupted, or the set is
    removed): what state the map is in after any calls, and by how much the lock can be off. *)

From Coq Require Import ZArith List Bool Lia.
From Verif Require Import Base Life_Model Life_Spec Life_Props LifeX_Spec.
Import ListNotations.
Local Open Scope Z_scope.

(** the lock is held [d] times more than at the beginning, up to one for each failed semop *)
Definition near (w0 : world) (l : log) (d : Z) (l' : log) : Prop :=
  Z.abs (w_lock (worldof w0 l') - w_lock (worldof w0 l) - d) <= failed_semops l' - failed_semops l.
Lemma near_refl : forall w0 l, near w0 l 0 l.
Proof. intros w0 l. unfold near. lia. Qed.
Lemma near_lock : forall w0 l d l' id, near w0 l d l' -> near w0 l (d + 1) ((Lock id, 0) :: l').
Proof. unfold near. intros w0 l d l' id H. cbn [worldof after failed_semops]. cbn [Z.leb Z.compare w_lock]. destruct (_ && _); lia. Qed.
Lemma near_unlock : forall w0 l d l' id, near w0 l d l' -> near w0 l (d - 1) ((Unlock id, 0) :: l').
Proof. unfold near. intros w0 l d l' id H. cbn [worldof after failed_semops]. cbn [Z.leb Z.compare w_lock]. destruct (_ && _); lia. Qed.
Lemma near_lock_same : forall w0 l d l' id, near w0 l d l' -> near w0 l d ((Lock id, -1) :: l').
Proof. unfold near. intros w0 l d l' id H. cbn [worldof after failed_semops]. cbn [Z.leb Z.compare w_lock]. destruct (_ && _); lia. Qed.
Lemma near_unlock_same : forall w0 l d l' id, near w0 l d l' -> near w0 l d ((Unlock id, -1) :: l').
Proof. unfold near. intros w0 l d l' id H. cbn [worldof after failed_semops]. cbn [Z.leb Z.compare w_lock]. destruct (_ && _); lia. Qed.
Lemma near_lock_fail : forall w0 l d d' l' id, id <> -1 -> d - 1 <= d' <= d + 1 -> near w0 l d l' -> near w0 l d' ((Lock id, -1) :: l').
Proof.
  unfold near. intros w0 l d d' l' id N D H. cbn [worldof after failed_semops]. cbn [Z.leb Z.compare w_lock].
  rewrite (proj2 (Z.eqb_neq _ _) N). change (negb (-1 =? 0)) with true. cbn [negb andb]. lia.
Qed.
Lemma near_unlock_fail : forall w0 l d d' l' id, id <> -1 -> d - 1 <= d' <= d + 1 -> near w0 l d l' -> near w0 l d' ((Unlock id, -1) :: l').
Proof.
  unfold near. intros w0 l d d' l' id N D H. cbn [worldof after failed_semops]. cbn [Z.leb Z.compare w_lock].
  rewrite (proj2 (Z.eqb_neq _ _) N). change (negb (-1 =? 0)) with true. cbn [negb andb]. lia.
Qed.
Lemma near_call : forall w0 l d l' c a, near w0 l d l' ->
  match c with Lock _ | Unlock _ => False | _ => True end -> near w0 l d ((c, a) :: l').
Proof.
  unfold near. intros w0 l d l' c a H K. destruct c; try contradiction; cbn; try exact H; destruct (_ =? _); exact H.
Qed.
Lemma near_trans : forall w0 l0 l d l', near w0 l0 0 l -> near w0 l d l' -> near w0 l0 d l'.
Proof. unfold near. intros. lia. Qed.

(** connect_sem uses no lock *)
Definition quiet (l l' : log) : Prop := forall w0 l0 d, near w0 l0 d l -> near w0 l0 d l'.
Lemma connect_sem_newX : forall w0 l, wp w0 (m_connect_sem map_new) (fun r l' => exists o b, r = Ok (o, b) /\
    quiet l l' /\ (exists s, 0 <= s /\ o = mkMap s (-1) 0 false \/ b = false /\ o = map_new)) l.
Proof.
  intros w0 l. unfold m_connect_sem. change (m_sem map_new =? -1) with true. norm.
  assert (Q : quiet l l) by (intros ? ? ? ?; assumption).
  assert (C : forall l' c a, quiet l l' -> match c with Lock _ | Unlock _ => False | _ => True end -> quiet l ((c, a) :: l')).
  { intros l' c a H K w1 l0 d N. apply near_call; [apply H; exact N|exact K]. }
  call k Pk. test Hk.
  { eexists _, _. split; [reflexivity|]. split; [repeat apply C; try exact I; exact Q|]. exists 0. auto. }
  call a Pa. test Ha.
  2:{ eexists _, _. split; [reflexivity|]. split; [repeat apply C; try exact I; exact Q|].
      exists a. left. bools. split; [lia|reflexivity]. }
  call b Pb. test Hb.
  { apply Z.eqb_eq in Hb. subst.
    eexists _, _. split; [reflexivity|]. split; [repeat apply C; try exact I; exact Q|]. exists 0. auto. }
  apply Z.eqb_neq in Hb.
  call r1 Pr1. test Hr1.
  { eexists _, _. split; [reflexivity|]. split; [repeat apply C; try exact I; exact Q|]. exists b. left. split; [lia|reflexivity]. }
  call r2 Pr2. test Hr2;
  (eexists _, _; split; [reflexivity|]; split; [repeat apply C; try exact I; exact Q|]; exists b; left; split; [lia|reflexivity]).
Qed.

(** connect_shm after connect_sem *)
Definition shm_out (w0 : world) (l0 : log) (s : Z) (r : res (map * bool)) (l' : log) : Prop :=
  exists o b, r = Ok (o, b) /\ near w0 l0 0 l' /\ m_sem o = s /\ m_ptrs o = false /\
    (m_mem o = 0 \/ 0 < m_mem o) /\ (b = true -> 0 <= m_shm o /\ 0 < m_mem o).
Lemma connect_shm_semX : forall w0 l0 l s, 0 <= s -> near w0 l0 0 l ->
  wp w0 (m_connect_shm (mkMap s (-1) 0 false)) (shm_out w0 l0 s) l.
Proof.
  intros w0 l0 l s Hs H. unfold m_connect_shm. apply wp_bind. apply wp_lock; norm.
  2:{ eexists _, _. split; [reflexivity|]. split; [apply near_lock_same; exact H|]. cbn.
      repeat (split; [auto|]); discriminate. }
  intros Ns. change (m_connected (mkMap s (-1) 0 false)) with false. norm.
  pose proof (near_lock _ _ _ _ s H) as H1. cbn [Z.add] in H1.
  assert (X : forall l1 h, near w0 l0 1 l1 ->
    wp w0 (_ <~ m_unlock (mkMap s h 0 false) ;; Ret (mkMap s h 0 false, false)) (shm_out w0 l0 s) l1).
  { intros l1 h K. apply wp_bind. apply wp_unlock; norm.
    - intros _. eexists _, _. split; [reflexivity|]. split; [apply (near_unlock _ _ 1); exact K|]. cbn.
      repeat (split; [auto|]); discriminate.
    - eexists _, _. split; [reflexivity|]. split; [apply (near_unlock_fail _ _ 1); [lia|lia|exact K]|]. cbn.
      repeat (split; [auto|]); discriminate. }
  call k Pk. test Hk. { apply X. apply near_call; [exact H1|exact I]. }
  call a Pa.
  assert (Y : forall l1 h, -1 <= h -> h <> -1 -> near w0 l0 1 l1 ->
    wp w0 (p <~ sys (Shmat h) ;;
           if p =? -1 then (_ <~ m_unlock (mkMap s h 0 false) ;; Ret (mkMap s h 0 false, false))
           else (u <~ m_unlock (mkMap s h p false) ;; Ret (mkMap s h p false, u)))
      (shm_out w0 l0 s) l1).
  { intros l1 h H' N K. call p Pp. test Hp. { apply X. apply near_call; [exact K|exact I]. }
    apply Z.eqb_neq in Hp.
    apply wp_bind. apply wp_unlock; norm.
    - intros _. eexists _, _. split; [reflexivity|]. split; [apply (near_unlock _ _ 1); apply near_call; [exact K|exact I]|].
      cbn [m_sem m_ptrs m_mem m_shm]. split; [reflexivity|]. split; [reflexivity|]. split; [right; lia|].
      intros _. split; lia.
    - eexists _, _. split; [reflexivity|].
      split; [apply (near_unlock_fail _ _ 1); [lia|lia|apply near_call; [exact K|exact I]]|].
      cbn [m_sem m_ptrs m_mem m_shm]. split; [reflexivity|]. split; [reflexivity|]. split; [right; lia|discriminate]. }
  test Ha.
  - call b Pb.
    destruct (b =? -1) eqn:Hb; norm.
    + apply X. do 3 (apply near_call; [|exact I]). exact H1.
    + apply Y; [exact Pb|apply Z.eqb_neq; exact Hb|]. do 3 (apply near_call; [|exact I]). exact H1.
  - apply Y; [exact Pa|apply Z.eqb_neq; exact Ha|]. do 2 (apply near_call; [|exact I]). exact H1.
Qed.

(** the states *)
Definition any_map (o : map) : Prop := fresh o \/ up o \/ stuck o \/ half o.
Definition call_out (w0 : world) (l : log) (r : res (map * bool)) (l' : log) : Prop :=
  near w0 l 0 l' /\ exists o b, r = Ok (o, b) /\ any_map o.
Lemma connect_newX : forall w0 l, wp w0 (m_connect map_new) (call_out w0 l) l.
Proof.
  intros w0 l. unfold m_connect. apply wp_bind. eapply wp_mono; [|apply connect_sem_newX].
  intros r l1 (o & b & -> & K & s & [(Hs & ->)|(-> & ->)]).
  2:{ norm. change (m_disconnect map_new) with (Ret map_new : prog map). norm.
      split; [apply K, near_refl|]. eexists _, _. split; [reflexivity|]. left. reflexivity. }
  specialize (K w0 l 0 (near_refl _ _)). destruct b; norm.
  2:{ change (m_disconnect (mkMap s (-1) 0 false)) with (Ret (mkMap s (-1) 0 false) : prog map). norm.
      split; [exact K|]. eexists _, _. split; [reflexivity|]. right. right. left. split; cbn; [lia|auto]. }
  apply wp_bind. eapply wp_mono; [|apply (connect_shm_semX w0 l); assumption]. clear K l1.
  intros r l1 (o & b & -> & K & Es & Ep & M & B).
  destruct o as [s' h p ps]. cbn [m_sem m_shm m_mem m_ptrs] in *. subst s' ps.
  destruct b; norm.
  2:{ unfold m_disconnect, m_connected. cbn [m_mem]. destruct (p =? 0) eqn:Hp; norm.
      - apply Z.eqb_eq in Hp. subst. split; [exact K|]. eexists _, _. split; [reflexivity|].
        right. right. left. split; cbn; [lia|auto].
      - intros a Pa. split; [apply near_call; [exact K|exact I]|]. eexists _, _. split; [reflexivity|]. left. reflexivity. }
  destruct (B eq_refl) as (Hh & Hp).
  assert (X : forall l2 ps, near w0 l 1 l2 -> wp w0 (m_handler (mkMap s h p ps)) (call_out w0 l) l2).
  { intros l2 ps K2. unfold m_handler. apply wp_bind. apply wp_unlock; norm.
    - intros _. unfold m_disconnect, m_connected. cbn [m_mem]. destruct (p =? 0) eqn:Q; [apply Z.eqb_eq in Q; lia|]. norm.
      intros a Pa. split; [apply near_call; [|exact I]; apply (near_unlock _ _ 1); exact K2|].
      eexists _, _. split; [reflexivity|]. left. reflexivity.
    - split; [apply (near_unlock_fail _ _ 1); [lia|lia|exact K2]|]. eexists _, _. split; [reflexivity|].
      right. right. right. split; cbn; lia. }
  apply wp_bind. apply wp_lock; norm.
  2:{ apply X. apply (near_lock_fail _ _ 0); [lia|lia|exact K]. }
  intros _. pose proof (near_lock _ _ _ _ s K) as K1. cbn [Z.add] in K1.
  intros a Pa. cbn match. destruct (a <? 0); norm.
  { apply X. apply near_call; [exact K1|exact I]. }
  apply wp_bind. apply wp_unlock; norm.
  - intros _. split; [apply (near_unlock _ _ 1); apply near_call; [exact K1|exact I]|].
    eexists _, _. split; [reflexivity|]. right. left. repeat split; cbn; lia.
  - apply X. apply near_unlock_same. apply near_call; [exact K1|exact I].
Qed.

Lemma any_callX : forall w0 c o l, any_map o -> wp w0 (m_call c o) (fun r l' =>
    call_out w0 l r l' \/ (r = Ub NullDeref /\ (stuck o \/ half o) /\ c = MUse)) l.
Proof.
  intros w0 c o l G.
  assert (D : m_sem o <> -1 /\ 0 < m_mem o \/ fresh o \/ stuck o).
  { destruct G as [F|[U|[S|U]]]; auto; left; [destruct U as (? & ? & ? & ?)|destruct U]; lia. }
  destruct c; cbn [m_call].
  - destruct D as [(D1 & D2)|[->|S]].
    + apply connect_again; auto. intros a. left. split; [apply near_call; [apply near_refl|exact I]|].
      exists map_new, false. split; [reflexivity|]. left. reflexivity.
    + eapply wp_mono; [|apply connect_newX]. auto.
    + rewrite connect_stuck by auto. left. split; [apply near_refl|]. exists o, false. split; [reflexivity|exact G].
  - apply wp_bind. destruct D as [(D1 & D2)|D].
    + apply disconnect_up; auto. intros a. left. split; [apply near_call; [apply near_refl|exact I]|].
      exists map_new, true. split; [reflexivity|]. left. reflexivity.
    + rewrite disconnect_down by (destruct D as [->|S]; [reflexivity|apply S]). left. split; [apply near_refl|].
      exists o, true. split; [reflexivity|exact G].
  - apply wp_bind. unfold m_use. apply wp_bind. apply wp_lock; norm.
    + intros N. destruct (m_ptrs o) eqn:P; norm.
      * apply wp_unlock; norm.
        -- intros _. left. split; [apply (near_unlock _ _ 1), (near_lock _ _ 0), near_refl|].
           eexists _, _. split; [reflexivity|exact G].
        -- left. split; [apply (near_unlock_fail _ _ 1); [exact N|lia|]; apply (near_lock _ _ 0), near_refl|].
           eexists _, _. split; [reflexivity|exact G].
      * right. split; [reflexivity|]. split; [|reflexivity]. destruct G as [->|[U|G]]; [cbn in N; congruence| |exact G].
        destruct U as (_ & _ & _ & U). congruence.
    + left. split; [apply near_lock_same, near_refl|]. eexists _, _. split; [reflexivity|exact G].
Qed.
Lemma any_callsX : forall w0 cs o l0 l, any_map o -> near w0 l0 0 l ->
  wp w0 (m_calls cs o) (fun r l' =>
    (near w0 l0 0 l' /\ exists o' bs, r = Ok (o', bs) /\ any_map o') \/
    (r = Ub NullDeref /\ In MUse cs)) l.
Proof.
  intros w0. induction cs as [|c cs IH]; intros o l0 l G H; cbn [m_calls].
  - left. split; [exact H|]. eauto.
  - apply wp_bind. eapply wp_mono; [|apply any_callX; exact G]. cbn beta.
    intros r l1 [(K & o1 & b & -> & G1)|(-> & _ & ->)]; [|right; split; [reflexivity|left; reflexivity]].
    apply wp_bind. eapply wp_mono; [|apply (IH o1 l0 l1 G1)]; [|eapply near_trans; eauto].
    intros r l2 [(K2 & o2 & bs & -> & G2)|(-> & I2)]; [|right; split; [reflexivity|right; exact I2]].
    left. split; [exact K2|]. eexists _, _. split; [reflexivity|exact G2].
Qed.

(** For every sequence of calls on a new map and all answers of the kernel: the map is new,
    connected, stuck, or half connected, and the lock is off by at most one for each semop
    that failed.  Only a use of a map that is stuck or half connected crashes. *)
Theorem C106_every_history : forall cs w0 ans,
  let r := run (m_calls cs map_new) ans [] in
  sane w0 (snd r) ->
  (fst r = Ub NullDeref /\ In MUse cs) \/
  (Z.abs (w_lock (worldof w0 (snd r)) - w_lock w0) <= failed_semops (snd r) /\
   exists o bs, fst r = Ok (o, bs) /\ (fresh o \/ up o \/ stuck o \/ half o)).
Proof.
  intros cs w0 ans r S.
  pose proof (wp_run _ w0 _ _ ans [] (any_callsX w0 cs map_new [] [] (or_introl eq_refl) (near_refl _ _)) S) as H.
  cbn beta in H. fold r in H. destruct H as [(N & R)|E]; [right|left; exact E].
  split; [|exact R]. unfold near in N. cbn in N. lia.
Qed.
Print Assumptions C106_every_history.

(** A half connected map recovers: the next connect or disconnect makes it new, and makes no
    use of the semaphores. *)
Theorem C106_half_recovers : forall o c w0 ans l, half o -> c = MConnect \/ c = MDisconnect ->
  let r := run (m_call c o) ans l in
  fst r = Ok (map_new, match c with MConnect => false | _ => true end) /\
  w_lock (worldof w0 (snd r)) = w_lock (worldof w0 l) /\ failed_semops (snd r) = failed_semops l.
Proof.
  intros [s h p ps] c w0 ans l (H1 & H2) [->| ->] r; subst r; cbn [m_sem m_mem] in *.
  - assert (E : m_connect (mkMap s h p ps) = Call (Shmdt 0) (fun _ => Ret (map_new, false))).
    { unfold m_connect, m_connect_sem. cbn [m_sem]. destruct (Z.eqb_spec s (-1)); [lia|]. cbn.
      unfold m_disconnect, m_connected. cbn. destruct (Z.eqb_spec p 0); [lia|]. reflexivity. }
    cbn [m_call]. rewrite E. cbn. destruct (_ =? 0); cbn; auto.
  - cbn [m_call]. unfold m_disconnect, m_connected. cbn [m_mem]. destruct (Z.eqb_spec p 0); [lia|]. cbn.
    destruct (_ =? 0); cbn; auto.
Qed.
Print Assumptions C106_half_recovers.

(** the bound is met: the unlock of a use is interrupted *)
Definition xans (l : log) (c : call) : Z :=
  match c with
  | Ftok | Semget _ | Shmget _ => 7
  | Shmat _ => 4096
  | Unlock _ => if existsb (fun e => match fst e with Attach _ => true | _ => false end) l then -1 else 0
  | Shmdt p => if existsb (Z.eqb p) (w_att (worldof (mkW [] [] 0) l)) then 0 else -1
  | _ => 0
  end.
Example C106_half_ex :
  let r := run (m_calls [MConnect] map_new) xans [] in
  sane (mkW [] [] 0) (snd r) /\
  fst r = Ok (mkMap 7 7 4096 true, [false]) /\ half (mkMap 7 7 4096 true) /\
  w_lock (worldof (mkW [] [] 0) (snd r)) = 1 /\ failed_semops (snd r) = 2.
Proof.
  vm_compute. repeat split; try discriminate; auto.
  all: try (left; split; [reflexivity|discriminate]); try (right; reflexivity).
Qed.
