(** Properties C106 and C107: the life of a shared map object and of a shared queue object. *)

From Coq Require Import ZArith List Bool Lia.
From Verif Require Import Base Life_Model Life_Spec.
Import ListNotations.
Local Open Scope Z_scope.

(** *** programs and their logs *)

Fixpoint wp {A} (w0 : world) (p : prog A) (Q : res A -> log -> Prop) (l : log) : Prop :=
  match p with
  | Ret a => Q (Ok a) l
  | Bad u => Q (Ub u) l
  | Call c k => forall a, possible (worldof w0 l) c a -> wp w0 (k a) Q ((c, a) :: l)
  end.
Lemma wp_run : forall A w0 (p : prog A) Q ans l, wp w0 p Q l -> sane w0 (snd (run p ans l)) ->
  Q (fst (run p ans l)) (snd (run p ans l)).
Proof.
  intros A w0 p Q ans. induction p as [a|u|c k IH]; intros l H S; [exact H|exact H|].
  cbn [run] in *. apply IH; [|exact S]. cbn [wp] in H. apply H.
  assert (X : forall A (p : prog A) l, sane w0 (snd (run p ans l)) -> sane w0 l).
  { clear. intros A p. induction p as [a|u|c k IH]; intros l S; [exact S|exact S|].
    cbn [run] in S. apply IH in S. apply S. }
  apply X in S. apply S.
Qed.
Lemma wp_bind : forall A B w0 (p : prog A) (f : A -> prog B) Q l,
  wp w0 p (fun r l => match r with Ok a => wp w0 (f a) Q l | Ub u => Q (Ub u) l | Fuel => Q Fuel l end) l ->
  wp w0 (pbind p f) Q l.
Proof. intros A B w0 p f Q. induction p as [a|u|c k IH]; intros l H; [exact H|exact H|]. cbn. intros a P. apply IH. apply H. exact P. Qed.
Lemma run_bind : forall A B ans (p : prog A) (f : A -> prog B) l,
  run (pbind p f) ans l =
  match run p ans l with (Ok a, l1) => run (f a) ans l1 | (Ub u, l1) => (Ub u, l1) | (Fuel, l1) => (Fuel, l1) end.
Proof. intros A B ans p f. induction p; cbn; auto. Qed.
Lemma wp_mono : forall A w0 (p : prog A) (Q Q' : res A -> log -> Prop) l,
  (forall r l, Q r l -> Q' r l) -> wp w0 p Q l -> wp w0 p Q' l.
Proof. intros A w0 p Q Q' l H. revert l. induction p as [a|u|c k IH]; cbn; intros l W; auto. Qed.

(** *** the map: what each method does, from each state *)

Definition fresh (o : map) : Prop := o = map_new.
Definition up (o : map) : Prop := 0 <= m_sem o /\ 0 <= m_shm o /\ 0 < m_mem o /\ m_ptrs o = true.
Definition stuck (o : map) : Prop := m_sem o <> -1 /\ m_mem o = 0 /\ m_ptrs o = false.
(** an exception out of the handler of connect leaves a half connected map; it takes a failed
    unlock *)
Definition half (o : map) : Prop := 0 <= m_sem o /\ 0 < m_mem o.

(** no call so far has changed the world or used the semaphores *)
Definition idle (w0 : world) (l l' : log) : Prop :=
  worldof w0 l' = worldof w0 l /\ (locks_work l' <-> locks_work l).
Lemma idle_refl : forall w0 l, idle w0 l l.
Proof. split; [reflexivity|tauto]. Qed.
Lemma idle_call : forall w0 l l' c a, idle w0 l l' ->
  match c with Ftok | Semget _ | Shmget _ | Setval _ _ | Attach _ | Header _ => True | _ => False end ->
  idle w0 l ((c, a) :: l').
Proof. intros w0 l l' c a (H1 & H2) H. destruct c; try contradiction; split; cbn; assumption. Qed.

Ltac norm := cbn [pbind sys wp m_connected m_detach m_sem m_shm m_mem m_ptrs negb fst snd
  q_ptr q_info q_boxes q_sem q_shm q_bs q_mb].
Ltac call a P := norm; intros a P; cbn [possible] in P.
Ltac test H := match goal with
  | |- wp _ (if negb ?b then _ else _) _ _ => destruct b eqn:H
  | |- wp _ (pbind (if negb ?b then _ else _) _) _ _ => destruct b eqn:H
  | |- wp _ (if ?b then _ else _) _ _ => destruct b eqn:H
  | |- wp _ (pbind (if ?b then _ else _) _) _ _ => destruct b eqn:H
  end; norm.
Ltac bools := repeat match goal with
  | H : (_ =? _) = true |- _ => apply Z.eqb_eq in H
  | H : (_ =? _) = false |- _ => apply Z.eqb_neq in H
  | H : (_ <=? _) = true |- _ => apply Z.leb_le in H
  | H : (_ <=? _) = false |- _ => apply Z.leb_gt in H
  | H : (_ <? _) = true |- _ => apply Z.ltb_lt in H
  | H : (_ <? _) = false |- _ => apply Z.ltb_ge in H
  | H : negb _ = true |- _ => apply negb_true_iff in H
  | H : negb _ = false |- _ => apply negb_false_iff in H
  end.

(** connect_sem *)
Lemma connect_sem_new : forall w0 l, wp w0 (m_connect_sem map_new) (fun r l' => exists o b, r = Ok (o, b) /\
    idle w0 l l' /\ (exists s, 0 <= s /\ o = mkMap s (-1) 0 false \/ b = false /\ o = map_new)) l.
Proof.
  intros w0 l. unfold m_connect_sem. change (m_sem map_new =? -1) with true. norm.
  call k Pk. test Hk.
  { eexists _, _. split; [reflexivity|]. split; [repeat apply idle_call; try exact I; apply idle_refl|]. exists 0. auto. }
  call a Pa. test Ha.
  2:{ eexists _, _. split; [reflexivity|]. split; [repeat apply idle_call; try exact I; apply idle_refl|].
      exists a. left. bools. split; [lia|reflexivity]. }
  call b Pb. test Hb.
  { apply Z.eqb_eq in Hb. subst.
    eexists _, _. split; [reflexivity|]. split; [repeat apply idle_call; try exact I; apply idle_refl|]. exists 0. auto. }
  apply Z.eqb_neq in Hb.
  call r1 Pr1. test Hr1.
  { eexists _, _. split; [reflexivity|]. split; [repeat apply idle_call; try exact I; apply idle_refl|]. exists b. left. split; [lia|reflexivity]. }
  call r2 Pr2. test Hr2;
  (eexists _, _; split; [reflexivity|]; split; [repeat apply idle_call; try exact I; apply idle_refl|]; exists b; left; split; [lia|reflexivity]).
Qed.

(** locks *)
Lemma wp_lock : forall w0 o (Q : res bool -> log -> Prop) l, (m_sem o <> -1 -> Q (Ok true) ((Lock (m_sem o), 0) :: l)) ->
  Q (Ok false) ((Lock (m_sem o), -1) :: l) -> wp w0 (m_lock o) Q l.
Proof. intros w0 o Q l H1 H2. unfold m_lock. call a P. destruct P as [(-> & N)| ->]; cbn; auto. Qed.
Lemma wp_unlock : forall w0 o (Q : res bool -> log -> Prop) l, (m_sem o <> -1 -> Q (Ok true) ((Unlock (m_sem o), 0) :: l)) ->
  Q (Ok false) ((Unlock (m_sem o), -1) :: l) -> wp w0 (m_unlock o) Q l.
Proof. intros w0 o Q l H1 H2. unfold m_unlock. call a P. destruct P as [(-> & N)| ->]; cbn; auto. Qed.

(** the lock is held [d] times more than at the beginning, provided all semops succeeded *)
Definition holding (w0 : world) (l : log) (d : Z) (l' : log) : Prop :=
  (locks_work l' -> locks_work l) /\
  (locks_work l' -> w_lock (worldof w0 l') = w_lock (worldof w0 l) + d).
Lemma holding_idle : forall w0 l l', idle w0 l l' -> holding w0 l 0 l'.
Proof. intros w0 l l' (H1 & H2). split; [apply H2|]. intros _. rewrite H1. lia. Qed.
Lemma holding_lock : forall w0 l d l' id, holding w0 l d l' -> holding w0 l (d + 1) ((Lock id, 0) :: l').
Proof. intros w0 l d l' id (H1 & H2). split; cbn; intros (_ & K); [auto|]. rewrite H2 by auto. lia. Qed.
Lemma holding_unlock : forall w0 l d l' id, holding w0 l d l' -> holding w0 l (d - 1) ((Unlock id, 0) :: l').
Proof. intros w0 l d l' id (H1 & H2). split; cbn; intros (_ & K); [auto|]. rewrite H2 by auto. lia. Qed.
Lemma holding_lock_fail : forall w0 l d l' id, id <> -1 -> holding w0 l d ((Lock id, -1) :: l').
Proof. intros w0 l d l' id N. split; cbn; intros (K & _); specialize (K N); discriminate. Qed.
Lemma holding_unlock_fail : forall w0 l d l' id, id <> -1 -> holding w0 l d ((Unlock id, -1) :: l').
Proof. intros w0 l d l' id N. split; cbn; intros (K & _); specialize (K N); discriminate. Qed.
Lemma holding_call : forall w0 l d l' c a, holding w0 l d l' ->
  match c with Lock _ | Unlock _ => False | _ => True end -> holding w0 l d ((c, a) :: l').
Proof.
  intros w0 l d l' c a (H1 & H2) H.
  assert (K : locks_work ((c, a) :: l') <-> locks_work l') by (destruct c; try contradiction; cbn; tauto).
  split; intros X; apply K in X; [auto|]. rewrite <- H2 by auto.
  destruct c; try contradiction; cbn; try reflexivity; destruct (_ =? _); reflexivity.
Qed.

(** connect_shm after connect_sem *)
Lemma connect_shm_sem : forall w0 l0 l s, 0 <= s -> holding w0 l0 0 l ->
  wp w0 (m_connect_shm (mkMap s (-1) 0 false)) (fun r l' => exists o b, r = Ok (o, b) /\
    holding w0 l0 0 l' /\ m_sem o = s /\ m_ptrs o = false /\ (b = false -> locks_work l' -> m_mem o = 0) /\
    (m_mem o = 0 \/ 0 < m_mem o) /\
    (b = true -> 0 <= m_shm o /\ 0 < m_mem o /\ In (m_mem o) (w_att (worldof w0 l')))) l.
Proof.
  intros w0 l0 l s Hs H. unfold m_connect_shm. apply wp_bind. apply wp_lock; norm.
  2:{ eexists _, _. split; [reflexivity|]. split; [apply holding_lock_fail; lia|]. cbn.
      repeat (split; [auto|]); discriminate. }
  intros Ns. change (m_connected (mkMap s (-1) 0 false)) with false. norm.
  pose proof (holding_lock _ _ _ _ s H) as H1. cbn [Z.add] in H1.
  assert (X : forall l1 h, holding w0 l0 1 l1 ->
    wp w0 (_ <~ m_unlock (mkMap s h 0 false) ;; Ret (mkMap s h 0 false, false)) (fun r l' => exists o b, r = Ok (o, b) /\
    holding w0 l0 0 l' /\ m_sem o = s /\ m_ptrs o = false /\ (b = false -> locks_work l' -> m_mem o = 0) /\
    (m_mem o = 0 \/ 0 < m_mem o) /\
    (b = true -> 0 <= m_shm o /\ 0 < m_mem o /\ In (m_mem o) (w_att (worldof w0 l')))) l1).
  { intros l1 h K. apply wp_bind. apply wp_unlock; norm.
    - intros _. eexists _, _. split; [reflexivity|]. split; [apply (holding_unlock _ _ 1); exact K|]. cbn.
      repeat (split; [auto|]); discriminate.
    - eexists _, _. split; [reflexivity|]. split; [apply holding_unlock_fail; lia|]. cbn.
      repeat (split; [auto|]); discriminate. }
  call k Pk. test Hk. { apply X. apply holding_call; [exact H1|exact I]. }
  call a Pa.
  assert (Y : forall l1 h, -1 <= h -> h <> -1 -> holding w0 l0 1 l1 ->
    wp w0 (p <~ sys (Shmat h) ;;
           if p =? -1 then (_ <~ m_unlock (mkMap s h 0 false) ;; Ret (mkMap s h 0 false, false))
           else (u <~ m_unlock (mkMap s h p false) ;; Ret (mkMap s h p false, u)))
      (fun r l' => exists o b, r = Ok (o, b) /\
    holding w0 l0 0 l' /\ m_sem o = s /\ m_ptrs o = false /\ (b = false -> locks_work l' -> m_mem o = 0) /\
    (m_mem o = 0 \/ 0 < m_mem o) /\
    (b = true -> 0 <= m_shm o /\ 0 < m_mem o /\ In (m_mem o) (w_att (worldof w0 l')))) l1).
  { intros l1 h H' N K. call p Pp. test Hp. { apply X. apply holding_call; [exact K|exact I]. }
    apply Z.eqb_neq in Hp.
    apply wp_bind. apply wp_unlock; norm.
    - intros _. eexists _, _. split; [reflexivity|]. split; [apply (holding_unlock _ _ 1); apply holding_call; [exact K|exact I]|].
      cbn [m_sem m_ptrs m_mem m_shm]. split; [reflexivity|]. split; [reflexivity|]. split; [discriminate|]. split; [right; lia|].
      intros _. split; [lia|]. split; [lia|]. cbn. rewrite (proj2 (Z.eqb_neq p (-1))) by auto. left. reflexivity.
    - eexists _, _. split; [reflexivity|]. split; [apply holding_unlock_fail; lia|].
      cbn [m_sem m_ptrs m_mem m_shm]. split; [auto|]. split; [auto|].
      split; [|split; [right; lia|discriminate]]. cbn. intros _ (Q & _). specialize (Q Ns). discriminate. }
  test Ha.
  - call b Pb.
    destruct (b =? -1) eqn:Hb; norm.
    + apply X. do 3 (apply holding_call; [|exact I]). exact H1.
    + apply Y; [exact Pb|apply Z.eqb_neq; exact Hb|]. do 3 (apply holding_call; [|exact I]). exact H1.
  - apply Y; [exact Pa|apply Z.eqb_neq; exact Ha|]. do 2 (apply holding_call; [|exact I]). exact H1.
Qed.

(** connect of a new map *)
Lemma connect_new : forall w0 l, wp w0 (m_connect map_new) (fun r l' => exists o b, r = Ok (o, b) /\
    holding w0 l 0 l' /\
    (b = true -> up o /\ In (m_mem o) (w_att (worldof w0 l'))) /\
    (b = false -> fresh o \/ stuck o \/ half o) /\
    (b = false -> locks_work l' -> fresh o \/ stuck o)) l.
Proof.
  intros w0 l. unfold m_connect. apply wp_bind. eapply wp_mono; [|apply connect_sem_new].
  intros r l1 (o & b & -> & K & s & [(Hs & ->)|(-> & ->)]).
  2:{ norm. change (m_disconnect map_new) with (Ret map_new : prog map). norm.
      eexists _, _. split; [reflexivity|]. split; [apply holding_idle; exact K|].
      split; [discriminate|]. unfold fresh. auto. }
  apply holding_idle in K. destruct b; norm.
  2:{ change (m_disconnect (mkMap s (-1) 0 false)) with (Ret (mkMap s (-1) 0 false) : prog map). norm.
      eexists _, _. split; [reflexivity|]. split; [exact K|].
      assert (stuck (mkMap s (-1) 0 false)) by (split; cbn; [lia|auto]).
      split; [discriminate|]. auto. }
  apply wp_bind. eapply wp_mono; [|apply (connect_shm_sem w0 l); assumption]. clear K l1.
  intros r l1 (o & b & -> & K & Es & Ep & A & M & B).
  destruct o as [s' h p ps]. cbn [m_sem m_shm m_mem m_ptrs] in *. subst s' ps.
  destruct b; norm.
  2:{ unfold m_disconnect, m_connected. cbn [m_mem]. destruct (p =? 0) eqn:Hp; norm.
      - apply Z.eqb_eq in Hp. subst. eexists _, _. split; [reflexivity|]. split; [exact K|].
        assert (stuck (mkMap s h 0 false)) by (split; cbn; [lia|auto]). split; [discriminate|]. auto.
      - intros a Pa. eexists _, _. split; [reflexivity|]. split; [apply holding_call; [exact K|exact I]|].
        split; [discriminate|]. split; intros; left; reflexivity. }
  destruct (B eq_refl) as (Hh & Hp & Hin).
  assert (X : forall l2 d ps, d = 1 \/ d = 0 -> holding w0 l d l2 -> (d = 0 -> ~ locks_work l2) ->
    wp w0 (m_handler (mkMap s h p ps)) (fun r l' => exists o b, r = Ok (o, b) /\
      holding w0 l 0 l' /\
      (b = true -> up o /\ In (m_mem o) (w_att (worldof w0 l'))) /\
      (b = false -> fresh o \/ stuck o \/ half o) /\
      (b = false -> locks_work l' -> fresh o \/ stuck o)) l2).
  { intros l2 d ps Hd K2 N. unfold m_handler. apply wp_bind. apply wp_unlock; norm.
    - intros _. unfold m_disconnect, m_connected. cbn [m_mem]. destruct (p =? 0) eqn:Q; [apply Z.eqb_eq in Q; lia|]. norm.
      intros a Pa. eexists _, _. split; [reflexivity|].
      split.
      { apply holding_call; [|exact I]. destruct Hd as [-> | ->]; [apply (holding_unlock _ _ 1); exact K2|].
        split; cbn; intros (_ & Y); exfalso; apply (N eq_refl Y). }
      split; [discriminate|]. split; intros; left; reflexivity.
    - eexists _, _. split; [reflexivity|]. split; [apply holding_unlock_fail; lia|].
      split; [discriminate|]. split.
      + intros _. right. right. split; cbn; lia.
      + intros _ Y. cbn in Y. destruct Y as (Y & _). specialize (Y ltac:(lia)). discriminate. }
  apply wp_bind. apply wp_lock; norm.
  2:{ apply (X _ 0); [auto|apply holding_lock_fail; lia|]. intros _ Y. cbn in Y. destruct Y as (Y & _). specialize (Y ltac:(lia)). discriminate. }
  intros _. pose proof (holding_lock _ _ _ _ s K) as K1. cbn [Z.add] in K1.
  intros a Pa. cbn match. destruct (a <? 0); norm.
  { apply (X _ 1); [auto|apply holding_call; [exact K1|exact I]|discriminate]. }
  apply wp_bind. apply wp_unlock; norm.
  - intros _. eexists _, _. split; [reflexivity|]. split; [apply (holding_unlock _ _ 1); apply holding_call; [exact K1|exact I]|].
    split; [|split; [discriminate|discriminate]]. intros _. split; [repeat split; cbn; lia|]. cbn. exact Hin.
  - apply (X _ 0); [auto|apply holding_unlock_fail; lia|]. intros _ Y. cbn in Y. destruct Y as (Y & _). specialize (Y ltac:(lia)). discriminate.
Qed.
Lemma holding_trans : forall w0 l0 l d l', holding w0 l0 0 l -> holding w0 l d l' -> holding w0 l0 d l'.
Proof. intros w0 l0 l d l' (H1 & H2) (H3 & H4). split; intros K; [auto|]. rewrite H4, H2 by auto. lia. Qed.

Lemma disconnect_up : forall w0 (Q : res map -> log -> Prop) o l, 0 < m_mem o -> (forall a, Q (Ok map_new) ((Shmdt 0, a) :: l)) ->
  wp w0 (m_disconnect o) Q l.
Proof.
  intros w0 Q [s h p ps] l H K. unfold m_disconnect, m_connected. cbn [m_mem] in *.
  destruct (Z.eqb_spec p 0); [lia|]. norm. intros a _. apply K.
Qed.
Lemma disconnect_down : forall o, m_mem o = 0 -> m_disconnect o = Ret o.
Proof. intros o H. unfold m_disconnect, m_connected. rewrite H. reflexivity. Qed.
Lemma connect_again : forall w0 (Q : res (map * bool) -> log -> Prop) o l, m_sem o <> -1 -> 0 < m_mem o ->
  (forall a, Q (Ok (map_new, false)) ((Shmdt 0, a) :: l)) -> wp w0 (m_connect o) Q l.
Proof.
  intros w0 Q o l H1 H2 K. unfold m_connect, m_connect_sem. destruct (Z.eqb_spec (m_sem o) (-1)); [congruence|]. norm.
  apply wp_bind. apply disconnect_up; auto. 
Qed.
Lemma connect_stuck : forall o, stuck o -> m_connect o = Ret (o, false).
Proof.
  intros o (H1 & H2 & H3). unfold m_connect, m_connect_sem. destruct (Z.eqb_spec (m_sem o) (-1)); [congruence|]. norm.
  rewrite disconnect_down by auto. reflexivity.
Qed.

(** the outcome of any call, as long as the semaphores work *)
Definition good_map (o : map) : Prop := fresh o \/ up o \/ stuck o.
Lemma any_call : forall w0 c o l, good_map o -> wp w0 (m_call c o) (fun r l' =>
    holding w0 l 0 l' /\ (locks_work l' -> exists o' b, r = Ok (o', b) /\ good_map o') \/
    (r = Ub NullDeref /\ stuck o /\ c = MUse)) l.
Proof.
  intros w0 c o l G. destruct c; cbn [m_call].
  - destruct G as [->|[(U1 & U2 & U3 & U4)|S]].
    + eapply wp_mono; [|apply connect_new]. intros r l' (o' & b & -> & K & B1 & B2 & B3). left. split; [exact K|].
      intros W. exists o', b. split; [reflexivity|]. destruct b; [right; left; apply B1; reflexivity|].
      destruct (B3 eq_refl W); [left|right; right]; assumption.
    + apply connect_again; [lia|auto|]. intros a. left. split; [apply holding_call; [apply holding_idle, idle_refl|exact I]|].
      intros _. exists map_new, false. split; [reflexivity|]. left. reflexivity.
    + rewrite connect_stuck by auto. left. split; [apply holding_idle, idle_refl|]. intros _. exists o, false.
      split; [reflexivity|]. right. right. exact S.
  - apply wp_bind. destruct G as [->|[(U1 & U2 & U3 & U4)|S]].
    + rewrite disconnect_down by reflexivity. cbn. left. split; [apply holding_idle, idle_refl|]. intros _.
      exists map_new, true. split; [reflexivity|]. left. reflexivity.
    + apply disconnect_up; auto. intros a. cbn [wp]. left. split; [apply holding_call; [apply holding_idle, idle_refl|exact I]|].
      intros _. exists map_new, true. split; [reflexivity|]. left. reflexivity.
    + rewrite disconnect_down by apply S. cbn. left. split; [apply holding_idle, idle_refl|]. intros _.
      exists o, true. split; [reflexivity|]. right. right. exact S.
  - apply wp_bind. unfold m_use. apply wp_bind. apply wp_lock; norm.
    + intros N. destruct (m_ptrs o) eqn:P; norm.
      * apply wp_unlock; norm.
        -- intros _. left. split; [apply (holding_unlock _ _ 1), (holding_lock _ _ 0), holding_idle, idle_refl|].
           intros _. eexists _, _. split; [reflexivity|]. exact G.
        -- left. split; [apply holding_unlock_fail; auto|]. intros (Y & _). specialize (Y N). discriminate.
      * right. split; [reflexivity|]. split; [|reflexivity]. destruct G as [->|[U|S]]; [cbn in N; congruence| |exact S].
        destruct U as (_ & _ & _ & U). congruence.
    + left. split.
      * destruct (Z.eq_dec (m_sem o) (-1)) as [E|E]; [|apply holding_lock_fail; auto].
        split; cbn; intros (_ & Y); [exact Y|]. lia.
      * intros _. eexists _, _. split; [reflexivity|]. exact G.
Qed.

Lemma locks_dec : forall l, locks_work l \/ ~ locks_work l.
Proof.
  induction l as [|[c a] l IH]; [left; exact I|].
  assert (D : forall id, {id <> -1 -> a = 0} + {~ (id <> -1 -> a = 0)}).
  { intros id. destruct (Z.eq_dec id (-1)); [left; congruence|]. destruct (Z.eq_dec a 0); [left; auto|right; intros Y; auto]. }
  destruct c; cbn; auto; destruct (D id); tauto.
Qed.
Lemma any_calls : forall w0 cs o l0 l, good_map o -> holding w0 l0 0 l ->
  wp w0 (m_calls cs o) (fun r l' =>
    (holding w0 l0 0 l' /\ (locks_work l' -> exists o' bs, r = Ok (o', bs) /\ good_map o')) \/ r = Ub NullDeref \/ ~ locks_work l') l.
Proof.
  intros w0. induction cs as [|c cs IH]; intros o l0 l G H; cbn [m_calls].
  - left. split; [exact H|]. intros _. eauto.
  - apply wp_bind. eapply wp_mono; [|apply any_call; exact G]. cbn beta.
    intros r l1 [(K & R)|(-> & _)]; [|right; left; reflexivity].
    destruct r as [[o1 b]|u|].
    2:{ right. right. intros W. destruct (R W) as (? & ? & E & _). discriminate. }
    2:{ right. right. intros W. destruct (R W) as (? & ? & E & _). discriminate. }
    apply wp_bind.
    destruct (locks_dec l1) as [W|NW].
    + destruct (R W) as (o2 & b2 & E & G2). injection E as <- <-.
      eapply wp_mono; [|apply (IH o1 l0 l1 G2)]; [|eapply holding_trans; eauto].
      intros r l2 [(K2 & R2)|[->|N]]; [|right; left; reflexivity|].
      * destruct r as [[o2 bs]|u|]; cbn [wp].
        -- left. split; [exact K2|]. intros W2. destruct (R2 W2) as (o3 & bs3 & E & G3). injection E as <- <-. eauto.
        -- right. right. intros W2. destruct (R2 W2) as (? & ? & E & _). discriminate.
        -- right. right. intros W2. destruct (R2 W2) as (? & ? & E & _). discriminate.
      * destruct r as [[o2 bs]|u|]; cbn [wp]; right; right; exact N.
    + (* a semop failed already: the log keeps it *)
      assert (Z0 : forall A (p : prog A) l, ~ locks_work l -> wp w0 p (fun _ l' => ~ locks_work l') l).
      { clear. intros A p. induction p as [a|u|c k IH]; cbn; intros l N; auto. intros a _. apply IH.
        destruct c; cbn; tauto. }
      eapply wp_mono; [|apply Z0; exact NW]. intros r l2 N. destruct r as [[o2 bs]|u|]; cbn [wp]; right; right; exact N.
Qed.

(** For every sequence of calls on a new map, whatever the kernel answers except that the
    semaphores work: the lock is free after the calls, and the map is new, connected, or
    stuck (see below).  Only a use in the stuck state crashes. *)
Theorem C106_every_history_partial : forall cs w0 ans,
  let r := run (m_calls cs map_new) ans [] in
  sane w0 (snd r) -> locks_work (snd r) ->
  fst r = Ub NullDeref \/
  (w_lock (worldof w0 (snd r)) = w_lock w0 /\
   exists o bs, fst r = Ok (o, bs) /\ (fresh o \/ up o \/ stuck o)).
Proof.
  intros cs w0 ans r S W.
  pose proof (wp_run _ w0 _ _ ans [] (any_calls w0 cs map_new [] [] (or_introl eq_refl) (holding_idle _ _ _ (idle_refl _ _))) S) as H.
  cbn beta in H. fold r in H. destruct H as [((_ & K) & R)|[E|N]]; [right|left; exact E|contradiction].
  split; [rewrite K by exact W; cbn; lia|]. apply R. exact W.
Qed.
Print Assumptions C106_every_history_partial.

(** connect of a new map: if it returns, the map is connected to an attached segment and the
    lock is free; if it throws, the lock is free again unless a semop failed *)
Theorem C106_connect : forall w0 ans l,
  let r := run (m_connect map_new) ans l in
  sane w0 (snd r) ->
  exists o b, fst r = Ok (o, b) /\
    (b = true -> up o /\ m_connected o = true /\ In (m_mem o) (w_att (worldof w0 (snd r)))) /\
    (locks_work (snd r) -> w_lock (worldof w0 (snd r)) = w_lock (worldof w0 l)).
Proof.
  intros w0 ans l r S. pose proof (wp_run _ w0 _ _ ans l (connect_new w0 l) S) as H. cbn beta in H. fold r in H.
  destruct H as (o & b & E & (_ & K) & B & _). exists o, b. split; [exact E|]. split.
  - intros T. destruct (B T) as (U & I). split; [exact U|]. split; [|exact I].
    unfold m_connected. destruct (Z.eqb_spec (m_mem o) 0); [destruct U as (_ & _ & U & _); lia|reflexivity].
  - intros W. rewrite K by exact W. lia.
Qed.
Print Assumptions C106_connect.

(** after disconnect a connected map is as new: it can be connected again *)
Theorem C106_disconnect_is_new : forall o ans l, up o -> fst (run (m_disconnect o) ans l) = Ok map_new.
Proof.
  intros [s h p ps] ans l (_ & _ & U & _). cbn [m_mem] in U. unfold m_disconnect, m_connected. cbn [m_mem].
  destruct (Z.eqb_spec p 0); [lia|]. reflexivity.
Qed.
Print Assumptions C106_disconnect_is_new.

(** the methods of a map that was not connected, or was disconnected, throw *)
Theorem C106_unconnected_use_throws : forall w0 ans l,
  let r := run (m_use map_new) ans l in
  sane w0 (snd r) -> fst r = Ok false /\ worldof w0 (snd r) = worldof w0 l.
Proof.
  intros w0 ans l r S. unfold r, m_use, m_lock in *. cbn [m_sem map_new sys pbind run] in *.
  assert (A : ans l (Lock (-1)) = -1).
  { revert S. destruct (0 <=? ans l (Lock (-1))) eqn:E; cbn; intros S.
    - destruct S as ([(_ & N)|N] & _); congruence.
    - destruct S as ([(_ & N)|N] & _); congruence. }
  rewrite A. cbn. auto.
Qed.
Print Assumptions C106_unconnected_use_throws.

(** *** what goes wrong *)

(** every segment that was ever attached stays attached: disconnect and the destructor pass
    the null pointer to shmdt *)
Definition keeps (w0 : world) (l : log) : Prop :=
  w_att (worldof w0 l) = ever l ++ w_att w0 /\ Forall (fun p => 0 < p) (w_att (worldof w0 l)).
Fixpoint dt0 {A} (p : prog A) : Prop :=
  match p with
  | Call c k => match c with Shmdt q => q = 0 | _ => True end /\ forall a, dt0 (k a)
  | _ => True
  end.
Lemma dt0_bind : forall A B (p : prog A) (f : A -> prog B), dt0 p -> (forall a, dt0 (f a)) -> dt0 (pbind p f).
Proof. intros A B p f. induction p as [a|u|c k IH]; cbn; intros H F; auto. destruct H. split; auto. Qed.
Lemma dt0_keeps : forall A w0 (p : prog A) l, dt0 p -> keeps w0 l -> wp w0 p (fun _ l' => keeps w0 l') l.
Proof.
  intros A w0 p. induction p as [a|u|c k IH]; cbn [wp]; intros l D K; auto. cbn in D. destruct D as (D & D').
  intros a P. apply IH; [apply D'|]. destruct K as (K1 & K2).
  assert (X : forall w', w_att w' = w_att (worldof w0 l) -> after (worldof w0 l) c a = w' -> ever ((c, a) :: l) = ever l ->
              keeps w0 ((c, a) :: l)).
  { intros w' H1 H2 H3. unfold keeps. cbn [worldof]. rewrite H2, H1, H3. auto. }
  destruct c; try (eapply X; [reflexivity|reflexivity|reflexivity]).
  - unfold keeps. cbn. destruct (0 <=? a); cbn; auto.
  - unfold keeps. cbn. destruct (0 <=? a); cbn; auto.
  - cbn in P. unfold keeps. cbn. destruct (Z.eqb_spec a (-1)); [auto|]. cbn. split; [congruence|].
    constructor; [lia|exact K2].
  - subst. cbn in P. unfold keeps. cbn. destruct (Z.eqb_spec a 0) as [->|]; [|auto].
    destruct P as [(_ & P)|(P & _)]; [|discriminate]. rewrite Forall_forall in K2. specialize (K2 _ P). lia.
  - unfold keeps. cbn. destruct (a =? 0); cbn; auto.
  - unfold keeps. cbn. auto.
Qed.
Lemma dt0_disconnect : forall o, dt0 (m_disconnect o).
Proof. intros o. unfold m_disconnect. destruct (negb (m_connected o)); cbn; auto. Qed.
Ltac dt := repeat match goal with
  | |- dt0 (pbind _ _) => apply dt0_bind; [|intros]
  | |- dt0 (if ?b then _ else _) => destruct b
  | |- dt0 (m_disconnect _) => apply dt0_disconnect
  | |- dt0 (let '(_, _) := ?x in _) => destruct x
  | |- dt0 (Ret _) => exact I
  | |- dt0 (Bad _) => exact I
  | |- dt0 (sys _) => split; [exact I|intros; exact I]
  end.
Lemma dt0_call : forall c o, dt0 (m_call c o).
Proof.
  intros c o. destruct c; cbn [m_call].
  - unfold m_connect, m_connect_sem, m_connect_shm, m_handler, m_lock, m_unlock. dt.
  - dt.
  - unfold m_use, m_lock, m_unlock. dt.
Qed.
Lemma dt0_calls : forall cs o, dt0 (m_calls cs o).
Proof. induction cs as [|c cs IH]; intros o; cbn [m_calls]; dt; [apply dt0_call|apply IH]. Qed.

Theorem C106_segments_stay_attached : forall cs w0 ans,
  Forall (fun p => 0 < p) (w_att w0) ->
  let r := run ('(o, bs) <~ m_calls cs map_new ;; m_destroy o) ans [] in
  sane w0 (snd r) -> w_att (worldof w0 (snd r)) = ever (snd r) ++ w_att w0.
Proof.
  intros cs w0 ans F r S.
  assert (D : dt0 ('(o, bs) <~ m_calls cs map_new ;; m_destroy o)).
  { dt; [apply dt0_calls|apply dt0_disconnect]. }
  exact (proj1 (wp_run _ w0 _ _ ans [] (dt0_keeps _ w0 _ [] D (conj eq_refl F)) S)).
Qed.
Print Assumptions C106_segments_stay_attached.

(** a kernel that grants everything *)
Definition kind (l : log) (c : call) : Z :=
  match c with
  | Ftok | Semget _ | Shmget _ => 7
  | Shmat _ => 4096 + Z.of_nat (length l)
  | Lock id | Unlock id => if id =? -1 then -1 else 0
  | Shmdt p => if p =? 0 then -1 else 0
  | New _ => 8192 + Z.of_nat (length l)
  | _ => 0
  end.
Definition w_empty : world := mkW [] [] 0.
Ltac sanity := cbn; repeat split; (lia || (left; split; [reflexivity|discriminate]) || (right; split; [lia|tauto])
  || (right; split; [reflexivity|intuition lia]) || (left; split; [reflexivity|tauto]) || auto || (right; split; [lia|intuition lia])).

Theorem C106_disconnect_does_not_detach_refuted : exists cs ans,
  let r := run ('(o, bs) <~ m_calls cs map_new ;; m_destroy o) ans [] in
  cs = [MConnect; MUse; MDisconnect] /\ sane w_empty (snd r) /\ locks_work (snd r) /\ fst r = Ok map_new /\
  w_att (worldof w_empty (snd r)) <> [].
Proof.
  exists [MConnect; MUse; MDisconnect], kind. cbn zeta. split; [reflexivity|]. split; [|split; [|split]].
  - vm_compute. repeat split; auto; try discriminate; try (left; split; [reflexivity|discriminate]);
      (right; split; [reflexivity|intuition discriminate]).
  - vm_compute. repeat split; auto.
  - reflexivity.
  - vm_compute. discriminate.
Qed.
Print Assumptions C106_disconnect_does_not_detach_refuted.

(** connect of a connected map throws, and ends the connection it had *)
Theorem C106_second_connect_disconnects : forall w0 o ans l, up o ->
  let r := run (m_connect o) ans l in sane w0 (snd r) -> fst r = Ok (map_new, false).
Proof.
  intros w0 o ans l (U1 & U2 & U3 & U4) r S.
  exact (wp_run _ w0 _ (fun r _ => r = Ok (map_new, false)) ans l (connect_again w0 _ o l ltac:(lia) U3 (fun _ => eq_refl)) S).
Qed.
Print Assumptions C106_second_connect_disconnects.

(** a map whose connect failed after the semaphores were obtained never connects again, and
    its methods dereference null *)
Theorem C106_stuck_forever : forall o, stuck o -> forall cs ans l o' bs,
  fst (run (m_calls cs o) ans l) = Ok (o', bs) -> o' = o /\ Forall2 (fun c b => c = MConnect -> b = false) cs bs.
Proof.
  intros o S. induction cs as [|c cs IH]; intros ans l o' bs E; cbn [m_calls] in E.
  - inversion E. split; [reflexivity|constructor].
  - rewrite run_bind in E.
    assert (Y : match fst (run (m_call c o) ans l) with Ok (o1, b) => o1 = o /\ (c = MConnect -> b = false) | _ => True end).
    { destruct c; cbn [m_call].
      - rewrite connect_stuck by exact S. cbn. auto.
      - rewrite disconnect_down by apply S. cbn. split; [reflexivity|discriminate].
      - rewrite run_bind. destruct (run (m_use o) ans l) as [[b| |] l1]; cbn; auto. split; [reflexivity|discriminate]. }
    destruct (run (m_call c o) ans l) as [[[o1 b]| |] l1]; try discriminate E. cbn [fst] in Y. destruct Y as (-> & Y).
    rewrite run_bind in E. destruct (run (m_calls cs o) ans l1) as [[[o2 bs2]| |] l2] eqn:E2; try discriminate E.
    cbn in E. inversion E; subst. destruct (IH ans l1 o' bs2) as (-> & F); [rewrite E2; reflexivity|].
    split; [reflexivity|]. constructor; assumption.
Qed.
Print Assumptions C106_stuck_forever.
Definition no_segment (l : log) (c : call) : Z := match c with Shmget _ => -1 | _ => kind l c end.
Theorem C106_failed_connect_sticks_refuted : exists ans o,
  let r := run (m_calls [MConnect] map_new) ans [] in
  sane w_empty (snd r) /\ locks_work (snd r) /\ fst r = Ok (o, [false]) /\ stuck o /\
  fst (run (m_calls [MConnect] o) kind []) = Ok (o, [false]) /\
  fst (run (m_calls [MUse] o) kind []) = Ub NullDeref.
Proof.
  exists no_segment, (mkMap 7 (-1) 0 false). cbn zeta. split; [|split; [|split; [|split]]].
  - vm_compute. repeat split; auto; try discriminate; left; split; [reflexivity|discriminate|reflexivity|discriminate].
  - vm_compute. repeat split; auto.
  - reflexivity.
  - repeat split; cbn; congruence.
  - split; reflexivity.
Qed.
Print Assumptions C106_failed_connect_sticks_refuted.

(** *** the queue *)

(** what a queue owns: at most one segment and one buffer *)
Definition one (p : Z) : list Z := if p =? 0 then [] else [p].
Definition owns (w0 : world) (o : queue) (l : log) : Prop :=
  w_att (worldof w0 l) = one (q_info o) ++ w_att w0 /\
  w_heap (worldof w0 l) = one (q_ptr o) ++ w_heap w0 /\
  frees_ok w0 l /\ 0 <= q_info o /\ 0 <= q_ptr o /\
  (q_info o = 0 <-> q_boxes o = 0) /\ (q_info o = 0 -> q_ptr o = 0) /\ (q_info o <> 0 -> q_sem o <> -1).

Lemma owns_call : forall w0 o l c a, owns w0 o l ->
  match c with Shmat _ | Shmdt _ | New _ | Delete _ => False | _ => True end -> owns w0 o ((c, a) :: l).
Proof.
  intros w0 o l c a (H1 & H2 & H3 & H4) H. unfold owns.
  destruct c; try contradiction; cbn; try (destruct (0 <=? a)); auto.
Qed.
Lemma owns_ids : forall w0 p i b s h bs mb s' h' bs' mb' l,
  owns w0 (mkQ p i b s h bs mb) l -> (i = 0 \/ s' <> -1) -> owns w0 (mkQ p i b s' h' bs' mb') l.
Proof.
  unfold owns. cbn. intros w0 p i b s h bs mb s' h' bs' mb' l (H1 & H2 & H3 & H4 & H5 & H6 & H7 & H8) N.
  repeat (split; [assumption|]). intros; destruct N; [contradiction|assumption].
Qed.

Lemma q_sem_owns : forall w0 o l, owns w0 o l -> wp w0 (q_connect_sem o) (fun r l' => exists o' b, r = Ok (o', b) /\
    owns w0 o' l' /\ (b = true -> q_info o = 0 /\ q_sem o' <> -1) /\
    q_info o' = q_info o /\ q_ptr o' = q_ptr o /\ q_boxes o' = q_boxes o /\ (headers_ok l' <-> headers_ok l)) l.
Proof.
  intros w0 [p i bx s h bs mb] l O. unfold q_connect_sem. cbn [q_sem q_info q_ptr q_boxes].
  destruct (Z.eqb_spec s (-1)) as [->|N]; norm.
  2:{ eexists _, _. split; [reflexivity|]. split; [exact O|]. split; [discriminate|]. cbn. tauto. }
  assert (I0 : i = 0). { destruct O as (_ & _ & _ & _ & _ & _ & _ & O). cbn in O. destruct (Z.eq_dec i 0); [assumption|]. exfalso. apply (O n eq_refl). }
  call k Pk. test Hk.
  { eexists _, _. split; [reflexivity|]. split; [apply owns_call; [exact O|exact I]|]. split; [discriminate|]. cbn. tauto. }
  assert (O1 : owns w0 (mkQ p i bx (-1) h bs mb) ((Ftok, k) :: l)) by (apply owns_call; [exact O|exact I]).
  call a Pa. apply (fun x => owns_call _ _ _ (Semget false) a x I) in O1. test Ha.
  2:{ eexists _, _. split; [reflexivity|]. split; [eapply owns_ids; [exact O1|auto]|]. apply Z.eqb_neq in Ha. cbn. tauto. }
  call b Pb. apply (fun x => owns_call _ _ _ (Semget true) b x I) in O1. test Hb.
  { eexists _, _. split; [reflexivity|]. split; [eapply owns_ids; [exact O1|auto]|]. split; [discriminate|]. cbn. tauto. }
  apply Z.eqb_neq in Hb.
  call r1 Pr1. apply (fun x => owns_call _ _ _ (Setval b 0) r1 x I) in O1. test Hr1.
  { eexists _, _. split; [reflexivity|]. split; [eapply owns_ids; [exact O1|auto]|]. split; [discriminate|]. cbn. tauto. }
  call r2 Pr2. apply (fun x => owns_call _ _ _ (Setval b 1) r2 x I) in O1. test Hr2;
  (eexists _, _; split; [reflexivity|]; split; [eapply owns_ids; [exact O1|auto]|]; cbn; tauto).
Qed.

Lemma q_shm_owns : forall w0 o l, owns w0 o l -> q_info o = 0 -> q_sem o <> -1 ->
  wp w0 (q_connect_shm o) (fun r l' =>
    (r = Ub NullDeref /\ ~ headers_ok l') \/
    exists o' b, r = Ok (o', b) /\ owns w0 o' l' /\ q_sem o' <> -1 /\
      (b = true -> q_info o' <> 0 /\ q_ptr o' <> 0)) l.
Proof.
  intros w0 [p i bx s h bs mb] l O I0 S0. cbn [q_info q_sem] in I0, S0. subst i.
  assert (E : bx = 0 /\ p = 0). { destruct O as (_ & _ & _ & _ & _ & O1 & O2 & _). cbn in *. split; [apply O1|apply O2]; reflexivity. }
  destruct E as (-> & ->).
  unfold q_connect_shm. cbn [q_boxes]. change (0 =? 0) with true. norm.
  call k Pk. test Hk.
  { right. eexists _, _. split; [reflexivity|]. split; [apply owns_call; [exact O|exact I]|]. split; [exact S0|discriminate]. }
  apply (fun x => owns_call _ _ _ Ftok k x I) in O.
  call a Pa. apply (fun x => owns_call _ _ _ (Shmget false) a x I) in O.
  assert (Y : forall l1 h1, h1 <> -1 -> owns w0 (mkQ 0 0 0 s h bs mb) l1 ->
    wp w0 (p <~ sys (Shmat h1) ;;
           if p =? -1 then Ret (mkQ 0 0 0 s h1 bs mb, false) else
           h <~ sys (Header p) ;;
           if h <? 0 then (_ <~ sys (Shmdt p) ;; Bad NullDeref)
           else b <~ sys (New bs) ;;
                if b =? 0 then Ret (mkQ 0 p (p + 64) s h1 bs mb, false)
                else Ret (mkQ b p (p + 64) s h1 bs mb, true))
      (fun r l' => (r = Ub NullDeref /\ ~ headers_ok l') \/
        exists o' b, r = Ok (o', b) /\ owns w0 o' l' /\ q_sem o' <> -1 /\
          (b = true -> q_info o' <> 0 /\ q_ptr o' <> 0)) l1).
  { clear O. intros l1 h1 N O. call q Pq. test Hq.
    { right. eexists _, _. split; [reflexivity|]. split; [|split; [exact S0|discriminate]].
      apply Z.eqb_eq in Hq. subst. unfold owns in *. cbn in *. tauto. }
    apply Z.eqb_neq in Hq. destruct Pq as [?|(Pq & F)]; [congruence|].
    assert (O1 : owns w0 (mkQ 0 q (q + 64) s h1 bs mb) ((Shmat h1, q) :: l1)).
    { destruct O as (H1 & H2 & H3 & _). unfold owns. cbn in *. unfold one in *. cbn in H1, H2.
      destruct (Z.eqb_spec q (-1)); [congruence|]. destruct (Z.eqb_spec q 0); [lia|]. cbn. rewrite H1, H2.
      repeat (split; [reflexivity|]). split; [exact H3|]. lia. }
    call hx Ph. test Hh.
    { intros x Px. left. split; [reflexivity|]. cbn. apply Z.ltb_lt in Hh. lia. }
    apply (fun x => owns_call _ _ _ (Header q) hx x I) in O1.
    call b Pb. destruct (Z.eqb_spec b 0) as [->|Nb].
    - right. eexists _, _. split; [reflexivity|]. split; [|split; [exact S0|discriminate]].
      unfold owns in *. cbn in *. tauto.
    - right. eexists _, _. split; [reflexivity|]. split; [|cbn; split; [exact S0|lia]].
      destruct Pb as [?|(Pb & F')]; [congruence|]. destruct O1 as (H1 & H2 & H3 & H4 & _). unfold owns.
      cbn in *. unfold one in *. cbn in H2. destruct (Z.eqb_spec b 0); [congruence|]. cbn. rewrite H2.
      split; [exact H1|]. split; [reflexivity|]. split; [exact H3|]. lia. }
  test Ha.
  - call b Pb. destruct (Z.eqb_spec b (-1)) as [->|Nb]; norm.
    + right. eexists _, _. split; [reflexivity|]. split; [|split; [exact S0|discriminate]].
      eapply owns_ids; [apply owns_call; [exact O|exact I]|auto].
    + apply Y; [exact Nb|apply owns_call; [exact O|exact I]].
  - apply Y; [apply Z.eqb_neq; exact Ha|exact O].
Qed.

Lemma remove1_head : forall p l, remove1 p (p :: l) = l.
Proof. intros p l. cbn. rewrite Z.eqb_refl. reflexivity. Qed.
(** disconnect gives back what the queue owns *)
Lemma q_disconnect_owns : forall w0 o l, owns w0 o l ->
  wp w0 (q_disconnect o) (fun r l' => exists o', r = Ok o' /\ owns w0 o' l' /\ q_info o' = 0 /\
    (q_info o <> 0 -> o' = queue_new) /\ (q_info o = 0 -> o' = o)) l.
Proof.
  intros w0 [p i bx s h bs mb] l O. unfold q_disconnect, q_deallocate. cbn [q_info].
  destruct (Z.eqb_spec i 0) as [->|N]; norm.
  { eexists. split; [reflexivity|]. split; [exact O|]. split; [reflexivity|]. split; [congruence|reflexivity]. }
  destruct O as (H1 & H2 & H3 & H4 & H5 & H6 & H7 & H8). cbn in H1, H2, H4, H5. unfold one in H1. destruct (Z.eqb_spec i 0); [congruence|].
  call a Pa. rewrite H1 in Pa.
  assert (a = 0) as -> by (destruct Pa as [(Pa & _)|(_ & Pa)]; [exact Pa|exfalso; apply Pa; left; reflexivity]).
  destruct (Z.eqb_spec p 0) as [->|Np]; norm.
  - eexists. split; [reflexivity|]. split; [|split; [reflexivity|split; [reflexivity|congruence]]].
    unfold owns. cbn. rewrite H1. cbn. rewrite Z.eqb_refl. repeat (split; [assumption || reflexivity || lia|]). lia.
  - call b Pb. subst b.
    unfold one in H2. destruct (Z.eqb_spec p 0); [congruence|].
    eexists. split; [reflexivity|]. split; [|split; [reflexivity|split; [reflexivity|congruence]]].
    unfold owns. cbn. rewrite H1, H2. cbn. rewrite !Z.eqb_refl.
    repeat (split; [assumption || reflexivity || lia|]).
    split; [split; [left; reflexivity|exact H3]|]. lia.
Qed.

Definition qgood w0 (A : Type) (get : A -> queue) (r : res A) (l : log) : Prop :=
  (r = Ub NullDeref /\ ~ headers_ok l) \/ exists x, r = Ok x /\ owns w0 (get x) l.
Lemma q_call_owns : forall w0 c o l, owns w0 o l -> wp w0 (q_call c o) (qgood w0 _ fst) l.
Proof.
  intros w0 c o l O. destruct c as [bs mb| |]; cbn [q_call].
  - unfold q_connect. cbn zeta. apply wp_bind. eapply wp_mono; [|apply (q_sem_owns w0)].
    2:{ destruct o as [p i bx s h b0 m0]. eapply owns_ids; [exact O|]. destruct (Z.eq_dec i 0); [auto|]. right. apply O. assumption. }
    cbn beta. intros r l1 (o1 & b & -> & O1 & B & E1 & E2 & E3 & E4). cbn [q_info q_ptr q_boxes] in *.
    destruct b; norm. 2:{ right. eexists. split; [reflexivity|]. exact O1. }
    destruct (B eq_refl) as (I0 & S0).
    intros a Pa. apply wp_bind. eapply wp_mono; [|apply (q_shm_owns w0 o1)].
    2: apply owns_call; [exact O1|exact I]. 2: congruence. 2: exact S0.
    cbn beta. intros r l2 [(-> & N)|(o2 & b2 & -> & O2 & S2 & B2)]; [left; auto|].
    destruct b2; norm; [|right; eexists; split; [reflexivity|exact O2]].
    intros x Px. right. eexists. split; [reflexivity|]. apply owns_call; [exact O2|exact I].
  - apply wp_bind. eapply wp_mono; [|apply q_disconnect_owns; exact O]. cbn beta.
    intros r l1 (o' & -> & O' & _). cbn. right. eexists. split; [reflexivity|]. exact O'.
  - apply wp_bind. unfold q_use. destruct (Z.eqb_spec (q_boxes o) 0) as [Z0|Z0]; norm.
    + right. eexists. split; [reflexivity|]. exact O.
    + intros a Pa. destruct (Z.eqb_spec (q_info o) 0) as [I0|I0].
      * exfalso. apply Z0. apply O. exact I0.
      * norm. intros b Pb. right. eexists. split; [reflexivity|]. apply owns_call; [apply owns_call; [exact O|exact I]|exact I].
Qed.
Lemma headers_mono : forall A w0 (p : prog A) l, ~ headers_ok l -> wp w0 p (fun _ l' => ~ headers_ok l') l.
Proof. intros A w0 p. induction p as [a|u|c k IH]; cbn; intros l N; auto. intros a _. apply IH. destruct c; cbn; tauto. Qed.
Lemma q_calls_owns : forall w0 cs o l, owns w0 o l -> wp w0 (q_calls cs o) (qgood w0 _ fst) l.
Proof.
  intros w0. induction cs as [|c cs IH]; intros o l O; cbn [q_calls].
  - right. eexists. split; [reflexivity|]. exact O.
  - apply wp_bind. eapply wp_mono; [|apply q_call_owns; exact O]. intros r l1 [(-> & N)|([o1 b] & -> & O1)]; [left; auto|].
    apply wp_bind. eapply wp_mono; [|apply IH; exact O1]. intros r l2 [(-> & N)|([o2 bs] & -> & O2)]; [left; auto|].
    cbn. right. eexists. split; [reflexivity|]. exact O2.
Qed.
Lemma owns_new : forall w0, owns w0 queue_new [].
Proof. intros w0. repeat (split; [cbn; auto; lia|]). cbn. lia. Qed.

(** For every sequence of calls on a new queue and whatever the kernel answers, as long as no
    queue with other sizes is found: no call has undefined behaviour, the process holds at
    most one segment and one buffer for the queue, exactly those the queue points to, and
    nothing is freed twice. *)
Theorem C107_every_history_partial : forall cs w0 ans,
  let r := run (q_calls cs queue_new) ans [] in
  sane w0 (snd r) -> headers_ok (snd r) ->
  exists o bs, fst r = Ok (o, bs) /\
    w_att (worldof w0 (snd r)) = (if q_info o =? 0 then [] else [q_info o]) ++ w_att w0 /\
    w_heap (worldof w0 (snd r)) = (if q_ptr o =? 0 then [] else [q_ptr o]) ++ w_heap w0 /\
    (q_info o = 0 <-> q_boxes o = 0) /\
    frees_ok w0 (snd r).
Proof.
  intros cs w0 ans r S H.
  destruct (wp_run _ w0 _ _ ans [] (q_calls_owns w0 cs _ [] (owns_new w0)) S) as [(_ & N)|([o bs] & E & O)]; [contradiction|].
  exists o, bs. split; [exact E|]. destruct O as (H1 & H2 & H3 & H4 & H5 & H6 & _). cbn [fst] in *. auto.
Qed.
Print Assumptions C107_every_history_partial.

(** *** calls that return have found only headers that fit *)
Definition hok (A : Type) (r : res A) (l : log) : Prop := forall x, r = Ok x -> headers_ok l.
Lemma hok_bind : forall A B w0 (p : prog A) (k : A -> prog B) l, wp w0 p (hok A) l ->
  (forall x l', headers_ok l' -> wp w0 (k x) (hok B) l') -> wp w0 (pbind p k) (hok B) l.
Proof.
  intros A B w0 p k l H K. apply wp_bind. eapply wp_mono; [|exact H]. cbn beta.
  intros [x|u|] l' H'; [apply K; eapply H'; reflexivity| |]; intros x E; discriminate E.
Qed.
Lemma hok_ret : forall A w0 (x : A) l, headers_ok l -> wp w0 (Ret x) (hok A) l.
Proof. intros A w0 x l H y _. exact H. Qed.
Ltac hk := repeat first
  [ match goal with
    | |- hok _ (Ok _) _ => intros ? _; cbn [headers_ok]; first [assumption | split; [apply Z.ltb_ge; assumption|assumption]]
    | |- hok _ (Ub _) _ => intros ? E; discriminate E
    | |- wp _ (if ?x then _ else _) _ _ => destruct x eqn:?
    | |- wp _ (pbind (if ?x then _ else _) _) _ _ => destruct x eqn:?
    | |- wp _ (let '(_, _) := ?x in _) _ _ => destruct x
    | |- forall _ : Z, _ -> _ => let a := fresh "a" in let P := fresh "P" in intros a P
    end
  | progress norm ].
Lemma q_sem_hok : forall w0 o l, headers_ok l -> wp w0 (q_connect_sem o) (hok _) l.
Proof. intros w0 o l H. unfold q_connect_sem. cbn zeta. hk. Qed.
Lemma q_shm_hok : forall w0 o l, headers_ok l -> wp w0 (q_connect_shm o) (hok _) l.
Proof. intros w0 o l H. unfold q_connect_shm. cbn zeta. hk. Qed.
Lemma q_call_hok : forall w0 c o l, headers_ok l -> wp w0 (q_call c o) (hok _) l.
Proof.
  intros w0 c o l H. destruct c as [bs mb| |]; cbn [q_call].
  - unfold q_connect. cbn zeta. apply hok_bind; [apply q_sem_hok; exact H|]. intros [o1 b] l1 H1. destruct b; hk.
    all: (apply hok_bind; [apply q_shm_hok; exact H1|]); intros [o2 b2] l2 H2; destruct b2; hk.
  - apply hok_bind; [|intros x l1 H1; hk]. unfold q_disconnect, q_deallocate. hk.
  - apply hok_bind; [|intros x l1 H1; hk]. unfold q_use. hk.
Qed.
Lemma q_calls_hok : forall w0 cs o l, headers_ok l -> wp w0 (q_calls cs o) (hok _) l.
Proof.
  intros w0. induction cs as [|c cs IH]; intros o l H; cbn [q_calls]; [hk|].
  apply hok_bind; [apply q_call_hok; exact H|]. intros [o1 b] l1 H1. apply hok_bind; [apply IH; exact H1|].
  intros [o2 bs] l2 H2. hk.
Qed.
(** Without any assumption about what is found: a history of calls crashes exactly when a connect
    finds a queue with other sizes, and otherwise all of the above holds. *)
Theorem C107_crash_exact : forall cs w0 ans,
  let r := run (q_calls cs queue_new) ans [] in
  sane w0 (snd r) ->
  (fst r = Ub NullDeref <-> ~ headers_ok (snd r)) /\
  (fst r = Ub NullDeref \/ exists o bs, fst r = Ok (o, bs) /\
    w_att (worldof w0 (snd r)) = (if q_info o =? 0 then [] else [q_info o]) ++ w_att w0 /\
    w_heap (worldof w0 (snd r)) = (if q_ptr o =? 0 then [] else [q_ptr o]) ++ w_heap w0 /\
    (q_info o = 0 <-> q_boxes o = 0) /\
    frees_ok w0 (snd r)).
Proof.
  intros cs w0 ans r S. pose proof (wp_run _ w0 _ _ ans [] (q_calls_hok w0 cs queue_new [] I) S) as K. unfold hok in K. fold r in K.
  destruct (wp_run _ w0 _ _ ans [] (q_calls_owns w0 cs _ [] (owns_new w0)) S) as [(E & N)|([o bs] & E & O)]; fold r in E.
  - split; [|left; exact E]. rewrite E. tauto.
  - split; [rewrite E; split; [discriminate|]; intros N; exfalso; apply N; eapply K; exact E|]. right.
    exists o, bs. split; [exact E|]. destruct O as (H1 & H2 & H3 & H4 & H5 & H6 & _). cbn [fst] in *. auto.
Qed.
Print Assumptions C107_crash_exact.

(** after the destructor nothing is left: every segment detached, every buffer freed *)
Theorem C107_destructor_releases_partial : forall cs w0 ans,
  let r := run ('(o, bs) <~ q_calls cs queue_new ;; q_destroy o) ans [] in
  sane w0 (snd r) -> headers_ok (snd r) ->
  (exists o, fst r = Ok o) /\
  w_att (worldof w0 (snd r)) = w_att w0 /\ w_heap (worldof w0 (snd r)) = w_heap w0 /\ frees_ok w0 (snd r).
Proof.
  intros cs w0 ans r S H.
  assert (W : wp w0 ('(o, bs) <~ q_calls cs queue_new ;; q_destroy o)
     (fun r l => (r = Ub NullDeref /\ ~ headers_ok l) \/ exists o, r = Ok o /\ owns w0 o l /\ q_info o = 0) []).
  { apply wp_bind. eapply wp_mono; [|apply q_calls_owns; apply owns_new].
    intros r1 l1 [(-> & N)|([o bs] & -> & O)]; [left; auto|]. cbn [fst] in O. unfold q_destroy. apply wp_bind.
    assert (D : forall o l, owns w0 o l -> q_info o = 0 -> q_deallocate o = Ret o).
    { intros o' l' O' I'. unfold q_deallocate. destruct O' as (_ & _ & _ & _ & _ & _ & O' & _). rewrite (O' I'). reflexivity. }
    destruct (Z.eqb_spec (q_boxes o) 0) as [Z0|Z0]; norm.
    - assert (q_info o = 0) by (apply O; exact Z0). rewrite (D o l1) by auto. cbn. right. eauto.
    - eapply wp_mono; [|apply q_disconnect_owns; exact O]. cbn beta. intros r2 l2 (o2 & -> & O2 & I2 & _).
      rewrite (D o2 l2) by auto. cbn. right. eauto. }
  destruct (wp_run _ w0 _ _ ans [] W S) as [(_ & N)|(o & E & O & I0)]; [contradiction|].
  split; [exists o; exact E|]. destruct O as (H1 & H2 & H3 & _ & _ & _ & H7 & _). rewrite I0 in H1. rewrite (H7 I0) in H2.
  auto.
Qed.
Print Assumptions C107_destructor_releases_partial.

(** a connected queue that is disconnected is as new *)
Theorem C107_disconnect_is_new : forall o ans l, q_info o <> 0 -> fst (run (q_disconnect o) ans l) = Ok queue_new.
Proof.
  intros [p i bx s h bs mb] ans l N. unfold q_disconnect, q_deallocate. cbn [q_info] in *.
  destruct (Z.eqb_spec i 0); [congruence|]. cbn. destruct (Z.eqb_spec p 0) as [->|]; reflexivity.
Qed.
Print Assumptions C107_disconnect_is_new.

(** a queue that is connected refuses a second connect and stays connected to the same
    segment *)
Theorem C107_second_connect : forall o bs mb ans l, q_sem o <> -1 ->
  run (q_connect bs mb o) ans l = (Ok (mkQ (q_ptr o) (q_info o) (q_boxes o) (q_sem o) (q_shm o) bs mb, false), l).
Proof.
  intros [p i bx s h b0 m0] bs mb ans l N. unfold q_connect, q_connect_sem. cbn [q_sem] in *.
  destruct (Z.eqb_spec s (-1)); [congruence|]. reflexivity.
Qed.
Print Assumptions C107_second_connect.

(** What goes wrong: a connect that fails after the semaphores were obtained keeps the lock,
    and the queue can neither be used nor connected again, not even after disconnect. *)
Theorem C107_failed_connect_sticks_refuted : exists ans o,
  let r := run (q_calls [QConnect 16 4] queue_new) ans [] in
  sane w_empty (snd r) /\ locks_work (snd r) /\ headers_ok (snd r) /\ fst r = Ok (o, [false]) /\
  w_lock (worldof w_empty (snd r)) = 1 /\
  forall cs ans' l,
    exists o' bs, fst (run (q_calls cs o) ans' l) = Ok (o', bs) /\
      Forall2 (fun c b => match c with QDisconnect => True | _ => b = false end) cs bs.
Proof.
  exists no_segment, (mkQ 0 0 0 7 (-1) 16 4). cbn zeta. split; [|split; [|split; [|split; [|split]]]].
  - vm_compute. repeat split; auto; try discriminate; left; split; [reflexivity|discriminate].
  - vm_compute. repeat split; auto.
  - vm_compute. exact I.
  - reflexivity.
  - reflexivity.
  - intros cs ans l. revert ans l. generalize 16 as bs0. generalize 4 as mb0.
    induction cs as [|c cs IH]; intros mb0 bs0 ans l; cbn [q_calls].
    + eexists _, _. split; [reflexivity|constructor].
    + assert (E : exists bs1 mb1 b, q_call c (mkQ 0 0 0 7 (-1) bs0 mb0) = Ret (mkQ 0 0 0 7 (-1) bs1 mb1, b) /\
        match c with QDisconnect => True | _ => b = false end).
      { destruct c as [bs mb| |]; eexists _, _, _; split; reflexivity || exact I. }
      destruct E as (bs1 & mb1 & b & -> & B). cbn [pbind]. rewrite run_bind.
      destruct (IH mb1 bs1 ans l) as (o' & b' & E' & F).
      destruct (run (q_calls cs _) ans l) as [x l1]. cbn in E'. subst x. cbn.
      eexists _, _. split; [reflexivity|]. constructor; auto.
Qed.
Print Assumptions C107_failed_connect_sticks_refuted.
(** connecting to a queue that has other sizes dereferences null *)
Definition other_sizes (l : log) (c : call) : Z := match c with Header _ => -1 | _ => kind l c end.
Theorem C107_other_sizes_refuted : exists ans,
  let r := run (q_calls [QConnect 16 4] queue_new) ans [] in
  sane w_empty (snd r) /\ locks_work (snd r) /\ fst r = Ub NullDeref.
Proof.
  exists other_sizes. cbn zeta. split; [|split].
  - vm_compute. repeat split; auto; try discriminate; try (left; split; [reflexivity|discriminate]).
    all: try (right; split; [reflexivity|intuition discriminate]).
  - vm_compute. repeat split; auto.
  - reflexivity.
Qed.
Print Assumptions C107_other_sizes_refuted.

(** a life: connect, use, refused connect, disconnect, connect again, destructor *)
Example C107_life :
  let cs := [QConnect 16 4; QUse; QConnect 8 4; QDisconnect; QUse; QConnect 32 2] in
  let r := run (q_calls cs queue_new) kind [] in
  match fst r with Ok (o, bs) => bs = [true; true; false; true; false; true] /\ q_bs o = 32 | _ => False end /\
  length (w_att (worldof w_empty (snd r))) = 1%nat /\
  worldof w_empty (snd (run ('(o, bs) <~ q_calls cs queue_new ;; q_destroy o) kind [])) = w_empty.
Proof. vm_compute. repeat split; reflexivity. Qed.
Example C106_life :
  let cs := [MConnect; MUse; MDisconnect; MUse; MConnect; MUse; MConnect; MUse] in
  let r := run (m_calls cs map_new) kind [] in
  match fst r with Ok (o, bs) => bs = [true; true; true; false; true; true; false; false] /\ o = map_new | _ => False end /\
  length (w_att (worldof w_empty (snd r))) = 2%nat /\ w_lock (worldof w_empty (snd r)) = 0.
Proof. vm_compute. repeat split; reflexivity. Qed.

(** *** the calls of connect *)

(** the answer is not an error; the two calls that only ask whether something exists may fail *)
Definition fine (c : call) (a : Z) : Prop :=
  match c with
  | Semget false | Shmget false => True
  | Lock _ | Unlock _ | Attach _ | Header _ => 0 <= a
  | New _ => a <> 0
  | _ => a <> -1
  end.

(** If connect of a map returns, these are its calls, in this order, and all of them were
    successful: semaphores that did not exist were created and both given a value before
    their first use; a segment that did not exist was created; the map was attached to it
    with the lock held. *)
Theorem C106_connect_calls : forall o ans l o' l',
  run (m_connect o) ans l = (Ok (o', true), l') ->
  exists new sems shms,
    l' = new ++ l /\ Forall (fun e => fine (fst e) (snd e)) new /\
    List.map fst (rev new) =
      [Ftok; Semget false] ++ sems ++ [Lock (m_sem o'); Ftok; Shmget false] ++ shms ++
      [Shmat (m_shm o'); Unlock (m_sem o'); Lock (m_sem o'); Attach (m_mem o'); Unlock (m_sem o')] /\
    (In (Semget false, -1) new -> sems = [Semget true; Setval (m_sem o') 0; Setval (m_sem o') 1]) /\
    (~ In (Semget false, -1) new -> sems = []) /\
    (In (Shmget false, -1) new -> shms = [Shmget true]) /\
    (~ In (Shmget false, -1) new -> shms = []).
Proof.
  intros [s h p ps] ans l o' l' H. unfold m_connect in H. rewrite run_bind in H.
  assert (DIS : forall o1 l1, match run (m_disconnect o1) ans l1 with
      | (Ok a, l2) => run (Ret (a, false)) ans l2 | (Ub u, l2) => (Ub u, l2) | (Fuel, l2) => (Fuel, l2) end = (Ok (o', true), l') -> False).
  { intros o1 l1. destruct (run (m_disconnect o1) ans l1) as [[a| |] l2]; cbn; discriminate. }
  assert (HAN : forall o1 l1, run (m_handler o1) ans l1 = (Ok (o', true), l') -> False).
  { intros o1 l1. unfold m_handler, m_unlock. cbn [sys pbind run]. destruct (0 <=? _); cbn [negb]; [|cbn; discriminate].
    rewrite run_bind. intros X. eapply DIS; eauto. }
  (* semaphores *)
  assert (SEM : exists o1 b l1, run (m_connect_sem (mkMap s h p ps)) ans l = (Ok (o1, b), l1) /\
    (b = true -> m_shm o1 = h /\ m_mem o1 = p /\ m_ptrs o1 = ps /\ exists new sems, l1 = new ++ l /\ Forall (fun e => fine (fst e) (snd e)) new /\
      List.map fst (rev new) = [Ftok; Semget false] ++ sems /\
      (In (Semget false, -1) new -> sems = [Semget true; Setval (m_sem o1) 0; Setval (m_sem o1) 1]) /\
      (~ In (Semget false, -1) new -> sems = []) /\ ~ In (Shmget false, -1) new)).
  { unfold m_connect_sem. cbn [m_sem m_shm m_mem m_ptrs].
    destruct (Z.eqb_spec s (-1)); cbn [negb]; [|eexists _, false, _; split; [reflexivity|discriminate]].
    cbn [sys pbind run]. set (k := ans l Ftok). set (l1 := (Ftok, k) :: l).
    destruct (Z.eqb_spec k (-1)); [eexists _, false, _; split; [reflexivity|discriminate]|].
    cbn [sys pbind run]. set (a := ans l1 (Semget false)). set (l2 := (Semget false, a) :: l1).
    destruct (Z.eqb_spec a (-1)) as [Ea|Na]; cbn [negb run].
    - cbn [sys pbind run m_sem m_shm m_mem m_ptrs]. set (b := ans l2 (Semget true)). set (l3 := (Semget true, b) :: l2).
      destruct (Z.eqb_spec b (-1)); [eexists _, false, _; split; [reflexivity|discriminate]|].
      cbn [sys pbind run]. set (c := ans l3 (Setval b 0)). set (l4 := (Setval b 0, c) :: l3).
      destruct (Z.eqb_spec c (-1)); [eexists _, false, _; split; [reflexivity|discriminate]|].
      cbn [sys pbind run]. set (d := ans l4 (Setval b 1)). set (l5 := (Setval b 1, d) :: l4).
      destruct (Z.eqb_spec d (-1)); [eexists _, false, _; split; [reflexivity|discriminate]|].
      eexists _, true, _. split; [reflexivity|]. intros _. cbn [m_sem m_shm m_mem m_ptrs]. repeat (split; [reflexivity|]).
      exists [(Setval b 1, d); (Setval b 0, c); (Semget true, b); (Semget false, a); (Ftok, k)], [Semget true; Setval b 0; Setval b 1].
      split; [reflexivity|]. split; [repeat constructor; assumption|]. split; [reflexivity|]. split; [auto|]. split.
      + intros N. exfalso. apply N. rewrite Ea. cbn. auto.
      + cbn. intuition discriminate.
    - eexists _, true, _. split; [reflexivity|]. intros _. cbn [m_sem m_shm m_mem m_ptrs]. repeat (split; [reflexivity|]).
      exists [(Semget false, a); (Ftok, k)], []. split; [reflexivity|]. split; [repeat constructor; assumption|]. split; [reflexivity|].
      split; [intros [X|[X|[]]]; congruence|]. split; [auto|]. intros [X|[X|[]]]; discriminate. }
  destruct SEM as (o1 & b & l1 & ES & B). rewrite ES in H. cbn iota in H.
  destruct b; [|cbn [pbind negb] in H; rewrite run_bind in H; exfalso; eapply DIS; exact H].
  destruct (B eq_refl) as (Hh & Hp & Hps & new1 & sems & -> & F1 & M1 & S1 & S2 & S3). clear B ES.
  rewrite run_bind in H. destruct o1 as [s1 h1 p1 ps1]. cbn [m_sem m_shm m_mem m_ptrs] in *. subst h1 p1 ps1.
  (* segment *)
  set (la := new1 ++ l) in *.
  assert (SHM : exists o2 b l2, run (m_connect_shm (mkMap s1 h p ps)) ans la = (Ok (o2, b), l2) /\
    (b = true -> m_sem o2 = s1 /\ exists new shms, l2 = new ++ la /\ Forall (fun e => fine (fst e) (snd e)) new /\
      List.map fst (rev new) = [Lock s1; Ftok; Shmget false] ++ shms ++ [Shmat (m_shm o2); Unlock s1] /\
      (In (Shmget false, -1) new -> shms = [Shmget true]) /\
      (~ In (Shmget false, -1) new -> shms = []) /\ ~ In (Semget false, -1) new)).
  { clearbody la. clear. unfold m_connect_shm, m_lock, m_unlock. cbn [m_sem m_shm m_mem m_ptrs sys pbind run].
    set (k := ans la (Lock s1)). set (l1 := (Lock s1, k) :: la).
    destruct (Z.leb_spec 0 k); cbn [negb]; [|eexists _, false, _; split; [reflexivity|discriminate]].
    destruct (m_connected _). { cbn [sys pbind run]. eexists _, false, _; split; [reflexivity|discriminate]. }
    cbn [sys pbind run]. set (f := ans l1 Ftok). set (l2 := (Ftok, f) :: l1).
    destruct (Z.eqb_spec f (-1)). { cbn [sys pbind run]. eexists _, false, _; split; [reflexivity|discriminate]. }
    cbn [sys pbind run]. set (a := ans l2 (Shmget false)). set (l3 := (Shmget false, a) :: l2).
    destruct (Z.eqb_spec a (-1)) as [Ea|Na]; cbn [negb sys pbind run m_sem m_shm m_mem m_ptrs].
    - set (b := ans l3 (Shmget true)). set (l4 := (Shmget true, b) :: l3).
      destruct (Z.eqb_spec b (-1)); cbn [negb sys pbind run m_sem m_shm m_mem m_ptrs]; [eexists _, false, _; split; [reflexivity|discriminate]|].
      set (c := ans l4 (Shmat b)). set (l5 := (Shmat b, c) :: l4).
      destruct (Z.eqb_spec c (-1)); cbn [negb sys pbind run m_sem m_shm m_mem m_ptrs]; [eexists _, false, _; split; [reflexivity|discriminate]|].
      set (u := ans l5 (Unlock s1)). destruct (Z.leb_spec 0 u); [|eexists _, false, _; split; [reflexivity|discriminate]].
      eexists _, true, _. split; [reflexivity|]. intros _. cbn [m_sem m_shm m_mem m_ptrs]. split; [reflexivity|].
      exists [(Unlock s1, u); (Shmat b, c); (Shmget true, b); (Shmget false, a); (Ftok, f); (Lock s1, k)], [Shmget true].
      split; [reflexivity|]. split; [repeat constructor; assumption|]. split; [reflexivity|]. split; [auto|]. split.
      + intros N. exfalso. apply N. rewrite Ea. cbn. auto.
      + cbn. intuition discriminate.
    - set (c := ans l3 (Shmat a)). set (l4 := (Shmat a, c) :: l3).
      destruct (Z.eqb_spec c (-1)); cbn [negb sys pbind run m_sem m_shm m_mem m_ptrs]; [eexists _, false, _; split; [reflexivity|discriminate]|].
      set (u := ans l4 (Unlock s1)). destruct (Z.leb_spec 0 u); [|eexists _, false, _; split; [reflexivity|discriminate]].
      eexists _, true, _. split; [reflexivity|]. intros _. cbn [m_sem m_shm m_mem m_ptrs]. split; [reflexivity|].
      exists [(Unlock s1, u); (Shmat a, c); (Shmget false, a); (Ftok, f); (Lock s1, k)], [].
      split; [reflexivity|]. split; [repeat constructor; assumption|]. split; [reflexivity|]. split; [cbn; intuition congruence|]. split; [auto|].
      cbn. intuition discriminate. }
  destruct SHM as (o2 & b & l2 & ES & B). rewrite ES in H. cbn iota in H.
  destruct b; cbn [negb] in H; [|rewrite run_bind in H; exfalso; eapply DIS; exact H].
  destruct (B eq_refl) as (Hs & new2 & shms & -> & F2 & M2 & T1 & T2 & T3). clear B ES.
  destruct o2 as [s2 h2 p2 ps2]. cbn [m_sem m_shm m_mem m_ptrs] in *. subst s2.
  set (lb := new2 ++ la) in *. unfold m_lock, m_unlock in H. cbn [sys pbind run m_sem m_shm m_mem m_ptrs] in H.
  set (k := ans lb (Lock s1)) in *. set (l3 := (Lock s1, k) :: lb) in *.
  destruct (Z.leb_spec 0 k) in H; cbn [negb] in H; [|exfalso; eapply HAN; exact H].
  cbn [sys pbind run m_sem m_shm m_mem m_ptrs] in H.
  set (r := ans l3 (Attach p2)) in *. set (l4 := (Attach p2, r) :: l3) in *.
  destruct (Z.ltb_spec r 0) in H; [exfalso; eapply HAN; exact H|].
  cbn [sys pbind run m_sem m_shm m_mem m_ptrs] in H.
  set (u := ans l4 (Unlock s1)) in *.
  destruct (Z.leb_spec 0 u) in H; [|exfalso; eapply HAN; exact H]. cbn [run] in H. injection H as <- <-.
  cbn [m_sem m_shm m_mem m_ptrs].
  exists ([(Unlock s1, u); (Attach p2, r); (Lock s1, k)] ++ new2 ++ new1), sems, shms.
  split; [unfold l4, l3, lb, la; rewrite !app_assoc; reflexivity|].
  split; [apply Forall_app; split; [repeat constructor; assumption|apply Forall_app; auto]|].
  split.
  { rewrite !rev_app_distr, !map_app, M1, M2. cbn [rev app List.map fst]. rewrite <- !app_assoc. cbn [app]. rewrite <- !app_assoc. reflexivity. }
  assert (I1 : In (Semget false, -1) ([(Unlock s1, u); (Attach p2, r); (Lock s1, k)] ++ new2 ++ new1) <-> In (Semget false, -1) new1).
  { rewrite !in_app_iff. cbn. intuition discriminate. }
  assert (I2 : In (Shmget false, -1) ([(Unlock s1, u); (Attach p2, r); (Lock s1, k)] ++ new2 ++ new1) <-> In (Shmget false, -1) new2).
  { rewrite !in_app_iff. cbn. intuition discriminate. }
  rewrite I1, I2. auto.
Qed.
Print Assumptions C106_connect_calls.

(** semaphores and segment are made by a first process and found by a second one *)
Example C106_connect_ex :
  let ans := fun (l : log) c => match c with Semget b => if b then 7 else -1 | Shmget b => if b then 9 else -1 | Shmat _ => 4096 | _ => 0 end in
  let ans2 := fun (l : log) c => match c with Semget _ => 7 | Shmget _ => 9 | Shmat _ => 4096 | _ => 0 end in
  fst (run (m_connect map_new) ans []) = Ok (mkMap 7 9 4096 true, true) /\
  length (snd (run (m_connect map_new) ans [])) = 14%nat /\
  fst (run (m_connect map_new) ans2 []) = Ok (mkMap 7 9 4096 true, true) /\
  length (snd (run (m_connect map_new) ans2 [])) = 10%nat.
Proof. repeat split; reflexivity. Qed.

(** If connect of a queue returns, these are its calls, in this order; all of them were
    successful, except that nobody looks at the answers of the two that lock and unlock. *)
Theorem C107_connect_calls : forall bs mb o ans l o' l',
  run (q_connect bs mb o) ans l = (Ok (o', true), l') ->
  exists new sems shms,
    l' = new ++ l /\
    Forall (fun e => match fst e with Lock _ | Unlock _ => True | _ => fine (fst e) (snd e) end) new /\
    List.map fst (rev new) =
      [Ftok; Semget false] ++ sems ++ [Lock (q_sem o'); Ftok; Shmget false] ++ shms ++
      [Shmat (q_shm o'); Header (q_info o'); New bs; Unlock (q_sem o')] /\
    (In (Semget false, -1) new -> sems = [Semget true; Setval (q_sem o') 0; Setval (q_sem o') 1]) /\
    (~ In (Semget false, -1) new -> sems = []) /\
    (In (Shmget false, -1) new -> shms = [Shmget true]) /\
    (~ In (Shmget false, -1) new -> shms = []).
Proof.
  intros bs mb [pt inf bx s h bs0 mb0] ans l o' l' H. unfold q_connect in H. rewrite run_bind in H.
  cbn [q_ptr q_info q_boxes q_sem q_shm q_bs q_mb] in H.
  assert (SEM : exists o1 b l1, run (q_connect_sem (mkQ pt inf bx s h bs mb)) ans l = (Ok (o1, b), l1) /\
    (b = true -> exists s1, o1 = mkQ pt inf bx s1 h bs mb /\ exists new sems, l1 = new ++ l /\ Forall (fun e => match fst e with Lock _ | Unlock _ => True | _ => fine (fst e) (snd e) end) new /\
      List.map fst (rev new) = [Ftok; Semget false] ++ sems /\
      (In (Semget false, -1) new -> sems = [Semget true; Setval s1 0; Setval s1 1]) /\
      (~ In (Semget false, -1) new -> sems = []) /\ ~ In (Shmget false, -1) new)).
  { unfold q_connect_sem. cbn [q_ptr q_info q_boxes q_sem q_shm q_bs q_mb].
    destruct (Z.eqb_spec s (-1)); cbn [negb]; [|eexists _, false, _; split; [reflexivity|discriminate]].
    cbn [sys pbind run]. set (k := ans l Ftok). set (l1 := (Ftok, k) :: l).
    destruct (Z.eqb_spec k (-1)); [eexists _, false, _; split; [reflexivity|discriminate]|].
    cbn [sys pbind run]. set (a := ans l1 (Semget false)). set (l2 := (Semget false, a) :: l1).
    destruct (Z.eqb_spec a (-1)) as [Ea|Na]; cbn [negb run].
    - cbn [sys pbind run q_ptr q_info q_boxes q_sem q_shm q_bs q_mb]. set (b := ans l2 (Semget true)). set (l3 := (Semget true, b) :: l2).
      destruct (Z.eqb_spec b (-1)); [eexists _, false, _; split; [reflexivity|discriminate]|].
      cbn [sys pbind run]. set (c := ans l3 (Setval b 0)). set (l4 := (Setval b 0, c) :: l3).
      destruct (Z.eqb_spec c (-1)); [eexists _, false, _; split; [reflexivity|discriminate]|].
      cbn [sys pbind run]. set (d := ans l4 (Setval b 1)). set (l5 := (Setval b 1, d) :: l4).
      destruct (Z.eqb_spec d (-1)); [eexists _, false, _; split; [reflexivity|discriminate]|].
      eexists _, true, _. split; [reflexivity|]. intros _. exists b. split; [reflexivity|].
      exists [(Setval b 1, d); (Setval b 0, c); (Semget true, b); (Semget false, a); (Ftok, k)], [Semget true; Setval b 0; Setval b 1].
      split; [reflexivity|]. split; [repeat constructor; assumption|]. split; [reflexivity|]. split; [auto|]. split.
      + intros N. exfalso. apply N. rewrite Ea. cbn. tauto.
      + cbn. intuition discriminate.
    - eexists _, true, _. split; [reflexivity|]. intros _. exists a. split; [reflexivity|].
      exists [(Semget false, a); (Ftok, k)], []. split; [reflexivity|]. split; [repeat constructor; assumption|]. split; [reflexivity|].
      split; [intros [X|[X|[]]]; congruence|]. split; [auto|]. intros [X|[X|[]]]; discriminate. }
  destruct SEM as (o1 & b & l1 & ES & B). rewrite ES in H. cbn iota in H.
  destruct b; cbn [negb] in H; [|cbn in H; discriminate].
  destruct (B eq_refl) as (s1 & -> & new1 & sems & -> & F1 & M1 & S1 & S2 & S3). clear B ES.
  cbn [sys pbind run q_ptr q_info q_boxes q_sem q_shm q_bs q_mb] in H.
  set (la := new1 ++ l) in *. set (k := ans la (Lock s1)) in *. set (lk := (Lock s1, k) :: la) in *.
  rewrite run_bind in H.
  assert (SHM : forall r l2, run (q_connect_shm (mkQ pt inf bx s1 h bs mb)) ans lk = (r, l2) ->
    forall o2, r = Ok (o2, true) -> q_sem o2 = s1 /\ exists new shms, l2 = new ++ lk /\ Forall (fun e => match fst e with Lock _ | Unlock _ => True | _ => fine (fst e) (snd e) end) new /\
      List.map fst (rev new) = [Ftok; Shmget false] ++ shms ++ [Shmat (q_shm o2); Header (q_info o2); New bs] /\
      (In (Shmget false, -1) new -> shms = [Shmget true]) /\
      (~ In (Shmget false, -1) new -> shms = []) /\ ~ In (Semget false, -1) new).
  { clearbody lk. clear. intros r l2 E o2 ->. unfold q_connect_shm in E. cbn [q_ptr q_info q_boxes q_sem q_shm q_bs q_mb] in E.
    destruct (Z.eqb_spec bx 0) in E; cbn [negb] in E; [|discriminate].
    cbn [sys pbind run] in E. set (f := ans lk Ftok) in *. set (l3 := (Ftok, f) :: lk) in *.
    destruct (Z.eqb_spec f (-1)) in E; [discriminate|].
    cbn [sys pbind run] in E. set (a := ans l3 (Shmget false)) in *. set (l4 := (Shmget false, a) :: l3) in *.
    destruct (Z.eqb_spec a (-1)) as [Ea|Na] in E; cbn [negb sys pbind run q_ptr q_info q_boxes q_sem q_shm q_bs q_mb] in E.
    - set (b := ans l4 (Shmget true)) in *. set (l5 := (Shmget true, b) :: l4) in *.
      destruct (Z.eqb_spec b (-1)) in E; cbn [negb sys pbind run q_ptr q_info q_boxes q_sem q_shm q_bs q_mb] in E; [discriminate|].
      set (c := ans l5 (Shmat b)) in *. set (l6 := (Shmat b, c) :: l5) in *.
      destruct (Z.eqb_spec c (-1)) in E; cbn [negb sys pbind run q_ptr q_info q_boxes q_sem q_shm q_bs q_mb] in E; [discriminate|].
      set (d := ans l6 (Header c)) in *. set (l7 := (Header c, d) :: l6) in *.
      destruct (Z.ltb_spec d 0) in E; cbn [negb sys pbind run q_ptr q_info q_boxes q_sem q_shm q_bs q_mb] in E; [discriminate|].
      set (w := ans l7 (New bs)) in *. destruct (Z.eqb_spec w 0) in E; [discriminate|]. cbn [run] in E. injection E as <- <-.
      cbn [q_ptr q_info q_boxes q_sem q_shm q_bs q_mb]. split; [reflexivity|].
      exists [(New bs, w); (Header c, d); (Shmat b, c); (Shmget true, b); (Shmget false, a); (Ftok, f)], [Shmget true].
      split; [reflexivity|]. split; [repeat constructor; assumption|]. split; [reflexivity|]. split; [auto|]. split.
      + intros N. exfalso. apply N. rewrite Ea. cbn. tauto.
      + cbn. intuition discriminate.
    - set (c := ans l4 (Shmat a)) in *. set (l6 := (Shmat a, c) :: l4) in *.
      destruct (Z.eqb_spec c (-1)) in E; cbn [negb sys pbind run q_ptr q_info q_boxes q_sem q_shm q_bs q_mb] in E; [discriminate|].
      set (d := ans l6 (Header c)) in *. set (l7 := (Header c, d) :: l6) in *.
      destruct (Z.ltb_spec d 0) in E; cbn [negb sys pbind run q_ptr q_info q_boxes q_sem q_shm q_bs q_mb] in E; [discriminate|].
      set (w := ans l7 (New bs)) in *. destruct (Z.eqb_spec w 0) in E; [discriminate|]. cbn [run] in E. injection E as <- <-.
      cbn [q_ptr q_info q_boxes q_sem q_shm q_bs q_mb]. split; [reflexivity|].
      exists [(New bs, w); (Header c, d); (Shmat a, c); (Shmget false, a); (Ftok, f)], [].
      split; [reflexivity|]. split; [repeat constructor; assumption|]. split; [reflexivity|]. split; [cbn; intuition congruence|].
      split; [auto|]. cbn. intuition discriminate. }
  destruct (run (q_connect_shm (mkQ pt inf bx s1 h bs mb)) ans lk) as [r l2] eqn:E.
  destruct r as [[o2 b]|u|]; try discriminate. destruct b; cbn [negb] in H; [|cbn in H; discriminate].
  destruct (SHM _ _ eq_refl o2 eq_refl) as (Hs & new2 & shms & -> & F2 & M2 & T1 & T2 & T3). clear SHM E.
  cbn [sys pbind run] in H. injection H as <- <-. rewrite Hs. set (u := ans (new2 ++ lk) (Unlock s1)).
  exists ((Unlock s1, u) :: new2 ++ (Lock s1, k) :: new1), sems, shms.
  split; [unfold lk, la; cbn [app]; rewrite <- !app_assoc; reflexivity|].
  split; [constructor; [cbn; auto|apply Forall_app; split; [auto|constructor; [cbn; auto|auto]]]|].
  split.
  { cbn [rev]. rewrite rev_app_distr. cbn [rev]. rewrite !map_app, M1, M2. cbn [List.map fst app]. rewrite <- !app_assoc. cbn [app]. rewrite <- !app_assoc. reflexivity. }
  assert (I1 : In (Semget false, -1) ((Unlock s1, u) :: new2 ++ (Lock s1, k) :: new1) <-> In (Semget false, -1) new1).
  { cbn [In]. rewrite in_app_iff. cbn [In]. intuition discriminate. }
  assert (I2 : In (Shmget false, -1) ((Unlock s1, u) :: new2 ++ (Lock s1, k) :: new1) <-> In (Shmget false, -1) new2).
  { cbn [In]. rewrite in_app_iff. cbn [In]. intuition discriminate. }
  rewrite I1, I2. auto.
Qed.
Print Assumptions C107_connect_calls.

Example C107_connect_ex :
  let ans := fun (l : log) c => match c with Semget b => if b then 7 else -1 | Shmget b => if b then 9 else -1 | Shmat _ => 4096 | New _ => 5000 | _ => 0 end in
  fst (run (q_connect 64 10 queue_new) ans []) = Ok (mkQ 5000 4096 (4096 + 64) 7 9 64 10, true) /\
  length (snd (run (q_connect 64 10 queue_new) ans [])) = 13%nat.
Proof. split; reflexivity. Qed.
