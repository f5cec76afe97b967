(** Property C109: calls on the shared queue come to an end. *)

From Coq Require Import ZArith List Bool Lia.
From Verif Require Import Base Shm_Model Shm_Proof ShmSys_Proof ShmQ_Spec ShmQ_Model ShmQSys_Spec ShmQ_Proof
  ShmQSys_Proof ShmQ_Props Live_Proof LiveQ_Spec.
Import ListNotations.
Local Open Scope Z_scope.

(** the moves of one process *)
Inductive pcmove : pc -> pc -> Prop :=
| mv_ticket : pcmove (Lock QUnflush) Ticket
| mv_fail : pcmove Idle Ticket
| mv_lock : forall o b, pcmove (Body o b b) (Lock o)
| mv_load : forall o b0 sz a k v, pcmove (Body o b0 (k v)) (Body o b0 (Load sz a k))
| mv_store : forall o b0 sz a v k, pcmove (Body o b0 k) (Body o b0 (Store sz a v k))
| mv_end : forall o b0 r, pcmove (after o r) (Body o b0 (Ret r))
| mv_post : forall o r, pcmove (Unlock o r) (Post o r)
| mv_unlock : forall o r, pcmove Idle (Unlock o r)
| mv_die : forall p, p <> Dead -> pcmove Dead p.
Lemma acc_dead : Acc pcmove Dead.
Proof. constructor. intros p H. inversion H. congruence. Qed.
Lemma acc_idle : Acc pcmove Idle.
Proof. constructor. intros p H. inversion H. apply acc_dead. Qed.
Lemma acc_unlock : forall o r, Acc pcmove (Unlock o r).
Proof. intros o r. constructor. intros p H. inversion H; auto using acc_dead, acc_idle. Qed.
Lemma acc_post : forall o r, Acc pcmove (Post o r).
Proof. intros o r. constructor. intros p H. inversion H; auto using acc_dead, acc_unlock. Qed.
Lemma acc_after : forall o r, Acc pcmove (after o r).
Proof. intros o r. destruct r as [[|]| | | ]; cbn [after]; auto using acc_post, acc_unlock. Qed.
Lemma acc_body : forall o b0 b, Acc pcmove (Body o b0 b).
Proof.
  intros o b0 b. revert b0. induction b as [r|sz a k IH|sz a v k IH|u|]; intros b0; constructor; intros p H;
    inversion H; subst; auto using acc_dead, acc_after.
Qed.
Lemma acc_lock : forall o, Acc pcmove (Lock o).
Proof. intros o. constructor. intros p H. inversion H; subst; auto using acc_dead, acc_body. Qed.
Lemma acc_pc : forall p, Acc pcmove p.
Proof.
  intros [| |o|o b0 b|o r|o r|]; auto using acc_dead, acc_idle, acc_lock, acc_body, acc_post, acc_unlock.
  constructor. intros p H. inversion H; subst; auto using acc_dead, acc_idle, acc_lock.
Qed.
Definition pmove (p' p : pc * Z) : Prop := pcmove (fst p') (fst p).
Lemma acc_proc : forall p, Acc pmove p.
Proof.
  intros p. remember (fst p) as c eqn:E. revert p E. induction (acc_pc c) as [c _ IH]. intros p ->.
  constructor. intros p' H. eapply IH; [exact H|reflexivity].
Qed.
Lemma step_moves : forall lim n s e s', step lim n s e s' -> goes_on s e -> one pmove (procs s') (procs s).
Proof.
  intros lim n s e s' H G.
  destruct H; cbn [goes_on procs] in *; try contradiction;
    try (eapply one_upd; [eassumption|]; unfold pmove; cbn [fst]; constructor; assumption).
  - destruct G as (p & u' & o' & E & P). cbn [procs] in E. rewrite H in E. injection E as <- <-. discriminate P.
  - eapply one_upd; [eassumption|]. unfold pmove; cbn [fst].
    match goal with H : pstep _ _ _ _ _ |- _ => destruct H end; constructor.
Qed.

(** Whatever the schedule: without new calls the system comes to rest, with any deaths and
    interrupted calls, and whatever is in the segment. *)
Theorem C109_every_schedule_ends : forall lim n s,
  Acc (fun s' s => exists e, step lim n s e s' /\ goes_on s e) s.
Proof.
  intros lim n s. remember (procs s) as l eqn:E. revert s E.
  induction (acc_one _ _ acc_proc l) as [l _ IH]. intros s ->.
  constructor. intros s' (e & H & G). eapply IH; [|reflexivity]. eapply step_moves; eassumption.
Qed.
Print Assumptions C109_every_schedule_ends.

Lemma cnt_nn : forall lim n k m0 tr s, exec lim n k m0 tr s -> 0 <= cnt s.
Proof.
  induction 1 as [|tr s e s' X IH ST]; [cbn; lia|]. destruct ST; cbn [cnt] in *; try lia. destruct (c <? semvmx); lia.
Qed.

(** No deadlock: while a call is going on some process can do the next step of its call. *)
Theorem C109_no_deadlock : forall n sz m0 k tr s,
  sane n sz -> created n sz m0 ->
  exec (seg_size n sz) n k m0 tr s -> (forall e, In e tr -> fine e = true) ->
  (exists i, busy s i) ->
  exists e s', step (seg_size n sz) n s e s' /\ works s e.
Proof.
  intros n sz m0 k tr s S C X F (i & p & u & o & Hi & P).
  assert (LI : LInv s).
  { eapply linv_exec; [exact X|]. intros e He. specialize (F e He). unfold fine in F. apply andb_prop in F.
    destruct F as [F _]. now apply negb_true_iff in F. }
  assert (B : forall i p u o, nth_error (procs s) i = Some (p, u) -> pending p = Some o -> busy s i).
  { intros i1 p1 u1 o1 H1 H2. exists p1, u1, o1. auto. }
  assert (D : (exists j q v, nth_error (procs s) j = Some (q, v) /\ holds q = true) \/ 0 < lk s).
  { clear - LI. destruct LI as [A _ N]. destruct (Z.eq_dec (lk s) 0) as [Z|Z]; [left|right; lia].
    assert (H : 0 < sumz hz (procs s)) by lia. clear A N Z. induction (procs s) as [|[q v] l IH]; [cbn in H; lia|].
    destruct (holds q) eqn:E; [exists 0%nat, q, v; auto|].
    destruct IH as (j & q' & v' & Hj & Hq); [|exists (Datatypes.S j), q', v'; auto].
    cbn in H. unfold hz in H at 1. cbn [fst] in H. rewrite E in H. exact H. }
  destruct s as [l c m ps]. cbn [procs lk] in *.
  assert (HB : forall j q v, nth_error ps j = Some (q, v) -> holds q = true ->
    exists e s', step (seg_size n sz) n (mkS l c m ps) e s' /\ works (mkS l c m ps) e).
  { intros j q v Hj Hq. destruct q as [| | |o' b0 b|o' r|o' r|]; try discriminate Hq; clear Hq.
    + destruct (C58_sections_are_safe n sz m0 k tr _ j o' b0 b v S C X F Hj) as (r & m' & R). cbn [sm] in R.
      destruct b as [x|w a kk|w a x kk|ub|]; cbn [run] in R; try discriminate.
      * eexists (ETau j), _. split; [eapply SEnd; exact Hj|]. eapply B; [exact Hj|reflexivity].
      * destruct (inb (seg_size n sz) w a) eqn:EI; [|discriminate].
        eexists (ETau j), _. split; [eapply SMem; [exact Hj|constructor; exact EI]|]. eapply B; [exact Hj|reflexivity].
      * destruct (inb (seg_size n sz) w a) eqn:EI; [|discriminate].
        eexists (ETau j), _. split; [eapply SMem; [exact Hj|constructor; exact EI]|]. eapply B; [exact Hj|reflexivity].
    + eexists (ETau j), _. split; [eapply SPost; exact Hj|]. eapply B; [exact Hj|reflexivity].
    + eexists (EDone j o' r), _. split; [eapply SUnlock; exact Hj|]. eapply B; [exact Hj|reflexivity]. }
  destruct D as [(j & q & v & Hj & Hq)|Hl]; [exact (HB j q v Hj Hq)|].
  destruct (holds p) eqn:Hp; [exact (HB i p u Hi Hp)|].
  destruct p as [| |o' |o' b0 b|o' r|o' r|]; try discriminate P; try discriminate Hp.
  - pose proof (cnt_nn _ _ _ _ _ _ X) as CN. cbn [cnt] in CN. destruct (Z.eq_dec c 0) as [Z|Z].
    + eexists (EFail i), _. split; [eapply SFail; [exact Hi|exact Z]|]. eapply B; [exact Hi|reflexivity].
    + eexists (ETau i), _. split; [eapply STicket; [exact Hi|lia]|]. eapply B; [exact Hi|reflexivity].
  - eexists (ETau i), _. split; [eapply SLock; [exact Hi|exact Hl]|]. eapply B; [exact Hi|reflexivity].
Qed.
Print Assumptions C109_no_deadlock.

(** what a working step does to one process *)
Lemma work_step : forall lim n s e s' i p u, step lim n s e s' -> works s e -> nth_error (procs s) i = Some (p, u) ->
  exists p' u', nth_error (procs s') i = Some (p', u') /\
  (pending p' = pending p \/ exists o, pending p = Some o /\ pending p' = None /\ returns i o [e]).
Proof.
  intros lim n s e s' i p u H W Hi.
  assert (G : forall j q v q' v', procs s' = upd (procs s) j (q', v') -> nth_error (procs s) j = Some (q, v) ->
    (pending q' = pending q \/ exists o, pending q = Some o /\ pending q' = None /\ returns j o [e]) ->
    exists p' u', nth_error (procs s') i = Some (p', u') /\
    (pending p' = pending p \/ exists o, pending p = Some o /\ pending p' = None /\ returns i o [e])).
  { intros j q v q' v' U E C. rewrite U. destruct (nthu _ (procs s) j i (q', v')) as [(-> & Y)|(N & Y)].
    - apply nth_error_Some. congruence.
    - rewrite E in Hi. injection Hi as <- <-. eauto.
    - rewrite Y. exists p, u. auto. }
  destruct H; cbn [works] in W; try contradiction; cbn [procs] in *;
    try (eapply G; [reflexivity|eassumption|]; cbn [pending]; try (left; reflexivity)).
  - exists p, u. auto.
  - right. exists QUnflush. split; [reflexivity|]. split; [reflexivity|]. right. split; [reflexivity|left; reflexivity].
  - left. destruct r as [[|]| | |]; reflexivity.
  - right. exists o. split; [reflexivity|]. split; [reflexivity|]. left. exists r. left. reflexivity.
Qed.
Lemma returns_app : forall i o a b, returns i o a \/ returns i o b -> returns i o (a ++ b).
Proof.
  intros i o a b [[(r & H)|(E & H)]|[(r & H)|(E & H)]].
  1,3: left; exists r; apply in_or_app; auto.
  all: right; split; [exact E|apply in_or_app; auto].
Qed.
Lemma work_steps : forall lim n s tr s2 i p u, works_to lim n s tr s2 -> nth_error (procs s) i = Some (p, u) ->
  exists p' u', nth_error (procs s2) i = Some (p', u') /\
  (pending p' = pending p \/ exists o, pending p = Some o /\ pending p' = None /\ returns i o tr).
Proof.
  intros lim n s tr s2 i p u H. revert p u. induction H as [s|s e s1 tr s2 H1 W H2 IH]; intros p u Hi.
  - exists p, u. auto.
  - destruct (work_step _ _ _ _ _ _ _ _ H1 W Hi) as (p1 & u1 & E1 & C1).
    destruct (IH p1 u1 E1) as (p2 & u2 & E2 & C2). exists p2, u2. split; [exact E2|].
    change (e :: tr) with ([e] ++ tr).
    destruct C1 as [C1|(o & A1 & A2 & A3)].
    + rewrite <- C1. destruct C2 as [C2|(o & A1 & A2 & A3)]; [auto|].
      right. exists o. split; [exact A1|]. split; [exact A2|]. apply returns_app. auto.
    + right. exists o. split; [exact A1|]. split; [|apply returns_app; auto].
      destruct C2 as [C2|(o' & B1 & _)]; congruence.
Qed.
Lemma exec_works : forall lim n k m0 s tr2 s2, works_to lim n s tr2 s2 -> forall tr, exec lim n k m0 tr s ->
  (forall e, In e tr -> fine e = true) ->
  exec lim n k m0 (tr ++ tr2) s2 /\ (forall e, In e (tr ++ tr2) -> fine e = true).
Proof.
  induction 1 as [s|s e s1 tr2 s2 H1 W H2 IH]; intros tr E F.
  - rewrite app_nil_r. auto.
  - change (e :: tr2) with ([e] ++ tr2). rewrite app_assoc. apply IH; [econstructor; eassumption|].
    intros e' H. apply in_app_or in H. destruct H as [H|[<-|[]]]; [auto|]. destruct e; try contradiction W; reflexivity.
Qed.

(** Every call returns: a run of working steps that cannot be continued has answered every
    call that was going on and left nobody waiting, and from every state there is such a run. *)
Theorem C109_calls_return : forall n sz m0 k tr s,
  sane n sz -> created n sz m0 ->
  exec (seg_size n sz) n k m0 tr s -> (forall e, In e tr -> fine e = true) ->
  (exists tr2 s2, works_to (seg_size n sz) n s tr2 s2 /\
     forall e s3, step (seg_size n sz) n s2 e s3 -> ~ works s2 e) /\
  (forall tr2 s2, works_to (seg_size n sz) n s tr2 s2 ->
     (forall e s3, step (seg_size n sz) n s2 e s3 -> ~ works s2 e) ->
     (forall i, ~ busy s2 i) /\
     (forall i p u o, nth_error (procs s) i = Some (p, u) -> pending p = Some o -> returns i o tr2)).
Proof.
  intros n sz m0 k tr s S C X F. split.
  - revert tr X F. induction (C109_every_schedule_ends (seg_size n sz) n s) as [s _ IH]. intros tr X F.
    assert (D : (exists i, busy s i) \/ forall i, ~ busy s i).
    { clear. destruct s as [l c m ps]. induction ps as [|[q v] ps IH].
      - right. intros [|i] (p & u & o & E & _); discriminate E.
      - destruct IH as [(i & p & u & o & A & B)|IH]; [left; exists (Datatypes.S i), p, u, o; auto|].
        destruct (pending q) as [o|] eqn:Q; [left; exists 0%nat, q, v, o; auto|].
        right. intros [|i] (p & u & o & A & B); [cbn in A; congruence|]. apply (IH i). exists p, u, o. auto. }
    destruct D as [D|D].
    + destruct (C109_no_deadlock n sz m0 k tr s S C X F D) as (e & s1 & St & W).
      destruct (IH s1) with (tr := tr ++ [e]) as (tr2 & s2 & S2 & Q2).
      * exists e. split; [exact St|]. destruct e; try contradiction W; try exact Logic.I. exact W.
      * econstructor; eassumption.
      * intros e' H. apply in_app_or in H. destruct H as [H|[<-|[]]]; [auto|]. destruct e; try contradiction W; reflexivity.
      * exists (e :: tr2), s2. split; [econstructor; eassumption|exact Q2].
    + exists [], s. split; [constructor|]. intros e s3 _ W. destruct e; try contradiction W; exact (D _ W).
  - intros tr2 s2 S2 M. destruct (exec_works _ _ _ _ _ _ _ S2 _ X F) as [X2 F2].
    assert (Q : forall i, ~ busy s2 i).
    { intros i H. destruct (C109_no_deadlock n sz m0 k _ s2 S C X2 F2) as (e & s3 & St & W); [eauto|]. exact (M e s3 St W). }
    split; [exact Q|]. intros i p u o Hi P.
    destruct (work_steps _ _ _ _ _ _ _ _ S2 Hi) as (p' & u' & Hi' & [E|(o' & A & _ & B)]).
    + exfalso. apply (Q i). exists p', u', o. split; [exact Hi'|congruence].
    + congruence.
Qed.
Print Assumptions C109_calls_return.

(** the hypotheses are met: a flush in its section, a flush that waits for the lock and an
    unflush of an empty queue *)
Definition qop_eqb (a b : option qop) : bool :=
  match a, b with
  | Some (QFlush x), Some (QFlush y) => if list_eq_dec Z.eq_dec x y then true else false
  | Some QUnflush, Some QUnflush | None, None => true
  | _, _ => false
  end.
Example C109_ex : exists tr s,
  exec (seg_size 2 3) 2 3 m3 tr s /\ (forall e, In e tr -> fine e = true) /\
  map (fun p => pending (fst p)) (procs s) = [Some (QFlush [1;2]); Some (QFlush [3;4]); Some QUnflush].
Proof.
  set (l := (0%nat, ACall (QFlush [1;2])) :: many 0 3 ++ [(1%nat, ACall (QFlush [3;4])); (2%nat, ACall QUnflush)]).
  pose proof (witness (seg_size 2 3) 2 3 m3 l
    (fun tr s => forallb fine tr && match map (fun p => pending (fst p)) (procs s) with
       | [a; b; c] => qop_eqb a (Some (QFlush [1;2])) && qop_eqb b (Some (QFlush [3;4])) && qop_eqb c (Some QUnflush)
       | _ => false end) dflt) as W.
  destruct W as (X & T). { vm_compute. reflexivity. }
  revert X T. generalize (match fires (seg_size 2 3) 2 l [] (init 3 m3) with Some o => o | None => dflt end).
  clear l. intros [tr s] X T. cbn [fst snd] in *. apply andb_prop in T. destruct T as [T1 T2].
  exists tr, s. split; [exact X|]. split; [apply forallb_forall; exact T1|].
  destruct (map _ _) as [|a [|b [|c [|d r] ] ] ]; try discriminate. apply andb_prop in T2. destruct T2 as [T2 Tc].
  apply andb_prop in T2. destruct T2 as [Ta Tb].
  assert (Q : forall x y, qop_eqb x (Some y) = true -> (exists z, y = QFlush z) \/ y = QUnflush -> x = Some y).
  { intros [[z| |o v|o]|] y H [(w & ->)| ->]; cbn in H; try discriminate; try reflexivity.
    destruct (list_eq_dec Z.eq_dec z w) as [->|]; [reflexivity|discriminate]. }
  rewrite (Q _ _ Ta), (Q _ _ Tb), (Q _ _ Tc); eauto.
Qed.
