(** C114, exactly: a signal that arrives while the lock is taken stops the program for ever. *)

From Coq Require Import ZArith List Bool Lia.
From Verif Require Import Base Daemon_Model Fd_Model Sig_Model Sig_Spec Sig_Props.
Import ListNotations.
Local Open Scope Z_scope.

(** some handlers above [fr0] wait for the lock or are about to *)
Definition doomed (fr0 : list (Z * list mstep)) (s : thread) : Prop :=
  locked s = true /\ exists x fr1, frames s = (x :: fr1) ++ fr0 /\
  Forall (fun x => exists r, snd x = Work :: Lock :: r \/ snd x = Lock :: r) (x :: fr1).

Lemma doomed_step : forall lv fr0 s s', 6 <= lv -> doomed fr0 s -> sstep lv s s' ->
  doomed fr0 s' /\ fl s' = fl s /\ main s' = main s.
Proof.
  intros lv fr0 s s' Q (L & x & fr1 & E & FA) HS.
  destruct HS as [sig fr m' lk f' X Y|sig fr m' lk f'|sig o rest fr m' lk f' lk' f'' R|o rest lk f' lk' f'' R];
    cbn [frames main fl locked app] in *.
  - split; [|auto]. split; [exact L|]. exists (sig, handler_steps lv sig), (x :: fr1).
    split; [cbn [frames app]; rewrite E; reflexivity|].
    constructor; [|exact FA]. cbn [snd]. unfold handler_steps, log_steps. destruct (Z.leb_spec 6 lv); [|lia].
    eexists. left. reflexivity.
  - exfalso. injection E as <- ->. inversion FA as [|? ? (z & X) _]; subst. cbn in X. destruct X; discriminate.
  - subst lk. injection E as <- ->. inversion FA as [|? ? (z & X) FA']; subst. cbn in X.
    destruct X as [X|X]; injection X as -> ->; inversion R; subst.
    split; [|auto]. split; [reflexivity|]. exists (sig, Lock :: z), fr1. split; [reflexivity|].
    constructor; [|exact FA']. exists z. right. reflexivity.
  - discriminate.
Qed.

(** With the level at notice or above, whatever the program and the handlers were doing: if a
    signal arrives while the lock of localtime_r is taken, then from there on no flag is set, the
    main program makes no step and no handler that was running returns, in all executions. *)
Theorem C114_in_the_lock : forall lv sig fr m f s', 6 <= lv ->
  sexec lv (mkThr ((sig, handler_steps lv sig) :: fr) m true f) s' ->
  fl s' = f /\ main s' = m /\ locked s' = true /\ exists above, above <> [] /\ frames s' = above ++ fr.
Proof.
  intros lv sig fr m f s' Q H.
  assert (G : doomed fr s' /\ fl s' = f /\ main s' = m).
  { remember (mkThr _ m true f) as s0 eqn:E0. induction H as [s|s s1 s2 H IH HS].
    - subst s. split; [|auto]. split; [reflexivity|]. exists (sig, handler_steps lv sig), []. split; [reflexivity|].
      constructor; [|constructor]. cbn [snd]. unfold handler_steps, log_steps. destruct (Z.leb_spec 6 lv); [|lia].
      eexists. left. reflexivity.
    - destruct (IH E0) as (D & F & M). destruct (doomed_step lv fr _ _ Q D HS) as (D' & F' & M').
      split; [exact D'|]. split; congruence. }
  destruct G as ((L & x & fr1 & E & _) & F & M). split; [exact F|]. split; [exact M|]. split; [exact L|].
  exists (x :: fr1). split; [discriminate|exact E].
Qed.
Print Assumptions C114_in_the_lock.

(** So, at these levels, a program that takes and releases the lock in turn can always go on
    exactly as long as no signal has arrived while the lock was taken: *)
Definition arrival (lv : Z) (s s' : thread) : Prop := exists sig fr m lk f,
  s = mkThr fr m lk f /\ s' = mkThr ((sig, handler_steps lv sig) :: fr) m lk f /\ In sig sig_list /\ ~ In sig (map fst fr).
Theorem C114_exact : forall lv m f s s', 6 <= lv -> tidy m false ->
  sexec_out lv (mkThr [] m false f) s -> arrival lv s s' ->
  (locked s = false -> goes_on lv s') /\
  (locked s = true -> forall s'', sexec lv s' s'' -> fl s'' = fl s /\ main s'' = main s /\ frames s'' <> []).
Proof.
  intros lv m f s s' Q T H (sig & fr & m' & lk & f' & -> & -> & I & N). cbn [locked fl main]. split.
  - intros ->. apply (C114_out_of_the_lock lv m f _ T). eapply SO_step; [exact H|apply SS_arrive; assumption|].
    right. reflexivity.
  - intros -> s'' E. destruct (C114_in_the_lock lv sig fr m' f' s'' Q E) as (A & B & _ & ab & C & D).
    split; [exact A|]. split; [exact B|]. rewrite D. destruct ab; [congruence|discriminate].
Qed.
Print Assumptions C114_exact.

(** both cases occur, one step apart *)
Example C114_exact_ex : exists s s' t t',
  sexec_out 7 (mkThr [] (log_steps 7 6) false no_flags) s /\ arrival 7 s s' /\ locked s = false /\
  sexec_out 7 (mkThr [] (log_steps 7 6) false no_flags) t /\ arrival 7 t t' /\ locked t = true /\
  tidy (log_steps 7 6) false.
Proof.
  assert (A1 : sexec_out 7 (mkThr [] (log_steps 7 6) false no_flags) (mkThr [] [Lock; Unlock; Work] false no_flags)).
  { eapply SO_step; [apply SO_refl|apply (SS_main 7 Work); constructor|left; cbn; lia]. }
  exists (mkThr [] [Lock; Unlock; Work] false no_flags), (mkThr [(15, handler_steps 7 15)] [Lock; Unlock; Work] false no_flags).
  exists (mkThr [] [Unlock; Work] true no_flags), (mkThr [(15, handler_steps 7 15)] [Unlock; Work] true no_flags).
  split; [exact A1|]. split; [|split; [reflexivity|]].
  { exists 15, [], [Lock; Unlock; Work], false, no_flags. repeat split; [cbn; tauto|intros []]. }
  split; [|split; [|split; [reflexivity|apply (tidy_log 7 6 0)]]].
  - eapply SO_step; [exact A1|apply (SS_main 7 Lock); constructor|left; cbn; lia].
  - exists 15, [], [Unlock; Work], true, no_flags. repeat split; [cbn; tauto|intros []].
Qed.
