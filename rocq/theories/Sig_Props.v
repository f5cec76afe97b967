(** Properties of signals: installation, arrival, and signals during logging. *)

From Coq Require Import ZArith List Bool Lia Permutation.
From Verif Require Import Base Fd_Model Daemon_Model Daemon_Props Sig_Model Sig_Spec.
Import ListNotations.
Local Open Scope Z_scope.

(** *** C113: installation *)

Lemma put_same : forall t s a, put t s a s = a.
Proof. intros. unfold put. rewrite Z.eqb_refl. reflexivity. Qed.
Lemma put_other : forall t s a x, x <> s -> put t s a x = t x.
Proof. intros. unfold put. destruct (Z.eqb_spec x s); [contradiction|reflexivity]. Qed.

Lemma restart_bit : forall i, 0 <= i -> Z.testbit SA_RESTART i = (i =? 28).
Proof. intros i H. change SA_RESTART with (2 ^ 28). rewrite Z.pow2_bits_eqb by lia. apply Z.eqb_sym. Qed.

Lemma norestart_gen : forall ans l t r t', NoDup l -> sig_init_norestart ans l t = (r, t') ->
  exists done rest, l = done ++ rest /\
    (forall s, In s done -> taken_over (t' s) (t s)) /\ (forall s, ~ In s done -> t' s = t s) /\
    ((r = 0 /\ rest = []) \/ (r = -1 /\ exists s rest', rest = s :: rest' /\ ans s <> (true, true))).
Proof.
  induction l as [|x l IH]; intros t r t' ND H; cbn [sig_init_norestart] in H.
  - injection H as <- <-. exists [], []. split; [reflexivity|]. split; [intros s []|]. split; [reflexivity|]. left. auto.
  - assert (Stop : r = -1 /\ t' = t -> ans x <> (true, true) -> exists done rest, x :: l = done ++ rest /\
      (forall s, In s done -> taken_over (t' s) (t s)) /\ (forall s, ~ In s done -> t' s = t s) /\
      ((r = 0 /\ rest = []) \/ (r = -1 /\ exists s rest', rest = s :: rest' /\ ans s <> (true, true)))).
    { intros [-> ->] N. exists [], (x :: l). split; [reflexivity|]. split; [intros s []|]. split; [reflexivity|].
      right. split; [reflexivity|]. exists x, l. auto. }
    destruct (ans x) as [a b] eqn:EA. cbn [fst snd] in H.
    destruct a; [|injection H as <- <-; apply Stop; [auto|discriminate]].
    destruct b; [|injection H as <- <-; apply Stop; [auto|discriminate]].
    cbn [sa_handler sa_flags sa_mask] in H.
    inversion ND as [|? ? NX NL]; subst. destruct (IH _ _ _ NL H) as (done & rest & E & D & O & R).
    exists (x :: done), rest. split; [rewrite E; reflexivity|].
    assert (XD : ~ In x done) by (intros X; apply NX; rewrite E; apply in_or_app; auto).
    split; [|split; [|exact R]].
    + intros s [<-|Hs].
      * rewrite O by exact XD. rewrite put_same. split; [reflexivity|]. split; [reflexivity|]. intros i Hi. cbn [sa_flags].
        rewrite Z.ldiff_spec, restart_bit by exact Hi. destruct (i =? 28); cbn; [apply andb_false_r|apply andb_true_r].
      * specialize (D s Hs). rewrite put_other in D; [exact D|]. intros ->. contradiction.
    + intros s Hs. cbn in Hs. rewrite O by tauto. apply put_other. intros ->. tauto.
Qed.

(** If coda_signal_init_norestart returns 0 then all signals of the list, and no others, have
    the handler and do not resume system calls, and nothing else of their actions changed. *)
Theorem C113_norestart : forall ans t t', sig_init_norestart ans sig_list t = (0, t') ->
  (forall s, In s sig_list -> taken_over (t' s) (t s)) /\ (forall s, ~ In s sig_list -> t' s = t s).
Proof.
  intros ans t t' H. destruct (norestart_gen ans sig_list t 0 t' (proj1 (proj2 C74_installed)) H) as (done & rest & E & D & O & R).
  destruct R as [(_ & ->)|(R & _)]; [|discriminate]. rewrite app_nil_r in E. rewrite E. auto.
Qed.
Print Assumptions C113_norestart.

(** If it fails it returns -1, at a signal that the system refused; those before it in the list
    were taken over and all the others are as they were. *)
Theorem C113_norestart_failure : forall ans t r t', sig_init_norestart ans sig_list t = (r, t') -> r <> 0 ->
  r = -1 /\ exists done s rest, sig_list = done ++ s :: rest /\ ans s <> (true, true) /\
  (forall s, In s done -> taken_over (t' s) (t s)) /\ (forall s, ~ In s done -> t' s = t s).
Proof.
  intros ans t r t' H Hr. destruct (norestart_gen ans sig_list t r t' (proj1 (proj2 C74_installed)) H) as (done & rest & E & D & O & R).
  destruct R as [(R & _)|(R & s & rest' & -> & N)]; [contradiction|]. split; [exact R|]. exists done, s, rest'. auto.
Qed.
Print Assumptions C113_norestart_failure.

Lemma init_gen : forall ans l t r t', NoDup l -> sig_init ans l t = (r, t') -> r = 0 ->
  (forall s, In s l -> t' s = mkAct Coda SA_RESTART [s]) /\ (forall s, ~ In s l -> t' s = t s).
Proof.
  induction l as [|x l IH]; intros t r t' ND H R; cbn [sig_init] in H.
  - injection H as <- <-. split; [intros s []|reflexivity].
  - inversion ND as [|? ? NX NL]; subst. destruct (fst (ans x)); [|discriminate].
    destruct (IH _ _ _ NL H eq_refl) as (D & O). split.
    + intros s [<-|Hs]; [rewrite O by exact NX; apply put_same|apply D, Hs].
    + intros s Hs. cbn in Hs. rewrite O by tauto. apply put_other. intros ->. tauto.
Qed.
(** After coda_signal_init they have the handler too, and system calls are resumed. *)
Theorem C113_restart : forall ans t t', sig_init ans sig_list t = (0, t') ->
  (forall s, In s sig_list -> sa_handler (t' s) = Coda /\ Z.testbit (sa_flags (t' s)) 28 = true) /\
  (forall s, ~ In s sig_list -> t' s = t s).
Proof.
  intros ans t t' H. destruct (init_gen ans sig_list t 0 t' (proj1 (proj2 C74_installed)) H eq_refl) as (D & O).
  split; [|exact O]. intros s Hs. rewrite D by exact Hs. split; reflexivity.
Qed.
Print Assumptions C113_restart.

Lemma land_bit : forall f i, 0 <= i -> (Z.land f (2 ^ i) =? 0) = negb (Z.testbit f i).
Proof.
  intros f i Hi. destruct (Z.testbit f i) eqn:E; cbn.
  - apply Z.eqb_neq. intros X. apply (f_equal (fun z => Z.testbit z i)) in X.
    rewrite Z.land_spec, Z.pow2_bits_true, E, Z.bits_0 in X by lia. discriminate.
  - apply Z.eqb_eq. apply Z.bits_inj'. intros n Hn. rewrite Z.land_spec, Z.bits_0, Z.pow2_bits_eqb by lia.
    destruct (Z.eqb_spec i n); [subst; rewrite E; reflexivity|apply andb_false_r].
Qed.

(** Both functions return 0 if the system grants every request, and -1 if it refuses one. *)
Theorem C113_return_values : forall ans t,
  let all := forall s, In s sig_list -> fst (ans s) = true in
  let both := forall s, In s sig_list -> ans s = (true, true) in
  (all -> fst (sig_init ans sig_list t) = 0) /\ (~ all -> fst (sig_init ans sig_list t) = -1) /\
  (both -> fst (sig_init_norestart ans sig_list t) = 0) /\ (~ both -> fst (sig_init_norestart ans sig_list t) = -1).
Proof.
  intros ans t. cbv zeta.
  assert (G : forall l t, (fst (sig_init ans l t) = 0 /\ (forall s, In s l -> fst (ans s) = true)) \/
                          (fst (sig_init ans l t) = -1 /\ ~ forall s, In s l -> fst (ans s) = true)).
  { induction l as [|x l IH]; intros t0; cbn [sig_init]; [left; split; [reflexivity|intros s []]|].
    destruct (fst (ans x)) eqn:E; [|right; split; [reflexivity|intros H; rewrite (H x) in E by (left; reflexivity); discriminate]].
    destruct (IH (put t0 x (mkAct Coda SA_RESTART [x]))) as [[A B]|[A B]]; [left|right]; (split; [exact A|]).
    - intros s [<-|Hs]; auto.
    - intros H. apply B. intros s Hs. apply H. right. exact Hs. }
  assert (N : forall l t, (fst (sig_init_norestart ans l t) = 0 /\ (forall s, In s l -> ans s = (true, true))) \/
                          (fst (sig_init_norestart ans l t) = -1 /\ ~ forall s, In s l -> ans s = (true, true))).
  { induction l as [|x l IH]; intros t0; cbn [sig_init_norestart]; [left; split; [reflexivity|intros s []]|].
    destruct (ans x) as [a b] eqn:E. cbn [fst snd].
    destruct a; [|right; split; [reflexivity|intros H; rewrite (H x) in E by (left; reflexivity); discriminate]].
    destruct b; [|right; split; [reflexivity|intros H; rewrite (H x) in E by (left; reflexivity); discriminate]].
    cbv zeta. match goal with |- context [sig_init_norestart ans l ?u] => destruct (IH u) as [[A B]|[A B]] end; [left|right]; (split; [exact A|]).
    - intros s [<-|Hs]; auto.
    - intros H. apply B. intros s Hs. apply H. right. exact Hs. }
  destruct (G sig_list t) as [[A B]|[A B]], (N sig_list t) as [[C D]|[C D]]; tauto.
Qed.
Print Assumptions C113_return_values.
(** A signal that arrives afterwards runs the handler; a system call that it interrupts goes on
    after coda_signal_init and fails (EINTR) after coda_signal_init_norestart. *)
Theorem C113_interrupted_calls : forall ans t t' s, In s sig_list ->
  (sig_init ans sig_list t = (0, t') -> arrive t' s = (Coda, true, t')) /\
  (sig_init_norestart ans sig_list t = (0, t') -> exists t2, arrive t' s = (Coda, false, t2)).
Proof.
  intros ans t t' s Hs. split; intros H.
  - destruct (init_gen ans sig_list t 0 t' (proj1 (proj2 C74_installed)) H eq_refl) as (D & _).
    unfold arrive. rewrite D by exact Hs. reflexivity.
  - destruct (C113_norestart ans t t' H) as (D & _). destruct (D s Hs) as (D1 & _ & D3). unfold arrive. rewrite D1.
    change SA_RESTART with (2 ^ 28). rewrite land_bit by lia. rewrite (D3 28) by lia. cbn [negb Z.eqb Pos.eqb]. eauto.
Qed.
Print Assumptions C113_interrupted_calls.
Example C113_ex_granted : (forall s, In s sig_list -> fst ((fun _ : Z => (true, false)) s) = true) /\
  sig_init (fun _ => (true, false)) sig_list (fun _ => mkAct Dfl 0 []) =
  (0, snd (sig_init (fun _ => (true, false)) sig_list (fun _ => mkAct Dfl 0 []))).
Proof. split; [intros s _; reflexivity|]. rewrite (surjective_pairing (sig_init _ _ _)) at 1. reflexivity. Qed.

Lemma arrivals_gen : forall sigs t f, (forall s, In s sigs -> sa_handler (t s) = Coda /\ Z.testbit (sa_flags (t s)) 31 = false) ->
  arrivals sigs (Alive t f) = Alive t (deliver f sigs).
Proof.
  induction sigs as [|x sigs IH]; intros t f H; [reflexivity|]. cbn [arrivals]. unfold arrive.
  destruct (H x (or_introl eq_refl)) as [H1 H2]. rewrite H1. change SA_RESETHAND with (2 ^ 31). rewrite land_bit, H2 by lia. cbn [negb].
  rewrite IH by (intros s Hs; apply H; right; exact Hs). reflexivity.
Qed.

(** Once coda_signal_init succeeded, any number of signals only set the flags. *)
Theorem C113_every_signal_is_handled : forall ans t t' sigs f, sig_init ans sig_list t = (0, t') ->
  (forall s, In s sigs -> In s sig_list) -> arrivals sigs (Alive t' f) = Alive t' (deliver f sigs).
Proof.
  intros ans t t' sigs f H HS. apply arrivals_gen. intros s Hs.
  destruct (init_gen ans sig_list t 0 t' (proj1 (proj2 C74_installed)) H eq_refl) as (D & _).
  rewrite D by (apply HS, Hs). split; reflexivity.
Qed.
Print Assumptions C113_every_signal_is_handled.
(** After coda_signal_init_norestart as well, unless an action had SA_RESETHAND before, *)
Theorem C113_every_signal_is_handled_norestart : forall ans t t' sigs f, sig_init_norestart ans sig_list t = (0, t') ->
  (forall s, In s sigs -> In s sig_list /\ Z.testbit (sa_flags (t s)) 31 = false) ->
  arrivals sigs (Alive t' f) = Alive t' (deliver f sigs).
Proof.
  intros ans t t' sigs f H HS. apply arrivals_gen. intros s Hs. destruct (HS s Hs) as [L B].
  destruct (C113_norestart ans t t' H) as (D & _). destruct (D s L) as (D1 & _ & D3). split; [exact D1|].
  rewrite D3 by lia. exact B.
Qed.
Print Assumptions C113_every_signal_is_handled_norestart.
Lemma all_granted : forall t, sig_init_norestart (fun _ => (true, true)) sig_list t =
  (0, snd (sig_init_norestart (fun _ => (true, true)) sig_list t)).
Proof.
  intros t. generalize sig_list. intros l. revert t. induction l as [|x l IH]; intros t; [reflexivity|].
  cbn [sig_init_norestart fst snd]. apply IH.
Qed.
(** for then the second signal ends the process. *)
Theorem C113_one_shot_refuted : exists t t', sig_init_norestart (fun _ => (true, true)) sig_list t = (0, t') /\
  arrivals [1; 1] (Alive t' no_flags) = Ended 1.
Proof.
  exists (fun _ => mkAct Dfl SA_RESETHAND []), (snd (sig_init_norestart (fun _ => (true, true)) sig_list (fun _ => mkAct Dfl SA_RESETHAND []))).
  split; [apply all_granted|]. vm_compute. reflexivity.
Qed.
Print Assumptions C113_one_shot_refuted.

Example C113_ex : exists t', sig_init_norestart (fun _ => (true, true)) sig_list (fun _ => mkAct Dfl (SA_RESTART + 4) [9]) = (0, t') /\
  arrivals [15; 10; 15] (Alive t' no_flags) = Alive t' (mkF 1 0 1 0) /\ t' 15 = mkAct Coda 4 [9] /\ t' 11 = mkAct Dfl (SA_RESTART + 4) [9].
Proof.
  eexists. split; [apply all_granted|]. split; [|split; vm_compute; reflexivity].
  apply (arrivals_gen [15; 10; 15]). intros s [<-|[<-|[<-|[]]]]; vm_compute; split; reflexivity.
Qed.

(** *** C114: signals while the program writes to the log *)

Lemma tidy_log : forall lv k sig, tidy (handler_steps lv sig) false /\ (lv < 6 -> handler_steps lv sig = [Flag sig]) /\
  (k <= lv -> log_steps lv k = [Work; Lock; Unlock; Work]) /\ tidy (log_steps lv k) false.
Proof.
  intros. unfold handler_steps, log_steps. destruct (Z.leb_spec 6 lv), (Z.leb_spec k lv); cbn; repeat split; intros; try lia; auto.
Qed.

(** Not in the code: what holds in executions where no signal arrives while the lock is taken *)
Definition out_inv (s : thread) : Prop :=
  match frames s with
  | [] => tidy (main s) (locked s)
  | (_, r) :: fr => tidy r (locked s) /\ Forall (fun x => tidy (snd x) false) fr /\ tidy (main s) false
  end.
Lemma mrun_tidy : forall o r lk f lk' f', mrun o lk f lk' f' -> tidy (o :: r) lk -> tidy r lk'.
Proof. intros o r lk f lk' f' H T. destruct H; cbn in T; tauto. Qed.
Lemma tidy_runs : forall o r lk f, tidy (o :: r) lk -> exists lk' f', mrun o lk f lk' f'.
Proof.
  intros [| | |sig] r lk f H; cbn in H; eexists _, _.
  - destruct H as [-> _]. constructor.
  - constructor.
  - constructor.
  - constructor.
Qed.
Lemma out_goes_on : forall lv s, out_inv s -> goes_on lv s.
Proof.
  intros lv [fr m lk f] H. unfold out_inv, goes_on in *. cbn [frames main locked] in *. destruct fr as [|[sig r] fr].
  - destruct m as [|o m]; [left; auto|right]. destruct (tidy_runs o m lk f H) as (lk' & f' & R).
    eexists. split; [apply SS_main, R|]. cbn. lia.
  - right. destruct H as (H & _). destruct r as [|o r].
    + eexists. split; [apply SS_return|]. cbn. lia.
    + destruct (tidy_runs o r lk f H) as (lk' & f' & R). eexists. split; [apply SS_handler, R|]. cbn. lia.
Qed.

(** Whatever the level, if no signal arrives between the taking and the release of the lock in
    localtime_r, then the program never gets stuck. *)
Theorem C114_out_of_the_lock : forall lv m f s, tidy m false ->
  sexec_out lv (mkThr [] m false f) s -> goes_on lv s.
Proof.
  intros lv m f s T H. apply out_goes_on. remember (mkThr [] m false f) as s0. induction H as [s|s s1 s2 H IH HS HO].
  - subst. exact T.
  - specialize (IH Heqs0). clear H T Heqs0. unfold out_inv in *. destruct HS; cbn [frames main locked length] in *.
    + destruct HO as [HO|HO]; [lia|]. subst lk. split; [apply (tidy_log lv 0)|].
      destruct fr as [|[x r] fr]; [auto|]. destruct IH as (I1 & I2 & I3). split; [|exact I3]. constructor; [exact I1|exact I2].
    + destruct IH as (I1 & I2 & I3). cbn in I1. subst lk. destruct fr as [|[x r] fr]; [exact I3|].
      inversion I2; subst. auto.
    + destruct IH as (I1 & I2 & I3). split; [|auto]. eapply mrun_tidy; eassumption.
    + eapply mrun_tidy; eassumption.
Qed.
Print Assumptions C114_out_of_the_lock.

(** With a level below notice the handler writes nothing; then signals may arrive at any time. *)
Theorem C114_quiet : forall lv m f s, lv < 6 -> tidy m false -> sexec lv (mkThr [] m false f) s -> goes_on lv s.
Proof.
  intros lv m f s Q T H.
  assert (I : Forall (fun x => snd x = [] \/ snd x = [Flag (fst x)]) (frames s) /\ tidy (main s) (locked s)).
  { remember (mkThr [] m false f) as s0. induction H as [s|s s1 s2 H IH HS]; [subst; split; [constructor|exact T]|].
    specialize (IH Heqs0). clear H T Heqs0. destruct IH as [I1 I2]. destruct HS as [sig fr m' lk f' X Y|sig fr m' lk f'|sig o rest fr m' lk f' lk' f'' R|o rest lk f' lk' f'' R];
      cbn [frames main locked] in *.
    - split; [|exact I2]. constructor; [right; cbn; apply (tidy_log lv 0); exact Q|exact I1].
    - inversion I1; subst. auto.
    - inversion I1 as [|? ? X I3]; subst. cbn in X. destruct X as [X|X]; [discriminate|]. injection X as -> ->.
      inversion R; subst. split; [constructor; [left; reflexivity|exact I3]|exact I2].
    - split; [constructor|]. eapply mrun_tidy; eassumption. }
  destruct s as [fr m' lk f']. destruct I as [I1 I2]. unfold goes_on. cbn [frames main locked] in *. destruct fr as [|[sig r] fr].
  - destruct m' as [|o m']; [left; auto|right]. destruct (tidy_runs o m' lk f' I2) as (lk' & f'' & R).
    eexists. split; [apply SS_main, R|]. cbn. lia.
  - right. inversion I1 as [|? ? X I3]; subst. cbn in X. destruct X as [->| ->].
    + eexists. split; [apply SS_return|]. cbn. lia.
    + eexists. split; [apply SS_handler; constructor|]. cbn. lia.
Qed.
Print Assumptions C114_quiet.

(** When all handlers have returned, the flags are those of the signals that arrived. *)
Definition pending (s : thread) : list Z := flat_map (fun x => if existsb (fun o => match o with Flag _ => true | _ => false end) (snd x) then [fst x] else []) (frames s).
Lemma deliver_app : forall f a b, deliver f (a ++ b) = deliver (deliver f a) b.
Proof. intros. unfold deliver. apply fold_left_app. Qed.
Theorem C114_flags : forall lv m f l s, sets_no_flag m -> straced lv (mkThr [] m false f) l s -> frames s = [] ->
  exists sigs, Permutation sigs l /\ fl s = deliver f sigs.
Proof.
  intros lv m f l s NF H E.
  assert (I : sets_no_flag (main s) /\
    Forall (fun x => exists p, handler_steps lv (fst x) = p ++ snd x) (frames s) /\
    exists sigs, Permutation (sigs ++ pending s) l /\ fl s = deliver f sigs).
  { clear E. remember (mkThr [] m false f) as s0.
    assert (HS : forall sig, handler_steps lv sig = [Work; Lock; Unlock; Work; Flag sig] \/ handler_steps lv sig = [Flag sig]).
    { intros sig. unfold handler_steps, log_steps. destruct (6 <=? lv); auto. }
    induction H as [s|s l s1 s2 H IH ST SL|s l s1 s2 sig r H IH ST SL].
    - subst. split; [exact NF|]. split; [constructor|]. exists []. split; [constructor|reflexivity].
    - destruct (IH Heqs0) as (I1 & I2 & sigs & I3 & I4). clear IH H Heqs0.
      destruct ST as [sig fr m' lk f' X Y|sig fr m' lk f'|sig o rest fr m' lk f' lk' f'' R|o rest lk f' lk' f'' R];
        cbn [frames main fl length] in *.
      + lia.
      + split; [exact I1|]. inversion I2; subst. split; [assumption|]. exists sigs. split; [exact I3|reflexivity].
      + split; [exact I1|]. inversion I2 as [|? ? (p & X) I5]; subst. cbn [fst snd] in X.
        split. { constructor; [|exact I5]. exists (p ++ [o]). cbn [fst snd]. rewrite <- app_assoc. exact X. }
        destruct o as [| | |g].
        1-3: inversion R; subst; exists sigs; split; [exact I3|reflexivity].
        assert (rest = [] /\ g = sig) as [-> ->].
        { destruct (HS sig) as [Y|Y]; rewrite Y in X.
          - destruct p as [|? [|? [|? [|? [|? p]]]]]; cbn in X; try discriminate X; [injection X; auto|].
            exfalso. destruct p; discriminate X.
          - destruct p as [|? p]; cbn in X; [injection X; auto|]. exfalso. destruct p; discriminate X. }
        inversion R; subst. exists (sigs ++ [sig]). split.
        * unfold pending in *. cbn [flat_map existsb snd fst frames] in *. cbn [app] in *. rewrite <- app_assoc. exact I3.
        * rewrite deliver_app. reflexivity.
      + split. { intros g Hg. apply (I1 g). right. exact Hg. }
        split; [constructor|]. exists sigs. split; [exact I3|]. rewrite <- I4.
        inversion R; subst; try reflexivity. exfalso. eapply I1. left. reflexivity.
    - destruct (IH Heqs0) as (I1 & I2 & sigs & I3 & I4). clear IH H Heqs0.
      destruct ST as [sig' fr m' lk f' X Y|sig' fr m' lk f'|sig' o rest fr m' lk f' lk' f'' R|o rest lk f' lk' f'' R];
        cbn [frames main fl] in *.
      + injection SL as <- <-. split; [exact I1|]. split; [constructor; [exists []; reflexivity|exact I2]|].
        exists sigs. split; [|exact I4]. unfold pending in *. cbn [flat_map frames fst snd] in *.
        assert (EX : existsb (fun o => match o with Flag _ => true | _ => false end) (handler_steps lv sig') = true).
        { destruct (HS sig') as [Z|Z]; rewrite Z; reflexivity. }
        rewrite EX. cbn [app]. symmetry. apply Permutation_cons_app. symmetry. exact I3.
      + exfalso. apply (f_equal (@length _)) in SL. cbn in SL. lia.
      + exfalso. apply (f_equal (@length _)) in SL. cbn in SL. lia.
      + discriminate. }
  destruct I as (_ & _ & sigs & P & F). exists sigs. split; [|exact F]. unfold pending in P. rewrite E in P. cbn in P.
  rewrite app_nil_r in P. exact P.
Qed.
Print Assumptions C114_flags.

(** A thread that waits for the lock that it holds itself waits for ever: whatever happens,
    the flags and the main program stay as they are. *)
Definition dead (s : thread) : Prop :=
  locked s = true /\ exists fr1 sig r fr0, frames s = fr1 ++ (sig, Lock :: r) :: fr0 /\
  Forall (fun x => exists r, snd x = Work :: Lock :: r \/ snd x = Lock :: r) fr1.
Lemma dead_forever : forall lv s s', 6 <= lv -> dead s -> sexec lv s s' -> dead s' /\ fl s' = fl s /\ main s' = main s.
Proof.
  intros lv s s' Q D H. induction H as [s|s s1 s2 H IH HS]; [auto|]. destruct (IH D) as (D1 & F & M). rewrite <- F, <- M. clear IH D H F M.
  destruct D1 as (L & fr1 & sg & r & fr0 & E & FA).
  destruct HS as [sig fr m' lk f' X Y|sig fr m' lk f'|sig o rest fr m' lk f' lk' f'' R|o rest lk f' lk' f'' R];
    cbn [frames main fl locked] in *.
  - split; [|auto]. split; [exact L|]. exists ((sig, handler_steps lv sig) :: fr1), sg, r, fr0. split; [cbn [frames]; rewrite E; reflexivity|].
    constructor; [|exact FA]. cbn [snd]. unfold handler_steps, log_steps. destruct (Z.leb_spec 6 lv); [|lia]. eexists. left. reflexivity.
  - exfalso. destruct fr1 as [|[x y] fr1]; [discriminate|]. injection E as -> <- ->. inversion FA as [|? ? (z & X) _]; subst.
    cbn in X. destruct X; discriminate.
  - subst lk. destruct fr1 as [|[x y] fr1].
    + injection E as -> -> -> ->. inversion R.
    + injection E as -> <- ->. inversion FA as [|? ? (z & X) FA']; subst. cbn in X. destruct X as [X|X]; injection X as -> ->; inversion R; subst.
      split; [|auto]. split; [reflexivity|]. exists ((x, Lock :: z) :: fr1), sg, r, fr0. split; [reflexivity|].
      constructor; [|exact FA']. exists z. right. reflexivity.
  - destruct fr1; discriminate.
Qed.

(** So with the level at notice or above, a signal that arrives while a message is being
    written can stop the program for good before it sets its flag: *)
Theorem C114_signal_during_message_refuted : forall lv, 6 <= lv -> exists s,
  sexec lv (mkThr [] (log_steps lv 1) false no_flags) s /\ In 15 (map fst (frames s)) /\
  forall s', sexec lv s s' -> terminate (fl s') = 0 /\ main s' = main s /\ main s' <> [].
Proof.
  intros lv Q. assert (E : log_steps lv 1 = [Work; Lock; Unlock; Work]) by (apply (tidy_log lv 1 0); lia).
  assert (EH : handler_steps lv 15 = [Work; Lock; Unlock; Work; Flag 15]).
  { unfold handler_steps, log_steps. destruct (Z.leb_spec 6 lv); [reflexivity|lia]. }
  exists (mkThr [(15, [Lock; Unlock; Work; Flag 15])] [Unlock; Work] true no_flags). split.
  - eapply SE_step; [|apply SS_handler; apply MR_work]. rewrite <- EH. eapply SE_step; [|apply SS_arrive; cbn; [tauto|tauto]].
    eapply SE_step; [|apply SS_main, MR_lock]. eapply SE_step; [|apply SS_main, MR_work]. rewrite E. apply SE_refl.
  - split; [left; reflexivity|]. intros s' H.
    match type of H with sexec _ ?s _ => assert (D : dead s) end.
    { split; [reflexivity|]. exists [], 15, [Unlock; Work; Flag 15], []. split; [reflexivity|constructor]. }
    destruct (dead_forever lv _ s' Q D H) as (_ & F & M). rewrite F, M. split; [reflexivity|]. split; [reflexivity|discriminate].
Qed.
Print Assumptions C114_signal_during_message_refuted.

(** and so can two signals when the program writes nothing itself. *)
Theorem C114_two_signals_refuted : forall lv m, 6 <= lv -> exists s,
  sexec lv (mkThr [] m false no_flags) s /\ map fst (frames s) = [15; 1] /\
  forall s', sexec lv s s' -> terminate (fl s') = 0 /\ changecfg (fl s') = 0 /\ main s' = m.
Proof.
  intros lv m Q.
  assert (EH : forall sig, handler_steps lv sig = [Work; Lock; Unlock; Work; Flag sig]).
  { intros sig. unfold handler_steps, log_steps. destruct (Z.leb_spec 6 lv); [reflexivity|lia]. }
  exists (mkThr [(15, [Lock; Unlock; Work; Flag 15]); (1, [Unlock; Work; Flag 1])] m true no_flags). split.
  - eapply SE_step; [|apply SS_handler; apply MR_work]. rewrite <- (EH 15).
    eapply SE_step; [|apply SS_arrive; cbn; [tauto|intros [X|[]]; discriminate]].
    eapply SE_step; [|apply SS_handler; apply MR_lock]. eapply SE_step; [|apply SS_handler; apply MR_work]. rewrite <- EH.
    eapply SE_step; [|apply SS_arrive; cbn; tauto]. apply SE_refl.
  - split; [reflexivity|]. intros s' H.
    match type of H with sexec _ ?s _ => assert (D : dead s) end.
    { split; [reflexivity|]. eexists [], 15, _, _. split; [reflexivity|constructor]. }
    destruct (dead_forever lv _ s' Q D H) as (_ & F & M). rewrite F, M. split; [reflexivity|]. split; reflexivity.
Qed.
Print Assumptions C114_two_signals_refuted.

Example C114_ex : tidy (log_steps 5 4) false /\ log_steps 5 4 <> [] /\ sexec 5 (mkThr [] (log_steps 5 4) false no_flags)
  (mkThr [] [Unlock; Work] true (mkF 1 0 0 0)).
Proof.
  split; [cbn; auto|]. split; [discriminate|]. eapply SE_step; [|apply SS_return]. eapply SE_step; [|apply (SS_handler 5 15 (Flag 15)); exact (MR_flag 15 true no_flags)].
  eapply SE_step; [|apply (SS_arrive 5 15); cbn; tauto]. eapply SE_step; [|apply SS_main, MR_lock]. eapply SE_step; [|apply SS_main, MR_work]. apply SE_refl.
Qed.
