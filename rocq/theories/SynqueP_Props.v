(** Theorems about chains of thread-safe queues (property C149). *)
From Coq Require Import ZArith List Bool Lia Arith Permutation.
From Verif Require Import Base Synque_Spec Synque_Model Synque_Proof Synque_Props SynqueP_Model SynqueP_Spec.
Import ListNotations.

Section Chain.
Variable A : Type.
Variable stage : nat -> nat.
Variable len : nat.

Lemma f2_len : forall B C (R : B -> C -> Prop) l l', Forall2 R l l' -> length l = length l'.
Proof. intros B C R l l' F. induction F; cbn; congruence. Qed.
Lemma nth_upd_here : forall B (l : list B) i v, (i < length l)%nat -> nth_error (upd l i v) i = Some v.
Proof. intros B. induction l as [|x l IH]; intros [|i] v L; cbn in *; try lia; [reflexivity|]. apply IH. lia. Qed.

(** what a thread inside a call will add, or has been handed *)
Definition arg_pc (p : pc A) : list A := match p with AddLock _ x | AddPush _ x => [x] | _ => [] end.
Definition got_pc (p : pc A) : list A := match p with GetUnlock _ e => [e] | BatUnlock _ out => out | _ => [] end.
Definition is_add (p : pc A) : bool :=
  match p with AddLock _ _ | AddPush _ _ | AddSignal _ _ => true | _ => false end.
Definition is_get (p : pc A) : bool :=
  match p with
  | GetLock _ _ _ | GetTest _ _ _ | GetSleep _ _ _ | GetWoken _ _ _ | GetTest2 _ _ _ | GetFail _ | GetBack _ _
  | GetPop _ _ _ | GetUnlock _ _ | BatSize _ _ _ | BatLoop _ _ _ _ _ _ | BatBack _ _ _ _ _ _ | BatPop _ _ _ _ _ _
  | BatUnlock _ _ => true
  | _ => false
  end.
Definition arg_call (t : nat) (e : event A) : list A :=
  match e with Call u (OAdd x) => if u =? t then [x] else [] | _ => [] end.
Definition got_ret (t : nat) (e : event A) : list A :=
  match e with Return u r => if u =? t then got_of A r else [] | _ => [] end.
Definition kind_call (o : op A) : bool * bool :=
  match o with OAdd _ => (true, false) | OGet _ | OBatch _ _ => (false, true) | _ => (false, false) end.

(** how a step changes the pc of thread [t] *)
Inductive moves (t : nat) (p : pc A) (e : event A) (p' : pc A) : Prop :=
| m_moves : got_pc p ++ taken (effects (mine t [e])) = got_ret t e ++ got_pc p' ->
    arg_pc p ++ arg_call t e = added (effects (mine t [e])) ++ arg_pc p' ->
    (is_add p' = true -> is_add p = true \/ exists x, e = Call t (OAdd x)) ->
    (is_get p' = true -> is_get p = true \/ exists o, e = Call t o /\ snd (kind_call o) = true) ->
    (taken (effects (mine t [e])) <> [] -> is_get p = true) ->
    (added (effects (mine t [e])) <> [] -> is_add p = true) ->
    (got_ret t e <> [] -> is_get p = true) ->
    moves t p e p'.

Lemma moves_other : forall u t p e, u <> t ->
  match e with Call v _ | Effect v _ _ | Return v _ | Tau v | Wake v => v = u end -> moves t p e p.
Proof.
  intros u t p e N E. assert (X : (u =? t) = false) by (apply Nat.eqb_neq; exact N).
  destruct e as [v o|v o r|v r|v|v]; subst v; constructor; cbn; rewrite ?X; cbn; rewrite ?app_nil_r; auto; try congruence;
    destruct o; cbn; rewrite ?app_nil_r; auto.
Qed.
Lemma moves_wakes : forall u t p p' e, u <> t -> wakes A p p' ->
  match e with Call v _ | Effect v _ _ | Return v _ | Tau v | Wake v => v = u end -> moves t p e p'.
Proof.
  intros u t p p' e N W E. destruct W as [->|(g & w & -> & ->)]; [eapply moves_other; eassumption|].
  pose proof (moves_other u t (GetSleep A g w) e N E) as [a b c d f g' h]. constructor; auto.
Qed.

Lemma step_moves : forall s e s' t p', step A s e s' -> nth_error (pcs A s') t = Some p' ->
  exists p, nth_error (pcs A s) t = Some p /\ moves t p e p'.
Proof.
  intros s e s' t p' H E.
  assert (Sig : forall u q l, signals A (pcs A s) l -> nth_error (upd l u q) t = Some p' ->
    (t = u /\ p' = q /\ (u < length (pcs A s))%nat) \/ (u <> t /\ exists p, nth_error (pcs A s) t = Some p /\ wakes A p p')).
  { intros u q l [F _] E'. pose proof (nth_lt _ _ _ _ E') as L. rewrite upd_length in L.
    apply nth_upd_cases in E'. destruct E' as [[-> ->]|[N E']]; [left|right].
    - split; [reflexivity|]. split; [reflexivity|]. rewrite (f2_len _ _ _ _ _ F). exact L.
    - split; [congruence|]. clear -F E'. revert t E'. induction F as [|x y l l' W F IH]; intros [|t] E'; cbn in *; try discriminate.
      + injection E' as <-. eauto.
      + apply IH. exact E'. }
  destruct H; cbn [pcs] in E.
  - apply nth_upd_cases in E. destruct E as [[-> ->]|[N E]]; [|eexists; split; [exact E|eapply moves_other; [|reflexivity]; congruence]].
    eexists; split; [eassumption|]. destruct o; constructor; cbn; rewrite ?Nat.eqb_refl; cbn; auto; try congruence; eauto.
    all: right; eexists; split; reflexivity.
  - apply nth_upd_cases in E. destruct E as [[-> ->]|[N E]]; [|eexists; split; [exact E|eapply moves_other; [|reflexivity]; congruence]].
    eexists; split; [eassumption|].
    destruct p; try discriminate; match goal with H : locked _ _ = Some _ |- _ => injection H as <- end; constructor; cbn; auto; congruence.
  - apply nth_upd_cases in E. destruct E as [[-> ->]|[N E]];
      [|eexists; split; [exact E|eapply moves_other with (u := t0); [congruence|destruct e as [[? ?]|]; reflexivity]]].
    eexists; split; [eassumption|].
    match goal with H : inside _ _ _ = Some _ |- _ => rename H into I end.
    destruct p; cbn [inside] in I; try discriminate.
    all: repeat match type of I with
         | context [match ?x with _ => _ end] => destruct x; try discriminate
         end; injection I as <- <- <-; try (destruct g); constructor; cbn; rewrite ?Nat.eqb_refl; cbn; rewrite ?app_nil_r; auto; congruence.
  - destruct (Sig t0 (AddUnlock A) l H0 E) as [(-> & -> & L)|(N & p & P & W)].
    + eexists; split; [eassumption|]. constructor; cbn; auto; congruence.
    + exists p. split; [exact P|]. eapply moves_wakes; [exact N|exact W|reflexivity].
  - destruct (Sig t0 (SigUnlock A) l H0 E) as [(-> & -> & L)|(N & p & P & W)].
    + eexists; split; [eassumption|]. constructor; cbn; rewrite ?Nat.eqb_refl; cbn; auto; congruence.
    + exists p. split; [exact P|]. eapply moves_wakes; [exact N|exact W|reflexivity].
  - apply nth_upd_cases in E. destruct E as [[-> ->]|[N E]]; [|eexists; split; [exact E|eapply moves_other; [|reflexivity]; congruence]].
    eexists; split; [eassumption|]. constructor; cbn; auto; congruence.
  - apply nth_upd_cases in E. destruct E as [[-> ->]|[N E]]; [|eexists; split; [exact E|eapply moves_other; [|reflexivity]; congruence]].
    eexists; split; [eassumption|]. constructor; cbn; auto; congruence.
  - apply nth_upd_cases in E. destruct E as [[-> ->]|[N E]]; [|eexists; split; [exact E|eapply moves_other; [|reflexivity]; congruence]].
    eexists; split; [eassumption|].
    destruct p; try discriminate; match goal with H : result _ _ = Some _ |- _ => injection H as <- end;
      constructor; cbn; rewrite ?Nat.eqb_refl; cbn; rewrite ?app_nil_r; auto; congruence.
Qed.

(** ** each queue of the chain behaves like a queue *)
Lemma at_app : forall (a b : list (nat * event A)) j, at_queue j (a ++ b) = at_queue j a ++ at_queue j b.
Proof. intros. unfold at_queue. apply flat_map_app. Qed.
Lemma at_one : forall j i (e : event A), at_queue j [(i, e)] = if i =? j then [e] else [].
Proof. intros. unfold at_queue. cbn. destruct (i =? j); reflexivity. Qed.
Lemma queue_exec : forall n tr c, cexec A stage len n tr c -> forall j, exec A n (at_queue j tr) (queues c j).
Proof.
  intros n tr c H. induction H as [|tr c e c' H IH S]; intros j; [apply ex_nil|].
  inversion S as [c0 i ev s' h' Hs Hc Hf]; subst. rewrite at_app, at_one. cbn [queues]. unfold fupd.
  destruct (Nat.eqb_spec i j) as [->|N].
  - rewrite Nat.eqb_refl. eapply ex_snoc; [apply IH|exact Hs].
  - destruct (Nat.eqb_spec j i); [congruence|]. rewrite app_nil_r. apply IH.
Qed.
Lemma mine_app : forall t (a b : list (event A)), mine t (a ++ b) = mine t a ++ mine t b.
Proof. intros. unfold mine. apply filter_app. Qed.
Lemma added_app : forall (a b : list (op A * ret A)), added (a ++ b) = added a ++ added b.
Proof. intros. unfold added. apply flat_map_app. Qed.
Lemma taken_app : forall (a b : list (op A * ret A)), taken (a ++ b) = taken a ++ taken b.
Proof. intros. unfold taken. apply flat_map_app. Qed.

(** the invariant: who is where, and what each thread carries *)
Record cinv (n : nat) (tr : list (nat * event A)) (c : chain A) : Prop := mkCinv {
  ci_add : forall j t p, nth_error (pcs A (queues c j)) t = Some p -> is_add p = true -> stage t = j;
  ci_get : forall j t p, nth_error (pcs A (queues c j)) t = Some p -> is_get p = true -> stage t = S j /\ (hand c t = [] \/ S j = len);
  ci_out : forall j t, stage t <> S j -> outof_by t j tr = [];
  ci_in : forall j t, stage t <> j -> into_by t j tr = [];
  ci_carry : forall j t p q, stage t = S j -> nth_error (pcs A (queues c j)) t = Some p ->
    nth_error (pcs A (queues c (S j))) t = Some q ->
    outof_by t j tr = into_by t (S j) tr ++ arg_pc q ++ hand c t ++ got_pc p }.

Lemma by_snoc : forall t j (tr : list (nat * event A)) i e,
  outof_by t j (tr ++ [(i, e)]) = outof_by t j tr ++ (if i =? j then taken (effects (mine t [e])) else []) /\
  into_by t j (tr ++ [(i, e)]) = into_by t j tr ++ (if i =? j then added (effects (mine t [e])) else []).
Proof.
  intros. unfold outof_by, into_by. rewrite at_app, at_one.
  destruct (i =? j).
  - rewrite !mine_app, !effects_app, taken_app, added_app. split; reflexivity.
  - rewrite !app_nil_r. split; reflexivity.
Qed.

Lemma hand_moves : forall j h e h' t, client A stage len j h e h' ->
  (arg_call t e = [] -> h' t = h t ++ got_ret t e) /\
  (forall x, arg_call t e = [x] -> (j = 0%nat /\ h' t = h t \/ j <> 0%nat /\ h t = x :: h' t) /\ stage t = j).
Proof.
  intros j h e h' t C.
  destruct C; cbn [arg_call got_ret]; rewrite ?app_nil_r; unfold fupd; rewrite ?(Nat.eqb_sym t t0);
    try (split; [reflexivity|intros ? F; discriminate F]).
  - destruct (Nat.eqb_spec t0 t) as [->|N]; (split; [|intros y F]); try discriminate; auto.
  - destruct (Nat.eqb_spec t0 t) as [->|N]; (split; [|intros y F]); try discriminate; auto.
    injection F as <-. split; [right; split; [lia|assumption]|assumption].
  - destruct (Nat.eqb_spec t0 t) as [->|N]; (split; [|intros y F]); try discriminate; auto. rewrite app_nil_r. reflexivity.
Qed.

Lemma cinv_ok : forall n tr c, cexec A stage len n tr c -> cinv n tr c.
Proof.
  intros n tr c H. induction H as [|tr c x c' H IH Sx].
  - constructor; cbn; intros; try reflexivity.
    + apply nth_error_In, repeat_spec in H. subst. discriminate.
    + apply nth_error_In, repeat_spec in H. subst. discriminate.
    + apply nth_error_In, repeat_spec in H0. apply nth_error_In, repeat_spec in H1. subst. reflexivity.
  - destruct IH as [Ia Ig Io Ii Ic]. inversion Sx as [c0 i e s' h' Hs Hc Hf]; subst.
    assert (Old : forall j t p', nth_error (pcs A (fupd (queues c) i s' j)) t = Some p' ->
      exists p, nth_error (pcs A (queues c j)) t = Some p /\ (i = j /\ moves t p e p' \/ i <> j /\ p' = p)).
    { intros j t p' E. unfold fupd in E. destruct (Nat.eqb_spec j i) as [->|N].
      - destruct (step_moves _ _ _ _ _ Hs E) as (p & P & M). eauto.
      - eauto. }
    assert (Len : forall j t, nth_error (pcs A (queues c j)) t = None <-> (n <= t)%nat).
    { intros j t. rewrite nth_error_None, (exec_len A n _ _ (queue_exec _ _ _ H j)). reflexivity. }
    assert (Here : forall t, (taken (effects (mine t [e])) <> [] \/ got_ret t e <> [] -> stage t = S i) /\
                             (added (effects (mine t [e])) <> [] -> stage t = i)).
    { intros t. destruct (nth_error (pcs A s') t) as [p'|] eqn:E.
      - destruct (step_moves _ _ _ _ _ Hs E) as (p & P & [M1 M2 M3 M4 M5 M6 M7]).
        split; [intros [F|F]|intros F].
        + destruct (Ig _ _ _ P (M5 F)). assumption.
        + destruct (Ig _ _ _ P (M7 F)). assumption.
        + exact (Ia _ _ _ P (M6 F)).
      - assert (B : forall u, match e with Call v _ | Effect v _ _ | Return v _ | Tau v | Wake v => v = u end -> u <> t).
        { intros u U <-. assert (L : (u < length (pcs A s'))%nat).
          { clear -Hs U.
            destruct Hs; cbn [pcs]; try (rewrite upd_length; subst; match goal with H : nth_error _ _ = Some _ |- _ => exact (nth_lt _ _ _ _ H) end).
            - destruct e as [[o r]|]; cbn in U; subst; rewrite upd_length; exact (nth_lt _ _ _ _ H).
            - rewrite upd_length. destruct H0 as [F _]. rewrite <- (f2_len _ _ _ _ _ F). subst. exact (nth_lt _ _ _ _ H).
            - rewrite upd_length. destruct H0 as [F _]. rewrite <- (f2_len _ _ _ _ _ F). subst. exact (nth_lt _ _ _ _ H). }
          apply nth_error_None in E. lia. }
        assert (M : moves t (Idle A) e (Idle A)).
        { destruct e as [v o|v o r|v r|v|v]; apply (moves_other v); try reflexivity; apply B; reflexivity. }
        destruct M as [_ _ _ _ M5 M6 M7]. split; [intros [F|F]|intros F]; [apply M5 in F|apply M7 in F|apply M6 in F]; discriminate. }
    constructor; cbn [queues hand].
    + intros j t p' E K. destruct (Old _ _ _ E) as (p & P & [[-> [M1 M2 M3 M4 M5 M6 M7]]|[N ->]]); [|eauto].
      destruct (M3 K) as [K'|[y ->]]; [eauto|]. inversion Hc; subst; auto.
    + intros j t p' E K. destruct (Old _ _ _ E) as (p & P & [[-> [M1 M2 M3 M4 M5 M6 M7]]|[N ->]]).
      * destruct (M4 K) as [K'|[o [-> Ko]]].
        -- destruct (Ig _ _ _ P K') as [St Hd]. split; [exact St|]. destruct Hd as [Hd|Hd]; [left|right; exact Hd].
           destruct (hand_moves _ _ _ _ t Hc) as [Q1 Q2]. destruct (arg_call t e) as [|y [|? ?]] eqn:Q.
           ++ rewrite (Q1 eq_refl), Hd. cbn [app].
              destruct (got_ret t e) as [|y l] eqn:R; [reflexivity|exfalso].
              destruct e; try discriminate R. cbn in R. destruct (Nat.eqb_spec t0 t) as [->|]; [|discriminate].
              inversion Hs; subst; try (match goal with X : label _ _ ?x = Return _ _ |- _ => destruct x as [[? ?]|]; discriminate X end).
              unfold fupd in E. rewrite Nat.eqb_refl in E. cbn [pcs] in E.
              rewrite nth_upd_here in E by (eapply nth_lt; eassumption). injection E as <-. discriminate.
           ++ destruct (Q2 y eq_refl) as [_ Q3]. lia.
           ++ destruct e; try discriminate Q. destruct o; try discriminate Q. cbn in Q. destruct (t0 =? t); discriminate.
        -- inversion Hc; subst; cbn in Ko; try discriminate; auto.
      * destruct (Ig _ _ _ P K) as [St Hd]. split; [exact St|]. destruct Hd as [Hd|Hd]; [left|right; exact Hd].
        destruct (hand_moves _ _ _ _ t Hc) as [Q1 Q2]. destruct (arg_call t e) as [|y l] eqn:Q.
        -- rewrite (Q1 eq_refl), Hd. cbn [app]. destruct (got_ret t e) eqn:R; [reflexivity|exfalso].
           destruct (Here t) as [F _]. rewrite R in F. lapply F; [intros F'; congruence|right; discriminate].
        -- assert (l = []) as ->.
           { destruct e; try discriminate Q. destruct o; try discriminate Q. cbn in Q. destruct (t0 =? t); [|discriminate]. congruence. }
           destruct (Q2 y eq_refl) as [[[Z _]|[_ Z]] Q3]; [lia|congruence].
    + intros j t N. rewrite (proj1 (by_snoc t j tr i e)), Io by exact N. cbn [app].
      destruct (Nat.eqb_spec i j) as [->|]; [|reflexivity].
      destruct (taken (effects (mine t [e]))) as [|y l] eqn:T; [reflexivity|exfalso].
      destruct (Here t) as [F _]. rewrite T in F. apply N, F. left. discriminate.
    + intros j t N. rewrite (proj2 (by_snoc t j tr i e)), Ii by exact N. cbn [app].
      destruct (Nat.eqb_spec i j) as [->|]; [|reflexivity].
      destruct (added (effects (mine t [e]))) as [|y l] eqn:T; [reflexivity|exfalso].
      destruct (Here t) as [_ F]. rewrite T in F. apply N, F. discriminate.
    + intros j t p' q' St E1 E2.
      destruct (Old _ _ _ E1) as (p & P & Mp). destruct (Old _ _ _ E2) as (q & Q & Mq).
      pose proof (Ic j t p q St P Q) as Eq.
      rewrite (proj1 (by_snoc t j tr i e)), (proj2 (by_snoc t (Datatypes.S j) tr i e)), Eq.
      destruct (hand_moves _ _ _ _ t Hc) as [Q1 Q2].
      destruct Mp as [[-> [M1 M2 M3 M4 M5 M6 M7]]|[N ->]].
      * (* a step at the queue the thread gets from *)
        destruct Mq as [[F _]|[_ ->]]; [lia|].
        rewrite Nat.eqb_refl. destruct (Nat.eqb_spec j (Datatypes.S j)); [lia|]. rewrite app_nil_r.
        destruct (arg_call t e) as [|y l] eqn:Ar.
        -- rewrite (Q1 eq_refl), <- !app_assoc, M1. reflexivity.
        -- assert (l = []) as ->.
           { destruct e; try discriminate Ar. destruct o; try discriminate Ar. cbn in Ar. destruct (t0 =? t); [|discriminate]. congruence. }
           destruct (Q2 y eq_refl). lia.
      * destruct (Nat.eqb_spec i j); [congruence|]. rewrite app_nil_r.
        destruct Mq as [[-> [M1 M2 M3 M4 M5 M6 M7]]|[N' ->]].
        -- rewrite Nat.eqb_refl. destruct (arg_call t e) as [|y l] eqn:Ar.
           ++ rewrite (Q1 eq_refl). rewrite app_nil_r in M2. rewrite M2, <- !app_assoc.
              destruct (got_ret t e) eqn:R; [reflexivity|exfalso].
              destruct (Here t) as [F _]. rewrite R in F. lapply F; [intros F'; congruence|right; discriminate].
           ++ assert (l = []) as ->.
              { destruct e; try discriminate Ar. destruct o; try discriminate Ar. cbn in Ar. destruct (t0 =? t); [|discriminate]. congruence. }
              destruct (Q2 y eq_refl) as [[[Z _]|[_ Z]] Q3]; [lia|]. rewrite Z.
              change ((y :: h' t) ++ got_pc p) with ([y] ++ h' t ++ got_pc p).
              rewrite (app_assoc (arg_pc q)), M2, <- !app_assoc. reflexivity.
        -- destruct (Nat.eqb_spec i (Datatypes.S j)); [congruence|]. rewrite app_nil_r.
           destruct (arg_call t e) as [|y l] eqn:Ar.
           ++ rewrite (Q1 eq_refl). destruct (got_ret t e) eqn:R; [rewrite app_nil_r; reflexivity|exfalso].
              destruct (Here t) as [F _]. rewrite R in F. lapply F; [intros F'; congruence|right; discriminate].
           ++ assert (l = []) as ->.
              { destruct e; try discriminate Ar. destruct o; try discriminate Ar. cbn in Ar. destruct (t0 =? t); [|discriminate]. congruence. }
              destruct (Q2 y eq_refl). lia.
Qed.

(** ** adding up over the threads *)
Definition who (e : event A) : nat := match e with Call v _ | Effect v _ _ | Return v _ | Tau v | Wake v => v end.
Lemma step_who : forall s e s', step A s e s' -> (who e < length (pcs A s))%nat.
Proof.
  intros s e s' H. destruct H; cbn [who]; try (match goal with X : nth_error _ _ = Some _ |- _ => exact (nth_lt _ _ _ _ X) end).
  destruct e as [[o r]|]; cbn; exact (nth_lt _ _ _ _ H).
Qed.
Lemma exec_who : forall n tr s, exec A n tr s -> Forall (fun e => (who e < n)%nat) tr.
Proof.
  intros n tr s H. induction H as [|tr s e s' H IH S]; [constructor|]. apply Forall_app. split; [exact IH|].
  constructor; [|constructor]. rewrite <- (exec_len A n _ _ H). eapply step_who; exact S.
Qed.
Section Sums.
Variable w : op A * ret A -> list A.
Lemma sum_one : forall f (tr : list (event A)), (forall t, t <> f -> flat_map w (effects (mine t tr)) = []) ->
  flat_map w (effects tr) = flat_map w (effects (mine f tr)).
Proof.
  intros f. induction tr as [|e tr IH]; intros Z; [reflexivity|].
  assert (Z' : forall t, t <> f -> flat_map w (effects (mine t tr)) = []).
  { intros t N. specialize (Z t N). unfold mine in *. cbn [filter] in Z.
    destruct (match e with Effect u _ _ => u =? t | _ => false end); [|exact Z].
    change (e :: ?l) with ([e] ++ l) in Z. rewrite effects_app, flat_map_app in Z. apply app_eq_nil in Z. apply Z. }
  specialize (IH Z').
  destruct e as [v o|v o r|v r|v|v]; try exact IH.
  change (flat_map w (effects (Effect v o r :: tr))) with (w (o, r) ++ flat_map w (effects tr)). rewrite IH.
  unfold mine at 2. cbn [filter]. destruct (Nat.eqb_spec v f) as [->|N]; [reflexivity|].
  specialize (Z v N). unfold mine in Z. cbn [filter] in Z. rewrite Nat.eqb_refl in Z.
  change (flat_map w (effects (Effect v o r :: ?l))) with (w (o, r) ++ flat_map w (effects l)) in Z.
  apply app_eq_nil in Z. rewrite (proj1 Z). reflexivity.
Qed.
Lemma add_point : forall (f : nat -> list A) x u k m, (k <= u < k + m)%nat ->
  Permutation (x ++ flat_map f (seq k m)) (flat_map (fun t => (if t =? u then x else []) ++ f t) (seq k m)).
Proof.
  intros f x u k m. revert k. induction m as [|m IH]; intros k L; [lia|]. cbn [seq flat_map].
  destruct (Nat.eqb_spec k u) as [->|N].
  - rewrite <- app_assoc. do 2 apply Permutation_app_head. clear IH.
    assert (G : forall k', (u < k')%nat -> flat_map f (seq k' m) = flat_map (fun t => (if t =? u then x else []) ++ f t) (seq k' m)).
    { clear L. induction m as [|m IH]; intros k' L; [reflexivity|]. cbn [seq flat_map]. destruct (Nat.eqb_spec k' u); [lia|].
      rewrite <- (IH (S k')) by lia. reflexivity. }
    rewrite G by lia. reflexivity.
  - rewrite app_assoc, (Permutation_app_comm x), <- app_assoc. cbn [app]. apply Permutation_app_head, IH. lia.
Qed.
Lemma sum_all : forall n (tr : list (event A)), Forall (fun e => (who e < n)%nat) tr ->
  Permutation (flat_map w (effects tr)) (flat_map (fun t => flat_map w (effects (mine t tr))) (seq 0 n)).
Proof.
  intros n tr F. induction F as [|e tr L F IH].
  - cbn. induction (seq 0 n); [constructor|exact IHl].
  - destruct e as [v o|v o r|v r|v|v]; try exact IH. cbn [who] in L.
    change (flat_map w (effects (Effect v o r :: tr))) with (w (o, r) ++ flat_map w (effects tr)).
    rewrite IH. rewrite (add_point _ (w (o, r)) v 0 n) by lia.
    match goal with |- Permutation ?a ?b => assert (Eq : a = b); [|rewrite Eq; reflexivity] end.
    apply flat_map_ext. intros t. unfold mine at 2. cbn [filter]. rewrite (Nat.eqb_sym v t). destruct (t =? v); reflexivity.
Qed.
End Sums.

(** ** C149 *)

(** Each thread passes on what it got, in the order in which it got it; what is missing is in
    its hand when it is outside the queues. *)
Theorem C149_each_thread : forall n tr c j t, cexec A stage len n tr c -> (t < n)%nat -> stage t = S j ->
  exists carried : list A, outof_by t j tr = into_by t (S j) tr ++ carried /\
    (nth_error (pcs A (queues c j)) t = Some (Idle A) -> nth_error (pcs A (queues c (S j))) t = Some (Idle A) ->
     carried = hand c t) /\
    (forall g w, S j <> len -> nth_error (pcs A (queues c j)) t = Some (GetSleep A g w) ->
     nth_error (pcs A (queues c (S j))) t = Some (Idle A) -> carried = []).
Proof.
  intros n tr c j t H L St. pose proof (cinv_ok n tr c H) as IV.
  destruct (nth_error (pcs A (queues c j)) t) as [p|] eqn:P.
  2:{ apply nth_error_None in P. rewrite (exec_len A n _ _ (queue_exec n tr c H j)) in P. lia. }
  destruct (nth_error (pcs A (queues c (S j))) t) as [q|] eqn:Q.
  2:{ apply nth_error_None in Q. rewrite (exec_len A n _ _ (queue_exec n tr c H (S j))) in Q. lia. }
  exists (arg_pc q ++ hand c t ++ got_pc p). split; [exact (ci_carry _ _ _ IV j t p q St P Q)|]. split.
  - intros Ep Eq. injection Ep as ->. injection Eq as ->. cbn. apply app_nil_r.
  - intros g w Nl Ep Eq. injection Ep as ->. injection Eq as ->. cbn.
    destruct (proj2 (ci_get _ _ _ IV j t _ P eq_refl)) as [->|F]; [reflexivity|contradiction].
Qed.
Lemma idle_outside : forall n tr c j t, cexec A stage len n tr c -> (n <= t)%nat -> outof_by t j tr = [] /\ into_by t j tr = [].
Proof.
  intros n tr c j t H L. pose proof (exec_who n _ _ (queue_exec n tr c H j)) as F.
  assert (M : mine t (at_queue j tr) = []).
  { induction F as [|e l Le F IH]; [reflexivity|]. unfold mine. cbn [filter].
    destruct e; cbn [who] in Le; try exact IH. destruct (Nat.eqb_spec t0 t); [lia|exact IH]. }
  unfold outof_by, into_by. rewrite M. split; reflexivity.
Qed.

(** One thread in a stage keeps the order of everything. *)
Lemma one_thread : forall n tr c j f, cexec A stage len n tr c -> (f < n)%nat -> stage f = S j ->
  (forall t, (t < n)%nat -> stage t = S j -> t = f) ->
  outof j tr = outof_by f j tr /\ into (S j) tr = into_by f (S j) tr.
Proof.
  intros n tr c j f H L St U. pose proof (cinv_ok n tr c H) as IV. unfold outof, into, outof_by, into_by.
  assert (N : forall t, t <> f -> (t < n)%nat /\ stage t <> S j \/ (n <= t)%nat).
  { intros t N. destruct (Nat.lt_ge_cases t n) as [Lt|Ge]; [left|right; exact Ge]. split; [exact Lt|]. intros E. apply N, U; assumption. }
  split; apply sum_one; intros t Nt; destruct (N t Nt) as [[Lt E]|Ge].
  - exact (ci_out _ _ _ IV j t E).
  - apply (proj1 (idle_outside n tr c j t H Ge)).
  - exact (ci_in _ _ _ IV (S j) t E).
  - apply (proj2 (idle_outside n tr c (S j) t H Ge)).
Qed.
Theorem C149_order : forall n tr c k, cexec A stage len n tr c ->
  (forall j, (j < k)%nat -> exists f, (f < n)%nat /\ stage f = S j /\ forall t, (t < n)%nat -> stage t = S j -> t = f) ->
  exists rest : list A, into 0 tr = outof k tr ++ rest.
Proof.
  intros n tr c k H. induction k as [|k IH]; intros One.
  - destruct (C47_fifo A n _ _ (queue_exec n tr c H 0)) as (q & E & _). exists q. exact E.
  - destruct IH as (rest & E); [intros j L; apply One; lia|].
    destruct (One k ltac:(lia)) as (f & L & St & U). destruct (one_thread n tr c k f H L St U) as [E1 E2].
    destruct (C149_each_thread n tr c k f H L St) as (ca & E3 & _).
    destruct (C47_fifo A n _ _ (queue_exec n tr c H (S k))) as (q & E4 & _).
    exists (q ++ ca ++ rest). rewrite E, E1, E3, <- E2. unfold into at 1. rewrite E4. unfold outof. rewrite <- !app_assoc. reflexivity.
Qed.

(** However many threads there are, nothing is lost and nothing is doubled. *)
Theorem C149_nothing_lost : forall n tr c k, cexec A stage len n tr c ->
  exists rest : list A, Permutation (into 0 tr) (outof k tr ++ rest).
Proof.
  intros n tr c k H. pose proof (cinv_ok n tr c H) as IV. induction k as [|k (rest & IH)].
  - destruct (C47_fifo A n _ _ (queue_exec n tr c H 0)) as (q & E & _). exists q. unfold into. rewrite E. reflexivity.
  - destruct (C47_fifo A n _ _ (queue_exec n tr c H (S k))) as (q & E4 & _).
    assert (P : exists ca : list A, Permutation (outof k tr) (into (S k) tr ++ ca)).
    { assert (Cs : forall t, exists ca : list A, outof_by t k tr = into_by t (S k) tr ++ ca).
      { intros t. destruct (Nat.lt_ge_cases t n) as [L|G].
        - destruct (Nat.eq_dec (stage t) (S k)) as [E|E].
          + destruct (C149_each_thread n tr c k t H L E) as (ca & C & _). eauto.
          + exists []. rewrite (ci_out _ _ _ IV k t E), (ci_in _ _ _ IV (S k) t E). reflexivity.
        - exists []. rewrite (proj1 (idle_outside n tr c k t H G)), (proj2 (idle_outside n tr c (S k) t H G)). reflexivity. }
      
      assert (G : forall l, exists ca : list A, Permutation (flat_map (fun t => outof_by t k tr) l) (flat_map (fun t => into_by t (S k) tr) l ++ ca)).
      { induction l as [|t l (ca & C)]; [exists []; constructor|]. destruct (Cs t) as (ct & Ct).
        exists (ct ++ ca). cbn [flat_map]. rewrite Ct, C, <- !app_assoc. apply Permutation_app_head.
        rewrite !app_assoc. apply Permutation_app_tail, Permutation_app_comm. }
      destruct (G (seq 0 n)) as (ca & C). exists ca.
      etransitivity; [exact (sum_all _ n (at_queue k tr) (exec_who n _ _ (queue_exec n tr c H k)))|].
      etransitivity; [exact C|]. apply Permutation_app_tail. symmetry.
      apply (sum_all _ n (at_queue (S k) tr) (exec_who n _ _ (queue_exec n tr c H (S k)))). }
    destruct P as (ca & P). exists (q ++ ca ++ rest). rewrite IH, P. unfold into. rewrite E4. unfold outof. rewrite <- !app_assoc. reflexivity.
Qed.

(** When every thread of the chain waits for more, everything has arrived. *)
Definition at_rest (n : nat) (c : chain A) (k : nat) : Prop :=
  (forall j t p, nth_error (pcs A (queues c j)) t = Some p -> p = Idle A \/ exists g w, p = GetSleep A g w) /\
  (forall j, (j <= k)%nat -> exists t, (t < n)%nat /\ stage t = S j) /\
  (forall j t, (j <= k)%nat -> (t < n)%nat -> stage t = S j ->
     (exists g w, nth_error (pcs A (queues c j)) t = Some (GetSleep A g w)) /\
     nth_error (pcs A (queues c (S j))) t = Some (Idle A)).
Lemma rest_empty : forall n tr c k j, cexec A stage len n tr c -> at_rest n c k -> (j <= k)%nat ->
  into j tr = outof j tr /\ (S j <> len -> forall t, (t < n)%nat -> outof_by t j tr = into_by t (S j) tr).
Proof.
  intros n tr c k j H (R1 & R2 & R3) L. pose proof (cinv_ok n tr c H) as IV. split.
  - destruct (C47_fifo A n _ _ (queue_exec n tr c H j)) as (q & E & O).
    assert (D : dq A (queues c j) = []).
    { apply (C48_quiescent A n _ _ (queue_exec n tr c H j)); [intros t p P; eapply R1; exact P|].
      destruct (R2 j L) as (t & Lt & St). destruct (R3 j t L Lt St) as ((g & w & P) & _). eauto. }
    assert (Ow : owner A (queues c j) = None).
    { destruct (owner A (queues c j)) as [o|] eqn:Eo; [exfalso|reflexivity].
      pose proof (inv_ok A n _ _ (queue_exec n tr c H j)) as Q. pose proof (i_owner _ _ _ Q o Eo) as Lo.
      destruct (nth_error (pcs A (queues c j)) o) as [p|] eqn:P; [|apply nth_error_None in P; lia].
      pose proof (proj2 (i_crit _ _ _ Q o p P) Eo) as C. destruct (R1 j o p P) as [->|(g & w & ->)]; discriminate. }
    unfold into, outof. rewrite E, (O Ow), D. cbn. apply app_nil_r.
  - intros Nl t Lt. destruct (Nat.eq_dec (stage t) (S j)) as [St|St].
    + destruct (R3 j t L Lt St) as ((g & w & P) & Q). destruct (C149_each_thread n tr c j t H Lt St) as (ca & E & _ & Z).
      rewrite E, (Z g w Nl P Q). apply app_nil_r.
    + rewrite (ci_out _ _ _ IV j t St), (ci_in _ _ _ IV (S j) t St). reflexivity.
Qed.
Theorem C149_all_arrives : forall n tr c k, cexec A stage len n tr c -> (k < len)%nat -> at_rest n c k -> Permutation (into 0 tr) (outof k tr).
Proof.
  intros n tr c k H Lk R. assert (G : forall j, (j <= k)%nat -> Permutation (into 0 tr) (outof j tr)).
  { induction j as [|j IH]; intros L.
    - rewrite (proj1 (rest_empty n tr c k 0 H R L)). reflexivity.
    - rewrite (IH ltac:(lia)), <- (proj1 (rest_empty n tr c k (S j) H R L)).
      destruct (rest_empty n tr c k j H R ltac:(lia)) as [_ E]. specialize (E ltac:(lia)). unfold outof, into.
      etransitivity; [exact (sum_all _ n (at_queue j tr) (exec_who n _ _ (queue_exec n tr c H j)))|]. symmetry.
      etransitivity; [exact (sum_all _ n (at_queue (S j) tr) (exec_who n _ _ (queue_exec n tr c H (S j))))|].
      match goal with |- Permutation ?a ?b => assert (Eq : a = b); [|rewrite Eq; reflexivity] end.
      assert (F : Forall (fun t => (t < n)%nat) (seq 0 n)) by (apply Forall_forall; intros x I; apply in_seq in I; lia).
      clear -F E. induction F as [|t l Lt F IH]; [reflexivity|]. cbn [flat_map]. rewrite IH. f_equal. symmetry. apply (E t Lt). }
  apply G. lia.
Qed.
Theorem C149_all_arrives_in_order : forall n tr c k, cexec A stage len n tr c -> (k < len)%nat -> at_rest n c k ->
  (forall j, (j < k)%nat -> exists f, (f < n)%nat /\ stage f = S j /\ forall t, (t < n)%nat -> stage t = S j -> t = f) ->
  outof k tr = into 0 tr.
Proof.
  intros n tr c k H Lk R One. destruct (C149_order n tr c k H One) as (rest & E).
  pose proof (Permutation_length (C149_all_arrives n tr c k H Lk R)) as L. rewrite E, app_length in L.
  destruct rest; [|cbn in L; lia]. rewrite E, app_nil_r. reflexivity.
Qed.
End Chain.
Print Assumptions C149_all_arrives_in_order.
Print Assumptions C149_each_thread.
Print Assumptions C149_order.
Print Assumptions C149_nothing_lost.
Print Assumptions C149_all_arrives.

(** ** Running a schedule, for the examples: [k] queues are in use *)
Section Run.
Variable stage : nat -> nat.
Variables len n k : nat.
Definition client_b (j : nat) (h : nat -> list nat) (e : event nat) : option (nat -> list nat) :=
  match e with
  | Call t (OAdd x) =>
      if negb (stage t =? j) then None else if j =? 0 then Some h else
      match h t with y :: r => if (x =? y) && (j <? len) then Some (fupd h t r) else None | [] => None end
  | Call t (OGet _) | Call t (OBatch _ _) =>
      if (stage t =? S j) && ((length (h t) =? 0) || (S j =? len)) then Some h else None
  | Return t r => Some (fupd h t (h t ++ got_of nat r))
  | _ => Some h
  end.
Definition idle_b (c : chain nat) (t : nat) : bool :=
  (t <? n) && forallb (fun i => match nth_error (pcs nat (queues c i)) t with Some (Idle _) => true | _ => false end) (seq 0 k).
Fixpoint cfires (tr : list (nat * event nat)) (c : chain nat) (l : list (nat * act nat)) :=
  match l with
  | [] => Some (tr, c)
  | (j, a) :: l =>
      match fire (queues c j) a with
      | Some (e, s') =>
          match client_b j (hand c) e with
          | Some h' => if (j <? k) && match e with Call t _ => idle_b c t | _ => true end
                       then cfires (tr ++ [(j, e)]) (mkChain (fupd (queues c) j s') h') l else None
          | None => None
          end
      | None => None
      end
  end.
Lemma client_b_ok : forall j h e h', client_b j h e = Some h' -> client nat stage len j h e h'.
Proof.
  intros j h e h' E. destruct e as [t o|t o r|t r|t|t]; cbn [client_b] in E; try (injection E as <-; constructor).
  destruct o; cbv iota in E; try (injection E as <-; constructor).
  - destruct (Nat.eqb_spec (stage t) j) as [S|]; [|discriminate]. cbn [negb] in E.
    destruct (Nat.eqb_spec j 0) as [->|N]; [injection E as <-; apply c_produce; auto|].
    destruct (h t) as [|y r] eqn:Hh; [discriminate|]. destruct (Nat.eqb_spec x y) as [->|]; [|discriminate].
    cbn [andb] in E. destruct (Nat.ltb_spec j len); [|discriminate]. injection E as <-. apply c_pass; auto; lia.
  - destruct (Nat.eqb_spec (stage t) (S j)); [|discriminate]. cbn [andb] in E.
    destruct (Nat.eqb_spec (length (h t)) 0) as [Z|Z]; cbn [orb] in E;
      [|destruct (Nat.eqb_spec (S j) len); [|discriminate]]; injection E as <-; apply c_get; auto.
    left. destruct (h t); [reflexivity|discriminate].
  - destruct (Nat.eqb_spec (stage t) (S j)); [|discriminate]. cbn [andb] in E.
    destruct (Nat.eqb_spec (length (h t)) 0) as [Z|Z]; cbn [orb] in E;
      [|destruct (Nat.eqb_spec (S j) len); [|discriminate]]; injection E as <-; apply c_batch; auto.
    left. destruct (h t); [reflexivity|discriminate].
Qed.
Lemma cfires_exec : forall l tr c tr' c', cexec nat stage len n tr c -> (forall i, (k <= i)%nat -> queues c i = init nat n) ->
  cfires tr c l = Some (tr', c') -> cexec nat stage len n tr' c'.
Proof.
  induction l as [|[j a] l IH]; intros tr c tr' c' H U E; cbn [cfires] in E.
  - injection E as <- <-. exact H.
  - destruct (fire (queues c j) a) as [[e s']|] eqn:F; [|discriminate].
    destruct (client_b j (hand c) e) as [h'|] eqn:B; [|discriminate].
    destruct (Nat.ltb_spec j k) as [L|]; [|discriminate]. cbn [andb] in E.
    destruct (match e with Call t _ => idle_b c t | _ => true end) eqn:I; [|discriminate].
    eapply IH; [|intros i Li|exact E].
    + eapply cex_snoc; [exact H|]. apply c_step; [eapply fire_step; exact F|apply client_b_ok; exact B|].
      destruct e as [t o| | | |]; try exact Logic.I. unfold idle_b in I. apply andb_prop in I. destruct I as [Lt I].
      apply Nat.ltb_lt in Lt. intros i. destruct (Nat.lt_ge_cases i k) as [Li|Gi].
      * rewrite forallb_forall in I. specialize (I i). rewrite in_seq in I. specialize (I ltac:(lia)).
        destruct (nth_error (pcs nat (queues c i)) t) as [[]|]; try discriminate. reflexivity.
      * rewrite U by exact Gi. cbn. apply nth_error_repeat. exact Lt.
    + cbn. unfold fupd. destruct (Nat.eqb_spec i j); [lia|]. apply U. exact Li.
Qed.
End Run.

Definition whole {B} (j m : nat) (a : act B) (t : nat) : list (nat * act B) := (j, a) :: repeat (j, Do t) m.
(** two threads in one stage change the order *)
Definition stages (t : nat) : nat := nth t [0; 1; 1; 2]%nat 9%nat.
Definition overtaken : list (nat * act nat) :=
  whole 0 4 (DoCall 0 (OAdd 1)) 0 ++ whole 0 4 (DoCall 0 (OAdd 2)) 0 ++
  whole 0 5 (DoCall 1 (OGet false)) 1 ++ whole 0 5 (DoCall 2 (OGet false)) 2 ++
  whole 1 4 (DoCall 2 (OAdd 2)) 2 ++ whole 1 4 (DoCall 1 (OAdd 1)) 1 ++
  whole 1 5 (DoCall 3 (OGet false)) 3 ++ whole 1 5 (DoCall 3 (OGet false)) 3.
Theorem C149_order_refuted : exists n stage len tr c, cexec nat stage len n tr c /\ len = 2%nat /\
  into 0 tr = [1; 2]%nat /\ outof 1 tr = [2; 1]%nat.
Proof.
  destruct (cfires stages 2 4 2 [] (mkChain (fun _ => init nat 4) (fun _ => [])) overtaken) as [[tr c]|] eqn:E; [|vm_compute in E; discriminate].
  exists 4%nat, stages, 2%nat, tr, c. split; [eapply cfires_exec; [apply cex_nil| |exact E]; reflexivity|].
  assert (R : option_map (fun x => (into 0 (fst x), outof 1 (fst x)))
    (cfires stages 2 4 2 [] (mkChain (fun _ => init nat 4) (fun _ => [])) overtaken) = Some ([1; 2], [2; 1])%nat) by (vm_compute; reflexivity).
  rewrite E in R. cbn in R. injection R as R1 R2. auto.
Qed.
Print Assumptions C149_order_refuted.

(** a chain that comes to rest: three elements through two queues, with a batch, waiting gets and
    threads that sleep at the end *)
Definition passed : list (nat * act nat) :=
  whole 0 2 (DoCall 1 (OBatch 2 true)) 1 ++
  whole 0 4 (DoCall 0 (OAdd 7)) 0 ++ whole 0 4 (DoCall 0 (OAdd 8)) 0 ++ whole 0 4 (DoCall 0 (OAdd 9)) 0 ++
  repeat (0%nat, Do 1%nat) 11 ++ whole 1 4 (DoCall 1 (OAdd 7)) 1 ++ whole 1 4 (DoCall 1 (OAdd 8)) 1 ++
  whole 0 5 (DoCall 1 (OGet true)) 1 ++ whole 1 4 (DoCall 1 (OAdd 9)) 1 ++
  whole 0 2 (DoCall 1 (OGet true)) 1 ++
  whole 1 14 (DoCall 2 (OBatch 0 true)) 2 ++ whole 1 2 (DoCall 2 (OGet true)) 2.
Definition stages1 (t : nat) : nat := nth t [0; 1; 2]%nat 9%nat.
Example C149_ex : exists tr c, cexec nat stages1 2 3 tr c /\ at_rest nat stages1 3 c 1 /\
  into 0 tr = [7; 8; 9]%nat /\ outof 1 tr = [7; 8; 9]%nat /\ hand c 2%nat = [7; 8; 9]%nat.
Proof.
  destruct (cfires stages1 2 3 2 [] (mkChain (fun _ => init nat 3) (fun _ => [])) passed) as [[tr c]|] eqn:E; [|vm_compute in E; discriminate].
  exists tr, c. split; [eapply cfires_exec; [apply cex_nil| |exact E]; reflexivity|].
  assert (R : option_map (fun x => (into 0 (fst x), outof 1 (fst x), hand (snd x) 2%nat, pcs nat (queues (snd x) 0), pcs nat (queues (snd x) 1)))
    (cfires stages1 2 3 2 [] (mkChain (fun _ => init nat 3) (fun _ => [])) passed) =
    Some ([7; 8; 9]%nat, [7; 8; 9]%nat, [7; 8; 9]%nat, [Idle nat; GetSleep nat Single true; Idle nat], [Idle nat; Idle nat; GetSleep nat Single true]))
    by (vm_compute; reflexivity).
  assert (U : forall i, (2 <= i)%nat -> queues c i = init nat 3).
  { intros i L. clear R. revert E.
    enough (G : forall l tr c tr' c', (forall i, (2 <= i)%nat -> queues c i = init nat 3) -> cfires stages1 2 3 2 tr c l = Some (tr', c') ->
      forall i, (2 <= i)%nat -> queues c' i = init nat 3) by (intros E; eapply G; [|exact E|exact L]; reflexivity).
    clear. induction l as [|[j a] l IH]; intros tr c tr' c' U E i L; cbn [cfires] in E.
    - injection E as <- <-. auto.
    - destruct (fire (queues c j) a) as [[e s']|]; [|discriminate]. destruct (client_b stages1 2 j (hand c) e); [|discriminate].
      destruct (Nat.ltb_spec j 2); [|discriminate]. cbn [andb] in E.
      destruct (match e with Call t _ => idle_b 3 2 c t | _ => true end); [|discriminate].
      eapply IH; [|exact E|exact L]. intros i' L'. cbn. unfold fupd. destruct (Nat.eqb_spec i' j); [lia|auto]. }
  rewrite E in R. cbn in R. injection R as R1 R2 R3 R4 R5. split; [|auto].
  split; [|split].
  - intros j t p P. destruct j as [|[|j]].
    + rewrite R4 in P. destruct t as [|[|[|t]]]; cbn in P; try (injection P as <-); eauto. destruct t; discriminate.
    + rewrite R5 in P. destruct t as [|[|[|t]]]; cbn in P; try (injection P as <-); eauto. destruct t; discriminate.
    + rewrite U in P by lia. cbn in P. apply nth_error_In in P. repeat (destruct P as [<-|P]; [auto|]). destruct P.
  - intros j L. exists (S j). split; [lia|]. destruct j as [|[|j]]; [reflexivity|reflexivity|lia].
  - intros j t L Lt St. destruct t as [|[|[|t]]]; try lia; cbn in St; try discriminate St; injection St as <-.
    + rewrite R4, R5. split; [eexists; eexists; reflexivity|reflexivity].
    + rewrite R5, U by lia. split; [eexists; eexists; reflexivity|reflexivity].
Qed.
