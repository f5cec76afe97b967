(** Theorems about stopping the threads that serve a thread-safe queue (property C151). *)
From Coq Require Import ZArith List Bool Lia Arith.
From Verif Require Import Base Synque_Spec Synque_Model Synque_Proof Synque_Props SynqueS_Model SynqueS_Spec.
Import ListNotations.

(** ** Elements that mean stop *)
Section Pills.
Variable A : Type.
Variable stop : A -> bool.
Variable workers : list nat.
Hypothesis workers_differ : NoDup workers.

Definition gives (t : nat) (e : event A) : nat :=
  match e with Effect u _ (RGet x) => if Nat.eqb u t && stop x then 1 else 0 | _ => 0 end.
Fixpoint sc (t : nat) (tr : list (event A)) : nat :=
  match tr with [] => 0 | e :: tr => gives t e + sc t tr end.
Lemma sc_app : forall t l1 l2, sc t (l1 ++ l2) = (sc t l1 + sc t l2)%nat.
Proof. intros t l1 l2. induction l1 as [|e l1 IH]; [reflexivity|]. cbn [sc app]. rewrite IH. lia. Qed.

Lemma serving_prefix : forall tr e, serving A stop workers (tr ++ [e]) -> serving A stop workers tr.
Proof. intros tr e H tr1 t o tr2 ->. apply (H tr1 t o (tr2 ++ [e])). rewrite <- app_assoc. reflexivity. Qed.
Lemma told_more : forall t tr e, told A stop t tr -> told A stop t (tr ++ [e]).
Proof. intros t tr e (x & I & S). exists x. split; [apply in_or_app; left; exact I|exact S]. Qed.

Lemma worker_phase : forall t tr ph, protocol t tr ph -> In t workers -> serving A stop workers tr ->
  match ph with
  | PIdle => sc t tr = 0%nat \/ (sc t tr = 1%nat /\ told A stop t tr)
  | PCalled o => sc t tr = 0%nat /\ exists w, o = OGet w
  | PDone o r => (exists w, o = OGet w) /\ (sc t tr = 0%nat \/ (sc t tr = 1%nat /\ exists x, r = RGet x /\ stop x = true))
  end.
Proof.
  intros t tr ph P W. induction P as [|tr o P IH|tr o r P IH|tr o r P IH|tr e p P IH Hne]; intros Sv.
  - left. reflexivity.
  - destruct (Sv tr t o [] eq_refl) as (Sw & _). destruct (Sw W) as (G & Nt). split; [|exact G].
    rewrite sc_app. cbn. destruct (IH (serving_prefix _ _ Sv)) as [E|(_ & T)]; [lia|contradiction].
  - destruct (IH (serving_prefix _ _ Sv)) as (E & G). split; [exact G|]. rewrite sc_app, E. cbn.
    destruct r as [| |x| |]; try (left; reflexivity). rewrite Nat.eqb_refl. cbn [andb].
    destruct (stop x) eqn:Sx; [right|left; reflexivity]. split; [reflexivity|]. exists x. auto.
  - destruct (IH (serving_prefix _ _ Sv)) as (G & [E|(E & x & -> & Sx)]); rewrite sc_app, E; cbn; [left; reflexivity|].
    right. split; [reflexivity|]. exists x. split; [apply in_or_app; right; left; reflexivity|exact Sx].
  - specialize (IH (serving_prefix _ _ Sv)).
    assert (Z0 : sc t (tr ++ [e]) = sc t tr).
    { rewrite sc_app. cbn. destruct e as [u o|u o r|u r|u|u]; cbn; try lia. destruct r; try lia.
      destruct (Nat.eqb_spec u t); [contradiction|]. cbn. lia. }
    rewrite Z0. destruct p as [|o|o r]; try exact IH. destruct IH as [E|(E & T)]; [left; exact E|right; split; [exact E|apply told_more; exact T]].
Qed.
Lemma other_phase : forall t tr ph, protocol t tr ph -> ~ In t workers -> serving A stop workers tr ->
  match ph with PIdle => True | PCalled o | PDone o _ => match o with OGet _ | OBatch _ _ => False | _ => True end end.
Proof.
  intros t tr ph P W. induction P as [|tr o P IH|tr o r P IH|tr o r P IH|tr e p P IH Hne]; intros Sv;
    try exact I; try exact (IH (serving_prefix _ _ Sv)).
  destruct (Sv tr t o [] eq_refl) as (_ & So). exact (So W).
Qed.

Lemma protocol_effect : forall t (tr : list (event A)) o r ph, protocol t (tr ++ [Effect t o r]) ph -> protocol t tr (PCalled o).
Proof.
  intros t tr o r ph P. inversion P as [E|tr0 o0 P0 E|tr0 o0 r0 P0 E|tr0 o0 r0 P0 E|tr0 e p P0 Hne E].
  - destruct tr; discriminate.
  - apply app_inj_tail in E. destruct E as [_ E]. discriminate.
  - apply app_inj_tail in E. destruct E as [-> E]. injection E as -> _. exact P0.
  - apply app_inj_tail in E. destruct E as [_ E]. discriminate.
  - apply app_inj_tail in E. destruct E as [_ E]. subst e. cbn in Hne. congruence.
Qed.
Lemma effect_thread : forall n tr s t o r s', exec A n tr s -> step A s (Effect t o r) s' -> (t < n)%nat.
Proof.
  intros n tr s t o r s' H S. rewrite <- (exec_len A n tr s H).
  inversion S as [| |s0 u p d' p' e Ep Ei E1|  |s0 u l Ep Sg E1| | |]; subst.
  - destruct e as [[o' r']|]; cbn in *; [|discriminate].
    match goal with E : Effect _ _ _ = Effect _ _ _ |- _ => injection E as <- _ _ end. eapply nth_lt; exact Ep.
  - eapply nth_lt; exact Ep.
Qed.

Lemma sum_none : forall (f : nat -> nat) l, (forall t, In t l -> f t = 0%nat) -> list_sum (map f l) = 0%nat.
Proof.
  intros f l H. induction l as [|a l IH]; [reflexivity|]. cbn [map list_sum fold_right]. rewrite (H a) by (left; reflexivity).
  apply IH. intros t I. apply H. right. exact I.
Qed.
Lemma sum_one : forall u (b : bool) l, NoDup l -> In u l -> list_sum (map (fun t => if Nat.eqb u t && b then 1 else 0) l) = (if b then 1 else 0).
Proof.
  intros u b l N I. induction N as [|a l Na N IH]; [destruct I|]. cbn [map].
  change (list_sum ((if (u =? a) && b then 1 else 0) :: map (fun t => if (u =? t) && b then 1 else 0) l)) with
    ((if (u =? a) && b then 1 else 0) + list_sum (map (fun t => if (u =? t) && b then 1 else 0) l)).
  destruct (Nat.eqb_spec u a) as [->|E].
  - rewrite sum_none; [destruct b; reflexivity|]. intros t It. destruct (Nat.eqb_spec a t); [subst; contradiction|reflexivity].
  - destruct I as [->|I]; [congruence|]. cbn [andb]. rewrite (IH I). reflexivity.
Qed.
Lemma sum_app : forall (f g : nat -> nat) l, list_sum (map (fun t => f t + g t) l) = list_sum (map f l) + list_sum (map g l).
Proof.
  intros f g l. induction l as [|a l IH]; [reflexivity|]. cbn [map]. unfold list_sum in *. cbn [fold_right]. rewrite IH. lia.
Qed.

(** the stop elements that were handed out are those that serving threads were given *)
Lemma stops_counted : forall n tr s, exec A n tr s -> serving A stop workers tr ->
  length (filter stop (taken (effects tr))) = list_sum (map (fun t => sc t tr) workers).
Proof.
  intros n tr s H. induction H as [|tr s e s' H IH S]; intros Sv.
  - cbn. symmetry. apply sum_none. reflexivity.
  - specialize (IH (serving_prefix _ _ Sv)). rewrite effects_app. unfold taken. rewrite flat_map_app.
    rewrite filter_app, app_length. fold (taken (effects tr)). rewrite IH.
    rewrite (map_ext (fun t => sc t (tr ++ [e])) (fun t => sc t tr + gives t e)) by (intros t; rewrite sc_app; cbn; lia). rewrite sum_app. f_equal.
    destruct e as [t o|t o r|t r|t|t]; try (symmetry; apply sum_none; reflexivity).
    pose proof (ex_snoc A n tr s _ s' H S) as H'.
    destruct (C47_linearizable A n _ _ H') as (q & Q & Pr & _).
    destruct (Pr t (effect_thread n tr s t o r s' H S)) as (ph & P). apply protocol_effect in P.
    rewrite effects_app in Q. cbn in Q. destruct (qrun_last _ _ _ _ _ _ Q) as (q1 & _ & Q1).
    destruct (in_dec Nat.eq_dec t workers) as [W|W].
    + destruct (worker_phase t tr _ P W (serving_prefix _ _ Sv)) as (_ & w & ->).
      inversion Q1; subst; cbn; [|symmetry; apply sum_none; reflexivity].
      rewrite sum_one by assumption. destruct (stop x); reflexivity.
    + pose proof (other_phase t tr _ P W (serving_prefix _ _ Sv)) as O.
      inversion Q1; subst; try contradiction; cbn; symmetry; apply sum_none; reflexivity.
Qed.

Lemma sum_bound : forall (f : nat -> nat) l u, (forall t, In t l -> f t <= 1) -> In u l -> f u = 0 -> list_sum (map f l) < length l.
Proof.
  intros f l u B I Z0.
  assert (G : forall l, (forall t, In t l -> f t <= 1) -> list_sum (map f l) <= length l).
  { clear. intros l. induction l as [|a l IH]; intros B; [cbn; lia|]. cbn [map length]. unfold list_sum in *. cbn [fold_right].
    pose proof (B a (or_introl eq_refl)). pose proof (IH (fun t I => B t (or_intror I))). lia. }
  induction l as [|a l IH]; [destruct I|]. cbn [map length]. unfold list_sum in *. cbn [fold_right].
  pose proof (B a (or_introl eq_refl)) as Ba. destruct I as [->|I].
  - rewrite Z0. pose proof (G l (fun t I => B t (or_intror I))). unfold list_sum in *. lia.
  - pose proof (IH (fun t I => B t (or_intror I)) I). lia.
Qed.

(** One stop element for each serving thread ends them all: when nothing moves any more, every
    serving thread was told to stop and is outside, and everything that was added before the first
    stop element was handed out. *)
Theorem C151_stop_elements : forall n tr s, exec A n tr s -> serving A stop workers tr -> at_rest A stop workers tr s ->
  (forall t, In t workers -> (t < n)%nat) ->
  length workers <= length (filter stop (added (effects tr))) ->
  (forall t, In t workers -> nth_error (pcs A s) t = Some (Idle A) /\ told A stop t tr) /\
  (workers <> [] -> forall pre x post, added (effects tr) = pre ++ x :: post -> Forall (fun y => stop y = false) pre ->
     exists more, taken (effects tr) = pre ++ more).
Proof.
  intros n tr s H Sv R Wn Enough. pose proof (inv_ok A n tr s H) as IV.
  assert (Ends : forall t, In t workers -> nth_error (pcs A s) t = Some (Idle A) /\ told A stop t tr).
  { intros t W. destruct (nth_error (pcs A s) t) as [p|] eqn:Ep.
    2:{ apply nth_error_None in Ep. rewrite (exec_len A n tr s H) in Ep. specialize (Wn t W). lia. }
    destruct (R t p Ep) as [(g & w & ->)|(-> & T)]; [exfalso|split; [reflexivity|exact (T W)]].
    assert (Em : dq A s = []).
    { apply (C48_quiescent A n tr s H); [|exists t, g, w; exact Ep].
      intros u q Eq. destruct (R u q Eq) as [Z|(-> & _)]; [right; exact Z|left; reflexivity]. }
    assert (Ow : owner A s = None).
    { destruct (owner A s) as [o|] eqn:E; [|reflexivity]. pose proof (i_owner _ _ _ IV o E) as L.
      destruct (nth_error (pcs A s) o) as [q|] eqn:Eq; [|apply nth_error_None in Eq; lia].
      apply (i_crit _ _ _ IV o q Eq) in E. destruct (R o q Eq) as [(g' & w' & ->)|(-> & _)]; discriminate. }
    destruct (C47_fifo A n tr s H) as (q & F & Q). rewrite (Q Ow), Em in F. cbn in F. rewrite app_nil_r in F.
    rewrite F, (stops_counted n tr s H Sv) in Enough.
    assert (B : forall u, In u workers -> sc u tr <= 1).
    { intros u Wu. destruct (C47_linearizable A n tr s H) as (_ & _ & Pr & _). destruct (Pr u (Wn u Wu)) as (ph & P).
      pose proof (worker_phase u tr ph P Wu Sv) as X. destruct ph as [|o|o r]; [lia|destruct X; lia|destruct X as (_ & X); lia]. }
    destruct (i_phase _ _ _ IV t _ Ep) as (ph & Ph & P). cbn in Ph. subst ph.
    destruct (worker_phase t tr _ P W Sv) as (Z0 & _).
    pose proof (sum_bound (fun t => sc t tr) workers t B W Z0). lia. }
  split; [exact Ends|]. intros Ne pre x post Ea Fp.
  destruct workers as [|t ws] eqn:Ew; [congruence|]. rewrite <- Ew in *.
  assert (W : In t workers) by (rewrite Ew; left; reflexivity).
  assert (Lt : 0 < length (filter stop (taken (effects tr)))).
  { rewrite (stops_counted n tr s H Sv). destruct (Ends t W) as (Ep & x0 & Ix & Sx).
    destruct (i_phase _ _ _ IV t _ Ep) as (ph & Ph & P). cbn in Ph. subst ph.
    assert (Pos : forall tr ph, protocol t tr ph -> serving A stop workers tr -> In (Return t (RGet x0)) tr -> 0 < sc t tr).
    { clear -Sx W. intros tr ph P. induction P as [|tr o P IH|tr o r P IH|tr o r P IH|tr e p P IH Hne]; intros Sv I; [destruct I| | | |];
        rewrite sc_app; apply in_app_or in I; destruct I as [I|[I|[]]]; try discriminate;
        try (pose proof (IH (serving_prefix _ _ Sv) I); lia).
      - injection I as ->. clear IH.
        assert (G : forall tr o r, protocol t tr (PDone o r) -> r = RGet x0 -> 0 < sc t tr).
        { clear -Sx. intros tr o r P. remember (PDone o r) as ph eqn:Eh. revert o r Eh.
          induction P as [|tr o P IH|tr o r P IH|tr o r P IH|tr e p P IH Hne]; intros o1 r1 Eh Er; try discriminate.
          - injection Eh as -> ->. subst r1. rewrite sc_app. cbn. rewrite Nat.eqb_refl, Sx. cbn. lia.
          - rewrite sc_app. pose proof (IH _ _ Eh Er). lia. }
        pose proof (G _ _ _ P eq_refl). lia.
      - subst e. cbn in Hne. congruence. }
    pose proof (Pos tr _ P Sv Ix). clear -W H0. induction workers as [|a l IH]; [destruct W|].
    cbn [map]. unfold list_sum in *. cbn [fold_right]. destruct W as [->|W]; [lia|]. specialize (IH W). lia. }
  destruct (C47_fifo A n tr s H) as (q & F & _). rewrite Ea in F. clear -Lt F Fp.
  revert F Lt. generalize (taken (effects tr)). revert Fp. induction pre as [|a pre IH]; intros Fp l F Lt; [exists l; reflexivity|].
  inversion Fp; subst. destruct l as [|b l]; [cbn in Lt; lia|]. cbn in F. injection F as <- F. cbn in Lt.
  match goal with E : stop a = false |- _ => rewrite E in Lt end.
  destruct (IH ltac:(assumption) l F Lt) as (more & ->). exists more. reflexivity.
Qed.
End Pills.
Print Assumptions C151_stop_elements.

(** A flag and signal() *)
Section Flag.
Variable A : Type.
Variable worker : nat -> bool.

(** on the way to sleep: between reading the flag and waiting *)
Definition on_the_way (s : wstate A) (t : nat) : Prop :=
  w_pc A s t = Allowed \/ exists g w, nth_error (pcs A (w_q A s)) t = Some (GetLock A g w) \/ nth_error (pcs A (w_q A s)) t = Some (GetTest A g w).
Definition signal_done (e : wevent A) : nat := match e with WQueue (Effect _ OSignal _) => 1 | _ => 0 end.
Fixpoint signals_done (tr : list (wevent A)) : nat := match tr with [] => 0 | e :: tr => signal_done e + signals_done tr end.
Lemma signals_done_app : forall l1 l2, signals_done (l1 ++ l2) = signals_done l1 + signals_done l2.
Proof. intros l1 l2. induction l1 as [|e l IH]; [reflexivity|]. cbn [signals_done app]. rewrite IH. lia. Qed.

Lemma asleep_signals : forall l l', signals A l l' -> total A (asleep A) l' <= total A (asleep A) l /\
  (0 < total A (asleep A) l -> total A (asleep A) l' < total A (asleep A) l).
Proof.
  intros l l' [Hf Hs].
  assert (Le : total A (asleep A) l' <= total A (asleep A) l).
  { clear Hs. induction Hf as [|a b la lb R Hf IH]; cbn; [lia|]. destruct R as [->|(g & w & -> & ->)]; cbn; lia. }
  split; [exact Le|]. intros P. destruct (total_pos _ _ _ P) as (t0 & p0 & A1 & A2).
  destruct Hs as (i & p & p' & B1 & (g & w & ->) & B2 & B3).
  { exists t0, p0. split; [exact A1|]. destruct p0; cbn in A2; try lia. eexists; eexists; reflexivity. }
  clear t0 p0 A1 A2 P Le. revert i B1 B2. induction Hf as [|a b la lb R Hf IH]; intros [|i] B1 B2; try discriminate.
  - injection B1 as ->. injection B2 as ->. destruct R as [->|(g' & w' & E & ->)]; [congruence|]. cbn.
    clear -Hf. enough (total A (asleep A) lb <= total A (asleep A) la) by lia.
    induction Hf as [|a b la lb R Hf IH]; cbn; [lia|]. destruct R as [->|(g & w & -> & ->)]; cbn; lia.
  - cbn. specialize (IH i B1 B2). destruct R as [->|(g' & w' & -> & ->)]; cbn; lia.
Qed.

(** from when the flag is set: nobody goes to sleep, and every signal wakes somebody *)
Definition calm (k : nat) (s : wstate A) : Prop :=
  w_stop A s = true /\ (forall t, ~ on_the_way s t) /\ total A (asleep A) (pcs A (w_q A s)) <= k.

Lemma calm_step : forall k s e s', calm k s -> wstep A worker s e s' -> calm (k - signal_done e) s'.
Proof.
  intros k s e s' (St & Nw & As) S.
  assert (Wput : forall t p u, p <> Allowed -> wput (w_pc A s) t p u = Allowed -> w_pc A s u = Allowed).
  { intros t p u Np. unfold wput. destruct (Nat.eqb u t); [congruence|auto]. }
  assert (Q : forall e q' wp, step A (w_q A s) e q' -> (forall u, wp u = Allowed -> w_pc A s u = Allowed) ->
    (forall t o, e = Call t o -> takes A o = false) -> calm (k - signal_done (WQueue e)) (mkW A q' (w_stop A s) wp)).
  { clear S s' e. intros e q' wp S Wp Cl.
    assert (Ng : forall t g w, nth_error (pcs A (w_q A s)) t <> Some (GetLock A g w) /\ nth_error (pcs A (w_q A s)) t <> Some (GetTest A g w)).
    { intros t g w. split; intros F; apply (Nw t); right; exists g, w; auto. }
    assert (Goal1 : (forall t p, nth_error (pcs A q') t = Some p -> (exists g w, p = GetLock A g w \/ p = GetTest A g w) -> False) /\
      total A (asleep A) (pcs A q') <= k - signal_done (WQueue e)).
    { assert (Up : forall l t p p', nth_error l t = Some p -> (forall u q, nth_error l u = Some q -> (exists g w, q = GetLock A g w \/ q = GetTest A g w) -> False) ->
        asleep A p' <= asleep A p -> (forall g w, p' <> GetLock A g w /\ p' <> GetTest A g w) ->
        (forall u q, nth_error (upd l t p') u = Some q -> (exists g w, q = GetLock A g w \/ q = GetTest A g w) -> False) /\
        total A (asleep A) (upd l t p') <= total A (asleep A) l).
      { intros l t p p' Ep Hl La Hp. split.
        - intros u q Eu (g & w & Z). destruct (nth_upd_cases _ _ _ _ _ _ Eu) as [(-> & ->)|(_ & E)]; [destruct (Hp g w); destruct Z; congruence|].
          exact (Hl u q E (ex_intro _ g (ex_intro _ w Z))).
        - pose proof (total_upd A (asleep A) l t p p' Ep). lia. }
      assert (Base0 : forall u q, nth_error (pcs A (w_q A s)) u = Some q -> (exists g w, q = GetLock A g w \/ q = GetTest A g w) -> False).
      { intros u q E (g & w & Z). destruct (Ng u g w). destruct Z; congruence. }
      assert (SigB : forall l, signals A (pcs A (w_q A s)) l -> forall u q, nth_error l u = Some q -> (exists g w, q = GetLock A g w \/ q = GetTest A g w) -> False).
      { intros l [Hf _]. clear -Hf Base0. revert Base0. induction Hf as [|a b la lb R Hf IH]; intros B u q E Z; [destruct u; discriminate|].
        destruct u as [|u].
        - injection E as ->. destruct R as [->|(g & w & -> & ->)]; [exact (B 0 a eq_refl Z)|destruct Z as (g' & w' & [F|F]); discriminate].
        - exact (IH (fun u q E => B (Datatypes.S u) q E) u q E Z). }
      destruct S as [s0 t o Hp|s0 t p p' Hp Hl Ho|s0 t p d' p' e Hp Hi|s0 t x l Hp Hsg|s0 t l Hp Hsg|s0 t g w Hp Hd Hw|s0 t g w Hp|s0 t p r Hp Hr]; cbn [pcs].
      - destruct (Up _ t _ (entry A o) Hp Base0) as (U1 & U2); [destruct o; cbn; lia| |split; [exact U1|cbn; lia]].
        specialize (Cl t o eq_refl). intros g w. destruct o; cbn in *; split; try discriminate.
      - destruct (Up _ t _ p' Hp Base0) as (U1 & U2); [| |split; [exact U1|cbn; lia]].
        + destruct p; try discriminate; injection Hl as <-; cbn; lia.
        + intros g w. destruct p; try discriminate; injection Hl as <-; split; try discriminate; intros F; destruct (Ng t g0 w0) as (N1 & N2); congruence.
      - destruct (Up _ t _ p' Hp Base0) as (U1 & U2).
        + destruct p; cbn in Hi; try discriminate; repeat match type of Hi with context [match ?x with _ => _ end] => destruct x end; try discriminate;
            injection Hi as _ <- _; cbn; try lia; match goal with |- context [take_of _ ?g _] => destruct g; cbn; lia end.
        + intros g w. destruct p; cbn in Hi; try discriminate; repeat match type of Hi with context [match ?x with _ => _ end] => destruct x end; try discriminate;
            injection Hi as _ <- _; try (split; discriminate); match goal with |- context [take_of _ ?g _] => destruct g; split; discriminate end.
        + split; [exact U1|]. destruct e as [[o r]|]; cbn [label signal_done]; [|lia].
          destruct o; cbn [signal_done]; try lia. exfalso.
          destruct p; cbn in Hi; try discriminate; repeat match type of Hi with context [match ?x with _ => _ end] => destruct x end; try discriminate.
          all: try (destruct g; discriminate).
      - destruct (asleep_signals _ _ Hsg) as (L1 & _).
        assert (El : exists p, nth_error l t = Some p /\ asleep A p = 0).
        { destruct Hsg as [Hf _]. clear -Hf Hp. revert t Hp. induction Hf as [|a b la lb R Hf IH]; intros [|t] Hp; try discriminate.
          - injection Hp as ->. destruct R as [->|(g & w & E & _)]; [eexists; split; reflexivity|discriminate].
          - exact (IH t Hp). }
        destruct El as (p & El & Z0). destruct (Up l t p (AddUnlock A) El (SigB l Hsg)) as (U1 & U2); [cbn; lia|split; discriminate|].
        split; [exact U1|cbn; lia].
      - destruct (asleep_signals _ _ Hsg) as (L1 & L2).
        assert (El : exists p, nth_error l t = Some p /\ asleep A p = 0).
        { destruct Hsg as [Hf _]. clear -Hf Hp. revert t Hp. induction Hf as [|a b la lb R Hf IH]; intros [|t] Hp; try discriminate.
          - injection Hp as ->. destruct R as [->|(g & w & E & _)]; [eexists; split; reflexivity|discriminate].
          - exact (IH t Hp). }
        destruct El as (p & El & Z0). destruct (Up l t p (SigUnlock A) El (SigB l Hsg)) as (U1 & U2); [cbn; lia|split; discriminate|].
        split; [exact U1|cbn [signal_done]; lia].
      - exfalso. destruct (Ng t g w). congruence.
      - destruct (Up _ t _ (GetWoken A g w) Hp Base0) as (U1 & U2); [cbn; lia|split; discriminate|split; [exact U1|cbn; lia]].
      - destruct (Up _ t _ (Idle A) Hp Base0) as (U1 & U2); [cbn; lia|split; discriminate|split; [exact U1|cbn; lia]]. }
    destruct Goal1 as (G1 & G2). split; [exact St|]. split; [|exact G2].
    intros t [F|(g & w & F)]; cbn [w_pc w_q] in F; [apply (Nw t); left; exact (Wp t F)|].
    destruct F as [F|F]; apply (G1 t _ F); exists g, w; auto. }
  destruct S as [s|s t Wk Pc|s t o q' Wk Pc Tk S|s t o q' Wk Tk S|s t r q' S|s e q' Ne S].
  - cbn [signal_done]. rewrite Nat.sub_0_r. split; [reflexivity|]. split; [exact Nw|exact As].
  - cbn [signal_done]. rewrite Nat.sub_0_r, St. split; [reflexivity|]. split; [|exact As].
    intros u [F|F]; [apply (Nw u); left; apply (Wput t Ended u); [discriminate|exact F]|apply (Nw u); right; exact F].
  - exfalso. apply (Nw t). left. exact Pc.
  - apply Q; [exact S|auto|]. intros t' o' E. injection E as <- <-. exact Tk.
  - apply Q; [exact S| |discriminate]. intros u. destruct (worker t); [apply Wput; discriminate|auto].
  - apply Q; [exact S|auto|]. intros t o ->. destruct Ne.
Qed.

(** If the flag is set while no thread is between reading the flag and sleeping, as many calls of
    signal as threads sleep then wake all of them, and nobody goes to sleep again; so when nothing
    moves any more all serving threads have ended. *)
Theorem C151_flag_partial : forall s tr s', w_stop A s = true -> (forall t, ~ on_the_way s t) ->
  wruns A worker s tr s' -> total A (asleep A) (pcs A (w_q A s)) <= signals_done tr ->
  forall t g w, nth_error (pcs A (w_q A s')) t <> Some (GetSleep A g w).
Proof.
  intros s tr s' St Nw R Enough t g w E.
  assert (C : calm (total A (asleep A) (pcs A (w_q A s)) - signals_done tr) s').
  { clear E Enough. induction R as [|tr s1 e s2 R IH S].
    - cbn. rewrite Nat.sub_0_r. split; [exact St|]. split; [exact Nw|lia].
    - rewrite signals_done_app. cbn [signals_done]. rewrite Nat.add_0_r, Nat.sub_add_distr. eapply calm_step; eassumption. }
  destruct C as (_ & _ & C). pose proof (total_ge A (asleep A) _ _ _ E) as X. cbn in X. lia.
Qed.

Lemma idle_from : forall s e s' t, step A s e s' -> nth_error (pcs A s') t = Some (Idle A) ->
  nth_error (pcs A s) t = Some (Idle A) \/ exists r, e = Return t r.
Proof.
  intros s e s' t S E.
  assert (Sg : forall l, signals A (pcs A s) l -> nth_error l t = Some (Idle A) -> nth_error (pcs A s) t = Some (Idle A)).
  { intros l [Hf _]. clear -Hf. revert t. induction Hf as [|a b la lb R Hf IH]; intros [|t] E; try discriminate.
    - injection E as ->. destruct R as [->|(g & w & _ & F)]; [reflexivity|discriminate].
    - exact (IH t E). }
  destruct S as [s0 u o Hp|s0 u p p' Hp Hl Ho|s0 u p d' p' e Hp Hi|s0 u x l Hp Hsg|s0 u l Hp Hsg|s0 u g w Hp Hd Hw|s0 u g w Hp|s0 u p r Hp Hr]; cbn [pcs] in E;
    destruct (nth_upd_cases _ _ _ _ _ _ E) as [(-> & F)|(_ & F)]; try (left; exact F); try (left; exact (Sg _ Hsg F)); try discriminate.
  - destruct o; discriminate.
  - destruct p; try discriminate; injection Hl as <-; discriminate.
  - subst p'. destruct p; cbn in Hi; try discriminate; repeat match type of Hi with context [match ?x with _ => _ end] => destruct x end; try discriminate.
    all: try (destruct g; discriminate).
  - right. eauto.
Qed.
Lemma called_not_idle : forall n tr s t, wexec A worker n tr s -> worker t = true -> w_pc A s t = InCall -> nth_error (pcs A (w_q A s)) t <> Some (Idle A).
Proof.
  intros n tr s t H W. induction H as [|tr s e s' H IH S]; [discriminate|].
  destruct S as [s|s u Wk Pc|s u o q' Wk Pc Tk S|s u o q' Wk Tk S|s u r q' S|s e q' Ne S]; cbn [w_pc w_q] in *; intros P.
  - exact (IH P).
  - apply IH. unfold wput in P. destruct (Nat.eqb t u); [destruct (w_stop A s); discriminate|exact P].
  - unfold wput in P. destruct (Nat.eqb_spec t u) as [->|N].
    + inversion S; subst; [|match goal with E : label _ _ ?e = _ |- _ => destruct e as [[? ?]|]; discriminate end]. cbn [pcs]. intros F.
      destruct (nth_upd_cases _ _ _ _ _ _ F) as [(_ & F')|(N & _)]; [destruct o; discriminate|congruence].
    + intros F. destruct (idle_from _ _ _ _ S F) as [F'|(r & F')]; [exact (IH P F')|discriminate].
  - intros F. destruct (idle_from _ _ _ _ S F) as [F'|(r & F')]; [exact (IH P F')|discriminate].
  - intros F. destruct (idle_from _ _ _ _ S F) as [F'|(r' & F')].
    + apply IH; [|exact F']. destruct (worker u); [|exact P]. unfold wput in P. destruct (Nat.eqb t u); [discriminate|exact P].
    + injection F' as -> _. rewrite W in P. unfold wput in P. rewrite Nat.eqb_refl in P. discriminate.
  - intros F. destruct (idle_from _ _ _ _ S F) as [F'|(r & F')]; [exact (IH P F')|subst e; exact Ne].
Qed.
(** nothing moves any more: every thread sleeps or is outside, and no serving thread is about to
    read the flag or to call get *)
Definition w_rest (s : wstate A) : Prop := forall t p, nth_error (pcs A (w_q A s)) t = Some p ->
  (exists g w, p = GetSleep A g w) \/ (p = Idle A /\ (worker t = true -> w_pc A s t <> Checking /\ w_pc A s t <> Allowed)).
Theorem C151_flag_ends_partial : forall n tr s tr2 s', wexec A worker n tr s -> w_stop A s = true -> (forall t, ~ on_the_way s t) ->
  wruns A worker s tr2 s' -> total A (asleep A) (pcs A (w_q A s)) <= signals_done tr2 -> w_rest s' ->
  forall t, (t < n)%nat -> worker t = true -> w_pc A s' t = Ended.
Proof.
  intros n tr s tr2 s' H St Nw R Enough Re t Lt W.
  assert (H' : wexec A worker n (tr ++ tr2) s').
  { clear -H R. induction R as [|tr2 s1 e s2 R IH S]; [rewrite app_nil_r; exact H|]. rewrite app_assoc. eapply wx_snoc; eassumption. }
  assert (Len : length (pcs A (w_q A s')) = n).
  { assert (X : exists l, exec A n l (w_q A s')).
    { clear -H'. remember (tr ++ tr2) as trx. clear Heqtrx. induction H' as [|trx s0 e s1 H (l & IH) S]; [exists []; apply ex_nil|].
      destruct S; cbn [w_q] in *; try (exists l; exact IH); eexists; eapply ex_snoc; eassumption. }
    destruct X as (l & X). exact (exec_len A n l _ X). }
  destruct (nth_error (pcs A (w_q A s')) t) as [p|] eqn:Ep; [|apply nth_error_None in Ep; lia].
  destruct (Re t p Ep) as [(g & w & ->)|(-> & Q)]; [destruct (C151_flag_partial s tr2 s' St Nw R Enough t g w Ep)|].
  destruct (Q W) as (Q1 & Q2). destruct (w_pc A s' t) eqn:E; try congruence.
  destruct (called_not_idle n _ s' t H' W E Ep).
Qed.
End Flag.
Print Assumptions C151_flag_partial.
Print Assumptions C151_flag_ends_partial.

(** ** Examples and refutations *)

Fixpoint chk {A} (stop : A -> bool) (workers gone : list nat) (tr : list (event A)) : bool :=
  match tr with
  | [] => true
  | Call t o :: tr =>
      (if existsb (Nat.eqb t) workers then match o with OGet _ => negb (existsb (Nat.eqb t) gone) | _ => false end
       else negb (takes A o)) && chk stop workers gone tr
  | Return t (RGet x) :: tr => chk stop workers (if stop x then t :: gone else gone) tr
  | _ :: tr => chk stop workers gone tr
  end.
Lemma mem_in : forall t l, existsb (Nat.eqb t) l = true <-> In t l.
Proof.
  intros t l. rewrite existsb_exists. split; [intros (x & I & E); apply Nat.eqb_eq in E; subst; exact I|intros I; exists t; split; [exact I|apply Nat.eqb_refl]].
Qed.
Lemma chk_serving : forall A stop workers (tr : list (event A)), chk stop workers [] tr = true -> serving A stop workers tr.
Proof.
  intros A stop workers tr C.
  assert (G : forall tr gone pre, chk stop workers gone tr = true -> (forall t, told A stop t pre -> In t gone) ->
    forall tr1 t o tr2, tr = tr1 ++ Call t o :: tr2 ->
    (In t workers -> (exists w, o = OGet w) /\ ~ told A stop t (pre ++ tr1)) /\
    (~ In t workers -> match o with OGet _ | OBatch _ _ => False | _ => True end)).
  { clear tr C. induction tr as [|e tr IH]; intros gone pre C T tr1 t o tr2 E; [destruct tr1; discriminate|].
    destruct tr1 as [|e1 tr1]; cbn in E.
    - injection E as -> ->. cbn [chk] in C. apply andb_prop in C. destruct C as (C & _). rewrite app_nil_r. split; intros W.
      + apply mem_in in W. rewrite W in C. destruct o; try discriminate. split; [eauto|]. intros F. apply T, mem_in in F. rewrite F in C. discriminate.
      + destruct (existsb (Nat.eqb t) workers) eqn:X; [apply mem_in in X; contradiction|]. destruct o; cbn in C; try discriminate; exact I.
    - injection E as -> ->.
      assert (Ap : pre ++ e1 :: tr1 = (pre ++ [e1]) ++ tr1) by (rewrite <- app_assoc; reflexivity). rewrite Ap.
      assert (Same : chk stop workers gone (tr1 ++ Call t o :: tr2) = true -> (forall u x, e1 = Return u (RGet x) -> stop x = false) ->
        (In t workers -> (exists w, o = OGet w) /\ ~ told A stop t ((pre ++ [e1]) ++ tr1)) /\
        (~ In t workers -> match o with OGet _ | OBatch _ _ => False | _ => True end)).
      { intros C' N. apply (IH gone (pre ++ [e1]) C') with (tr2 := tr2); [|reflexivity].
        intros u (x & I & Sx). apply in_app_or in I. destruct I as [I|[I|[]]]; [apply T; exists x; auto|]. rewrite (N u x I) in Sx. discriminate. }
      destruct e1 as [u o1|u o1 r1|u r1|u|u]; cbn [chk] in C; try (apply Same; [exact C|discriminate]).
      + apply andb_prop in C. destruct C as (_ & C). apply Same; [exact C|discriminate].
      + destruct r1 as [| |x| |]; try (apply Same; [exact C|discriminate]).
        destruct (stop x) eqn:Sx; [|apply Same; [exact C|intros ? ? E1; injection E1 as _ <-; exact Sx]].
        apply (IH (u :: gone) (pre ++ [Return u (RGet x)]) C) with (tr2 := tr2); [|reflexivity].
        intros v (y & I & Sy). apply in_app_or in I. destruct I as [I|[I|[]]]; [right; apply T; exists y; auto|]. injection I as -> _. left. reflexivity. }
  intros tr1 t o tr2 E. apply (G tr [] [] C) with (tr2 := tr2); [|exact E]. intros u (x & [] & _).
Qed.

(** threads 0 and 1 serve; thread 2 adds 7 and two zeros, which mean stop *)
Definition stopping : list (act nat) :=
  [DoCall 0 (OGet true); Do 0; Do 0;
   DoCall 2 (OAdd 7); Do 2; Do 2; Do 2; Do 2; DoCall 2 (OAdd 0); Do 2; Do 2; Do 2; Do 2; DoCall 2 (OAdd 0); Do 2; Do 2; Do 2; Do 2;
   Do 0; Do 0; Do 0; Do 0; Do 0; DoCall 0 (OGet true); Do 0; Do 0; Do 0; Do 0; Do 0;
   DoCall 1 (OGet true); Do 1; Do 1; Do 1; Do 1; Do 1].
Example C151_ex : exists tr s, exec nat 3 tr s /\ serving nat (Nat.eqb 0) [0; 1] tr /\ at_rest nat (Nat.eqb 0) [0; 1] tr s /\
  added (effects tr) = [7; 0; 0].
Proof.
  destruct (fires [] (init nat 3) stopping) as [[tr s]|] eqn:E; [|vm_compute in E; discriminate].
  exists tr, s. split; [eapply fires_exec; [apply ex_nil|exact E]|].
  vm_compute in E. injection E as <- <-. split; [|split; [|reflexivity]].
  - apply chk_serving. vm_compute. reflexivity.
  - intros t p Ep. right. destruct t as [|[|[|t]]]; cbn in Ep; try (destruct t; discriminate); injection Ep as <-; (split; [reflexivity|]); intros W.
    + exists 0. split; [cbn; tauto|reflexivity].
    + exists 0. split; [cbn; tauto|reflexivity].
    + exfalso. cbn in W. intuition discriminate.
Qed.

(** Batches: one thread may take two stop elements at once, and another waits for ever *)
Definition batching : list (act nat) :=
  [DoCall 1 (OBatch 0 true); Do 1; Do 1;
   DoCall 2 (OAdd 0); Do 2; Do 2; Do 2; Do 2; DoCall 2 (OAdd 0); Do 2; Do 2; Do 2; Do 2;
   DoCall 0 (OBatch 0 true); Do 0; Do 0; Do 0; Do 0; Do 0; Do 0; Do 0; Do 0; Do 0; Do 0; Do 0;
   Do 1; Do 1; Do 1; DoCall 1 (OBatch 0 true); Do 1; Do 1].
Theorem C151_batches_refuted : exists tr s, exec nat 3 tr s /\ added (effects tr) = [0; 0] /\
  In (Return 0 (RBatch [0; 0])) tr /\ pcs nat s = [Idle nat; GetSleep nat (Batch 0) true; Idle nat] /\ dq nat s = [].
Proof.
  destruct (fires [] (init nat 3) batching) as [[tr s]|] eqn:E; [|vm_compute in E; discriminate].
  exists tr, s. split; [eapply fires_exec; [apply ex_nil|exact E]|].
  vm_compute in E. injection E as <- <-. split; [reflexivity|]. split; [cbn; tauto|]. split; reflexivity.
Qed.
Print Assumptions C151_batches_refuted.

(** The flag: thread 0 reads it; thread 1 sets it and calls signal; then thread 0 calls get and
    sleeps, and nothing moves any more *)
Inductive wact (A : Type) := ASet | ACheck (t : nat) | AQ (a : act A).
Arguments ASet {A}. Arguments ACheck {A}. Arguments AQ {A}.
Definition wfire {A} (worker : nat -> bool) (s : wstate A) (a : wact A) : option (wevent A * wstate A) :=
  match a with
  | ASet => Some (WSet, mkW A (w_q A s) true (w_pc A s))
  | ACheck t => match worker t, w_pc A s t with
                | true, Checking => Some (WCheck t, mkW A (w_q A s) (w_stop A s) (wput (w_pc A s) t (if w_stop A s then Ended else Allowed)))
                | _, _ => None
                end
  | AQ a => match fire (w_q A s) a with
            | Some (Call t o, q') =>
                match worker t, w_pc A s t, takes A o with
                | true, Allowed, true => Some (WQueue (Call t o), mkW A q' (w_stop A s) (wput (w_pc A s) t InCall))
                | false, _, false => Some (WQueue (Call t o), mkW A q' (w_stop A s) (w_pc A s))
                | _, _, _ => None
                end
            | Some (Return t r, q') => Some (WQueue (Return t r), mkW A q' (w_stop A s) (if worker t then wput (w_pc A s) t Checking else w_pc A s))
            | Some (e, q') => Some (WQueue e, mkW A q' (w_stop A s) (w_pc A s))
            | None => None
            end
  end.
Lemma wfire_step : forall A worker (s : wstate A) a e s', wfire worker s a = Some (e, s') -> wstep A worker s e s'.
Proof.
  intros A worker s a e s' H. destruct a as [|t|a]; cbn [wfire] in H.
  - injection H as <- <-. apply w_set.
  - destruct (worker t) eqn:W; [|discriminate]. destruct (w_pc A s t) eqn:P; try discriminate. injection H as <- <-. apply w_check; assumption.
  - destruct (fire (w_q A s) a) as [[e1 q']|] eqn:F; [|discriminate]. apply fire_step in F.
    destruct e1 as [t o|t o r|t r|t|t].
    + destruct (worker t) eqn:W, (w_pc A s t) eqn:P, (takes A o) eqn:T; try discriminate; injection H as <- <-;
        first [apply w_call; assumption|apply w_other_call; assumption].
    + injection H as <- <-. apply w_inner; [exact I|exact F].
    + injection H as <- <-. apply w_return. exact F.
    + injection H as <- <-. apply w_inner; [exact I|exact F].
    + injection H as <- <-. apply w_inner; [exact I|exact F].
Qed.
Fixpoint wfires {A} (worker : nat -> bool) (tr : list (wevent A)) (s : wstate A) (l : list (wact A)) : option (list (wevent A) * wstate A) :=
  match l with
  | [] => Some (tr, s)
  | a :: l => match wfire worker s a with Some (e, s) => wfires worker (tr ++ [e]) s l | None => None end
  end.
Lemma wfires_exec : forall A worker n l tr (s : wstate A) tr' s', wexec A worker n tr s -> wfires worker tr s l = Some (tr', s') -> wexec A worker n tr' s'.
Proof.
  intros A worker n l. induction l as [|a l IH]; intros tr s tr' s' H E; cbn [wfires] in E.
  - injection E as <- <-. exact H.
  - destruct (wfire worker s a) as [[e s1]|] eqn:Ef; [|discriminate]. eapply IH; [|exact E]. eapply wx_snoc; [exact H|eapply wfire_step; exact Ef].
Qed.
Lemma wfires_runs : forall A worker l tr (s0 s : wstate A) tr' s', wruns A worker s0 tr s -> wfires worker tr s l = Some (tr', s') -> wruns A worker s0 tr' s'.
Proof.
  intros A worker l. induction l as [|a l IH]; intros tr s0 s tr' s' H E; cbn [wfires] in E.
  - injection E as <- <-. exact H.
  - destruct (wfire worker s a) as [[e s1]|] eqn:Ef; [|discriminate]. eapply IH; [|exact E]. eapply wr_snoc; [exact H|eapply wfire_step; exact Ef].
Qed.

Definition is0 (t : nat) : bool := Nat.eqb t 0.
Definition late : list (wact nat) :=
  [ACheck 0; ASet] ++ map AQ [DoCall 1 OSignal; Do 1; Do 1; Do 1; DoCall 0 (OGet true); Do 0; Do 0].
Theorem C151_flag_refuted : exists tr s, wexec nat is0 2 tr s /\ w_stop nat s = true /\ w_rest nat is0 s /\
  In (WQueue (Return 1 RUnit)) tr /\ signals_done nat tr = 1 /\
  w_pc nat s 0 = InCall /\ nth_error (pcs nat (w_q nat s)) 0 = Some (GetSleep nat Single true).
Proof.
  destruct (wfires is0 [] (mkW nat (init nat 2) false (fun _ => Checking)) late) as [[tr s]|] eqn:E; [|vm_compute in E; discriminate].
  exists tr, s. split; [eapply wfires_exec; [apply wx_nil|exact E]|].
  vm_compute in E. injection E as <- <-. split; [reflexivity|]. split; [|split; [cbn; tauto|repeat split; reflexivity]].
  intros t p Ep. destruct t as [|[|t]]; cbn in Ep; try (destruct t; discriminate); injection Ep as <-; [left; eauto|right].
  split; [reflexivity|]. intros W. discriminate.
Qed.
Print Assumptions C151_flag_refuted.

(** the hypotheses of C151_flag_ends_partial: thread 0 sleeps when the flag is set, one signal *)
Example C151_flag_ex : exists tr s tr2 s', wexec nat is0 2 tr s /\ w_stop nat s = true /\ (forall t, ~ on_the_way nat s t) /\
  wruns nat is0 s tr2 s' /\ total nat (asleep nat) (pcs nat (w_q nat s)) = 1 /\ signals_done nat tr2 = 1 /\ w_rest nat is0 s' /\ w_pc nat s' 0 = Ended.
Proof.
  destruct (wfires is0 [] (mkW nat (init nat 2) false (fun _ => Checking)) ([ACheck 0] ++ map AQ [DoCall 0 (OGet true); Do 0; Do 0] ++ [ASet])) as [[tr s]|] eqn:E; [|vm_compute in E; discriminate].
  destruct (wfires is0 [] s (map AQ [DoCall 1 OSignal; Do 1; Do 1; Do 1; Do 0; Do 0; Do 0] ++ [ACheck 0])) as [[tr2 s']|] eqn:E2.
  2:{ vm_compute in E. injection E as _ <-. vm_compute in E2. discriminate. }
  exists tr, s, tr2, s'. split; [eapply wfires_exec; [apply wx_nil|exact E]|].
  assert (R : wruns nat is0 s tr2 s') by (eapply wfires_runs; [apply wr_nil|exact E2]).
  vm_compute in E. injection E as _ <-. vm_compute in E2. injection E2 as <- <-.
  split; [reflexivity|]. split.
  - intros t [F|(g & w & F)].
    + cbn in F. unfold wput in F. destruct t as [|t]; discriminate.
    + destruct t as [|[|t]]; cbn in F; try (destruct t; destruct F; discriminate); destruct F; discriminate.
  - split; [exact R|]. split; [reflexivity|]. split; [reflexivity|]. split; [|reflexivity].
    intros t p Ep. right. destruct t as [|[|t]]; cbn in Ep; try (destruct t; discriminate); injection Ep as <-; (split; [reflexivity|]); intros W; cbn in *; split; discriminate.
Qed.
