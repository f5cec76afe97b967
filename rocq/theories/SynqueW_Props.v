(** Why a waiting get of the thread-safe queue returned -1: any number of consumers, signals
    and spurious wake-ups. *)
From Coq Require Import ZArith List Bool Lia Arith.
From Verif Require Import Base Synque_Spec Synque_Model Synque_Proof Synque_Props SynqueW_Spec.
Import ListNotations.

Section W.
Variable A : Type.
Notation pc := (pc A).
Notation state := (state A).
Notation event := (event A).
Notation pcs := (pcs A).
Notation absq := (absq A).

(** the events since the last call of thread [t] *)
Definition since (t : nat) (tr : list event) : list event :=
  fold_left (fun l e => match e with Call u _ => if (u =? t)%nat then [] else l ++ [e] | _ => l ++ [e] end) tr [].
Lemma since_app : forall t tr e, since t (tr ++ [e]) =
  match e with Call u _ => if (u =? t)%nat then [] else since t tr ++ [e] | _ => since t tr ++ [e] end.
Proof. intros. unfold since. rewrite fold_left_app. reflexivity. Qed.

Lemma qstep_det : forall q o r q1, qstep (A := A) q o r q1 -> forall q2, qstep q o r q2 -> q1 = q2.
Proof. intros q o r q1 H q2 H2. inversion H; subst; inversion H2; subst; congruence. Qed.
Lemma qrun_det : forall q l q1, qrun (A := A) q l q1 -> forall q2, qrun q l q2 -> q1 = q2.
Proof.
  intros q l q1 H. induction H as [|q l q1 o r q2 H IH S]; intros q3 H3.
  - remember [] as l eqn:El. destruct H3 as [|q l q1 o r q2 H3 S3]; auto. destruct l; discriminate.
  - remember (l ++ [(o, r)]) as l' eqn:El. destruct H3 as [|q l' q1' o' r' q2' R' S'].
    + destruct l; discriminate.
    + apply app_inj_tail in El. destruct El as [-> E]. injection E as -> ->.
      rewrite <- (IH _ R') in S'. eapply qstep_det; eauto.
Qed.

Lemma qstep_drain : forall q o r, qstep (A := A) q o r [] -> q <> [] ->
  (exists w x, o = OGet w /\ r = RGet x) \/ (exists max w l, o = OBatch max w /\ r = RBatch l /\ l <> []).
Proof.
  intros q o r H N. remember (@nil A) as e eqn:Ee. destruct H as [q x|q|q x w|w|q max w Q|max w|q]; try congruence.
  - destruct q; discriminate.
  - left. eauto.
  - right. exists max, w. eexists. split; [reflexivity|]. split; [reflexivity|].
    intros F. apply Q. rewrite Ee in F. pose proof (firstn_skipn (batch_count max (length q)) q) as G.
    rewrite Ee, F in G. now symmetry.
Qed.

Lemma step_abs : forall n tr s e s', exec A n tr s -> step A s e s' ->
  match e with Effect _ o r => qstep (absq s) o r (absq s') | _ => absq s' = absq s end.
Proof.
  intros n tr s e s' X S. pose proof (i_queue _ _ _ (inv_ok A n tr s X)) as Q.
  pose proof (i_queue _ _ _ (inv_ok A n _ s' (ex_snoc _ _ _ _ _ _ X S))) as Q'. rewrite effects_app in Q'.
  destruct e; cbn [effects flat_map app] in Q'; try (rewrite app_nil_r in Q'; eapply qrun_det; eauto; fail).
  destruct (qrun_last _ _ _ _ _ _ Q') as [q1 [Q1 S1]]. now rewrite (qrun_det _ _ _ Q _ Q1).
Qed.

(** something was added, and it is there or was taken *)
Definition hot (t : nat) (u : nat) (x : A) (tr : list event) (s : state) : Prop :=
  exists b1 b2, since t tr = b1 ++ Effect u (OAdd x) RUnit :: b2 /\ (absq s <> [] \/ taken t b2).
Definition reason (t : nat) (tr : list event) (s : state) : Prop :=
  In (Wake t) (since t tr) \/ (exists u, In (Effect u OSignal RUnit) (since t tr)) \/
  exists u x, hot t u x tr s.

Definition who (e : event) : nat :=
  match e with Call t _ | Effect t _ _ | Return t _ | Wake t | Tau t => t end.

Lemma taken_app : forall t (b : list event) e, taken t b -> taken t (b ++ [e]).
Proof.
  intros t b e (v & N & [(w & x & I)|(max & w & l & I & L)]); exists v; (split; [exact N|]).
  - left. exists w, x. apply in_or_app. auto.
  - right. exists max, w, l. split; auto. apply in_or_app. auto.
Qed.
Lemma since_mono : forall t tr e, (forall o, e <> Call t o) -> since t (tr ++ [e]) = since t tr ++ [e].
Proof.
  intros t tr e N. rewrite since_app. destruct e; auto. destruct (Nat.eqb_spec t0 t); auto. subst. now elim (N o).
Qed.

Lemma hot_step : forall n tr s e s' t u x, exec A n tr s -> step A s e s' -> (who e <> t \/ exists t', e = Tau t') ->
  hot t u x tr s -> hot t u x (tr ++ [e]) s'.
Proof.
  intros n tr s e s' t u x X S W (b1 & b2 & E & H). exists b1, (b2 ++ [e]). split.
  - rewrite since_mono.
    + rewrite E, <- app_assoc. reflexivity.
    + intros o ->. destruct W as [W|[t' W]]; [now elim W|discriminate].
  - destruct H as [H|H]; [|right; now apply taken_app].
    pose proof (step_abs _ _ _ _ _ X S) as Q. destruct e as [v o|v o r|v r|v|v]; try (left; congruence).
    destruct (absq s') as [|y l] eqn:Es; [|left; discriminate]. right.
    destruct W as [W|[t' W]]; [|discriminate]. cbn [who] in W. exists v. split; auto.
    destruct (qstep_drain _ _ _ Q H) as [(w & y & -> & ->)|(max & w & l & -> & -> & L)].
    + left. exists w, y. apply in_or_app. right. now left.
    + right. exists max, w, l. split; auto. apply in_or_app. right. now left.
Qed.
Lemma reason_step : forall n tr s e s' t, exec A n tr s -> step A s e s' -> (who e <> t \/ exists t', e = Tau t') ->
  reason t tr s -> reason t (tr ++ [e]) s'.
Proof.
  intros n tr s e s' t X S W R.
  assert (N : forall o, e <> Call t o) by (intros o ->; destruct W as [W|[t' W]]; [now elim W|discriminate]).
  unfold reason. rewrite (since_mono t tr e N). destruct R as [R|[[u R]|(u & x & R)]].
  - left. apply in_or_app. auto.
  - right. left. exists u. apply in_or_app. auto.
  - right. right. exists u, x. eapply hot_step; eauto.
Qed.

Definition want (tr : list event) (s : state) (t : nat) (p : pc) : Prop :=
  match p with
  | GetSleep _ _ _ => forall u x, nth_error (pcs s) u = Some (AddSignal A x) -> hot t u x tr s
  | GetWoken _ _ _ | GetTest2 _ _ _ => reason t tr s
  | _ => True
  end.
Definition rinv (tr : list event) (s : state) : Prop :=
  forall t p, nth_error (pcs s) t = Some p -> want tr s t p.

Lemma signals_nth : forall l l', signals A l l' -> forall t y, nth_error l' t = Some y ->
  exists y0, nth_error l t = Some y0 /\ (y = y0 \/ exists g w, y0 = GetSleep A g w /\ y = GetWoken A g w).
Proof.
  intros l l' [F _]. induction F as [|a b la lb R _ IH]; intros [|t] y E; try discriminate.
  - injection E as <-. exists a. split; auto.
  - apply IH. exact E.
Qed.

Lemma rinv_step : forall n tr s e s', exec A n tr s -> rinv tr s -> step A s e s' -> rinv (tr ++ [e]) s'.
Proof.
  intros n tr s e s' X J S. pose proof (inv_ok A n tr s X) as IV. pose proof S as S0.
  (* what a step is: the actor goes from p to p', the others keep their pc up to waking *)
  assert (D : exists p p' l, nth_error (pcs s) (who e) = Some p /\ pcs s' = upd l (who e) p' /\
    (forall t y, nth_error l t = Some y -> exists y0, nth_error (pcs s) t = Some y0 /\
       (y = y0 \/ exists g w, y0 = GetSleep A g w /\ y = GetWoken A g w /\
          (e = Effect (who e) OSignal RUnit \/ exists x, p = AddSignal A x /\ e = Tau (who e)))) /\
    (forall x, p' = AddSignal A x -> e = Effect (who e) (OAdd x) RUnit) /\
    (forall g w, p' = GetSleep A g w -> p = GetTest A g w /\ owner A s' = None) /\
    (forall g w, p' = GetWoken A g w -> e = Wake (who e)) /\
    (forall g w, p' = GetTest2 A g w -> p = GetWoken A g w /\ e = Tau (who e))).
  { assert (K : forall t (y : pc), nth_error (pcs s) t = Some y -> forall P : pc -> Prop, exists y0, nth_error (pcs s) t = Some y0 /\
       (y = y0 \/ P y0)) by (intros t y E P; exists y; auto).
    destruct S as [s t o Hp|s t p p' Hp Hl Ho|s t p d' p' x Hp Hi|s t x l Hp Hsg|s t l Hp Hsg|s t g w Hp Hd Hw|s t g w Hp|s t p r Hp Hr];
      cbn [Synque_Model.pcs owner].
    - exists (Idle A), (entry A o), (pcs s). cbn [who]. split; [exact Hp|]. split; [reflexivity|]. split; [intros; now apply K|].
      repeat split; intros; destruct o; discriminate.
    - exists p, p', (pcs s). cbn [who]. split; [exact Hp|]. split; [reflexivity|]. split; [intros; now apply K|].
      split; [intros y ->; destruct p; discriminate|]. split; [intros g w ->; destruct p; discriminate|].
      split; [intros g w ->; destruct p; discriminate|].
      intros g w ->. destruct p; try discriminate. injection Hl as -> ->. auto.
    - assert (WL : who (label A t x) = t) by (destruct x as [[? ?]|]; reflexivity). rewrite WL.
      exists p, p', (pcs s). split; [exact Hp|]. split; [reflexivity|]. split; [intros; now apply K|].
      assert (H4 : (forall y, p' = AddSignal A y -> label A t x = Effect t (OAdd y) RUnit) /\ (forall g w, p' <> GetSleep A g w) /\
              (forall g w, p' <> GetWoken A g w) /\ (forall g w, p' <> GetTest2 A g w)).
      { destruct p; cbn [inside] in Hi; try discriminate Hi;
          repeat match type of Hi with
          | match ?x with _ => _ end = _ => destruct x
          | (if ?b then _ else _) = _ => destruct b
          end; try discriminate Hi; injection Hi; intros; subst;
          try (destruct g); repeat split; intros; try discriminate; cbn [label]; congruence. }
      destruct H4 as (H4 & H5 & H6 & H7). split; [exact H4|]. split; [intros g w F; now elim (H5 g w)|].
      split; [intros g w F; now elim (H6 g w)|intros g w F; now elim (H7 g w)].
    - exists (AddSignal A x), (AddUnlock A), l. cbn [who]. split; [exact Hp|]. split; [reflexivity|].
      split; [|repeat split; intros; discriminate].
      intros u y E. destruct (signals_nth _ _ Hsg u y E) as (y0 & E0 & [->|(g & w & -> & ->)]); eexists; (split; [exact E0|]); eauto 10.
    - exists (SigSignal A), (SigUnlock A), l. cbn [who]. split; [exact Hp|]. split; [reflexivity|].
      split; [|repeat split; intros; discriminate].
      intros u y E. destruct (signals_nth _ _ Hsg u y E) as (y0 & E0 & [->|(g & w & -> & ->)]); eexists; (split; [exact E0|]); eauto 10.
    - exists (GetTest A g w), (GetSleep A g w), (pcs s). cbn [who]. split; [exact Hp|]. split; [reflexivity|]. split; [intros; now apply K|].
      split; [intros; discriminate|]. split; [intros g0 w0 F; injection F as -> ->; auto|]. split; intros; discriminate.
    - exists (GetSleep A g w), (GetWoken A g w), (pcs s). cbn [who]. split; [exact Hp|]. split; [reflexivity|]. split; [intros; now apply K|].
      repeat split; intros; discriminate.
    - exists p, (Idle A), (pcs s). cbn [who]. split; [exact Hp|]. split; [reflexivity|]. split; [intros; now apply K|].
      repeat split; intros; discriminate. }
  destruct D as (p & p' & l & Hp & El & Dl & D1 & D2 & D3 & D4). remember (who e) as a eqn:Ea.
  assert (Old : forall u x, nth_error (pcs s') u = Some (AddSignal A x) -> u <> a -> nth_error (pcs s) u = Some (AddSignal A x)).
  { intros u x E N. rewrite El in E. destruct (nth_upd_cases _ _ _ _ _ _ E) as [[F _]|[_ E']]; [contradiction|].
    destruct (Dl u _ E') as (y0 & E0 & [<-|(g & w & _ & F & _)]); [exact E0|discriminate]. }
  intros t y E. pose proof E as Ey. rewrite El in E. destruct (nth_upd_cases _ _ _ _ _ _ E) as [[Et Ep']|[N E']].
  - (* the actor *) subst t y.
    destruct p'; try exact I; cbn [want].
    + destruct (D2 _ _ eq_refl) as [Ep O]. subst p. intros u x Hu. exfalso.
      destruct (Nat.eq_dec u a) as [Eu|Nu]; [subst u; rewrite Ey in Hu; discriminate|].
      specialize (Old u x Hu Nu). pose proof (proj1 (i_crit _ _ _ IV _ _ Hp) eq_refl) as O1.
      pose proof (proj1 (i_crit _ _ _ IV _ _ Old) eq_refl). congruence.
    + left. specialize (D3 _ _ eq_refl). rewrite since_mono by (intros o F; rewrite D3 in F; discriminate).
      apply in_or_app. right. left. exact D3.
    + destruct (D4 _ _ eq_refl) as [Ep Ee]. subst p. eapply reason_step; [exact X|exact S0|right; eauto|].
      exact (J a _ Hp).
  - (* another thread *)
    assert (Wt : who e <> t \/ exists t', e = Tau t') by (left; congruence).
    destruct (Dl t _ E') as (y0 & E0 & Y). pose proof (J t y0 E0) as W.
    destruct Y as [->|(g & w & -> & -> & Y)].
    + destruct y0; try exact I; cbn [want] in *.
      * intros u x Hu. destruct (Nat.eq_dec u a) as [Eu|Nu].
        -- subst u. rewrite El in Hu. destruct (nth_upd_cases _ _ _ _ _ _ Hu) as [[_ F]|[F _]]; [|now elim F].
           symmetry in F. specialize (D1 x F). exists (since t tr), []. split.
           ++ rewrite since_mono by (intros o G; rewrite D1 in G; discriminate). f_equal. now rewrite D1.
           ++ left. pose proof (step_abs _ _ _ _ _ X S0) as Q. rewrite D1 in Q. inversion Q; subst.
              intros G. now destruct (absq s).
        -- eapply hot_step; eauto.
      * eapply reason_step; eauto.
      * eapply reason_step; eauto.
    + cbn [want] in *. destruct Y as [Y|(x & Ep & Y)].
      * right. left. exists a. rewrite since_mono by (intros o G; rewrite Y in G; discriminate).
        apply in_or_app. right. left. exact Y.
      * right. right. exists a, x. eapply hot_step; eauto. apply W. now rewrite <- Ep.
Qed.

Lemma rinv_ok : forall n tr s, exec A n tr s -> rinv tr s.
Proof.
  intros n tr s X. induction X as [|tr s e s' X IH S].
  - intros t p E. apply nth_error_In, repeat_spec in E. subst. exact I.
  - eapply rinv_step; eauto.
Qed.

Lemma exec_split : forall n b a s, exec A n (a ++ b) s -> exists s1, exec A n a s1.
Proof.
  induction b as [|e b IH] using rev_ind; intros a s X.
  - rewrite app_nil_r in X. eauto.
  - rewrite app_assoc in X. inversion X as [E|tr s0 e0 s1 X0 S E].
    + destruct (a ++ b); discriminate.
    + apply app_inj_tail in E. destruct E as [-> ->]. eauto.
Qed.

Lemma since_call : forall t o a b, (forall o', ~ In (Call t o') b) -> since t (a ++ Call t o :: b) = b.
Proof.
  intros t o a b. induction b as [|e b IH] using rev_ind; intros N.
  - rewrite since_app, Nat.eqb_refl. reflexivity.
  - replace (a ++ Call t o :: b ++ [e]) with ((a ++ Call t o :: b) ++ [e]) by (rewrite <- app_assoc; reflexivity).
    rewrite since_mono.
    + rewrite IH; auto. intros o' F. apply (N o'). apply in_or_app. auto.
    + intros o' ->. apply (N o'). apply in_or_app. right. now left.
Qed.

(** Every -1 of a get that may wait has one of three causes, between its call and its failure. *)
Theorem C49_why : forall n tr s t o a b c, exec A n tr s -> waiting o ->
  tr = a ++ Call t o :: b ++ Effect t o RFail :: c -> (forall o', ~ In (Call t o') b) -> excuse t b.
Proof.
  intros n tr s t o a b c X W -> N.
  replace (a ++ Call t o :: b ++ Effect t o RFail :: c) with (((a ++ Call t o :: b) ++ [Effect t o RFail]) ++ c) in X
    by (rewrite <- !app_assoc; reflexivity).
  destruct (exec_split _ _ _ _ X) as [s2 X2]. inversion X2 as [E|tr1 s1 e1 s3 X1 S E].
  { destruct (a ++ Call t o :: b); discriminate. }
  apply app_inj_tail in E. destruct E as [-> ->]. subst s3.
  pose proof (inv_ok A n _ s1 X1) as IV. pose proof (rinv_ok _ _ _ X1) as J.
  assert (R : reason t (a ++ Call t o :: b) s1 /\ absq s1 = []).
  { remember (Effect t o RFail) as ev eqn:Ev. clear X X2.
    destruct S as [s1 u o1 Hp|s1 u p p' Hp Hl Ho|s1 u p d' p' x Hp Hi|s1 u x l Hp Hsg|s1 u l Hp Hsg|s1 u g w Hp Hd Hw|s1 u g w Hp|s1 u p r Hp Hr];
      try discriminate Ev.
    destruct x as [[o0 r0]|]; [|discriminate]. cbn in Ev. injection Ev as -> -> ->.
    destruct p; cbn [inside] in Hi; try discriminate Hi;
      try (repeat match type of Hi with
          | match ?x with _ => _ end = _ => destruct x
          | (if ?b then _ else _) = _ => destruct b
          end; discriminate Hi).
    - destruct (dq A s1); [|discriminate]. destruct w; [discriminate|]. injection Hi; intros; subst o.
      exfalso. destruct W as [W|[m W]]; destruct g; discriminate.
    - split; [exact (J t _ Hp)|]. unfold Synque_Proof.absq, pend.
      rewrite (proj1 (i_crit _ _ _ IV _ _ Hp) eq_refl), Hp. cbn [pending app].
      destruct (dq A s1); [reflexivity|discriminate]. }
  destruct R as [R Z]. unfold reason, hot in R. rewrite (since_call t o a b N) in R.
  destruct R as [R|[R|(u & x & b1 & b2 & E & [H|H])]].
  - now left.
  - right. now left.
  - contradiction.
  - right. right. exists u, x, b1, b2. auto.
Qed.
End W.
Print Assumptions C49_why.

(** the three causes happen: a spurious wake-up, signal(), and a thread that was faster *)
Example C49_why_ex : exists tr s b c, exec nat 3 tr s /\ tr = Call 0 (OGet true) :: b ++ Effect 0 (OGet true) RFail :: c /\
  (forall o', ~ In (Call 0 o') b) /\ taken 0 b.
Proof.
  destruct (fires [] (init nat 3) stolen) as [[tr s]|] eqn:E; [|vm_compute in E; discriminate].
  pose proof (fires_exec _ _ _ _ _ _ _ (ex_nil nat 3) E) as X. vm_compute in E. injection E as <- <-.
  eexists _, _, _, _. split; [exact X|]. split.
  - change (firstn 1 (Call 0 (OGet true) :: nil)) with [Call (A := nat) 0 (OGet true)]. cbn [app].
    match goal with |- ?l = _ => let k := eval vm_compute in (firstn (length l - 3) (tl l)) in
      instantiate (2 := k) end. reflexivity.
  - split.
    + intros o' F. repeat (destruct F as [F|F]; [discriminate|]). destruct F.
    + exists 2%nat. split; [discriminate|]. left. exists false, 7%nat. cbn. tauto.
Qed.
