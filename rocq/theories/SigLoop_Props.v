(** Properties of main loops over the flags of the library. *)

From Coq Require Import ZArith List Bool Lia.
From Verif Require Import Base Daemon_Model SigLoop_Model SigLoop_Spec.
Import ListNotations.
Local Open Scope Z_scope.

Lemma count_snoc : forall p tr e, count p (tr ++ [e]) = (count p tr + (if p e then 1 else 0))%nat.
Proof.
  intros p tr e. unfold count. rewrite filter_app, app_length. cbn [filter].
  destruct (p e); reflexivity.
Qed.
Lemma kind_eqb_spec : forall a b, kind_eqb a b = true <-> a = b.
Proof. intros [] []; cbn; split; congruence. Qed.
Lemma kind_dec : forall a b : kind, {a = b} + {a <> b}.
Proof. decide equality. Qed.

(** flags and signals *)
Lemma handle_flag : forall f sig k, flag (handle f sig) k = if asks sig k then 1 else flag f k.
Proof.
  intros f sig k. unfold handle, asks, SIGHUP, SIGUSR1, SIGUSR2.
  destruct (Z.eqb_spec sig 1) as [->|]; [destruct k; reflexivity|].
  destruct (Z.eqb_spec sig 2) as [->|]; [destruct k; reflexivity|].
  destruct (Z.eqb_spec sig 15) as [->|]; [destruct k; reflexivity|].
  destruct (Z.eqb_spec sig 10) as [->|]; [destruct k; reflexivity|].
  destruct (Z.eqb_spec sig 12) as [->|]; [destruct k; reflexivity|].
  destruct k; reflexivity.
Qed.
Lemma handle_term : forall f sig, terminate (handle f sig) = if ends sig then 1 else terminate f.
Proof.
  intros f sig. unfold handle, ends, SIGINT, SIGTERM.
  destruct (Z.eqb_spec sig 1) as [->|]; [reflexivity|].
  destruct (Z.eqb_spec sig 2) as [->|]; [reflexivity|].
  destruct (Z.eqb_spec sig 15) as [->|]; [reflexivity|].
  destruct (Z.eqb_spec sig 10) as [->|]; [reflexivity|].
  destruct (Z.eqb_spec sig 12) as [->|]; reflexivity.
Qed.
Lemma clear_flag : forall f k k', flag (clear f k) k' = if kind_eqb k k' then 0 else flag f k'.
Proof. intros f [] []; reflexivity. Qed.
Lemma clear_term : forall f k, terminate (clear f k) = terminate f.
Proof. intros f []; reflexivity. Qed.

(** *** C152: a loop that clears a flag and then acts misses no signal *)

(** the loop will read the flag [k] before it sleeps *)
Definition ahead (k : kind) (p : lpc) : Prop :=
  match p with
  | AtTop | Sleeping | Left => True
  | AtTest ks | Acting _ ks => In k ks
  | Found k' ks | Cleared k' ks => k' = k \/ In k ks
  end.
Definition due (k : kind) (s : lstate) : Prop :=
  flag (l_flags s) k <> 0 \/ exists ks, l_pc s = Cleared k ks.

Lemma due_step : forall kinds k s e s' z, In k kinds ->
  lstep true kinds s e s' -> due k s -> (z = 0%nat \/ z = 1%nat /\ ahead k (l_pc s)) ->
  is_act k e = true \/
  (due k s' /\ let z' := (z + (if is_sleep e then 1 else 0))%nat in
               z' = 0%nat \/ z' = 1%nat /\ ahead k (l_pc s')).
Proof.
  intros kinds k s e s' z Hk St D Z. unfold due in *.
  inversion St; subst; cbn [l_flags l_pc is_act is_sleep] in *; try discriminate; rewrite ?Nat.add_0_r.
  - right. split; [destruct D as [D|(? & D)]; [left; exact D|discriminate]|].
    destruct Z as [Z|(Z & A)]; [left; exact Z|right; split; [exact Z|exact I]].
  - right. split; [destruct D as [D|(? & D)]; [left; exact D|discriminate]|].
    destruct Z as [Z|(Z & A)]; [left; exact Z|right; split; [exact Z|exact Hk]].
  - right. split; [destruct D as [D|(? & D)]; [left; exact D|discriminate]|].
    destruct Z as [Z|(Z & A)]; [left; exact Z|right; split; [exact Z|exact A]].
  - destruct D as [D|(? & D)]; [|discriminate]. right. split; [left; exact D|].
    destruct Z as [Z|(Z & A)]; [left; exact Z|]. right. split; [exact Z|].
    destruct A as [->|A]; [congruence|exact A].
  - destruct D as [D|(? & D)]; [|discriminate]. right. split.
    + rewrite clear_flag. destruct (kind_eqb k0 k) eqn:Q; [|left; exact D].
      apply kind_eqb_spec in Q. subst. right. eexists. reflexivity.
    + destruct Z as [Z|(Z & A)]; [left; exact Z|right; split; [exact Z|exact A]].
  - destruct (kind_eqb k k0) eqn:Q; [left; reflexivity|]. right.
    assert (N : k0 <> k). { intros ->. destruct k; discriminate. }
    split; [destruct D as [D|(? & D)]; [left; exact D|congruence]|].
    destruct Z as [Z|(Z & A)]; [left; exact Z|]. right. split; [exact Z|].
    destruct A as [A|A]; [congruence|exact A].
  - right. split; [destruct D as [D|(? & D)]; [left; exact D|discriminate]|].
    destruct Z as [Z|(Z & A)]; [left; exact Z|right; split; [exact Z|exact A]].
  - destruct D as [D|(? & D)]; [|discriminate]. right. split; [left; exact D|].
    destruct Z as [Z|(Z & A)]; [|destruct A]. right. subst. split; [reflexivity|exact I].
  - right. split; [destruct D as [D|(? & D)]; [left; exact D|discriminate]|].
    destruct Z as [Z|(Z & A)]; [left; exact Z|right; split; [exact Z|exact I]].
  - right. split.
    + rewrite handle_flag. destruct (asks sig k); [left; discriminate|].
      destruct D as [D|(ks & D)]; [left; exact D|]. right. exists ks. subst p. reflexivity.
    + destruct Z as [Z|(Z & A)]; [left; exact Z|]. right. split; [exact Z|].
      destruct p; try exact A. destruct here; exact I.
Qed.

Lemma lruns_app_inv : forall c ks s0 tr2 tr1 s2, lruns c ks s0 (tr1 ++ tr2) s2 ->
  exists s1, lruns c ks s0 tr1 s1 /\ lruns c ks s1 tr2 s2.
Proof.
  intros c ks s0. induction tr2 as [|e tr2 IH] using rev_ind; intros tr1 s2 H.
  - rewrite app_nil_r in H. exists s2. split; [exact H|constructor].
  - rewrite app_assoc in H. inversion H as [X|tr s e' s' R St Q1 Q2].
    { destruct (tr1 ++ tr2); discriminate. }
    apply app_inj_tail in Q1. destruct Q1 as [-> ->]. subst s'.
    destruct (IH _ _ R) as (s1 & R1 & R2). exists s1. split; [exact R1|].
    econstructor; eauto.
Qed.
Lemma lruns_cons_inv : forall c ks s0 e tr s2, lruns c ks s0 (e :: tr) s2 ->
  exists s1, lstep c ks s0 e s1 /\ lruns c ks s1 tr s2.
Proof.
  intros c ks s0 e tr s2 H. change (e :: tr) with ([e] ++ tr) in H.
  apply lruns_app_inv in H. destruct H as (s1 & A & B). exists s1. split; [|exact B].
  inversion A as [X|tr' s e' s' R St Q1 Q2].
  change [e] with ([] ++ [e]) in Q1. apply app_inj_tail in Q1. destruct Q1 as [-> ->].
  inversion R as [X|tr'' ? ? ? ? ? Q]; [subst; exact St|].
  destruct tr''; discriminate.
Qed.

(** Whatever happened before a signal, and whatever signals come after it: before the loop begins
    to sleep for the second time after it, an action for it begins. *)
Theorem C152_acts_after_every_signal : forall kinds k tr1 sig here tr2 s,
  In k kinds -> asks sig k = true ->
  lexec true kinds (tr1 ++ ESignal sig here :: tr2) s ->
  (2 <= count is_sleep tr2)%nat -> In (EAct k) tr2.
Proof.
  intros kinds k tr1 sig here tr2 s Hk Ha H C.
  apply lruns_app_inv in H. destruct H as (s1 & _ & H).
  apply lruns_cons_inv in H. destruct H as (s2 & St & H).
  assert (D : due k s2).
  { inversion St; subst. left. cbn [l_flags]. rewrite handle_flag, Ha. discriminate. }
  clear St. assert (G : In (EAct k) tr2 \/
     due k s /\ (count is_sleep tr2 = 0%nat \/ count is_sleep tr2 = 1%nat /\ ahead k (l_pc s))).
  { clear C. induction H as [|tr s e s' R IH St]; [right; split; [exact D|left; reflexivity]|].
    destruct IH as [IH|(IH1 & IH2)]; [left; apply in_or_app; left; exact IH|].
    destruct (due_step kinds k _ _ _ _ Hk St IH1 IH2) as [A|(A & B)].
    - left. apply in_or_app. right. left. destruct e; cbn [is_act] in A; try discriminate.
      apply kind_eqb_spec in A. subst. reflexivity.
    - right. split; [exact A|]. rewrite count_snoc. exact B. }
  destruct G as [G|(_ & [G|(G & _)])]; [exact G|lia|lia].
Qed.
Print Assumptions C152_acts_after_every_signal.

(** A loop of either order never acts without a signal, and for each signal at most once. *)
Definition one (b : bool) : nat := if b then 1%nat else 0%nat.
Definition owed (c : bool) (k : kind) (s : lstate) : nat :=
  match l_pc s with
  | Cleared k' _ => (one (kind_eqb k' k) + one (negb (Z.eqb (flag (l_flags s) k) 0)))%nat
  | Acting k' _ => one (negb (negb c && kind_eqb k' k) && negb (Z.eqb (flag (l_flags s) k) 0))
  | _ => one (negb (Z.eqb (flag (l_flags s) k) 0))
  end.
Definition found_ok (s : lstate) : Prop :=
  match l_pc s with Found k _ => flag (l_flags s) k <> 0 | _ => True end.
Theorem C152_acts_only_for_signals : forall c kinds k tr s, lexec c kinds tr s ->
  (count (is_act k) tr <= count (is_ask k) tr)%nat.
Proof.
  intros c kinds k tr s H.
  assert (G : (count (is_act k) tr + owed c k s <= count (is_ask k) tr)%nat /\ found_ok s).
  { induction H as [|tr s e s' R (IH & F) St]; [split; [destruct k; cbn; lia|exact I]|].
    assert (R1 : kind_eqb k k = true) by (apply kind_eqb_spec; reflexivity).
    rewrite !count_snoc. unfold owed, found_ok in *.
    inversion St; subst; cbn [l_flags l_pc is_act is_ask] in *; try discriminate;
      try (split; [rewrite ?Nat.add_0_r; exact IH | first [exact I | assumption]]).
    - split; [|exact I]. rewrite clear_flag. destruct (kind_eqb k0 k) eqn:Q; [|cbn [one] in *; lia].
      apply kind_eqb_spec in Q. subst k0. destruct (Z.eqb_spec (flag f k) 0); [congruence|]. cbn in *. lia.
    - split; [|exact I]. destruct (kind_eqb k k0) eqn:Q.
      + apply kind_eqb_spec in Q. subst k0. rewrite R1 in *.
        destruct c; destruct (flag f k =? 0); cbn in *; lia.
      + assert (Q' : kind_eqb k0 k = false) by (destruct k, k0; cbn in *; congruence). rewrite Q' in *.
        rewrite andb_false_r. cbn in *. lia.
    - split; [|exact I]. destruct (kind_eqb k k0) eqn:Q.
      + apply kind_eqb_spec in Q. subst k0. rewrite R1 in *.
        destruct (Z.eqb_spec (flag f k) 0); [congruence|]. cbn in *. lia.
      + assert (Q' : kind_eqb k0 k = false) by (destruct k, k0; cbn in *; congruence). rewrite Q' in *. cbn in *. lia.
    - split; [|exact I]. rewrite clear_flag. destruct (kind_eqb k0 k) eqn:Q; [cbn; lia|cbn in *; lia].
    - rewrite handle_flag. split.
      + destruct (asks sig k) eqn:Ak; destruct p; try destruct here; rewrite ?Nat.add_0_r; try exact IH;
          destruct (flag f k =? 0); destruct c; try destruct (kind_eqb k0 k); cbn in *; lia.
      + destruct p; try destruct here; try exact I.
        all: rewrite handle_flag; destruct (asks sig k0); [discriminate|exact F]. }
  lia.
Qed.
Print Assumptions C152_acts_only_for_signals.

(** After a signal that asks for the end the loop sleeps at most once more. *)
Theorem C152_ends : forall c kinds tr1 sig here tr2 s,
  ends sig = true -> lexec c kinds (tr1 ++ ESignal sig here :: tr2) s -> (count is_sleep tr2 <= 1)%nat.
Proof.
  intros c kinds tr1 sig here tr2 s Ha H.
  apply lruns_app_inv in H. destruct H as (s1 & _ & H).
  apply lruns_cons_inv in H. destruct H as (s2 & St & H).
  assert (D : terminate (l_flags s2) <> 0).
  { inversion St; subst. cbn [l_flags]. rewrite handle_term, Ha. discriminate. }
  clear St.
  assert (G : terminate (l_flags s) <> 0 /\ (count is_sleep tr2 = 0%nat \/ count is_sleep tr2 = 1%nat /\
     match l_pc s with Sleeping | AtTop | Left => True | _ => False end)).
  { induction H as [|tr s e s' R (IH1 & IH2) St]; [split; [exact D|left; reflexivity]|].
    rewrite count_snoc.
    inversion St; subst; cbn [l_flags l_pc is_sleep] in *; rewrite ?Nat.add_0_r, ?clear_term;
      try (split; [assumption|]); try (destruct IH2 as [IH2|(IH2 & P)]; [left; exact IH2|]);
      try (destruct P); try (right; split; [exact IH2|exact I]); try congruence.
    - destruct IH2 as [IH2|(_ & [])]. right. rewrite IH2. split; [reflexivity|exact I].
    - split.
      + rewrite handle_term. destruct (ends sig0); [discriminate|exact IH1].
      + destruct IH2 as [IH2|(IH2 & P)]; [left; exact IH2|]. right. split; [exact IH2|].
        destruct p; try exact P; destruct here0; exact I. }
  destruct G as (_ & [G|(G & _)]); lia.
Qed.
Print Assumptions C152_ends.

(** ... and nothing holds the loop up: it can always go on until it has been left. *)
Theorem C152_goes_on : forall c kinds s, l_pc s <> Left ->
  exists e s', lstep c kinds s e s' /\ (forall sig here, e <> ESignal sig here).
Proof.
  intros c kinds [f p] H. cbn [l_pc] in H.
  destruct p as [|[|k ks]|k ks|k ks|k ks| |]; [..|congruence].
  - destruct (Z.eq_dec (terminate f) 0); eexists _, _; (split; [econstructor; assumption|discriminate]).
  - eexists _, _; (split; [apply l_sleep|discriminate]).
  - destruct (Z.eq_dec (flag f k) 0); eexists _, _;
      (split; [first [apply l_none; assumption | apply l_found; assumption]|discriminate]).
  - destruct c; eexists _, _; (split; [first [apply l_clear1; reflexivity | apply l_act2; reflexivity]|discriminate]).
  - eexists _, _; (split; [apply l_act1|discriminate]).
  - destruct c; eexists _, _; (split; [first [apply l_end1; reflexivity | apply l_clear2; reflexivity]|discriminate]).
  - eexists _, _; (split; [apply l_wake|discriminate]).
Qed.
Print Assumptions C152_goes_on.

(** The order matters: a loop that acts first loses the signals that arrive while it acts, for
    ever. *)
Fixpoint idle (n : nat) : list levent :=
  match n with O => [] | S n => [ETau; ETau; ETau; ESleep] ++ idle n end.
Lemma run_cons : forall c ks s e s1 tr s2, lstep c ks s e s1 -> lruns c ks s1 tr s2 ->
  lruns c ks s (e :: tr) s2.
Proof.
  intros c ks s e s1 tr s2 St R. induction R as [|tr s2 e' s3 R IH St'].
  - change [e] with ([] ++ [e]). econstructor; [constructor|exact St].
  - change (e :: tr ++ [e']) with ((e :: tr) ++ [e']). econstructor; eauto.
Qed.
Lemma idle_runs : forall c n, lruns c [Cfg] (mkL no_flags Sleeping) (idle n) (mkL no_flags Sleeping).
Proof.
  intros c. induction n as [|n IH]; [constructor|]. cbn [idle app].
  eapply run_cons; [apply l_wake|]. eapply run_cons; [apply l_enter; reflexivity|].
  eapply run_cons; [apply l_none; reflexivity|]. eapply run_cons; [apply l_sleep|]. exact IH.
Qed.
Lemma idle_sleeps : forall n, count is_sleep (idle n) = n.
Proof. induction n as [|n IH]; [reflexivity|]. unfold count in *. cbn. rewrite IH. reflexivity. Qed.
Lemma idle_no_act : forall k n, ~ In (EAct k) (idle n).
Proof.
  intros k. induction n as [|n IH]; [intros []|]. cbn [idle app].
  intros [H|[H|[H|[H|H]]]]; try discriminate. exact (IH H).
Qed.
Theorem C152_act_first_loses_signals : forall n, exists tr1 tr2 s,
  lexec false [Cfg] (tr1 ++ ESignal SIGHUP true :: tr2) s /\
  (n <= count is_sleep tr2)%nat /\ ~ In (EAct Cfg) tr2.
Proof.
  intros n. exists [ESignal SIGHUP true; ETau; ETau; EAct Cfg], ([ETau; ESleep] ++ idle n),
    (mkL no_flags Sleeping).
  split; [|split].
  - unfold lexec. cbn [app].
    eapply run_cons; [apply l_signal|]. eapply run_cons; [apply l_enter; reflexivity|].
    eapply run_cons; [apply l_found; discriminate|]. eapply run_cons; [apply l_act2; reflexivity|].
    eapply run_cons; [apply l_signal|]. eapply run_cons; [apply l_clear2; reflexivity|].
    eapply run_cons; [apply l_sleep|]. apply idle_runs.
  - unfold count. rewrite filter_app, app_length. fold (count is_sleep (idle n)). rewrite idle_sleeps. cbn. lia.
  - intros H. apply in_app_or in H. destruct H as [[H|[H|[]]]|H]; try discriminate.
    exact (idle_no_act _ _ H).
Qed.
Print Assumptions C152_act_first_loses_signals.

(** "Before it sleeps the second time" cannot be made "before it sleeps": a signal that arrives
    after its flag was read does not keep the loop from sleeping, and is noticed after that. *)
Theorem C152_one_sleep_may_come_first : exists tr1 tr2 s,
  lexec true [Cfg] (tr1 ++ ESignal SIGHUP true :: tr2) s /\
  count is_sleep tr2 = 1%nat /\ ~ In (EAct Cfg) tr2.
Proof.
  exists [ETau; ETau], [ESleep], (mkL (handle no_flags SIGHUP) Sleeping). split; [|split].
  - unfold lexec. cbn [app].
    eapply run_cons; [apply l_enter; reflexivity|]. eapply run_cons; [apply l_none; reflexivity|].
    eapply run_cons; [apply l_signal|]. eapply run_cons; [apply l_sleep|]. constructor.
  - reflexivity.
  - intros [H|[]]; discriminate.
Qed.
Print Assumptions C152_one_sleep_may_come_first.

(** the hypotheses of the first theorem are met: two signals, the second while the first is acted
    on, one sleep cut short, and a signal that ends the loop *)
Example C152_ex : exists s,
  lexec true [Rot; Cfg]
    ([ETau; ESignal SIGHUP false; ETau; ETau; ETau; EAct Cfg] ++ ESignal SIGHUP true ::
     [ETau; ESleep; ESignal 28 true; ETau; ETau; ETau; ETau; EAct Cfg; ETau; ESleep] ++
     [ETau; ESignal SIGTERM true; ETau]) s /\ l_pc s = Left /\
  In Cfg [Rot; Cfg] /\ asks SIGHUP Cfg = true /\ ends SIGTERM = true.
Proof.
  exists (mkL (mkF 1 0 0 0) Left). split; [|repeat split; right; left; reflexivity].
  unfold lexec. cbn [app].
  eapply run_cons; [apply l_enter; reflexivity|].
  eapply run_cons; [apply l_signal|]. eapply run_cons; [apply l_none; reflexivity|].
  eapply run_cons; [apply l_found; discriminate|]. eapply run_cons; [apply l_clear1; reflexivity|].
  eapply run_cons; [apply l_act1|]. eapply run_cons; [apply l_signal|].
  eapply run_cons; [apply l_end1; reflexivity|]. eapply run_cons; [apply l_sleep|].
  eapply run_cons; [apply l_signal|]. eapply run_cons; [apply l_enter; reflexivity|].
  eapply run_cons; [apply l_none; reflexivity|]. eapply run_cons; [apply l_found; discriminate|].
  eapply run_cons; [apply l_clear1; reflexivity|]. eapply run_cons; [apply l_act1|].
  eapply run_cons; [apply l_end1; reflexivity|]. eapply run_cons; [apply l_sleep|].
  eapply run_cons; [apply l_wake|]. eapply run_cons; [apply l_signal|].
  eapply run_cons; [apply l_leave; discriminate|]. constructor.
Qed.
