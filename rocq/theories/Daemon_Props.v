(** Properties of signals, options and log levels. *)

From Coq Require Import ZArith List Bool Lia.
From Verif Require Import Base Fd_Model Daemon_Model Daemon_Spec.
Import ListNotations.
Local Open Scope Z_scope.

(** *** C74: signals *)

(** After any sequence of signals a flag is set iff it was set before or one of its signals
    has come; a flag that is set stays set, and no other value ever appears. *)
Theorem C74_signals_set_their_flags : forall sigs f,
  let g := deliver f sigs in
  (In SIGINT sigs \/ In SIGTERM sigs -> terminate g = 1) /\ (~ (In SIGINT sigs \/ In SIGTERM sigs) -> terminate g = terminate f) /\
  (In SIGHUP sigs -> changecfg g = 1) /\ (~ In SIGHUP sigs -> changecfg g = changecfg f) /\
  (In SIGUSR1 sigs -> rotatelog g = 1) /\ (~ In SIGUSR1 sigs -> rotatelog g = rotatelog f) /\
  (In SIGUSR2 sigs -> changebin g = 1) /\ (~ In SIGUSR2 sigs -> changebin g = changebin f).
Proof.
  unfold deliver, SIGINT, SIGTERM, SIGHUP, SIGUSR1, SIGUSR2.
  assert (St : forall sigs f,
    (terminate f = 1 -> terminate (fold_left handle sigs f) = 1) /\ (changecfg f = 1 -> changecfg (fold_left handle sigs f) = 1) /\
    (rotatelog f = 1 -> rotatelog (fold_left handle sigs f) = 1) /\ (changebin f = 1 -> changebin (fold_left handle sigs f) = 1)).
  { induction sigs as [|x sigs IH]; intros f; cbn [fold_left]; [auto|]. destruct (IH (handle f x)) as (I1 & I2 & I3 & I4).
    assert (H : (terminate f = 1 -> terminate (handle f x) = 1) /\ (changecfg f = 1 -> changecfg (handle f x) = 1) /\
      (rotatelog f = 1 -> rotatelog (handle f x) = 1) /\ (changebin f = 1 -> changebin (handle f x) = 1)).
    { unfold handle. destruct (x =? 1), (x =? 2), (x =? 15), (x =? 10), (x =? 12); cbn; tauto. }
    destruct H as (H1 & H2 & H3 & H4). repeat split; intros E; auto. }
  induction sigs as [|x sigs IH]; intros f; cbn [fold_left].
  - cbn [In]. tauto.
  - destruct (IH (handle f x)) as (I1 & I2 & I3 & I4 & I5 & I6 & I7 & I8).
    destruct (St sigs (handle f x)) as (S1 & S2 & S3 & S4). cbn [In].
    assert (Hd : (x = 2 \/ x = 15 -> terminate (handle f x) = 1) /\ (x <> 2 -> x <> 15 -> terminate (handle f x) = terminate f) /\
      (x = 1 -> changecfg (handle f x) = 1) /\ (x <> 1 -> changecfg (handle f x) = changecfg f) /\
      (x = 10 -> rotatelog (handle f x) = 1) /\ (x <> 10 -> rotatelog (handle f x) = rotatelog f) /\
      (x = 12 -> changebin (handle f x) = 1) /\ (x <> 12 -> changebin (handle f x) = changebin f)).
    { unfold handle. destruct (Z.eqb_spec x 1), (Z.eqb_spec x 2), (Z.eqb_spec x 15), (Z.eqb_spec x 10), (Z.eqb_spec x 12);
        cbn; repeat split; intros; try lia; auto. }
    destruct Hd as (H1 & H2 & H3 & H4 & H5 & H6 & H7 & H8). repeat split.
    + intros [[E | E] | [E | E]]; auto.
    + intros N. rewrite I2 by tauto. apply H2; intros E; apply N; auto.
    + intros [E | E]; auto.
    + intros N. rewrite I4 by tauto. apply H4. intros E; apply N; auto.
    + intros [E | E]; auto.
    + intros N. rewrite I6 by tauto. apply H6. intros E; apply N; auto.
    + intros [E | E]; auto.
    + intros N. rewrite I8 by tauto. apply H8. intros E; apply N; auto.
Qed.
Print Assumptions C74_signals_set_their_flags.

(** All five signals with a flag are among those installed by coda_signal_init; SIGKILL,
    SIGSTOP and the signals of program errors are not. *)
Theorem C74_installed : (forall x, In x [SIGHUP; SIGINT; SIGTERM; SIGUSR1; SIGUSR2] -> In x sig_list) /\
  NoDup sig_list /\ forall x, In x [4; 6; 7; 8; 9; 11; 19] -> ~ In x sig_list.
Proof.
  split; [|split].
  - intros x H. cbn in *. tauto.
  - unfold sig_list. repeat constructor; cbn; lia.
  - intros x H. cbn in *. lia.
Qed.
Print Assumptions C74_installed.

Example C74_ex : deliver no_flags [13; 10; 17; 1; 10] = mkF 0 1 1 0 /\ deliver no_flags [2] = mkF 1 0 0 0.
Proof. split; reflexivity. Qed.

(** *** C96: coda_signal_mask *)

(** The set has exactly the handled signals whose bit is in the mask, once each. *)
Theorem C96_mask : forall mask sig, 0 <= mask < 2 ^ 32 ->
  (In sig (signal_mask mask) <-> In sig sig_list /\ Z.testbit mask sig = true) /\ NoDup (signal_mask mask).
Proof.
  intros mask sig Hm. unfold signal_mask. split.
  - rewrite filter_In. split; intros [H1 H2]; (split; [exact H1|]).
    + apply negb_true_iff, Z.eqb_neq in H2. destruct (Z.testbit mask sig) eqn:E; [reflexivity|]. exfalso. apply H2.
      apply Z.bits_inj'. intros i Hi. rewrite Z.land_spec, Z.bits_0.
      assert (Hs : 0 <= sig) by (cbn in H1; lia).
      rewrite Z.pow2_bits_eqb by auto. destruct (Z.eqb_spec sig i); [subst; rewrite E; reflexivity | apply andb_false_r].
    + apply negb_true_iff, Z.eqb_neq. intros E.
      assert (Hs : 0 <= sig) by (cbn in H1; lia).
      assert (T : Z.testbit (Z.land mask (2 ^ sig)) sig = true) by (rewrite Z.land_spec, H2, Z.pow2_bits_true by auto; reflexivity).
      rewrite E, Z.bits_0 in T. discriminate.
  - apply NoDup_filter. apply C74_installed.
Qed.
Print Assumptions C96_mask.

Example C96_ex : signal_mask (2 ^ 1 + 2 ^ 9 + 2 ^ 31) = [1; 31].
Proof. reflexivity. Qed.

(** *** C97: options *)

(** If all options are known the result is 0 and each setting is that of its last option;
    an unknown option makes the call fail. *)
Theorem C97_last_option_wins : forall got,
  (Forall (fun x => In (fst x) [99; 112; 100; 68]) got ->
   getopt_parse got = (0, mkO (last_arg 99 got None) (last_arg 112 got None) (last_of 100 68 got false))) /\
  (~ Forall (fun x => In (fst x) [99; 112; 100; 68]) got -> fst (getopt_parse got) = -1).
Proof.
  intros got. unfold getopt_parse.
  assert (G : forall got c p d,
    (Forall (fun x => In (fst x) [99; 112; 100; 68]) got ->
     getopt_loop (mkO c p d) got = (0, mkO (last_arg 99 got c) (last_arg 112 got p) (last_of 100 68 got d))) /\
    (~ Forall (fun x => In (fst x) [99; 112; 100; 68]) got -> fst (getopt_loop (mkO c p d) got) = -1)).
  { clear. induction got as [|[x a] got IH]; intros c p d.
    - split; [reflexivity|]. intros H. exfalso. apply H. constructor.
    - cbn [getopt_loop last_arg last_of o_config o_pid o_daemon]. split.
      + intros F. inversion F as [|? ? H F']; subst. cbn [fst In] in H.
        destruct H as [<- | [<- | [<- | [<- | []]]]]; cbn; apply IH; auto.
      + intros N. destruct (Z.eqb_spec x 99); [subst; apply IH; intros F; apply N; constructor; cbn; auto|].
        destruct (Z.eqb_spec x 112); [subst; apply IH; intros F; apply N; constructor; cbn; auto|].
        destruct (Z.eqb_spec x 100); [subst; apply IH; intros F; apply N; constructor; cbn; auto|].
        destruct (Z.eqb_spec x 68); [subst; apply IH; intros F; apply N; constructor; cbn; auto|]. reflexivity. }
  apply G.
Qed.
Print Assumptions C97_last_option_wins.

Example C97_ex : getopt_parse [(99, Some (zs "a")); (100, None); (99, Some (zs "b")); (68, None)] =
    (0, mkO (Some (zs "b")) None false) /\ fst (getopt_parse [(100, None); (63, None)]) = -1.
Proof. split; reflexivity. Qed.

(** *** C75: log levels *)

(** Every level name in any case gives its level. *)
Theorem C75_names : forall name lev s rest, In (name, lev) level_names -> same_word s name ->
  log_levels (s ++ 0 :: rest) = Ok lev.
Proof.
  intros name lev s rest H E. unfold same_word in E.
  assert (L : forall c l, lower c = l -> 97 <= l <= 122 -> forall k, 97 <= k <= 122 -> is_letter c k = (l =? k)).
  { clear. intros c l E Hl k Hk. unfold lower in E. unfold is_letter.
    destruct ((65 <=? c) && (c <=? 90)) eqn:B.
    - apply andb_true_iff in B. destruct B as [B1 B2]. apply Z.leb_le in B1, B2. subst l.
      destruct (Z.eqb_spec c k); [lia|]. cbn [orb]. destruct (Z.eqb_spec c (k - 32)), (Z.eqb_spec (c + 32) k); auto; lia.
    - subst l. apply andb_false_iff in B. destruct (Z.eqb_spec c k); [reflexivity|]. cbn [orb].
      destruct (Z.eqb_spec c (k - 32)); [|reflexivity]. destruct B as [B | B]; apply Z.leb_gt in B; lia. }
  cbn in H.
  destruct H as [H | [H | [H | [H | [H | [H | [H | [H | [H | []]]]]]]]]]; injection H as <- <-; cbn in E;
    destruct s as [|c [|d s]]; try discriminate E; injection E as Ec Ed _; unfold log_levels; cbn [app rd nth_error bind];
    rewrite ?(L _ _ Ec), ?(L _ _ Ed) by lia; reflexivity.
Qed.
Print Assumptions C75_names.

(** The answer is a level for every string, and nothing is read after the terminator. *)
Theorem C75_defined : forall s, ~ In 0 s -> exists lev, log_levels (s ++ [0]) = Ok lev /\ 0 <= lev <= 8.
Proof.
  intros s N. destruct s as [|c [|d s]].
  - exists 7. split; [reflexivity|lia].
  - unfold log_levels. cbn [app rd nth_error bind].
    repeat (match goal with |- context [if ?b then _ else _] => destruct b end); eexists; (split; [reflexivity|lia]).
  - unfold log_levels. cbn [app rd nth_error bind].
    repeat (match goal with |- context [if ?b then _ else _] => destruct b end); eexists; (split; [reflexivity|lia]).
Qed.
Print Assumptions C75_defined.

(** Strings that begin with none of the letters a, c, d, e, n and w, in either case, are
    info.  Missing to the full claim: see the refutation. *)
Theorem C75_default_partial : forall c s, 
  ~ In (lower c) (zs "acdenw") -> log_levels (c :: s) = Ok 7.
Proof.
  intros c s N. unfold log_levels. cbn [rd nth_error bind].
  assert (L : forall k, In k (zs "acdenw") -> is_letter c k = false).
  { intros k Hk. unfold is_letter. destruct (Z.eqb_spec c k); [|destruct (Z.eqb_spec c (k - 32)); [|reflexivity]]; exfalso; apply N.
    - subst. cbn in Hk. unfold lower. destruct (Z.leb_spec k 90); [lia|]. rewrite andb_false_r. exact Hk.
    - subst. cbn in Hk. replace (lower (k - 32)) with k; [exact Hk|]. unfold lower.
      destruct (Z.leb_spec 65 (k - 32)); [|lia]. destruct (Z.leb_spec (k - 32) 90); [|lia]. cbn. lia. }
  rewrite (L 97), (L 100), (L 99), (L 101), (L 110), (L 119) by (cbn; tauto). destruct (is_letter c 105); reflexivity.
Qed.
Print Assumptions C75_default_partial.

(** The answer for every string: the level of the first letters it has in the table, else info. *)
Theorem C75_exact : forall s, ~ In 0 s -> log_levels (s ++ [0]) = Ok (level_of s).
Proof.
  intros s N0.
  assert (L : forall c k, 97 <= k <= 122 -> is_letter c k = (lower c =? k)).
  { intros c k Hk. unfold is_letter, lower.
    destruct (Z.leb_spec 65 c), (Z.leb_spec c 90), (Z.eqb_spec c k), (Z.eqb_spec c (k - 32)); cbn [andb orb]; symmetry;
      (apply Z.eqb_eq || apply Z.eqb_neq); lia. }
  destruct s as [|c s]; [reflexivity|]. unfold log_levels, level_of. cbn [app rd nth_error bind]. rewrite !L by lia.
  assert (B : forall t, begins t [] = true) by (intros [|x t]; reflexivity).
  destruct s as [|d s]; cbn; [|rewrite !L by lia]; generalize (lower c); [|generalize (lower d)];
    intros; rewrite ?B; repeat match goal with |- context [?x =? ?y] => destruct (Z.eqb_spec x y); try lia; cbn; try reflexivity end.
Qed.
Print Assumptions C75_exact.

Example C75_ex : log_levels (zs "ALeRT" ++ [0]) = Ok 2 /\ log_levels [0] = Ok 7 /\ log_levels (zs "x" ++ [0]) = Ok 7 /\
  log_levels (zs "a" ++ [0]) = Ok 7 /\ same_word (zs "ALeRT") (zs "alert").
Proof. repeat split. Qed.

(** False as stated: one or two letters decide, so a misspelt name silently gives a level
    that is not info. *)
Theorem C75_other_words_refuted : exists s, (forall n lev, In (n, lev) level_names -> ~ same_word s n) /\
  log_levels (s ++ [0]) = Ok 8.
Proof.
  exists (zs "disabled"). split; [|reflexivity]. intros n lev H E. cbn in H.
  repeat (destruct H as [H | H]; [injection H as <- <-; discriminate E|]). destruct H.
Qed.
Print Assumptions C75_other_words_refuted.
