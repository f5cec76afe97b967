(** Properties of the logging macros, of thread names and of error messages. *)

From Coq Require Import ZArith List Bool Lia.
From Verif Require Import Base Util_Spec Log_Model Log_Spec Log_Proof.
From Verif Require Daemon_Model.
Import ListNotations.
Local Open Scope Z_scope.

(** *** C110: log lines *)

(** A message is written exactly when its place in the list of levels is at most the level set. *)
Theorem C110_gate : forall log_level k l tm usec tname self msg, nth_error severities k = Some l ->
  ((exists line, log_fmt log_level l tm usec tname self msg = Some line) <-> Z.of_nat k <= log_level).
Proof.
  intros log_level k l tm usec tname self msg H.
  assert (E : level_no l = Z.of_nat k).
  { do 9 (destruct k as [|k]; [injection H as <-; reflexivity|]). destruct k; discriminate. }
  unfold log_fmt. rewrite E. destruct (Z.leb_spec (Z.of_nat k) log_level); split; intros H'; try lia; eauto.
  destruct H' as [line H']. discriminate.
Qed.
Print Assumptions C110_gate.
(** With the level that a name stands for, the messages of that name and of the levels before
    it are written, and no others: the names that [log_levels] reads are those in the lines. *)
Theorem C110_level_by_name : forall i j l l' lev tm usec tname self msg,
  nth_error severities i = Some l -> nth_error severities j = Some l' ->
  Daemon_Model.log_levels (level_str l' ++ [0]) = Ok lev ->
  ((exists line, log_fmt lev l tm usec tname self msg = Some line) <-> (i <= j)%nat).
Proof.
  intros i j l l' lev tm usec tname self msg Hi Hj H.
  assert (E : lev = Z.of_nat j).
  { do 9 (destruct j as [|j]; [injection Hj as <-; vm_compute in H; injection H as <-; reflexivity|]). destruct j; discriminate. }
  rewrite E, (C110_gate _ i l) by exact Hi. lia.
Qed.
Print Assumptions C110_level_by_name.
Example C110_ex_level : exists lev, Daemon_Model.log_levels (level_str Lwarn ++ [0]) = Ok lev /\
  nth_error severities 5 = Some Lwarn /\ nth_error severities 6 = Some Lnotice /\
  log_fmt lev Lnotice (mkCtm 100 0 1 0 0 0) 0 None 7 [] = None /\ log_fmt lev Lwarn (mkCtm 100 0 1 0 0 0) 0 None 7 [] <> None.
Proof. eexists. repeat split; try discriminate; reflexivity. Qed.

Lemma local_fields : forall off t usec, dated off t -> 0 <= usec < 1000000 ->
  let '(y, m, d) := date_after (Z.to_nat ((t + off) / 86400)) in
  let s := (t + off) mod 86400 in
  stamp (local off t) usec =
    fmt_0u 4 y ++ [45] ++ fmt_0u 2 m ++ [45] ++ fmt_0u 2 d ++ [32] ++
    fmt_0u 2 (s / 3600) ++ [58] ++ fmt_0u 2 (s / 60 mod 60) ++ [58] ++ fmt_0u 2 (s mod 60) ++ [46] ++ fmt_0u 3 (usec / 1000) /\
  digits 4 y (fmt_0u 4 y) /\ digits 2 m (fmt_0u 2 m) /\ digits 2 d (fmt_0u 2 d) /\
  digits 2 (s / 3600) (fmt_0u 2 (s / 3600)) /\ digits 2 (s / 60 mod 60) (fmt_0u 2 (s / 60 mod 60)) /\
  digits 2 (s mod 60) (fmt_0u 2 (s mod 60)) /\ digits 3 (usec / 1000) (fmt_0u 3 (usec / 1000)) /\
  s = 3600 * (s / 3600) + 60 * (s / 60 mod 60) + s mod 60.
Proof.
  intros off t usec (H0 & HY) Hu. unfold local.
  pose proof (date_valid (Z.to_nat ((t + off) / 86400))) as [V Y].
  destruct (date_after _) as [[y m] d]. cbn [valid_date fst] in *. cbv zeta.
  assert (Hd : d <= 31).
  { destruct V as [_ V]. unfold month_days in V. destruct (m =? 2); [destruct (leap_year y); lia|]. destruct (_ || _); lia. }
  pose proof (Z.mod_pos_bound (t + off) 86400 ltac:(lia)) as S. set (s := (t + off) mod 86400) in *.
  assert (H1 : 0 <= s / 3600 < 24) by (split; [apply Z.div_pos; lia|apply Z.div_lt_upper_bound; lia]).
  pose proof (Z.mod_pos_bound (s / 60) 60 ltac:(lia)) as H2. pose proof (Z.mod_pos_bound s 60 ltac:(lia)) as H3.
  assert (H4 : 0 <= usec / 1000 < 1000) by (split; [apply Z.div_pos; lia|apply Z.div_lt_upper_bound; lia]).
  split.
  { unfold stamp. cbn [c_year c_mon c_mday c_hour c_min c_sec]. rewrite (Z.mod_small usec) by lia.
    replace (y - 1900 + 1900) with y by lia. replace (m - 1 + 1) with m by lia. reflexivity. }
  split; [apply field; [lia|cbn; lia]|]. split; [apply field; [lia|cbn; lia]|].
  split; [apply field; [lia|cbn; lia]|]. split; [apply field; [lia|cbn; lia]|].
  split; [apply field; [lia|cbn; lia]|]. split; [apply field; [lia|cbn; lia]|].
  split; [apply field; [lia|cbn; lia]|].
  pose proof (Z.div_mod s 60 ltac:(lia)) as D1. pose proof (Z.div_mod (s / 60) 60 ltac:(lia)) as D2.
  rewrite Z.div_div in D2 by lia. change (60 * 60) with 3600 in D2. lia.
Qed.

(** What a line looks like: date, time to the millisecond, level, thread and message, then
    the end of the line. *)
Theorem C110_line : forall log_level l off t usec tname self msg line,
  dated off t -> 0 <= usec < 1000000 ->
  log_fmt log_level l (local off t) usec tname self msg = Some line ->
  exists yy mm dd hh mi ss ms who,
    line = yy ++ zs "-" ++ mm ++ zs "-" ++ dd ++ zs " " ++ hh ++ zs ":" ++ mi ++ zs ":" ++ ss ++ zs "." ++ ms ++
           zs " " ++ level_str l ++ zs " " ++ who ++ zs " " ++ msg ++ [10] /\
    (tname = Some who \/ (tname = None /\ Forall (fun c => 48 <= c <= 57) who /\ number who = self mod 2 ^ 64)) /\
    (exists y m d, date_after (Z.to_nat ((t + off) / 86400)) = (y, m, d) /\ digits 4 y yy /\ digits 2 m mm /\ digits 2 d dd) /\
    (exists h i s, digits 2 h hh /\ digits 2 i mi /\ digits 2 s ss /\ i < 60 /\ s < 60 /\
       (t + off) mod 86400 = 3600 * h + 60 * i + s) /\
    digits 3 (usec / 1000) ms.
Proof.
  intros log_level l off t usec tname self msg line HD Hu H.
  pose proof (local_fields off t usec HD Hu) as F. destruct (date_after _) as [[y m] d] eqn:ED. cbv zeta in F.
  destruct F as (E & F1 & F2 & F3 & F4 & F5 & F6 & F7 & S). unfold log_fmt in H.
  destruct (level_no l <=? log_level); [|discriminate]. injection H as <-.
  exists (fmt_0u 4 y), (fmt_0u 2 m), (fmt_0u 2 d), (fmt_0u 2 ((t + off) mod 86400 / 3600)),
    (fmt_0u 2 ((t + off) mod 86400 / 60 mod 60)), (fmt_0u 2 ((t + off) mod 86400 mod 60)), (fmt_0u 3 (usec / 1000)),
    (match tname with Some n => n | None => fmt_lu self end).
  split.
  { change (zs "-") with [45]. change (zs " ") with [32]. change (zs ":") with [58]. change (zs ".") with [46].
    rewrite E. rewrite <- !app_assoc. reflexivity. }
  split. { destruct tname as [n|]; [left; reflexivity|right]. split; [reflexivity|].
    apply udec_ok. pose proof (Z.mod_pos_bound self (2 ^ 64) eq_refl) as B. split; [apply B|].
    apply Z.lt_trans with (2 ^ 64); [apply B|reflexivity]. }
  split. { exists y, m, d. split; [reflexivity|]. split; [exact F1|]. split; [exact F2|exact F3]. }
  split; [|exact F7].
  pose proof (Z.mod_pos_bound ((t + off) mod 86400 / 60) 60 ltac:(lia)).
  pose proof (Z.mod_pos_bound ((t + off) mod 86400) 60 ltac:(lia)).
  eexists _, _, _. split; [exact F4|]. split; [exact F5|]. split; [exact F6|]. split; [lia|]. split; [lia|exact S].
Qed.
Print Assumptions C110_line.

(** Lines sort by time: while the clock is the same number of seconds ahead of UTC, a line
    written in a later millisecond comes later in the order of bytes, and in the same
    millisecond the stamps are equal. *)
Theorem C110_lines_sort_by_time : forall off t1 u1 t2 u2 rest1 rest2,
  dated off t1 -> dated off t2 -> 0 <= u1 < 1000000 -> 0 <= u2 < 1000000 ->
  (t1 * 1000 + u1 / 1000 < t2 * 1000 + u2 / 1000 ->
     before (stamp (local off t1) u1 ++ rest1) (stamp (local off t2) u2 ++ rest2)) /\
  (t1 * 1000 + u1 / 1000 = t2 * 1000 + u2 / 1000 -> stamp (local off t1) u1 = stamp (local off t2) u2).
Proof.
  intros off t1 u1 t2 u2 rest1 rest2 D1 D2 U1 U2.
  pose proof (local_fields off t1 u1 D1 U1) as F. pose proof (local_fields off t2 u2 D2 U2) as G.
  assert (M1 : 0 <= u1 / 1000 < 1000) by (split; [apply Z.div_pos; lia|apply Z.div_lt_upper_bound; lia]).
  assert (M2 : 0 <= u2 / 1000 < 1000) by (split; [apply Z.div_pos; lia|apply Z.div_lt_upper_bound; lia]).
  destruct D1 as [P1 _], D2 as [P2 _].
  split.
  2:{ intros E. assert (t1 = t2) by lia. subst t2. assert (u1 / 1000 = u2 / 1000) as Eu by lia.
      destruct (date_after _) as [[y m] d]. cbv zeta in *. destruct F as (F & _), G as (G & _). rewrite F, G, Eu. reflexivity. }
  intros L.
  set (a := t1 + off) in *. set (b := t2 + off) in *.
  pose proof (Z.div_mod a 86400 ltac:(lia)) as Ea. pose proof (Z.div_mod b 86400 ltac:(lia)) as Eb.
  pose proof (Z.mod_pos_bound a 86400 ltac:(lia)) as Sa. pose proof (Z.mod_pos_bound b 86400 ltac:(lia)) as Sb.
  assert (Na : 0 <= a / 86400) by (apply Z.div_pos; lia). assert (Nb : 0 <= b / 86400) by (apply Z.div_pos; lia).
  assert (LE : a / 86400 < b / 86400 \/ (a / 86400 = b / 86400 /\ (a mod 86400 < b mod 86400 \/
     (a mod 86400 = b mod 86400 /\ u1 / 1000 < u2 / 1000)))) by (unfold a, b in *; lia).
  destruct LE as [LE|(EQ & LE)].
  - pose proof (dates_increase' (Z.to_nat (a / 86400)) (Z.to_nat (b / 86400)) ltac:(lia)) as DL.
    destruct (date_after (Z.to_nat (a / 86400))) as [[y m] d], (date_after (Z.to_nat (b / 86400))) as [[y' m'] d'].
    cbv zeta in F, G. destruct F as (F & F1 & F2 & F3 & _), G as (G & G1 & G2 & G3 & _). rewrite F, G, <- !app_assoc.
    unfold dlt in DL. destruct DL as [DL|(<- & [DL|(<- & DL)])].
    + eapply digits_before; eassumption.
    + apply before_same. apply (before_same [45]). eapply digits_before; eassumption.
    + apply before_same. apply (before_same [45]). apply before_same. apply (before_same [45]). eapply digits_before; eassumption.
  - rewrite <- EQ in G. destruct (date_after (Z.to_nat (a / 86400))) as [[y m] d]. cbv zeta in F, G.
    destruct F as (F & _ & _ & _ & F4 & F5 & F6 & F7 & SF), G as (G & _ & _ & _ & G4 & G5 & G6 & G7 & SG).
    rewrite F, G, <- !app_assoc. do 3 (apply before_same; match goal with |- before ([?c] ++ _) _ => apply (before_same [c]) end).
    set (sa := a mod 86400) in *. set (sb := b mod 86400) in *.
    pose proof (Z.mod_pos_bound (sa / 60) 60 ltac:(lia)). pose proof (Z.mod_pos_bound sa 60 ltac:(lia)).
    pose proof (Z.mod_pos_bound (sb / 60) 60 ltac:(lia)). pose proof (Z.mod_pos_bound sb 60 ltac:(lia)).
    assert (C : sa / 3600 < sb / 3600 \/ (sa / 3600 = sb / 3600 /\ (sa / 60 mod 60 < sb / 60 mod 60 \/
       (sa / 60 mod 60 = sb / 60 mod 60 /\ (sa mod 60 < sb mod 60 \/ (sa mod 60 = sb mod 60 /\ u1 / 1000 < u2 / 1000)))))) by lia.
    destruct C as [C|(<- & [C|(<- & [C|(<- & C)])])].
    + eapply digits_before; eassumption.
    + apply before_same. apply (before_same [58]). eapply digits_before; eassumption.
    + do 2 (apply before_same; apply (before_same [58])). eapply digits_before; eassumption.
    + do 2 (apply before_same; apply (before_same [58])). apply before_same. apply (before_same [46]).
      eapply digits_before; eassumption.
Qed.
Print Assumptions C110_lines_sort_by_time.

Example C110_ex : dated 3600 1456790399 /\
  log_fmt 7 Lerror (local 3600 1456790399) 987654 (Some (zs "main")) 0 (zs "no 5")
  = Some (zs "2016-03-01 00:59:59.987 error main no 5" ++ [10]) /\
  log_fmt 7 Ldebug (local 3600 1456790399) 987654 (Some (zs "main")) 0 (zs "no 5") = None.
Proof. split; [split; [lia|vm_compute; discriminate]|]. split; vm_compute; reflexivity. Qed.

(** Not so when the clock is put back: a later line comes before an earlier one. *)
Theorem C110_clock_put_back_refuted : exists (off : Z -> Z) t1 t2, t1 < t2 /\ dated (off t1) t1 /\ dated (off t2) t2 /\
  before (stamp (local (off t2) t2) 0) (stamp (local (off t1) t1) 0).
Proof.
  exists (fun t => if t <? 1477789200 then 7200 else 3600), 1477789199, 1477789200.
  split; [lia|]. split; [split; [cbn; lia|vm_compute; discriminate]|]. split; [split; [cbn; lia|vm_compute; discriminate]|].
  vm_compute. intuition.
Qed.
Print Assumptions C110_clock_put_back_refuted.

(** Nor from the year 10000 on. *)
Theorem C110_far_years_refuted : exists y y' : Z, y < y' /\
  before (stamp (mkCtm (y' - 1900) 0 1 0 0 0) 0) (stamp (mkCtm (y - 1900) 0 1 0 0 0) 0).
Proof. exists 9999, 10000. split; [lia|]. vm_compute. intuition. Qed.
Print Assumptions C110_far_years_refuted.

Lemma newlines_app : forall a b, newlines (a ++ b) = (newlines a + newlines b)%nat.
Proof. induction a as [|c a IH]; intros b; [reflexivity|]. cbn [app newlines]. rewrite IH. lia. Qed.
Lemma newlines_digits : forall s, Forall (fun c => 48 <= c <= 57) s -> newlines s = 0%nat.
Proof. induction 1 as [|c s H _ IH]; [reflexivity|]. cbn [newlines]. destruct (Z.eqb_spec c 10); [lia|exact IH]. Qed.

(** One message is one line when neither the name of the thread nor the message has an end of
    line in it: the only one is the last byte. *)
Theorem C110_one_line : forall log_level l off t usec tname self msg line,
  dated off t -> 0 <= usec < 1000000 ->
  (forall n, tname = Some n -> ~ In 10 n) -> ~ In 10 msg ->
  log_fmt log_level l (local off t) usec tname self msg = Some line ->
  exists s, line = s ++ [10] /\ ~ In 10 s.
Proof.
  intros log_level l off t usec tname self msg line HD Hu Hn Hm H.
  destruct (C110_line _ _ _ _ _ _ _ _ _ HD Hu H) as (yy & mm & dd & hh & mi & ss & ms & who & -> & W &
    (y & m & d & _ & (_ & Y & _) & (_ & M & _) & (_ & D & _)) & (h & i & s & (_ & Hh & _) & (_ & Hi & _) & (_ & Hs & _) & _) & (_ & Ms & _)).
  assert (NI : forall s, newlines s = 0%nat <-> ~ In 10 s).
  { clear. induction s as [|c s IH]; [cbn; tauto|]. cbn. destruct (Z.eqb_spec c 10); [split; [lia|intuition]|]. rewrite Nat.add_0_l, IH. intuition. }
  exists (yy ++ zs "-" ++ mm ++ zs "-" ++ dd ++ zs " " ++ hh ++ zs ":" ++ mi ++ zs ":" ++ ss ++ zs "." ++ ms ++
           zs " " ++ level_str l ++ zs " " ++ who ++ zs " " ++ msg).
  split; [rewrite <- !app_assoc; reflexivity|]. apply NI. rewrite !newlines_app.
  rewrite !(newlines_digits yy), (newlines_digits mm), (newlines_digits dd), (newlines_digits hh), (newlines_digits mi),
    (newlines_digits ss), (newlines_digits ms) by assumption.
  apply NI in Hm. rewrite Hm.
  assert (Hw : newlines who = 0%nat).
  { destruct W as [->|(_ & W & _)]; [apply NI; apply Hn; reflexivity|apply newlines_digits; exact W]. }
  rewrite Hw. destruct l; reflexivity.
Qed.
Print Assumptions C110_one_line.

(** log_err writes a blank line after each message: its text ends the line itself. *)
Theorem C110_log_err_adds_a_blank_line_refuted : forall off t usec tname self msg err strerr,
  exists s, log_err 4 (local off t) usec tname self msg err strerr = Some (s ++ [10; 10]).
Proof.
  intros. unfold log_err, log_fmt. cbn [level_no Z.leb Z.compare Pos.compare Pos.compare_cont]. unfold err_suffix. eexists.
  f_equal. rewrite !app_assoc. rewrite <- (app_assoc _ [10] [10]). reflexivity.
Qed.
Print Assumptions C110_log_err_adds_a_blank_line_refuted.

(** Used as the single statement of an if, the macros of the levels write under the condition
    only, but log_die ends the program whatever the condition. *)
Theorem C110_guarded_messages : forall c l, under_if c (expand_msg l) = if c then expand_msg l else [].
Proof. intros [|] l; reflexivity. Qed.
Print Assumptions C110_guarded_messages.
Theorem C110_guarded_die_refuted : under_if false expand_die = [Exit].
Proof. reflexivity. Qed.
Print Assumptions C110_guarded_die_refuted.

(** *** C111: names of threads *)

Lemma existsb_in : forall k l, existsb (Z.eqb k) l = true <-> In k l.
Proof.
  intros. rewrite existsb_exists. split; [intros (x & H & E); apply Z.eqb_eq in E; subst; exact H|].
  intros H. exists k. split; [exact H|apply Z.eqb_refl].
Qed.

Definition tinv (s : tsd) (mine : list Z) (cur : nat -> Z) : Prop :=
  incl mine (k_live s) /\
  if k_once s then In (k_log s) (k_live s) /\ ~ In (k_log s) mine /\ forall t, k_val s (k_log s) t = cur t
  else forall t, cur t = 0.

Lemma once_inv : forall k s mine cur, tinv s mine cur -> ~ In k (k_live s) ->
  let s' := once (Some k) s in tinv s' mine cur /\ k_once s' = true /\
  forall k' t, In k' mine -> k_val s' k' t = k_val s k' t.
Proof.
  intros k s mine cur (I & H) F. unfold once. destruct (k_once s) eqn:E; cbv zeta.
  { split; [split; [exact I|rewrite E; exact H]|]. split; [exact E|reflexivity]. }
  cbn. split.
  { split; [intros x Hx; right; apply I; exact Hx|]. cbn. split; [left; reflexivity|]. split; [intros Hx; apply F, I, Hx|].
    intros t. rewrite Z.eqb_refl, H. reflexivity. }
  split; [reflexivity|]. intros k' t Hk. destruct (Z.eqb_spec k' k); [subst; exfalso; apply F, I, Hk|reflexivity].
Qed.

Lemma threads : forall l s mine cur sl, tinv s mine cur -> fresh_keys l s -> own_keys l mine -> got_key l ->
  (forall k t, In k mine -> k_val s k t = sl k t) ->
  names l (fst (truns l s)) cur /\
  (forall k t, In k (keys_of l) \/ In k mine -> k_val (snd (truns l s)) k t = slots l (fst (truns l s)) sl k t).
Proof.
  induction l as [|o l IH]; intros s mine cur sl HI HF HO HG HS.
  { cbn. split; [exact Logic.I|]. intros k t [[]|H]. apply HS, H. }
  destruct HF as [HF1 HF2]. assert (HG' : got_key l) by (intros o' H'; apply HG; right; exact H').
  specialize (HG o (or_introl eq_refl)). cbn [truns]. cbn [own_keys] in HO.
  destruct o as [ans mem t name|ans t|ans|mem k t v]; cbn [tstep] in *.
  - destruct ans as [k|]; [|contradiction]. specialize (HF1 k eq_refl).
    destruct (once_inv k s mine cur HI HF1) as ((J & T) & O & K). unfold log_thread_name_set in *.
    set (s' := once (Some k) s) in *. cbv zeta in *. rewrite O in T. destruct T as (T1 & T2 & T3).
    unfold setspecific in *. rewrite (proj2 (existsb_in _ _) T1) in *.
    destruct mem; cbn [snd] in *.
    + match type of HF2 with fresh_keys l ?s2 =>
      edestruct (IH s2 mine (fun t' => if Nat.eqb t' t then name else cur t') sl) as [N S] end; [| exact HF2|exact HO|exact HG'| |].
      * split; [exact J|]. cbn. rewrite O. split; [exact T1|]. split; [exact T2|]. intros t'. rewrite Z.eqb_refl. cbn. rewrite T3. reflexivity.
      * intros k' t' Hk. cbn. destruct (Z.eqb_spec k' (k_log s')); [subst; contradiction|]. cbn. rewrite K by exact Hk. apply HS, Hk.
      * destruct (truns l _) as [rs sF]. cbn [fst snd] in *. cbn [names slots]. split; [exact N|exact S].
    + edestruct (IH s' mine cur sl) as [N S]; [| exact HF2|exact HO|exact HG'| |].
      * split; [exact J|]. rewrite O. auto.
      * intros k' t' Hk. rewrite K by exact Hk. apply HS, Hk.
      * destruct (truns l _) as [rs sF]. cbn [fst snd] in *. cbn [names slots]. split; [|exact S].
        change (12 =? 0) with false. cbv iota.
        assert (X : forall l rs c c', (forall t, c t = c' t) -> names l rs c -> names l rs c').
        { clear. induction l as [|o l IH]; intros rs c c' E H; [exact Logic.I|]. destruct rs as [|r rs]; [destruct o; exact Logic.I|].
          destruct o; cbn [names] in *; try (eapply IH; [|exact H]; assumption).
          - eapply IH; [|exact H]. intros t'. cbn. rewrite !E. reflexivity.
          - destruct H as [H1 H2]. rewrite <- E. split; [exact H1|]. eapply IH; [exact E|exact H2]. }
        eapply X; [|exact N]. intros t'. destruct (Nat.eqb_spec t' t); subst; reflexivity.
  - destruct ans as [k|]; [|contradiction]. specialize (HF1 k eq_refl).
    destruct (once_inv k s mine cur HI HF1) as ((J & T) & O & K). unfold log_thread_name_get in *.
    set (s' := once (Some k) s) in *. cbv zeta in *. cbn [snd] in *.
    edestruct (IH s' mine cur sl) as [N S]; [| exact HF2|exact HO|exact HG'| |].
    * split; assumption.
    * intros k' t' Hk. rewrite K by exact Hk. apply HS, Hk.
    * destruct (truns l _) as [rs sF]. cbn [fst snd] in *. cbn [names slots]. split; [|exact S]. split; [|exact N].
      rewrite O in T. destruct T as (T1 & T2 & T3). unfold getspecific. rewrite (proj2 (existsb_in _ _) T1). apply T3.
  - cbn [snd] in *. destruct ans as [k|].
    + specialize (HF1 k eq_refl).
      edestruct (IH (key_create (Some k) s) (k :: mine) cur (fun k' t => if k' =? k then 0 else sl k' t)) as [N S];
        [| exact HF2|exact HO|exact HG'| |].
      * destruct HI as (J & T). split; cbn; [intros x [->|Hx]; [left; reflexivity|right; apply J, Hx]|].
        destruct (k_once s); [|exact T]. destruct T as (T1 & T2 & T3). split; [right; exact T1|].
        assert (k <> k_log s) by (intros ->; contradiction).
        split; [intros [X|X]; contradiction|]. intros t. destruct (Z.eqb_spec (k_log s) k); [congruence|apply T3].
      * intros k' t' Hk. cbn. destruct (Z.eqb_spec k' k); [reflexivity|]. apply HS. destruct Hk as [Hk|Hk]; [congruence|exact Hk].
      * destruct (truns l _) as [rs sF]. cbn [fst snd] in *. cbn [names slots keys_of]. split; [exact N|].
        intros k' t' Hk. apply S. cbn. destruct Hk as [[Hk|Hk]|Hk]; auto.
    + destruct (IH s mine cur sl HI HF2 HO HG' HS) as [N S]. cbn [key_create]. destruct (truns l s) as [rs sF].
      cbn [fst snd] in *. split; [exact N|exact S].
  - destruct HO as [HO1 HO2]. unfold setspecific in *.
    assert (L : In k (k_live s)) by (destruct HI as (J & _); apply J, HO1). rewrite (proj2 (existsb_in _ _) L) in *.
    destruct mem; cbn [snd] in *.
    + match type of HF2 with fresh_keys l ?s2 =>
      edestruct (IH s2 mine cur (fun k' t' => if (k' =? k) && Nat.eqb t' t then v else sl k' t')) as [N S] end;
        [| exact HF2|exact HO2|exact HG'| |].
      * destruct HI as (J & T). split; [exact J|]. cbn. destruct (k_once s); [|exact T]. destruct T as (T1 & T2 & T3).
        split; [exact T1|]. split; [exact T2|]. intros t'. destruct (Z.eqb_spec (k_log s) k); [subst; contradiction|apply T3].
      * intros k' t' Hk. cbn. rewrite HS by exact Hk. reflexivity.
      * destruct (truns l _) as [rs sF]. cbn [fst snd] in *. cbn [names slots keys_of]. split; [exact N|exact S].
    + destruct (IH s mine cur sl HI HF2 HO2 HG' HS) as [N S]. destruct (truns l s) as [rs sF].
      cbn [fst snd] in *. cbn [names slots keys_of]. split; [exact N|]. intros k' t' Hk. rewrite S by exact Hk.
      change (12 =? 0) with false. cbv iota.
      assert (X : forall l rs c c', (forall k t, c k t = c' k t) -> forall k t, slots l rs c k t = slots l rs c' k t).
      { clear. induction l as [|o l IH]; intros rs c c' E k t; [apply E|]. destruct rs as [|r rs]; [destruct o as [| |[|]|]; apply E|].
        destruct o as [| |[|]|]; cbn [slots]; apply IH; try exact E; intros k' t'; cbn; rewrite ?E; reflexivity. }
      apply X. intros k2 t2. destruct (Z.eqb_spec k2 k); [|reflexivity]. destruct (Nat.eqb_spec t2 t); subst; reflexivity.
Qed.

(** If the library gets its key, then in every history each thread reads the name that it
    set last, and nothing that the rest of the program keeps under its own keys changes. *)
Theorem C111_names : forall l, fresh_keys l tsd0 -> own_keys l [] -> got_key l ->
  names l (fst (truns l tsd0)) (fun _ => 0) /\
  (forall k t, In k (keys_of l) -> k_val (snd (truns l tsd0)) k t = slots l (fst (truns l tsd0)) (fun _ _ => 0) k t).
Proof.
  intros l F O G. destruct (threads l tsd0 [] (fun _ => 0) (fun _ _ => 0)) as [N S]; try assumption.
  - split; [intros x []|cbn; reflexivity].
  - intros k t [].
  - split; [exact N|]. intros k t H. apply S. left. exact H.
Qed.
Print Assumptions C111_names.

Example C111_ex : let l := [TKey (Some 0); TOther true 0 1 77; TSet (Some 1) true 1 500; TGet (Some 2) 2; TSet (Some 2) true 2 600;
    TGet (Some 2) 1; TSet (Some 2) false 1 700; TGet (Some 2) 1; TGet (Some 2) 2] in
  fresh_keys l tsd0 /\ own_keys l [] /\ got_key l /\ fst (truns l tsd0) = [0; 0; 0; 0; 0; 500; 12; 500; 600] /\
  k_val (snd (truns l tsd0)) 0 1 = 77.
Proof.
  cbv zeta. split.
  { cbn. repeat match goal with |- _ /\ _ => split | |- forall _, _ => intros ? [= <-] | |- True => exact Logic.I end; cbn; lia. }
  split; [cbn; tauto|]. split; [|split; reflexivity].
  intros o H. cbn in H. repeat (destruct H as [<-|H]; [exact Logic.I|]). contradiction.
Qed.

(** The key of the library may not be had; then the names go into the slot of somebody else's
    key 0, and the calls report success; *)
Theorem C111_no_key_overwrites_refuted : exists l, fresh_keys l tsd0 /\ own_keys l [] /\
  Forall (fun r => r = 0) (fst (truns l tsd0)) /\
  exists k t, In k (keys_of l) /\ k_val (snd (truns l tsd0)) k t <> slots l (fst (truns l tsd0)) (fun _ _ => 0) k t.
Proof.
  exists [TKey (Some 0); TOther true 0 1 77; TSet None true 1 500].
  split. { cbn. repeat match goal with |- _ /\ _ => split | |- True => exact Logic.I end; intros k [=]; subst; cbn; lia. }
  split; [cbn; tauto|]. split; [cbn; repeat constructor|]. exists 0, 1%nat. split; [left; reflexivity|]. cbn. lia.
Qed.
Print Assumptions C111_no_key_overwrites_refuted.
(** and the name read is what somebody else stored. *)
Theorem C111_no_key_reads_refuted : exists l, fresh_keys l tsd0 /\ own_keys l [] /\
  ~ names l (fst (truns l tsd0)) (fun _ => 0).
Proof.
  exists [TKey (Some 0); TOther true 0 1 77; TGet None 1].
  split. { cbn. repeat match goal with |- _ /\ _ => split | |- True => exact Logic.I end; intros k [=]; subst; cbn; lia. }
  split; [cbn; tauto|]. cbn. lia.
Qed.
Print Assumptions C111_no_key_reads_refuted.

(** *** C112: the text of an error *)

Lemma c_string_ok : forall s rest, c_string (map Some s ++ Some 0 :: rest) = Ok (upto_nul s).
Proof.
  induction s as [|c s IH]; intros rest; [reflexivity|]. cbn [map app c_string upto_nul].
  destruct (c =? 0); [reflexivity|]. rewrite IH. reflexivity.
Qed.
Lemma upto_nul_firstn : forall k s, upto_nul (firstn k s) = firstn k (upto_nul s).
Proof.
  induction k as [|k IH]; intros s; [reflexivity|]. destruct s as [|c s]; [reflexivity|]. cbn [firstn upto_nul].
  destruct (c =? 0); [reflexivity|]. cbn [firstn]. rewrite IH. reflexivity.
Qed.
(** what() is the text, or its first 4095 bytes, and reading it never leaves the object *)
Theorem C112_what : forall text, c_string (coda_error (Some text)) = Ok (firstn 4095 (upto_nul text)) /\
  length (coda_error (Some text)) = 4096%nat.
Proof.
  intros text.
  assert (E : coda_error (Some text) = map Some (firstn 4095 text) ++ Some 0 ::
    skipn (S (length (firstn 4095 text))) (repeat None 4096)) by reflexivity.
  rewrite E. split.
  - rewrite c_string_ok, upto_nul_firstn. reflexivity.
  - pose proof (firstn_le_length 4095 text). rewrite app_length, map_length. cbn [length].
    rewrite skipn_length, repeat_length. lia.
Qed.
Print Assumptions C112_what.

Lemma upto_nul_id : forall s, ~ In 0 s -> upto_nul s = s.
Proof.
  induction s as [|c s IH]; intros H; [reflexivity|]. cbn. destruct (Z.eqb_spec c 0); [subst; exfalso; apply H; left; reflexivity|].
  rewrite IH; [reflexivity|]. intros X. apply H. right. exact X.
Qed.
Lemma udec_nonempty : forall f n, udec (S f) n <> [].
Proof. intros. cbn [udec]. destruct (n <? 10); [discriminate|]. intros H. apply app_eq_nil in H as [_ H]. discriminate. Qed.
Lemma fmt_d_ok : forall n, - 2 ^ 31 <= n < 2 ^ 31 -> decimal n (fmt_d n) /\ (length (fmt_d n) <= 11)%nat.
Proof.
  intros n H. unfold fmt_d, fmt_u.
  assert (B : 0 <= Z.abs n < 2 ^ 32) by lia.
  assert (C : 0 <= Z.abs n < 10 ^ Z.of_nat 10) by (split; [lia|]; apply Z.lt_trans with (2 ^ 32); [lia|reflexivity]).
  pose proof (udec_ok 10 (Z.abs n) C) as [D1 D2]. pose proof (udec_len 10 10 (Z.abs n) ltac:(lia) C) as D3.
  split.
  - exists (udec 10 (Z.abs n)). destruct (Z.ltb_spec n 0).
    + replace (- n) with (Z.abs n) by lia. rewrite Z.mod_small by exact B. split; [reflexivity|].
      split; [apply udec_nonempty|]. split; [exact D1|exact D2].
    + rewrite Z.mod_small by lia. replace n with (Z.abs n) at 1 by lia. split; [reflexivity|].
      split; [apply udec_nonempty|]. split; [exact D1|exact D2].
  - destruct (Z.ltb_spec n 0).
    + replace (- n) with (Z.abs n) by lia. rewrite Z.mod_small by exact B. cbn [length]. lia.
    + rewrite Z.mod_small by lia. replace n with (Z.abs n) by lia. lia.
Qed.

(** C110: log_err tells the number of the error and its text, behind the message *)
Theorem C110_log_err_text : forall log_level tm usec tname self msg err strerr, - 2 ^ 31 <= err < 2 ^ 31 ->
  exists d, decimal err d /\
    log_err log_level tm usec tname self msg err strerr =
    log_fmt log_level Lerror tm usec tname self (msg ++ zs " (" ++ d ++ zs ": " ++ strerr ++ zs ")" ++ [10]).
Proof. intros. exists (fmt_d err). split; [apply fmt_d_ok; assumption|reflexivity]. Qed.
Print Assumptions C110_log_err_text.

(** the number of the error and its text are there if the message leaves room for them *)
Theorem C112_errno_shown : forall text err strerr, ~ In 0 text -> ~ In 0 strerr -> - 2 ^ 31 <= err < 2 ^ 31 ->
  (length text + length strerr <= 4079)%nat ->
  exists d, decimal err d /\ c_string (coda_errno text err strerr) = Ok (text ++ zs " (" ++ d ++ zs ": " ++ strerr ++ zs ")").
Proof.
  intros text err strerr H1 H2 H3 H4. destruct (fmt_d_ok err H3) as [D L]. exists (fmt_d err). split; [exact D|].
  unfold coda_errno. rewrite (proj1 (C112_what _)). rewrite upto_nul_id.
  { rewrite firstn_all2; [reflexivity|]. unfold errno_suffix. rewrite !app_length.
    change (length (zs " (")) with 2%nat. change (length (zs ": ")) with 2%nat. change (length (zs ")")) with 1%nat. lia. }
  assert (ND : ~ In 0 (fmt_d err)).
  { destruct D as (m & -> & _ & F & _). rewrite Forall_forall in F. intros X.
    assert (Y : In 0 m) by (destruct (err <? 0); [destruct X as [X|X]; [discriminate|exact X]|exact X]). apply F in Y. lia. }
  unfold errno_suffix. rewrite !in_app_iff. change (zs " (") with [32; 40]. change (zs ": ") with [58; 32]. change (zs ")") with [41].
  cbn [In]. intuition lia.
Qed.
Print Assumptions C112_errno_shown.

Example C112_ex : c_string (coda_errno (zs "can't read map") 2 (zs "No such file or directory"))
  = Ok (zs "can't read map (2: No such file or directory)").
Proof. vm_compute. reflexivity. Qed.

(** For a longer message they are cut off. *)
Theorem C112_errno_cut_refuted : forall text err strerr, ~ In 0 text -> length text = 4095%nat ->
  c_string (coda_errno text err strerr) = Ok text.
Proof.
  intros text err strerr H L. unfold coda_errno. rewrite (proj1 (C112_what _)). rewrite <- upto_nul_firstn.
  rewrite firstn_app, L, Nat.sub_diag, firstn_O, app_nil_r, firstn_all2 by lia.
  rewrite upto_nul_id by exact H. reflexivity.
Qed.
Print Assumptions C112_errno_cut_refuted.

(** If the text cannot be formatted, what() is bytes that were never written. *)
Theorem C112_unformatted_refuted : c_string (coda_error None) = Ub Uninit.
Proof. reflexivity. Qed.
Print Assumptions C112_unformatted_refuted.

(** The text of an error number is never more than the buffer, in the XSI variant too, and
    is the message of the system when there is one. *)
Theorem C112_strerror : forall ok text size, (30 <= size)%nat ->
  (length (strerror_xsi ok text size) < size)%nat /\
  (ok = true -> (length text < size)%nat -> strerror_xsi ok text size = strerror_gnu text).
Proof.
  intros [|] text size H; unfold strerror_xsi, strerror_gnu; split; try discriminate.
  - rewrite firstn_length. lia.
  - intros _ L. apply firstn_all2. lia.
  - cbn. lia.
Qed.
Print Assumptions C112_strerror.
