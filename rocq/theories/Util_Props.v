(** Properties of coda_gmtime, coda_msleep and log_array. *)

From Coq Require Import ZArith List Bool Lia.
From Verif Require Import Base Util_Model Util_Spec Util_Proof.
Import ListNotations.
Local Open Scope Z_scope.

(** *** C66: log_array *)

(** Every positive 64-bit value selects the bucket of its binary logarithm, or the last
    bucket; the bucket exists, so the reference is to an element of the array and an
    assignment through it changes that element only. *)
Theorem C66_bucket_is_log2 : forall (T : Type) (data : list T) i v,
  0 < i < 2 ^ 64 -> 0 < Z.of_nat (length data) < 2 ^ 32 ->
  exists b x, (b < length data)%nat /\
    (Z.of_nat b = Z.of_nat (length data) - 1 /\ 2 ^ Z.of_nat b <= i \/ 2 ^ Z.of_nat b <= i < 2 ^ (Z.of_nat b + 1)) /\
    nth_error data b = Some x /\ get_by_value data i = Ok x /\
    set_by_value data i v = Ok (firstn b data ++ v :: skipn (S b) data).
Proof.
  intros T data i v Hi Hn. set (n := Z.of_nat (length data)) in *.
  pose proof (Z.log2_nonneg i) as L0.
  set (b := Z.to_nat (Z.min (Z.log2 i) (n - 1))).
  assert (Hb : (b < length data)%nat) by (unfold b, n; lia).
  assert (Eb : Z.of_nat b = Z.min (Z.log2 i) (n - 1)) by (unfold b; lia).
  destruct (nth_error data b) as [x|] eqn:Ex.
  2:{ apply nth_error_None in Ex. lia. }
  exists b, x. split; [exact Hb|]. split.
  { destruct (Z.log2_spec i ltac:(lia)) as [S1 S2].
    destruct (Z_lt_le_dec (Z.log2 i) (n - 1)) as [H | H].
    - right. rewrite Eb, Z.min_l by lia. rewrite <- Z.add_1_r in S2. lia.
    - left. rewrite Eb, Z.min_r by lia. split; [reflexivity|].
      eapply Z.le_trans; [apply Z.pow_le_mono_r with (c := Z.log2 i); lia | exact S1]. }
  split; [exact Ex|]. unfold get_by_value, set_by_value. fold n.
  rewrite bucket_ok by lia. cbn [bind]. fold b. unfold get_at, rd. fold b. rewrite Ex. split; [reflexivity|].
  rewrite wr_ok by lia. f_equal.
  pose proof Ex as Es. apply nth_error_split in Es. destruct Es as (l1 & l2 & E & El).
  rewrite E, <- El. rewrite upd_app, firstn_app, Nat.sub_diag, firstn_all.
  replace (S (length l1)) with (length (l1 ++ [x])) by (rewrite app_length; simpl; lia).
  change (l1 ++ x :: l2) with (l1 ++ [x] ++ l2). rewrite app_assoc, skipn_app, Nat.sub_diag, skipn_all.
  rewrite app_nil_r. reflexivity.
Qed.
Print Assumptions C66_bucket_is_log2.

(** Larger positive values never land in a lower bucket. *)
Theorem C66_buckets_are_ordered : forall n i i', 0 < n < 2 ^ 32 ->
  0 < i -> i <= i' -> i' < 2 ^ 64 ->
  exists b b', bucket n i = Ok b /\ bucket n i' = Ok b' /\ 0 <= b <= b' /\ b' < n.
Proof.
  intros n i i' Hn Hi Hle Hi'. exists (Z.min (Z.log2 i) (n - 1)), (Z.min (Z.log2 i') (n - 1)).
  rewrite !bucket_ok by lia. pose proof (Z.log2_nonneg i). pose proof (Z.log2_le_mono i i' Hle). repeat split; lia.
Qed.
Print Assumptions C66_buckets_are_ordered.

(** Zero is always in bounds, but it is counted with the largest values: for zero the order
    is lost as soon as there are two buckets. *)
Theorem C66_zero_is_in_bounds : forall (T : Type) (data : list T), 0 < Z.of_nat (length data) < 2 ^ 32 ->
  exists l x, data = l ++ [x] /\ get_by_value data 0 = Ok x.
Proof.
  intros T data H. destruct (@exists_last _ data) as (l & x & ->); [intros ->; simpl in H; lia|].
  exists l, x. split; [reflexivity|]. unfold get_by_value. rewrite bucket_0 by lia. cbn [bind].
  unfold get_at, rd. rewrite app_length. cbn [length].
  replace (Z.to_nat (Z.of_nat (length l + 1) - 1)) with (length l) by lia.
  rewrite nth_error_app2, Nat.sub_diag by lia. reflexivity.
Qed.
Print Assumptions C66_zero_is_in_bounds.

Theorem C66_zero_is_misplaced_refuted : forall n, 2 <= n < 2 ^ 32 ->
  exists b b', bucket n 0 = Ok b /\ bucket n 1 = Ok b' /\ b' < b.
Proof.
  intros n Hn. exists (n - 1), 0. rewrite bucket_0, bucket_ok by lia.
  change (Z.log2 1) with 0. rewrite Z.min_l by lia. repeat split; lia.
Qed.
Print Assumptions C66_zero_is_misplaced_refuted.

Theorem C66_swap : forall (T : Type) (a b : list T), length a = length b -> la_swap a b = Ok (b, a).
Proof. intros T a b H. unfold la_swap. rewrite swap_loop_ok by lia. reflexivity. Qed.
Print Assumptions C66_swap.

Example C66_ex : bucket 8 1 = Ok 0 /\ bucket 8 6 = Ok 2 /\ bucket 8 127 = Ok 6 /\
  bucket 8 (2 ^ 64 - 1) = Ok 7 /\ bucket 8 0 = Ok 7 /\
  get_by_value [10; 11; 12; 13; 14; 15; 16; 17] 6 = Ok 12 /\ la_swap [1; 2; 3] [4; 5; 6] = Ok ([4; 5; 6], [1; 2; 3]).
Proof. repeat split. Qed.

(** *** C67: coda_gmtime *)

(** For every non-negative time whose year fits in int, the fields are the Gregorian date
    [t / 86400] days after January 1st 1970, its day of the week and the time of the day. *)
Theorem C67_gmtime_is_gregorian : forall t, 0 <= t < 2 ^ 63 ->
  let n := Z.to_nat (t / 86400) in
  let '(y, m, d) := date_after n in
  y < 2 ^ 31 ->
  exists hh mm ss, gmtime t = mkTm ss mm hh d m y (weekday_after n) /\
    0 <= ss < 60 /\ 0 <= mm < 60 /\ 0 <= hh < 24 /\
    t = 86400 * Z.of_nat n + 3600 * hh + 60 * mm + ss.
Proof.
  intros t Ht n. pose proof (gmtime_ok t Ht) as G.
  assert (Hd : 0 <= t / 86400) by (apply Z.div_pos; lia).
  assert (En : Z.of_nat n = t / 86400) by (unfold n; lia).
  rewrite <- En in G. rewrite core_date in G.
  assert (Hy : forall k, 1970 <= fst (fst (date_after k))).
  { unfold date_after. induction k as [|k IH]; [cbn; lia|]. cbn [Nat.iter nat_rect]. unfold Nat.iter in *. cbn [nat_rect].
    destruct (nat_rect _ _ _ k) as [[y m] d]. cbn [fst tomorrow] in *. unfold tomorrow.
    destruct (d <? month_days y m); [exact IH|]. destruct (m <? 12); cbn [fst]; lia. }
  specialize (Hy n). destruct (date_after n) as [[y m] d]. cbn [fst] in Hy. intros Hlt.
  exists (t / 3600 mod 24), (t / 60 mod 60), (t mod 60).
  rewrite weekday_ok. rewrite (INT_small y) in G by lia. split; [exact G|].
  repeat split; try (apply Z.mod_pos_bound; lia).
  rewrite En. 
  pose proof (Z.div_mod t 60 ltac:(lia)). pose proof (Z.div_mod (t / 60) 60 ltac:(lia)).
  pose proof (Z.div_mod (t / 3600) 24 ltac:(lia)).
  rewrite Z.div_div in H0 by lia. rewrite Z.div_div in H1 by lia.
  change (60 * 60) with 3600 in *. change (3600 * 24) with 86400 in *. lia.
Qed.
Print Assumptions C67_gmtime_is_gregorian.

(** In particular the month and day exist in that year, whatever the year. *)
Theorem C67_gmtime_is_valid : forall t, 0 <= t < 2 ^ 63 ->
  let g := gmtime t in
  exists y, tm_year g = INT y /\ valid_date (y, tm_mon g, tm_mday g) /\
    (y < 2 ^ 31 -> tm_year g = y) /\
    0 <= tm_sec g < 60 /\ 0 <= tm_min g < 60 /\ 0 <= tm_hour g < 24 /\ 0 <= tm_wday g < 7.
Proof.
  intros t Ht g. pose proof (gmtime_ok t Ht) as G. pose proof (core_valid (t / 86400 + 719468)) as V.
  assert (Hd : 0 <= t / 86400) by (apply Z.div_pos; lia).
  assert (Hy : 0 <= fst (fst (core (t / 86400 + 719468)))).
  { replace (t / 86400) with (Z.of_nat (Z.to_nat (t / 86400))) by lia. rewrite core_date.
    assert (Hy : forall k, 1970 <= fst (fst (date_after k))).
    { unfold date_after. induction k as [|k IH]; [cbn; lia|]. unfold Nat.iter in *. cbn [nat_rect].
      destruct (nat_rect _ _ _ k) as [[y m] d]. cbn [fst] in *. unfold tomorrow.
      destruct (d <? month_days y m); [exact IH|]. destruct (m <? 12); cbn [fst]; lia. }
    specialize (Hy (Z.to_nat (t / 86400))). lia. }
  destruct (core (t / 86400 + 719468)) as [[y m] d]. cbn [fst] in Hy.
  exists y. unfold g. rewrite G. cbn [tm_year tm_mon tm_mday tm_sec tm_min tm_hour tm_wday].
  split; [reflexivity|]. split; [exact V|]. split.
  { intros. apply INT_small. lia. }
  repeat split; apply Z.mod_pos_bound; lia.
Qed.
Print Assumptions C67_gmtime_is_valid.

Example C67_ex : gmtime 1456790399 = mkTm 59 59 23 29 2 2016 1 /\
  gmtime 0 = mkTm 0 0 0 1 1 1970 4 /\ gmtime 4107542400 = mkTm 0 0 0 1 3 2100 1 /\
  date_after 11016 = (2000, 2, 29).
Proof. repeat split. Qed.

(** Beyond the year 2147483647 the year is wrong: the result is not even after 1970. *)
Theorem C67_far_future_refuted : exists t, 0 <= t < 2 ^ 63 /\ tm_year (gmtime t) < 0.
Proof. exists 67768036191676800. split; [lia|]. vm_compute. reflexivity. Qed.
Print Assumptions C67_far_future_refuted.

(** Negative times (before 1970) do not give a date before 1970. *)
Theorem C67_negative_time_refuted : exists t, - 2 ^ 63 <= t < 0 /\
  gmtime t <> mkTm 59 59 23 31 12 1969 3 /\ t = -1.
Proof. exists (-1). split; [lia|]. split; [vm_compute; discriminate|reflexivity]. Qed.
Print Assumptions C67_negative_time_refuted.

(** *** C68: coda_msleep *)

Theorem C68_msleep_is_exact : forall ms, 0 <= ms < 2 ^ 31 ->
  let '(sec, nsec) := msleep ms in
  0 <= sec /\ 0 <= nsec < 1000000000 /\ sec * 1000000000 + nsec = ms * 1000000.
Proof.
  intros ms H. unfold msleep. rewrite Z.quot_div_nonneg, Z.rem_mod_nonneg by lia.
  pose proof (Z.div_mod ms 1000 ltac:(lia)). pose proof (Z.mod_pos_bound ms 1000 ltac:(lia)).
  pose proof (Z.div_pos ms 1000 ltac:(lia) ltac:(lia)). lia.
Qed.
Print Assumptions C68_msleep_is_exact.

Example C68_ex : msleep 2147483647 = (2147483, 647000000) /\ msleep 999 = (0, 999000000).
Proof. repeat split. Qed.

(** *** C88: a fresh log_array *)

(** For the element types with a specialised holder every bucket of a fresh array reads as
    zero, for every value. *)
Theorem C88_fresh_array_is_zero_partial : forall t n i,
  In t [TChar; TUChar; TShort; TUShort; TInt; TUInt; TLong; TULong; TFloat; TDouble] ->
  0 < Z.of_nat n < 2 ^ 32 -> 0 <= i < 2 ^ 64 -> la_read (la_new t n) i = Ok 0.
Proof.
  intros t n i Ht Hn Hi.
  assert (E : holder t = Some 0).
  { repeat (destruct Ht as [<- | Ht]; [reflexivity|]). destruct Ht. }
  unfold la_read, la_new. rewrite E. unfold get_by_value. rewrite repeat_length.
  assert (B : exists b, bucket (Z.of_nat n) i = Ok b /\ 0 <= b < Z.of_nat n).
  { destruct (Z.eq_dec i 0) as [-> | N].
    - exists (Z.of_nat n - 1). rewrite bucket_0 by lia. split; [reflexivity|lia].
    - exists (Z.min (Z.log2 i) (Z.of_nat n - 1)). rewrite bucket_ok by lia.
      pose proof (Z.log2_nonneg i). split; [reflexivity|lia]. }
  destruct B as (b & -> & Hb). cbn [bind]. unfold get_at, rd.
  rewrite nth_error_repeat by lia. reflexivity.
Qed.
Print Assumptions C88_fresh_array_is_zero_partial.

(** For bool, signed char, long long, unsigned long long and long double it is not: the
    holder leaves the value uninitialised. *)
Theorem C88_uninitialised_refuted : forall t n i,
  In t [TBool; TSChar; TLLong; TULLong; TLDouble] ->
  0 < Z.of_nat n < 2 ^ 32 -> 0 < i < 2 ^ 64 -> la_read (la_new t n) i = Ub Uninit.
Proof.
  intros t n i Ht Hn Hi.
  assert (E : holder t = None).
  { repeat (destruct Ht as [<- | Ht]; [reflexivity|]). destruct Ht. }
  unfold la_read, la_new. rewrite E. unfold get_by_value. rewrite repeat_length, bucket_ok by lia.
  pose proof (Z.log2_nonneg i). cbn [bind]. unfold get_at, rd. rewrite nth_error_repeat by lia. reflexivity.
Qed.
Print Assumptions C88_uninitialised_refuted.

Example C88_ex : la_read (la_new TInt 8) 100 = Ok 0 /\ la_read (la_new TLLong 8) 100 = Ub Uninit.
Proof. repeat split. Qed.
