(** Lemmas about coda_gmtime and log_array. *)

From Coq Require Import ZArith List Bool Lia.
From Verif Require Import Base Util_Model Util_Spec.
Import ListNotations.
Local Open Scope Z_scope.

(** *** a sweep over an interval *)
Fixpoint sweep (n : nat) (z : Z) (P : Z -> bool) : bool :=
  match n with O => true | S n => P z && sweep n (z + 1) P end.
Lemma sweep_ok : forall P n z, sweep n z P = true -> forall x, z <= x < z + Z.of_nat n -> P x = true.
Proof.
  intros P. induction n as [|n IH]; intros z H x Hx; [simpl in Hx; lia|].
  cbn [sweep] in H. apply andb_true_iff in H. destruct H as [H1 H2].
  destruct (Z.eq_dec x z); [subst; auto|]. eapply IH; [exact H2|lia].
Qed.

(** *** the computation without the conversions; years start on March 1st *)

(** days from March 1st of year 0 to March 1st of year [y] *)
Definition start (y : Z) : Z := 365 * y + y / 4 - y / 100 + y / 400.
Definition leap01 (y : Z) : Z :=
  if (y mod 4 =? 0) && (negb (y mod 100 =? 0) || (y mod 400 =? 0)) then 1 else 0.
Definition yr (d : Z) : Z := (d + 2) * 400 / 146097.
Definition yd (d : Z) : Z := d - start (yr d).
(** after the correction *)
Definition yr2 (d : Z) : Z := if yd d <? 0 then yr d - 1 else yr d.
Definition yd2 (d : Z) : Z := if yd d <? 0 then 365 + leap01 (yr d) + yd d else yd d.
Definition mo (e : Z) : Z := (e + 31) * 10 / 306.
Definition md (e : Z) : Z := e - (367 * mo e / 12 - 30) + 1.
Definition day_of (y e : Z) : date :=
  if 306 <=? e then (y + 1, mo e - 10, md e) else (y, mo e + 2, md e).
Definition core (d : Z) : date := day_of (yr2 d) (yd2 d).

Ltac euclid y :=
  pose proof (Z.div_mod y 4 ltac:(lia)); pose proof (Z.mod_pos_bound y 4 ltac:(lia));
  pose proof (Z.div_mod y 100 ltac:(lia)); pose proof (Z.mod_pos_bound y 100 ltac:(lia));
  pose proof (Z.div_mod y 400 ltac:(lia)); pose proof (Z.mod_pos_bound y 400 ltac:(lia)).

(** a year starts at most two days away from the average *)
Lemma start_bounds : forall y, 146097 * y - 591 <= 400 * start y <= 146097 * y + 288.
Proof. intros y. unfold start. euclid y. lia. Qed.

Lemma start_step : forall y, start y = start (y - 1) + 365 + leap01 y.
Proof.
  intros y. unfold start, leap01. euclid y. euclid (y - 1).
  destruct (Z.eqb_spec (y mod 4) 0), (Z.eqb_spec (y mod 100) 0), (Z.eqb_spec (y mod 400) 0); cbn [andb orb negb]; lia.
Qed.

Lemma core_split : forall d, d = start (yr2 d) + yd2 d /\ 0 <= yd2 d < 365 + leap01 (yr2 d + 1) /\
  -400 <= yd d <= 400.
Proof.
  intros d. unfold yd2, yr2, yd.
  pose proof (Z.div_mod ((d + 2) * 400) 146097 ltac:(lia)) as E.
  pose proof (Z.mod_pos_bound ((d + 2) * 400) 146097 ltac:(lia)) as M. fold (yr d) in E.
  set (y := yr d) in *.
  pose proof (start_bounds y). pose proof (start_bounds (y - 1)). pose proof (start_bounds (y + 1)).
  pose proof (start_step y). pose proof (start_step (y + 1)) as S1.
  replace (y + 1 - 1) with y in S1 by lia.
  assert (L : forall z, 0 <= leap01 z <= 1) by (intros z; unfold leap01; destruct (_ && _); lia).
  pose proof (L y). pose proof (L (y + 1)).
  destruct (Z.ltb_spec (d - start y) 0).
  - replace (y - 1 + 1) with y by lia. lia.
  - lia.
Qed.

(** a day belongs to one year only *)
Lemma split_unique : forall y e y' e', start y + e = start y' + e' ->
  0 <= e < 365 + leap01 (y + 1) -> 0 <= e' < 365 + leap01 (y' + 1) -> y = y' /\ e = e'.
Proof.
  assert (W : forall y e y' e', start y + e = start y' + e' ->
    e < 365 + leap01 (y + 1) -> 0 <= e' -> ~ y < y').
  { intros y e y' e' E H H' Hlt. pose proof (start_step (y + 1)) as S1.
    replace (y + 1 - 1) with y in S1 by lia.
    pose proof (start_bounds (y + 1)). pose proof (start_bounds y').
    destruct (Z.eq_dec y' (y + 1)); [subst y'; lia | lia]. }
  intros y e y' e' E H H'. assert (y = y').
  { destruct (Z.lt_trichotomy y y') as [K | [K | K]]; [|auto|]; exfalso.
    - apply (W y e y' e'); auto; lia.
    - apply (W y' e' y e); auto; lia. }
  subst. lia.
Qed.

(** the months of a year: what is checked for each of the 366 days *)
Definition month_len (leap : bool) (m : Z) : Z :=
  if m =? 2 then if leap then 29 else 28
  else if (m =? 4) || (m =? 6) || (m =? 9) || (m =? 11) then 30 else 31.
Definition mon_of (e : Z) : Z := if 306 <=? e then mo e - 10 else mo e + 2.
Definition good (leap : bool) (e : Z) : bool :=
  (0 <=? mo e) && (mo e <=? 12) && (30 <=? 367 * mo e / 12) && (367 * mo e / 12 <=? e + 30) &&
  (1 <=? md e) && (md e <=? month_len leap (mon_of e)) && (md e <=? 31) &&
  (1 <=? mon_of e) && (mon_of e <=? 12) &&
  (if 306 <=? e then (10 <=? mo e) && (mon_of e <=? 2) else 3 <=? mon_of e) &&
  (if md e <? month_len leap (mon_of e)
   then (mon_of (e + 1) =? mon_of e) && (md (e + 1) =? md e + 1) && Bool.eqb (306 <=? e + 1) (306 <=? e)
     && (e + 1 <? 365 + (if leap then 1 else 0))
   else if e + 1 <? 365 + (if leap then 1 else 0)
   then (md (e + 1) =? 1) &&
     (if e =? 305 then (mon_of e =? 12) && (mon_of (e + 1) =? 1)
      else (mon_of e <? 12) && (mon_of (e + 1) =? mon_of e + 1) && Bool.eqb (306 <=? e + 1) (306 <=? e))
   else (mon_of e =? 2) && (306 <=? e)).
Lemma good_all : forall (leap : bool) e, 0 <= e < 365 + (if leap then 1 else 0) -> good leap e = true.
Proof.
  intros leap e He. apply (sweep_ok (good leap) (if leap then 366 else 365)%nat 0); [|destruct leap; simpl; lia].
  destruct leap; vm_compute; reflexivity.
Qed.

Lemma leap01_year : forall y, leap01 y = if leap_year y then 1 else 0.
Proof.
  intros y. unfold leap01, leap_year. euclid y.
  destruct (Z.eqb_spec (y mod 4) 0), (Z.eqb_spec (y mod 100) 0), (Z.eqb_spec (y mod 400) 0); cbn [andb orb negb]; auto; lia.
Qed.

Lemma month_days_len : forall y m, month_days y m = month_len (leap_year y) m.
Proof. reflexivity. Qed.
Lemma month_len_other : forall b b' m, 3 <= m -> month_len b m = month_len b' m.
Proof. intros. unfold month_len. destruct (Z.eqb_spec m 2); [lia|reflexivity]. Qed.

(** one step inside a year, and over its end *)
Lemma day_next : forall y e, 0 <= e < 365 + leap01 (y + 1) ->
  tomorrow (day_of y e) =
  if e + 1 <? 365 + leap01 (y + 1) then day_of y (e + 1) else day_of (y + 1) 0.
Proof.
  intros y e He. rewrite leap01_year in *. set (b := leap_year (y + 1)) in *.
  pose proof (good_all b e He) as G. unfold good in G. rewrite !andb_true_iff in G.
  destruct G as ((((((((((_ & _) & _) & _) & _) & G6) & _) & G8) & G9) & G10) & G).
  apply Z.leb_le in G6, G8, G9. 
  assert (D : day_of y e = ((if 306 <=? e then y + 1 else y), mon_of e, md e)).
  { unfold day_of, mon_of. destruct (306 <=? e); reflexivity. }
  assert (D1 : day_of y (e + 1) = ((if 306 <=? e + 1 then y + 1 else y), mon_of (e + 1), md (e + 1))).
  { unfold day_of, mon_of. destruct (306 <=? e + 1); reflexivity. }
  rewrite D, D1. unfold tomorrow.
  assert (ML : month_days (if 306 <=? e then y + 1 else y) (mon_of e) = month_len b (mon_of e)).
  { rewrite month_days_len. destruct (306 <=? e); [reflexivity|]. apply month_len_other. apply Z.leb_le. exact G10. }
  rewrite ML. destruct (md e <? month_len b (mon_of e)).
  - rewrite !andb_true_iff in G. destruct G as (((E1 & E2) & E3) & E4).
    apply Z.eqb_eq in E1, E2. apply Bool.eqb_prop in E3. rewrite E4, E1, E2, E3. reflexivity.
  - destruct (e + 1 <? 365 + (if b then 1 else 0)).
    + rewrite andb_true_iff in G. destruct G as (E1 & G). apply Z.eqb_eq in E1. rewrite E1.
      destruct (Z.eqb_spec e 305) as [-> | N].
      * rewrite andb_true_iff in G. destruct G as (E2 & E3). apply Z.eqb_eq in E2, E3. rewrite E2, E3. reflexivity.
      * rewrite !andb_true_iff in G. destruct G as ((E2 & E3) & E4). apply Z.eqb_eq in E3.
        apply Bool.eqb_prop in E4. rewrite E2, E3, E4. reflexivity.
    + rewrite andb_true_iff in G. destruct G as (E2 & E3). apply Z.eqb_eq in E2. rewrite E2, E3. reflexivity.
Qed.

Lemma core_next : forall d, core (d + 1) = tomorrow (core d).
Proof.
  intros d. unfold core. destruct (core_split d) as (E & B & _). destruct (core_split (d + 1)) as (E' & B' & _).
  set (y := yr2 d) in *. set (e := yd2 d) in *. set (y' := yr2 (d + 1)) in *. set (e' := yd2 (d + 1)) in *.
  rewrite day_next by exact B.
  assert (L : forall z, 0 <= leap01 z <= 1) by (intros z; unfold leap01; destruct (_ && _); lia).
  destruct (Z.ltb_spec (e + 1) (365 + leap01 (y + 1))) as [H | H].
  - destruct (split_unique y (e + 1) y' e') as [-> ->]; auto; lia.
  - pose proof (start_step (y + 1)) as S1. replace (y + 1 - 1) with y in S1 by lia.
    pose proof (L (y + 1 + 1)).
    destruct (split_unique (y + 1) 0 y' e') as [-> ->]; auto; lia.
Qed.

Lemma core_date : forall n, core (Z.of_nat n + 719468) = date_after n.
Proof.
  unfold date_after. induction n as [|n IH]; [vm_compute; reflexivity|].
  unfold Nat.iter in *. cbn [nat_rect]. rewrite <- IH, <- core_next. f_equal. lia.
Qed.

Lemma core_good : forall d, good (leap_year (yr2 d + 1)) (yd2 d) = true.
Proof. intros d. destruct (core_split d) as (_ & B & _). rewrite leap01_year in B. apply good_all. exact B. Qed.

Lemma core_valid : forall d, valid_date (core d).
Proof.
  intros d. pose proof (core_good d) as G. unfold core. set (y := yr2 d) in *. set (e := yd2 d) in *.
  unfold good in G. rewrite !andb_true_iff in G.
  destruct G as ((((((((((_ & _) & _) & _) & G5) & G6) & _) & G8) & G9) & G10) & _).
  apply Z.leb_le in G5, G6, G8, G9. unfold day_of, valid_date, mon_of in *.
  destruct (306 <=? e); rewrite month_days_len; [lia|].
  apply Z.leb_le in G10. rewrite (month_len_other _ (leap_year (y + 1))) by lia. lia.
Qed.

(** *** the code *)

Lemma W64_small : forall x, 0 <= x < 2 ^ 64 -> W64 x = x.
Proof. intros. unfold W64. apply Z.mod_small. auto. Qed.
Lemma W64_addl : forall x y, W64 (W64 x + y) = W64 (x + y).
Proof. intros. unfold W64. apply Z.add_mod_idemp_l. lia. Qed.
Lemma W64_subl : forall x y, W64 (W64 x - y) = W64 (x - y).
Proof. intros. unfold W64. apply Zminus_mod_idemp_l. Qed.
Lemma W64_subr : forall x y, W64 (x - W64 y) = W64 (x - y).
Proof. intros. unfold W64. apply Zminus_mod_idemp_r. Qed.
Lemma INT_small : forall x, - 2 ^ 31 <= x < 2 ^ 31 -> INT x = x.
Proof. intros. unfold INT. rewrite Z.mod_small; lia. Qed.
Lemma INT_W64 : forall x, - 2 ^ 31 <= x < 2 ^ 31 -> INT (W64 x) = x.
Proof.
  intros x H. unfold INT, W64. destruct (Z_lt_le_dec x 0).
  - replace (x mod 2 ^ 64) with (x + 2 ^ 64) by (apply Z.mod_unique_pos with (-1); lia).
    replace ((x + 2 ^ 64 + 2 ^ 31) mod 2 ^ 32) with (x + 2 ^ 31); [lia|].
    apply Z.mod_unique_pos with (2 ^ 32); lia.
  - rewrite (Z.mod_small x) by lia. rewrite Z.mod_small; lia.
Qed.

Lemma gmtime_ok : forall t, 0 <= t < 2 ^ 63 ->
  let '(y, m, d) := core (t / 86400 + 719468) in
  gmtime t = mkTm (t mod 60) (t / 60 mod 60) (t / 3600 mod 24) d m (INT y) ((4 + t / 86400) mod 7).
Proof.
  intros t Ht. unfold gmtime. rewrite (W64_small t) by lia. cbv zeta.
  set (D := t / 86400). 
  assert (HD : 0 <= D < 2 ^ 47).
  { unfold D. split; [apply Z.div_pos; lia | apply Z.div_lt_upper_bound; lia]. }
  assert (E1 : W64 (W64 (D - (31 + 28)) + 719527) = D + 719468).
  { unfold W64. rewrite Z.add_mod_idemp_l by lia. rewrite Z.mod_small; lia. }
  rewrite E1. set (X := D + 719468) in *.
  assert (HX : 0 <= X < 2 ^ 48) by (unfold X; lia).
  rewrite (W64_small (X + 2)) by lia. rewrite (W64_small ((X + 2) * 400)) by lia.
  change ((X + 2) * 400 / (365 * 400 + 100 - 4 + 1)) with (yr X).
  assert (Hyr : 0 <= yr X < 2 ^ 52).
  { unfold yr. split; [apply Z.div_pos; lia | apply Z.div_lt_upper_bound; lia]. }
  destruct (core_split X) as (EX & B & Y4).
  assert (HL : forall z, 0 <= leap01 z <= 1) by (intros z; unfold leap01; destruct (_ && _); lia).
  pose proof (HL (yr2 X + 1)) as HL1.
  assert (Eyd : INT (W64 (X - W64 (W64 (W64 (W64 (365 * yr X) + yr X / 4) - yr X / 100) + yr X / 400))) = yd X).
  { replace (W64 (X - _)) with (W64 (yd X)).
    - apply INT_W64. lia.
    - unfold yd, start. rewrite (W64_addl (365 * yr X) (yr X / 4)), (W64_subl (365 * yr X + yr X / 4)),
        (W64_addl (365 * yr X + yr X / 4 - yr X / 100)), W64_subr. reflexivity. }
  rewrite Eyd.
  assert (Hyr2 : 0 <= yr2 X < 2 ^ 53).
  { pose proof (start_bounds (yr2 X)). lia. }
  fold (leap01 (yr X)).
  assert (E2 : (if yd X <? 0
     then (INT (W64 (365 + leap01 (yr X) + yd X)), W64 (yr X - 1))
     else (yd X, yr X)) = (yd2 X, yr2 X)).
  { unfold yd2, yr2 in *. destruct (yd X <? 0) eqn:E; [|reflexivity]. f_equal.
    - apply INT_W64. lia.
    - apply W64_small. lia. }
  rewrite E2. clear E2.
  pose proof (core_good X) as G. unfold good in G. rewrite !andb_true_iff in G.
  destruct G as ((((((((((G1 & G2) & G3) & G4) & G5) & G6) & G7) & G8) & G9) & G10) & _).
  apply Z.leb_le in G1, G2, G3, G4, G5, G7, G8, G9.
  unfold core. set (y := yr2 X) in *. set (e := yd2 X) in *.
  assert (Emo : W64 (Z.quot ((e + 31) * 10) 306) = mo e).
  { unfold mo. rewrite Z.quot_div_nonneg by lia. apply W64_small. fold (mo e). lia. }
  rewrite Emo.
  assert (Emd : W64 (W64 (e - W64 (W64 (367 * mo e) / 12 - 30)) + 1) = md e).
  { unfold md. rewrite (W64_small (367 * mo e)) by lia.
    rewrite (W64_small (367 * mo e / 12 - 30)) by lia.
    rewrite (W64_small (e - _)) by lia. apply W64_small. lia. }
  rewrite Emd.
  assert (Hh : t mod 86400 / 3600 = t / 3600 mod 24).
  { replace 86400 with (3600 * 24) by reflexivity. rewrite Z.rem_mul_r by lia.
    rewrite Z.mul_comm, Z.div_add by lia. rewrite (Z.div_small (t mod 3600)) by (apply Z.mod_pos_bound; lia). lia. }
  assert (Hm : (t mod 86400) mod 3600 / 60 = t / 60 mod 60).
  { rewrite <- Znumtheory.Zmod_div_mod by (try lia; exists 24; reflexivity).
    replace 3600 with (60 * 60) by reflexivity. rewrite Z.rem_mul_r by lia.
    rewrite Z.mul_comm, Z.div_add by lia. rewrite (Z.div_small (t mod 60)) by (apply Z.mod_pos_bound; lia). lia. }
  assert (Hs : ((t mod 86400) mod 3600) mod 60 = t mod 60).
  { rewrite <- Znumtheory.Zmod_div_mod by (try lia; exists 60; reflexivity).
    rewrite <- Znumtheory.Zmod_div_mod by (try lia; exists 1440; reflexivity). reflexivity. }
  rewrite Hh, Hm, Hs.
  pose proof (Z.mod_pos_bound t 60 ltac:(lia)).
  pose proof (Z.mod_pos_bound (t / 60) 60 ltac:(lia)).
  pose proof (Z.mod_pos_bound (t / 3600) 24 ltac:(lia)).
  rewrite (W64_small (4 + D)) by lia.
  pose proof (Z.mod_pos_bound (4 + D) 7 ltac:(lia)).
  rewrite (INT_small (t mod 60)), (INT_small (t / 60 mod 60)), (INT_small (t / 3600 mod 24)),
    (INT_small ((4 + D) mod 7)) by lia.
  unfold day_of, mon_of in *. destruct (306 <=? e).
  - rewrite andb_true_iff in G10. destruct G10 as [G10 _]. apply Z.leb_le in G10.
    rewrite (INT_small (md e)) by lia. rewrite (W64_small (mo e - 10)) by lia.
    rewrite (INT_small (mo e - 10)) by lia. rewrite (W64_small (y + 1)) by lia. reflexivity.
  - rewrite (INT_small (md e)) by lia. rewrite (W64_small (mo e + 2)) by lia.
    rewrite (INT_small (mo e + 2)) by lia. reflexivity.
Qed.

Lemma weekday_ok : forall n, weekday_after n = (4 + Z.of_nat n) mod 7.
Proof.
  unfold weekday_after. induction n as [|n IH]; [reflexivity|].
  unfold Nat.iter in *. cbn [nat_rect]. rewrite IH.
  pose proof (Z.mod_pos_bound (4 + Z.of_nat n) 7 ltac:(lia)).
  pose proof (Z.div_mod (4 + Z.of_nat n) 7 ltac:(lia)) as E.
  destruct (Z.eqb_spec ((4 + Z.of_nat n) mod 7) 6) as [E6 | N6].
  - apply Z.mod_unique_pos with ((4 + Z.of_nat n) / 7 + 1); lia.
  - apply Z.mod_unique_pos with ((4 + Z.of_nat n) / 7); lia.
Qed.

(** *** log_array *)

Lemma log_loop_ok : forall fuel i j, 0 < i -> (Z.to_nat (Z.log2 i) + 1 < fuel)%nat ->
  -1 <= j -> j + Z.log2 i + 1 < 2 ^ 64 ->
  log_loop fuel i (W64 j) = Ok (j + Z.log2 i + 1).
Proof.
  induction fuel as [|fuel IH]; intros i j Hi Hf Hj Hb; [lia|].
  cbn [log_loop]. destruct (Z.eqb_spec i 0); [lia|].
  pose proof (Z.log2_nonneg i).
  assert (E : W64 (W64 j + 1) = W64 (j + 1)) by (unfold W64; rewrite Z.add_mod_idemp_l by lia; reflexivity).
  rewrite E.
  destruct (Z.eq_dec i 1) as [-> | N].
  - destruct fuel; [simpl in Hf; lia|]. cbn. rewrite W64_small by (cbn in Hb; lia). f_equal. lia.
  - assert (H2 : Z.log2 (Z.shiftr i 1) = Z.log2 i - 1).
    { rewrite Z.log2_shiftr by lia. pose proof (Z.log2_le_mono 2 i ltac:(lia)). change (Z.log2 2) with 1 in *. lia. }
    assert (Hp : 0 < Z.shiftr i 1).
    { rewrite Z.shiftr_div_pow2 by lia. apply Z.div_str_pos. lia. }
    rewrite IH; auto; try lia; rewrite ?H2.
    + f_equal. lia.
    + pose proof (Z.log2_le_mono 2 i ltac:(lia)). change (Z.log2 2) with 1 in *. lia.
Qed.

Lemma bucket_ok : forall n i, 0 < i < 2 ^ 64 -> 0 < n < 2 ^ 32 ->
  bucket n i = Ok (Z.min (Z.log2 i) (n - 1)).
Proof.
  intros n i Hi Hn. unfold bucket.
  assert (Hl : 0 <= Z.log2 i < 64).
  { split; [apply Z.log2_nonneg|]. apply Z.log2_lt_pow2; lia. }
  rewrite log_loop_ok by lia. cbn [bind].
  replace (-1 + Z.log2 i + 1) with (Z.log2 i) by lia.
  destruct (Z.ltb_spec (Z.log2 i) n); [rewrite Z.min_l by lia; reflexivity|].
  rewrite W64_small by lia. rewrite Z.min_r by lia. reflexivity.
Qed.

Lemma bucket_0 : forall n, 0 < n < 2 ^ 32 -> bucket n 0 = Ok (n - 1).
Proof.
  intros n Hn. unfold bucket. cbn [log_loop Z.eqb bind].
  destruct (Z.ltb_spec (W64 (-1)) n) as [K | K].
  - change (W64 (-1)) with 18446744073709551615 in K. lia.
  - rewrite W64_small by lia. reflexivity.
Qed.

Lemma swap_loop_ok : forall T n i (a b : list T), length a = length b -> length a = (i + n)%nat ->
  swap_loop n i a b = Ok (firstn i a ++ skipn i b, firstn i b ++ skipn i a).
Proof.
  intros T. induction n as [|n IH]; intros i a b Hl Hi; cbn [swap_loop].
  - rewrite !skipn_all2, !app_nil_r, !firstn_all2 by lia. reflexivity.
  - assert (Ha : exists x, nth_error a i = Some x).
    { destruct (nth_error a i) eqn:E; eauto. apply nth_error_None in E. lia. }
    assert (Hb : exists y, nth_error b i = Some y).
    { destruct (nth_error b i) eqn:E; eauto. apply nth_error_None in E. lia. }
    destruct Ha as [x Hx], Hb as [y Hy]. unfold rd. rewrite Hx, Hy. cbn [bind].
    rewrite !wr_ok by lia. cbn [bind].
    rewrite IH by (rewrite ?upd_length; lia).
    apply nth_error_split in Hx. destruct Hx as (a1 & a2 & -> & La).
    apply nth_error_split in Hy. destruct Hy as (b1 & b2 & -> & Lb).
    assert (F : forall (l1 : list T) z l2, length l1 = i -> firstn (S i) (l1 ++ z :: l2) = l1 ++ [z]).
    { intros l1 z l2 <-. replace (S (length l1)) with (length (l1 ++ [z])) by (rewrite app_length; simpl; lia).
      change (l1 ++ z :: l2) with (l1 ++ [z] ++ l2). rewrite app_assoc, firstn_app, Nat.sub_diag, firstn_all.
      apply app_nil_r. }
    assert (K : forall (l1 : list T) z l2, length l1 = i -> skipn (S i) (l1 ++ z :: l2) = l2).
    { intros l1 z l2 <-. replace (S (length l1)) with (length (l1 ++ [z])) by (rewrite app_length; simpl; lia).
      change (l1 ++ z :: l2) with (l1 ++ [z] ++ l2). rewrite app_assoc, skipn_app, Nat.sub_diag, skipn_all.
      reflexivity. }
    assert (F0 : forall (l1 : list T) l2, length l1 = i -> firstn i (l1 ++ l2) = l1).
    { intros l1 l2 <-. rewrite firstn_app, Nat.sub_diag, firstn_all. apply app_nil_r. }
    assert (K0 : forall (l1 : list T) l2, length l1 = i -> skipn i (l1 ++ l2) = l2).
    { intros l1 l2 <-. rewrite skipn_app, Nat.sub_diag, skipn_all. reflexivity. }
    assert (U : forall (l1 : list T) z w l2, length l1 = i -> upd (l1 ++ z :: l2) i w = l1 ++ w :: l2).
    { intros l1 z w l2 <-. apply upd_app. }
    rewrite !U, !F, !K, !F0, !K0 by lia. rewrite <- !app_assoc. reflexivity.
Qed.
