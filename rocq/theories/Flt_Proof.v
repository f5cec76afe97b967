(** Proofs about floating-point members. *)

From Coq Require Import ZArith List Bool Lia.
From Verif Require Import Base Flt_Model Flt_Spec.
Import ListNotations.
Local Open Scope Z_scope.

Lemma pow_pos : forall k, 0 <= k -> 0 < 2 ^ k.
Proof. intros. apply Z.pow_pos_nonneg; lia. Qed.

Lemma pow_split : forall a b, 0 <= a -> 0 <= b -> 2 ^ (a + b) = 2 ^ a * 2 ^ b.
Proof. intros. apply Z.pow_add_r; assumption. Qed.

Lemma pow_mono : forall a b, 0 <= a <= b -> 2 ^ a <= 2 ^ b.
Proof. intros a b [Ha Hb]. apply Z.pow_le_mono_r; lia. Qed.

(** the steps of [round_ratio]: the significand before and after rounding *)
Lemma round_facts : forall p a d, 2 <= p -> 0 <= a -> 0 < d ->
  let k := Z.max 0 (Z.log2 (a / d) - (p - 1)) in
  let q := a / (d * 2 ^ k) in
  0 <= k /\ 0 <= q < 2 ^ p /\ (k = 0 \/ 2 ^ (p - 1) <= q) /\ 
  a = q * (d * 2 ^ k) + a mod (d * 2 ^ k) /\ 0 <= a mod (d * 2 ^ k) < d * 2 ^ k.
Proof.
  intros p a d Hp Ha Hd k q.
  assert (Hk : 0 <= k) by (unfold k; lia). pose proof (pow_pos k Hk) as P2k.
  assert (HD : 0 < d * 2 ^ k) by (apply Z.mul_pos_pos; lia).
  split; [exact Hk|].
  assert (Hz : 0 <= a / d) by (apply Z.div_pos; lia).
  assert (Hq : q = a / d / 2 ^ k) by (unfold q; rewrite Z.div_div by lia; reflexivity).
  split; [split|].
  - rewrite Hq. apply Z.div_pos; lia.
  - rewrite Hq. apply Z.div_lt_upper_bound; [lia|].
    rewrite Z.mul_comm, <- pow_split by lia.
    destruct (Z.eq_dec (a / d) 0) as [E|N]; [rewrite E; apply pow_pos; lia|].
    destruct (Z.log2_spec (a / d)) as [_ L]; [lia|].
    apply Z.lt_le_trans with (1 := L). apply pow_mono. pose proof (Z.log2_nonneg (a / d)). unfold k. lia.
  - split.
    + destruct (Z.eq_dec k 0) as [E|N]; [left; exact E|right].
      rewrite Hq. apply Z.div_le_lower_bound; [lia|].
      assert (Ek : Z.log2 (a / d) = k + (p - 1)) by (unfold k in *; lia).
      rewrite <- pow_split by lia. rewrite <- Ek.
      assert (0 < a / d).
      { destruct (Z.eq_dec (a / d) 0) as [E0|]; [|lia]. rewrite E0 in Ek. cbn in Ek. lia. }
      apply (Z.log2_spec (a / d)). assumption.
    + split; [|apply Z.mod_pos_bound; exact HD].
      unfold q. rewrite (Z.mul_comm (a / _)). apply Z.div_mod. lia.
Qed.

(** distances from the quotient *)
Lemma nearest_multiple : forall a D q r m j, 0 < D -> a = q * D + r -> 0 <= r < D ->
  m = (if (D <? 2 * r) || ((2 * r =? D) && Z.odd q) then q + 1 else q) ->
  (Z.abs (a - m * D) <= Z.abs (a - j * D)) /\
  (Z.abs (a - m * D) = Z.abs (a - j * D) -> m = j \/ Z.even m = true) /\
  (Z.abs (a - m * D) <= r).
Proof.
  intros a D q r m j HD -> Hr Hm.
  assert (Em : (m = q + 1 /\ (D < 2 * r \/ (2 * r = D /\ Z.odd q = true))) \/ (m = q /\ (2 * r < D \/ (2 * r = D /\ Z.odd q = false)))).
  { destruct (Z.ltb_spec D (2 * r)); cbn [orb] in Hm; [left; auto|].
    destruct (Z.eqb_spec (2 * r) D); cbn [andb] in Hm; [|right; split; [exact Hm|left; lia]].
    destruct (Z.odd q) eqn:O; auto. }
  clear Hm.
  assert (Hj : (j <= q - 1 /\ j * D <= (q - 1) * D) \/ j = q \/ j = q + 1 \/ (q + 2 <= j /\ (q + 2) * D <= j * D)).
  { destruct (Z.lt_trichotomy j q) as [L|[L|L]]; [left|auto|].
    - split; [lia|]. apply Z.mul_le_mono_nonneg_r; lia.
    - destruct (Z.eq_dec j (q + 1)); [auto|]. right. right. right. split; [lia|]. apply Z.mul_le_mono_nonneg_r; lia. }
  assert (Ev : forall x, Z.odd x = true -> Z.even (x + 1) = true).
  { intros x Hx. rewrite Z.even_add. rewrite <- Z.negb_odd, Hx. reflexivity. }
  destruct Em as [[-> C]|[-> C]]; (split; [|split]); destruct Hj as [[L1 L2]|[->|[->|[L1 L2]]]]; try lia;
    intros; destruct C as [C|[C O]]; try lia; try (right; auto; fail); try (left; lia).
  all: right; try (apply Ev; exact O); rewrite <- Z.negb_odd, O; reflexivity.
Qed.

Lemma round_nearest : forall f neg n d, good_fmt f -> 0 <= n -> 0 < d ->
  nearest f neg n d (round_ratio f neg n d).
Proof.
  intros f neg n d [Hp [Hs Ht]] Hn Hd. unfold round_ratio.
  set (a := n * 2 ^ scale f). assert (Ha : 0 <= a) by (apply Z.mul_nonneg_nonneg; [lia|]; pose proof (pow_pos (scale f) Hs); lia).
  pose proof (round_facts (prec f) a d Hp Ha Hd) as F. cbn zeta in F |- *.
  set (k := Z.max 0 (Z.log2 (a / d) - (prec f - 1))) in *. set (D := d * 2 ^ k) in *. set (q := a / D) in *. set (r := a mod D) in *.
  destruct F as [Hk [Hq [Hkq [Ea Hr]]]]. clearbody q r.
  set (m := if (D <? 2 * r) || ((2 * r =? D) && Z.odd q) then q + 1 else q).
  pose proof (pow_pos k Hk) as P2k. assert (HD : 0 < D) by (unfold D; apply Z.mul_pos_pos; lia).
  pose proof (pow_pos (prec f) ltac:(lia)) as Pp. pose proof (pow_pos (prec f - 1) ltac:(lia)) as Pp1.
  assert (Epp : 2 ^ prec f = 2 * 2 ^ (prec f - 1)).
  { replace (prec f) with (1 + (prec f - 1)) at 1 by lia. rewrite pow_split by lia. reflexivity. }
  assert (Hmq : m = q \/ m = q + 1) by (unfold m; destruct (_ || _); auto).
  (* nearer than every value *)
  assert (Near : forall m' k', value_of f m' k' ->
     Z.abs (a - m * D) <= Z.abs (a - m' * 2 ^ k' * d) /\
     (Z.abs (a - m * D) = Z.abs (a - m' * 2 ^ k' * d) -> m * 2 ^ k = m' * 2 ^ k' \/ Z.even m = true)).
  { intros m' k' [Hm' [Hk' _]]. destruct (Z.le_gt_cases k k') as [L|L].
    - set (j := m' * 2 ^ (k' - k)).
      assert (Ej : m' * 2 ^ k' = j * 2 ^ k).
      { unfold j. rewrite <- Z.mul_assoc, <- pow_split by lia. do 2 f_equal. lia. }
      rewrite Ej. destruct (nearest_multiple a D q r m j HD Ea Hr eq_refl) as [A [B _]].
      replace (j * 2 ^ k * d) with (j * D) by (unfold D; ring). split; [exact A|].
      intros E. destruct (B E) as [->|E']; auto.
    - destruct (nearest_multiple a D q r m q HD Ea Hr eq_refl) as [A [B C]].
      assert (Hv : m' * 2 ^ k' <= q * 2 ^ k - 1).
      { destruct Hkq as [F|Hkq]; [lia|].
        assert (m' * 2 ^ k' < 2 ^ prec f * 2 ^ k') by (apply Z.mul_lt_mono_pos_r; [apply pow_pos; lia|lia]).
        assert (2 ^ prec f * 2 ^ k' <= 2 ^ (prec f - 1) * 2 ^ k).
        { rewrite <- !pow_split by lia. apply pow_mono. lia. }
        assert (2 ^ (prec f - 1) * 2 ^ k <= q * 2 ^ k) by (apply Z.mul_le_mono_nonneg_r; lia). lia. }
      assert (Hv2 : m' * 2 ^ k' * d <= (q * 2 ^ k - 1) * d) by (apply Z.mul_le_mono_nonneg_r; lia).
      assert (Ed : (q * 2 ^ k - 1) * d = q * D - d) by (unfold D; ring).
      split; [lia|]. intros E. lia. }
  assert (Big : m = 2 ^ prec f -> q = 2 ^ prec f - 1 /\ D <= 2 * r).
  { intros E. destruct Hmq as [F|F]; [lia|]. split; [lia|]. unfold m in F.
    destruct (Z.ltb_spec D (2 * r)); [lia|]. cbn [orb] in F.
    destruct (Z.eqb_spec (2 * r) D); [lia|]. cbn [andb] in F. lia. }
  assert (Not : m <> 2 ^ prec f -> q = 2 ^ prec f - 1 -> 2 * r < D).
  { intros N E. destruct Hmq as [F|F]; [|lia]. unfold m in F.
    destruct (Z.ltb_spec D (2 * r)); cbn [orb] in F; [lia|].
    destruct (Z.eqb_spec (2 * r) D); [|lia]. cbn [andb] in F.
    assert (O : Z.odd q = true).
    { rewrite E, Epp. replace (2 * 2 ^ (prec f - 1) - 1) with (1 + 2 * (2 ^ (prec f - 1) - 1)) by ring.
      rewrite Z.odd_add_mul_2. reflexivity. }
    rewrite O in F. lia. }
  assert (Tk : k <= top f -> D * 2 ^ (top f - k) = 2 ^ top f * d).
  { intros L. unfold D. rewrite <- Z.mul_assoc, <- pow_split by lia. rewrite Z.mul_comm. do 2 f_equal. lia. }
  (* below the limit when k < top, above it when k > top *)
  assert (Lo : k < top f -> 2 * a < (2 * 2 ^ prec f - 1) * 2 ^ top f * d).
  { intros L. pose proof (Tk ltac:(lia)) as T.
    assert (T2 : 2 * D <= 2 ^ top f * d).
    { rewrite <- T. assert (2 <= 2 ^ (top f - k)). { change 2 with (2 ^ 1) at 1. apply pow_mono. lia. }
      rewrite (Z.mul_comm D). apply Z.mul_le_mono_nonneg_r; lia. }
    assert (a < 2 ^ prec f * D).
    { rewrite Ea. assert (q * D <= (2 ^ prec f - 1) * D) by (apply Z.mul_le_mono_nonneg_r; lia). lia. }
    assert (2 ^ prec f * (2 * D) <= 2 ^ prec f * (2 ^ top f * d)) by (apply Z.mul_le_mono_nonneg_l; lia).
    assert (0 < 2 ^ top f * d) by lia.
    assert (2 ^ prec f * (2 ^ top f * d) <= (2 * 2 ^ prec f - 1) * (2 ^ top f * d)) by (apply Z.mul_le_mono_nonneg_r; lia).
    rewrite <- (Z.mul_assoc (2 * 2 ^ prec f - 1)). lia. }
  assert (Hi : top f < k -> (2 * 2 ^ prec f - 1) * 2 ^ top f * d <= 2 * a).
  { intros L. destruct Hkq as [F|Hkq]; [lia|].
    assert (q * D <= a) by lia. assert (2 ^ (prec f - 1) * D <= q * D) by (apply Z.mul_le_mono_nonneg_r; lia).
    assert (2 * (2 ^ top f * d) <= D).
    { unfold D. rewrite Z.mul_assoc, (Z.mul_comm d). apply Z.mul_le_mono_nonneg_r; [lia|].
      change 2 with (2 ^ 1) at 1. rewrite <- pow_split by lia. apply pow_mono. lia. }
    assert (2 ^ (prec f - 1) * (2 * (2 ^ top f * d)) <= 2 ^ (prec f - 1) * D) by (apply Z.mul_le_mono_nonneg_l; lia).
    pose proof (pow_pos (top f) Ht). assert (0 < 2 ^ top f * d) by (apply Z.mul_pos_pos; lia).
    rewrite <- (Z.mul_assoc (2 * 2 ^ prec f - 1)). rewrite Epp. lia. }
  assert (Mid : k = top f -> (2 * 2 ^ prec f - 1) * 2 ^ top f * d = (2 * 2 ^ prec f - 1) * D).
  { intros <-. unfold D. ring. }
  unfold nearest. rewrite <- (Z.mul_assoc 2 n). fold a.
  destruct (Z.eqb_spec m (2 ^ prec f)) as [E|N].
  - destruct (Big E) as [Eq Er].
    destruct (Z.ltb_spec (top f) (k + 1)) as [L|L].
    + split; [reflexivity|]. destruct (Z.eq_dec k (top f)) as [K|K]; [|apply Hi; lia].
      rewrite (Mid K). rewrite Ea, Eq. lia.
    + split; [reflexivity|]. split; [unfold value_of; lia|]. split; [apply Lo; lia|].
      intros m' k' V. destruct (Near m' k' V) as [A B]. unfold distance. fold a.
      replace (2 ^ (prec f - 1) * 2 ^ (k + 1) * d) with (m * D).
      2:{ rewrite E, Epp. unfold D. rewrite (pow_split k 1) by lia. change (2 ^ 1) with 2. ring. }
      split; [exact A|]. intros _. right.
      replace (prec f - 1) with (1 + (prec f - 2)) by lia. rewrite pow_split by lia.
      rewrite Z.even_mul. reflexivity.
  - destruct (Z.ltb_spec (top f) k) as [L|L].
    + split; [reflexivity|]. apply Hi. lia.
    + assert (V0 : value_of f m k) by (unfold value_of; lia).
      split; [reflexivity|]. split; [exact V0|]. split.
      { destruct (Z.eq_dec k (top f)) as [K|K]; [|apply Lo; lia]. rewrite (Mid K). rewrite Ea.
        destruct (Z.eq_dec q (2 ^ prec f - 1)) as [Q|Q].
        - pose proof (Not N Q). rewrite Q. lia.
        - assert (q * D <= (2 ^ prec f - 2) * D) by (apply Z.mul_le_mono_nonneg_r; lia). lia. }
      intros m' k' V. destruct (Near m' k' V) as [A B]. unfold distance. fold a.
      replace (m * 2 ^ k * d) with (m * D) by (unfold D; ring). split; [exact A|].
      intros E. destruct (B E) as [Ev|Ev]; [left|right; exact Ev].
      (* one pair for each value *)
      destruct V0 as [A1 [A2 A3]]. destruct V as [B1 [B2 B3]].
      assert (W : forall x i y j, 0 <= x < 2 ^ prec f -> 0 <= y -> 0 <= i < j -> 2 ^ (prec f - 1) <= y -> x * 2 ^ i <> y * 2 ^ j).
      { intros x i y j X Y [I J] Y1 EE.
        replace j with (i + (j - i)) in EE by lia. rewrite pow_split in EE by lia.
        pose proof (pow_pos i I) as Pi.
        assert (EX : x = y * 2 ^ (j - i)) by (apply (Z.mul_reg_r _ _ (2 ^ i)); [lia|]; rewrite EE; ring).
        assert (T2 : 2 <= 2 ^ (j - i)) by (change 2 with (2 ^ 1) at 1; apply pow_mono; lia).
        assert (y * 2 <= y * 2 ^ (j - i)) by (apply Z.mul_le_mono_nonneg_l; lia). lia. }
      destruct (Z.lt_trichotomy k k') as [L'|[L'|L']].
      * destruct (W m k m' k'); lia.
      * subst k'. f_equal. apply (Z.mul_reg_r _ _ (2 ^ k)); [lia|exact Ev].
      * symmetry in Ev. destruct (W m' k' m k); lia.
Qed.

Lemma nearest_in_fmt : forall f neg n d x, nearest f neg n d x -> in_fmt f x.
Proof. intros f neg n d [|s|s m k] H; cbn in *; tauto. Qed.

Lemma round_pow_ratio : forall f neg v b e, round_pow f neg v b e = round_ratio f neg (numerator v b e) (denominator b e).
Proof. intros. unfold round_pow, numerator, denominator. destruct (0 <=? e); reflexivity. Qed.

Lemma fraction_ok : forall v b e, 0 <= v -> 0 < b -> 0 <= numerator v b e /\ 0 < denominator b e.
Proof.
  intros v b e Hv Hb. unfold numerator, denominator. destruct (Z.leb_spec 0 e).
  - split; [|lia]. apply Z.mul_nonneg_nonneg; [exact Hv|]. apply Z.pow_nonneg. lia.
  - split; [exact Hv|]. apply Z.pow_pos_nonneg; lia.
Qed.

(** ** Digits *)

Lemma digit_value_of : forall hex c v, digit_of hex c v -> digit_value hex c = Some v /\ 0 <= v.
Proof.
  intros hex c v H. unfold digit_value. destruct H as [[H ->]|[-> [[H ->]|[H ->]]]]; cbn [andb];
    repeat match goal with |- context [?a <=? ?b] => destruct (Z.leb_spec a b); cbn [andb] end; split; try reflexivity; lia.
Qed.

Lemma digits_run : forall hex s vs acc n rest, written hex s vs ->
  (match rest with c :: _ => digit_value hex c = None | [] => True end) ->
  digits hex acc n (s ++ rest) = (fold_left (fun n v => n * (if hex then 16 else 10) + v) vs acc, (n + length vs)%nat, rest).
Proof.
  intros hex s vs acc n rest H Hr. revert acc n. induction H as [|c v s vs Hc H IH]; intros acc n.
  - cbn [app fold_left length]. rewrite Nat.add_0_r. destruct rest as [|c rest]; [reflexivity|]. cbn [digits]. rewrite Hr. reflexivity.
  - cbn [app digits]. destruct (digit_value_of _ _ _ Hc) as [-> _]. rewrite IH. cbn [fold_left length].
    rewrite Nat.add_succ_comm. reflexivity.
Qed.

Lemma written_nonneg : forall hex s vs b acc, written hex s vs -> 0 <= b -> 0 <= acc ->
  0 <= fold_left (fun n v => n * b + v) vs acc.
Proof.
  intros hex s vs b acc H Hb. revert acc. induction H as [|c v s vs Hc H IH]; intros acc Ha; [exact Ha|].
  cbn [fold_left]. apply IH. destruct (digit_value_of _ _ _ Hc). apply Z.add_nonneg_nonneg; [|lia].
  apply Z.mul_nonneg_nonneg; lia.
Qed.

Definition stop (hex : bool) (dp : Z) (rest : list Z) : Prop :=
  match rest with c :: _ => digit_value hex c = None /\ c <> dp | [] => True end.

Lemma point_no_digit : forall hex dp, good_point dp -> digit_value hex dp = None.
Proof.
  intros hex dp [_ [_ [_ [A [B C]]]]]. unfold digit_value.
  repeat match goal with |- context [?a <=? ?b] => destruct (Z.leb_spec a b); cbn [andb]; rewrite ?andb_false_r; cbn [andb] end;
    destruct hex; cbn [andb]; try reflexivity; lia.
Qed.

Lemma mantissa_run : forall hex dp s v k rest, good_point dp -> mantissa_text hex dp s v k -> stop hex dp rest ->
  exists n kn, mantissa hex dp (s ++ rest) = (v, S n, kn, rest) /\ k = Z.of_nat kn /\ 0 <= v.
Proof.
  intros hex dp s v k rest Hdp H Hs. unfold mantissa. destruct H as [s vs Hw Hne|s vs s' vs' Hw Hw' Hne].
  - rewrite (digits_run hex s vs 0 0 rest Hw) by (destruct rest; [exact I|destruct Hs; assumption]).
    cbn zeta beta. destruct vs as [|x vs]; [congruence|]. exists (length vs), 0%nat.
    split; [|split; [reflexivity|apply (written_nonneg hex s); [exact Hw|destruct hex; lia|lia]]].
    destruct rest as [|c rest]; [reflexivity|]. destruct Hs as [_ Hc]. destruct (Z.eqb_spec c dp); [contradiction|]. reflexivity.
  - rewrite <- app_assoc. cbn [app].
    rewrite (digits_run hex s vs 0 0 (dp :: s' ++ rest) Hw) by (apply point_no_digit; exact Hdp).
    rewrite Z.eqb_refl.
    rewrite (digits_run hex s' vs' _ 0 rest Hw') by (destruct rest; [exact I|destruct Hs; assumption]).
    exists (length vs + length vs' - 1)%nat, (length vs'). unfold positional. rewrite fold_left_app.
    split; [|split; [reflexivity|]].
    + repeat (apply f_equal2 || apply f_equal); try reflexivity.
      destruct vs; [|cbn [length]; lia]. destruct vs'; [destruct Hne; reflexivity|]. cbn [length]. lia.
    + apply (written_nonneg hex s'); [exact Hw'|destruct hex; lia|]. apply (written_nonneg hex s); [exact Hw|destruct hex; lia|lia].
Qed.

Lemma digit_not_sign : forall c v, digit_of false c v -> c <> 43 /\ c <> 45.
Proof. intros c v [[H _]|[F _]]; [lia|discriminate]. Qed.

Lemma sign_run : forall sg neg rest, sign_text sg neg -> (match rest with c :: _ => c <> 43 /\ c <> 45 | [] => True end) ->
  sign (sg ++ rest) = (neg, rest).
Proof.
  intros sg neg rest H Hr. destruct H; try reflexivity. cbn [app]. unfold sign. destruct rest as [|c rest]; [reflexivity|].
  destruct Hr. destruct (Z.eqb_spec c 45); [lia|]. destruct (Z.eqb_spec c 43); [lia|]. reflexivity.
Qed.

Definition no_letter (rest : list Z) : Prop :=
  match rest with c :: _ => ~ (48 <= c <= 57) /\ ~ (65 <= c <= 90) /\ ~ (97 <= c <= 122) | [] => True end.
Lemma no_letter_digit : forall hex rest, no_letter rest -> match rest with c :: _ => digit_value hex c = None | [] => True end.
Proof.
  intros hex [|c rest] H; [exact I|]. destruct H as [A [B C]]. unfold digit_value.
  repeat match goal with |- context [?a <=? ?b] => destruct (Z.leb_spec a b); cbn [andb]; rewrite ?andb_false_r; cbn [andb] end;
    destruct hex; cbn [andb]; try reflexivity; lia.
Qed.

Lemma exponent_run : forall x s e rest, 97 <= x <= 122 -> exponent_text x s e -> no_letter rest -> exponent x (s ++ rest) = e.
Proof.
  intros x s e rest Hx H Hr. destruct H as [|c sg neg s vs Hc Hsg Hw Hne].
  - cbn [app]. destruct rest as [|c rest]; [reflexivity|]. cbn [exponent]. destruct Hr as [A [B C]].
    destruct (Z.eqb_spec c x); [lia|]. destruct (Z.eqb_spec c (x - 32)); [lia|]. reflexivity.
  - cbn [app exponent].
    assert (E : (c =? x) || (c =? x - 32) = true) by (destruct Hc as [-> | ->]; rewrite Z.eqb_refl, ?orb_true_r; reflexivity).
    assert (S1 : match s ++ rest with c :: _ => c <> 43 /\ c <> 45 | [] => True end).
    { destruct Hw as [|c1 v1 s1 vs1 H1 H2]; [congruence|]. exact (digit_not_sign _ _ H1). }
    rewrite E, <- app_assoc, (sign_run sg neg (s ++ rest) Hsg S1).
    rewrite (digits_run false s vs 0 0 rest Hw) by (apply no_letter_digit; exact Hr). reflexivity.
Qed.

(** the first byte of a mantissa *)
Lemma mantissa_first : forall hex dp s v k rest, mantissa_text hex dp s v k ->
  exists c t, s ++ rest = c :: t /\ (c = dp \/ exists x, digit_of hex c x).
Proof.
  intros hex dp s v k rest H. destruct H as [s vs Hw Hne|s vs s' vs' Hw Hw' Hne].
  - destruct Hw as [|c x s vs Hc Hw]; [congruence|]. exists c, (s ++ rest). split; [reflexivity|eauto].
  - destruct Hw as [|c x s vs Hc Hw]; [exists dp, (s' ++ rest); split; [reflexivity|auto]|].
    exists c, ((s ++ dp :: s') ++ rest). split; [reflexivity|eauto].
Qed.

Lemma skip_space_run : forall w s, Forall blank w -> (match s with c :: _ => ~ blank c | [] => True end) ->
  skip_space (w ++ s) = s.
Proof.
  intros w s H Hs. induction H as [|c w Hc H IH].
  - cbn [app]. destruct s as [|c s]; [reflexivity|]. cbn [skip_space]. unfold is_space, blank in *.
    destruct (Z.eqb_spec c 32); [lia|]. destruct (Z.leb_spec 9 c), (Z.leb_spec c 13); cbn [andb orb]; try reflexivity; lia.
  - cbn [app skip_space]. unfold is_space, blank in *.
    destruct (Z.eqb_spec c 32); [exact IH|]. cbn [orb]. destruct (Z.leb_spec 9 c), (Z.leb_spec c 13); cbn [andb]; try exact IH; lia.
Qed.

(** a word that cannot begin with [c] *)
Lemma word_no : forall w x c t, 97 <= x <= 122 -> ~ (65 <= c <= 90) -> ~ (97 <= c <= 122) -> word (x :: w) (c :: t) = false.
Proof.
  intros w x c t Hx A B. cbn [word]. destruct (Z.eqb_spec c x); [lia|]. destruct (Z.eqb_spec c (x - 32)); [lia|]. reflexivity.
Qed.

Lemma ends_stop : forall dp rest, ends dp rest -> no_letter rest /\ (match rest with c :: _ => c <> dp | [] => True end).
Proof. intros dp [|c rest] H; [split; exact I|]. cbn in H. unfold no_letter. tauto. Qed.

Lemma exponent_stop : forall x hex dp es e rest, good_point dp -> exponent_text x es e -> ends dp rest ->
  (x = 101 /\ hex = false) \/ x = 112 -> stop hex dp (es ++ rest).
Proof.
  intros x hex dp es e rest Hdp H Hr Hx. destruct (ends_stop _ _ Hr) as [A B]. destruct H as [|c sg neg s vs Hc].
  - cbn [app]. pose proof (no_letter_digit hex rest A). destruct rest; [exact I|]. split; assumption.
  - cbn [app stop]. destruct Hdp as [_ [_ [_ [D1 [D2 D3]]]]]. split; [|lia].
    unfold digit_value. destruct Hx as [[-> ->]|Hx]; [|destruct hex];
    repeat match goal with |- context [?a <=? ?b] => destruct (Z.leb_spec a b); cbn [andb] end; try reflexivity; lia.
Qed.

Lemma strtox_numeral : forall f dp w s neg v b e rest, good_point dp -> Forall blank w -> numeral dp s neg v b e -> ends dp rest ->
  strtox f dp (w ++ s ++ rest) = round_ratio f neg (numerator v b e) (denominator b e) /\ 0 <= v /\ 0 < b.
Proof.
  intros f dp w s neg v b e rest Hdp Hw H Hr. rewrite <- round_pow_ratio. unfold strtox.
  destruct (ends_stop _ _ Hr) as [NL NP]. pose proof Hdp as [D0 [D1 [D2 [D3 [D4 D5]]]]].
  destruct H as [sg neg ms v k es e Hsg Hm He|sg neg x ms v k es e Hsg Hx Hm He].
  - destruct (mantissa_first _ _ _ _ _ (es ++ rest) Hm) as [c [t [Et Hc]]].
    assert (C : ~ blank c /\ c <> 43 /\ c <> 45 /\ ~ (65 <= c <= 90) /\ ~ (97 <= c <= 122) /\
                (c = 48 -> exists y, digit_of false 48 y)).
    { destruct Hc as [->|[y Hy]]; [repeat split; try assumption; lia|]. destruct Hy as [[Hy _]|[F _]]; [|discriminate].
      unfold blank. repeat split; try lia. intros. exists 0. left. lia. }
    destruct C as [C1 [C2 [C3 [C4 [C5 _]]]]].
    replace ((sg ++ ms ++ es) ++ rest) with (sg ++ ms ++ es ++ rest) by (rewrite <- !app_assoc; reflexivity).
    rewrite skip_space_run; [|exact Hw|rewrite Et; destruct Hsg; cbn [app]; unfold blank in *; lia].
    rewrite (sign_run sg neg) by (try exact Hsg; rewrite Et; auto).
    rewrite Et. change (zs "inf") with [105; 110; 102]. change (zs "nan") with [110; 97; 110].
    rewrite !word_no by (try assumption; lia). 
    assert (Nx : (match c :: t with
           | c :: x :: t => if (c =? 48) && ((x =? 120) || (x =? 88)) then hex_number f dp neg t else None
           | _ => None
           end) = None).
    { destruct t as [|x t]; [reflexivity|]. destruct (Z.eqb_spec c 48) as [->|]; [|reflexivity]. cbn [andb].
      assert (Hx : x <> 120 /\ x <> 88).
      { clear -Et Hm He NL D3 D4 D5.
        assert (K : forall y z, es ++ rest = y :: z -> y <> 120 /\ y <> 88).
        { intros y z E. destruct He as [|c sg0 ng s0 vs0 Hc0].
          - cbn [app] in E. rewrite E in NL. cbn in NL. lia.
          - cbn [app] in E. injection E as <- _. lia. }
        destruct Hm as [s vs Hw Hne|s vs s' vs' Hw Hw' Hne].
        - destruct Hw as [|c1 v1 s vs H1 Hw]; [congruence|]. cbn [app] in Et. injection Et as _ Et.
          destruct Hw as [|c2 v2 s vs H2 Hw]; [cbn [app] in Et; exact (K _ _ Et)|].
          cbn [app] in Et. injection Et as <- _. destruct H2 as [[H2 _]|[F _]]; [lia|discriminate].
        - destruct Hw as [|c1 v1 s vs H1 Hw]; [cbn [app] in Et; injection Et as E _; lia|].
          cbn [app] in Et. injection Et as _ Et. destruct Hw as [|c2 v2 s vs H2 Hw].
          + cbn [app] in Et. injection Et as <- _. lia.
          + cbn [app] in Et. injection Et as <- _. destruct H2 as [[H2 _]|[F _]]; [lia|discriminate]. }
      destruct (Z.eqb_spec x 120); [lia|]. destruct (Z.eqb_spec x 88); [lia|]. reflexivity. }
    rewrite Nx. rewrite <- Et. unfold decimal_number.
    destruct (mantissa_run false dp ms v k (es ++ rest) Hdp Hm) as [n [kn [-> [-> V]]]];
      [apply (exponent_stop 101 false dp es e rest Hdp He Hr); auto|].
    rewrite (exponent_run 101 es e rest) by (try assumption; lia). split; [reflexivity|]. split; [exact V|lia].
  - replace ((sg ++ 48 :: x :: ms ++ es) ++ rest) with (sg ++ 48 :: x :: ms ++ es ++ rest)
      by (rewrite <- !app_assoc; cbn [app]; rewrite <- !app_assoc; reflexivity).
    rewrite skip_space_run; [|exact Hw|destruct Hsg; cbn [app]; unfold blank; lia].
    rewrite (sign_run sg neg) by (try exact Hsg; lia).
    change (zs "inf") with [105; 110; 102]. change (zs "nan") with [110; 97; 110].
    rewrite !word_no by lia.
    assert (E : (48 =? 48) && ((x =? 120) || (x =? 88)) = true) by (destruct Hx as [-> | ->]; reflexivity).
    rewrite E. unfold hex_number.
    destruct (mantissa_run true dp ms v k (es ++ rest) Hdp Hm) as [n [kn [-> [-> V]]]];
      [apply (exponent_stop 112 true dp es e rest Hdp He Hr); auto|].
    rewrite (exponent_run 112 es e rest) by (try assumption; lia). split; [reflexivity|]. split; [exact V|lia].
Qed.

(** ** Every text *)

Lemma digits_nonneg : forall hex s acc n v m r, 0 <= acc -> digits hex acc n s = (v, m, r) -> 0 <= v.
Proof.
  intros hex s. induction s as [|c s IH]; intros acc n v m r Ha H; cbn [digits] in H; [congruence|].
  destruct (digit_value hex c) as [x|] eqn:E; [|congruence].
  apply IH in H; [exact H|]. unfold digit_value in E.
  assert (0 <= x).
  { repeat match type of E with context [?a <=? ?b] => destruct (Z.leb_spec a b); cbn [andb] in E end; destruct hex; cbn [andb] in E;
      try discriminate; injection E as <-; lia. }
  apply Z.add_nonneg_nonneg; [|lia]. apply Z.mul_nonneg_nonneg; [lia|destruct hex; lia].
Qed.
Lemma mantissa_nonneg : forall hex dp s v n k r, mantissa hex dp s = (v, n, k, r) -> 0 <= v.
Proof.
  intros hex dp s v n k r H. unfold mantissa in H. destruct (digits hex 0 0 s) as [[v1 n1] r1] eqn:E1.
  apply digits_nonneg in E1; [|lia]. destruct r1 as [|c r1]; [injection H as <- _ _ _; exact E1|].
  destruct (c =? dp); [|injection H as <- _ _ _; exact E1].
  destruct (digits hex v1 0 r1) as [[v2 n2] r2] eqn:E2. apply digits_nonneg in E2; [|exact E1]. injection H as <- _ _ _. exact E2.
Qed.

Lemma round_pow_in : forall f neg v b e, good_fmt f -> 0 <= v -> 0 < b -> in_fmt f (round_pow f neg v b e).
Proof.
  intros f neg v b e Hf Hv Hb. rewrite round_pow_ratio. destruct (fraction_ok v b e Hv Hb).
  eapply nearest_in_fmt. apply round_nearest; assumption.
Qed.

Lemma strtox_in : forall f dp s, good_fmt f -> in_fmt f (strtox f dp s).
Proof.
  intros f dp s Hf.
  assert (Zero : in_fmt f (FNum false 0 0)).
  { destruct Hf as [A [B C]]. cbn. pose proof (pow_pos (prec f) ltac:(lia)). split; [lia|]. split; [lia|auto]. }
  assert (Dec : forall neg s, in_fmt f (decimal_number f dp neg s)).
  { intros neg s0. unfold decimal_number. destruct (mantissa false dp s0) as [[[v n] k] r] eqn:E.
    destruct n; [exact Zero|]. apply round_pow_in; [exact Hf|exact (mantissa_nonneg _ _ _ _ _ _ _ E)|lia]. }
  unfold strtox. destruct (sign (skip_space s)) as [neg t].
  destruct (word (zs "inf") t); [exact I|]. destruct (word (zs "nan") t); [exact I|].
  assert (Hex : forall u v, hex_number f dp neg u = Some v -> in_fmt f v).
  { intros u v H. unfold hex_number in H. destruct (mantissa true dp u) as [[[m n] k] r] eqn:E.
    destruct n; [discriminate|]. injection H as <-. apply round_pow_in; [exact Hf|exact (mantissa_nonneg _ _ _ _ _ _ _ E)|lia]. }
  destruct t as [|c [|x t]]; try apply Dec.
  destruct ((c =? 48) && ((x =? 120) || (x =? 88))); [|apply Dec].
  destruct (hex_number f dp neg t) as [v|] eqn:E; [exact (Hex _ _ E)|apply Dec].
Qed.
