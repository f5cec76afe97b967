(** Theorems about floating-point members of configuration objects (property C116). *)

From Coq Require Import ZArith List Bool Lia.
From Verif Require Import Base Flt_Model Flt_Spec Flt_Proof.
Import ListNotations.
Local Open Scope Z_scope.

Lemma good_formats : good_fmt f32 /\ good_fmt f64 /\ good_fmt f80.
Proof. unfold good_fmt; cbn [prec scale top f32 f64 f80]; lia. Qed.

(** C116: a member gets the value of its type nearest to the number in the text, which may
    stand between other bytes *)
Theorem C116_nearest : forall f dp w s neg v b e rest,
  good_fmt f -> good_point dp -> Forall blank w -> numeral dp s neg v b e -> ends dp rest ->
  nearest f neg (numerator v b e) (denominator b e) (strtox f dp (w ++ s ++ rest)).
Proof.
  intros f dp w s neg v b e rest Hf Hdp Hw Hs Hr.
  destruct (strtox_numeral f dp w s neg v b e rest Hdp Hw Hs Hr) as [-> [Hv Hb]].
  destruct (fraction_ok v b e Hv Hb). apply round_nearest; assumption.
Qed.
Print Assumptions C116_nearest.

(** two values with even significands have another value between them *)
Lemma value_between : forall f m k m' k', good_fmt f -> value_of f m k -> value_of f m' k' ->
  Z.even m = true -> Z.even m' = true -> m * 2 ^ k < m' * 2 ^ k' ->
  exists m2 k2, value_of f m2 k2 /\ m * 2 ^ k < m2 * 2 ^ k2 < m' * 2 ^ k'.
Proof.
  intros f m k m' k' [Hp _] [A1 [A2 A3]] [B1 [B2 B3]] E E' L.
  pose proof (pow_pos k ltac:(lia)) as Pk. pose proof (pow_pos k' ltac:(lia)) as Pk'.
  assert (Epp : 2 ^ prec f = 2 * 2 ^ (prec f - 1)).
  { replace (prec f) with (1 + (prec f - 1)) at 1 by lia. rewrite pow_split by lia. reflexivity. }
  apply Z.even_spec in E. destruct E as [h ->]. apply Z.even_spec in E'. destruct E' as [h' ->].
  destruct (Z.lt_trichotomy k k') as [K|[K|K]].
  - exists (2 * h + 1), k. split; [unfold value_of; lia|]. split; [apply Z.mul_lt_mono_pos_r; lia|].
    apply Z.lt_le_trans with (2 ^ prec f * 2 ^ k); [apply Z.mul_lt_mono_pos_r; lia|].
    destruct B3 as [F|B3]; [lia|].
    apply Z.le_trans with (2 ^ (prec f - 1) * 2 ^ k').
    + rewrite <- !pow_split by lia. apply pow_mono. lia.
    + apply Z.mul_le_mono_nonneg_r; lia.
  - subst k'. apply Z.mul_lt_mono_pos_r in L; [|exact Pk].
    exists (2 * h + 1), k. split; [unfold value_of; lia|]. split; apply Z.mul_lt_mono_pos_r; lia.
  - exfalso. destruct A3 as [F|A3]; [lia|].
    assert (2 * h' * 2 ^ k' < 2 ^ prec f * 2 ^ k') by (apply Z.mul_lt_mono_pos_r; lia).
    assert (2 ^ prec f * 2 ^ k' <= 2 ^ (prec f - 1) * 2 ^ k) by (rewrite <- !pow_split by lia; apply pow_mono; lia).
    assert (2 ^ (prec f - 1) * 2 ^ k <= 2 * h * 2 ^ k) by (apply Z.mul_le_mono_nonneg_r; lia). lia.
Qed.

(** there is only one such value: the text determines the member *)
Theorem C116_nearest_is_unique : forall f neg n d x y, good_fmt f -> 0 < d ->
  nearest f neg n d x -> nearest f neg n d y -> x = y.
Proof.
  intros f neg n d x y Hf Hd Hx Hy.
  assert (W : forall m k m' k', value_of f m k -> value_of f m' k' -> m * 2 ^ k < m' * 2 ^ k' ->
     (forall m2 k2, value_of f m2 k2 -> distance f n d m k <= distance f n d m2 k2) ->
     distance f n d m k = distance f n d m' k' -> Z.even m = true -> Z.even m' = true -> False).
  { intros m k m' k' V V' L H E Ev Ev'. destruct (value_between f m k m' k' Hf V V' Ev Ev' L) as [m2 [k2 [V2 [L1 L2]]]].
    specialize (H m2 k2 V2). unfold distance in *.
    assert (m * 2 ^ k * d < m2 * 2 ^ k2 * d) by (apply Z.mul_lt_mono_pos_r; lia).
    assert (m2 * 2 ^ k2 * d < m' * 2 ^ k' * d) by (apply Z.mul_lt_mono_pos_r; lia). lia. }
  destruct x as [|s|s m k], y as [|s'|s' m' k']; try contradiction.
  - destruct Hx as [-> _], Hy as [-> _]. reflexivity.
  - destruct Hx as [_ A], Hy as [_ [_ [B _]]]. lia.
  - destruct Hx as [_ [_ [B _]]], Hy as [_ A]. lia.
  - destruct Hx as [-> [V [_ H]]], Hy as [-> [V' [_ H']]].
    destruct (H _ _ V') as [A B]. destruct (H' _ _ V) as [A' B'].
    assert (E : distance f n d m k = distance f n d m' k') by lia.
    destruct (B E) as [F|Ev]; [injection F as -> ->; reflexivity|].
    destruct (B' (eq_sym E)) as [F|Ev']; [injection F as -> ->; reflexivity|].
    destruct (Z.lt_trichotomy (m * 2 ^ k) (m' * 2 ^ k')) as [L|[L|L]].
    + exfalso. apply (W m k m' k'); auto. intros. apply H. assumption.
    + (* one pair for each value *)
      destruct V as [A1 [A2 A3]], V' as [B1 [B2 B3]]. destruct Hf as [Hp _].
      assert (U : forall x i y j, 0 <= x < 2 ^ prec f -> 0 <= i < j -> 2 ^ (prec f - 1) <= y -> x * 2 ^ i < y * 2 ^ j).
      { intros x i y j X I Y. pose proof (pow_pos i ltac:(lia)). pose proof (pow_pos j ltac:(lia)).
        apply Z.lt_le_trans with (2 ^ prec f * 2 ^ i); [apply Z.mul_lt_mono_pos_r; lia|].
        apply Z.le_trans with (2 ^ (prec f - 1) * 2 ^ j); [rewrite <- !pow_split by lia; apply pow_mono; lia|].
        apply Z.mul_le_mono_nonneg_r; lia. }
      destruct (Z.lt_trichotomy k k') as [K|[K|K]].
      * pose proof (U m k m' k' A1 ltac:(lia)). lia.
      * subst k'. f_equal. apply (Z.mul_reg_r _ _ (2 ^ k)); [|exact L]. pose proof (pow_pos k ltac:(lia)). lia.
      * pose proof (U m' k' m k B1 ltac:(lia)). lia.
    + exfalso. apply (W m' k' m k); auto. intros. apply H'. assumption.
Qed.
Print Assumptions C116_nearest_is_unique.

(** C116: for every text the member is a value of its type *)
Theorem C116_every_text : forall f dp s, good_fmt f -> in_fmt f (strtox f dp s).
Proof. exact strtox_in. Qed.
Print Assumptions C116_every_text.

(** C116: integers up to 2^prec are loaded exactly *)
Theorem C116_integers_exact : forall f dp w sg neg s vs rest,
  good_fmt f -> scale f <= top f -> good_point dp -> Forall blank w -> sign_text sg neg ->
  written false s vs -> vs <> [] -> ends dp rest -> positional 10 vs < 2 ^ prec f ->
  exists m k, strtox f dp (w ++ (sg ++ s) ++ rest) = FNum neg m k /\
    m * 2 ^ k = positional 10 vs * 2 ^ scale f.
Proof.
  intros f dp w sg neg s vs rest Hf Hst Hdp Hw Hsg Hs Hne Hr Hlt.
  assert (Hn : numeral dp (sg ++ s) neg (positional 10 vs) 10 0).
  { replace (sg ++ s) with (sg ++ s ++ []) by (rewrite app_nil_r; reflexivity).
    change 0 with (0 - 0). apply decimal_numeral; [exact Hsg| |constructor].
    apply (whole false dp s vs Hs Hne). }
  pose proof (C116_nearest f dp w (sg ++ s) neg _ 10 0 rest Hf Hdp Hw Hn Hr) as N.
  unfold numerator, denominator in N. cbn [Z.leb Z.compare] in N. change (10 ^ 0) with 1 in N. rewrite Z.mul_1_r in N.
  set (n := positional 10 vs) in *.
  assert (Hn0 : 0 <= n) by (unfold n, positional; apply (written_nonneg false s); [exact Hs|lia|lia]).
  pose proof Hf as [Hp [Hsc Htop]]. pose proof (pow_pos (scale f) Hsc) as Ps. pose proof (pow_pos (top f) Htop) as Pt.
  destruct (strtox f dp (w ++ (sg ++ s) ++ rest)) as [|s1|s1 m k]; [contradiction| |].
  - exfalso. destruct N as [_ N].
    assert (n * 2 ^ scale f <= (2 ^ prec f - 1) * 2 ^ top f).
    { apply Z.mul_le_mono_nonneg; try lia. apply pow_mono. lia. }
    assert (2 ^ top f <= 2 ^ top f) by lia.
    replace ((2 * 2 ^ prec f - 1) * 2 ^ top f * 1) with (2 * ((2 ^ prec f - 1) * 2 ^ top f) + 2 ^ top f) in N by ring.
    rewrite <- (Z.mul_assoc 2 n) in N. lia.
  - destruct N as [-> [V [_ H]]]. exists m, k. split; [reflexivity|].
    (* the integer is a value of the format *)
    assert (R : exists m' k', value_of f m' k' /\ m' * 2 ^ k' = n * 2 ^ scale f).
    { destruct (Z.eq_dec n 0) as [E|E].
      - exists 0, 0. split; [|rewrite E; reflexivity]. unfold value_of. pose proof (pow_pos (prec f) ltac:(lia)). lia.
      - destruct (Z.log2_spec n) as [L1 L2]; [lia|]. pose proof (Z.log2_nonneg n) as L0.
        assert (Lp : Z.log2 n < prec f) by (apply Z.log2_lt_pow2; lia).
        set (k' := Z.max 0 (scale f + Z.log2 n - (prec f - 1))).
        assert (K : 0 <= k' <= scale f) by (unfold k'; lia).
        pose proof (pow_pos (scale f - k') ltac:(lia)) as Psk.
        exists (n * 2 ^ (scale f - k')), k'. split.
        + split; [split|].
          * apply Z.mul_nonneg_nonneg; lia.
          * apply Z.lt_le_trans with (2 ^ Z.succ (Z.log2 n) * 2 ^ (scale f - k')); [apply Z.mul_lt_mono_pos_r; lia|].
            rewrite <- pow_split by lia. apply pow_mono. unfold k'. lia.
          * split; [lia|]. destruct (Z.eq_dec k' 0) as [E0|E0]; [left; exact E0|right].
            apply Z.le_trans with (2 ^ Z.log2 n * 2 ^ (scale f - k')).
            -- rewrite <- pow_split by lia. apply pow_mono. unfold k' in *. lia.
            -- apply Z.mul_le_mono_nonneg_r; lia.
        + rewrite <- Z.mul_assoc, <- pow_split by lia. do 2 f_equal. lia. }
    destruct R as [m' [k' [V' E]]]. destruct (H m' k' V') as [A _]. unfold distance in A. rewrite E in A. lia.
Qed.
Print Assumptions C116_integers_exact.

(** C116: infinities and not-a-numbers, in any letter case *)
Theorem C116_words : forall f dp w sg neg s, Forall blank w -> sign_text sg neg ->
  (word (zs "inf") s = true -> strtox f dp (w ++ sg ++ s) = FInf neg) /\
  (word (zs "nan") s = true -> strtox f dp (w ++ sg ++ s) = FNan).
Proof.
  intros f dp w sg neg s Hw Hsg.
  assert (G : forall x y z, 97 <= x <= 122 -> word [x; y; z] s = true ->
     sign (skip_space (w ++ sg ++ s)) = (neg, s) /\ exists c t, s = c :: t /\ (c = x \/ c = x - 32)).
  { intros x y z Hx H. destruct s as [|c t]; [discriminate|].
    assert (Hc : c = x \/ c = x - 32).
    { cbn [word] in H. destruct (Z.eqb_spec c x); [auto|]. destruct (Z.eqb_spec c (x - 32)); [auto|discriminate]. }
    split; [|eauto]. rewrite skip_space_run; [|exact Hw|destruct Hsg; cbn [app]; unfold blank; lia].
    apply sign_run; [exact Hsg|lia]. }
  change (zs "inf") with [105; 110; 102]. change (zs "nan") with [110; 97; 110]. unfold strtox.
  change (zs "inf") with [105; 110; 102]. change (zs "nan") with [110; 97; 110].
  split; intros H.
  - destruct (G 105 110 102 ltac:(lia) H) as [E _]. rewrite E. rewrite H. reflexivity.
  - destruct (G 110 97 110 ltac:(lia) H) as [E [c [t [Es Hc]]]]. rewrite E. rewrite H. assert (Ni : word [105; 110; 102] s = false).
    { rewrite Es. cbn [word]. destruct (Z.eqb_spec c 105); [lia|]. destruct (Z.eqb_spec c (105 - 32)); [lia|]. reflexivity. }
    rewrite Ni. reflexivity.
Qed.
Print Assumptions C116_words.

(** the meaning of a document depends on the locale of the program: with a decimal comma
    "1.5" is 1 *)
Theorem C116_locale_refuted : exists s, s = zs "1.5" /\
  strtox f64 46 s = FNum false 6755399441055744 1022 /\ strtox f64 44 s = FNum false 4503599627370496 1022 /\
  strtox f64 44 s = strtox f64 46 (zs "1").
Proof. exists (zs "1.5"). repeat split; vm_compute; reflexivity. Qed.
Print Assumptions C116_locale_refuted.

(** a text without a number is loaded as 0, as is "0" *)
Theorem C116_no_number_refuted : exists s, s = zs "abc" /\ strtox f64 46 s = strtox f64 46 (zs "0").
Proof. exists (zs "abc"). split; vm_compute; reflexivity. Qed.
Print Assumptions C116_no_number_refuted.

(** 0.1 and the first integer that float cannot hold *)
Example C116_ex_tenth : strtox f64 46 (zs " 0.1 ") = FNum false 7205759403792794 1018.
Proof. vm_compute. reflexivity. Qed.
Example C116_ex_tie : strtox f32 46 (zs "16777217") = strtox f32 46 (zs "16777216").
Proof. vm_compute. reflexivity. Qed.
Example C116_ex_tie_up : strtox f32 46 (zs "16777219") = strtox f32 46 (zs "16777220").
Proof. vm_compute. reflexivity. Qed.
Example C116_ex_exp : strtox f64 46 (zs "-12.5e-1x") = FNum true 5629499534213120 1022.
Proof. vm_compute. reflexivity. Qed.
Example C116_ex_hex : strtox f64 46 (zs "0x1.8p1") = strtox f64 46 (zs "3").
Proof. vm_compute. reflexivity. Qed.
Example C116_ex_inf : strtox f32 46 (zs "3.5e38") = FInf false /\ strtox f32 46 (zs "3.4e38") <> FInf false.
Proof. split; vm_compute; [reflexivity|discriminate]. Qed.
Example C116_ex_small : strtox f32 46 (zs "1e-45") = FNum false 1 0 /\ strtox f32 46 (zs "-1e-46") = FNum true 0 0.
Proof. split; vm_compute; reflexivity. Qed.
(** the hypotheses of the theorems are met *)
Example C116_ex_hypotheses : good_point 46 /\ good_point 44 /\ numeral 46 (zs "-12.5e-1") true 125 10 (-2) /\ ends 46 (zs " kg").
Proof.
  split; [unfold good_point, blank; lia|]. split; [unfold good_point, blank; lia|].
  split; [|cbn; lia].
  change (zs "-12.5e-1") with ([45] ++ ([49; 50] ++ 46 :: [53]) ++ (101 :: [45] ++ [49])).
  change (-2) with (-1 - 1). apply decimal_numeral; [constructor| |].
  - apply (fraction false 46 [49; 50] [1; 2] [53] [5]); [| |discriminate];
      repeat (constructor; [left; lia|]); constructor.
  - apply (an_exponent 101 101 [45] true [49] [1]); [auto|constructor| |discriminate].
    repeat (constructor; [left; lia|]); constructor.
Qed.
