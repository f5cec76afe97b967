(** Decimal fields, dates and their order. *)

From Coq Require Import ZArith List Bool Lia.
From Verif Require Import Base Util_Spec Log_Model Log_Spec.
Import ListNotations.
Local Open Scope Z_scope.

Lemma number_snoc : forall s c, number (s ++ [c]) = number s * 10 + (c - 48).
Proof. intros. unfold number. rewrite fold_left_app. reflexivity. Qed.
Lemma number_acc : forall s a, fold_left (fun a c => a * 10 + (c - 48)) s a = a * 10 ^ Z.of_nat (length s) + number s.
Proof.
  induction s as [|c s IH]; intros a; unfold number; cbn [fold_left length].
  - rewrite Z.mul_1_r. lia.
  - rewrite IH. rewrite (IH (0 * 10 + (c - 48))). rewrite Nat2Z.inj_succ, Z.pow_succ_r by lia. ring.
Qed.
Lemma number_cons : forall c s, number (c :: s) = (c - 48) * 10 ^ Z.of_nat (length s) + number s.
Proof. intros. unfold number at 1. cbn [fold_left]. rewrite number_acc. f_equal. Qed.
Lemma number_app : forall a b, number (a ++ b) = number a * 10 ^ Z.of_nat (length b) + number b.
Proof. intros. unfold number at 1. rewrite fold_left_app. apply number_acc. Qed.
Lemma number_range : forall s, Forall (fun c => 48 <= c <= 57) s -> 0 <= number s < 10 ^ Z.of_nat (length s).
Proof.
  induction 1 as [|c s Hc _ IH]; [cbn; lia|]. rewrite number_cons. cbn [length].
  rewrite Nat2Z.inj_succ, Z.pow_succ_r by lia. nia.
Qed.

Lemma udec_ok : forall fuel n, 0 <= n < 10 ^ Z.of_nat fuel ->
  Forall (fun c => 48 <= c <= 57) (udec fuel n) /\ number (udec fuel n) = n.
Proof.
  induction fuel as [|fuel IH]; intros n H; [cbn in *; split; [constructor|unfold number; cbn; lia]|].
  cbn [udec]. rewrite Nat2Z.inj_succ, Z.pow_succ_r in H by lia.
  destruct (Z.ltb_spec n 10).
  - split; [apply Forall_cons; [lia|apply Forall_nil]|unfold number; cbn [fold_left]; lia].
  - destruct (IH (n / 10)) as [F N]. { split; [apply Z.div_pos; lia|apply Z.div_lt_upper_bound; lia]. }
    pose proof (Z.mod_pos_bound n 10 ltac:(lia)). pose proof (Z.div_mod n 10 ltac:(lia)).
    split; [apply Forall_app; split; [exact F|apply Forall_cons; [lia|apply Forall_nil]]|]. rewrite number_snoc, N. lia.
Qed.
Lemma udec_len : forall w fuel n, (1 <= w)%nat -> 0 <= n < 10 ^ Z.of_nat w -> (length (udec fuel n) <= w)%nat.
Proof.
  intros w fuel. revert w. induction fuel as [|fuel IH]; intros w n Hw H; [cbn; lia|]. cbn [udec].
  destruct (Z.ltb_spec n 10); [cbn; lia|]. rewrite app_length. cbn [length].
  destruct w as [|[|w]]; [lia|cbn in H; lia|].
  enough (length (udec fuel (n / 10)) <= S w)%nat by lia. apply IH; [lia|].
  rewrite Nat2Z.inj_succ, Z.pow_succ_r in H by lia.
  split; [apply Z.div_pos; lia|apply Z.div_lt_upper_bound; lia].
Qed.
Lemma number_zeros : forall k s, number (repeat 48 k ++ s) = number s.
Proof. induction k as [|k IH]; intros s; [reflexivity|]. cbn [repeat app]. rewrite number_cons, IH. lia. Qed.

(** a field of fixed width *)
Lemma field : forall w n, (1 <= w <= 9)%nat -> 0 <= n < 10 ^ Z.of_nat w -> digits w n (fmt_0u w n).
Proof.
  intros w n Hw H. unfold fmt_0u, fmt_u.
  assert (B : 10 ^ Z.of_nat w <= 10 ^ 9) by (apply Z.pow_le_mono_r; lia).
  rewrite Z.mod_small by lia.
  pose proof (udec_len w 10 n ltac:(lia) H) as L.
  destruct (udec_ok 10 n) as [F N]; [lia|]. split; [|split].
  - rewrite app_length, repeat_length. lia.
  - apply Forall_app. split; [|exact F]. apply Forall_forall. intros x Hx. apply repeat_spec in Hx. lia.
  - rewrite number_zeros. exact N.
Qed.

Lemma before_same : forall s x y, before x y -> before (s ++ x) (s ++ y).
Proof. induction s as [|c s IH]; intros x y H; [exact H|]. cbn. right. auto. Qed.
Lemma digits_before : forall w a b n m x y, digits w n a -> digits w m b -> n < m -> before (a ++ x) (b ++ y).
Proof.
  induction w as [|w IH]; intros a b n m x y (La & Fa & Na) (Lb & Fb & Nb) H.
  - destruct a, b; try discriminate. cbn in *. lia.
  - destruct a as [|c a], b as [|d b]; try discriminate. injection La as La. injection Lb as Lb.
    inversion Fa as [|? ? Ha Fa']; subst. inversion Fb as [|? ? Hb Fb']; subst.
    pose proof (number_range a Fa'). pose proof (number_range b Fb').
    rewrite !number_cons in H. rewrite Lb in *. cbn [app before].
    destruct (Z.lt_trichotomy c d) as [L|[->|L]]; [left; exact L| |nia].
    right. split; [reflexivity|]. apply (IH a b (number a) (number b)); unfold digits; auto. lia.
Qed.
Lemma digits_eq : forall w n a b, digits w n a -> digits w n b -> a = b.
Proof.
  induction w as [|w IH]; intros n a b (La & Fa & Na) (Lb & Fb & Nb).
  - destruct a, b; try discriminate. reflexivity.
  - destruct a as [|c a], b as [|d b]; try discriminate. injection La as La. injection Lb as Lb.
    inversion Fa as [|? ? Ha Fa']; subst. inversion Fb as [|? ? Hb Fb']; subst.
    pose proof (number_range a Fa') as Ra. pose proof (number_range b Fb') as Rb.
    rewrite !number_cons in Nb. rewrite Lb in *.
    assert (c = d) by nia. subst d. f_equal. apply (IH (number a)); unfold digits; auto. repeat split; auto. lia.
Qed.

(** *** dates *)
Definition dlt (a b : date) : Prop :=
  let '(y, m, d) := a in let '(y', m', d') := b in y < y' \/ (y = y' /\ (m < m' \/ (m = m' /\ d < d'))).
Lemma dlt_trans : forall a b c, dlt a b -> dlt b c -> dlt a c.
Proof. intros [[y m] d] [[y' m'] d'] [[y'' m''] d'']. unfold dlt. lia. Qed.
Lemma dlt_tomorrow : forall a, dlt a (tomorrow a).
Proof.
  intros [[y m] d]. unfold tomorrow. destruct (d <? month_days y m); [unfold dlt; lia|].
  destruct (m <? 12); unfold dlt; lia.
Qed.
Lemma dates_increase : forall n k, dlt (date_after n) (date_after (S k + n)).
Proof.
  intros n. induction k as [|k IH]; [apply dlt_tomorrow|].
  eapply dlt_trans; [exact IH|]. apply (dlt_tomorrow (date_after (S k + n))).
Qed.
Lemma dates_increase' : forall n m, (n < m)%nat -> dlt (date_after n) (date_after m).
Proof. intros n m H. replace m with (S (m - n - 1) + n)%nat by lia. apply dates_increase. Qed.
Lemma date_valid : forall n, valid_date (date_after n) /\ 1970 <= fst (fst (date_after n)).
Proof.
  assert (M : forall y m, 28 <= month_days y m <= 31).
  { intros y m. unfold month_days. destruct (m =? 2); [destruct (leap_year y); lia|]. destruct (_ || _); lia. }
  induction n as [|n [IH Y]]; [cbn; repeat split; lia|].
  change (date_after (S n)) with (tomorrow (date_after n)). destruct (date_after n) as [[y m] d].
  cbn [valid_date fst] in *. unfold tomorrow. destruct (Z.ltb_spec d (month_days y m)); [cbn; lia|].
  destruct (Z.ltb_spec m 12); cbn [valid_date fst]; pose proof (M y (m + 1)); pose proof (M (y + 1) 1); lia.
Qed.
