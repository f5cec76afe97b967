(** Properties C12, C88 and C89: exactly when the answer is right. *)

From Coq Require Import ZArith List Lia.
From Verif Require Import Base Base58_Model Base58_Spec Base58_Proof Util_Model Util_Proof Util_Props Net_Model Net_Spec.
Import ListNotations.
Local Open Scope Z_scope.

(** C12.  What the sign of the result of coda_base58_decode tells, for every text: positive
    exactly for non-empty texts over the alphabet; negative exactly for texts with a bad
    character after a good one; 0 exactly for the empty text and for every text whose first
    character is bad, so these two cannot be told apart. *)
Theorem C12_sign : forall t out, bytes t -> Z.of_nat (length t) * 733 / 1000 + 1 <= 2 ^ 31 ->
  (length t <= length out)%nat ->
  exists r out', decode true t (length t) out = Ok (r, out') /\ length out' = length out /\
    (0 < r <-> t <> [] /\ Forall is58 t) /\
    (r = 0 <-> t = [] \/ exists c t', t = c :: t' /\ ~ is58 c) /\
    (r < 0 <-> exists c t', t = c :: t' /\ is58 c /\ ~ Forall is58 t').
Proof.
  intros t out Hb Hsz Ho.
  destruct (split_bad t Hb) as (good & bad & -> & Hg & Hbad & Hc).
  destruct bad as [|c bad].
  - rewrite app_nil_r in *. destruct (text_exists good Hg) as (x & Hx & Ht).
    assert (Hl : (length x <= length good)%nat /\ (length x = 0 <-> length good = 0)%nat).
    { pose proof Ht as (z & x' & ds & -> & N & -> & N' & D & V).
      pose proof Hx as Hx0. apply bytes_app in Hx0. destruct Hx0 as [_ Hb'].
      pose proof (bytes_length_bound x' ds Hb' N D V) as TL.
      rewrite !app_length, !repeat_length, map_length.
      assert (E : ds = [] <-> x' = []).
      { split; intros ->.
        - destruct x' as [|y x']; auto. assert (Hy : y <> 0) by (destruct y; cbn in N; auto; lia).
          pose proof (num_lead 256 y x' ltac:(lia) Hb' Hy).
          assert (0 < 256 ^ Z.of_nat (length x')) by (apply Z.pow_pos_nonneg; lia).
          change (num 58 []) with 0 in V. lia.
        - destruct ds as [|y ds]; auto. assert (Hy : y <> 0) by (destruct y; cbn in N'; auto; lia).
          pose proof (num_lead 58 y ds ltac:(lia) D Hy).
          assert (0 < 58 ^ Z.of_nat (length ds)) by (apply Z.pow_pos_nonneg; lia).
          change (num 256 []) with 0 in V. lia. }
      destruct ds as [|y ds].
      - rewrite (proj1 E eq_refl). cbn [length]. lia.
      - assert (x' <> []) by (intros ->; destruct E as [_ E]; discriminate (E eq_refl)).
        destruct x' as [|w x']; [congruence|]. cbn [length] in *.
        split; [|lia]. Z.div_mod_to_equations. lia. }
    exists (Z.of_nat (length x)), (x ++ skipn (length x) out).
    split; [apply decode_spec; auto; lia|].
    split; [rewrite app_length, skipn_length; lia|].
    destruct Hl as [Hl1 Hl2].
    split; [|split].
    + split; [intros H; split; auto; intros ->; cbn [length] in *; lia|].
      intros [H _]. destruct good; [congruence|]. cbn [length] in *. lia.
    + split; [intros H; left; destruct good; auto; cbn [length] in *; lia|].
      intros [-> |(c & t' & -> & Hn)]; [cbn [length] in *; lia|]. inversion Hg; contradiction.
    + split; [lia|]. intros (c & t' & -> & _ & Hn). inversion Hg; contradiction.
  - assert (Lo : (lead_ones good <= length good)%nat).
    { clear. induction good as [|y l IH]; cbn; [lia|]. 
      repeat (match goal with |- context [match ?e with _ => _ end] => destruct e end; cbn [length] in *; try lia). }
    rewrite app_length in Ho.
    exists (- Z.of_nat (length good)), (repeat 0 (lead_ones good) ++ skipn (lead_ones good) out).
    split; [apply decode_bad_spec; auto; lia|].
    split; [rewrite app_length, repeat_length, skipn_length; lia|].
    split; [|split].
    + split; [lia|]. intros [_ H]. apply Forall_app in H. destruct H as [_ H]. inversion H; contradiction.
    + split.
      * intros H. right. destruct good; [|cbn [length] in H; lia]. exists c, bad. auto.
      * intros [H|(c' & t' & H & Hn)]; [destruct good; discriminate|].
        destruct good as [|y good]; [reflexivity|]. injection H as -> _. inversion Hg; contradiction.
    + split.
      * intros H. destruct good as [|y good]; [cbn [length] in H; lia|]. inversion Hg as [|? ? Hy Hg']; subst.
        exists y, (good ++ c :: bad). split; [reflexivity|]. split; [exact Hy|].
        intros F. apply Forall_app in F. destruct F as [_ F]. inversion F; contradiction.
      * intros (c' & t' & H & Hy & _). destruct good as [|y good]; [injection H as -> _; contradiction|]. cbn [length]. lia.
Qed.
Print Assumptions C12_sign.

Example C12_sign_ex :
  (exists o, decode true (zs "2g") 2 (repeat 7 4) = Ok (1, o)) /\ (exists o, decode true (zs "2I") 2 (repeat 7 4) = Ok (-1, o)) /\
  (exists o, decode true (zs "I2") 2 (repeat 7 4) = Ok (0, o)).
Proof. split; [|split]; eexists; vm_compute; reflexivity. Qed.

(** C88.  Of the arithmetic types exactly ten give a new array that reads as zero, whatever its
    size and the value counted; for all others every reading is of an uninitialised number. *)
Theorem C88_exact : forall t n i, 0 < Z.of_nat n < 2 ^ 32 -> 0 <= i < 2 ^ 64 ->
  (la_read (la_new t n) i = Ok 0 <->
     In t [TChar; TUChar; TShort; TUShort; TInt; TUInt; TLong; TULong; TFloat; TDouble]) /\
  (la_read (la_new t n) i <> Ok 0 -> la_read (la_new t n) i = Ub Uninit).
Proof.
  intros t n i Hn Hi.
  assert (H : In t [TChar; TUChar; TShort; TUShort; TInt; TUInt; TLong; TULong; TFloat; TDouble] \/
              (holder t = None /\ ~ In t [TChar; TUChar; TShort; TUShort; TInt; TUInt; TLong; TULong; TFloat; TDouble])).
  { destruct t; cbn; intuition discriminate. }
  destruct H as [H|[E H]].
  - pose proof (C88_fresh_array_is_zero_partial t n i H Hn Hi) as R. rewrite R. split; [tauto|congruence].
  - assert (R : la_read (la_new t n) i = Ub Uninit).
    { unfold la_read, la_new. rewrite E. unfold get_by_value. rewrite repeat_length.
      assert (B : exists b, bucket (Z.of_nat n) i = Ok b /\ 0 <= b < Z.of_nat n).
      { destruct (Z.eq_dec i 0) as [-> | N].
        - exists (Z.of_nat n - 1). rewrite bucket_0 by lia. split; [reflexivity|lia].
        - exists (Z.min (Z.log2 i) (Z.of_nat n - 1)). rewrite bucket_ok by lia.
          pose proof (Z.log2_nonneg i). split; [reflexivity|lia]. }
      destruct B as (b & -> & Hb). cbn [bind]. unfold get_at, rd.
      rewrite nth_error_repeat by lia. reflexivity. }
    rewrite R. split; [split; [discriminate|tauto]|auto].
Qed.
Print Assumptions C88_exact.

Example C88_exact_ex : la_read (la_new TDouble 8) 0 = Ok 0 /\ la_read (la_new TBool 8) 0 = Ub Uninit.
Proof. split; reflexivity. Qed.

(** C89.  The timeval is valid exactly for timeouts from 0 to 999999 microseconds; it always
    stands for the microseconds asked for. *)
Theorem C89_exact : forall t, microseconds (socket_timeout t) = t /\
  (good_timeval (socket_timeout t) <-> 0 <= t < 1000000).
Proof. intros t. unfold good_timeval, microseconds, socket_timeout. cbn [fst snd]. lia. Qed.
Print Assumptions C89_exact.

Example C89_exact_ex : good_timeval (socket_timeout 999999) /\ ~ good_timeval (socket_timeout (-1)).
Proof. unfold good_timeval, socket_timeout. cbn [snd]. lia. Qed.
