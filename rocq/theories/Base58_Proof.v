(** Proofs about the Base 58 model. *)

From Coq Require Import ZArith List Lia Bool ZifyBool ZifyNat.
From Verif Require Import Base Base58_Model Base58_Spec.
Import ListNotations.
Local Open Scope Z_scope.

(** *** Positional notation *)

Notation pw B n := (B ^ Z.of_nat n) (only parsing).

Definition digits (B : Z) (l : list Z) : Prop := Forall (fun d => 0 <= d < B) l.

Lemma num_from_acc : forall B ds acc,
  num_from B acc ds = acc * pw B (length ds) + num B ds.
Proof.
  unfold num. induction ds as [|d t IH]; intros acc; cbn [num_from length].
  - cbn. lia.
  - rewrite IH. rewrite (IH (0 * B + d)). rewrite Nat2Z.inj_succ, Z.pow_succ_r by lia. ring.
Qed.

Lemma num_cons : forall B d t, num B (d :: t) = d * pw B (length t) + num B t.
Proof. intros. unfold num at 1. cbn [num_from]. rewrite num_from_acc. ring. Qed.

Lemma num_app : forall B a b, num B (a ++ b) = num B a * pw B (length b) + num B b.
Proof.
  induction a as [|d a IH]; intros b.
  - cbn [app]. change (num B []) with 0. lia.
  - cbn [app]. rewrite !num_cons, IH, app_length, Nat2Z.inj_add, Z.pow_add_r by lia. ring.
Qed.

Lemma num_snoc : forall B a d, num B (a ++ [d]) = num B a * B + d.
Proof. intros. rewrite num_app. cbn [length]. change (Z.of_nat 1) with 1. rewrite Z.pow_1_r.
  unfold num. cbn [num_from]. lia. Qed.

Lemma num_bound : forall B ds, 1 < B -> digits B ds -> 0 <= num B ds < pw B (length ds).
Proof.
  induction ds as [|d t IH]; intros HB H.
  - cbn. lia.
  - inversion H as [|? ? H1 H2]; subst. rewrite num_cons. cbn [length].
    rewrite Nat2Z.inj_succ, Z.pow_succ_r by lia.
    specialize (IH HB H2). assert (0 < pw B (length t)) by (apply Z.pow_pos_nonneg; lia). nia.
Qed.

Lemma num_unique : forall B a b, 1 < B -> digits B a -> digits B b ->
  length a = length b -> num B a = num B b -> a = b.
Proof.
  induction a as [|x a IH]; intros [|y b] HB Ha Hb HL HN; cbn in HL; try discriminate; auto.
  inversion Ha; inversion Hb; subst. rewrite !num_cons in HN.
  assert (E : length a = length b) by lia. rewrite E in HN.
  pose proof (num_bound B a HB H2) as Ba. pose proof (num_bound B b HB H6) as Bb. rewrite E in Ba.
  assert (x = y) by nia. subst. f_equal. apply IH; auto. lia.
Qed.

Lemma num_zeros : forall B k l, num B (repeat 0 k ++ l) = num B l.
Proof. induction k; intros; cbn [repeat app]; auto. rewrite num_cons, IHk. lia. Qed.

Lemma num_lead : forall B d t, 1 < B -> digits B (d :: t) -> d <> 0 ->
  pw B (length t) <= num B (d :: t) < pw B (S (length t)).
Proof.
  intros. split.
  - rewrite num_cons. inversion H0; subst. pose proof (num_bound B t H H5).
    assert (0 < pw B (length t)) by (apply Z.pow_pos_nonneg; lia). nia.
  - apply (num_bound B (d :: t)); auto.
Qed.

Lemma nlz_unique : forall B a b, 1 < B -> digits B a -> digits B b ->
  no_lead_zero a -> no_lead_zero b -> num B a = num B b -> a = b.
Proof.
  intros B a b HB Ha Hb Na Nb E.
  apply (num_unique B); auto.
  destruct a as [|x a], b as [|y b]; auto.
  - assert (y <> 0) by (destruct y; cbn in Nb; auto; lia).
    pose proof (num_lead B y b HB Hb H). change (num B []) with 0 in E.
    assert (0 < pw B (length b)) by (apply Z.pow_pos_nonneg; lia). lia.
  - assert (x <> 0) by (destruct x; cbn in Na; auto; lia).
    pose proof (num_lead B x a HB Ha H). change (num B []) with 0 in E.
    assert (0 < pw B (length a)) by (apply Z.pow_pos_nonneg; lia). lia.
  - assert (y <> 0) by (destruct y; cbn in Nb; auto; lia).
    assert (x <> 0) by (destruct x; cbn in Na; auto; lia).
    pose proof (num_lead B y b HB Hb H) as P1. pose proof (num_lead B x a HB Ha H0) as P2.
    cbn [length]. f_equal.
    destruct (Nat.lt_trichotomy (length a) (length b)) as [L|[L|L]]; auto.
    + assert (pw B (S (length a)) <= pw B (length b)) by (apply Z.pow_le_mono_r; lia). lia.
    + assert (pw B (S (length b)) <= pw B (length a)) by (apply Z.pow_le_mono_r; lia). lia.
Qed.

Lemma strip : forall l, exists k l', l = repeat 0 k ++ l' /\ no_lead_zero l'.
Proof.
  induction l as [|x l (k & l' & -> & N)].
  - exists 0%nat, []. cbn. auto.
  - destruct (Z.eq_dec x 0) as [->|H].
    + exists (S k), l'. auto.
    + exists 0%nat, (x :: repeat 0 k ++ l'). split; auto. destruct x; cbn; auto.
Qed.

Lemma strip_unique : forall k k' l l', repeat 0 k ++ l = repeat 0 k' ++ l' ->
  no_lead_zero l -> no_lead_zero l' -> k = k' /\ l = l'.
Proof.
  induction k; intros [|k'] l l' E N N'; cbn in *; auto.
  - subst. destruct N.
  - subst. destruct N'.
  - inversion E. destruct (IHk k' l l'); auto.
Qed.

Lemma digits_repeat0 : forall B k, 0 < B -> digits B (repeat 0 k).
Proof. intros. apply Forall_forall. intros x Hx. apply repeat_spec in Hx. lia. Qed.

Lemma num_exists : forall B n v, 1 < B -> 0 <= v < pw B n ->
  exists ds, length ds = n /\ digits B ds /\ num B ds = v.
Proof.
  induction n; intros v HB Hv.
  - exists []. cbn in *. repeat split; auto. constructor. lia.
  - rewrite Nat2Z.inj_succ, Z.pow_succ_r in Hv by lia.
    pose proof (Z.div_mod v B ltac:(lia)). pose proof (Z.mod_pos_bound v B ltac:(lia)).
    destruct (IHn (v / B) HB) as (ds & L & D & N).
    { split; [apply Z.div_pos; lia|]. apply Z.div_lt_upper_bound; lia. }
    exists (ds ++ [v mod B]). rewrite app_length, num_snoc, N, L. cbn. repeat split; try lia.
    apply Forall_app. split; auto.
Qed.

(** *** Scratch size: 256^m <= 58^(138 m / 100 + 1) and 58^m <= 256^(733 m / 1000 + 1) *)

Lemma pow_root : forall a b k, 0 <= a -> 0 <= b -> 0 < k -> a ^ k <= b ^ k -> a <= b.
Proof.
  intros. destruct (Z_le_gt_dec a b); auto.
  pose proof (Z.pow_lt_mono_l b a k). lia.
Qed.

Lemma pow_256_58 : 256 ^ 100 <= 58 ^ 138.
Proof. apply Z.leb_le. vm_compute. reflexivity. Qed.
Lemma pow_58_256 : 58 ^ 1000 <= 256 ^ 733.
Proof. apply Z.leb_le. vm_compute. reflexivity. Qed.

Lemma scratch_enc : forall m, 0 <= m -> 256 ^ m <= 58 ^ (m * 138 / 100 + 1).
Proof.
  intros m Hm. set (L := m * 138 / 100 + 1).
  assert (HL : 138 * m <= L * 100) by (unfold L; Z.div_mod_to_equations; lia).
  apply (pow_root _ _ 100); try lia; try (apply Z.pow_nonneg; lia).
  rewrite <- !Z.pow_mul_r by lia.
  replace (m * 100) with (100 * m) by lia. rewrite Z.pow_mul_r by lia.
  transitivity ((58 ^ 138) ^ m).
  - apply Z.pow_le_mono_l. split; [lia|exact pow_256_58].
  - rewrite <- Z.pow_mul_r by lia. apply Z.pow_le_mono_r; lia.
Qed.

Lemma scratch_dec : forall m, 0 <= m -> 58 ^ m <= 256 ^ (m * 733 / 1000 + 1).
Proof.
  intros m Hm. set (L := m * 733 / 1000 + 1).
  assert (HL : 733 * m <= L * 1000) by (unfold L; Z.div_mod_to_equations; lia).
  apply (pow_root _ _ 1000); try lia; try (apply Z.pow_nonneg; lia).
  rewrite <- !Z.pow_mul_r by lia.
  replace (m * 1000) with (1000 * m) by lia. rewrite Z.pow_mul_r by lia.
  transitivity ((256 ^ 733) ^ m).
  - apply Z.pow_le_mono_l. split; [apply Z.pow_nonneg; lia|exact pow_58_256].
  - rewrite <- Z.pow_mul_r by lia. apply Z.pow_le_mono_r; lia.
Qed.

(** *** Inner loops *)

Lemma rdz_mid : forall l d r, rdz ((l ++ [d]) ++ r) (Z.of_nat (length l)) = Ok d.
Proof.
  intros. unfold rdz. destruct (Z.ltb_spec (Z.of_nat (length l)) 0); [lia|].
  rewrite Nat2Z.id, <- app_assoc. apply rd_app. auto.
Qed.
Lemma wrz_mid : forall l d r v, wrz ((l ++ [d]) ++ r) (Z.of_nat (length l)) v = Ok (l ++ v :: r).
Proof.
  intros. unfold wrz. destruct (Z.ltb_spec (Z.of_nat (length l)) 0); [lia|].
  rewrite Nat2Z.id, <- app_assoc. apply wr_app. auto.
Qed.

Lemma enc_inner_spec : forall l r c fuel,
  (length l <= fuel)%nat -> digits 58 l -> 0 <= c <= 255 ->
  256 * num 58 l + c < pw 58 (length l) ->
  exists l', enc_inner fuel (l ++ r) (Z.of_nat (length l) - 1) c = Ok (l' ++ r) /\
    length l' = length l /\ digits 58 l' /\ num 58 l' = 256 * num 58 l + c.
Proof.
  induction l as [|d l IH] using rev_ind; intros r c fuel Hf Hd Hc Hb.
  - cbn in Hb. assert (c = 0) by lia. subst. exists [].
    split; [destruct fuel; reflexivity|]. cbn. auto.
  - rewrite app_length in *. cbn [length] in *.
    replace (Z.of_nat (length l + 1) - 1) with (Z.of_nat (length l)) by lia.
    destruct fuel as [|fuel]; [lia|]. cbn [enc_inner].
    apply Forall_app in Hd. destruct Hd as [Hl Hd]. inversion Hd; subst.
    destruct (Z.ltb_spec (Z.of_nat (length l)) 0); [lia|]. rewrite andb_false_r.
    rewrite rdz_mid. cbn [bind].
    assert (Es : schar d = d) by (unfold schar; destruct (Z.ltb_spec d 128); lia).
    rewrite Es. unfold u32. rewrite (Z.mod_small (c + 256 * d)) by lia.
    rewrite wrz_mid. cbn [bind].
    rewrite num_snoc in Hb. replace (length l + 1)%nat with (S (length l)) in Hb by lia.
    rewrite Nat2Z.inj_succ, Z.pow_succ_r in Hb by lia.
    pose proof (Z.div_mod (c + 256 * d) 58 ltac:(lia)) as DM.
    pose proof (Z.mod_pos_bound (c + 256 * d) 58 ltac:(lia)) as MB.
    destruct (IH ((c + 256 * d) mod 58 :: r) ((c + 256 * d) / 58) fuel) as (l' & E & L & D & N);
      auto; try lia.
    exists (l' ++ [(c + 256 * d) mod 58]). split; [|split; [|split]].
    + rewrite E. now rewrite <- app_assoc.
    + rewrite app_length. cbn. lia.
    + apply Forall_app. split; auto.
    + rewrite !num_snoc, N. lia.
Qed.

Lemma dec_inner_spec : forall l r c fuel,
  (length l <= fuel)%nat -> digits 256 l -> 0 <= c <= 57 ->
  exists l' c', dec_inner fuel (l ++ r) (Z.of_nat (length l) - 1) c = Ok (l' ++ r, c') /\
    length l' = length l /\ digits 256 l' /\ 0 <= c' /\
    c' * pw 256 (length l) + num 256 l' = 58 * num 256 l + c.
Proof.
  induction l as [|d l IH] using rev_ind; intros r c fuel Hf Hd Hc.
  - exists [], c. split; [destruct fuel; reflexivity|]. cbn. repeat split; auto; lia.
  - rewrite app_length in *. cbn [length] in *.
    replace (Z.of_nat (length l + 1) - 1) with (Z.of_nat (length l)) by lia.
    destruct fuel as [|fuel]; [lia|]. cbn [dec_inner].
    apply Forall_app in Hd. destruct Hd as [Hl Hd]. inversion Hd; subst.
    destruct (Z.ltb_spec (Z.of_nat (length l)) 0); [lia|].
    rewrite rdz_mid. cbn [bind].
    unfold u32. rewrite (Z.mod_small (c + 58 * d)) by lia.
    rewrite wrz_mid. cbn [bind].
    pose proof (Z.div_mod (c + 58 * d) 256 ltac:(lia)) as DM.
    pose proof (Z.mod_pos_bound (c + 58 * d) 256 ltac:(lia)) as MB.
    destruct (IH ((c + 58 * d) mod 256 :: r) ((c + 58 * d) / 256) fuel)
      as (l' & c' & E & L & D & C & N); auto; try lia.
    exists (l' ++ [(c + 58 * d) mod 256]), c'. split; [|split; [|split; [|split]]]; auto.
    + rewrite E. now rewrite <- app_assoc.
    + rewrite app_length. cbn. lia.
    + apply Forall_app. split; auto.
    + rewrite !num_snoc. replace (length l + 1)%nat with (S (length l)) by lia.
      rewrite Nat2Z.inj_succ, Z.pow_succ_r by lia. lia.
Qed.

Lemma int32_small : forall L, (0 < L)%nat -> Z.of_nat L <= 2 ^ 31 ->
  int32 (u32 (Z.of_nat L - 1)) = Z.of_nat L - 1.
Proof.
  intros. unfold u32, int32. change (2 ^ 31) with 2147483648 in *.
  change (2 ^ 32) with 4294967296.
  rewrite Z.mod_small by lia. destruct (Z.ltb_spec (Z.of_nat L - 1) 2147483648); lia.
Qed.

Lemma enc_outer_spec : forall suf ipre buf L,
  length buf = L -> (0 < L)%nat -> Z.of_nat L <= 2 ^ 31 ->
  bytes suf -> digits 58 buf ->
  num 58 buf * pw 256 (length suf) + num 256 suf < pw 58 L ->
  exists buf', enc_outer (ipre ++ suf) (length ipre) (length suf) buf (Z.of_nat L) = Ok buf' /\
    length buf' = L /\ digits 58 buf' /\
    num 58 buf' = num 58 buf * pw 256 (length suf) + num 256 suf.
Proof.
  induction suf as [|c suf IH]; intros ipre buf L HL H0 H31 Hb Hd Hlt.
  - cbn. exists buf. repeat split; auto. unfold num; cbn; lia.
  - apply bytes_cons in Hb. destruct Hb as [Hc Hb]. unfold byte in Hc.
    cbn [enc_outer length]. rewrite rd_app by auto. cbn [bind].
    rewrite int32_small by auto. subst L.
    rewrite num_cons in Hlt. cbn [length] in Hlt.
    rewrite Nat2Z.inj_succ, Z.pow_succ_r in Hlt by lia.
    assert (P : 0 < pw 256 (length suf)) by (apply Z.pow_pos_nonneg; lia).
    pose proof (num_bound 256 suf ltac:(lia) Hb) as NB.
    pose proof (num_bound 58 buf ltac:(lia) Hd) as NB'.
    destruct (enc_inner_spec buf [] c (S (length buf))) as (buf1 & E & L1 & D1 & N1); auto; try lia.
    { nia. }
    rewrite !app_nil_r in E. rewrite E. cbn [bind].
    replace (S (length ipre)) with (length (ipre ++ [c])) by (rewrite app_length; cbn; lia).
    replace (ipre ++ c :: suf) with ((ipre ++ [c]) ++ suf) by (rewrite <- app_assoc; auto).
    destruct (IH (ipre ++ [c]) buf1 (length buf)) as (buf' & E' & L' & D' & N'); auto.
    { rewrite N1. nia. }
    exists buf'. split; auto. split; auto. split; auto. rewrite N', N1, num_cons.
    rewrite Nat2Z.inj_succ, Z.pow_succ_r by lia. ring.
Qed.

Lemma skip_zeros_spec : forall k pre ds,
  no_lead_zero ds ->
  skip_zeros (pre ++ repeat 0 k ++ ds) (length pre) (k + length ds) =
    Ok ((length pre + k)%nat, length ds).
Proof.
  induction k; intros pre ds N.
  - cbn [repeat app Nat.add]. rewrite Nat.add_0_r. destruct ds as [|d ds]; auto.
    cbn [length skip_zeros]. rewrite rd_app by auto. cbn [bind].
    destruct (Z.eqb_spec d 0); auto. subst. destruct N.
  - cbn [repeat app Nat.add skip_zeros]. rewrite rd_app by auto. cbn [bind Z.eqb].
    replace (S (length pre)) with (length (pre ++ [0])) by (rewrite app_length; cbn; lia).
    replace (pre ++ 0 :: repeat 0 k ++ ds) with ((pre ++ [0]) ++ repeat 0 k ++ ds)
      by (rewrite <- app_assoc; auto).
    rewrite IHk by auto. apply ok2; auto. rewrite app_length. cbn. lia.
Qed.

Definition ok_res (r : res Z) (v : Z) : bool := match r with Ok x => x =? v | _ => false end.
Lemma ok_res_eq : forall r v, ok_res r v = true -> r = Ok v.
Proof. destruct r; cbn; intros; try discriminate. f_equal. lia. Qed.

Lemma b58str_spec : forall d, 0 <= d < 58 -> rd b58str (Z.to_nat d) = Ok (ch58 d).
Proof.
  intros. apply ok_res_eq.
  apply (zrange_forall 58 (fun d => ok_res (rd b58str (Z.to_nat d)) (ch58 d))); auto.
Qed.

Lemma enc_emit_spec : forall ds bpre opre rest outlen,
  digits 58 ds -> (outlen <= length rest)%nat ->
  enc_emit (bpre ++ ds) (length bpre) (length ds) (opre ++ rest) (length opre) outlen =
  let k := Nat.min outlen (length ds) in
  Ok (opre ++ firstn k (map ch58 ds) ++ skipn k rest, (length opre + k)%nat, (outlen - k)%nat).
Proof.
  induction ds as [|d ds IH]; intros bpre opre rest outlen Hd Ho.
  - cbn [length]. rewrite Nat.min_0_r. cbn. destruct outlen; cbn; now rewrite Nat.add_0_r.
  - destruct outlen as [|outlen]; [cbn; now rewrite Nat.add_0_r|].
    destruct rest as [|r rest]; [cbn in Ho; lia|].
    inversion Hd; subst. cbn [length enc_emit]. rewrite rd_app by auto. cbn [bind].
    rewrite b58str_spec by auto. cbn [bind]. rewrite wr_push by auto. cbn [bind].
    replace (S (length bpre)) with (length (bpre ++ [d])) by (rewrite app_length; cbn; lia).
    replace (S (length opre)) with (length (opre ++ [ch58 d])) by (rewrite app_length; cbn; lia).
    replace (bpre ++ d :: ds) with ((bpre ++ [d]) ++ ds) by (rewrite <- app_assoc; auto).
    rewrite IH by (auto; cbn in Ho; lia). cbn zeta. cbn [Nat.min map firstn skipn app].
    apply ok3; [now rewrite <- app_assoc|rewrite app_length; cbn; lia|lia].
Qed.

(** leading zero bytes *)
Lemma enc_zeros_spec : forall z x' ipre opre rest outlen,
  no_lead_zero x' -> (outlen <= length rest)%nat ->
  let k := Nat.min outlen z in
  enc_zeros (ipre ++ repeat 0 z ++ x') (length ipre) (z + length x') (opre ++ rest) (length opre) outlen =
  Ok (opre ++ repeat 49 k ++ skipn k rest, (length opre + k)%nat, (outlen - k)%nat,
      (length ipre + k)%nat, (z - k + length x')%nat).
Proof.
  induction z; intros x' ipre opre rest outlen N Ho; cbn zeta.
  - rewrite Nat.min_0_r. cbn [repeat app Nat.add]. rewrite !Nat.add_0_r, Nat.sub_0_r. cbn [skipn].
    destruct outlen; [destruct x'; reflexivity|]. destruct x' as [|c x']; [reflexivity|].
    cbn [length enc_zeros]. rewrite rd_app by auto. cbn [bind].
    destruct (Z.eqb_spec c 0); auto. subst. destruct N.
  - destruct outlen as [|outlen].
    { cbn. rewrite !Nat.add_0_r. reflexivity. }
    destruct rest as [|r rest]; [cbn in Ho; lia|].
    cbn [repeat app Nat.add enc_zeros]. rewrite rd_app by auto. cbn [bind Z.eqb].
    rewrite wr_push by auto. cbn [bind].
    replace (S (length ipre)) with (length (ipre ++ [0])) by (rewrite app_length; cbn; lia).
    replace (S (length opre)) with (length (opre ++ [49])) by (rewrite app_length; cbn; lia).
    replace (ipre ++ 0 :: repeat 0 z ++ x') with ((ipre ++ [0]) ++ repeat 0 z ++ x')
      by (rewrite <- app_assoc; auto).
    rewrite IHz by (auto; cbn in Ho; lia). cbn [Nat.min repeat app skipn].
    rewrite !app_length. cbn [length]. rewrite <- app_assoc. cbn [app].
    apply ok5; auto; lia.
Qed.

Lemma b58len_small : forall n, Z.of_nat n * 138 / 100 + 1 <= 2 ^ 31 ->
  b58len_of n = Z.of_nat n * 138 / 100 + 1.
Proof.
  intros. unfold b58len_of, u32, u64. change (2 ^ 31) with 2147483648 in *.
  change (2 ^ 32) with 4294967296. change (2 ^ 64) with 18446744073709551616.
  rewrite (Z.mod_small (Z.of_nat n * 138)) by (Z.div_mod_to_equations; lia).
  apply Z.mod_small. Z.div_mod_to_equations; lia.
Qed.
Lemma b256len_small : forall n, Z.of_nat n * 733 / 1000 + 1 <= 2 ^ 31 ->
  b256len_of n = Z.of_nat n * 733 / 1000 + 1.
Proof.
  intros. unfold b256len_of, u32, u64. change (2 ^ 31) with 2147483648 in *.
  change (2 ^ 32) with 4294967296. change (2 ^ 64) with 18446744073709551616.
  rewrite (Z.mod_small (Z.of_nat n * 733)) by (Z.div_mod_to_equations; lia).
  apply Z.mod_small. Z.div_mod_to_equations; lia.
Qed.

Lemma bytes_digits : forall l, bytes l <-> digits 256 l.
Proof. reflexivity. Qed.

Lemma num0_nil : forall ds, digits 58 ds -> no_lead_zero ds -> num 58 ds = 0 -> ds = [].
Proof. intros. apply (nlz_unique 58); auto; try lia; try constructor. Qed.

(** every byte string has a Base 58 text ... *)
Lemma base58_exists : forall x, bytes x -> exists t, base58_of x t.
Proof.
  intros x Hb. destruct (strip x) as (z & x' & -> & N).
  apply bytes_app in Hb. destruct Hb as [_ Hb].
  pose proof (num_bound 256 x' ltac:(lia) Hb) as NB.
  set (L := Z.to_nat (Z.of_nat (length x') * 138 / 100 + 1)).
  pose proof (scratch_enc (Z.of_nat (length x')) ltac:(lia)) as S.
  assert (0 <= Z.of_nat (length x') * 138 / 100) by (apply Z.div_pos; lia).
  destruct (num_exists 58 L (num 256 x')) as (ds & HL & D & E); try lia.
  { unfold L. rewrite Z2Nat.id by lia. lia. }
  destruct (strip ds) as (k & ds' & -> & N').
  exists (repeat 49 z ++ map ch58 ds'). exists z, x', ds'.
  apply Forall_app in D. rewrite num_zeros in E. tauto.
Qed.

Definition val58 (c : Z) : option Z := let v := B58 c in if v <? 0 then None else Some v.

Lemma ch58_B58 : forall d, 0 <= d < 58 -> B58 (ch58 d) = d.
Proof.
  intros. pose proof (zrange_forall 58 (fun d => B58 (ch58 d) =? d) eq_refl d H). cbn beta in *. lia.
Qed.
Lemma ch58_byte : forall d, 0 <= d < 58 -> byte (ch58 d).
Proof.
  intros. apply byteb_spec. exact (zrange_forall 58 (fun d => byteb (ch58 d)) eq_refl d H).
Qed.
Lemma ch58_not1 : forall d, 0 <= d < 58 -> ch58 d = 49 -> d = 0.
Proof. intros. rewrite <- (ch58_B58 d H), H0. reflexivity. Qed.
Lemma b58_tab : forall c, byte c -> rd b58 (Z.to_nat c) = Ok (B58 c).
Proof.
  intros. apply ok_res_eq.
  apply (zrange_forall 256 (fun c => ok_res (rd b58 (Z.to_nat c)) (B58 c))); auto.
Qed.
Lemma B58_is58 : forall c, byte c -> 0 <= B58 c -> is58 c /\ 0 <= B58 c < 58 /\ c = ch58 (B58 c).
Proof.
  intros. pose proof (zrange_forall 256 (fun c => (B58 c <? 0) || ((B58 c <? 58) && (ch58 (B58 c) =? c)))
                        eq_refl c H). cbn beta in H1.
  assert (0 <= B58 c < 58 /\ c = ch58 (B58 c)) by lia. split; [|auto].
  exists (B58 c). auto.
Qed.
Lemma is58_B58 : forall c, is58 c -> byte c /\ 0 <= B58 c.
Proof. intros c (d & H & ->). rewrite ch58_B58 by auto. split; [apply ch58_byte; auto|lia]. Qed.

Lemma map_ch58_inj : forall a b, digits 58 a -> digits 58 b -> map ch58 a = map ch58 b -> a = b.
Proof.
  induction a as [|x a IH]; intros [|y b] Ha Hb E; cbn in E; try discriminate; auto.
  inversion E. inversion Ha; inversion Hb; subst. f_equal; auto.
  rewrite <- (ch58_B58 x), <- (ch58_B58 y) by auto. congruence.
Qed.

Lemma strip49_unique : forall k k' a b,
  repeat 49 k ++ map ch58 a = repeat 49 k' ++ map ch58 b ->
  digits 58 a -> digits 58 b -> no_lead_zero a -> no_lead_zero b -> k = k' /\ a = b.
Proof.
  induction k; intros [|k'] a b E Da Db Na Nb; cbn [repeat app] in *.
  - split; auto. apply map_ch58_inj; auto.
  - destruct a as [|x a]; [discriminate|]. cbn in E. inversion E. inversion Da; subst.
    apply ch58_not1 in H0; auto. subst. destruct Na.
  - destruct b as [|x b]; [discriminate|]. cbn in E. inversion E. inversion Db; subst.
    symmetry in H0. apply ch58_not1 in H0; auto. subst. destruct Nb.
  - inversion E. destruct (IHk k' a b); auto.
Qed.

(** ... exactly one ... *)
Lemma base58_text_unique : forall x t t', base58_of x t -> base58_of x t' -> t = t'.
Proof.
  intros x t t' (z & x1 & ds & E & N & -> & N' & D & V) (z' & x2 & ds' & E' & M & -> & M' & D' & V').
  subst x. apply strip_unique in E'; auto. destruct E' as [-> ->].
  f_equal. f_equal. apply (nlz_unique 58); auto; lia.
Qed.
(** ... and different byte strings have different texts. *)
Lemma base58_bytes_unique : forall x x' t, bytes x -> bytes x' ->
  base58_of x t -> base58_of x' t -> x = x'.
Proof.
  intros x x' t Hb Hb' (z & x1 & ds & -> & N & E & N' & D & V) (z' & x2 & ds' & -> & M & E' & M' & D' & V').
  subst t. apply strip49_unique in E'; auto. destruct E' as [-> ->].
  f_equal. apply bytes_app in Hb. apply bytes_app in Hb'.
  apply (nlz_unique 256); auto; try lia; tauto.
Qed.

Lemma text_is58 : forall x t, base58_of x t -> Forall is58 t.
Proof.
  intros x t (z & x1 & ds & -> & N & -> & N' & D & V). apply Forall_app. split.
  - apply Forall_forall. intros y Hy. apply repeat_spec in Hy. subst. exists 0. split; [lia|reflexivity].
  - apply Forall_forall. intros y Hy. apply in_map_iff in Hy. destruct Hy as (d & <- & Hd).
    exists d. split; auto. eapply Forall_forall in D; eauto.
Qed.

Lemma skipn_cons_S : forall A n (l : list A), (n < length l)%nat ->
  exists x, skipn n l = x :: skipn (S n) l.
Proof.
  induction n; intros [|y l] H; cbn in *; try lia; eauto. apply IHn. lia.
Qed.

(** The whole encoder. *)
Lemma encode_spec : forall x t out outlen,
  bytes x -> base58_of x t -> (outlen <= length out)%nat ->
  Z.of_nat (length x) * 138 / 100 + 1 <= 2 ^ 31 ->
  encode true x (length x) out outlen =
  let k := Nat.min outlen (length t) in
  Ok (firstn k t ++
      (if (length t <? outlen)%nat then 0 :: skipn (S k) out else skipn k out)).
Proof.
  intros x t out outlen Hb (z & x' & ds & -> & N & -> & N' & D & V) Ho Hsz. cbn zeta.
  unfold encode.
  rewrite app_length, repeat_length.
  pose proof (enc_zeros_spec z x' [] [] out outlen N Ho) as E. cbn zeta in E. cbn [app length] in E.
  rewrite E. clear E. cbn [bind Nat.add]. cbn [negb andb].
  set (k := Nat.min outlen z) in *.
  set (m := (z - k + length x')%nat).
  assert (Hm : Z.of_nat m * 138 / 100 + 1 <= 2 ^ 31).
  { etransitivity; [|exact Hsz]. rewrite app_length, repeat_length.
    apply Z.add_le_mono_r. apply Z.div_le_mono; [lia|]. unfold m. lia. }
  rewrite b58len_small by auto.
  set (L := Z.to_nat (Z.of_nat m * 138 / 100 + 1)).
  assert (HL : Z.of_nat L = Z.of_nat m * 138 / 100 + 1).
  { unfold L. rewrite Z2Nat.id; auto. assert (0 <= Z.of_nat m * 138 / 100) by (apply Z.div_pos; lia). lia. }
  rewrite <- HL.
  apply bytes_app in Hb. destruct Hb as [_ Hb].
  (* the remaining input *)
  replace (repeat 0 z ++ x') with (repeat 0 k ++ (repeat 0 (z - k) ++ x'))
    by (rewrite app_assoc, <- repeat_app; do 3 f_equal; unfold k; lia).
  assert (Hlen : length (repeat 0 (z - k) ++ x') = m) by (rewrite app_length, repeat_length; auto).
  rewrite <- Hlen.
  destruct (enc_outer_spec (repeat 0 (z - k) ++ x') (repeat 0 k) (repeat 0 L) L) as (buf & E & BL & BD & BN).
  { apply repeat_length. }
  { lia. }
  { lia. }
  { apply bytes_app. split; auto. apply (digits_repeat0 256). lia. }
  { apply digits_repeat0. lia. }
  { replace (num 58 (repeat 0 L)) with 0 by (rewrite <- (app_nil_r (repeat 0 L)), num_zeros; reflexivity).
    rewrite num_zeros, Z.mul_0_l, Z.add_0_l, HL.
    pose proof (num_bound 256 x' ltac:(lia) Hb).
    pose proof (scratch_enc (Z.of_nat m) ltac:(lia)).
    assert (pw 256 (length x') <= pw 256 m) by (apply Z.pow_le_mono_r; unfold m; lia). lia. }
  rewrite repeat_length in E. rewrite E. clear E. cbn [bind].
  replace (num 58 (repeat 0 L)) with 0 in BN
    by (rewrite <- (app_nil_r (repeat 0 L)), num_zeros; reflexivity).
  rewrite num_zeros, Z.mul_0_l, Z.add_0_l, <- V in BN.
  destruct (strip buf) as (q & ds' & Eb & Nb).
  assert (ds' = ds).
  { subst buf. apply Forall_app in BD. rewrite num_zeros in BN. apply (nlz_unique 58); auto; try lia; tauto. }
  subst ds'. rewrite Eb.
  assert (HLq : L = (q + length ds)%nat).
  { rewrite <- BL, Eb, app_length, repeat_length. auto. }
  rewrite HLq.
  pose proof (skip_zeros_spec q [] ds N') as E. cbn [app length] in E. rewrite E. clear E. cbn [bind Nat.add].
  pose proof (enc_emit_spec ds (repeat 0 q) (repeat 49 k) (skipn k out) (outlen - k)) as E.
  rewrite !repeat_length in E. rewrite E by (auto; rewrite skipn_length; lia). clear E.
  cbn zeta. cbn [bind].
  rewrite !app_length, repeat_length, map_length.
  set (j := Nat.min (outlen - k) (length ds)).
  assert (Hkj : (k + j = Nat.min outlen (z + length ds))%nat) by (unfold j, k; lia).
  (* the text written so far *)
  assert (Ht : repeat 49 k ++ firstn j (map ch58 ds) =
               firstn (Nat.min outlen (z + length ds)) (repeat 49 z ++ map ch58 ds)).
  { rewrite <- Hkj. destruct (Nat.le_gt_cases outlen z).
    - replace j with 0%nat by (unfold j, k; lia). rewrite Nat.add_0_r. cbn [firstn]. rewrite app_nil_r.
      rewrite firstn_app_le by (rewrite repeat_length; unfold k; lia).
      replace z with (k + (z - k))%nat at 1 by (unfold k; lia).
      rewrite repeat_app, firstn_app_le by (rewrite repeat_length; lia).
      symmetry. apply firstn_all2. rewrite repeat_length. lia.
    - replace k with z by (unfold k; lia). rewrite firstn_app_ge by (rewrite repeat_length; lia).
      rewrite repeat_length. do 2 f_equal. lia. }
  rewrite app_assoc, Ht, skipn_skipn. replace (j + k)%nat with (Nat.min outlen (z + length ds)) by lia.
  replace (k + j)%nat with (Nat.min outlen (z + length ds)) by lia.
  set (T := Nat.min outlen (z + length ds)) in *.
  destruct (Nat.eqb_spec (outlen - k - j) 0).
  - destruct (Nat.ltb_spec (z + length ds) outlen); [lia|reflexivity].
  - destruct (Nat.ltb_spec (z + length ds) outlen); [|lia].
    destruct (skipn_cons_S _ T out) as (w & Ew); [lia|]. rewrite Ew.
    rewrite wr_app; auto. rewrite firstn_length, app_length, repeat_length, map_length. lia.
Qed.

(** *** Decoder *)

Lemma dec_ones_spec : forall z t' ipre opre rest,
  match t' with 49 :: _ => False | _ => True end -> (z <= length rest)%nat ->
  dec_ones (ipre ++ repeat 49 z ++ t') (length ipre) (z + length t') (opre ++ rest) (length opre) =
  Ok (opre ++ repeat 0 z ++ skipn z rest, (length opre + z)%nat, (length ipre + z)%nat, length t').
Proof.
  induction z; intros t' ipre opre rest N Ho.
  - cbn [repeat app Nat.add skipn]. rewrite !Nat.add_0_r. destruct t' as [|c t']; [reflexivity|].
    cbn [length dec_ones]. rewrite rd_app by auto. cbn [bind].
    destruct (Z.eqb_spec c 49); auto. subst. destruct N.
  - destruct rest as [|r rest]; [cbn in Ho; lia|].
    cbn [repeat app Nat.add dec_ones]. rewrite rd_app by auto. cbn [bind Z.eqb].
    change (Pos.eqb 49 49) with true. cbn match.
    rewrite wr_push by auto. cbn [bind].
    replace (S (length ipre)) with (length (ipre ++ [49])) by (rewrite app_length; cbn; lia).
    replace (S (length opre)) with (length (opre ++ [0])) by (rewrite app_length; cbn; lia).
    replace (ipre ++ 49 :: repeat 49 z ++ t') with ((ipre ++ [49]) ++ repeat 49 z ++ t')
      by (rewrite <- app_assoc; auto).
    rewrite IHz by (auto; cbn in Ho; lia). cbn [repeat app skipn].
    rewrite !app_length. cbn [length]. rewrite <- app_assoc. cbn [app].
    apply ok4; auto; lia.
Qed.

Lemma isbase58_spec : forall c, byte c -> isbase58 c = Ok (0 <=? B58 c).
Proof. intros. unfold isbase58. rewrite b58_tab by auto. reflexivity. Qed.

(** digits of good characters followed by a (possibly empty) bad tail *)
Lemma dec_outer_spec : forall ds bad ipre buf L,
  length buf = L -> (0 < L)%nat -> Z.of_nat L <= 2 ^ 31 ->
  digits 58 ds -> bytes bad -> match bad with c :: _ => ~ is58 c | [] => True end ->
  digits 256 buf ->
  num 256 buf * pw 58 (length ds) + num 58 ds < pw 256 L ->
  exists buf', dec_outer (ipre ++ map ch58 ds ++ bad) (length ipre) (length ds + length bad) buf (Z.of_nat L)
      = Ok (buf', length bad, false) /\
    length buf' = L /\ digits 256 buf' /\
    num 256 buf' = num 256 buf * pw 58 (length ds) + num 58 ds.
Proof.
  induction ds as [|d ds IH]; intros bad ipre buf L HL H0 H31 Hds Hbad Hb Hd Hlt.
  - exists buf. split; [|repeat split; auto; unfold num; cbn; lia].
    cbn [map app length Nat.add]. destruct bad as [|c bad]; [reflexivity|].
    apply bytes_cons in Hbad. destruct Hbad as [Hc _].
    cbn [length dec_outer]. rewrite rd_app by auto. cbn [bind].
    rewrite isbase58_spec by auto. cbn [bind].
    destruct (Z.leb_spec 0 (B58 c)); [|reflexivity].
    exfalso. apply Hb. apply B58_is58; auto.
  - inversion Hds; subst.
    cbn [map app length Nat.add dec_outer]. rewrite rd_app by auto. cbn [bind].
    pose proof (ch58_byte d H2). rewrite isbase58_spec by auto. rewrite ch58_B58 by auto. cbn [bind].
    destruct (Z.leb_spec 0 d); [|lia]. cbn [negb].
    rewrite b58_tab by auto. rewrite ch58_B58 by auto. cbn [bind].
    rewrite int32_small by auto. rewrite (Z.mod_small d 256) by lia.
    rewrite num_cons in Hlt. cbn [length] in Hlt.
    rewrite Nat2Z.inj_succ, Z.pow_succ_r in Hlt by lia.
    assert (P : 0 < pw 58 (length ds)) by (apply Z.pow_pos_nonneg; lia).
    pose proof (num_bound 58 ds ltac:(lia) H3) as NB.
    pose proof (num_bound 256 buf ltac:(lia) Hd) as NB'.
    destruct (dec_inner_spec buf [] d (S (length buf))) as (buf1 & c1 & E & L1 & D1 & C1 & N1); auto; try lia.
    rewrite !app_nil_r in E. rewrite E. cbn [bind].
    pose proof (num_bound 256 buf1 ltac:(lia) D1) as NB1. rewrite L1 in NB1.
    assert (PL : 0 < pw 256 (length buf)) by (apply Z.pow_pos_nonneg; lia).
    assert (c1 = 0).
    { assert (58 * num 256 buf + d < pw 256 (length buf)) by nia. nia. }
    subst c1. cbn [Z.eqb negb].
    replace (S (length ipre)) with (length (ipre ++ [ch58 d])) by (rewrite app_length; cbn; lia).
    replace (ipre ++ ch58 d :: map ch58 ds ++ bad) with ((ipre ++ [ch58 d]) ++ map ch58 ds ++ bad)
      by (rewrite <- app_assoc; auto).
    destruct (IH bad (ipre ++ [ch58 d]) buf1 (length buf)) as (buf' & E' & L' & D' & N'); auto.
    { nia. }
    exists buf'. split; auto. split; auto. split; auto. rewrite N', num_cons.
    rewrite Nat2Z.inj_succ, Z.pow_succ_r by lia. nia.
Qed.

Lemma dec_emit_spec : forall ds bpre opre rest,
  (length ds <= length rest)%nat ->
  dec_emit (bpre ++ ds) (length bpre) (length ds) (opre ++ rest) (length opre) =
  Ok (opre ++ ds ++ skipn (length ds) rest).
Proof.
  induction ds as [|d ds IH]; intros bpre opre rest Ho; [reflexivity|].
  destruct rest as [|r rest]; [cbn in Ho; lia|].
  cbn [length dec_emit]. rewrite rd_app by auto. cbn [bind]. rewrite wr_push by auto. cbn [bind].
  replace (S (length bpre)) with (length (bpre ++ [d])) by (rewrite app_length; cbn; lia).
  replace (S (length opre)) with (length (opre ++ [d])) by (rewrite app_length; cbn; lia).
  replace (bpre ++ d :: ds) with ((bpre ++ [d]) ++ ds) by (rewrite <- app_assoc; auto).
  rewrite IH by (cbn in Ho; lia). cbn [skipn]. rewrite <- !app_assoc. reflexivity.
Qed.

Lemma not49 : forall ds bad, digits 58 ds -> no_lead_zero ds ->
  match bad with c :: _ => ~ is58 c | [] => True end ->
  match map ch58 ds ++ bad with 49 :: _ => False | _ => True end.
Proof.
  intros. destruct ds as [|d ds].
  - cbn. destruct bad as [|c bad]; auto. destruct (Z.eq_dec c 49) as [->|N].
    + apply H1. exists 0. split; [lia|reflexivity].
    + destruct c; auto. destruct p; auto; repeat (destruct p; auto).
  - inversion H; subst. cbn. destruct (Z.eq_dec (ch58 d) 49) as [E|N].
    + apply ch58_not1 in E; auto. subst. destruct H0.
    + destruct (ch58 d); auto. destruct p; auto; repeat (destruct p; auto).
Qed.

Lemma num0_repeat : forall B L, num B (repeat 0 L) = 0.
Proof. intros. rewrite <- (app_nil_r (repeat 0 L)), num_zeros. reflexivity. Qed.

(** Common part of decoding good and bad texts. *)
Lemma decode_core : forall z ds bad out,
  digits 58 ds -> no_lead_zero ds -> bytes bad ->
  match bad with c :: _ => ~ is58 c | [] => True end ->
  let t := repeat 49 z ++ map ch58 ds ++ bad in
  Z.of_nat (length t) * 733 / 1000 + 1 <= 2 ^ 31 ->
  (z <= length out)%nat ->
  let m := (length ds + length bad)%nat in
  let L := Z.to_nat (Z.of_nat m * 733 / 1000 + 1) in
  exists buf,
    length buf = L /\ digits 256 buf /\ num 256 buf = num 58 ds /\
    decode true t (length t) out =
    (if negb (length bad =? 0)%nat
     then Ok (- Z.of_nat (length t) + Z.of_nat (length bad), repeat 0 z ++ skipn z out)
     else '(cur, len) <- skip_zeros buf 0 L ;;
          out' <- dec_emit buf cur len (repeat 0 z ++ skipn z out) z ;;
          Ok (Z.of_nat z + Z.of_nat len, out')).
Proof.
  intros z ds bad out D N Bb Hbad t Hsz Ho m L.
  assert (HL : Z.of_nat L = Z.of_nat m * 733 / 1000 + 1).
  { unfold L. rewrite Z2Nat.id; auto.
    assert (0 <= Z.of_nat m * 733 / 1000) by (apply Z.div_pos; lia). lia. }
  assert (Hlen : length t = (z + m)%nat).
  { unfold t. rewrite !app_length, repeat_length, map_length. unfold m. lia. }
  assert (Hm : Z.of_nat m * 733 / 1000 + 1 <= 2 ^ 31).
  { etransitivity; [|exact Hsz]. apply Z.add_le_mono_r. apply Z.div_le_mono; [lia|]. lia. }
  assert (0 <= Z.of_nat m * 733 / 1000) by (apply Z.div_pos; lia).
  destruct (dec_outer_spec ds bad (repeat 49 z) (repeat 0 L) L) as (buf & E & BL & BD & BN); auto.
  { apply repeat_length. }
  { lia. }
  { lia. }
  { apply digits_repeat0; lia. }
  { rewrite num0_repeat, HL, Z.mul_0_l, Z.add_0_l.
    pose proof (num_bound 58 ds ltac:(lia) D).
    pose proof (scratch_dec (Z.of_nat m) ltac:(lia)).
    assert (pw 58 (length ds) <= pw 58 m) by (apply Z.pow_le_mono_r; unfold m; lia). lia. }
  rewrite num0_repeat, Z.mul_0_l, Z.add_0_l in BN.
  exists buf. repeat (split; auto).
  unfold decode. rewrite Hlen at 1.
  pose proof (dec_ones_spec z (map ch58 ds ++ bad) [] [] out (not49 _ _ D N Hbad) Ho) as E1.
  cbn [app length Nat.add] in E1. rewrite app_length, map_length in E1.
  fold m in E1. fold t in E1. rewrite E1. clear E1. cbn [bind negb].
  rewrite b256len_small by auto. rewrite <- HL, Nat2Z.id.
  rewrite repeat_length in E. fold t in E. fold m in E. rewrite E. cbn [bind].
  reflexivity.
Qed.

Lemma decode_spec : forall x t out,
  bytes x -> base58_of x t -> (length x <= length out)%nat ->
  Z.of_nat (length t) * 733 / 1000 + 1 <= 2 ^ 31 ->
  decode true t (length t) out = Ok (Z.of_nat (length x), x ++ skipn (length x) out).
Proof.
  intros x t out Hb (z & x' & ds & -> & N & -> & N' & D & V) Ho Hsz.
  rewrite app_length, repeat_length in Ho.
  pose proof (decode_core z ds [] out D N' ltac:(constructor) I) as C. cbn zeta in C.
  rewrite app_nil_r in C. destruct (C Hsz ltac:(lia)) as (buf & BL & BD & BN & E).
  rewrite E. cbn [length Nat.eqb negb]. cbn [length] in BL.
  apply bytes_app in Hb. destruct Hb as [_ Hb].
  destruct (strip buf) as (q & x2 & -> & N2).
  assert (x2 = x').
  { apply Forall_app in BD. rewrite num_zeros in BN. apply (nlz_unique 256); auto; try lia; tauto. }
  subst x2. rewrite <- BL. rewrite app_length, repeat_length.
  pose proof (skip_zeros_spec q [] x' N2) as E1. cbn [app length Nat.add] in E1. rewrite E1. clear E1.
  cbn [bind].
  pose proof (dec_emit_spec x' (repeat 0 q) (repeat 0 z) (skipn z out)) as E1.
  rewrite !repeat_length in E1. rewrite E1 by (rewrite skipn_length; lia). cbn [bind].
  rewrite app_length, repeat_length, <- app_assoc, skipn_skipn. apply ok2; [lia|].
  do 3 f_equal. lia.
Qed.

(** every text over the alphabet is the text of some byte string *)
Lemma text_exists : forall t, Forall is58 t -> exists x, bytes x /\ base58_of x t.
Proof.
  intros t Ht.
  assert (exists ds, t = map ch58 ds /\ digits 58 ds) as (ds & -> & D).
  { induction Ht as [|c t (d & H & ->) Ht (ds & -> & D)].
    - exists []. split; auto. constructor.
    - exists (d :: ds). split; auto. constructor; auto. }
  destruct (strip ds) as (z & ds' & -> & N). apply Forall_app in D. destruct D as [_ D].
  pose proof (num_bound 58 ds' ltac:(lia) D) as NB.
  destruct (num_exists 256 (length ds') (num 58 ds')) as (y & _ & Dy & Ny); try lia.
  { split; [lia|]. assert (pw 58 (length ds') <= pw 256 (length ds')) by (apply Z.pow_le_mono_l; lia). lia. }
  destruct (strip y) as (k & x' & -> & N'). apply Forall_app in Dy. rewrite num_zeros in Ny.
  exists (repeat 0 z ++ x'). split.
  - apply bytes_app. split; [apply (digits_repeat0 256); lia|tauto].
  - exists z, x', ds'. rewrite map_app, map_repeat. change (ch58 0) with 49.
    repeat (split; auto).
Qed.

(** bad texts: the longest prefix of alphabet characters *)
Lemma split_bad : forall t, bytes t ->
  exists good bad, t = good ++ bad /\ Forall is58 good /\ bytes bad /\
    match bad with c :: _ => ~ is58 c | [] => True end.
Proof.
  induction t as [|c t IH]; intros Hb.
  - exists [], []. repeat split; auto; constructor.
  - apply bytes_cons in Hb. destruct Hb as [Hc Hb].
    destruct (Z_le_gt_dec 0 (B58 c)) as [G|G].
    + destruct (IH Hb) as (g & b & -> & Fg & Bb & Hbad).
      exists (c :: g), b. repeat split; auto. constructor; auto. apply B58_is58; auto.
    + exists [], (c :: t). repeat split; auto; try constructor; auto.
      intros H. apply is58_B58 in H. lia.
Qed.

Lemma good_shape : forall g, Forall is58 g ->
  exists z ds, g = repeat 49 z ++ map ch58 ds /\ digits 58 ds /\ no_lead_zero ds.
Proof.
  intros g Hg. destruct (text_exists g Hg) as (x & _ & (z & x' & ds & _ & _ & -> & N & D & _)).
  exists z, ds. auto.
Qed.

(** number of leading '1' characters *)
Fixpoint lead_ones (t : list Z) : nat :=
  match t with c :: t' => if c =? 49 then S (lead_ones t') else 0 | [] => 0 end.

Lemma lead_ones_app : forall z t, match t with 49 :: _ => False | _ => True end ->
  lead_ones (repeat 49 z ++ t) = z.
Proof.
  induction z; intros; cbn.
  - destruct t; auto. cbn. destruct (Z.eqb_spec z 49); auto. subst. destruct H.
  - f_equal. auto.
Qed.

Lemma decode_bad_spec : forall good c bad out,
  Forall is58 good -> ~ is58 c -> bytes (c :: bad) ->
  let t := good ++ c :: bad in
  Z.of_nat (length t) * 733 / 1000 + 1 <= 2 ^ 31 ->
  (lead_ones good <= length out)%nat ->
  decode true t (length t) out =
    Ok (- Z.of_nat (length good), repeat 0 (lead_ones good) ++ skipn (lead_ones good) out).
Proof.
  intros good c bad out Hg Hc Hb t Hsz Ho.
  destruct (good_shape good Hg) as (z & ds & -> & D & N).
  assert (lead_ones (repeat 49 z ++ map ch58 ds) = z) as ->.
  { apply lead_ones_app. pose proof (not49 ds [] D N I). rewrite app_nil_r in H. auto. }
  assert (z <= length out)%nat as Ho'.
  { rewrite lead_ones_app in Ho; auto. pose proof (not49 ds [] D N I). rewrite app_nil_r in H. auto. }
  unfold t in *. rewrite <- app_assoc in *.
  destruct (decode_core z ds (c :: bad) out D N Hb Hc Hsz Ho') as (buf & _ & _ & _ & E).
  rewrite E. cbn [length Nat.eqb negb]. rewrite !app_length. cbn [length]. apply ok2; auto. lia.
Qed.

(** *** the allocating variants *)

Lemma count_lead_spec : forall c z t' ipre,
  match t' with x :: _ => x <> c | [] => True end ->
  count_lead c (ipre ++ repeat c z ++ t') (length ipre) (z + length t') =
    Ok ((length ipre + z)%nat, length t').
Proof.
  induction z; intros t' ipre N.
  - cbn [repeat app Nat.add]. rewrite Nat.add_0_r. destruct t' as [|x t']; [reflexivity|].
    cbn [length count_lead]. rewrite rd_app by auto. cbn [bind].
    destruct (Z.eqb_spec x c); auto. congruence.
  - cbn [repeat app Nat.add count_lead]. rewrite rd_app by auto. cbn [bind].
    rewrite Z.eqb_refl.
    replace (S (length ipre)) with (length (ipre ++ [c])) by (rewrite app_length; cbn; lia).
    replace (ipre ++ c :: repeat c z ++ t') with ((ipre ++ [c]) ++ repeat c z ++ t')
      by (rewrite <- app_assoc; auto).
    rewrite IHz by auto. apply ok2; auto. rewrite app_length. cbn. lia.
Qed.

Lemma nlz_match : forall x, no_lead_zero x -> match x with y :: _ => y <> 0 | [] => True end.
Proof. intros [|y x] H; auto. destruct y; cbn in *; auto; lia. Qed.

Lemma text_length_bound : forall x' ds,
  bytes x' -> no_lead_zero ds -> digits 58 ds -> num 58 ds = num 256 x' ->
  Z.of_nat (length ds) <= Z.of_nat (length x') * 138 / 100 + 1.
Proof.
  intros x' ds Hb N D V.
  pose proof (num_bound 256 x' ltac:(lia) Hb).
  pose proof (scratch_enc (Z.of_nat (length x')) ltac:(lia)) as S.
  destruct ds as [|d ds]; [cbn; assert (0 <= Z.of_nat (length x') * 138 / 100) by (apply Z.div_pos; lia); lia|].
  assert (d <> 0) by (destruct d; cbn in N; auto; lia).
  pose proof (num_lead 58 d ds ltac:(lia) D H0).
  destruct (Z_le_gt_dec (Z.of_nat (length (d :: ds))) (Z.of_nat (length x') * 138 / 100 + 1)); auto.
  assert (58 ^ (Z.of_nat (length x') * 138 / 100 + 1) <= pw 58 (length ds)).
  { apply Z.pow_le_mono_r; cbn [length] in *; lia. }
  lia.
Qed.

Lemma bytes_length_bound : forall x' ds,
  bytes x' -> no_lead_zero x' -> digits 58 ds -> num 58 ds = num 256 x' ->
  Z.of_nat (length x') <= Z.of_nat (length ds) * 733 / 1000 + 1.
Proof.
  intros x' ds Hb N D V.
  pose proof (num_bound 58 ds ltac:(lia) D).
  pose proof (scratch_dec (Z.of_nat (length ds)) ltac:(lia)) as S.
  destruct x' as [|d x']; [cbn; assert (0 <= Z.of_nat (length ds) * 733 / 1000) by (apply Z.div_pos; lia); lia|].
  assert (d <> 0) by (destruct d; cbn in N; auto; lia).
  pose proof (num_lead 256 d x' ltac:(lia) Hb H0).
  destruct (Z_le_gt_dec (Z.of_nat (length (d :: x'))) (Z.of_nat (length ds) * 733 / 1000 + 1)); auto.
  assert (256 ^ (Z.of_nat (length ds) * 733 / 1000 + 1) <= pw 256 (length x')).
  { apply Z.pow_le_mono_r; cbn [length] in *; lia. }
  lia.
Qed.

Lemma encode_alloc_spec : forall fresh x t,
  (forall n b, fresh n = Some b -> length b = n) ->
  bytes x -> base58_of x t -> Z.of_nat (length x) * 138 / 100 + 1 <= 2 ^ 31 ->
  exists cap, (length t < cap)%nat /\
  encode_alloc true fresh x (length x) =
  match fresh cap with
  | None => Ok (cap, None)
  | Some blk => Ok (pred cap, Some (t ++ 0 :: skipn (S (length t)) blk))
  end.
Proof.
  intros fresh x t Hf Hb Ht Hsz.
  pose proof Ht as (z & x' & ds & -> & N & -> & N' & D & V).
  pose proof Hb as Hb0. apply bytes_app in Hb0. destruct Hb0 as [_ Hb'].
  pose proof (text_length_bound x' ds Hb' N' D V) as TL.
  set (n := Z.of_nat z + Z.of_nat (length x') * 138 / 100 + 2).
  assert (P : 0 <= Z.of_nat (length x') * 138 / 100) by (apply Z.div_pos; lia).
  rewrite app_length, repeat_length in Hsz.
  assert (B : n < 2 ^ 64 /\ Z.of_nat (length x') * 138 < 2 ^ 64).
  { unfold n. change (2 ^ 31) with 2147483648 in *. change (2 ^ 64) with 18446744073709551616.
    Z.div_mod_to_equations. lia. }
  exists (Z.to_nat n). split.
  { rewrite app_length, repeat_length, map_length. unfold n. lia. }
  unfold encode_alloc. rewrite app_length, repeat_length.
  pose proof (count_lead_spec 0 z x' [] (nlz_match _ N)) as E. cbn [app length Nat.add] in E.
  rewrite E. clear E. cbn [bind].
  unfold u64. rewrite (Z.mod_small (Z.of_nat (length x') * 138)) by lia.
  fold n. rewrite (Z.mod_small n) by lia.
  destruct (fresh (Z.to_nat n)) as [blk|] eqn:F; auto.
  apply Hf in F.
  pose proof (encode_spec (repeat 0 z ++ x') (repeat 49 z ++ map ch58 ds) blk (Z.to_nat n) Hb Ht ltac:(lia)) as E.
  rewrite !app_length, !repeat_length, map_length in E. rewrite E by auto. clear E. cbn zeta. cbn [bind].
  rewrite app_length, repeat_length, map_length.
  destruct (Nat.ltb_spec (z + length ds) (Z.to_nat n)); [|lia].
  rewrite Nat.min_r by lia. rewrite firstn_all2 by (rewrite app_length, repeat_length, map_length; lia).
  reflexivity.
Qed.

Lemma decode_alloc_spec : forall fresh x t,
  (forall n b, fresh n = Some b -> length b = n) ->
  bytes x -> base58_of x t -> Z.of_nat (length t) * 733 / 1000 + 1 <= 2 ^ 31 ->
  exists cap, (length x <= cap)%nat /\
  decode_alloc true fresh t (length t) =
  match fresh cap with
  | None => Ok (1, None)
  | Some blk => Ok (Z.of_nat (length x), Some (x ++ skipn (length x) blk))
  end.
Proof.
  intros fresh x t Hf Hb Ht Hsz.
  pose proof Ht as (z & x' & ds & -> & N & -> & N' & D & V).
  pose proof Hb as Hb0. apply bytes_app in Hb0. destruct Hb0 as [_ Hb'].
  pose proof (bytes_length_bound x' ds Hb' N D V) as TL.
  set (n := Z.of_nat z + Z.of_nat (length ds) * 733 / 1000 + 1).
  assert (P : 0 <= Z.of_nat (length ds) * 733 / 1000) by (apply Z.div_pos; lia).
  pose proof Hsz as Hsz'. rewrite app_length, repeat_length, map_length in Hsz.
  assert (B : n < 2 ^ 64 /\ Z.of_nat (length ds) * 733 < 2 ^ 64).
  { unfold n. change (2 ^ 31) with 2147483648 in *. change (2 ^ 64) with 18446744073709551616.
    Z.div_mod_to_equations. lia. }
  exists (Z.to_nat n). split.
  { rewrite app_length, repeat_length. unfold n. lia. }
  unfold decode_alloc. rewrite (app_length (repeat 49 z)), repeat_length at 1.
  pose proof (count_lead_spec 49 z (map ch58 ds) []) as E. cbn [app length Nat.add] in E.
  rewrite E. clear E.
  2: { pose proof (not49 ds [] D N' I) as Q. rewrite app_nil_r in Q.
       destruct (map ch58 ds); auto. intro; subst; auto. }
  cbn [bind]. rewrite map_length.
  unfold u64. rewrite (Z.mod_small (Z.of_nat (length ds) * 733)) by lia.
  fold n. rewrite (Z.mod_small n) by lia.
  destruct (fresh (Z.to_nat n)) as [blk|] eqn:F; auto.
  apply Hf in F.
  rewrite (decode_spec (repeat 0 z ++ x') (repeat 49 z ++ map ch58 ds) blk Hb Ht); auto.
  2: { rewrite app_length, repeat_length. unfold n in F. lia. }
  cbn [bind]. rewrite !app_length.
  destruct (Z.ltb_spec (Z.of_nat (length (repeat 0 z) + length x')) 0); [lia|]. reflexivity.
Qed.

(** *** Statements used by Base58_Props.v *)

Lemma roundtrip_lemma : forall x, bytes x -> Z.of_nat (length x) * 138 / 100 + 1 <= 2 ^ 31 ->
  exists t, base58_of x t /\
    (forall ebuf outlen, (length t < outlen <= length ebuf)%nat ->
       encode true x (length x) ebuf outlen = Ok (t ++ 0 :: skipn (S (length t)) ebuf)) /\
    (forall dbuf, (length x <= length dbuf)%nat ->
       decode true t (length t) dbuf = Ok (Z.of_nat (length x), x ++ skipn (length x) dbuf)).
Proof.
  intros x Hb Hsz. destruct (base58_exists x Hb) as (t & Ht). exists t. split; auto. split.
  - intros. rewrite (encode_spec x t) by (auto; lia). cbn zeta.
    destruct (Nat.ltb_spec (length t) outlen); [|lia]. rewrite Nat.min_r by lia.
    now rewrite firstn_all.
  - intros. apply decode_spec; auto.
    pose proof Ht as (z & x' & ds & -> & N & -> & N' & D & V).
    apply bytes_app in Hb. destruct Hb as [_ Hb].
    pose proof (text_length_bound x' ds Hb N' D V) as TL.
    rewrite app_length, repeat_length in Hsz. rewrite app_length, repeat_length, map_length.
    change (2 ^ 31) with 2147483648 in *.
    Z.div_mod_to_equations; lia.
Qed.

Lemma inverse_lemma : forall t, Forall is58 t -> Z.of_nat (length t) * 138 / 100 + 1 <= 2 ^ 31 ->
  exists x, bytes x /\ base58_of x t /\
    (forall dbuf, (length x <= length dbuf)%nat ->
       decode true t (length t) dbuf = Ok (Z.of_nat (length x), x ++ skipn (length x) dbuf)) /\
    (forall ebuf outlen, (length t < outlen <= length ebuf)%nat ->
       encode true x (length x) ebuf outlen = Ok (t ++ 0 :: skipn (S (length t)) ebuf)).
Proof.
  intros t Ht Hsz. destruct (text_exists t Ht) as (x & Hb & B). exists x. split; auto. split; auto.
  assert (HL : (length x <= length t)%nat).
  { pose proof B as (z & x' & ds & -> & N & -> & N' & D & V).
    apply bytes_app in Hb. destruct Hb as [_ Hb].
    pose proof (bytes_length_bound x' ds Hb N D V) as TL.
    rewrite !app_length, !repeat_length, map_length.
    destruct ds as [|d ds].
    - assert (x' = []) as ->; [|cbn; lia]. apply (nlz_unique 256); auto; try lia; try constructor.
    - cbn [length] in *. Z.div_mod_to_equations; lia. }
  split.
  - intros. apply decode_spec; auto.
    change (2 ^ 31) with 2147483648 in *. Z.div_mod_to_equations; lia.
  - intros. assert (Z.of_nat (length x) * 138 / 100 + 1 <= 2 ^ 31)
      by (change (2 ^ 31) with 2147483648 in *; Z.div_mod_to_equations; lia).
    rewrite (encode_spec x t); auto; try lia.
    cbn zeta. destruct (Nat.ltb_spec (length t) outlen); [|lia]. rewrite Nat.min_r by lia.
    now rewrite firstn_all.
Qed.

Lemma scratch_lemma : 
  (forall x out outlen, bytes x -> Z.of_nat (length x) * 138 / 100 + 1 <= 2 ^ 31 ->
     (outlen <= length out)%nat -> exists out', encode true x (length x) out outlen = Ok out') /\
  (forall t out, bytes t -> Z.of_nat (length t) * 733 / 1000 + 1 <= 2 ^ 31 ->
     (length t <= length out)%nat -> exists r out', decode true t (length t) out = Ok (r, out')).
Proof.
  split.
  - intros. destruct (base58_exists x H) as (t & Ht).
    rewrite (encode_spec x t); auto. eexists; reflexivity.
  - intros t out Hb Hsz Ho. destruct (split_bad t Hb) as (g & bad & -> & Fg & Bb & Hbad).
    destruct bad as [|c bad].
    + rewrite app_nil_r in *. destruct (text_exists g Fg) as (x & Hx & B).
      rewrite (decode_spec x g); auto; [eauto|].
      pose proof B as (z & x' & ds & -> & N & -> & N' & D & V).
      apply bytes_app in Hx. destruct Hx as [_ Hx].
      pose proof (bytes_length_bound x' ds Hx N D V) as TL.
      rewrite !app_length, !repeat_length, map_length in *.
      destruct ds as [|d ds].
      * assert (x' = []) as ->; [|cbn in *; lia]. apply (nlz_unique 256); auto; try lia; try constructor.
      * cbn [length] in *. Z.div_mod_to_equations; lia.
    + rewrite decode_bad_spec; eauto.
      assert (forall l, (lead_ones l <= length l)%nat).
      { induction l as [|y l IH]; cbn; [lia|]. destruct (y =? 49); lia. }
      specialize (H g). rewrite app_length in Ho. lia.
Qed.

Lemma huge_lemma : exists x, bytes x /\ Z.of_nat (length x) = 3112295142 /\
  forall out outlen, (outlen <= length out)%nat -> encode true x (length x) out outlen = Ub OobRead.
Proof.
  assert (exists m, Z.of_nat m = 3112295141) as (m & Hm).
  { exists (Z.to_nat 3112295141). exact (Z2Nat.id 3112295141 ltac:(discriminate)). }
  exists (1 :: repeat 1 m). cbn [length]. rewrite repeat_length. split; [|split].
  - apply bytes_cons. split; [unfold byte; lia|]. apply Forall_forall. intros y Hy.
    apply repeat_spec in Hy. unfold byte. lia.
  - lia.
  - intros. unfold encode. cbn [enc_zeros].
    destruct outlen; cbn [rd nth_error bind Z.eqb]; cbn match; cbn [bind].
    all: replace (b58len_of (S m)) with 0
      by (unfold b58len_of; rewrite Nat2Z.inj_succ, Hm; vm_compute; reflexivity).
    all: cbn [negb andb]; change (Z.to_nat 0) with 0%nat; cbn [repeat enc_outer rd nth_error bind].
    all: reflexivity.
Qed.
