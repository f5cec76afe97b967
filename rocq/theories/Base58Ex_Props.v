(** Property C13, what the number of coda_base58_encode_alloc is and when it is right
    (coda/base58.c:61-79). *)

From Coq Require Import ZArith List Lia.
From Verif Require Import Base Base58_Model Base58_Spec Base58_Proof.
Import ListNotations.
Local Open Scope Z_scope.

(** C13.  The number returned with a block is the number of leading zero bytes plus
    138 hundredths of the number n of the other bytes plus one, whatever they are; without
    a block it is one more.  It is the length of the text exactly when the bytes, read as
    a number, have as many digits to the base 58 as there can be. *)
Theorem C13_encode_alloc_number : forall fresh z x' t,
  (forall n b, fresh n = Some b -> length b = n) ->
  no_lead_zero x' -> bytes (repeat 0 z ++ x') -> base58_of (repeat 0 z ++ x') t ->
  Z.of_nat (z + length x') * 138 / 100 + 1 <= 2 ^ 31 ->
  let k := Z.of_nat (length x') * 138 / 100 in
  exists r blk, encode_alloc true fresh (repeat 0 z ++ x') (z + length x') = Ok (r, blk) /\
    (blk = None -> Z.of_nat r = Z.of_nat z + k + 2) /\
    (blk <> None -> Z.of_nat r = Z.of_nat z + k + 1 /\
                    (r = length t <-> 58 ^ k <= num 256 x')).
Proof.
  intros fresh z x' t Hf N Hb Ht Hsz k.
  destruct (encode_alloc_spec fresh (repeat 0 z ++ x') t Hf Hb Ht) as (cap & _ & E).
  { rewrite app_length, repeat_length. exact Hsz. }
  rewrite app_length, repeat_length in E.
  assert (P : 0 <= k) by (unfold k; apply Z.div_pos; lia).
  assert (B : Z.of_nat z + k + 2 < 2 ^ 64 /\ Z.of_nat (length x') * 138 < 2 ^ 64).
  { unfold k. change (2 ^ 31) with 2147483648 in *. change (2 ^ 64) with 18446744073709551616.
    Z.div_mod_to_equations. lia. }
  pose proof (count_lead_spec 0 z x' [] (nlz_match _ N)) as C. cbn [app length Nat.add] in C.
  set (n := Z.to_nat (Z.of_nat z + k + 2)).
  assert (Hr : exists blk, encode_alloc true fresh (repeat 0 z ++ x') (z + length x') =
                 Ok (match fresh n with None => n | Some _ => pred n end, blk) /\ (blk = None <-> fresh n = None)).
  { unfold encode_alloc in *. rewrite C in *. cbn [bind] in *.
    unfold u64 in *. rewrite (Z.mod_small (Z.of_nat (length x') * 138)) in * by lia.
    fold k in E |- *. rewrite (Z.mod_small (Z.of_nat z + k + 2)) in * by lia. fold n in E |- *.
    destruct (fresh n) as [b|] eqn:F.
    - destruct (encode true (repeat 0 z ++ x') (z + length x') b n) as [b'| |] eqn:G; cbn [bind] in *.
      + exists (Some b'). split; [reflexivity|split; discriminate].
      + destruct (fresh cap); discriminate.
      + destruct (fresh cap); discriminate.
    - exists None. split; [reflexivity|tauto]. }
  destruct Hr as (blk & Hr & Hn). rewrite Hr.
  eexists _, blk. split; [reflexivity|].
  assert (Hlen : length t = (z + length (skipn z t))%nat /\ (Z.of_nat z + k + 1 = Z.of_nat (length t) <-> 58 ^ k <= num 256 x')).
  { destruct Ht as (z2 & x2 & ds & Ex & N2 & -> & N' & D & V).
    assert (z2 = z /\ x2 = x') as [-> ->].
    { clear - Ex N N2. revert z2 Ex. induction z as [|z IH]; intros [|z2] Ex; cbn [repeat app] in Ex.
      - auto.
      - subst x'. destruct N.
      - subst x2. destruct N2.
      - injection Ex as Ex. destruct (IH _ Ex); auto. }
    apply bytes_app in Hb. destruct Hb as [_ Hb'].
    pose proof (text_length_bound x' ds Hb' N' D V) as TL. fold k in TL.
    split; [rewrite skipn_app, repeat_length, Nat.sub_diag, skipn_all2, !app_length, repeat_length by (rewrite repeat_length; lia); reflexivity|].
    rewrite app_length, repeat_length, map_length, <- V.
    destruct ds as [|d ds].
    { cbn [length num]. split; [lia|]. intro H. change (num 58 []) with 0 in H.
      pose proof (Z.pow_pos_nonneg 58 k ltac:(lia) P). lia. }
    assert (Hd0 : d <> 0) by (destruct d; cbn in N'; auto; lia).
    inversion D as [|? ? Hd D']; subst.
    pose proof (num_bound 58 ds ltac:(lia) D') as Hnb.
    rewrite num_cons in *. cbn [length] in *.
    assert (P58 : 0 < pw 58 (length ds)) by (apply Z.pow_pos_nonneg; lia).
    split.
    - intro H. replace k with (Z.of_nat (length ds)) by lia. nia.
    - intro H. destruct (Z.eq_dec (Z.of_nat (length ds)) k) as [e|ne]; [lia|exfalso].
      assert (58 ^ (Z.of_nat (length ds) + 1) <= 58 ^ k) by (apply Z.pow_le_mono_r; lia).
      rewrite Z.pow_add_r in * by lia. change (58 ^ 1) with 58 in *. nia. }
  destruct Hlen as [_ Hlen].
  split; intro Hk.
  - apply Hn in Hk. rewrite Hk. unfold n. lia.
  - destruct (fresh n); [|tauto]. unfold n. split; [lia|]. rewrite <- Hlen. lia.
Qed.
Print Assumptions C13_encode_alloc_number.

(** Not in the code: for 70 bytes or more the scratch length is longer than any text. *)
Lemma c13_slack : forall n, 70 <= n -> 256 ^ n <= 58 ^ (n * 138 / 100).
Proof.
  assert (H : forall m r, 70 <= r < 120 -> 256 ^ (r + 50 * Z.of_nat m) <= 58 ^ ((r + 50 * Z.of_nat m) * 138 / 100)).
  { induction m as [|m IH]; intros r Hr.
    - replace (r + 50 * Z.of_nat 0) with r by lia.
      assert (forallb (fun i => 256 ^ (70 + Z.of_nat i) <=? 58 ^ ((70 + Z.of_nat i) * 138 / 100)) (seq 0 50) = true) as Hc by (vm_compute; reflexivity).
      rewrite forallb_forall in Hc. specialize (Hc (Z.to_nat (r - 70))).
      replace (70 + Z.of_nat (Z.to_nat (r - 70))) with r in Hc by lia.
      apply Z.leb_le, Hc, in_seq. lia.
    - specialize (IH r Hr). set (a := r + 50 * Z.of_nat m) in *.
      replace (r + 50 * Z.of_nat (S m)) with (a + 50) by lia.
      replace ((a + 50) * 138 / 100) with (a * 138 / 100 + 69).
      2: { replace ((a + 50) * 138) with (a * 138 + 69 * 100) by lia. rewrite Z.div_add by lia. reflexivity. }
      assert (0 <= a * 138 / 100) by (apply Z.div_pos; lia).
      rewrite !Z.pow_add_r by lia.
      assert (256 ^ 50 <= 58 ^ 69) by (apply Z.leb_le; vm_compute; reflexivity).
      apply Z.mul_le_mono_nonneg; auto; apply Z.pow_nonneg; lia. }
  intros n Hn. specialize (H (Z.to_nat ((n - 70) / 50)) (70 + (n - 70) mod 50)).
  pose proof (Z.mod_pos_bound (n - 70) 50 ltac:(lia)). pose proof (Z.div_mod (n - 70) 50 ltac:(lia)).
  assert (0 <= (n - 70) / 50) by (apply Z.div_pos; lia).
  replace (70 + (n - 70) mod 50 + 50 * Z.of_nat (Z.to_nat ((n - 70) / 50))) with n in H by lia.
  apply H. lia.
Qed.

(** C13.  With 70 bytes or more after the leading zeros the number is
    never the length of the text; it is always too large. *)
Theorem C13_encode_alloc_too_large : forall fresh z x' t r blk,
  (forall n b, fresh n = Some b -> length b = n) ->
  no_lead_zero x' -> bytes (repeat 0 z ++ x') -> base58_of (repeat 0 z ++ x') t ->
  Z.of_nat (z + length x') * 138 / 100 + 1 <= 2 ^ 31 -> (70 <= length x')%nat ->
  encode_alloc true fresh (repeat 0 z ++ x') (z + length x') = Ok (r, Some blk) ->
  (length t < r)%nat.
Proof.
  intros fresh z x' t r blk Hf N Hb Ht Hsz H70 E.
  destruct (C13_encode_alloc_number fresh z x' t Hf N Hb Ht Hsz) as (r' & b' & E' & _ & S').
  rewrite E in E'. injection E' as <- <-. destruct (S' ltac:(discriminate)) as [R I].
  destruct (encode_alloc_spec fresh (repeat 0 z ++ x') t Hf Hb Ht) as (cap & Hc & E2).
  { rewrite app_length, repeat_length. exact Hsz. }
  rewrite app_length, repeat_length, E in E2.
  assert (Hle : (length t <= r)%nat).
  { destruct (fresh cap); [|discriminate]. injection E2 as -> _. lia. }
  assert (r <> length t); [|lia]. rewrite I.
  apply bytes_app in Hb. destruct Hb as [_ Hb'].
  pose proof (num_bound 256 x' ltac:(lia) Hb'). pose proof (c13_slack (Z.of_nat (length x')) ltac:(lia)). lia.
Qed.
Print Assumptions C13_encode_alloc_too_large.

(** One byte: the number is right for 58 and wrong for 57.  70 bytes: wrong, by one. *)
Example C13_number_ex :
  (exists b, encode_alloc true (fun n => Some (repeat 7 n)) [0; 58] 2 = Ok (3%nat, Some (zs "121" ++ b))) /\
  (exists b, encode_alloc true (fun n => Some (repeat 7 n)) [0; 57] 2 = Ok (3%nat, Some (zs "1z" ++ 0 :: b))) /\
  (exists b, encode_alloc true (fun n => Some (repeat 7 n)) (repeat 255 70) 70 = Ok (97%nat, Some b) /\ nth 95 b 1 <> 0 /\ nth 96 b 1 = 0).
Proof. split; [|split]; eexists; vm_compute; repeat split; discriminate. Qed.
