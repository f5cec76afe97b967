(** Properties C09-C13: Base 58 (coda/base58.c). *)

From Coq Require Import ZArith List Lia.
From Verif Require Import Base Base58_Model Base58_Spec Base58_Proof.
Import ListNotations.
Local Open Scope Z_scope.

(** C09.  Every byte string has a Base 58 text [t]; the encoder writes exactly [t]
    and a zero byte; the decoder maps [t] back to the bytes and returns their number.
    The size hypothesis says that the scratch length fits in [int]. *)
Theorem C09_base58_decode_encode : forall x,
  bytes x -> Z.of_nat (length x) * 138 / 100 + 1 <= 2 ^ 31 ->
  exists t, base58_of x t /\
    (forall ebuf outlen, (length t < outlen <= length ebuf)%nat ->
       encode true x (length x) ebuf outlen = Ok (t ++ 0 :: skipn (S (length t)) ebuf)) /\
    (forall dbuf, (length x <= length dbuf)%nat ->
       decode true t (length t) dbuf = Ok (Z.of_nat (length x), x ++ skipn (length x) dbuf)).
Proof. exact roundtrip_lemma. Qed.
Print Assumptions C09_base58_decode_encode.

(** ... and for every capacity the encoder writes the first [outlen] characters,
    the terminator iff it fits, and nothing else. *)
Theorem C09_base58_encode_exact : forall x t out outlen,
  bytes x -> base58_of x t -> (outlen <= length out)%nat ->
  Z.of_nat (length x) * 138 / 100 + 1 <= 2 ^ 31 ->
  encode true x (length x) out outlen =
    let k := Nat.min outlen (length t) in
    Ok (firstn k t ++
        (if (length t <? outlen)%nat then 0 :: skipn (S k) out else skipn k out)).
Proof. exact encode_spec. Qed.
Print Assumptions C09_base58_encode_exact.

Example C09_example :
  encode true [0; 0; 255; 1; 2] 5 (repeat 7 9) 9 = Ok (zs "112Uess" ++ [0; 7]) /\
  decode true (zs "112Uess") 7 (repeat 7 6) = Ok (5, [0; 0; 255; 1; 2; 7]).
Proof. vm_compute. auto. Qed.

(** C10.  Every text over the alphabet decodes, and re-encoding gives it back; the
    text of a byte string is unique and so is the byte string of a text. *)
Theorem C10_base58_encode_decode : forall t,
  Forall is58 t -> Z.of_nat (length t) * 138 / 100 + 1 <= 2 ^ 31 ->
  exists x, bytes x /\ base58_of x t /\
    (forall dbuf, (length x <= length dbuf)%nat ->
       decode true t (length t) dbuf = Ok (Z.of_nat (length x), x ++ skipn (length x) dbuf)) /\
    (forall ebuf outlen, (length t < outlen <= length ebuf)%nat ->
       encode true x (length x) ebuf outlen = Ok (t ++ 0 :: skipn (S (length t)) ebuf)).
Proof. exact inverse_lemma. Qed.
Print Assumptions C10_base58_encode_decode.

Theorem C10_base58_text_unique : forall x t t', base58_of x t -> base58_of x t' -> t = t'.
Proof. exact base58_text_unique. Qed.
Print Assumptions C10_base58_text_unique.

Theorem C10_base58_bytes_unique : forall x x' t, bytes x -> bytes x' ->
  base58_of x t -> base58_of x' t -> x = x'.
Proof. exact base58_bytes_unique. Qed.
Print Assumptions C10_base58_bytes_unique.

Example C10_example :
  decode true (zs "StV1DL6CwTryKyV") 15 (repeat 7 12) = Ok (11, zs "hello world" ++ [7]) /\
  encode true (zs "hello world") 11 (repeat 7 17) 17 = Ok (zs "StV1DL6CwTryKyV" ++ [0; 7]).
Proof. vm_compute. auto. Qed.

(** C11.  No access outside the scratch block, for every input within the size
    limit (any access outside it would be [Ub _]); for decode this includes texts
    with characters outside the alphabet. *)
Theorem C11_base58_scratch_suffices :
  (forall x out outlen, bytes x -> Z.of_nat (length x) * 138 / 100 + 1 <= 2 ^ 31 ->
     (outlen <= length out)%nat -> exists out', encode true x (length x) out outlen = Ok out') /\
  (forall t out, bytes t -> Z.of_nat (length t) * 733 / 1000 + 1 <= 2 ^ 31 ->
     (length t <= length out)%nat -> exists r out', decode true t (length t) out = Ok (r, out')).
Proof. exact scratch_lemma. Qed.
Print Assumptions C11_base58_scratch_suffices.

(** the largest bytes with little room for the text, and a text that is no Base 58 *)
Example C11_ex :
  (exists o, encode true (repeat 255 40) 40 (repeat 7 3) 3 = Ok o) /\
  (exists r o, decode true (zs "zzzz0z!") 7 (repeat 7 7) = Ok (r, o)).
Proof. split; [eexists|eexists _, _]; vm_compute; reflexivity. Qed.

(** The two inequalities behind it. *)
Theorem C11_encode_digits_fit : forall m, 0 <= m -> 256 ^ m <= 58 ^ (m * 138 / 100 + 1).
Proof. exact scratch_enc. Qed.
Theorem C11_decode_bytes_fit : forall m, 0 <= m -> 58 ^ m <= 256 ^ (m * 733 / 1000 + 1).
Proof. exact scratch_dec. Qed.
Print Assumptions C11_encode_digits_fit.

(** Without the size limit it is false: for an input of 3112295142 bytes the 32-bit
    scratch length wraps to 0 and the encoder reads in front of the block. *)
Theorem C11_scratch_unlimited_refuted : exists x,
  bytes x /\ Z.of_nat (length x) = 3112295142 /\
  forall out outlen, (outlen <= length out)%nat ->
    encode true x (length x) out outlen = Ub OobRead.
Proof. exact huge_lemma. Qed.
Print Assumptions C11_scratch_unlimited_refuted.

(** A failed calloc is not noticed by the encoder: every call then dereferences null. *)
Theorem C11_encode_calloc_failure_refuted :
  exists x out, bytes x /\ encode false x (length x) out (length out) = Ub NullDeref.
Proof. exists [1; 2], (repeat 0 8). split; [repeat constructor; unfold byte; lia|reflexivity]. Qed.
Print Assumptions C11_encode_calloc_failure_refuted.

(** C12 (what holds).  If the first character outside the alphabet has index i, the
    return value is -i and only the zero bytes for leading '1's are written. *)
Theorem C12_base58_bad_position_partial : forall good c bad out,
  Forall is58 good -> ~ is58 c -> bytes (c :: bad) ->
  let t := good ++ c :: bad in
  Z.of_nat (length t) * 733 / 1000 + 1 <= 2 ^ 31 ->
  (lead_ones good <= length out)%nat ->
  decode true t (length t) out =
    Ok (- Z.of_nat (length good), repeat 0 (lead_ones good) ++ skipn (lead_ones good) out).
Proof. exact decode_bad_spec. Qed.
Print Assumptions C12_base58_bad_position_partial.

Example C12_example :
  decode true (zs "11Ld0p") 6 (repeat 7 4) = Ok (-4, [0; 0; 7; 7]).
Proof. reflexivity. Qed.

(** C12 (what does not hold).  A bad first character yields 0, which is not negative
    and is the result for the empty text. *)
Theorem C12_base58_bad_first_char_refuted : exists t out,
  ~ Forall is58 t /\ decode true t (length t) out = Ok (0, out) /\
  decode true [] 0 out = Ok (0, out).
Proof.
  exists (zs "0abc"), (repeat 7 4). split; [|split; reflexivity].
  intro H. inversion H as [|? ? H1 _]. apply is58_B58 in H1. destruct H1 as [_ H1].
  vm_compute in H1. apply H1. reflexivity.
Qed.
Print Assumptions C12_base58_bad_first_char_refuted.

(** C13 (what holds).  The block allocated by encode_alloc holds the whole text and
    its terminator, and the returned number is an upper bound of the text length;
    if malloc fails, NULL and the requested size. *)
Theorem C13_base58_encode_alloc_partial : forall fresh x t,
  (forall n b, fresh n = Some b -> length b = n) ->
  bytes x -> base58_of x t -> Z.of_nat (length x) * 138 / 100 + 1 <= 2 ^ 31 ->
  exists cap, (length t < cap)%nat /\
  encode_alloc true fresh x (length x) =
  match fresh cap with
  | None => Ok (cap, None)
  | Some blk => Ok (pred cap, Some (t ++ 0 :: skipn (S (length t)) blk))
  end.
Proof. exact encode_alloc_spec. Qed.
Print Assumptions C13_base58_encode_alloc_partial.

(** decode_alloc delivers the whole decoding and its length. *)
Theorem C13_base58_decode_alloc_partial : forall fresh x t,
  (forall n b, fresh n = Some b -> length b = n) ->
  bytes x -> base58_of x t -> Z.of_nat (length t) * 733 / 1000 + 1 <= 2 ^ 31 ->
  exists cap, (length x <= cap)%nat /\
  decode_alloc true fresh t (length t) =
  match fresh cap with
  | None => Ok (1, None)
  | Some blk => Ok (Z.of_nat (length x), Some (x ++ skipn (length x) blk))
  end.
Proof. exact decode_alloc_spec. Qed.
Print Assumptions C13_base58_decode_alloc_partial.

Example C13_ex :
  encode_alloc true (fun n => Some (repeat 7 n)) [0; 0; 255; 1; 2] 5 = Ok (7%nat, Some (zs "112Uess" ++ [0])) /\
  encode_alloc true (fun _ => None) [0; 0; 255; 1; 2] 5 = Ok (8%nat, None) /\
  exists junk, decode_alloc true (fun n => Some (repeat 7 n)) (zs "112Uess") 7 = Ok (5, Some ([0; 0; 255; 1; 2] ++ junk)).
Proof. split; [|split]; [| |eexists]; vm_compute; reflexivity. Qed.

(** C13 (what does not hold).  The number returned by encode_alloc is not the length
    of the text. *)
Theorem C13_encode_alloc_length_refuted : exists x t r blk,
  bytes x /\ base58_of x t /\
  encode_alloc true (fun n => Some (repeat 0 n)) x (length x) = Ok (r, Some blk) /\
  r <> length t.
Proof.
  exists [1], (zs "2"), 2%nat, (zs "2" ++ [0; 0]). split; [repeat constructor; unfold byte; lia|].
  split; [|split; [reflexivity|discriminate]].
  exists 0%nat, [1], [1]. cbn. repeat split; auto; repeat constructor; lia.
Qed.
Print Assumptions C13_encode_alloc_length_refuted.

(** When malloc fails, decode_alloc returns 1, as if one byte had been decoded. *)
Theorem C13_decode_alloc_oom_refuted : exists t,
  Forall is58 t /\ decode_alloc true (fun _ => None) t (length t) = Ok (1, None).
Proof.
  exists (zs "2"). split; [|reflexivity]. repeat constructor. exists 1. split; [lia|reflexivity].
Qed.
Print Assumptions C13_decode_alloc_oom_refuted.
