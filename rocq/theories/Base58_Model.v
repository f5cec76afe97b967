(** Model of coda/base58.c.

    Differences from the C text: the scratch block is a list of bytes 0..255 and
    [schar] is the conversion to (signed) [char] where the code reads one without a
    cast; pointer increments are indices.  [calloc] is a boolean (did it succeed). *)

From Coq Require Import ZArith List Bool.
From Verif Require Import Base.
Import ListNotations.
Local Open Scope Z_scope.

(** base58.c:13, [b58str]. *)
Definition b58str : list Z := zs "123456789ABCDEFGHJKLMNPQRSTUVWXYZabcdefghijkmnopqrstuvwxyz".

(** base58.c:81-140, macro [B58]. *)
Definition B58 (ch : Z) : Z :=
  match ch with
  | 49 => 0 | 50 => 1 | 51 => 2 | 52 => 3 | 53 => 4 | 54 => 5 | 55 => 6 | 56 => 7
  | 57 => 8 | 65 => 9 | 66 => 10 | 67 => 11 | 68 => 12 | 69 => 13 | 70 => 14 | 71 => 15
  | 72 => 16 | 74 => 17 | 75 => 18 | 76 => 19 | 77 => 20 | 78 => 21 | 80 => 22 | 81 => 23
  | 82 => 24 | 83 => 25 | 84 => 26 | 85 => 27 | 86 => 28 | 87 => 29 | 88 => 30 | 89 => 31
  | 90 => 32 | 97 => 33 | 98 => 34 | 99 => 35 | 100 => 36 | 101 => 37 | 102 => 38 | 103 => 39
  | 104 => 40 | 105 => 41 | 106 => 42 | 107 => 43 | 109 => 44 | 110 => 45 | 111 => 46 | 112 => 47
  | 113 => 48 | 114 => 49 | 115 => 50 | 116 => 51 | 117 => 52 | 118 => 53 | 119 => 54 | 120 => 55
  | 121 => 56 | 122 => 57
  | _ => -1
  end.

(** base58.c:142-208, the 256-entry table [b58]. *)
Definition b58 : list Z := map B58 (zrange 256).

(** unsigned int arithmetic, base58.c:31-37 and 247-253 *)
Definition u32 (x : Z) : Z := x mod 2 ^ 32.
(** size_t arithmetic, base58.c:24 and 235 *)
Definition u64 (x : Z) : Z := x mod 2 ^ 64.
(** conversion of an unsigned int to int, and of a byte to signed char; base58.c:32, 248 *)
Definition int32 (x : Z) : Z := if x <? 2 ^ 31 then x else x - 2 ^ 32.
(** base58.c:35, 43, 266: the scratch block has type char *)
Definition schar (x : Z) : Z := if x <? 128 then x else x - 256.

(** signed index: a negative one is outside the block;
    base58.c:33-38, 249-254: the index [i] is an int *)
Definition rdz (b : list Z) (i : Z) : res Z := if i <? 0 then Ub OobRead else rd b (Z.to_nat i).
(** the same for a store; base58.c:36, 252 *)
Definition wrz (b : list Z) (i v : Z) : res (list Z) :=
  if i <? 0 then Ub OobWrite else wr b (Z.to_nat i) v.

(** base58.c:15-22: copy leading zero bytes as '1'. Returns out, op, outlen, ip, inlen. *)
Fixpoint enc_zeros (inb : list Z) (ip inlen : nat) (out : list Z) (op outlen : nat)
  : res (list Z * nat * nat * nat * nat) :=
  match outlen, inlen with
  | S outlen', S inlen' =>
    c <- rd inb ip ;;
    if c =? 0 then
      out <- wr out op 49 ;;
      enc_zeros inb (S ip) inlen' out (S op) outlen'
    else Ok (out, op, outlen, ip, inlen)
  | _, _ => Ok (out, op, outlen, ip, inlen)
  end.

(** base58.c:33-38, the inner [for (i = b58len - 1; carry || i >= 0; i--)]. *)
Fixpoint enc_inner (fuel : nat) (buf : list Z) (i carry : Z) : res (list Z) :=
  if (carry =? 0) && (i <? 0) then Ok buf else
  match fuel with
  | O => Fuel
  | S fuel =>
    d <- rdz buf i ;;
    let carry := u32 (carry + 256 * schar d) in
    buf <- wrz buf i (carry mod 58) ;;
    enc_inner fuel buf (i - 1) (carry / 58)
  end.

(** base58.c:29-40, the outer [while (inlen)]. *)
Fixpoint enc_outer (inb : list Z) (ip inlen : nat) (buf : list Z) (b58len : Z) : res (list Z) :=
  match inlen with
  | O => Ok buf
  | S inlen =>
    c <- rd inb ip ;;
    buf <- enc_inner (S (length buf)) buf (int32 (u32 (b58len - 1))) c ;;
    enc_outer inb (S ip) inlen buf b58len
  end.

(** base58.c:43-47 and 266-270: skip leading zeroes of the result; returns the new
    pointer and length. *)
Fixpoint skip_zeros (buf : list Z) (cur len : nat) : res (nat * nat) :=
  match len with
  | O => Ok (cur, len)
  | S len' =>
    d <- rd buf cur ;;
    if d =? 0 then skip_zeros buf (S cur) len' else Ok (cur, len)
  end.

(** base58.c:49-54: write the digits. *)
Fixpoint enc_emit (buf : list Z) (cur len : nat) (out : list Z) (op outlen : nat)
  : res (list Z * nat * nat) :=
  match outlen, len with
  | S outlen', S len' =>
    d <- rd buf cur ;;
    ch <- rd b58str (Z.to_nat d) ;;
    out <- wr out op ch ;;
    enc_emit buf (S cur) len' out (S op) outlen'
  | _, _ => Ok (out, op, outlen)
  end.

(** base58.c:24: [unsigned b58len = inlen * 138 / 100 + 1]. *)
Definition b58len_of (inlen : nat) : Z := u32 (u64 (Z.of_nat inlen * 138) / 100 + 1).

(** base58.c:11-59 [coda_base58_encode].  A failed [calloc] is not checked; the
    null block is dereferenced at line 35 or 43. *)
Definition encode (calloc : bool) (inb : list Z) (inlen : nat) (out : list Z) (outlen : nat)
  : res (list Z) :=
  '(out, op, outlen, ip, inlen) <- enc_zeros inb 0 inlen out 0 outlen ;;
  let b58len := b58len_of inlen in
  if negb calloc && negb (b58len =? 0) then Ub NullDeref else
  let buf := repeat 0 (Z.to_nat b58len) in
  buf <- enc_outer inb ip inlen buf b58len ;;
  '(cur, len) <- skip_zeros buf 0 (Z.to_nat b58len) ;;
  '(out, op, outlen) <- enc_emit buf cur len out op outlen ;;
  if (outlen =? 0)%nat then Ok out else wr out op 0.

(** base58.c:65-69: count leading zero bytes; returns zeroes and nonzero_inlen. *)
Fixpoint count_lead (c : Z) (inb : list Z) (z rest : nat) : res (nat * nat) :=
  match rest with
  | O => Ok (z, rest)
  | S rest' =>
    x <- rd inb z ;;
    if x =? c then count_lead c inb (S z) rest' else Ok (z, rest)
  end.

(** base58.c:61-79 [coda_base58_encode_alloc]: return value and [*out]. *)
Definition encode_alloc (calloc : bool) (fresh : nat -> option (list Z))
           (inb : list Z) (inlen : nat) : res (nat * option (list Z)) :=
  '(zeroes, nonzero) <- count_lead 0 inb 0 inlen ;;
  let outlen := Z.to_nat (u64 (Z.of_nat zeroes + u64 (Z.of_nat nonzero * 138) / 100 + 2)) in
  match fresh outlen with
  | None => Ok (outlen, None)
  | Some blk =>
    blk <- encode calloc inb inlen blk outlen ;;
    Ok (pred outlen, Some blk)
  end.

(** base58.c:217-220 [coda_isbase58]. *)
Definition isbase58 (ch : Z) : res bool := v <- rd b58 (Z.to_nat ch) ;; Ok (0 <=? v).

(** base58.c:227-233: leading '1' characters. Returns out, op, ip, inlen. *)
Fixpoint dec_ones (inb : list Z) (ip inlen : nat) (out : list Z) (op : nat)
  : res (list Z * nat * nat * nat) :=
  match inlen with
  | S inlen' =>
    c <- rd inb ip ;;
    if c =? 49 then
      out <- wr out op 0 ;;
      dec_ones inb (S ip) inlen' out (S op)
    else Ok (out, op, ip, inlen)
  | O => Ok (out, op, ip, inlen)
  end.

(** base58.c:249-254, the inner [for]; returns the block and the final carry. *)
Fixpoint dec_inner (fuel : nat) (buf : list Z) (i carry : Z) : res (list Z * Z) :=
  if i <? 0 then Ok (buf, carry) else
  match fuel with
  | O => Fuel
  | S fuel =>
    d <- rdz buf i ;;
    let carry := u32 (carry + 58 * d) in
    buf <- wrz buf i (carry mod 256) ;;
    dec_inner fuel buf (i - 1) (carry / 256)
  end.

(** base58.c:242-258.  Returns the block, the remaining [inlen] and whether the
    [return] of line 256 was taken. *)
Fixpoint dec_outer (inb : list Z) (ip inlen : nat) (buf : list Z) (b256len : Z)
  : res (list Z * nat * bool) :=
  match inlen with
  | O => Ok (buf, inlen, false)
  | S inlen' =>
    c <- rd inb ip ;;
    good <- isbase58 c ;;
    if negb good then Ok (buf, inlen, false) else
    v <- rd b58 (Z.to_nat c) ;;
    '(buf, carry) <- dec_inner (S (length buf)) buf (int32 (u32 (b256len - 1))) (v mod 256) ;;
    if negb (carry =? 0) then Ok (buf, inlen, true) else
    dec_outer inb (S ip) inlen' buf b256len
  end.

(** base58.c:273-277. *)
Fixpoint dec_emit (buf : list Z) (cur len : nat) (out : list Z) (op : nat) : res (list Z) :=
  match len with
  | O => Ok out
  | S len' =>
    d <- rd buf cur ;;
    out <- wr out op d ;;
    dec_emit buf (S cur) len' out (S op)
  end.

(** base58.c:235. *)
Definition b256len_of (inlen : nat) : Z := u32 (u64 (Z.of_nat inlen * 733) / 1000 + 1).

(** base58.c:222-282 [coda_base58_decode]: return value and output buffer. *)
Definition decode (calloc : bool) (inb : list Z) (inlen0 : nat) (out : list Z)
  : res (Z * list Z) :=
  '(out, op, ip, inlen) <- dec_ones inb 0 inlen0 out 0 ;;
  let b256len := b256len_of inlen in
  if negb calloc then Ok (- Z.of_nat inlen0 + Z.of_nat inlen, out) else
  '(buf, left_, over) <- dec_outer inb ip inlen (repeat 0 (Z.to_nat b256len)) b256len ;;
  if over : bool then Ok (- Z.of_nat inlen0 + Z.of_nat left_, out) else
  if negb (left_ =? 0)%nat then Ok (- Z.of_nat inlen0 + Z.of_nat left_, out) else
  '(cur, len) <- skip_zeros buf 0 (Z.to_nat b256len) ;;
  out' <- dec_emit buf cur len out op ;;
  Ok (Z.of_nat op + Z.of_nat len, out').

(** base58.c:284-309 [coda_base58_decode_alloc]: return value and [*out]. *)
Definition decode_alloc (calloc : bool) (fresh : nat -> option (list Z))
           (inb : list Z) (inlen : nat) : res (Z * option (list Z)) :=
  '(zeroes, b256len) <- count_lead 49 inb 0 inlen ;;
  let needlen := Z.to_nat (u64 (Z.of_nat zeroes + u64 (Z.of_nat b256len * 733) / 1000 + 1)) in
  match fresh needlen with
  | None => Ok (1, None)                                     (* return true; *)
  | Some blk =>
    '(ret, blk) <- decode calloc inb inlen blk ;;
    if ret <? 0 then Ok (ret, None) else Ok (ret, Some blk)
  end.
