(** Model of the memory that coda/base58.c and coda/base64.c allocate and free.

    The functions of Base58_Model and Base64_Model once more, now with the heap of
    SHeap_Model: every malloc, calloc and free, in the order of the C text (the copying of
    leading zeros, which touches no heap memory, may come before or after a request).
    [fill n] is what a block of [n] bytes contains when malloc returns it. *)

From Coq Require Import ZArith List Bool.
From Verif Require Import Base Base58_Model Base64_Model SHeap_Model.
Import ListNotations.
Local Open Scope Z_scope.

(** Not in the code: was the request granted. *)
Definition got (p : option nat) : bool := match p with Some _ => true | None => false end.
(** free(3) of a pointer that may be null; base58.c:58 *)
Definition release0 (h : heap) (p : option nat) : res heap :=
  match p with Some q => release h q | None => Ok h end.

(** base58.c:11-59 [coda_base58_encode] *)
Definition encode58_h (ok : nat -> bool) (h : heap) (inb : list Z) (inlen : nat) (out : list Z)
  (outlen : nat) : res (heap * list Z) :=
  let (h, p) := alloc ok h in                                         (* 27 *)
  out <- Base58_Model.encode (got p) inb inlen out outlen ;;
  h <- release0 h p ;; Ok (h, out).                                   (* 58 *)

(** base58.c:222-282 [coda_base58_decode] *)
Definition decode58_h (ok : nat -> bool) (h : heap) (inb : list Z) (inlen0 : nat) (out : list Z)
  : res (heap * Z * list Z) :=
  '(out, op, ip, inlen) <- dec_ones inb 0 inlen0 out 0 ;;
  let b256len := b256len_of inlen in
  match alloc ok h with                                               (* 238 *)
  | (h, None) => Ok (h, - Z.of_nat inlen0 + Z.of_nat inlen, out)      (* 239-240 *)
  | (h, Some q) =>
    '(buf, left_, over) <- dec_outer inb ip inlen (repeat 0 (Z.to_nat b256len)) b256len ;;
    if over : bool then Ok (h, - Z.of_nat inlen0 + Z.of_nat left_, out)  (* 255-256: no free *)
    else if negb (left_ =? 0)%nat then
      h <- release h q ;; Ok (h, - Z.of_nat inlen0 + Z.of_nat left_, out)  (* 260-264 *)
    else
      '(cur, len) <- skip_zeros buf 0 (Z.to_nat b256len) ;;
      out' <- dec_emit buf cur len out op ;;
      h <- release h q ;;                                             (* 279 *)
      Ok (h, Z.of_nat op + Z.of_nat len, out')
  end.

(** base58.c:61-79 [coda_base58_encode_alloc]: heap, return value, [*out] and what it
    points to *)
Definition encode58_alloc_h (ok : nat -> bool) (fill : nat -> list Z) (h : heap)
  (inb : list Z) (inlen : nat) : res (heap * nat * option (nat * list Z)) :=
  '(zeroes, nonzero) <- count_lead 0 inb 0 inlen ;;
  let outlen := Z.to_nat (u64 (Z.of_nat zeroes + u64 (Z.of_nat nonzero * 138) / 100 + 2)) in
  match alloc ok h with                                               (* 73 *)
  | (h, None) => Ok (h, outlen, None)                                 (* 74-75 *)
  | (h, Some q) =>
      '(h, blk) <- encode58_h ok h inb inlen (fill outlen) outlen ;;
      Ok (h, pred outlen, Some (q, blk))
  end.

(** base58.c:284-309 [coda_base58_decode_alloc] *)
Definition decode58_alloc_h (ok : nat -> bool) (fill : nat -> list Z) (h : heap)
  (inb : list Z) (inlen : nat) : res (heap * Z * option (nat * list Z)) :=
  '(zeroes, b256len) <- count_lead 49 inb 0 inlen ;;
  let needlen := Z.to_nat (u64 (Z.of_nat zeroes + u64 (Z.of_nat b256len * 733) / 1000 + 1)) in
  match alloc ok h with                                               (* 296 *)
  | (h, None) => Ok (h, 1, None)                                      (* 297-298 *)
  | (h, Some q) =>
      '(h, ret, blk) <- decode58_h ok h inb inlen (fill needlen) ;;
      if ret <? 0 then h <- release h q ;; Ok (h, ret, None)          (* 301-306 *)
      else Ok (h, ret, Some (q, blk))
  end.

(** base64.c:111-141 [coda_base64_encode_alloc] *)
Definition encode64_alloc_h (ok : nat -> bool) (fill : nat -> list Z) (h : heap)
  (inb : list Z) (inlen : nat) : res (heap * Z * option (nat * list Z)) :=
  match encode_alloc_request (Z.of_nat inlen) with
  | None => Ok (h, 0, None)                                           (* 128-132 *)
  | Some outlen =>
    match alloc ok h with                                             (* 134 *)
    | (h, None) => Ok (h, outlen, None)
    | (h, Some q) =>
        blk <- base64_encode inb inlen (fill (Z.to_nat outlen)) (Z.to_nat outlen) ;;
        Ok (h, outlen - 1, Some (q, blk))
    end
  end.

(** base64.c:397-423 [coda_base64_decode_alloc]; the last component is [*outlen] *)
Definition decode64_alloc_h (ok : nat -> bool) (fill : nat -> list Z) (h : heap)
  (inb : list Z) (inlen : nat) : res (heap * bool * option (nat * list Z) * option nat) :=
  let needlen := (3 * (inlen / 4) + 2)%nat in
  match alloc ok h with                                               (* 408 *)
  | (h, None) => Ok (h, true, None, None)
  | (h, Some q) =>
      '(okb, blk, n) <- base64_decode inb inlen (fill needlen) needlen ;;
      if okb : bool then Ok (h, true, Some (q, blk), Some n)
      else h <- release h q ;; Ok (h, false, None, None)              (* 412-417 *)
  end.
