(** Model of coda/base64.c and coda/web64.c.

    The two files contain the same encoder and decoder text with a different
    alphabet, decoding table and padding character; the loops are modelled once,
    parametrised by those three ([alpha], [tab], [pad]), and instantiated twice.
    [to_uchar] (base64.c:54-58, web64.c:6-9) is the identity because the model
    stores bytes as 0..255.  [in] and [out] are different buffers (the code drops
    gnulib's [restrict], but in-place use is not modelled). *)

From Coq Require Import ZArith List Bool.
From Verif Require Import Base.
Import ListNotations.
Local Open Scope Z_scope.

(** base64.c:68-69, [b64str]. *)
Definition b64str : list Z :=
  zs "ABCDEFGHIJKLMNOPQRSTUVWXYZabcdefghijklmnopqrstuvwxyz0123456789+/".

(** web64.c:13, [b64str]. *)
Definition w64str : list Z :=
  zs "ABCDEFGHIJKLMNOPQRSTUVWXYZabcdefghijklmnopqrstuvwxyz0123456789-_".

(** base64.c:152-217, macro [B64]. *)
Definition B64 (ch : Z) : Z :=
  match ch with
  | 65 => 0 | 66 => 1 | 67 => 2 | 68 => 3 | 69 => 4 | 70 => 5 | 71 => 6 | 72 => 7
  | 73 => 8 | 74 => 9 | 75 => 10 | 76 => 11 | 77 => 12 | 78 => 13 | 79 => 14 | 80 => 15
  | 81 => 16 | 82 => 17 | 83 => 18 | 84 => 19 | 85 => 20 | 86 => 21 | 87 => 22 | 88 => 23
  | 89 => 24 | 90 => 25 | 97 => 26 | 98 => 27 | 99 => 28 | 100 => 29 | 101 => 30 | 102 => 31
  | 103 => 32 | 104 => 33 | 105 => 34 | 106 => 35 | 107 => 36 | 108 => 37 | 109 => 38 | 110 => 39
  | 111 => 40 | 112 => 41 | 113 => 42 | 114 => 43 | 115 => 44 | 116 => 45 | 117 => 46 | 118 => 47
  | 119 => 48 | 120 => 49 | 121 => 50 | 122 => 51 | 48 => 52 | 49 => 53 | 50 => 54 | 51 => 55
  | 52 => 56 | 53 => 57 | 54 => 58 | 55 => 59 | 56 => 60 | 57 => 61 | 43 => 62 | 47 => 63
  | _ => -1
  end.

(** web64.c:32-97, macro [B64]. *)
Definition W64 (ch : Z) : Z :=
  match ch with
  | 65 => 0 | 66 => 1 | 67 => 2 | 68 => 3 | 69 => 4 | 70 => 5 | 71 => 6 | 72 => 7
  | 73 => 8 | 74 => 9 | 75 => 10 | 76 => 11 | 77 => 12 | 78 => 13 | 79 => 14 | 80 => 15
  | 81 => 16 | 82 => 17 | 83 => 18 | 84 => 19 | 85 => 20 | 86 => 21 | 87 => 22 | 88 => 23
  | 89 => 24 | 90 => 25 | 97 => 26 | 98 => 27 | 99 => 28 | 100 => 29 | 101 => 30 | 102 => 31
  | 103 => 32 | 104 => 33 | 105 => 34 | 106 => 35 | 107 => 36 | 108 => 37 | 109 => 38 | 110 => 39
  | 111 => 40 | 112 => 41 | 113 => 42 | 114 => 43 | 115 => 44 | 116 => 45 | 117 => 46 | 118 => 47
  | 119 => 48 | 120 => 49 | 121 => 50 | 122 => 51 | 48 => 52 | 49 => 53 | 50 => 54 | 51 => 55
  | 52 => 56 | 53 => 57 | 54 => 58 | 55 => 59 | 56 => 60 | 57 => 61 | 45 => 62 | 95 => 63
  | _ => -1
  end.

(** base64.c:219-284, the 256-entry table [b64]. *)
Definition b64 : list Z := map B64 (zrange 256).

(** web64.c:99-165, the 256-entry table [b64]. *)
Definition w64 : list Z := map W64 (zrange 256).

Section Codec.
  Variable alpha : list Z.   (* b64str *)
  Variable tab : list Z.     (* b64 *)
  Variable pad : Z.          (* '=' or '.' *)

  (** base64.c:71-96 / web64.c:15-27, the [while (inlen && outlen)] loop.
      [ip], [op] are the advancing pointers [in], [out]; the result is the output
      buffer, [out] and [outlen] after the loop.  The early [break]s are the
      returns after each [--outlen]. *)
  Fixpoint enc_loop (fuel : nat) (inb : list Z) (ip inlen : nat)
           (out : list Z) (op outlen : nat) : res (list Z * nat * nat) :=
    if ((inlen =? 0) || (outlen =? 0))%nat then Ok (out, op, outlen) else
    match fuel with
    | O => Fuel
    | S fuel =>
      c0 <- rd inb ip ;;
      ch <- rd alpha (Z.to_nat (Z.land (Z.shiftr c0 2) 63)) ;;
      out <- wr out op ch ;;
      let op := S op in
      let outlen := pred outlen in
      if (outlen =? 0)%nat then Ok (out, op, outlen) else
      let inlen := pred inlen in
      x <- (if (inlen =? 0)%nat then Ok 0
            else c1 <- rd inb (ip + 1) ;; Ok (Z.shiftr c1 4)) ;;
      ch <- rd alpha (Z.to_nat (Z.land (Z.shiftl c0 4 + x) 63)) ;;
      out <- wr out op ch ;;
      let op := S op in
      let outlen := pred outlen in
      if (outlen =? 0)%nat then Ok (out, op, outlen) else
      '(ch, inlen) <-
        (if (inlen =? 0)%nat then Ok (pad, inlen)
         else c1 <- rd inb (ip + 1) ;;
              let inlen := pred inlen in
              x <- (if (inlen =? 0)%nat then Ok 0
                    else c2 <- rd inb (ip + 2) ;; Ok (Z.shiftr c2 6)) ;;
              ch <- rd alpha (Z.to_nat (Z.land (Z.shiftl c1 2 + x) 63)) ;;
              Ok (ch, inlen)) ;;
      out <- wr out op ch ;;
      let op := S op in
      let outlen := pred outlen in
      if (outlen =? 0)%nat then Ok (out, op, outlen) else
      ch <- (if (inlen =? 0)%nat then Ok pad
             else c2 <- rd inb (ip + 2) ;;
                  rd alpha (Z.to_nat (Z.land c2 63))) ;;
      out <- wr out op ch ;;
      let op := S op in
      let outlen := pred outlen in
      if (outlen =? 0)%nat then Ok (out, op, outlen) else
      let inlen := pred inlen in                              (* if (inlen) inlen--; *)
      let ip := if (inlen =? 0)%nat then ip else (ip + 3)%nat in
      enc_loop fuel inb ip inlen out op outlen
    end.

  (** base64.c:64-100 [coda_base64_encode], web64.c:11-30 [web64_encode].
      Returns the output buffer. *)
  Definition encode (inb : list Z) (inlen : nat) (out : list Z) (outlen : nat)
    : res (list Z) :=
    '(out, op, outlen) <- enc_loop (S inlen) inb 0 inlen out 0 outlen ;;
    if (outlen =? 0)%nat then Ok out else wr out op 0.

  (** base64.c:295-299 [coda_isbase64], web64.c:173-176 [isweb64]. *)
  Definition isb (ch : Z) : res bool :=
    v <- rd tab (Z.to_nat ch) ;; Ok (0 <=? v).

  (** a store to [char] keeps the low eight bits;
      base64.c:321-376, where an int is stored through a char pointer *)
  Definition to_char (v : Z) : Z := v mod 256.

  (** [if (outleft) { *out++ = v; outleft--; }] (base64.c:321-326 etc.) *)
  Definition put (out : list Z) (op outleft : nat) (v : Z) : res (list Z * nat * nat) :=
    if (outleft =? 0)%nat then Ok (out, op, outleft)
    else out <- wr out op (to_char v) ;; Ok (out, S op, pred outleft).

  (** base64.c:316-376 / web64.c:182-229, the [while (inlen >= 2)] loop.  The
      result is the output buffer, [outleft] and [inlen] after the loop. *)
  Fixpoint dec_loop (fuel : nat) (inb : list Z) (ip inlen : nat)
           (out : list Z) (op outleft : nat) : res (list Z * nat * nat) :=
    if (inlen <? 2)%nat then Ok (out, outleft, inlen) else
    match fuel with
    | O => Fuel
    | S fuel =>
      i0 <- rd inb ip ;;
      b0 <- isb i0 ;;
      if negb b0 then Ok (out, outleft, inlen) else
      i1 <- rd inb (ip + 1) ;;
      b1 <- isb i1 ;;
      if negb b1 then Ok (out, outleft, inlen) else
      v0 <- rd tab (Z.to_nat i0) ;;
      v1 <- rd tab (Z.to_nat i1) ;;
      '(out, op, outleft) <- put out op outleft (Z.lor (Z.shiftl v0 2) (Z.shiftr v1 4)) ;;
      if (inlen =? 2)%nat then Ok (out, outleft, inlen) else
      i2 <- rd inb (ip + 2) ;;
      if i2 =? pad then
        if negb (inlen =? 4)%nat then Ok (out, outleft, inlen) else
        i3 <- rd inb (ip + 3) ;;
        if negb (i3 =? pad) then Ok (out, outleft, inlen) else
        dec_loop fuel inb (ip + 4) (inlen - 4) out op outleft
      else
        b2 <- isb i2 ;;
        if negb b2 then Ok (out, outleft, inlen) else
        v2 <- rd tab (Z.to_nat i2) ;;
        '(out, op, outleft) <-
           put out op outleft
               (Z.lor (Z.land (Z.shiftl v1 4) 240) (Z.shiftr v2 2)) ;;
        if (inlen =? 3)%nat then Ok (out, outleft, inlen) else
        i3 <- rd inb (ip + 3) ;;
        if i3 =? pad then
          if negb (inlen =? 4)%nat then Ok (out, outleft, inlen) else
          dec_loop fuel inb (ip + 4) (inlen - 4) out op outleft
        else
          b3 <- isb i3 ;;
          if negb b3 then Ok (out, outleft, inlen) else
          v3 <- rd tab (Z.to_nat i3) ;;
          '(out, op, outleft) <-
             put out op outleft (Z.lor (Z.land (Z.shiftl v2 6) 192) v3) ;;
          dec_loop fuel inb (ip + 4) (inlen - 4) out op outleft
    end.

  (** base64.c:310-384 [coda_base64_decode], web64.c:178-236 [web64_decode].
      Returns the boolean, the output buffer and the final [*outlen]. *)
  Definition decode (inb : list Z) (inlen : nat) (out : list Z) (outlen : nat)
    : res (bool * list Z * nat) :=
    '(out, outleft, rest) <- dec_loop inlen inb 0 inlen out 0 outlen ;;
    Ok ((rest =? 0)%nat, out, (outlen - outleft)%nat).

  (** base64.c:397-423 [coda_base64_decode_alloc] with a non-null [outlen].
      [fresh n] is the content of the block malloc returns for [n] bytes, [None]
      when it fails.  Result: return value, [*out] (None = NULL) and [*outlen]
      (None = not assigned). *)
  Definition decode_alloc (fresh : nat -> option (list Z)) (inb : list Z) (inlen : nat)
    : res (bool * option (list Z) * option nat) :=
    let needlen := (3 * (inlen / 4) + 2)%nat in
    match fresh needlen with
    | None => Ok (true, None, None)
    | Some blk =>
      '(okb, blk, n) <- decode inb inlen blk needlen ;;
      if okb : bool then Ok (true, Some blk, Some n) else Ok (false, None, None)
    end.
End Codec.

(** size_t arithmetic; base64.h:34, base64.c:114: 64-bit size_t *)
Definition size_max : Z := 2 ^ 64.

(** base64.h:34 [CODA_BASE64_LENGTH], in size_t arithmetic. *)
Definition BASE64_LENGTH (inlen : Z) : Z :=
  ((((inlen + 2) mod size_max) / 3) * 4) mod size_max.

(** base64.c:114, 128: the size computation of [coda_base64_encode_alloc];
    [None] is the overflow exit of lines 130-131, [Some n] the malloc request. *)
Definition encode_alloc_request (inlen : Z) : option Z :=
  let outlen := (1 + BASE64_LENGTH inlen) mod size_max in
  if outlen <? inlen then None else Some outlen.

(** base64.c:111-141 [coda_base64_encode_alloc]; [fresh] as above.
    Result: return value and [*out] (None = NULL). *)
Definition encode_alloc (fresh : nat -> option (list Z)) (inb : list Z) (inlen : nat)
  : res (Z * option (list Z)) :=
  match encode_alloc_request (Z.of_nat inlen) with
  | None => Ok (0, None)
  | Some outlen =>
    match fresh (Z.to_nat outlen) with
    | None => Ok (outlen, None)
    | Some blk =>
      blk <- encode b64str 61 inb inlen blk (Z.to_nat outlen) ;;
      Ok (outlen - 1, Some blk)
    end
  end.

(** The public functions. base64.c:64-100 [coda_base64_encode]. *)
Definition base64_encode := encode b64str 61.            (* '=' *)
(** base64.c:311-384 [coda_base64_decode] *)
Definition base64_decode := decode b64 61.
(** base64.c:397-423 [coda_base64_decode_alloc] *)
Definition base64_decode_alloc := decode_alloc b64 61.
(** web64.c:11-30 [web64_encode] *)
Definition web64_encode := encode w64str 46.             (* '.' *)
(** web64.c:178-236 [web64_decode] *)
Definition web64_decode := decode w64 46.
