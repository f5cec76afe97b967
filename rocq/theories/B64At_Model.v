(** Model of the decoders of coda/base64.c and coda/web64.c when the text and the result
    lie in one memory, so that they may overlap.  The code has no [restrict].

    [m] is the memory; [ip] and [op] are the positions of [in] and [out] in it.  Every read
    of the code is a read of the memory as it is at that time.  The tables and [outlen] lie
    elsewhere. *)

From Coq Require Import ZArith List Bool.
From Verif Require Import Base Base64_Model.
Import ListNotations.
Local Open Scope Z_scope.

Section Codec.
  Variable tab : list Z.     (* b64 *)
  Variable pad : Z.          (* '=' or '.' *)

  (** b64[to_uchar (in[i])]; base64.c:323-324, 347-348, 367-368, web64.c:188, 205, 221 *)
  Definition val_at (m : list Z) (i : nat) : res Z := c <- rd m i ;; rd tab (Z.to_nat c).

  (** base64.c:316-376 / web64.c:182-229 *)
  Fixpoint dec_at (fuel : nat) (m : list Z) (ip inlen op outleft : nat) : res (list Z * nat * nat) :=
    if (inlen <? 2)%nat then Ok (m, outleft, inlen) else
    match fuel with
    | O => Fuel
    | S fuel =>
      i0 <- rd m ip ;;
      b0 <- isb tab i0 ;;
      if negb b0 then Ok (m, outleft, inlen) else
      i1 <- rd m (ip + 1) ;;
      b1 <- isb tab i1 ;;
      if negb b1 then Ok (m, outleft, inlen) else
      v0 <- val_at m ip ;;
      v1 <- val_at m (ip + 1) ;;
      '(m, op, outleft) <- put m op outleft (Z.lor (Z.shiftl v0 2) (Z.shiftr v1 4)) ;;
      if (inlen =? 2)%nat then Ok (m, outleft, inlen) else
      i2 <- rd m (ip + 2) ;;
      if i2 =? pad then
        if negb (inlen =? 4)%nat then Ok (m, outleft, inlen) else
        i3 <- rd m (ip + 3) ;;
        if negb (i3 =? pad) then Ok (m, outleft, inlen) else
        dec_at fuel m (ip + 4) (inlen - 4) op outleft
      else
        b2 <- isb tab i2 ;;
        if negb b2 then Ok (m, outleft, inlen) else
        v1 <- val_at m (ip + 1) ;;
        v2 <- val_at m (ip + 2) ;;
        '(m, op, outleft) <- put m op outleft (Z.lor (Z.land (Z.shiftl v1 4) 240) (Z.shiftr v2 2)) ;;
        if (inlen =? 3)%nat then Ok (m, outleft, inlen) else
        i3 <- rd m (ip + 3) ;;
        if i3 =? pad then
          if negb (inlen =? 4)%nat then Ok (m, outleft, inlen) else
          dec_at fuel m (ip + 4) (inlen - 4) op outleft
        else
          b3 <- isb tab i3 ;;
          if negb b3 then Ok (m, outleft, inlen) else
          v2 <- val_at m (ip + 2) ;;
          v3 <- val_at m (ip + 3) ;;
          '(m, op, outleft) <- put m op outleft (Z.lor (Z.land (Z.shiftl v2 6) 192) v3) ;;
          dec_at fuel m (ip + 4) (inlen - 4) op outleft
    end.

  (** base64.c:310-384 [coda_base64_decode], web64.c:178-236 [web64_decode] *)
  Definition decode_at (m : list Z) (ip inlen op outlen : nat) : res (bool * list Z * nat) :=
    '(m, outleft, rest) <- dec_at inlen m ip inlen op outlen ;;
    Ok ((rest =? 0)%nat, m, (outlen - outleft)%nat).
End Codec.

(** base64.c:311-384 [coda_base64_decode] *)
Definition base64_decode_at := decode_at b64 61.
(** web64.c:178-236 [web64_decode] *)
Definition web64_decode_at := decode_at w64 46.
