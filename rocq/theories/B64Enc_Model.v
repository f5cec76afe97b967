(** Model of the encoders of coda/base64.c and coda/web64.c when the input and the text lie
    in one memory, so that they may overlap.  The code has no [restrict].

    [m] is the memory; [ip] and [op] are the positions of [in] and [out] in it.  Every read
    of the code is a read of the memory as it is at that time: in[0], in[1] and in[2] are
    read up to two times each, with a write in between.  The alphabet lies elsewhere. *)

From Coq Require Import ZArith List Bool.
From Verif Require Import Base Base64_Model.
Import ListNotations.
Local Open Scope Z_scope.

Section Codec.
  Variable alpha : list Z.   (* b64str *)
  Variable pad : Z.          (* '=' or '.' *)

  (** base64.c:71-96 / web64.c:15-27, the [while (inlen && outlen)] loop.  The result is the
      memory, [out] and [outlen] after the loop. *)
  Fixpoint enc_at (fuel : nat) (m : list Z) (ip inlen op outlen : nat) : res (list Z * nat * nat) :=
    if ((inlen =? 0) || (outlen =? 0))%nat then Ok (m, op, outlen) else
    match fuel with
    | O => Fuel
    | S fuel =>
      c0 <- rd m ip ;;
      ch <- rd alpha (Z.to_nat (Z.land (Z.shiftr c0 2) 63)) ;;
      m <- wr m op ch ;;
      let op := S op in
      let outlen := pred outlen in
      if (outlen =? 0)%nat then Ok (m, op, outlen) else
      c0 <- rd m ip ;;
      let inlen := pred inlen in
      x <- (if (inlen =? 0)%nat then Ok 0
            else c1 <- rd m (ip + 1) ;; Ok (Z.shiftr c1 4)) ;;
      ch <- rd alpha (Z.to_nat (Z.land (Z.shiftl c0 4 + x) 63)) ;;
      m <- wr m op ch ;;
      let op := S op in
      let outlen := pred outlen in
      if (outlen =? 0)%nat then Ok (m, op, outlen) else
      '(ch, inlen) <-
        (if (inlen =? 0)%nat then Ok (pad, inlen)
         else c1 <- rd m (ip + 1) ;;
              let inlen := pred inlen in
              x <- (if (inlen =? 0)%nat then Ok 0
                    else c2 <- rd m (ip + 2) ;; Ok (Z.shiftr c2 6)) ;;
              ch <- rd alpha (Z.to_nat (Z.land (Z.shiftl c1 2 + x) 63)) ;;
              Ok (ch, inlen)) ;;
      m <- wr m op ch ;;
      let op := S op in
      let outlen := pred outlen in
      if (outlen =? 0)%nat then Ok (m, op, outlen) else
      ch <- (if (inlen =? 0)%nat then Ok pad
             else c2 <- rd m (ip + 2) ;;
                  rd alpha (Z.to_nat (Z.land c2 63))) ;;
      m <- wr m op ch ;;
      let op := S op in
      let outlen := pred outlen in
      if (outlen =? 0)%nat then Ok (m, op, outlen) else
      let inlen := pred inlen in                              (* if (inlen) inlen--; *)
      let ip := if (inlen =? 0)%nat then ip else (ip + 3)%nat in
      enc_at fuel m ip inlen op outlen
    end.

  (** base64.c:64-100, web64.c:11-30 *)
  Definition encode_at (m : list Z) (ip inlen op outlen : nat) : res (list Z) :=
    '(m, op, outlen) <- enc_at (S inlen) m ip inlen op outlen ;;
    if (outlen =? 0)%nat then Ok m else wr m op 0.
End Codec.

(** base64.c:64-100 [coda_base64_encode] *)
Definition base64_encode_at := encode_at b64str 61.
(** web64.c:11-30 [web64_encode] *)
Definition web64_encode_at := encode_at w64str 46.
