(** Properties C01-C08: Base 64 and its URL variant (coda/base64.c, coda/web64.c). *)

From Coq Require Import ZArith List Lia.
From Verif Require Import Base Base64_Model Base64_Spec Base64_Proof.
Import ListNotations.
Local Open Scope list_scope.
Local Open Scope Z_scope.

(** C01.  Decoding what the encoder produced gives back the input, for every byte
    string, every encoding buffer with room for the text and every decoding buffer
    with room for the data; bytes behind the decoded data are untouched. *)
Theorem C01_base64_roundtrip : forall x ebuf outlen dbuf cap,
  bytes x ->
  (rfc_length (length x) <= outlen <= length ebuf)%nat ->
  (length x <= cap <= length dbuf)%nat ->
  exists text rest,
    base64_encode x (length x) ebuf outlen = Ok (text ++ rest) /\
    length text = rfc_length (length x) /\
    base64_decode text (length text) dbuf cap =
      Ok (true, x ++ skipn (length x) dbuf, length x).
Proof. exact rt64. Qed.
Print Assumptions C01_base64_roundtrip.

Example C01_example :
  base64_encode (zs "any carnal pleas") 16 (repeat 7 30) 30 =
    Ok (zs "YW55IGNhcm5hbCBwbGVhcw==" ++ [0; 7; 7; 7; 7; 7]) /\
  base64_decode (zs "YW55IGNhcm5hbCBwbGVhcw==") 24 (repeat 7 18) 18 =
    Ok (true, zs "any carnal pleas" ++ [7; 7], 16%nat).
Proof. vm_compute. auto. Qed.

(** C02.  The output buffer after the call: the first [outlen] characters of the
    RFC 4648 text, then a zero byte iff room is left, then the old contents.  The
    input buffer of the theorem has exactly [inlen] bytes, so any read beyond it
    would be [Ub OobRead]; any write beyond the buffer would be [Ub OobWrite]. *)
Theorem C02_base64_encode_exact : forall inb out outlen,
  bytes inb -> (outlen <= length out)%nat ->
  base64_encode inb (length inb) out outlen =
    let text := rfc_encode 43 47 61 inb in
    let k := Nat.min outlen (length text) in
    Ok (firstn k text ++
        (if (length text <? outlen)%nat then 0 :: skipn (S k) out else skipn k out)).
Proof. exact enc64. Qed.
Print Assumptions C02_base64_encode_exact.

(** and the text has the length CODA_BASE64_LENGTH promises *)
Theorem C02_base64_text_length : forall inb,
  length (rfc_encode 43 47 61 inb) = rfc_length (length inb).
Proof. exact (fun inb => len64 (length inb) inb (le_n _)). Qed.
Print Assumptions C02_base64_text_length.

Example C02_example_truncated :
  base64_encode (zs "hello") 5 (repeat 9 8) 6 = Ok (zs "aGVsbG" ++ [9; 9]).
Proof. reflexivity. Qed.

(** C03.  For every input (well formed or not) and every capacity: the result is
    true iff the text is well formed; exactly the first [cap] octets of the
    decoding of the leading alphabet characters are written, [*outlen] is their
    number and everything behind them is untouched. *)
Theorem C03_base64_decode_exact : forall inb out cap,
  bytes inb -> (cap <= length out)%nat ->
  exists okb,
    base64_decode inb (length inb) out cap =
      (let o := rfc_decoded 43 47 inb in
       let k := Nat.min cap (length o) in
       Ok (okb, firstn k o ++ skipn k out, k)) /\
    (okb = true <-> well_formed 43 47 61 inb).
Proof. exact dec64. Qed.
Print Assumptions C03_base64_decode_exact.

Example C03_example_good :
  base64_decode (zs "aGVsbG8=") 8 (repeat 9 6) 6 = Ok (true, zs "hello" ++ [9], 5%nat).
Proof. reflexivity. Qed.
Example C03_example_bad :
  base64_decode (zs "aGV=bG8=") 8 (repeat 9 6) 6 = Ok (false, zs "he" ++ [9; 9; 9; 9], 2%nat).
Proof. reflexivity. Qed.

(** C04.  The overflow exit is taken exactly when the true size does not fit. *)
Theorem C04_encode_alloc_overflow_exact : forall inlen, 0 <= inlen < 2 ^ 64 ->
  encode_alloc_request inlen =
    let need := 1 + 4 * ((inlen + 2) / 3) in
    if need <? 2 ^ 64 then Some need else None.
Proof. exact alloc_request_spec. Qed.
Print Assumptions C04_encode_alloc_overflow_exact.

(** and the whole function: NULL/0 on overflow, the request size and NULL if malloc
    fails, otherwise the complete zero-terminated text and its length *)
Theorem C04_encode_alloc : forall fresh x,
  (forall n b, fresh n = Some b -> length b = n) -> bytes x ->
  Z.of_nat (length x) < 2 ^ 64 ->
  let need := 1 + 4 * ((Z.of_nat (length x) + 2) / 3) in
  encode_alloc fresh x (length x) =
    if 2 ^ 64 <=? need then Ok (0, None)
    else match fresh (Z.to_nat need) with
         | None => Ok (need, None)
         | Some _ => Ok (need - 1, Some (rfc_encode 43 47 61 x ++ [0]))
         end.
Proof. exact encode_alloc_lemma. Qed.
Print Assumptions C04_encode_alloc.

Example C04_example_overflow : encode_alloc_request (2 ^ 64 - 3) = None /\
  encode_alloc_request (2 ^ 64 - 1) = None /\ encode_alloc_request 13835058055282163710 = None /\
  encode_alloc_request 13835058055282163709 = Some 18446744073709551613.
Proof. vm_compute. auto. Qed.
Example C04_example_alloc :
  encode_alloc (fun n => Some (repeat 5 n)) (zs "ab") 2 = Ok (4, Some (zs "YWI=" ++ [0])).
Proof. reflexivity. Qed.

(** C05.  [coda_base64_decode_alloc]: on well-formed input the whole decoding is
    delivered (the block of 3*(inlen/4)+2 bytes is large enough); on malformed
    input false and NULL; if malloc fails, true and NULL. *)
Theorem C05_decode_alloc_complete : forall fresh inb,
  (forall n b, fresh n = Some b -> length b = n) -> bytes inb ->
  (well_formed 43 47 61 inb /\
   exists blk, fresh (3 * (length inb / 4) + 2)%nat = Some blk /\
   base64_decode_alloc fresh inb (length inb) =
     Ok (true, Some (rfc_decoded 43 47 inb ++ skipn (length (rfc_decoded 43 47 inb)) blk),
         Some (length (rfc_decoded 43 47 inb)))) \/
  (fresh (3 * (length inb / 4) + 2)%nat = None /\
   base64_decode_alloc fresh inb (length inb) = Ok (true, None, None)) \/
  (~ well_formed 43 47 61 inb /\
   fresh (3 * (length inb / 4) + 2)%nat <> None /\
   base64_decode_alloc fresh inb (length inb) = Ok (false, None, None)).
Proof. exact da64. Qed.
Print Assumptions C05_decode_alloc_complete.

Example C05_example :
  base64_decode_alloc (fun n => Some (repeat 5 n)) (zs "aGVsbG8=") 8 =
    Ok (true, Some (zs "hello" ++ [5; 5; 5]), Some 5%nat).
Proof. reflexivity. Qed.

(** C06. *)
Theorem C06_web64_roundtrip : forall x ebuf outlen dbuf cap,
  bytes x ->
  (rfc_length (length x) <= outlen <= length ebuf)%nat ->
  (length x <= cap <= length dbuf)%nat ->
  exists text rest,
    web64_encode x (length x) ebuf outlen = Ok (text ++ rest) /\
    length text = rfc_length (length x) /\
    web64_decode text (length text) dbuf cap =
      Ok (true, x ++ skipn (length x) dbuf, length x).
Proof. exact rtw. Qed.
Print Assumptions C06_web64_roundtrip.

Example C06_example :
  web64_encode [251; 239; 255; 0] 4 (repeat 7 9) 9 = Ok (zs "--__AA.." ++ [0]) /\
  web64_decode (zs "--__AA..") 8 (repeat 7 4) 4 = Ok (true, [251; 239; 255; 0], 4%nat).
Proof. vm_compute. auto. Qed.

(** C07.  Everything the web variant writes as text is URL safe (the part about
    coda_urlenc/coda_urldec is C07_web64_survives_urlcodec in Url_Props.v). *)
Theorem C07_web64_alphabet : forall x out outlen,
  bytes x -> (outlen <= length out)%nat ->
  exists text rest, web64_encode x (length x) out outlen = Ok (text ++ rest) /\
    length text = Nat.min outlen (rfc_length (length x)) /\
    Forall (fun c => 65 <= c <= 90 \/ 97 <= c <= 122 \/ 48 <= c <= 57 \/
                     c = 45 \/ c = 95 \/ c = 46) text.
Proof. exact web64_urlsafe_lemma. Qed.
Print Assumptions C07_web64_alphabet.

(** C08. *)
Theorem C08_web64_encode_exact : forall inb out outlen,
  bytes inb -> (outlen <= length out)%nat ->
  web64_encode inb (length inb) out outlen =
    let text := rfc_encode 45 95 46 inb in
    let k := Nat.min outlen (length text) in
    Ok (firstn k text ++
        (if (length text <? outlen)%nat then 0 :: skipn (S k) out else skipn k out)).
Proof. exact encw. Qed.
Print Assumptions C08_web64_encode_exact.

Theorem C08_web64_decode_exact : forall inb out cap,
  bytes inb -> (cap <= length out)%nat ->
  exists okb,
    web64_decode inb (length inb) out cap =
      (let o := rfc_decoded 45 95 inb in
       let k := Nat.min cap (length o) in
       Ok (okb, firstn k o ++ skipn k out, k)) /\
    (okb = true <-> well_formed 45 95 46 inb).
Proof. exact decw. Qed.
Print Assumptions C08_web64_decode_exact.

Example C08_example :
  web64_decode (zs "aGVsbG8.x") 9 (repeat 9 6) 6 = Ok (false, zs "hello" ++ [9], 5%nat) /\
  web64_decode (zs "-_+/") 4 (repeat 9 3) 3 = Ok (false, [251; 9; 9], 1%nat).
Proof. vm_compute. auto. Qed.
