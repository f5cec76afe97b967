(** Model of coda/url.cpp.

    Forward pointers are lists as in [Str_Model], [std::string] is a list of bytes,
    [std::map] is a list of pairs observed through [lookup].  Output buffers are
    bounds-checked lists. *)

From Coq Require Import ZArith List Bool Lia.
From Verif Require Import Base Str_Model StrCpp_Model.
Import ListNotations.
Local Open Scope Z_scope.

(** ** Maps *)

(** std::map<std::string, std::string>, url.cpp:9, 33 *)
Definition smap : Type := list (list Z * list Z).
(** Not in the code: what the caller finds in the map. *)
Fixpoint lookup (k : list Z) (m : smap) : option (list Z) :=
  match m with
  | [] => None
  | (k', v) :: m => if list_eqb k k' then Some v else lookup k m
  end.
(** [m[k].assign(v)]; url.cpp:24, 49 *)
Fixpoint map_set (k v : list Z) (m : smap) : smap :=
  match m with
  | [] => [(k, v)]
  | (k', v') :: m => if list_eqb k k' then (k, v) :: m else (k', v') :: map_set k v m
  end.

(** ** Parameters and headers *)

(** url.cpp:15-28; [n] is [e - s]. *)
Fixpoint params_loop (fuel : nat) (params : smap) (s : list Z) (n : nat) : res smap :=
  match fuel with
  | O => Fuel
  | S fuel =>
    if (n =? 0)%nat then Ok params else
    r <- strnchr s 38 n ;;
    let amp := match r with None => n | Some k => k end in
    q <- strnchr s 61 n ;;
    let params :=
      match q with
      | Some equ => if (equ <? amp)%nat
                    then map_set (firstn equ s) (firstn (amp - equ - 1) (skipn (equ + 1) s)) params
                    else params
      | None => params
      end in
    params_loop fuel params (skipn (amp + 1) s) (n - (amp + 1))
  end.

(** url.cpp:9-31 [coda_get_params_buf]; [None] is the null pointer. *)
Definition get_params_buf (params : smap) (s : option (list Z)) (len : nat) : res (Z * smap) :=
  match s with
  | None => Ok (-1, params)
  | Some s => m <- params_loop (S len) params s len ;; Ok (0, m)
  end.

(** the literal of url.cpp:41 *)
Definition crlf_lit : list Z := [13; 10; 0].

(** url.cpp:39-53. *)
Fixpoint header_loop (fuel : nat) (header : smap) (s : list Z) (n : nat) : res smap :=
  match fuel with
  | O => Fuel
  | S fuel =>
    if (n =? 0)%nat then Ok header else
    r <- strnstr (Some s) (Some crlf_lit) n ;;
    let crlf := match r with None => n | Some k => k end in
    if (crlf =? 0)%nat then Ok header else
    q <- strnchr s 58 n ;;
    let header :=
      match q with
      | Some dodo => if (dodo <? crlf)%nat
                     then map_set (firstn dodo s) (firstn (crlf - dodo - 1) (skipn (dodo + 1) s)) header
                     else header
      | None => header
      end in
    header_loop fuel header (skipn (crlf + 2) s) (n - (crlf + 2))
  end.

(** url.cpp:33-56 [coda_get_header_buf]. *)
Definition get_header_buf (header : smap) (s : option (list Z)) (len : nat) : res (Z * smap) :=
  match s with
  | None => Ok (-1, header)
  | Some s => m <- header_loop (S len) header s len ;; Ok (0, m)
  end.

(** url.cpp:58-62 [coda_get_params], 64-68 [coda_get_header]. *)
Definition get_params (params : smap) (s : option (list Z)) : res (Z * smap) :=
  match s with
  | None => Ok (-1, params)
  | Some b => n <- strlen b ;; get_params_buf params s n
  end.
(** url.cpp:64-68 [coda_get_header] *)
Definition get_header (header : smap) (s : option (list Z)) : res (Z * smap) :=
  match s with
  | None => Ok (-1, header)
  | Some b => n <- strlen b ;; get_header_buf header s n
  end.

(** ** Encoding *)

(** url.cpp:70 *)
Definition table_hexval : list Z := zs "0123456789ABCDEF".

(** url.cpp:72-90 *)
Definition table_urldec : list Z :=
  repeat 0 48 ++ [0; 1; 2; 3; 4; 5; 6; 7; 8; 9] ++ repeat 0 6 ++
  [0; 10; 11; 12; 13; 14; 15] ++ repeat 0 9 ++ repeat 0 16 ++
  [0; 10; 11; 12; 13; 14; 15] ++ repeat 0 9 ++ repeat 0 16 ++
  repeat 0 128.

(** url.cpp:92-105 *)
Definition table_urlenc : list Z :=
  [0xffffffff; 0xfc009ffe; 0x78000001; 0xb8000001; 0xffffffff; 0xffffffff; 0xffffffff; 0xffffffff].

(** url.cpp:115 and 176, 206: [table_urlenc[c >> 5] & (1 << (c & 0x1f))]; [1 << 31]
    is taken as bit 31. *)
Definition must_escape (c : Z) : res bool :=
  w <- rd table_urlenc (Z.to_nat (Z.shiftr c 5)) ;;
  Ok (negb (Z.land w (Z.shiftl 1 (Z.land c 31)) =? 0)).

(** table_hexval[c >> 4], url.cpp:118, 179, 209 *)
Definition hex_hi (c : Z) : res Z := rd table_hexval (Z.to_nat (Z.shiftr c 4)).
(** table_hexval[c & 15], url.cpp:119, 180, 210 *)
Definition hex_lo (c : Z) : res Z := rd table_hexval (Z.to_nat (Z.land c 15)).

(** url.cpp:107-136 [coda_urlenc] into a buffer; [todo] is [esrc - psrc]. *)
Fixpoint urlenc_buf_loop (dst : list Z) (p : nat) (src : list Z) (todo : nat)
  : res (nat * list Z) :=
  match todo with
  | O => dst <- wr dst p 0 ;; Ok (p, dst)
  | S todo =>
    c <- deref src ;;
    e <- must_escape c ;;
    if e then
      dst <- wr dst p 37 ;;
      h <- hex_hi c ;;
      dst <- wr dst (p + 1) h ;;
      l <- hex_lo c ;;
      dst <- wr dst (p + 2) l ;;
      urlenc_buf_loop dst (p + 3) (tl src) todo
    else if c =? 32 then
      dst <- wr dst p 43 ;; urlenc_buf_loop dst (p + 1) (tl src) todo
    else
      dst <- wr dst p c ;; urlenc_buf_loop dst (p + 1) (tl src) todo
  end.
(** url.cpp:107-136 *)
Definition urlenc_buf (dst src : list Z) (sz : nat) := urlenc_buf_loop dst 0 src sz.

(** url.cpp:148 / 233: the decoded byte *)
Definition dec_byte (a b : Z) : res Z :=
  x <- rd table_urldec (Z.to_nat a) ;;
  y <- rd table_urldec (Z.to_nat b) ;;
  Ok ((x * 16 + y * 1) mod 256).

(** url.cpp:138-165 [coda_urldec] into a buffer.  The comparison [psrc < esrc - 2]
    is taken as [esrc - psrc > 2] (the code computes a pointer before the block when
    sz < 2). *)
Fixpoint urldec_buf_loop (dst : list Z) (p : nat) (src : list Z) (todo : nat)
  : res (nat * list Z) :=
  match todo with
  | O => dst <- wr dst p 0 ;; Ok (p, dst)
  | S k1 =>
    c <- deref src ;;
    match c =? 37, k1 with
    | true, S (S k3) =>
      a <- deref (tl src) ;;
      b <- deref (tl (tl src)) ;;
      v <- dec_byte a b ;;
      dst <- wr dst p v ;;
      urldec_buf_loop dst (p + 1) (tl (tl (tl src))) k3
    | _, _ =>
      if c =? 43 then dst <- wr dst p 32 ;; urldec_buf_loop dst (p + 1) (tl src) k1
      else dst <- wr dst p c ;; urldec_buf_loop dst (p + 1) (tl src) k1
    end
  end.
(** url.cpp:138-165 *)
Definition urldec_buf (dst src : list Z) (sz : nat) := urldec_buf_loop dst 0 src sz.

(** url.cpp:167-195 [coda_urlenc] to a string *)
Fixpoint urlenc_loop (dst : list Z) (src : list Z) (todo : nat) : res (list Z) :=
  match todo with
  | O => Ok dst
  | S todo =>
    c <- deref src ;;
    e <- must_escape c ;;
    if e then
      h <- hex_hi c ;;
      l <- hex_lo c ;;
      urlenc_loop (dst ++ [37; h; l]) (tl src) todo
    else if c =? 32 then urlenc_loop (dst ++ [43]) (tl src) todo
    else urlenc_loop (dst ++ [c]) (tl src) todo
  end.
(** url.cpp:167-195 *)
Definition urlenc (src : list Z) (sz : nat) := urlenc_loop [] src sz.

(** url.cpp:197-220 [coda_urlenc_noplus] *)
Fixpoint urlenc_noplus_loop (dst : list Z) (src : list Z) (todo : nat) : res (list Z) :=
  match todo with
  | O => Ok dst
  | S todo =>
    c <- deref src ;;
    e <- (if c =? 32 then Ok true else must_escape c) ;;
    if e then
      h <- hex_hi c ;;
      l <- hex_lo c ;;
      urlenc_noplus_loop (dst ++ [37; h; l]) (tl src) todo
    else urlenc_noplus_loop (dst ++ [c]) (tl src) todo
  end.
(** url.cpp:197-220 *)
Definition urlenc_noplus (src : list Z) (sz : nat) := urlenc_noplus_loop [] src sz.

(** url.cpp:222-248 [coda_urldec] to a string *)
Fixpoint urldec_loop (dst : list Z) (src : list Z) (todo : nat) : res (list Z) :=
  match todo with
  | O => Ok dst
  | S k1 =>
    c <- deref src ;;
    match c =? 37, k1 with
    | true, S (S k3) =>
      a <- deref (tl src) ;;
      b <- deref (tl (tl src)) ;;
      v <- dec_byte a b ;;
      urldec_loop (dst ++ [v]) (tl (tl (tl src))) k3
    | _, _ =>
      if c =? 43 then urldec_loop (dst ++ [32]) (tl src) k1
      else urldec_loop (dst ++ [c]) (tl src) k1
    end
  end.
(** url.cpp:222-248 *)
Definition urldec (src : list Z) (sz : nat) := urldec_loop [] src sz.

(** url.cpp:250-263, the std::string overloads *)
Definition urlenc_str (u : list Z) := urlenc u (length u).
(** url.cpp:250-263 *)
Definition urlenc_noplus_str (u : list Z) := urlenc_noplus u (length u).
(** url.cpp:250-263 *)
Definition urldec_str (u : list Z) := urldec u (length u).

(** ** Escaping into bounded buffers *)

(** write a list of bytes; not in the code: consecutive stores *)
Fixpoint wr_list (dst : list Z) (p : nat) (l : list Z) : res (list Z) :=
  match l with
  | [] => Ok dst
  | c :: l => dst <- wr dst p c ;; wr_list dst (p + 1) l
  end.

(** memset(dest, 0, sz); url.cpp:267, 292 *)
Definition memset0 (dest : list Z) (sz : Z) : res (list Z) := wr_list dest 0 (repeat 0 (Z.to_nat sz)).

(** a byte as the value of a (signed) char; url.cpp:273 *)
Definition schar (c : Z) : Z := if c <? 128 then c else c - 256.

(** snprintf(dest + p, n, "%%%02X", c) for a char 0..127: at most n bytes including
    the terminating zero; returns 3; url.cpp:275 *)
Definition snprintf_hex (dest : list Z) (p : nat) (n : Z) (c : Z) : res (list Z) :=
  h <- hex_hi c ;;
  l <- hex_lo c ;;
  if n <=? 0 then Ok dest
  else wr_list dest p (firstn (Z.to_nat (Z.min (n - 1) 3)) [37; h; l] ++ [0]).

(** url.cpp:270-287; [sz] is the already decremented size_t.  A negative char
    indexes [table_urlenc] before its start. *)
Fixpoint escape_loop (dest : list Z) (ptr : nat) (s : list Z) (sz : Z) : res (list Z) :=
  match s with
  | [] => Ub OobRead
  | c :: s =>
    if (c =? 0) || negb (Z.of_nat ptr <? sz) then Ok dest else
    if schar c <? 0 then Ub OobRead else
    e <- must_escape c ;;
    if e then
      dest <- snprintf_hex dest ptr (sz - Z.of_nat ptr) c ;;
      escape_loop dest (ptr + 3) s sz
    else if c =? 32 then
      dest <- wr dest ptr 43 ;; escape_loop dest (ptr + 1) s sz
    else
      dest <- wr dest ptr c ;; escape_loop dest (ptr + 1) s sz
  end.
(** url.cpp:265-288 [coda_url_escape] *)
Definition url_escape (s dest : list Z) (sz : Z) : res (list Z) :=
  dest <- memset0 dest sz ;;
  escape_loop dest 0 s ((sz - 3) mod 2 ^ 64).

(** isxdigit(3), C locale; url.cpp:301-373 *)
Definition isxdigit (c : Z) : bool :=
  ((48 <=? c) && (c <=? 57)) || ((65 <=? c) && (c <=? 70)) || ((97 <=? c) && (c <=? 102)).
(** the value of a hexadecimal digit, for strtol(3) in url.cpp:307-379 *)
Definition xval (c : Z) : Z :=
  if c <=? 57 then c - 48 else if c <=? 70 then c - 55 else c - 87.

(** strtol(xnum, 0, 16) on two hex digits (url.cpp:307, 334, 360, 379), as uint8_t *)
Definition hex2 (a b : Z) : Z := (xval a * 16 + xval b) mod 256.

(** digits of strtol(s, &ns, 16): value and rest; saturates at LONG_MAX; url.cpp:315 *)
Fixpoint strtol_digits (s : list Z) (acc : Z) : res (Z * list Z) :=
  match s with
  | [] => Ub OobRead
  | c :: t => if isxdigit c then strtol_digits t (acc * 16 + xval c)
              else Ok (Z.min acc (2 ^ 63 - 1), s)
  end.
(** strtol(s, &ns, 16) where *s is a hex digit: optional prefix 0x; url.cpp:315 *)
Definition strtol16 (s : list Z) : res (Z * list Z) :=
  match s with
  | a :: x :: d :: t =>
    if (a =? 48) && ((x =? 120) || (x =? 88)) && isxdigit d then strtol_digits (d :: t) 0
    else strtol_digits s 0
  | _ => strtol_digits s 0
  end.

(** [isxdigit(s[i])]; url.cpp:301, 312, 328, 354, 373 *)
Definition xd (s : list Z) (i : nat) : res bool := c <- rd s i ;; Ok (isxdigit c).

(** short-circuit conjunction; the operator of url.cpp:301, 312, 328, 354, 373 *)
Definition andr (a b : res bool) : res bool := x <- a ;; if x then b else Ok false.

(** url.cpp:294-346; fuel: one round per byte of [s] *)
Fixpoint unescape_loop (fuel : nat) (dest : list Z) (ptr : nat) (s : list Z) (sz : Z)
  : res (list Z) :=
  match fuel with
  | O => Fuel
  | S fuel =>
    c <- deref s ;;
    if (c =? 0) || negb (Z.of_nat ptr <? (sz - 2) mod 2 ^ 64) then wr dest ptr 0 else
    if c =? 43 then
      dest <- wr dest ptr 32 ;; unescape_loop fuel dest (ptr + 1) (tl s) sz
    else
    b1 <- andr (Ok (c =? 37)) (andr (xd s 1) (xd s 2)) ;;
    if b1 then
      x <- rd s 1 ;; y <- rd s 2 ;;
      dest <- wr dest ptr (hex2 x y) ;;
      unescape_loop fuel dest (ptr + 1) (skipn 3 s) sz
    else
    b2 <- andr (Ok (c =? 37)) (andr (x <- rd s 1 ;; Ok (x =? 117)) (xd s 2)) ;;
    if b2 then
      '(v, ns) <- strtol16 (skipn 2 s) ;;
      let v := v mod 2 ^ 32 in
      if (v <? 0x800) && (0x7F <? v) then
        dest <- wr dest ptr (Z.lor (Z.shiftr v 6) 0xc0) ;;
        dest <- wr dest (ptr + 1) (Z.lor (Z.land v 0x3f) 0x80) ;;
        unescape_loop fuel dest (ptr + 2) ns sz
      else if v <? 0x7F then
        dest <- wr dest ptr v ;; unescape_loop fuel dest (ptr + 1) ns sz
      else unescape_loop fuel dest ptr ns sz
    else
    b3 <- andr (Ok (c =? 92)) (andr (x <- rd s 1 ;; Ok (x =? 120)) (andr (xd s 2) (xd s 3))) ;;
    if b3 then
      x <- rd s 2 ;; y <- rd s 3 ;;
      dest <- wr dest ptr (hex2 x y) ;;
      unescape_loop fuel dest (ptr + 1) (skipn 4 s) sz
    else
      dest <- wr dest ptr c ;; unescape_loop fuel dest (ptr + 1) (tl s) sz
  end.
(** url.cpp:290-347 [coda_url_unescape] *)
Definition url_unescape (s dest : list Z) (sz : Z) : res (list Z) :=
  dest <- memset0 dest sz ;;
  unescape_loop (length s) dest 0 s sz.

(** url.cpp:352-398; [ptr + k] are size_t sums of an index into a block, they do
    not wrap; [sz + 5] may. *)
Fixpoint preunescape_loop (fuel : nat) (dest : list Z) (ptr : nat) (s : list Z) (sz : Z)
  : res (list Z) :=
  match fuel with
  | O => Fuel
  | S fuel =>
    c <- deref s ;;
    if (c =? 0) || negb (Z.of_nat ptr <? (sz + 5) mod 2 ^ 64) then wr dest ptr 0 else
    b1 <- andr (Ok (c =? 37)) (andr (xd s 1) (xd s 2)) ;;
    if b1 then
      x <- rd s 1 ;; y <- rd s 2 ;;
      if negb (Z.land (hex2 x y) 0x80 =? 0) then
        dest <- wr dest ptr (hex2 x y) ;;
        preunescape_loop fuel dest (ptr + 1) (skipn 3 s) sz
      else
        dest <- (if Z.of_nat (ptr + 4) <? sz then wr_list dest ptr [c; x; y] else Ok dest) ;;
        preunescape_loop fuel dest (ptr + 3) (skipn 3 s) sz
    else
    b3 <- andr (Ok (c =? 92)) (andr (x <- rd s 1 ;; Ok (x =? 120)) (andr (xd s 2) (xd s 3))) ;;
    if b3 then
      x <- rd s 2 ;; y <- rd s 3 ;;
      if negb (Z.land (hex2 x y) 0x80 =? 0) then
        dest <- wr dest ptr (hex2 x y) ;;
        preunescape_loop fuel dest (ptr + 1) (skipn 4 s) sz
      else
        dest <- (if Z.of_nat (ptr + 3) <? sz then wr_list dest ptr [c; 120; x; y] else Ok dest) ;;
        preunescape_loop fuel dest ptr (skipn 4 s) sz
    else
      dest <- wr dest ptr c ;; preunescape_loop fuel dest (ptr + 1) (tl s) sz
  end.
(** url.cpp:349-399 [coda_url_preunescape] *)
Definition url_preunescape (s dest : list Z) (sz : Z) : res (list Z) :=
  preunescape_loop (length s) dest 0 s sz.
