(** Model of coda/url_parser.cpp with its 32-bit length fields and with a malloc that may
    fail.

    [UrlP_Model] and [UrlO_Model] take the lengths as natural numbers.  Here every value
    stored in [val_len] or [dom_len] (uint32_t, url_parser.hpp:12, 14) is reduced modulo 2^32,
    and so is the sum that sizes a copy.  The block malloc returns is [Some mem0], or None
    for the null pointer.  The functions on pointers only are those of [UrlP_Model]. *)

From Coq Require Import ZArith List Bool.
From Verif Require Import Base Str_Model UrlP_Model UrlO_Model.
Import ListNotations.
Local Open Scope Z_scope.

(** Not in the code: the value of a uint32_t after storing [n]. *)
Definition w32 (n : nat) : nat := Z.to_nat (Z.of_nat n mod 2 ^ 32).

(** Not in the code: the block a memcpy writes to; url_parser.cpp:138, 144, 148, 31, 58, 362 *)
Definition to_block (blk : option (list Z)) : res (list Z) :=
  match blk with Some b => Ok b | None => Ub NullDeref end.

(** url_parser.cpp:221-340 [assign_refers] *)
Definition assign_refers32 (b : list Z) (vlen : nat) (dom : dptr) (dlen beg : nat) (flags : Z) : res url :=
  r <- strnchr b 63 vlen ;;
  let eofp := match r with Some i => i | None => vlen end in
  let args := eofp in
  let args_len := (vlen - args)%nat in
  '(b, eofp, prev) <- refers_loop (eofp - beg) b eofp beg beg beg ;;
  eofp <- refers_end b eofp beg prev flags ;;
  '(b, eofp) <- (if negb (args_len =? 0)%nat
                 then b <- memmove b eofp args args_len ;; Ok (b, (eofp + args_len)%nat)
                 else Ok (b, eofp)) ;;
  let vlen := w32 eofp in                                   (* 331 *)
  d <- (match dom with
        | Own i => if (i + dlen <=? vlen + 1)%nat then slice b i dlen else Ub BadLib
        | Ext l => slice l 0 dlen
        end) ;;
  b <- blit b (vlen + 1) d ;;
  let dlen := w32 dlen in                                   (* 333 *)
  b <- wr b vlen 0 ;;
  b <- wr b (vlen + 1 + dlen) 0 ;;
  Ok (mkUrl b vlen (vlen + 1) dlen).

(** url_parser.cpp:159-219 [assign_anchor] *)
Definition assign_anchor32 (b : list Z) (vlen beg : nat) (flags : Z) : res url :=
  r <- strnchr b 35 vlen ;;
  let vlen := match r with Some e => w32 e | None => vlen end in                 (* 166 *)
  n <- dist vlen beg ;;
  r <- strnchr (skipn beg b) 47 n ;;
  let end_ := match r with Some i => (beg + i)%nat | None => vlen end in
  '(b, p) <- lower_loop (end_ - beg) b beg ;;
  '(b, vlen, end_) <-
    (if (end_ =? p)%nat then
       if (vlen =? end_)%nat then
         b <- wr b vlen 47 ;; Ok (b, w32 (S vlen), vlen)                         (* 187 *)
       else Ok (b, vlen, end_)
     else
       n <- dist vlen p ;;
       b <- memmove b (p + 1) p n ;;
       b <- wr b p 47 ;;
       Ok (b, w32 (S vlen), p)) ;;                                               (* 193 *)
  n <- dist end_ beg ;;
  k <- strnspn (skipn beg b) (zs "." ++ [0]) n ;;
  let p := (beg + k)%nat in
  '(b, vlen, end_) <-
    (if (beg =? p)%nat then Ok (b, vlen, end_) else
       n <- dist vlen p ;;
       b <- memmove b beg p n ;;
       Ok (b, w32 (vlen - (p - beg)), end_ - (p - beg))%nat) ;;                  (* 199 *)
  n <- dist end_ beg ;;
  k <- revnspn (skipn beg b) (zs "." ++ [0]) n ;;
  let p := (end_ - k)%nat in
  '(b, vlen, end_) <-
    (if (end_ =? p)%nat then Ok (b, vlen, end_) else
       n <- dist vlen end_ ;;
       b <- memmove b (p + 1) end_ n ;;
       Ok (b, w32 (vlen - (end_ - (p + 1))), end_ - (end_ - (p + 1)))%nat) ;;    (* 206 *)
  r <- rev_dot b beg (Z.of_nat end_ - 1 - Z.of_nat beg) ;;
  let p := match r with Some i => Z.of_nat (beg + i) | None => Z.of_nat beg - 1 end in
  r <- rev_dot b beg (p - 1 - Z.of_nat beg) ;;
  let p := match r with Some i => Z.of_nat (beg + i) | None => Z.of_nat beg - 1 end in
  let dom := Z.to_nat (p + 1) in
  n <- dist end_ dom ;;
  assign_refers32 b vlen (Own dom) (w32 n) end_ flags.                           (* 216 *)

(** url_parser.cpp:134-151 [create_scheme]; [val_len] is 0 on entry *)
Definition create_scheme32 (blk : option (list Z)) (u : list Z) (sz : nat) (flags : Z) : res url :=
  t <- starts u (zs "https://") 8 ;;
  if t then
    b <- to_block blk ;; s <- slice u 0 sz ;; b <- blit b 0 s ;; assign_anchor32 b (w32 sz) 8 flags
  else
  t <- starts u (zs "http://") 7 ;;
  if t then
    b <- to_block blk ;; s <- slice u 0 sz ;; b <- blit b 0 s ;; assign_anchor32 b (w32 sz) 7 flags
  else
  b <- to_block blk ;;
  b <- blit b 0 (zs "http://") ;;
  s <- slice u 0 sz ;;
  b <- blit b 7 s ;;
  assign_anchor32 b (w32 (sz + 7)) 7 flags.

(** url_parser.cpp:87-100 [create_absolute] *)
Definition create_absolute32 (blk : option (list Z)) (this : option url) (u : option (list Z)) (sz : nat)
  (flags : Z) : res (Z * option url) :=
  match this, sz, u with
  | None, S _, Some u => r <- create_scheme32 blk u sz flags ;; Ok (0, Some r)
  | _, _, _ => Ok (-1, None)
  end.

(** url_parser.cpp:342-368 [create_suburl]; None is the result -1 *)
Definition create_suburl32 (blk : option (list Z)) (u : list Z) (sz : nat) (flags : Z) (parent : url) : res (option url) :=
  t <- starts u (zs "mailto:") 7 ;;
  if t then Ok None else
  t <- starts u (zs "javascript:") 11 ;;
  if t then Ok None else
  c <- rd u 0 ;;
  if c =? 35 then Ok None else
  c4 <- rd (u_mem parent) 4 ;;
  let sz_dom := if negb (c4 =? 115) then 7%nat else 8%nat in
  n <- dist (u_len parent) sz_dom ;;
  r <- strnchr (skipn sz_dom (u_mem parent)) 47 n ;;
  sz_dom <- (match r with
             | Some i => Ok (sz_dom + i)%nat
             | None => Ub NullDeref                 (* NULL - parent.val_str *)
             end) ;;
  r <- strnchr u 35 sz ;;
  let sz := match r with Some p => p | None => sz end in
  c <- rd u 0 ;;
  sz_pub <- (if c =? 47 then Ok sz_dom else
             q <- strnchp (u_mem parent) 63 (u_len parent) ;;
             r <- revnchr (u_mem parent) 47 q ;;
             match r with
             | Some i => Ok (i + 1)%nat
             | None => Ub NullDeref
             end) ;;
  b <- to_block blk ;;
  s <- slice (u_mem parent) 0 sz_pub ;;
  b <- blit b 0 s ;;
  s <- slice u 0 sz ;;
  b <- blit b sz_pub s ;;
  r <- assign_refers32 b (w32 (sz_pub + sz)) (Ext (skipn (u_dom parent) (u_mem parent))) (u_dlen parent)
         sz_dom flags ;;                                                         (* 361-364 *)
  Ok (Some r).

(** url_parser.cpp:102-132 [create_relative]; the size of the block (110) is a size_t *)
Definition create_relative32 (blk : option (list Z)) (this : option url) (u : option (list Z)) (sz : nat)
  (flags : Z) (parent : option url) : res (Z * option url) :=
  match this, sz, u, parent with
  | None, S _, Some u, Some parent =>
    t1 <- starts u (zs "http://") 7 ;;
    t <- (if t1 then Ok true else starts u (zs "https://") 8) ;;
    if t then
      r <- create_scheme32 blk u sz flags ;;
      e <- (if subdomain flags
            then strcaseeq (skipn (u_dom r) (u_mem r)) (skipn (u_dom parent) (u_mem parent))
            else Ok true) ;;
      if negb e then Ok (-1, None) else Ok (0, Some r)
    else
      r <- create_suburl32 blk u sz flags parent ;;
      match r with
      | None => Ok (-1, None)
      | Some r => Ok (0, Some r)
      end
  | _, _, _, _ => Ok (-1, None)
  end.

(** url_parser.cpp:15-35, the copy constructor.  [ok]: does malloc return a block?  The sum
    of url_parser.cpp:30-31 is a uint32_t. *)
Definition o_copy32 (ok : bool) (st : ostate) (src : nat) : res ostate :=
  let '(h, e) := st in
  u <- o_get e src ;;
  if (o_len u =? 0)%nat then Ok (h, e ++ [Some o_none]) else
  let n := w32 (o_len u + o_dlen u + 2) in
  if ok then
    let '(id, h) := h_malloc h n in
    s <- h_read h (o_blk u) n ;;
    h <- h_store h id s ;;
    Ok (h, e ++ [Some (mkObj (Some id) (o_len u) (o_dlen u))])
  else Ub NullDeref.                                        (* memcpy to NULL, 31 *)

(** url_parser.cpp:37-64, assignment; the sum of url_parser.cpp:57-58 is a uint32_t *)
Definition o_assign32 (ok : bool) (st : ostate) (dst src : nat) : res ostate :=
  let '(h, e) := st in
  this <- o_get e dst ;;
  h <- o_release h this ;;
  u <- o_get e src ;;
  if (o_len u =? 0)%nat then
    e <- wr e dst (Some o_none) ;; Ok (h, e)
  else
    let n := w32 (o_len u + o_dlen u + 2) in
    if ok then
      let '(id, h) := h_malloc h n in
      e <- wr e dst (Some (mkObj (Some id) (o_len u) (o_dlen u))) ;;
      u <- o_get e src ;;
      s <- h_read h (o_blk u) n ;;
      h <- h_store h id s ;;
      Ok (h, e)
    else Ub NullDeref.                                      (* memcpy to NULL, 58 *)

(** Not in the code: one call; [ok] says whether a malloc in it succeeds.  The calls that
    parse are [create_absolute32] and [create_relative32] above; here [OCreate] takes what
    they yield. *)
Definition o_step32 (ok : bool) (st : ostate) (o : oop) : res ostate :=
  match o with
  | ONew => o_new st
  | OCopy src => o_copy32 ok st src
  | OAssign dst src => o_assign32 ok st dst src
  | ODestroy i => o_destroy st i
  | OCreate i r => o_create st i r
  end.
(** Not in the code: a sequence of calls that all get the memory they ask for. *)
Fixpoint o_run32 (st : ostate) (ops : list oop) : res ostate :=
  match ops with
  | [] => Ok st
  | o :: ops => st <- o_step32 true st o ;; o_run32 st ops
  end.
