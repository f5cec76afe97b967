(** Model of coda/url_parser.cpp and coda/url_parser.hpp ([coda_url]).

    A block of memory is its list of bytes and a pointer into it is an index; the
    pointers [u] and [parent...] are lists.  The differences of pointers that are
    passed as a size_t are computed by [dist], which reports undefined behaviour
    when they are negative (in C: a size close to 2^64).  Lengths are natural
    numbers (the uint32_t fields do not wrap below 4 GB); malloc does not fail; its
    result has arbitrary contents, the list [mem0]. *)

From Coq Require Import ZArith List Bool.
From Verif Require Import Base Str_Model.
Import ListNotations.
Local Open Scope Z_scope.

(** Not in the code: the difference of two pointers where a size is expected. *)
Definition dist (a b : nat) : res nat := if (a <? b)%nat then Ub BadLib else Ok (a - b)%nat.
(** [n] bytes from index [p]; not in the code: what memcpy and memmove read *)
Definition slice (b : list Z) (p n : nat) : res (list Z) :=
  if (p + n <=? length b)%nat then Ok (firstn n (skipn p b)) else Ub OobRead.
(** store [src] at index [dst]; not in the code: what memcpy and memmove write *)
Definition blit (b : list Z) (dst : nat) (src : list Z) : res (list Z) :=
  if (dst + length src <=? length b)%nat
  then Ok (firstn dst b ++ src ++ skipn (dst + length src) b) else Ub OobWrite.
(** memmove(b + dst, b + src, n); memmove(3), e.g. url_parser.cpp:192, 238, 254, 265, 327 *)
Definition memmove (b : list Z) (dst src n : nat) : res (list Z) :=
  s <- slice b src n ;; blit b dst s.

(** url_parser.cpp:153-157 [DOMAIN_SYMBOL] *)
Definition domain_symbol (c : Z) : bool :=
  ((97 <=? c) && (c <=? 122)) || ((65 <=? c) && (c <=? 90)) || ((48 <=? c) && (c <=? 57))
  || ((c =? 46) || (c =? 58)) || ((c =? 45) || (c =? 95)).

(** url_parser.hpp:6-7 *)
Definition fetchable (flags : Z) : bool := negb (Z.land flags 1 =? 0).
(** url_parser.hpp:7 *)
Definition subdomain (flags : Z) : bool := negb (Z.land flags 2 =? 0).

(** url_parser.hpp:11-14, a non-empty object.  [u_dom] is [dom_str - val_str]: once an
    object is built, [dom_str] points into the block of [val_str]. *)
Record url := mkUrl { u_mem : list Z; u_len : nat; u_dom : nat; u_dlen : nat }.

(** [dom_str] while the object is being built: into the own block, or the bytes of the
    parent's block from [parent.dom_str] on. url_parser.cpp:215, 365. *)
Inductive dptr := Own (i : nat) | Ext (l : list Z).

(** url_parser.cpp:243-250, 285-299: the last '/' in [b[beg..beg+k)] *)
Fixpoint back_slash (b : list Z) (beg k : nat) : res (option nat) :=
  match k with
  | O => Ok None
  | S k => c <- rd b (beg + k) ;;
           if c =? 47 then Ok (Some (beg + k)%nat) else back_slash b beg k
  end.

(** coda_strnstr(p, n, len) where [p] is the index [p] of [b];
    url_parser.cpp:236, 252, 263, 281, 306, 317 *)
Definition strnstr_at (b : list Z) (p : nat) (n : list Z) (len : nat) : res (option nat) :=
  strnstr (Some (skipn p b)) (Some (n ++ [0])) len.

(** url_parser.cpp:232-279; the result is the block, [eofp] and [prev].  [fuel] bounds
    the number of rounds. *)
Fixpoint refers_loop (fuel : nat) (b : list Z) (eofp beg p prev : nat)
  : res (list Z * nat * nat) :=
  if negb (p <? eofp)%nat then Ok (b, eofp, prev) else
  match fuel with
  | O => Fuel
  | S fuel =>
    c <- rd b p ;;
    if negb (c =? 47) then refers_loop fuel b eofp beg (S p) prev else
    t <- (if (p + 4 <=? eofp)%nat then strnstr_at b p (zs "/../") 4 else Ok None) ;;
    match t with
    | Some _ =>                                             (* 238-250 *)
      n <- dist eofp (p + 3) ;;
      b <- memmove b prev (p + 3) n ;;
      let eofp := (eofp - (p + 3 - prev))%nat in
      let p := prev in
      r <- back_slash b beg (p - beg) ;;
      let prev := match r with Some pp => pp | None => prev end in
      refers_loop fuel b eofp beg p prev
    | None =>
      t <- (if (p + 3 <=? eofp)%nat then strnstr_at b p (zs "/./") 3 else Ok None) ;;
      match t with
      | Some _ =>                                           (* 254-255 *)
        n <- dist eofp (p + 2) ;;
        b <- memmove b p (p + 2) n ;;
        refers_loop fuel b (eofp - 2) beg p prev
      | None =>
        t <- (if (p + 2 <=? eofp)%nat then strnstr_at b p (zs "//") 2 else Ok None) ;;
        match t with
        | Some _ =>                                         (* 265-266 *)
          n <- dist eofp (p + 1) ;;
          b <- memmove b p (p + 1) n ;;
          refers_loop fuel b (eofp - 1) beg p prev
        | None => refers_loop fuel b eofp beg (S p) p       (* 271-272 *)
        end
      end
    end
  end.

(** url_parser.cpp:281-323, the end of the path; the result is [eofp] *)
Definition refers_end (b : list Z) (eofp beg prev : nat) (flags : Z) : res nat :=
  t <- (if (prev + 3 =? eofp)%nat then strnstr_at b prev (zs "/..") 3 else Ok None) ;;
  match t with
  | Some _ =>
    if (beg <? prev)%nat then
      r <- back_slash b beg (prev - beg) ;;
      match r with
      | Some pp => if (beg <? pp)%nat && negb (fetchable flags)
                   then Ok (eofp - (prev + 3 - pp))%nat
                   else Ok (eofp - (prev + 3 - (pp + 1)))%nat
      | None => Ok eofp
      end
    else Ok (eofp - 2)%nat
  | None =>
    t <- (if (prev + 2 =? eofp)%nat then strnstr_at b prev (zs "/.") 2 else Ok None) ;;
    match t with
    | Some _ => if (beg <? prev)%nat && negb (fetchable flags) then Ok (eofp - 2)%nat
                else Ok (eofp - 1)%nat
    | None =>
      t <- (if (prev + 1 =? eofp)%nat then strnstr_at b prev (zs "/") 1 else Ok None) ;;
      match t with
      | Some _ => if (beg <? prev)%nat && negb (fetchable flags) then Ok (eofp - 1)%nat
                  else Ok eofp
      | None => Ok eofp
      end
    end
  end.

(** url_parser.cpp:221-340 [assign_refers]; [dom], [dlen] are [dom_str], [dom_len].
    The copy of the domain (333) is a memcpy: source and destination must not overlap. *)
Definition assign_refers (b : list Z) (vlen : nat) (dom : dptr) (dlen beg : nat) (flags : Z)
  : res url :=
  r <- strnchr b 63 vlen ;;
  let eofp := match r with Some i => i | None => vlen end in
  let args := eofp in
  let args_len := (vlen - args)%nat in
  '(b, eofp, prev) <- refers_loop (eofp - beg) b eofp beg beg beg ;;
  eofp <- refers_end b eofp beg prev flags ;;
  '(b, eofp) <- (if negb (args_len =? 0)%nat
                 then b <- memmove b eofp args args_len ;; Ok (b, (eofp + args_len)%nat)
                 else Ok (b, eofp)) ;;
  let vlen := eofp in
  d <- (match dom with
        | Own i => if (i + dlen <=? vlen + 1)%nat then slice b i dlen else Ub BadLib
        | Ext l => slice l 0 dlen
        end) ;;
  b <- blit b (vlen + 1) d ;;
  b <- wr b vlen 0 ;;
  b <- wr b (vlen + 1 + dlen) 0 ;;
  Ok (mkUrl b vlen (vlen + 1) dlen).

(** url_parser.cpp:172-180; [k] is [end - p].  Returns the block and [p]. *)
Fixpoint lower_loop (k : nat) (b : list Z) (p : nat) : res (list Z * nat) :=
  match k with
  | O => Ok (b, p)
  | S k => c <- rd b p ;;
           b <- wr b p (tolower c) ;;
           c <- rd b p ;;
           if negb (domain_symbol c) then Ok (b, p) else lower_loop k b (S p)
  end.

(** coda_revnchr(beg, '.', n) in [b] where [n] is the difference of two pointers.  For a
    negative [n], [s + len] (string.c:26) is below the start and the loop is not entered. *)
Definition rev_dot (b : list Z) (beg : nat) (n : Z) : res (option nat) :=
  if n <? 0 then Ok None else revnchr (skipn beg b) 46 (Z.to_nat n).

(** url_parser.cpp:159-219 [assign_anchor] *)
Definition assign_anchor (b : list Z) (vlen beg : nat) (flags : Z) : res url :=
  r <- strnchr b 35 vlen ;;
  let vlen := match r with Some e => e | None => vlen end in
  n <- dist vlen beg ;;
  r <- strnchr (skipn beg b) 47 n ;;
  let end_ := match r with Some i => (beg + i)%nat | None => vlen end in
  '(b, p) <- lower_loop (end_ - beg) b beg ;;
  '(b, vlen, end_) <-
    (if (end_ =? p)%nat then
       if (vlen =? end_)%nat then
         b <- wr b vlen 47 ;; Ok (b, S vlen, vlen)
       else Ok (b, vlen, end_)
     else
       n <- dist vlen p ;;
       b <- memmove b (p + 1) p n ;;
       b <- wr b p 47 ;;
       Ok (b, S vlen, p)) ;;
  n <- dist end_ beg ;;
  k <- strnspn (skipn beg b) (zs "." ++ [0]) n ;;
  let p := (beg + k)%nat in
  '(b, vlen, end_) <-
    (if (beg =? p)%nat then Ok (b, vlen, end_) else
       n <- dist vlen p ;;
       b <- memmove b beg p n ;;
       Ok (b, vlen - (p - beg), end_ - (p - beg))%nat) ;;
  n <- dist end_ beg ;;
  k <- revnspn (skipn beg b) (zs "." ++ [0]) n ;;
  let p := (end_ - k)%nat in
  '(b, vlen, end_) <-
    (if (end_ =? p)%nat then Ok (b, vlen, end_) else
       n <- dist vlen end_ ;;
       b <- memmove b (p + 1) end_ n ;;
       Ok (b, vlen - (end_ - (p + 1)), end_ - (end_ - (p + 1)))%nat) ;;
  r <- rev_dot b beg (Z.of_nat end_ - 1 - Z.of_nat beg) ;;
  let p := match r with Some i => Z.of_nat (beg + i) | None => Z.of_nat beg - 1 end in
  r <- rev_dot b beg (p - 1 - Z.of_nat beg) ;;
  let p := match r with Some i => Z.of_nat (beg + i) | None => Z.of_nat beg - 1 end in
  let dom := Z.to_nat (p + 1) in
  n <- dist end_ dom ;;
  assign_refers b vlen (Own dom) n end_ flags.

(** coda_strxstr(u, n, len) != NULL; url_parser.cpp:112, 136, 142, 344, 345 *)
Definition starts (u : list Z) (n : list Z) (len : nat) : res bool :=
  r <- strxstr (Some u) (Some (n ++ [0])) len ;;
  Ok (match r with Some _ => true | None => false end).

(** url_parser.cpp:134-151 [create_scheme]; [b] is the block malloc returned, [val_len]
    is 0 on entry *)
Definition create_scheme (b u : list Z) (sz : nat) (flags : Z) : res url :=
  t <- starts u (zs "https://") 8 ;;
  if t then
    s <- slice u 0 sz ;; b <- blit b 0 s ;; assign_anchor b sz 8 flags
  else
  t <- starts u (zs "http://") 7 ;;
  if t then
    s <- slice u 0 sz ;; b <- blit b 0 s ;; assign_anchor b sz 7 flags
  else
  b <- blit b 0 (zs "http://") ;;
  s <- slice u 0 sz ;;
  b <- blit b 7 s ;;
  assign_anchor b (sz + 7) 7 flags.

(** url_parser.cpp:87-100 [create_absolute] on an object [this] (None: empty()).  The result
    is the return value and the object afterwards.  [mem0] is the block malloc returns;
    [u = None] is the null pointer. *)
Definition abs_size (sz : nat) : nat := (2 + 2 * sz + 9)%nat.
(** url_parser.cpp:87-100 [create_absolute] *)
Definition create_absolute (mem0 : list Z) (this : option url) (u : option (list Z)) (sz : nat)
  (flags : Z) : res (Z * option url) :=
  match this, sz, u with
  | None, S _, Some u => r <- create_scheme mem0 u sz flags ;; Ok (0, Some r)
  | _, _, _ => Ok (-1, None)
  end.

(** url_parser.cpp:342-368 [create_suburl]; None is the result -1 *)
Definition create_suburl (b u : list Z) (sz : nat) (flags : Z) (parent : url) : res (option url) :=
  t <- starts u (zs "mailto:") 7 ;;
  if t then Ok None else
  t <- starts u (zs "javascript:") 11 ;;
  if t then Ok None else
  c <- rd u 0 ;;
  if c =? 35 then Ok None else
  c4 <- rd (u_mem parent) 4 ;;
  let sz_dom := if negb (c4 =? 115) then 7%nat else 8%nat in
  n <- dist (u_len parent) sz_dom ;;
  r <- strnchr (skipn sz_dom (u_mem parent)) 47 n ;;
  sz_dom <- (match r with
             | Some i => Ok (sz_dom + i)%nat
             | None => Ub NullDeref                 (* NULL - parent.val_str *)
             end) ;;
  r <- strnchr u 35 sz ;;
  let sz := match r with Some p => p | None => sz end in
  c <- rd u 0 ;;
  sz_pub <- (if c =? 47 then Ok sz_dom else
             q <- strnchp (u_mem parent) 63 (u_len parent) ;;
             r <- revnchr (u_mem parent) 47 q ;;
             match r with
             | Some i => Ok (i + 1)%nat
             | None => Ub NullDeref
             end) ;;
  s <- slice (u_mem parent) 0 sz_pub ;;
  b <- blit b 0 s ;;
  s <- slice u 0 sz ;;
  b <- blit b sz_pub s ;;
  r <- assign_refers b (sz_pub + sz) (Ext (skipn (u_dom parent) (u_mem parent))) (u_dlen parent)
         sz_dom flags ;;
  Ok (Some r).

(** strcasecmp(3), equality only; url_parser.cpp:116 *)
Fixpoint strcaseeq (a b : list Z) : res bool :=
  match a, b with
  | x :: a, y :: b => if tolower x =? tolower y then
                        if x =? 0 then Ok true else strcaseeq a b
                      else Ok false
  | _, _ => Ub OobRead
  end.

(** url_parser.cpp:102-132 [create_relative] *)
Definition rel_size (sz : nat) (parent : url) : nat := (2 + 2 * sz + u_len parent + u_dlen parent)%nat.
(** url_parser.cpp:102-132 [create_relative] *)
Definition create_relative (mem0 : list Z) (this : option url) (u : option (list Z)) (sz : nat)
  (flags : Z) (parent : option url) : res (Z * option url) :=
  match this, sz, u, parent with
  | None, S _, Some u, Some parent =>
    t1 <- starts u (zs "http://") 7 ;;
    t <- (if t1 then Ok true else starts u (zs "https://") 8) ;;
    if t then
      r <- create_scheme mem0 u sz flags ;;
      e <- (if subdomain flags
            then strcaseeq (skipn (u_dom r) (u_mem r)) (skipn (u_dom parent) (u_mem parent))
            else Ok true) ;;
      if negb e then Ok (-1, None) else Ok (0, Some r)
    else
      r <- create_suburl mem0 u sz flags parent ;;
      match r with
      | None => Ok (-1, None)
      | Some r => Ok (0, Some r)
      end
  | _, _, _, _ => Ok (-1, None)
  end.

(** url_parser.hpp:34-38: get_url and get_url_len, get_domain and get_domain_len *)
Definition url_text (x : url) : list Z := firstn (u_len x) (u_mem x).
(** url_parser.hpp:35, 38, get_domain and get_domain_len *)
Definition url_domain (x : url) : list Z := firstn (u_dlen x) (skipn (u_dom x) (u_mem x)).
