(** Model of the buffer functions of coda/url.cpp when the text and the result lie in one
    memory, so that they may overlap.

    [m] is the memory; [p] and [q] are the positions of [pdst] and [psrc] in it.  Every read
    of the code is a read of the memory as it is at that time.  The tables lie elsewhere. *)

From Coq Require Import ZArith List Bool.
From Verif Require Import Base Url_Model.
Import ListNotations.
Local Open Scope Z_scope.

(** url.cpp:107-136 [coda_urlenc]; each "*psrc" of url.cpp:115-129 is a read of its own, the
    one of url.cpp:122 included.  The result is the position behind the text and the memory. *)
Fixpoint urlenc_at_loop (m : list Z) (p q todo : nat) : res (nat * list Z) :=
  match todo with
  | O => m <- wr m p 0 ;; Ok (p, m)
  | S todo =>
    c <- rd m q ;;
    e <- must_escape c ;;
    if e then
      m <- wr m p 37 ;;
      c <- rd m q ;;
      h <- hex_hi c ;;
      m <- wr m (p + 1) h ;;
      c <- rd m q ;;
      l <- hex_lo c ;;
      m <- wr m (p + 2) l ;;
      urlenc_at_loop m (p + 3) (q + 1) todo
    else
      if c =? 32 then m <- wr m p 43 ;; urlenc_at_loop m (p + 1) (q + 1) todo
      else m <- wr m p c ;; urlenc_at_loop m (p + 1) (q + 1) todo
  end.
(** url.cpp:107-136: [p] is dst, [q] is src; the number returned is pdst - dst *)
Definition urlenc_at (m : list Z) (p q sz : nat) : res (nat * list Z) :=
  '(e, m) <- urlenc_at_loop m p q sz ;; Ok ((e - p)%nat, m).

(** url.cpp:138-165 [coda_urldec]; the comparison [psrc < esrc - 2] is taken as
    [esrc - psrc > 2] *)
Fixpoint urldec_at_loop (m : list Z) (p q todo : nat) : res (nat * list Z) :=
  match todo with
  | O => m <- wr m p 0 ;; Ok (p, m)
  | S k1 =>
    c <- rd m q ;;
    match c =? 37, k1 with
    | true, S (S k3) =>
      a <- rd m (q + 1) ;;
      b <- rd m (q + 2) ;;
      v <- dec_byte a b ;;
      m <- wr m p v ;;
      urldec_at_loop m (p + 1) (q + 3) k3
    | _, _ =>
      if c =? 43 then m <- wr m p 32 ;; urldec_at_loop m (p + 1) (q + 1) k1
      else m <- wr m p c ;; urldec_at_loop m (p + 1) (q + 1) k1
    end
  end.
(** url.cpp:138-165: [p] is dst, [q] is src; the number returned is pdst - dst *)
Definition urldec_at (m : list Z) (p q sz : nat) : res (nat * list Z) :=
  '(e, m) <- urldec_at_loop m p q sz ;; Ok ((e - p)%nat, m).
