(** Model of coda/string.c and the inline functions of coda/string.h.

    A pointer that only moves forward is the list of the bytes from it to the end
    of its block: advancing is taking the tail, and dereferencing the empty list is
    [Ub OobRead].  A C string is such a list containing a 0.  Pointers that move
    backwards are indices.  [None] is the null pointer.

    Pairs of functions that differ only in applying [tolower] (n/i versus x
    variants) are one definition with the parameter [fold], instantiated with the
    identity or [tolower].  [tolower] is glibc's in the C locale.  Where two results of
    tolower are compared, or one is stored in a char, it is enough that bytes outside
    'A'..'Z' are unchanged ([tolower]); where a result is compared with a char, its value
    as an int matters ([tolower_int]).  The functions only read, so their arguments may
    overlap. *)

From Coq Require Import ZArith List Bool.
From Verif Require Import Base.
Import ListNotations.
Local Open Scope Z_scope.

(** tolower(3), string.c:15-19 and the other x and i functions *)
Definition tolower (c : Z) : Z := if (65 <=? c) && (c <=? 90) then c + 32 else c.
(** tolower(3) applied to a char, which is signed: glibc gives 128 .. 254 for -128 .. -2,
    and -1 for -1 (which is EOF); string.c:16-18, 36-38, 56-58.  By the C standard
    tolower is undefined for negative arguments other than EOF. *)
Definition tolower_int (c : Z) : Z := if c =? 255 then -1 else tolower c.
(** conversion of an int to char; string.c:16, 36, 56 *)
Definition char_of (v : Z) : Z := (v + 128) mod 256 - 128.
(** Not in the code: no folding. *)
Definition same (c : Z) : Z := c.

(** string.c:3-11 [coda_strnchr] (fold = same), 13-21 [coda_strxchr] (tolower);
    returns the offset of the found character, None = NULL. *)
Fixpoint chr_loop (fold : Z -> Z) (c : Z) (s : list Z) (pos len : nat) : res (option nat) :=
  match len with
  | O => Ok None
  | S len => match s with
             | [] => Ub OobRead
             | x :: s => if c =? fold x then Ok (Some pos) else chr_loop fold c s (S pos) len
             end
  end.
(** string.c:3-11 *)
Definition strnchr (s : list Z) (c : Z) (len : nat) := chr_loop same c s 0 len.
(** string.c:13-21 *)
Definition strxchr (s : list Z) (c : Z) (len : nat) := chr_loop tolower_int (char_of (tolower_int c)) s 0 len.

(** string.c:23-31 [coda_revnchr], 33-41 [coda_revxchr]; [k] is [s - b]. *)
Fixpoint revchr_loop (fold : Z -> Z) (c : Z) (s : list Z) (k : nat) : res (option nat) :=
  match k with
  | O => Ok None
  | S k' => x <- rd s k' ;;
            if c =? fold x then Ok (Some k') else revchr_loop fold c s k'
  end.
(** string.c:23-31 *)
Definition revnchr (s : list Z) (c : Z) (len : nat) := revchr_loop same c s len.
(** string.c:33-41 *)
Definition revxchr (s : list Z) (c : Z) (len : nat) := revchr_loop tolower_int (char_of (tolower_int c)) s len.

(** string.c:43-51 [coda_strnchp], 53-61 [coda_strxchp]. *)
Fixpoint chp_loop (fold : Z -> Z) (c : Z) (s : list Z) (p todo len : nat) : res nat :=
  match todo with
  | O => Ok len
  | S todo => x <- rd s p ;;
              if c =? fold x then Ok p else chp_loop fold c s (S p) todo len
  end.
(** string.c:43-51 *)
Definition strnchp (s : list Z) (c : Z) (len : nat) := chp_loop same c s 0 len len.
(** string.c:53-61 *)
Definition strxchp (s : list Z) (c : Z) (len : nat) := chp_loop tolower_int (char_of (tolower_int c)) s 0 len len.

(** strlen(3); string.c:97, 128 *)
Fixpoint strlen (s : list Z) : res nat :=
  match s with
  | [] => Ub OobRead
  | x :: s => if x =? 0 then Ok 0%nat else (n <- strlen s ;; Ok (S n))
  end.

(** [*s]; not in the code: one access through a pointer. *)
Definition deref (s : list Z) : res Z := match s with [] => Ub OobRead | x :: _ => Ok x end.

(** string.c:75-78, the comparison loop of [coda_stristr]: returns [*x] after it. *)
Fixpoint stri_cmp (w x : list Z) : res Z :=
  match w with
  | [] => Ub OobRead
  | cw :: w' =>
    if cw =? 0 then deref x else
    match x with
    | [] => Ub OobRead
    | cx :: x' => if cx =? 0 then Ok 0
                  else if negb (tolower cw =? tolower cx) then Ok cx
                  else stri_cmp w' x'
    end
  end.

(** string.c:71-84. *)
Fixpoint stri_loop (s n : list Z) (pos : nat) : res (option nat) :=
  match s with
  | [] => Ub OobRead
  | cs :: s' =>
    if cs =? 0 then Ok None else
    c0 <- deref n ;;
    if tolower cs =? tolower c0 then
      e <- stri_cmp s n ;;
      if e =? 0 then Ok (Some pos) else stri_loop s' n (S pos)
    else stri_loop s' n (S pos)
  end.

(** string.c:63-85 [coda_stristr]. *)
Definition stristr (s n : option (list Z)) : res (option nat) :=
  match s with
  | None => Ok None
  | Some s =>
    c <- deref s ;;
    if c =? 0 then Ok None else
    match n with
    | None => Ok (Some 0%nat)
    | Some n =>
      c <- deref n ;;
      if c =? 0 then Ok (Some 0%nat) else stri_loop s n 0
    end
  end.

(** string.c:106-109 / 137-140, the comparison loop; [ls], [ln] are [es - w] and
    [en - x]; returns [en - x] after the loop. *)
Fixpoint strn_cmp (fold : Z -> Z) (w : list Z) (ls : nat) (x : list Z) (ln : nat) : res nat :=
  match ls, ln with
  | S ls, S ln' =>
    cw <- deref w ;;
    cx <- deref x ;;
    if negb (fold cw =? fold cx) then Ok ln
    else strn_cmp fold (tl w) ls (tl x) ln'
  | _, _ => Ok ln
  end.

(** string.c:102-115 / 133-146; [ls] is [es - s]. *)
Fixpoint strn_loop (fold : Z -> Z) (s : list Z) (ls : nat) (n : list Z) (nsz pos : nat)
  : res (option nat) :=
  match ls with
  | O => Ok None
  | S ls' =>
    cs <- deref s ;;
    cn <- deref n ;;
    if fold cs =? fold cn then
      r <- strn_cmp fold s ls n nsz ;;
      if (r =? 0)%nat then Ok (Some pos) else strn_loop fold (tl s) ls' n nsz (S pos)
    else strn_loop fold (tl s) ls' n nsz (S pos)
  end.

(** string.c:87-116 [coda_strnstr] (fold = same), 118-147 [coda_strxstr] (tolower). *)
Definition str_gen (fold : Z -> Z) (s n : option (list Z)) (len : nat) : res (option nat) :=
  match s with
  | None => Ok None
  | Some s =>
    c <- deref s ;;
    if c =? 0 then Ok None else
    match n with
    | None => Ok (Some 0%nat)
    | Some n =>
      c <- deref n ;;
      if c =? 0 then Ok (Some 0%nat) else
      nsz <- strlen n ;;
      if (len <? nsz)%nat then Ok None else strn_loop fold s len n nsz 0
    end
  end.
(** string.c:87-116 *)
Definition strnstr := str_gen same.
(** string.c:118-147 *)
Definition strxstr := str_gen tolower.

(** string.c:158-161 and the same loops below: [for (x = n; *x; ++x) if (fold c ==
    fold *x) break;]; returns [x] after the loop. *)
Fixpoint find_in (fold : Z -> Z) (c : Z) (n : list Z) : res (list Z) :=
  match n with
  | [] => Ub OobRead
  | x :: n' => if x =? 0 then Ok n else if fold c =? fold x then Ok n else find_in fold c n'
  end.

(** string.c:151-167 [coda_strispn]. *)
Fixpoint ispn_loop (s n : list Z) (k : nat) : res nat :=
  match s with
  | [] => Ub OobRead
  | c :: s => if c =? 0 then Ok k else
              x <- find_in tolower c n ;;
              e <- deref x ;;
              if e =? 0 then Ok k else ispn_loop s n (S k)
  end.
(** string.c:151-167 *)
Definition strispn (s n : list Z) : res nat := ispn_loop s n 0.

(** string.c:169-186 [coda_strnspn], 188-205 [coda_strxspn]. *)
Fixpoint nspn_loop (fold : Z -> Z) (s n : list Z) (k todo : nat) : res nat :=
  match todo with
  | O => Ok k
  | S todo =>
    c <- deref s ;;
    x <- find_in fold c n ;;
    e <- deref x ;;
    if e =? 0 then Ok k else nspn_loop fold (tl s) n (S k) todo
  end.
(** string.c:169-186 *)
Definition strnspn (s n : list Z) (len : nat) := nspn_loop same s n 0 len.
(** string.c:188-205 *)
Definition strxspn (s n : list Z) (len : nat) := nspn_loop tolower s n 0 len.

(** string.c:207-222 [coda_revnspn], 224-239 [coda_revxspn]; [k] is [p - b], the
    result [s - 1 + len - p] is [len - k].  The loop condition [p > b && *x] is
    evaluated with the [x] left by the previous round. *)
Fixpoint rspn_loop (fold : Z -> Z) (s n x : list Z) (k : nat) : res nat :=
  match k with
  | O => Ok O
  | S k' =>
    e <- deref x ;;
    if e =? 0 then Ok k else
    c <- rd s k' ;;
    x <- find_in fold c n ;;
    rspn_loop fold s n x k'
  end.
(** string.c:207-222 *)
Definition revnspn (s n : list Z) (len : nat) := k <- rspn_loop same s n n len ;; Ok (len - k)%nat.
(** string.c:224-239 *)
Definition revxspn (s n : list Z) (len : nat) := k <- rspn_loop tolower s n n len ;; Ok (len - k)%nat.

(** string.c:243-257 [coda_strispc]. *)
Fixpoint ispc_loop (s n : list Z) (k : nat) : res nat :=
  match s with
  | [] => Ub OobRead
  | c :: s => if c =? 0 then Ok k else
              x <- find_in tolower c n ;;
              e <- deref x ;;
              if negb (e =? 0) then Ok k else ispc_loop s n (S k)
  end.
(** string.c:243-257 *)
Definition strispc (s n : list Z) : res nat := ispc_loop s n 0.

(** string.c:259-274 [coda_strnspc], 276-291 [coda_strxspc]. *)
Fixpoint nspc_loop (fold : Z -> Z) (s n : list Z) (k todo : nat) : res nat :=
  match todo with
  | O => Ok k
  | S todo =>
    c <- deref s ;;
    x <- find_in fold c n ;;
    e <- deref x ;;
    if negb (e =? 0) then Ok k else nspc_loop fold (tl s) n (S k) todo
  end.
(** string.c:259-274 *)
Definition strnspc (s n : list Z) (len : nat) := nspc_loop same s n 0 len.
(** string.c:276-291 *)
Definition strxspc (s n : list Z) (len : nat) := nspc_loop tolower s n 0 len.

(** string.c:293-308 [coda_revnspc], 310-325 [coda_revxspc]. *)
Fixpoint rspc_loop (fold : Z -> Z) (s n : list Z) (k : nat) : res nat :=
  match k with
  | O => Ok O
  | S k' =>
    c <- rd s k' ;;
    x <- find_in fold c n ;;
    e <- deref x ;;
    if negb (e =? 0) then Ok k else rspc_loop fold s n k'
  end.
(** string.c:293-308 *)
Definition revnspc (s n : list Z) (len : nat) := k <- rspc_loop same s n len ;; Ok (len - k)%nat.
(** string.c:310-325 *)
Definition revxspc (s n : list Z) (len : nat) := k <- rspc_loop tolower s n len ;; Ok (len - k)%nat.

(** string.h:63-83 [coda_atou]. *)
Fixpoint atou_loop (s : list Z) (todo : nat) (result : Z) : res Z :=
  match todo with
  | O => Ok result
  | S todo =>
    c <- deref s ;;
    if (c <? 48) || (57 <? c) then Ok 0
    else atou_loop (tl s) todo (((result * 10) mod 2 ^ 64 + (c - 48)) mod 2 ^ 64)
  end.
(** string.h:63-83 [coda_atou] *)
Definition atou (s : list Z) (size : nat) : res Z := atou_loop s size 0.

(** conversion of uint64_t to int64_t (gcc: modulo); string.h:85-94 *)
Definition int64 (v : Z) : Z := if v <? 2 ^ 63 then v else v - 2 ^ 64.

(** string.h:85-94 [coda_atoi]. *)
Definition atoi (s : list Z) (size : nat) : res Z :=
  match size with
  | O => v <- atou s size ;; Ok (int64 v)
  | S size' =>
    c <- deref s ;;
    if c =? 45 then (v <- atou (tl s) size' ;; Ok (int64 ((- v) mod 2 ^ 64)))
    else (v <- atou s size ;; Ok (int64 v))
  end.
