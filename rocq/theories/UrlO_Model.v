(** Model of the life cycle of [coda_url] objects: constructors, assignment, reset and
    destructor (coda/url_parser.cpp:9-100, coda/url_parser.hpp:9-42).

    The heap is the list of all blocks ever allocated; a freed block is None.  A byte that
    was never written is None.  The objects are numbered in the order of their
    construction; a destroyed object is None. *)

From Coq Require Import ZArith List Bool.
From Verif Require Import Base UrlP_Model.
Import ListNotations.
Local Open Scope Z_scope.

(** Not in the code: the blocks returned by malloc. *)
Definition heap := list (option (list (option Z))).
(** url_parser.hpp:11-14; [dom_str] is [val_str + val_len + 1] whenever it is used *)
Record obj := mkObj { o_blk : option nat; o_len : nat; o_dlen : nat }.
(** Not in the code: the objects of the program. *)
Definition objs := list (option obj).
(** Not in the code: heap and objects. *)
Definition ostate := (heap * objs)%type.

(** url_parser.cpp:9-13 *)
Definition o_none : obj := mkObj None 0 0.

(** malloc(n): a new block of uninitialised bytes; url_parser.cpp:30, 57, 95, 110 *)
Definition h_malloc (h : heap) (n : nat) : nat * heap := (length h, h ++ [Some (repeat None n)]).
(** free(p); url_parser.cpp:41, 70, 78 *)
Definition h_free (h : heap) (id : nat) : res heap :=
  b <- rd h id ;; match b with Some _ => wr h id None | None => Ub DoubleFree end.
(** the first [n] bytes at [p]; not in the code: what memcpy reads (url_parser.cpp:31, 58) *)
Definition h_read (h : heap) (p : option nat) (n : nat) : res (list (option Z)) :=
  match p with
  | None => Ub NullDeref
  | Some id => b <- rd h id ;;
               match b with
               | None => Ub UseAfterFree
               | Some l => if (n <=? length l)%nat then Ok (firstn n l) else Ub OobRead
               end
  end.
(** write the block; not in the code: what memcpy writes (url_parser.cpp:31, 58) *)
Definition h_store (h : heap) (id : nat) (l : list (option Z)) : res heap := wr h id (Some l).

(** the object number [i], which must be alive; not in the code *)
Definition o_get (e : objs) (i : nat) : res obj :=
  o <- rd e i ;; match o with Some o => Ok o | None => Ub UseAfterFree end.

(** if (allocated()) free(val_str)   (url_parser.cpp:39-42, 68-71, 76-79) *)
Definition o_release (h : heap) (o : obj) : res heap :=
  match o_blk o with Some id => h_free h id | None => Ok h end.

(** url_parser.cpp:9-13, the default constructor *)
Definition o_new (st : ostate) : res ostate := let '(h, e) := st in Ok (h, e ++ [Some o_none]).

(** url_parser.cpp:15-35, the copy constructor *)
Definition o_copy (st : ostate) (src : nat) : res ostate :=
  let '(h, e) := st in
  u <- o_get e src ;;
  if (o_len u =? 0)%nat then Ok (h, e ++ [Some o_none]) else
  let n := (o_len u + o_dlen u + 2)%nat in
  let '(id, h) := h_malloc h n in
  s <- h_read h (o_blk u) n ;;
  h <- h_store h id s ;;
  Ok (h, e ++ [Some (mkObj (Some id) (o_len u) (o_dlen u))]).

(** url_parser.cpp:37-64, assignment.  [u] is a reference: its fields are read from the
    object [src] each time, so they change when [src] is [dst].  The memcpy of a block onto
    itself is taken to leave it unchanged. *)
Definition o_assign (st : ostate) (dst src : nat) : res ostate :=
  let '(h, e) := st in
  this <- o_get e dst ;;
  h <- o_release h this ;;
  u <- o_get e src ;;
  if (o_len u =? 0)%nat then
    e <- wr e dst (Some o_none) ;; Ok (h, e)
  else
    let n := (o_len u + o_dlen u + 2)%nat in
    let '(id, h) := h_malloc h n in
    e <- wr e dst (Some (mkObj (Some id) (o_len u) (o_dlen u))) ;;
    u <- o_get e src ;;
    s <- h_read h (o_blk u) n ;;
    h <- h_store h id s ;;
    Ok (h, e).

(** url_parser.cpp:66-72, the destructor *)
Definition o_destroy (st : ostate) (i : nat) : res ostate :=
  let '(h, e) := st in
  this <- o_get e i ;;
  h <- o_release h this ;;
  e <- wr e i None ;;
  Ok (h, e).

(** url_parser.cpp:74-85, 87-132: create_absolute and create_relative on the object [i].
    [r] is what the parser ([UrlP_Model.create_absolute], [create_relative]) yields: the
    block it filled, or None when it fails.  The block is allocated before a failing
    create_suburl or domain check and freed by reset(); that block is never visible and is
    left out here. *)
Definition o_create (st : ostate) (i : nat) (r : option url) : res ostate :=
  let '(h, e) := st in
  this <- o_get e i ;;
  match r with
  | Some x =>
    if (o_len this =? 0)%nat then
      let '(id, h) := h_malloc h (length (u_mem x)) in
      h <- h_store h id (map Some (u_mem x)) ;;
      e <- wr e i (Some (mkObj (Some id) (u_len x) (u_dlen x))) ;;
      Ok (h, e)
    else
      h <- o_release h this ;; e <- wr e i (Some o_none) ;; Ok (h, e)
  | None => h <- o_release h this ;; e <- wr e i (Some o_none) ;; Ok (h, e)
  end.

(** Not in the code: the calls a program makes. *)
Inductive oop :=
| ONew | OCopy (src : nat) | OAssign (dst src : nat) | ODestroy (i : nat)
| OCreate (i : nat) (r : option url).

(** Not in the code: one call. *)
Definition o_step (st : ostate) (o : oop) : res ostate :=
  match o with
  | ONew => o_new st
  | OCopy src => o_copy st src
  | OAssign dst src => o_assign st dst src
  | ODestroy i => o_destroy st i
  | OCreate i r => o_create st i r
  end.
(** Not in the code: a sequence of calls. *)
Fixpoint o_run (st : ostate) (ops : list oop) : res ostate :=
  match ops with
  | [] => Ok st
  | o :: ops => st <- o_step st o ;; o_run st ops
  end.

(** url_parser.hpp:34-38: the bytes of get_url() (of length get_url_len()) and of
    get_domain(), each with the byte after them *)
Definition o_url (st : ostate) (i : nat) : res (list (option Z)) :=
  let '(h, e) := st in
  o <- o_get e i ;;
  if (o_len o =? 0)%nat then Ok [Some 0] else h_read h (o_blk o) (o_len o + 1).
(** url_parser.hpp:35, 38, get_domain and get_domain_len *)
Definition o_dom (st : ostate) (i : nat) : res (list (option Z)) :=
  let '(h, e) := st in
  o <- o_get e i ;;
  if (o_len o =? 0)%nat then Ok [Some 0] else
  l <- h_read h (o_blk o) (o_len o + o_dlen o + 2) ;; Ok (skipn (o_len o + 1) l).
