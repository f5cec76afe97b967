(** Whole queue objects in several processes: put, get, flush and unflush with the local box
    (coda/shm_queue.tcc:252-339) on top of the shared ring (ShmQ_Model).  One object has one
    box, current_box (shm_queue.hpp:66), for what it writes and for what it reads.
    Every process is connected. *)
From Coq Require Import ZArith List Bool.
From Verif Require Import Base Shm_Model ShmQ_Spec ShmQ_Model.
Import ListNotations.
Local Open Scope Z_scope.

Section E.
Variable T : Type.
Variable K : codec T.
Variable lim : Z.
Variable n : nat.

(** per process current_box (shm_queue.hpp:66), and the item of a put that is in the middle of
    its flush (shm_queue.tcc:309) *)
Record esys := mkE { e_sys : sys; e_loc : list (box * option T) }.

(** Not in the code: what can be observed; [Ring] is an event of the shared part. *)
Inductive eev :=
| Put (i : nat) (x : T) (ok : bool)          (* put(x) returns *)
| Get (i : nat) (h y : T) (ok : bool)        (* get of an object h, which becomes y, returns *)
| Ring (e : event).

(** Not in the code: the events of the ring that are neither calls nor returns. *)
Definition inner (e : event) : bool :=
  match e with ECall _ _ | EDone _ _ _ => false | _ => true end.

(** the box a method leaves when its section is over: shm_queue.tcc:338 (clear) and 287
    (copy_from; the section that follows does not touch it) *)
Definition left_box (o : qop) (r : qret) (b : box) : box :=
  match o, r with
  | QFlush _, _ => box_clear n
  | QUnflush, QBox l => copy_from l
  | _, _ => b
  end.

(** one step of one process, shm_queue.tcc:252-339 *)
Inductive estep : esys -> eev -> esys -> Prop :=
(** 304-307: the item fits *)
| EPut : forall s l i u b b' x, nth_error (procs s) i = Some (Idle, u) -> nth_error l i = Some (b, None) ->
    box_put T K b x = Ok (b', true) ->
    estep (mkE s l) (Put i x true) (mkE s (upd l i (b', None)))
(** 309: it does not, flush is called *)
| EFull : forall s s' l i b b' x, nth_error l i = Some (b, None) -> box_put T K b x = Ok (b', false) ->
    step lim n s (ECall i (QFlush (b_mem b'))) s' ->
    estep (mkE s l) (Ring (ECall i (QFlush (b_mem b')))) (mkE s' (upd l i (b', Some x)))
(** 310: and then put again *)
| EAgain : forall s l i u b b' x ok, nth_error (procs s) i = Some (Idle, u) -> nth_error l i = Some (b, Some x) ->
    box_put T K b x = Ok (b', ok) ->
    estep (mkE s l) (Put i x ok) (mkE s (upd l i (b', None)))
(** 252-262 *)
| EGet : forall s l i u b b' h y ok, nth_error (procs s) i = Some (Idle, u) -> nth_error l i = Some (b, None) ->
    q_get T K b h = (b', y, ok) ->
    estep (mkE s l) (Get i h y ok) (mkE s (upd l i (b', None)))
(** 265, 314, 348, 361: the calls of the other methods *)
| ECallE : forall s s' l i b o, nth_error l i = Some (b, None) ->
    (forall x, o = QFlush x -> x = b_mem b) -> step lim n s (ECall i o) s' ->
    estep (mkE s l) (Ring (ECall i o)) (mkE s' l)
(** and their returns *)
| EDoneE : forall s s' l i b pd o r, nth_error l i = Some (b, pd) -> step lim n s (EDone i o r) s' ->
    estep (mkE s l) (Ring (EDone i o r)) (mkE s' (upd l i (left_box o r b, pd)))
| EInner : forall s s' l e, step lim n s e s' -> inner e = true ->
    estep (mkE s l) (Ring e) (mkE s' l).

(** [k] connected processes with empty boxes, shm_queue.tcc:173 *)
Definition einit (k : nat) (m0 : mem) : esys := mkE (init k m0) (repeat (box_clear n, None) k).
(** Not in the code: executions. *)
Inductive eexec (k : nat) (m0 : mem) : list eev -> esys -> Prop :=
| eexec_nil : eexec k m0 [] (einit k m0)
| eexec_snoc : forall tr s e s', eexec k m0 tr s -> estep s e s' -> eexec k m0 (tr ++ [e]) s'.
End E.
