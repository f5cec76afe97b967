(** Model of coda/random.c and random.h in a process with several threads.

    The flag coda_random_inited (random.c:8) is a volatile int that threads read and write
    without a lock; a load and a store of it are single steps.  srandom and random are single
    steps as well (glibc guards them with a lock).  What open and read return is any. *)
From Coq Require Import ZArith List Bool.
From Verif Require Import Base Shm_Model ShmQ_Model.
Import ListNotations.
Local Open Scope Z_scope.

(** where a thread is inside coda_random_init, random.c:10-31 *)
Inductive rpc :=
| Out                          (* not in the function *)
| AtOpen                       (* 17 *)
| AtRead                       (* 22 *)
| AtClose (s : list (option Z))  (* 25; the bytes of rnd_from_device, [None] if never written *)
| AtSeed (s : list (option Z))   (* 27 *)
| AtMark                       (* 28 *)
| AtRet (rc : Z).              (* 14, 18, 23, 30 *)

(** Not in the code: what can be observed. *)
Inductive rnd_ev :=
| Call (i : nat)                         (* a call of coda_random_init begins *)
| Step (i : nat)
| Seed (i : nat) (s : list (option Z))   (* srandom *)
| Ret (i : nat) (rc : Z)                 (* it returns *)
| Draw (i : nat).                        (* coda_random(), random.h:11 *)

(** coda_random_inited, random.c:8, and the threads *)
Record rsys := mkR { flag : bool; thr : list rpc }.

(** Not in the code: one step of one thread; the lines are given at each case. *)
Inductive rstep : rsys -> rnd_ev -> rsys -> Prop :=
(** random.c:12-15: the flag is read; the call and the load of the flag are one step *)
| RCallNew : forall l i, nth_error l i = Some Out -> rstep (mkR false l) (Call i) (mkR false (upd l i AtOpen))
| RCallOld : forall l i, nth_error l i = Some Out -> rstep (mkR true l) (Call i) (mkR true (upd l i (AtRet 0)))
(** 17-18 *)
| ROpenBad : forall f l i, nth_error l i = Some AtOpen -> rstep (mkR f l) (Step i) (mkR f (upd l i (AtRet (-1))))
| ROpen : forall f l i, nth_error l i = Some AtOpen -> rstep (mkR f l) (Step i) (mkR f (upd l i AtRead))
(** 20-23: [got] bytes arrive, at most 4; the others of rnd_from_device keep what they had *)
| RReadBad : forall f l i, nth_error l i = Some AtRead -> rstep (mkR f l) (Step i) (mkR f (upd l i (AtRet (-1))))
| RRead : forall f l i got, nth_error l i = Some AtRead -> (length got <= 4)%nat ->
    rstep (mkR f l) (Step i) (mkR f (upd l i (AtClose (map Some got ++ repeat None (4 - length got)))))
(** 25: the result of close is not looked at *)
| RClose : forall f l i s, nth_error l i = Some (AtClose s) -> rstep (mkR f l) (Step i) (mkR f (upd l i (AtSeed s)))
(** 27 *)
| RSeed : forall f l i s, nth_error l i = Some (AtSeed s) -> rstep (mkR f l) (Seed i s) (mkR f (upd l i AtMark))
(** 28 *)
| RMark : forall f l i, nth_error l i = Some AtMark -> rstep (mkR f l) (Step i) (mkR true (upd l i (AtRet 0)))
(** 14, 18, 23, 30 *)
| RRet : forall f l i rc, nth_error l i = Some (AtRet rc) -> rstep (mkR f l) (Ret i rc) (mkR f (upd l i Out))
(** random.h:11 *)
| RDraw : forall f l i, nth_error l i = Some Out -> rstep (mkR f l) (Draw i) (mkR f l).

(** Not in the code: executions with [k] threads. *)
Inductive rexec (k : nat) : list rnd_ev -> rsys -> Prop :=
| rexec_nil : rexec k [] (mkR false (repeat Out k))
| rexec_snoc : forall tr s e s', rexec k tr s -> rstep s e s' -> rexec k (tr ++ [e]) s'.
