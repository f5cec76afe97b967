(** Several processes that connect to one shared queue, and use it when they are connected:
    coda/shm_queue.tcc:119-174, 187-231, 265-339.

    Simplified: ftok, shmget and shmat succeed (their failures: connect in ShmQ_Model, Life_Model), the sizes
    agree, and the calls of a section other than those of connect are one step each (single loads and
    stores: ShmQ_Model); of the boxes only the number counts. *)

From Coq Require Import ZArith List Bool.
From Verif Require Import Base ShmQ_Model.
Import ListNotations.
Local Open Scope Z_scope.

(** where a process is, shm_queue.tcc:119-174, 187-231, 265-339 *)
Inductive qpc :=
| QGet                 (* 202: semget(key, 2, 0) *)
| QCreate              (* 204: semget(key, 2, IPC_CREAT | 0666) *)
| QSet0                (* 209: SETVAL of the lock *)
| QSet1                (* 214: SETVAL of the count *)
| QLock                (* 228: lock_queue *)
| QFind                (* 136: shmget of an existing segment *)
| QMake                (* 138: shmget with IPC_CREAT *)
| QInit                (* 157-159 *)
| QCheck               (* 164 *)
| QUnlock              (* 230: unlock_queue *)
| QUp                  (* connected *)
| FLock                (* 318: flush *)
| FBody                (* 319-324 *)
| FPost                (* 330 *)
| FUnlock              (* 336 *)
| UTicket              (* 279: unflush *)
| ULock                (* 284 *)
| UBody                (* 286-291 *)
| UUnlock              (* 293 *)
| QDead.

(** does the set exist; its two values; the segment: none, or with or without a header; the number of boxes in
    the ring.  Not in the code: the state outside the processes. *)
Record glob := mkG { ex : bool; lk : Z; cnt : Z; seg : option bool; stored : Z }.

(** Not in the code: what can be told about a step. *)
Inductive kind := KTau | KCreate | KReset | KZero | KInit | KIntr | KStore | KPost | KTake | KFail | KCrash
| KDie (half : bool).   (* did it die between making the segment and its header? *)

(** the steps of one process on its own, with the change of its adjustment of the lock (391, 401);
    shm_queue.tcc:119-174, 187-231, 265-339 *)
Inductive loc : glob -> qpc -> kind -> glob -> qpc -> Z -> Prop :=
| LOld : forall l c g n, loc (mkG true l c g n) QGet KTau (mkG true l c g n) QLock 0
| LNone : forall l c g n, loc (mkG false l c g n) QGet KTau (mkG false l c g n) QCreate 0
(** a new set has the values 0; without IPC_EXCL an old one is taken *)
| LCreate : forall e l c g n, loc (mkG e l c g n) QCreate KCreate
    (mkG true (if e then l else 0) (if e then c else 0) g n) QSet0 0
| LZero : forall e l c g n, loc (mkG e l c g n) QSet1 KZero (mkG e l 0 g n) QLock 0
| LLock : forall e l c g n, 0 < l -> loc (mkG e l c g n) QLock KTau (mkG e (l - 1) c g n) QFind 1
| LIntr : forall g, loc g QLock KIntr g QFind 0
| LFind : forall e l c b n, loc (mkG e l c (Some b) n) QFind KTau (mkG e l c (Some b) n) QCheck 0
| LNew : forall e l c n, loc (mkG e l c None n) QFind KTau (mkG e l c None n) QMake 0
| LMake : forall e l c g n, loc (mkG e l c g n) QMake KTau
    (mkG e l c (match g with None => Some false | Some b => Some b end) n) QInit 0
| LInit : forall e l c g n, loc (mkG e l c g n) QInit KInit (mkG e l c (Some true) 0) QCheck 0
| LCheck : forall e l c n, loc (mkG e l c (Some true) n) QCheck KTau (mkG e l c (Some true) n) QUnlock 0
| LUnlock : forall e l c g n, loc (mkG e l c g n) QUnlock KTau (mkG e (l + 1) c g n) QUp (-1)
(** flush: the ring may be full *)
| LFlush : forall g, loc g QUp KTau g FLock 0
| LFLock : forall e l c g n, 0 < l -> loc (mkG e l c g n) FLock KTau (mkG e (l - 1) c g n) FBody 1
| LFIntr : forall g, loc g FLock KIntr g FBody 0
| LFFull : forall g, loc g FBody KTau g FUnlock 0
| LFStore : forall e l c g n, loc (mkG e l c g n) FBody KStore (mkG e l c g (n + 1)) FPost 0
| LFPost : forall e l c g n, loc (mkG e l c g n) FPost KPost
    (mkG e l (if c <? semvmx then c + 1 else c) g n) FUnlock 0
| LFUnlock : forall e l c g n, loc (mkG e l c g n) FUnlock KTau (mkG e (l + 1) c g n) QUp (-1)
(** unflush *)
| LUnflush : forall g, loc g QUp KTau g UTicket 0
| LUFail : forall e l g n, loc (mkG e l 0 g n) UTicket KFail (mkG e l 0 g n) QUp 0
| LUTicket : forall e l c g n, 0 < c -> loc (mkG e l c g n) UTicket KTau (mkG e l (c - 1) g n) ULock 0
| LULock : forall e l c g n, 0 < l -> loc (mkG e l c g n) ULock KTau (mkG e (l - 1) c g n) UBody 1
| LUIntr : forall g, loc g ULock KIntr g UBody 0
| LUTake : forall e l c g n, loc (mkG e l c g n) UBody KTake (mkG e l c g (n - 1)) UUnlock 0
| LUUnlock : forall e l c g n, loc (mkG e l c g n) UUnlock KTau (mkG e (l + 1) c g n) QUp (-1).

(** Not in the code: all processes, with their adjustments. *)
Record csys := mkS { gl : glob; ps : list (qpc * Z) }.
(** Not in the code: another value of the lock. *)
Definition set_lk (g : glob) (l : Z) : glob := mkG (ex g) l (cnt g) (seg g) (stored g).

(** one step of the process [i]; shm_queue.tcc:119-174, 187-231, 265-339 *)
Inductive step : csys -> kind -> nat -> csys -> Prop :=
| SLoc : forall g l i p u k g' q d, nth_error l i = Some (p, u) -> loc g p k g' q d ->
    step (mkS g l) k i (mkS g' (upd l i (q, u + d)))
(** 209: SETVAL also clears the adjustments of all processes *)
| SSet0 : forall g l i u, nth_error l i = Some (QSet0, u) ->
    step (mkS g l) KReset i (mkS (set_lk g 1) (map (fun x => (fst x, 0)) (upd l i (QSet1, u))))
(** 164-169: a segment without a header, info is null and is dereferenced *)
| SCrash : forall g l i u, nth_error l i = Some (QCheck, u) -> seg g <> Some true ->
    step (mkS g l) KCrash i (mkS (set_lk g (Z.max 0 (lk g + u))) (upd l i (QDead, 0)))
(** the process dies at any point *)
| SDie : forall g l i p u, nth_error l i = Some (p, u) -> p <> QDead ->
    step (mkS g l) (KDie (match p with QInit => true | _ => false end)) i
      (mkS (set_lk g (Z.max 0 (lk g + u))) (upd l i (QDead, 0))).

(** Not in the code: [n] processes that start to connect; does the set exist (with the lock free)? *)
Definition init (e : bool) (n : nat) : csys :=
  mkS (mkG e (if e then 1 else 0) 0 None 0) (repeat (QGet, 0) n).
(** Not in the code: executions. *)
Inductive exec (s0 : csys) : list kind -> csys -> Prop :=
| ex_nil : exec s0 [] s0
| ex_snoc : forall tr s k i s', exec s0 tr s -> step s k i s' -> exec s0 (tr ++ [k]) s'.
