(** Model of the life of a shm::hash_map object and of a shm_queue::queue object:
    construction, connect, disconnect, use and destruction; coda/shm_hash_map.tcc and
    coda/shm_queue.tcc.

    A method is a program of calls to the kernel and to the allocator; answers are arbitrary.
    What the methods do inside the segment is in Shm_Model and ShmQ_Model; what other
    processes do to the semaphores is in ShmSys_Model and ShmQ_Model.  Pointers are numbers,
    0 is null. *)

From Coq Require Import ZArith List Bool.
From Verif Require Import Base.
Import ListNotations.
Local Open Scope Z_scope.

(** Not in the code: the calls the methods make. *)
Inductive call :=
| Ftok
| Semget (creat : bool)
| Setval (id sem : Z)         (* semctl SETVAL *)
| Lock (id : Z)               (* the semop of lock_read_rw, lock_write_rw, lock_queue *)
| Unlock (id : Z)             (* the semop of unlock_read_rw, unlock_write_rw, unlock_queue *)
| Shmget (creat : bool)
| Shmat (id : Z)
| Shmdt (p : Z)
| Attach (p : Z)              (* attach of the map (30-77): negative if it throws *)
| Header (p : Z)              (* the comparison of the queue's header (164): negative if different *)
| New (n : Z)                 (* operator new[]: 0 if it throws bad_alloc *)
| Delete (p : Z).
(** Not in the code: the calls made and their answers, latest first. *)
Definition log := list (call * Z).

(** Not in the code: programs of calls; [Bad]: undefined behaviour. *)
Inductive prog (A : Type) :=
| Ret (a : A)
| Bad (u : ub)
| Call (c : call) (k : Z -> prog A).
Arguments Ret {A}. Arguments Bad {A}. Arguments Call {A}.
(** Not in the code: sequence. *)
Fixpoint pbind {A B} (p : prog A) (f : A -> prog B) : prog B :=
  match p with
  | Ret a => f a
  | Bad u => Bad u
  | Call c k => Call c (fun a => pbind (k a) f)
  end.
(** Not in the code: notation for the sequence of two programs. *)
Notation "x <~ e ;; k" := (pbind e (fun x => k)) (at level 61, e at next level, right associativity).
Notation "' p <~ e ;; k" := (pbind e (fun x => let p := x in k))
  (at level 61, p pattern, e at next level, right associativity).
(** Not in the code: one call. *)
Definition sys (c : call) : prog Z := Call c Ret.
(** Not in the code: a program with answers; the answers may depend on all that happened. *)
Fixpoint run {A} (p : prog A) (ans : log -> call -> Z) (l : log) : res A * log :=
  match p with
  | Ret a => (Ok a, l)
  | Bad u => (Ub u, l)
  | Call c k => let a := ans l c in run (k a) ans ((c, a) :: l)
  end.

(** *** shm::hash_map *)

(** the members of shm_hash_map.hpp:18-19, 59-64 that say whether it is connected; [m_ptrs]:
    hash, objects and the pointers into the header are set *)
Record map := mkMap { m_sem : Z; m_shm : Z; m_mem : Z; m_ptrs : bool }.
(** hash_map::hash_map, shm_hash_map.tcc:11-22 *)
Definition map_new : map := mkMap (-1) (-1) 0 false.

(** lock_write_rw, lock_read_rw, unlock_write_rw, unlock_read_rw; shm_hash_map.tcc:459-522.
    [false]: an exception *)
Definition m_lock (o : map) : prog bool := a <~ sys (Lock (m_sem o)) ;; Ret (0 <=? a).
(** unlock_write_rw and unlock_read_rw, shm_hash_map.tcc:476-488, 510-522 *)
Definition m_unlock (o : map) : prog bool := a <~ sys (Unlock (m_sem o)) ;; Ret (0 <=? a).

(** is_connected, shm_hash_map.tcc:215-219 *)
Definition m_connected (o : map) : bool := negb (m_mem o =? 0).
(** detach, shm_hash_map.tcc:79-90 *)
Definition m_detach (o : map) : map := mkMap (m_sem o) (m_shm o) 0 false.
(** disconnect, shm_hash_map.tcc:442-456 *)
Definition m_disconnect (o : map) : prog map :=
  if negb (m_connected o) then Ret o else
  let o := m_detach o in
  let o := mkMap (-1) (-1) (m_mem o) (m_ptrs o) in
  _ <~ sys (Shmdt (m_mem o)) ;;
  Ret (mkMap (m_sem o) (m_shm o) 0 (m_ptrs o)).

(** connect_sem, shm_hash_map.tcc:379-412; the flag is false after an exception *)
Definition m_connect_sem (o : map) : prog (map * bool) :=
  if negb (m_sem o =? -1) then Ret (o, false) else                    (* 382-385 *)
  k <~ sys Ftok ;;
  if k =? -1 then Ret (o, false) else                                 (* 389-392 *)
  a <~ sys (Semget false) ;;
  let o := mkMap a (m_shm o) (m_mem o) (m_ptrs o) in
  if negb (a =? -1) then Ret (o, true) else                           (* 394 *)
  a <~ sys (Semget true) ;;
  let o := mkMap a (m_shm o) (m_mem o) (m_ptrs o) in
  if a =? -1 then Ret (o, false) else                                 (* 396-399 *)
  r <~ sys (Setval a 0) ;;
  if r =? -1 then Ret (o, false) else                                 (* 402-405 *)
  r <~ sys (Setval a 1) ;;
  if r =? -1 then Ret (o, false) else                                 (* 407-410 *)
  Ret (o, true).

(** connect_shm, shm_hash_map.tcc:327-376 *)
Definition m_connect_shm (o : map) : prog (map * bool) :=
  l <~ m_lock o ;;
  if negb l then Ret (o, false) else                                  (* 330 *)
  if m_connected o then (_ <~ m_unlock o ;; Ret (o, false)) else      (* 332-336 *)
  k <~ sys Ftok ;;
  if k =? -1 then (_ <~ m_unlock o ;; Ret (o, false)) else            (* 340-344 *)
  a <~ sys (Shmget false) ;;
  let o := mkMap (m_sem o) a (m_mem o) (m_ptrs o) in
  '(o, ok) <~
    (if negb (a =? -1) then Ret (o, true) else                        (* 348 *)
     a <~ sys (Shmget true) ;;
     let o := mkMap (m_sem o) a (m_mem o) (m_ptrs o) in
     Ret (o, negb (a =? -1))) ;;
  if negb ok then (_ <~ m_unlock o ;; Ret (o, false)) else            (* 351-355 *)
  p <~ sys (Shmat (m_shm o)) ;;
  if p =? -1 then (_ <~ m_unlock o ;; Ret (o, false)) else            (* 363-367 *)
  let o := mkMap (m_sem o) (m_shm o) p (m_ptrs o) in                  (* 374 *)
  u <~ m_unlock o ;;
  Ret (o, u).

(** the handler of the second try block, shm_hash_map.tcc:433-439 *)
Definition m_handler (o : map) : prog (map * bool) :=
  u <~ m_unlock o ;;
  if negb u then Ret (o, false) else
  o <~ m_disconnect o ;; Ret (o, false).
(** connect, shm_hash_map.tcc:414-440 *)
Definition m_connect (o : map) : prog (map * bool) :=
  '(o, ok) <~ m_connect_sem o ;;
  '(o, ok) <~ (if ok : bool then m_connect_shm o else Ret (o, false)) ;;
  if negb ok then (o <~ m_disconnect o ;; Ret (o, false)) else        (* 421-425 *)
  l <~ m_lock o ;;
  if negb l then m_handler o else
  r <~ sys (Attach (m_mem o)) ;;
  let o := mkMap (m_sem o) (m_shm o) (m_mem o) true in
  if r <? 0 then m_handler o else
  u <~ m_unlock o ;;
  if u : bool then Ret (o, true) else m_handler o.

(** a method that works on the contents, for example read, shm_hash_map.tcc:139-146: the
    pointers are used between the lock and the unlock *)
Definition m_use (o : map) : prog bool :=
  l <~ m_lock o ;;
  if negb l then Ret false else
  if negb (m_ptrs o) then Bad NullDeref else
  m_unlock o.

(** the methods a user calls; shm_hash_map.hpp:30-40 *)
Inductive mcall := MConnect | MDisconnect | MUse.
(** one call; the flag is false after an exception; shm_hash_map.hpp:30-40 *)
Definition m_call (c : mcall) (o : map) : prog (map * bool) :=
  match c with
  | MConnect => m_connect o
  | MDisconnect => o <~ m_disconnect o ;; Ret (o, true)
  | MUse => b <~ m_use o ;; Ret (o, b)
  end.
(** Not in the code: a user who calls the methods one after the other. *)
Fixpoint m_calls (cs : list mcall) (o : map) : prog (map * list bool) :=
  match cs with
  | [] => Ret (o, [])
  | c :: cs => '(o, b) <~ m_call c o ;; '(o, bs) <~ m_calls cs o ;; Ret (o, b :: bs)
  end.
(** hash_map::~hash_map, shm_hash_map.tcc:24-28 *)
Definition m_destroy (o : map) : prog map := m_disconnect o.

(** *** shm_queue::queue *)

(** shm_queue.hpp:43-45, 63-71: the members that change in connect and disconnect; [q_ptr]
    is current_box.ptr *)
Record queue := mkQ { q_ptr : Z; q_info : Z; q_boxes : Z; q_sem : Z; q_shm : Z; q_bs : Z; q_mb : Z }.
(** queue::queue and box::box, shm_queue.tcc:5-10, 99-108 *)
Definition queue_new : queue := mkQ 0 0 0 (-1) (-1) 0 0.

(** connect_sem, shm_queue.tcc:187-219 *)
Definition q_connect_sem (o : queue) : prog (queue * bool) :=
  let set o s := mkQ (q_ptr o) (q_info o) (q_boxes o) s (q_shm o) (q_bs o) (q_mb o) in
  if negb (q_sem o =? -1) then Ret (o, false) else                    (* 190-193 *)
  k <~ sys Ftok ;;
  if k =? -1 then Ret (o, false) else                                 (* 197-200 *)
  a <~ sys (Semget false) ;;
  let o := set o a in
  if negb (a =? -1) then Ret (o, true) else                           (* 202 *)
  a <~ sys (Semget true) ;;
  let o := set o a in
  if a =? -1 then Ret (o, false) else                                 (* 204-207 *)
  r <~ sys (Setval a 0) ;;
  if r =? -1 then Ret (o, false) else                                 (* 209-212 *)
  r <~ sys (Setval a 1) ;;
  if r =? -1 then Ret (o, false) else                                 (* 214-217 *)
  Ret (o, true).

(** connect_shm, shm_queue.tcc:119-174 *)
Definition q_connect_shm (o : queue) : prog (queue * bool) :=
  let shm o s := mkQ (q_ptr o) (q_info o) (q_boxes o) (q_sem o) s (q_bs o) (q_mb o) in
  let info o i := mkQ (q_ptr o) i (q_boxes o) (q_sem o) (q_shm o) (q_bs o) (q_mb o) in
  if negb (q_boxes o =? 0) then Ret (o, false) else                   (* 122-125 *)
  k <~ sys Ftok ;;
  if k =? -1 then Ret (o, false) else                                 (* 129-132 *)
  a <~ sys (Shmget false) ;;
  let o := shm o a in
  '(o, ok) <~
    (if negb (a =? -1) then Ret (o, true) else                        (* 136 *)
     a <~ sys (Shmget true) ;;
     let o := shm o a in Ret (o, negb (a =? -1))) ;;
  if negb ok then Ret (o, false) else                                 (* 138-141 *)
  p <~ sys (Shmat (q_shm o)) ;;
  if p =? -1 then Ret (o, false) else                                 (* 148-151 *)
  let o := info o p in                                                (* 153 *)
  h <~ sys (Header p) ;;
  if h <? 0 then                                                      (* 164 *)
    (_ <~ sys (Shmdt (q_info o)) ;;                                   (* 166 *)
     Bad NullDeref)                                                   (* 167-169: info->box_size with info = 0 *)
  else
  let o := mkQ (q_ptr o) (q_info o) (p + 64) (q_sem o) (q_shm o) (q_bs o) (q_mb o) in   (* 162, 172 *)
  b <~ sys (New (q_bs o)) ;;                                          (* 173, 24 *)
  if b =? 0 then Ret (o, false) else
  Ret (mkQ b (q_info o) (q_boxes o) (q_sem o) (q_shm o) (q_bs o) (q_mb o), true).

(** connect, shm_queue.tcc:221-231; lock_queue and unlock_queue do not look at the answer *)
Definition q_connect (bs mb : Z) (o : queue) : prog (queue * bool) :=
  let o := mkQ (q_ptr o) (q_info o) (q_boxes o) (q_sem o) (q_shm o) bs mb in
  '(o, ok) <~ q_connect_sem o ;;
  if negb ok then Ret (o, false) else
  _ <~ sys (Lock (q_sem o)) ;;
  '(o, ok) <~ q_connect_shm o ;;
  if negb ok then Ret (o, false) else
  _ <~ sys (Unlock (q_sem o)) ;;
  Ret (o, true).

(** box::deallocate, shm_queue.tcc:30-41 *)
Definition q_deallocate (o : queue) : prog queue :=
  if q_ptr o =? 0 then Ret o else
  _ <~ sys (Delete (q_ptr o)) ;;
  Ret (mkQ 0 (q_info o) (q_boxes o) (q_sem o) (q_shm o) (q_bs o) (q_mb o)).
(** disconnect, shm_queue.tcc:233-249 *)
Definition q_disconnect (o : queue) : prog queue :=
  if q_info o =? 0 then Ret o else
  _ <~ sys (Shmdt (q_info o)) ;;
  let o := mkQ (q_ptr o) 0 0 (q_sem o) (q_shm o) (q_bs o) (q_mb o) in
  o <~ q_deallocate o ;;
  Ret (mkQ (q_ptr o) (q_info o) (q_boxes o) (-1) (-1) 0 0).

(** flush and unflush, shm_queue.tcc:264-340, as far as the object is concerned: the segment
    is used only if boxes is set; flush then clears current_box (memset of its [size] bytes,
    none when there is no buffer) *)
Definition q_use (o : queue) : prog bool :=
  if q_boxes o =? 0 then Ret false else
  _ <~ sys (Lock (q_sem o)) ;;
  if q_info o =? 0 then Bad NullDeref else
  _ <~ sys (Unlock (q_sem o)) ;;
  Ret true.

(** the methods a user calls; shm_queue.hpp:83-90 *)
Inductive qcall := QConnect (bs mb : Z) | QDisconnect | QUse.
(** one call; the flag is false after an exception (or for a use without connection);
    shm_queue.hpp:83-90 *)
Definition q_call (c : qcall) (o : queue) : prog (queue * bool) :=
  match c with
  | QConnect bs mb => q_connect bs mb o
  | QDisconnect => o <~ q_disconnect o ;; Ret (o, true)
  | QUse => b <~ q_use o ;; Ret (o, b)
  end.
(** Not in the code: a user who calls the methods one after the other. *)
Fixpoint q_calls (cs : list qcall) (o : queue) : prog (queue * list bool) :=
  match cs with
  | [] => Ret (o, [])
  | c :: cs => '(o, b) <~ q_call c o ;; '(o, bs) <~ q_calls cs o ;; Ret (o, b :: bs)
  end.
(** queue::~queue and then box::~box, shm_queue.tcc:12-19, 110-117 *)
Definition q_destroy (o : queue) : prog queue :=
  o <~ (if q_boxes o =? 0 then Ret o else q_disconnect o) ;;
  q_deallocate o.
