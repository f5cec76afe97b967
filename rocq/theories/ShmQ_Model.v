(** Model of coda/shm_queue.tcc / .hpp: a ring of boxes in a shared segment, guarded by one
    semaphore, with a second semaphore that counts the boxes; and the local box in which a
    process packs and unpacks its items.

    The segment is the flat memory of Shm_Model; header words are accessed with width 4,
    the bytes of the boxes with width 1. *)

From Coq Require Import ZArith List Bool.
From Verif Require Import Base Shm_Model ShmQ_Spec.
Import ListNotations.
Local Open Scope Z_scope.

(** struct queue_info, shm_queue.hpp:28-37, at the start of the segment; the member size. *)
Definition a_size : Z := 0.
(** shm_queue.hpp:28-37, the member box_size *)
Definition a_bsz : Z := 4.
(** shm_queue.hpp:28-37, the member start *)
Definition a_start : Z := 8.
(** shm_queue.hpp:28-37, the member end *)
Definition a_end : Z := 12.
(** shm_queue.hpp:28-37, the array of registers *)
Definition a_reg (o : Z) : Z := 16 + 4 * o.
(** boxes = ptr + sizeof(queue_info), shm_queue.tcc:162, 172 *)
Definition a_boxes : Z := 64.

(** memcpy out of / into the segment, byte by byte; shm_queue.tcc:44-48 *)
Fixpoint load_bytes (a : Z) (n : nat) : prog (list Z) :=
  match n with
  | O => Ret []
  | S n => w <~ load 1 a ;; ws <~ load_bytes (a + 1) n ;; Ret (w :: ws)
  end.
(** shm_queue.tcc:51-54, 157, 288 *)
Fixpoint store_bytes (a : Z) (ws : list Z) : prog unit :=
  match ws with
  | [] => Ret tt
  | w :: ws => store 1 a w ;;; store_bytes (a + 1) ws
  end.

(** a % b on uint32_t; shm_queue.tcc:291, 319, 324 *)
Definition umod (a b : Z) : prog Z := if b =? 0 then Stop DivByZero else Ret (a mod b).

(** ** The critical sections *)

(** flush, shm_queue.tcc:319-335; [box] is the content of current_box.  The result says
    whether the branch 321-330 was taken; the semop of 330 is a step of the system below. *)
Definition flush_body (box : list Z) : prog qret :=
  e <~ load 4 a_end ;;
  z <~ load 4 a_size ;;
  n <~ umod (u32 (e + 1)) z ;;
  s <~ load 4 a_start ;;
  if negb (n =? s) then                                       (* 319 *)
    e <~ load 4 a_end ;;
    bs <~ load 4 a_bsz ;;
    store_bytes (a_boxes + u32 (e * bs)) box ;;;              (* 321-322, 51-54 *)
    e <~ load 4 a_end ;;
    store 4 a_end (u32 (e + 1)) ;;;                           (* 323 *)
    e <~ load 4 a_end ;;
    z <~ load 4 a_size ;;
    e <~ umod e z ;;
    store 4 a_end e ;;;                                       (* 324 *)
    Ret (QStored true)
  else Ret (QStored false).

(** unflush, shm_queue.tcc:286-291; [n] is the size of current_box *)
Definition unflush_body (n : nat) : prog qret :=
  s <~ load 4 a_start ;;
  bs <~ load 4 a_bsz ;;
  b <~ load_bytes (a_boxes + u32 (s * bs)) n ;;               (* 286-287, 44-48 *)
  bs' <~ load 4 a_bsz ;;
  store_bytes (a_boxes + u32 (s * bs)) (repeat 0 (Z.to_nat bs')) ;;;  (* 288 *)
  s <~ load 4 a_start ;;
  store 4 a_start (u32 (s + 1)) ;;;                           (* 290 *)
  s <~ load 4 a_start ;;
  z <~ load 4 a_size ;;
  s <~ umod s z ;;
  store 4 a_start s ;;;                                       (* 291 *)
  Ret (QBox b).

(** shm_queue.tcc:353 *)
Definition set_reg_body (o v : Z) : prog qret := store 4 (a_reg o) v ;;; Ret QUnit.
(** shm_queue.tcc:366 *)
Definition get_reg_body (o : Z) : prog qret := v <~ load 4 (a_reg o) ;; Ret (QNum v).

(** the section of each method; [n] = BOX_SIZE; shm_queue.tcc:286-291, 319-335, 353, 366 *)
Definition body (n : nat) (o : qop) : prog qret :=
  match o with
  | QFlush b => flush_body b
  | QUnflush => unflush_body n
  | QSetReg o v => set_reg_body o v
  | QGetReg o => get_reg_body o
  end.

(** memset of the boxes in a new segment, 157; shm_queue.tcc:157 *)
Fixpoint zero_words (a : Z) (n : nat) : prog unit :=
  match n with O => Ret tt | S n => store 4 a 0 ;;; zero_words (a + 4) n end.

(** connect_shm, shm_queue.tcc:153-173, on the attached segment; [created] as in 134-143.  The memset of
    the header is modelled as stores of words. *)
Definition attach_body (created : bool) (n : nat) (mbiq : Z) : prog unit :=
  (if created then
     zero_words 0 16 ;;;
     store_bytes a_boxes (repeat 0 (Z.to_nat (u32 (mbiq * Z.of_nat n)))) ;;;  (* 157 *)
     store 4 a_bsz (Z.of_nat n) ;;;                           (* 158 *)
     store 4 a_size mbiq                                      (* 159 *)
   else Ret tt) ;;;
  bs <~ load 4 a_bsz ;;
  z <~ load 4 a_size ;;
  if negb (Z.of_nat n =? bs) || negb (mbiq =? z) then
    Stop NullDeref                              (* 164-169: info = 0, then info->box_size *)
  else Ret tt.

(** the size of the segment, 136 and 138: uint32_t product plus sizeof(queue_info);
    shm_queue.tcc:136, 138 *)
Definition seg_size (n : nat) (mbiq : Z) : Z := u32 (mbiq * Z.of_nat n) + 64.

(** ** The system: processes that share a connected queue *)

(** SEMVMX of Linux: semop fails with ERANGE above it; not in the code: the kernel *)
Definition semvmx : Z := 32767.

Section Sys.
Variable lim : Z.                        (* size of the segment *)
Variable n : nat.                        (* BOX_SIZE *)

(** where a process is in a method, shm_queue.tcc:274-403 *)
Inductive pc :=
| Idle
| Ticket                                 (* 279: semtimedop *)
| Lock (o : qop)                         (* 284, 318, 352, 365: lock_queue *)
| Body (o : qop) (b0 b : prog qret)      (* in the section; [b] is still to be run *)
| Post (o : qop) (r : qret)              (* 330: semop *)
| Unlock (o : qop) (r : qret)            (* 293, 336, 354, 367: unlock_queue *)
| Dead.

(** per process also the adjustment of the lock kept by SEM_UNDO (391, 401);
    not in the code: the state of the machine. *)
Record sys := mkS { lk : Z; cnt : Z; sm : mem; procs : list (pc * Z) }.

(** Not in the code: what can be observed of a step. *)
Inductive event :=
| ECall (i : nat) (o : qop)
| ETau (i : nat)
| EFail (i : nat)                        (* unflush returns false *)
| ECount (i : nat) (v : Z)               (* boxes_in_queue, pages_used *)
| EDone (i : nat) (o : qop) (r : qret)
| EIntr (i : nat)                        (* the semop of lock_queue was interrupted *)
| EDie (i : nat) (inside : bool).        (* death; was it between lock and unlock? *)

(** what a caller passes: current_box has BOX_SIZE bytes; uint8_t offset, uint32_t value;
    not in the code *)
Definition qwf (o : qop) : Prop :=
  match o with
  | QFlush b => length b = n
  | QSetReg o v => 0 <= o < 256 /\ 0 <= v < 2^32
  | QGetReg o => 0 <= o < 256
  | QUnflush => True
  end.
(** shm_queue.tcc:350 and 363: no section for a register that does not exist *)
Definition noreg (o : qop) : option qret :=
  match o with
  | QSetReg o _ => if 12 <=? o then Some QUnit else None
  | QGetReg o => if 12 <=? o then Some (QNum 0) else None
  | _ => None
  end.
(** the first blocking call of each method, shm_queue.tcc:279, 318, 352, 365 *)
Definition entry (o : qop) : pc := match o with QUnflush => Ticket | _ => Lock o end.
(** shm_queue.tcc:319-331: only the flush of a stored box posts *)
Definition after (o : qop) (r : qret) : pc :=
  match r with QStored true => Post o r | _ => Unlock o r end.
(** Not in the code: is the process between lock and unlock. *)
Definition holds (p : pc) : bool :=
  match p with Body _ _ _ | Post _ _ | Unlock _ _ => true | _ => false end.

(** one step of one process, shm_queue.tcc:265-403; the lines stand beside each case *)
Inductive step : sys -> event -> sys -> Prop :=
| SCall : forall l c m ps i u o, nth_error ps i = Some (Idle, u) -> qwf o -> noreg o = None ->
    step (mkS l c m ps) (ECall i o) (mkS l c m (upd ps i (entry o, u)))
| SNoReg : forall l c m ps i u o r, nth_error ps i = Some (Idle, u) -> qwf o ->
    noreg o = Some r -> step (mkS l c m ps) (EDone i o r) (mkS l c m ps)
(** shm_queue.tcc:344 and 382: semctl(GETVAL) *)
| SCount : forall l c m ps i u, nth_error ps i = Some (Idle, u) ->
    step (mkS l c m ps) (ECount i c) (mkS l c m ps)
(** shm_queue.tcc:279: a ticket; or timeout, IPC_NOWAIT or a signal while there is none *)
| STicket : forall l c m ps i u, nth_error ps i = Some (Ticket, u) -> 0 < c ->
    step (mkS l c m ps) (ETau i) (mkS l (c - 1) m (upd ps i (Lock QUnflush, u)))
| SFail : forall l c m ps i u, nth_error ps i = Some (Ticket, u) -> c = 0 ->
    step (mkS l c m ps) (EFail i) (mkS l c m (upd ps i (Idle, u)))
(** shm_queue.tcc:386-393 *)
| SLock : forall l c m ps i u o, nth_error ps i = Some (Lock o, u) -> 0 < l ->
    step (mkS l c m ps) (ETau i)
      (mkS (l - 1) c m (upd ps i (Body o (body n o) (body n o), u + 1)))
(** the result of semop is ignored in 392 *)
| SIntr : forall l c m ps i u o, nth_error ps i = Some (Lock o, u) ->
    step (mkS l c m ps) (EIntr i) (mkS l c m (upd ps i (Body o (body n o) (body n o), u)))
| SMem : forall l c m ps i u o b0 b b' m', nth_error ps i = Some (Body o b0 b, u) ->
    pstep lim b m b' m' ->
    step (mkS l c m ps) (ETau i) (mkS l c m' (upd ps i (Body o b0 b', u)))
| SEnd : forall l c m ps i u o b0 r, nth_error ps i = Some (Body o b0 (Ret r), u) ->
    step (mkS l c m ps) (ETau i) (mkS l c m (upd ps i (after o r, u)))
(** shm_queue.tcc:326-330; no SEM_UNDO; the result of semop is ignored *)
| SPost : forall l c m ps i u o r, nth_error ps i = Some (Post o r, u) ->
    step (mkS l c m ps) (ETau i)
      (mkS l (if c <? semvmx then c + 1 else c) m (upd ps i (Unlock o r, u)))
(** shm_queue.tcc:396-403 *)
| SUnlock : forall l c m ps i u o r, nth_error ps i = Some (Unlock o r, u) ->
    step (mkS l c m ps) (EDone i o r) (mkS (l + 1) c m (upd ps i (Idle, u - 1)))
(** the kernel applies the adjustment of the lock; the count has none *)
| SDie : forall l c m ps i p u, nth_error ps i = Some (p, u) -> p <> Dead ->
    step (mkS l c m ps) (EDie i (holds p)) (mkS (Z.max 0 (l + u)) c m (upd ps i (Dead, 0))).

(** [k] connected processes, the semaphores as set by connect_sem (209-217) *)
Definition init (k : nat) (m0 : mem) : sys := mkS 1 0 m0 (repeat (Idle, 0) k).
(** Not in the code: executions. *)
Inductive exec (k : nat) (m0 : mem) : list event -> sys -> Prop :=
| exec_nil : exec k m0 [] (init k m0)
| exec_snoc : forall tr s e s', exec k m0 tr s -> step s e s' -> exec k m0 (tr ++ [e]) s'.

End Sys.

(** ** The local box, shm_queue.hpp:42-60 *)

(** an item type: what size(), serialize() and deserialize() do.  serialize writes its bytes
    at the given place or refuses; deserialize sees the bytes from the given place to the
    end of the box. shm_queue.hpp:42-60, shm_queue.tcc:64-97. *)
Record codec (T : Type) := mkCodec
  { c_size : T -> nat; c_ser : T -> option (list Z); c_des : list Z -> option T }.
Arguments c_size {T} c x.
Arguments c_ser {T} c x.
Arguments c_des {T} c l.

(** ptr with its [size] bytes, and pos; shm_queue.hpp:42-60 *)
Record box := mkBox { b_mem : list Z; b_pos : nat }.

Section Box.
Variable T : Type.
Variable K : codec T.

(** memcpy to ptr + pos; not in the code: what serialize does with its bytes, shm_queue.tcc:84 *)
Fixpoint blit (b : list Z) (i : nat) (l : list Z) : res (list Z) :=
  match l with
  | [] => Ok b
  | x :: l => b <- wr b i x ;; blit b (S i) l
  end.

(** shm_queue.tcc:22-28, 57-61 *)
Definition box_clear (n : nat) : box := mkBox (repeat 0 n) 0.
(** shm_queue.tcc:94-97 *)
Definition box_fits (b : box) (x : T) : bool :=
  (b_pos b + c_size K x <=? length (b_mem b))%nat.
(** shm_queue.tcc:78-91 *)
Definition box_put (b : box) (x : T) : res (box * bool) :=
  if box_fits b x then
    match c_ser K x with
    | Some l => m <- blit (b_mem b) (b_pos b) l ;; Ok (mkBox m (b_pos b + c_size K x), true)
    | None => Ok (b, false)
    end
  else Ok (b, false).
(** shm_queue.tcc:64-75; [h] is left as it is when deserialize refuses *)
Definition box_get (b : box) (h : T) : box * T * bool :=
  match c_des K (skipn (b_pos b) (b_mem b)) with
  | Some y => (mkBox (b_mem b) (b_pos b + c_size K y), y, true)
  | None => (b, h, false)
  end.
(** shm_queue.tcc:44-48 *)
Definition copy_from (l : list Z) : box := mkBox l 0.

(** queue::get, 252-262 *)
Definition q_get (b : box) (h : T) : box * T * bool :=
  if box_fits b h then box_get b h else (b, h, false).

(** queue::flush seen from the writer, 314-339: the box is offered to the ring, then
    cleared; [log] are the boxes offered so far *)
Definition q_flush (b : box) (log : list (list Z)) : box * list (list Z) :=
  (box_clear (length (b_mem b)), log ++ [b_mem b]).

(** queue::put, 302-311 *)
Definition q_put (b : box) (log : list (list Z)) (x : T)
  : res (box * list (list Z) * bool) :=
  '(b, ok) <- box_put b x ;;
  if (ok : bool) then Ok (b, log, true)
  else
    let (b, log) := q_flush b log in
    '(b, ok) <- box_put b x ;; Ok (b, log, ok).

(** a writer that puts [xs] one after the other; not in the code: calls of shm_queue.tcc:302-311 *)
Fixpoint q_puts (b : box) (log : list (list Z)) (xs : list T)
  : res (box * list (list Z) * list bool) :=
  match xs with
  | [] => Ok (b, log, [])
  | x :: xs =>
      '(b, log, ok) <- q_put b log x ;;
      '(b, log, oks) <- q_puts b log xs ;; Ok (b, log, ok :: oks)
  end.

(** a reader that calls get with the objects [hs] in turn, until it returns false;
    not in the code: calls of shm_queue.tcc:252-262 *)
Fixpoint q_gets (b : box) (hs : list T) : list T :=
  match hs with
  | [] => []
  | h :: hs => match q_get b h with
               | (b, y, true) => y :: q_gets b hs
               | _ => []
               end
  end.
End Box.

(** ** connect, shm_queue.tcc:119-174, 187-231 *)

(** which calls succeed; [v_shm]: an existing segment with box_size and size;
    not in the code: the environment. *)
Record cenv := mkEnv
  { v_ftok1 : bool; v_sem_old : bool; v_sem_new : bool; v_set0 : bool; v_set1 : bool;
    v_ftok2 : bool; v_shm : option (Z * Z); v_shm_old_ok : bool; v_shm_new : bool;
    v_shmat : bool }.
(** sem_id != -1; boxes != 0; shm_queue.hpp:63-66, the members connect uses *)
Record cobj := mkObj { o_sem : bool; o_boxes : bool }.
(** Not in the code: how connect ended. *)
Inductive cout := Connected | Threw.

(** connect_sem, shm_queue.tcc:187-219: None when it throws; the object remembers a sem_id that was obtained *)
Definition connect_sem (e : cenv) (o : cobj) : cobj * bool :=
  if o_sem o then (o, false)                                          (* 190-193 *)
  else if negb (v_ftok1 e) then (o, false)                            (* 197-200 *)
  else if v_sem_old e then (mkObj true (o_boxes o), true)             (* 202 *)
  else if negb (v_sem_new e) then (o, false)                          (* 204-207 *)
  else (mkObj true (o_boxes o), v_set0 e && v_set1 e).                (* 209-217 *)

(** connect_shm, shm_queue.tcc:119-174, with box size [bs] and [mbiq] boxes *)
Definition connect_shm (e : cenv) (bs mbiq : Z) (o : cobj) : res (cobj * bool) :=
  if o_boxes o then Ok (o, false)                                     (* 122-125 *)
  else if negb (v_ftok2 e) then Ok (o, false)                         (* 129-132 *)
  else match v_shm e with
  | Some (bs', z') =>
      if negb (v_shm_old_ok e) then Ok (o, false)        (* 136, 138: too small or no access *)
      else if negb (v_shmat e) then Ok (o, false)                     (* 148-151 *)
      else if negb (bs =? bs') || negb (mbiq =? z') then Ub NullDeref (* 164-169 *)
      else Ok (mkObj (o_sem o) true, true)
  | None =>
      if negb (v_shm_new e) then Ok (o, false)                        (* 138-141 *)
      else if negb (v_shmat e) then Ok (o, false)
      else Ok (mkObj (o_sem o) true, true)
  end.

(** connect, shm_queue.tcc:222-231.  The last component: does the caller still hold the queue lock? *)
Definition connect (e : cenv) (bs mbiq : Z) (o : cobj) : res (cobj * cout * bool) :=
  let (o, ok) := connect_sem e o in                                   (* 227 *)
  if negb ok then Ok (o, Threw, false)
  else
    '(o, ok) <- connect_shm e bs mbiq o ;;                            (* 228-229 *)
    if (ok : bool) then Ok (o, Connected, false)                      (* 230 *)
    else Ok (o, Threw, true).
