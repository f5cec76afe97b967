(** Model of coda/synque.hpp: the steps of any number of threads that use one [synque].

    Each thread is a program counter with its local variables; one step is one library
    call or one statement.  The mutex is a lock with an owner.  [pthread_cond_wait] releases
    the mutex and sleeps in one step; a sleeping thread is woken by a signal or spuriously,
    and then competes for the mutex like any other thread.  [pthread_cond_signal] wakes at
    least one sleeping thread, and perhaps more (POSIX).  The pthread calls do not fail.
    Copying an element and growing the deque does not throw. *)

From Coq Require Import ZArith List Bool.
From Verif Require Import Base Synque_Spec.
Import ListNotations.

Section Model.
Variable A : Type.

(** the two overloads of get and their arguments; synque.hpp:45, 74 *)
Inductive mode := Single | Batch (max : Z).

(** where a thread is, synque.hpp:30-114; the lines stand beside each case *)
Inductive pc :=
| Idle                                        (* outside *)
| AddLock (x : A)                             (* synque.hpp:32 *)
| AddPush (x : A)                             (* 33 *)
| AddSignal (x : A)                           (* 34 *)
| AddUnlock                                   (* 35 *)
| SigLock                                     (* 40 *)
| SigSignal                                   (* 41 *)
| SigUnlock                                   (* 42 *)
| GetLock (g : mode) (w : bool)               (* 47 / 76 *)
| GetTest (g : mode) (w : bool)               (* 49-51 / 78-80 *)
| GetSleep (g : mode) (w : bool)              (* 57 / 85, in pthread_cond_wait, asleep *)
| GetWoken (g : mode) (w : bool)              (* 57 / 85, waiting for the mutex *)
| GetTest2 (g : mode) (w : bool)              (* 59 / 86 *)
| GetFail                                     (* 53-54, 61-62 / 82-83, 88-89 *)
| GetBack (w : bool)                          (* 66 *)
| GetPop (w : bool) (e : A)                   (* 67 *)
| GetUnlock (e : A)                           (* 69-71 *)
| BatSize (max : Z) (w : bool)                (* 93-95 *)
| BatLoop (max : Z) (w : bool) (i q : nat) (out : list A) (* 97 *)
| BatBack (max : Z) (w : bool) (i q : nat) (out : list A) (* 99 *)
| BatPop (max : Z) (w : bool) (i q : nat) (out : list A)  (* 100 *)
| BatUnlock (out : list A)                    (* 103-105 *)
| SizeLock                                    (* 110 *)
| SizeRead                                    (* 111 *)
| SizeUnlock (n : nat)                        (* 112-113 *)
| Bad.                                        (* back() or pop_back() of an empty deque *)

(** synque.hpp:13-15; [d] is the deque, front first *)
Record state := mkState { owner : option nat; dq : list A; pcs : list pc }.

(** Not in the code: the name of the call. *)
Definition op_of (g : mode) (w : bool) : op A :=
  match g with Single => OGet w | Batch max => OBatch max w end.
(** where get goes on when the queue is not empty (66 / 93); synque.hpp:66, 93. *)
Definition take_of (g : mode) (w : bool) : pc :=
  match g with Single => GetBack w | Batch max => BatSize max w end.

(** pthread_cond_signal: some sleeping threads wake up, at least one if there is one;
    pthread_cond_signal(3), synque.hpp:34, 41 *)
Definition wakes (p p' : pc) : Prop := p' = p \/ exists g w, p = GetSleep g w /\ p' = GetWoken g w.
(** Not in the code: a thread that sleeps in pthread_cond_wait (synque.hpp:57, 85). *)
Definition is_sleep (p : pc) : Prop := exists g w, p = GetSleep g w.
(** pthread_cond_signal(3), synque.hpp:34, 41 *)
Definition signals (l l' : list pc) : Prop :=
  Forall2 wakes l l' /\
  ((exists i p, nth_error l i = Some p /\ is_sleep p) ->
   exists i p p', nth_error l i = Some p /\ is_sleep p /\ nth_error l' i = Some p' /\ p' <> p).

(** the entry of each function; synque.hpp:30, 38, 45, 74, 108 *)
Definition entry (o : op A) : pc :=
  match o with
  | OAdd x => AddLock x
  | OSignal => SigLock
  | OGet w => GetLock Single w
  | OBatch max w => GetLock (Batch max) w
  | OSize => SizeLock
  end.
(** the pc after the mutex is taken; synque.hpp:32, 40, 47, 76, 110 *)
Definition locked (p : pc) : option pc :=
  match p with
  | AddLock x => Some (AddPush x)
  | SigLock => Some SigSignal
  | GetLock g w => Some (GetTest g w)
  | GetWoken g w => Some (GetTest2 g w)
  | SizeLock => Some SizeRead
  | _ => None
  end.
(** the result when the mutex is released at the end;
    synque.hpp:35, 42, 53-54, 61-62, 69-71, 82-83, 88-89, 103-105, 112-113 *)
Definition result (p : pc) : option (ret A) :=
  match p with
  | AddUnlock | SigUnlock => Some RUnit
  | GetFail => Some RFail
  | GetUnlock e => Some (RGet e)
  | BatUnlock out => Some (RBatch out)
  | SizeUnlock n => Some (RSize n)
  | _ => None
  end.

(** a step inside the critical section that leaves the other threads alone: the new deque,
    the new pc, and the effect it has; synque.hpp:33, 49-67, 78-101, 111. *)
Definition inside (d : list A) (p : pc) : option (list A * pc * option (op A * ret A)) :=
  match p with
  | AddPush x => Some (x :: d, AddSignal x, Some (OAdd x, RUnit))
  | GetTest g w =>
    match d with
    | [] => if w then None else Some (d, GetFail, Some (op_of g w, RFail))
    | _ => Some (d, take_of g w, None)
    end
  | GetTest2 g w =>
    match d with
    | [] => Some (d, GetFail, Some (op_of g w, RFail))
    | _ => Some (d, take_of g w, None)
    end
  | GetBack w => match rev d with e :: _ => Some (d, GetPop w e, None) | [] => Some (d, Bad, None) end
  | GetPop w e => match d with
                  | [] => Some (d, Bad, None)
                  | _ => Some (removelast d, GetUnlock e, Some (OGet w, RGet e))
                  end
  | BatSize max w =>
    let quantity := length d in
    let quantity := if (0 <? max)%Z && (max <? Z.of_nat quantity)%Z then Z.to_nat max else quantity in
    Some (d, BatLoop max w 0 quantity [], None)
  | BatLoop max w i q out =>
    if (i <? q)%nat then Some (d, BatBack max w i q out, None)
    else Some (d, BatUnlock out, Some (OBatch max w, RBatch out))
  | BatBack max w i q out =>
    match rev d with e :: _ => Some (d, BatPop max w i q (out ++ [e]), None) | [] => Some (d, Bad, None) end
  | BatPop max w i q out =>
    match d with [] => Some (d, Bad, None) | _ => Some (removelast d, BatLoop max w (S i) q out, None) end
  | SizeRead => Some (d, SizeUnlock (length d), Some (OSize, RSize (length d)))
  | _ => None
  end.

(** Not in the code: the event of a step. *)
Definition label (t : nat) (e : option (op A * ret A)) : event A :=
  match e with Some (o, r) => Effect t o r | None => Tau t end.

(** one step of one thread, synque.hpp:30-114 *)
Inductive step : state -> event A -> state -> Prop :=
| s_call : forall s t o, nth_error (pcs s) t = Some Idle ->
    step s (Call t o) (mkState (owner s) (dq s) (upd (pcs s) t (entry o)))
| s_lock : forall s t p p', nth_error (pcs s) t = Some p -> locked p = Some p' -> owner s = None ->
    step s (Tau t) (mkState (Some t) (dq s) (upd (pcs s) t p'))
| s_inside : forall s t p d' p' e, nth_error (pcs s) t = Some p -> inside (dq s) p = Some (d', p', e) ->
    step s (label t e) (mkState (owner s) d' (upd (pcs s) t p'))
| s_add_signal : forall s t x l, nth_error (pcs s) t = Some (AddSignal x) -> signals (pcs s) l ->
    step s (Tau t) (mkState (owner s) (dq s) (upd l t AddUnlock))
| s_signal : forall s t l, nth_error (pcs s) t = Some SigSignal -> signals (pcs s) l ->
    step s (Effect t OSignal RUnit) (mkState (owner s) (dq s) (upd l t SigUnlock))
| s_wait : forall s t g w, nth_error (pcs s) t = Some (GetTest g w) -> dq s = [] -> w = true ->
    step s (Tau t) (mkState None (dq s) (upd (pcs s) t (GetSleep g w)))
| s_spurious : forall s t g w, nth_error (pcs s) t = Some (GetSleep g w) ->
    step s (Wake t) (mkState (owner s) (dq s) (upd (pcs s) t (GetWoken g w)))
| s_unlock : forall s t p r, nth_error (pcs s) t = Some p -> result p = Some r ->
    step s (Return t r) (mkState None (dq s) (upd (pcs s) t Idle)).

(** [n] threads and an empty queue (synque.hpp:18-22) *)
Definition init (n : nat) : state := mkState None [] (repeat Idle n).

(** Not in the code: executions. *)
Inductive exec (n : nat) : list (event A) -> state -> Prop :=
| ex_nil : exec n [] (init n)
| ex_snoc : forall tr s e s', exec n tr s -> step s e s' -> exec n (tr ++ [e]) s'.
End Model.
