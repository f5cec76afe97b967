(** Processors that delay stores: the processes of ShmSys_Model (coda/shm_hash_map.tcc) and
    ShmQ_Model (coda/shm_queue.tcc) with a buffer of stores each.

    A store goes to the buffer of its process; a load takes the newest buffered store of its own
    process to that address, and else the memory.  At any time any buffered store may reach the
    memory if no older one to the same address is before it (SPARC PSO; when the stores leave in
    order this is x86-TSO, so all executions of x86 are among these).  semop(2) returns only when
    all stores of the caller have reached the memory: [fence].  The stores of a process that dies
    reach the memory.  Accesses of different width do not overlap in these models. *)

From Coq Require Import ZArith List Bool.
From Verif Require Import Base Shm_Model ShmSys_Model.
From Verif Require ShmQ_Spec ShmQ_Model Synque_Model.
Import ListNotations.
Local Open Scope Z_scope.

(** Not in the code: the stores of one process on their way, the oldest first. *)
Notation buf := (list (Z * Z)).
(** Not in the code: what a process with this buffer sees in the memory. *)
Definition look (b : buf) (m : mem) : mem := fun x =>
  match find (fun e => fst e =? x) (rev b) with Some e => snd e | None => m x end.

Section Map.
Variable R : Type.
Variable lim : Z.
Variable fence : bool.                 (* does semop wait for the stores of the caller? *)

(** Not in the code: the machine of ShmSys_Model with the buffers. *)
Record wsys := mkW { w_sys : sys R; w_bufs : list buf }.

(** Not in the code: which process makes the step. *)
Definition actor (e : event R) : nat :=
  match e with
  | ECall i _ _ | ELock i | EThrow i | EMem i | EDone i _ _ _ | ECrash i _ => i
  end.
(** the steps that do not touch the segment: shm_hash_map.tcc:140-213 without the bodies *)
Definition quiet (e : event R) : bool :=
  match e with ECall _ _ _ | ELock _ | EThrow _ | EDone _ _ _ _ => true | _ => false end.
(** successful calls of semop, shm_hash_map.tcc:470, 484, 504, 518 *)
Definition semop_ok (e : event R) : bool :=
  match e with ELock _ | EDone _ _ _ _ => true | _ => false end.

(** one step; None: a buffered store reaches the memory.  shm_hash_map.tcc:140-213, 459-522 *)
Inductive wstep : wsys -> option (event R) -> wsys -> Prop :=
| WQuiet : forall s e s' bs, step R lim s e s' -> quiet e = true ->
    (fence = true -> semop_ok e = true -> nth_error bs (actor e) = Some []) ->
    wstep (mkW s bs) (Some e) (mkW s' bs)
| WLoad : forall v m ps bs i u g b0 sz a k b, nth_error ps i = Some (mkProc (Inside g b0 (Load sz a k)) u) ->
    nth_error bs i = Some b -> inb lim sz a = true ->
    wstep (mkW (mkSys v m ps) bs) (Some (EMem i))
      (mkW (mkSys v m (upd ps i (mkProc (Inside g b0 (k (look b m a))) u))) bs)
| WStore : forall v m ps bs i u g b0 sz a w k b, nth_error ps i = Some (mkProc (Inside g b0 (Store sz a w k)) u) ->
    nth_error bs i = Some b -> inb lim sz a = true ->
    wstep (mkW (mkSys v m ps) bs) (Some (EMem i))
      (mkW (mkSys v m (upd ps i (mkProc (Inside g b0 k) u))) (upd bs i (b ++ [(a, w)])))
| WDrain : forall v m ps bs i b1 a w b2, nth_error bs i = Some (b1 ++ (a, w) :: b2) -> ~ In a (map fst b1) ->
    wstep (mkW (mkSys v m ps) bs) None (mkW (mkSys v (mset m a w) ps) (upd bs i (b1 ++ b2)))
| WCrash : forall v m ps bs i b w s', nth_error bs i = Some b ->
    step R lim (mkSys v (look b m) ps) (ECrash i w) s' ->
    wstep (mkW (mkSys v m ps) bs) (Some (ECrash i w)) (mkW s' (upd bs i [])).

(** Not in the code: executions and the events seen in them. *)
Inductive wexec (n : nat) (m0 : mem) : list (event R) -> wsys -> Prop :=
| we_nil : wexec n m0 [] (mkW (init R n m0) (repeat [] n))
| we_snoc : forall tr w e w', wexec n m0 tr w -> wstep w (Some e) w' -> wexec n m0 (tr ++ [e]) w'
| we_drain : forall tr w w', wexec n m0 tr w -> wstep w None w' -> wexec n m0 tr w'.
End Map.
Arguments mkW {R} w_sys w_bufs.
Arguments w_sys {R} w.
Arguments w_bufs {R} w.

Section Queue.
Import ShmQ_Spec ShmQ_Model.
Variable lim : Z.
Variable n : nat.

(** Not in the code: the machine of ShmQ_Model with the buffers. *)
Record vsys := mkV { v_sys : ShmQ_Model.sys; v_bufs : list buf }.

(** Not in the code: which process makes the step. *)
Definition qactor (e : ShmQ_Model.event) : nat :=
  match e with
  | ShmQ_Model.ECall i _ | ETau i | EFail i | ECount i _ | ShmQ_Model.EDone i _ _ | EIntr i | EDie i _ => i
  end.
(** a process whose next step is no load or store of the segment; shm_queue.tcc:265-403 *)
Definition no_access (p : ShmQ_Model.pc) : Prop :=
  match p with Body _ _ (Ret _) => True | Body _ _ _ => False | _ => True end.
(** a process whose next step is semop or semtimedop: shm_queue.tcc:279, 330, 392, 402 *)
Definition at_semop (p : ShmQ_Model.pc) : Prop :=
  match p with Ticket | Lock _ | Post _ _ | Unlock _ _ => True | _ => False end.

(** one step; None: a buffered store reaches the memory.  shm_queue.tcc:265-403 *)
Inductive vstep : vsys -> option ShmQ_Model.event -> vsys -> Prop :=
| VQuiet : forall s e s' bs p u, ShmQ_Model.step lim n s e s' ->
    (forall i h, e <> EDie i h) -> nth_error (procs s) (qactor e) = Some (p, u) -> no_access p ->
    (at_semop p -> nth_error bs (qactor e) = Some []) ->
    vstep (mkV s bs) (Some e) (mkV s' bs)
| VLoad : forall l c m ps bs i u o b0 sz a k b, nth_error ps i = Some (Body o b0 (Load sz a k), u) ->
    nth_error bs i = Some b -> inb lim sz a = true ->
    vstep (mkV (mkS l c m ps) bs) (Some (ETau i))
      (mkV (mkS l c m (upd ps i (Body o b0 (k (look b m a)), u))) bs)
| VStore : forall l c m ps bs i u o b0 sz a w k b, nth_error ps i = Some (Body o b0 (Store sz a w k), u) ->
    nth_error bs i = Some b -> inb lim sz a = true ->
    vstep (mkV (mkS l c m ps) bs) (Some (ETau i))
      (mkV (mkS l c m (upd ps i (Body o b0 k, u))) (upd bs i (b ++ [(a, w)])))
| VDrain : forall l c m ps bs i b1 a w b2, nth_error bs i = Some (b1 ++ (a, w) :: b2) -> ~ In a (map fst b1) ->
    vstep (mkV (mkS l c m ps) bs) None (mkV (mkS l c (mset m a w) ps) (upd bs i (b1 ++ b2)))
| VDie : forall l c m ps bs i b h s', nth_error bs i = Some b ->
    ShmQ_Model.step lim n (mkS l c (look b m) ps) (EDie i h) s' ->
    vstep (mkV (mkS l c m ps) bs) (Some (EDie i h)) (mkV s' (upd bs i [])).

(** Not in the code: executions and the events seen in them. *)
Inductive vexec (k : nat) (m0 : mem) : list ShmQ_Model.event -> vsys -> Prop :=
| ve_nil : vexec k m0 [] (mkV (ShmQ_Model.init k m0) (repeat [] k))
| ve_snoc : forall tr w e w', vexec k m0 tr w -> vstep w (Some e) w' -> vexec k m0 (tr ++ [e]) w'
| ve_drain : forall tr w w', vexec k m0 tr w -> vstep w None w' -> vexec k m0 tr w'.
End Queue.

(** the threads of a synque whose next step reads or changes the deque:
    synque.hpp:33, 49, 59, 66, 67, 78, 86, 93, 99, 100, 111 *)
Definition touches {A} (p : Synque_Model.pc A) : bool :=
  match p with
  | Synque_Model.AddPush _ _ | Synque_Model.GetTest _ _ _ | Synque_Model.GetTest2 _ _ _
  | Synque_Model.GetBack _ _ | Synque_Model.GetPop _ _ _ | Synque_Model.BatSize _ _ _
  | Synque_Model.BatBack _ _ _ _ _ _ | Synque_Model.BatPop _ _ _ _ _ _ | Synque_Model.SizeRead _ => true
  | _ => false
  end.
