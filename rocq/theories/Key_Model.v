(** Shared maps and queues that are named by files: ftok(3) and the table of semaphore sets and
    segments of the kernel, for any number of processes, each with one object.

    One step is one system call, or one locked section's work.  Simplified: connect_sem is one
    step (the race inside it: ShmSys_Model, ShmQC_Model); system calls fail only as stated here;
    of a segment only the size and the first three words are modelled, and of the ring only
    whether a box is stored or taken. *)
From Coq Require Import ZArith List Bool.
From Verif Require Import Base.
Import ListNotations.
Local Open Scope Z_scope.

(** ftok(3) of glibc with the number 1: the file's device and inode number;
    shm_hash_map.tcc:340, 389, shm_queue.tcc:129, 197 *)
Definition ftok (dev ino : Z) : Z :=
  Z.lor (Z.lor (Z.land ino 0xffff) (Z.shiftl (Z.land dev 0xff) 16)) (Z.shiftl (Z.land 1 0xff) 24).

(** shm::hash_map (shm_hash_map.hpp) or shm_queue::queue (shm_queue.hpp) *)
Inductive kind := Map | Queue.
(** a process with an object: the file it connects to, the space it asks shmget for
    (shm_hash_map.tcc:348, shm_queue.tcc:136), and what it expects in the header: objects_num,
    item_size, hash_size (shm_hash_map.tcc:65) or size, box_size (shm_queue.tcc:163) *)
Record user := mkU { u_dev : Z; u_ino : Z; u_kind : kind; u_need : Z; u_a : Z; u_b : Z; u_c : Z }.
(** the key of its file, shm_hash_map.tcc:340, shm_queue.tcc:129 *)
Definition key (u : user) : Z := ftok (u_dev u) (u_ino u).

(** where it is; shm_hash_map.tcc:327-440, 456-524, shm_queue.tcc:118-231, 265-339 *)
Inductive pc :=
| CSem                (* connect_sem *)
| CLock               (* lock_write_rw (hash_map 330), lock_queue (queue 228) *)
| CShm                (* shmget, and the check of the header (queue 163) *)
| CUnlock (ok : bool) (* unlock_write_rw (hash_map 376 and the exceptions), unlock_queue (queue 230) *)
| ALock               (* hash_map 430 *)
| AHdr                (* hash_map 431: attach *)
| AUnlock (ok : bool) (* hash_map 432, 436 *)
| Up                  (* connected, between calls *)
| Reading             (* hash_map, between lock_read_rw and unlock_read_rw *)
| Writing             (* hash_map, between lock_write_rw and unlock_write_rw *)
| FIn                 (* queue, flush 319 *)
| FPost               (* queue, flush 330 *)
| FOut                (* queue, flush 336 *)
| UTake               (* queue, unflush 284: the count has been taken *)
| UIn                 (* queue, unflush 286-291 *)
| UOut                (* queue, unflush 293 *)
| Gone.               (* an exception, or the null pointer of queue 168 *)

(** Not in the code: what can be seen of a step. *)
Inductive what := Tau | Connected | Failed | Stored | Took.

(** Not in the code: what is known under one key: the two semaphores of the set, the size of the
    segment and its first three words; and a process. *)
Record loc := mkL { sems : option (Z * Z); seg : option (Z * (Z * Z * Z)); at_ : pc }.

(** the values after the set was made, shm_hash_map.tcc:402-410, shm_queue.tcc:209-217 *)
Definition fresh (k : kind) : Z * Z := match k with Map => (0, 0) | Queue => (1, 0) end.

(** one step of one process; what a comment names stands in shm_hash_map.tcc (map) or
    shm_queue.tcc (queue) *)
Inductive lstep (u : user) : loc -> what -> loc -> Prop :=
(** map 394-412, queue 202-220: semget *)
| l_sem_new : forall m, lstep u (mkL None m CSem) Tau (mkL (Some (fresh (u_kind u))) m CLock)
| l_sem_old : forall v m, lstep u (mkL (Some v) m CSem) Tau (mkL (Some v) m CLock)
(** map 491-506: wait until both are 0 *)
| l_mlock : forall m, u_kind u = Map -> lstep u (mkL (Some (0, 0)) m CLock) Tau (mkL (Some (0, 1)) m CShm)
(** queue 386-394: wait until the first is positive *)
| l_qlock : forall a b m, u_kind u = Queue -> 0 < a ->
    lstep u (mkL (Some (a, b)) m CLock) Tau (mkL (Some (a - 1, b)) m CShm)
(** map 348-357, 370-373 *)
| l_mshm_new : forall v, u_kind u = Map ->
    lstep u (mkL v None CShm) Tau (mkL v (Some (u_need u, (0, 0, 0))) (CUnlock true))
| l_mshm_old : forall v sz h, u_kind u = Map ->
    lstep u (mkL v (Some (sz, h)) CShm) Tau (mkL v (Some (sz, h)) (CUnlock (u_need u <=? sz)))
(** queue 136-144, 157-162 *)
| l_qshm_new : forall v, u_kind u = Queue ->
    lstep u (mkL v None CShm) Tau (mkL v (Some (u_need u, (u_a u, u_b u, 0))) (CUnlock true))
(** queue 136, 163; the exceptions of 140 and 168 leave the lock taken (simplified: a process
    that dies of the null pointer in 168 would give it back) *)
| l_qshm_old : forall v sz x y z, u_kind u = Queue ->
    lstep u (mkL v (Some (sz, (x, y, z))) CShm)
      (if (u_need u <=? sz) && (x =? u_a u) && (y =? u_b u) then Tau else Failed)
      (mkL v (Some (sz, (x, y, z))) (if (u_need u <=? sz) && (x =? u_a u) && (y =? u_b u) then CUnlock true else Gone))
(** map 510-523: one down *)
| l_munlock : forall a b m ok, u_kind u = Map -> 0 < b ->
    lstep u (mkL (Some (a, b)) m (CUnlock ok)) (if ok then Tau else Failed) (mkL (Some (a, b - 1)) m (if ok then ALock else Gone))
(** queue 396-404 *)
| l_qunlock : forall a b m ok, u_kind u = Queue ->
    lstep u (mkL (Some (a, b)) m (CUnlock ok)) Connected (mkL (Some (a + 1, b)) m Up)
(** map 430-432: attach, 53-69 *)
| l_alock : forall m, u_kind u = Map -> lstep u (mkL (Some (0, 0)) m ALock) Tau (mkL (Some (0, 1)) m AHdr)
| l_ahdr : forall v sz x y z, u_kind u = Map ->
    lstep u (mkL v (Some (sz, (x, y, z))) AHdr) Tau
      (if (x =? 0) && (y =? 0) && (z =? 0) then mkL v (Some (sz, (u_a u, u_b u, u_c u))) (AUnlock true)
       else mkL v (Some (sz, (x, y, z))) (AUnlock ((x =? u_a u) && (y =? u_b u) && (z =? u_c u))))
| l_aunlock : forall a b m ok, u_kind u = Map -> 0 < b ->
    lstep u (mkL (Some (a, b)) m (AUnlock ok)) (if ok then Connected else Failed) (mkL (Some (a, b - 1)) m (if ok then Up else Gone))
(** map 456-474, 476-488: reading *)
| l_rlock : forall a m, u_kind u = Map -> lstep u (mkL (Some (a, 0)) m Up) Tau (mkL (Some (a + 1, 0)) m Reading)
| l_runlock : forall a b m, u_kind u = Map -> 0 < a ->
    lstep u (mkL (Some (a, b)) m Reading) Tau (mkL (Some (a - 1, b)) m Up)
(** map 490-508, 510-523: writing *)
| l_wlock : forall m, u_kind u = Map -> lstep u (mkL (Some (0, 0)) m Up) Tau (mkL (Some (0, 1)) m Writing)
| l_wunlock : forall a b m, u_kind u = Map -> 0 < b ->
    lstep u (mkL (Some (a, b)) m Writing) Tau (mkL (Some (a, b - 1)) m Up)
(** queue 318-336: flush; there is room or not *)
| l_flock : forall a b m, u_kind u = Queue -> 0 < a -> lstep u (mkL (Some (a, b)) m Up) Tau (mkL (Some (a - 1, b)) m FIn)
| l_fstore : forall v m, u_kind u = Queue -> lstep u (mkL v m FIn) Stored (mkL v m FPost)
| l_ffull : forall v m, u_kind u = Queue -> lstep u (mkL v m FIn) Tau (mkL v m FOut)
| l_fpost : forall a b m, u_kind u = Queue -> lstep u (mkL (Some (a, b)) m FPost) Tau (mkL (Some (a, b + 1)) m FOut)
| l_fout : forall a b m, u_kind u = Queue -> lstep u (mkL (Some (a, b)) m FOut) Tau (mkL (Some (a + 1, b)) m Up)
(** queue 269-293: unflush *)
| l_utake : forall a b m, u_kind u = Queue -> 0 < b -> lstep u (mkL (Some (a, b)) m Up) Tau (mkL (Some (a, b - 1)) m UTake)
| l_ulock : forall a b m, u_kind u = Queue -> 0 < a -> lstep u (mkL (Some (a, b)) m UTake) Tau (mkL (Some (a - 1, b)) m UIn)
| l_uget : forall v m, u_kind u = Queue -> lstep u (mkL v m UIn) Took (mkL v m UOut)
| l_uout : forall a b m, u_kind u = Queue -> lstep u (mkL (Some (a, b)) m UOut) Tau (mkL (Some (a + 1, b)) m Up).

(** Not in the code: the tables of the kernel by key, and the processes. *)
Record sys := mkS { t_sem : Z -> option (Z * Z); t_seg : Z -> option (Z * (Z * Z * Z)); ps : list pc }.
(** Not in the code: a table with one entry changed *)
Definition put {B} (f : Z -> option B) (k : Z) (v : option B) : Z -> option B := fun x => if x =? k then v else f x.
(** Not in the code: an event, with the process. *)
Definition event : Type := nat * what.
(** Not in the code: the step of process [i] concerns the entries of its key *)
Inductive step (us : list user) : sys -> event -> sys -> Prop :=
| st : forall s i u p w v' m' p', nth_error us i = Some u -> nth_error (ps s) i = Some p ->
    lstep u (mkL (t_sem s (key u)) (t_seg s (key u)) p) w (mkL v' m' p') ->
    step us s (i, w) (mkS (put (t_sem s) (key u) v') (put (t_seg s) (key u) m') (upd (ps s) i p')).
(** Not in the code: nothing exists yet and nobody is connected *)
Definition init (us : list user) : sys := mkS (fun _ => None) (fun _ => None) (repeat CSem (length us)).
(** Not in the code: executions. *)
Inductive exec (us : list user) : list event -> sys -> Prop :=
| ex_nil : exec us [] (init us)
| ex_snoc : forall tr s e s', exec us tr s -> step us s e s' -> exec us (tr ++ [e]) s'.
