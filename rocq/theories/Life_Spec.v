(** What the calls of Life_Model do to the process. *)

From Coq Require Import ZArith List Bool.
From Verif Require Import Base Life_Model.
Import ListNotations.
Local Open Scope Z_scope.

(** attached segments, blocks of memory, how often the process holds the lock *)
Record world := mkW { w_att : list Z; w_heap : list Z; w_lock : Z }.

Fixpoint remove1 (x : Z) (l : list Z) : list Z :=
  match l with [] => [] | y :: l => if x =? y then l else y :: remove1 x l end.

Definition after (w : world) (c : call) (a : Z) : world :=
  match c with
  | Shmat _ => if a =? -1 then w else mkW (a :: w_att w) (w_heap w) (w_lock w)
  | Shmdt p => if a =? 0 then mkW (remove1 p (w_att w)) (w_heap w) (w_lock w) else w
  | New _ => if a =? 0 then w else mkW (w_att w) (a :: w_heap w) (w_lock w)
  | Delete p => mkW (w_att w) (remove1 p (w_heap w)) (w_lock w)
  | Lock _ => if 0 <=? a then mkW (w_att w) (w_heap w) (w_lock w + 1) else w
  | Unlock _ => if 0 <=? a then mkW (w_att w) (w_heap w) (w_lock w - 1) else w
  | _ => w
  end.
Fixpoint worldof (w0 : world) (l : log) : world :=
  match l with [] => w0 | (c, a) :: l => after (worldof w0 l) c a end.

(** the answers a kernel and an allocator can give *)
Definition possible (w : world) (c : call) (a : Z) : Prop :=
  match c with
  | Ftok | Semget _ | Shmget _ => -1 <= a
  | Setval _ _ => a = 0 \/ a = -1
  | Lock id | Unlock id => (a = 0 /\ id <> -1) \/ a = -1
  | Shmat _ => a = -1 \/ (0 < a /\ ~ In a (w_att w))
  | Shmdt p => (a = 0 /\ In p (w_att w)) \/ (a = -1 /\ ~ In p (w_att w))
  | Attach _ | Header _ => a = 0 \/ a = -1
  | New _ => a = 0 \/ (0 < a /\ ~ In a (w_heap w))
  | Delete _ => a = 0
  end.
Fixpoint sane (w0 : world) (l : log) : Prop :=
  match l with [] => True | (c, a) :: l => possible (worldof w0 l) c a /\ sane w0 l end.

(** every semop on a semaphore set succeeded *)
Fixpoint locks_work (l : log) : Prop :=
  match l with
  | [] => True
  | (Lock id, a) :: l | (Unlock id, a) :: l => (id <> -1 -> a = 0) /\ locks_work l
  | _ :: l => locks_work l
  end.
(** only blocks that are allocated are freed *)
Fixpoint frees_ok (w0 : world) (l : log) : Prop :=
  match l with
  | [] => True
  | (Delete p, _) :: l => In p (w_heap (worldof w0 l)) /\ frees_ok w0 l
  | _ :: l => frees_ok w0 l
  end.
(** the segments attached by the calls of a log *)
Fixpoint ever (l : log) : list Z :=
  match l with
  | [] => []
  | (Shmat _, a) :: l => if a =? -1 then ever l else a :: ever l
  | _ :: l => ever l
  end.
(** no queue was found with another geometry than the one asked for *)
Fixpoint headers_ok (l : log) : Prop :=
  match l with
  | [] => True
  | (Header _, a) :: l => 0 <= a /\ headers_ok l
  | _ :: l => headers_ok l
  end.
