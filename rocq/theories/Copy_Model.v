(** Model of programs with many shm::hash_map and shm_queue::queue objects that are also copied
    and assigned; shm_hash_map.hpp:14-64 and shm_queue.hpp:40-92 declare neither a copy
    constructor nor an assignment, so the compiler makes both, member by member.

    What the methods do to the process is in Life_Model.  Objects are named by the order in
    which they were made; a destroyed object leaves a hole.  An operation on an object that does
    not exist (any more) does nothing here: it is not a program. *)

From Coq Require Import ZArith List Bool.
From Verif Require Import Base Life_Model.
Import ListNotations.
Local Open Scope Z_scope.

(** Not in the code: the operations of a program on its objects; [C]: the calls of methods. *)
Inductive op (C : Type) :=
| ONew                        (* an object is defined *)
| OCopy (j : nat)             (* an object is made as a copy of object j *)
| OAssign (i j : nat)         (* i = j; *)
| OCall (i : nat) (c : C)
| ODestroy (i : nat).
Arguments ONew {C}. Arguments OCopy {C}. Arguments OAssign {C}. Arguments OCall {C}. Arguments ODestroy {C}.

(** Not in the code: the objects of a program. *)
Definition objs (T : Type) := list (option T).
(** Not in the code: object [i], if it exists. *)
Definition obj {T} (s : objs T) (i : nat) : option T := match nth_error s i with Some (Some o) => Some o | _ => None end.
(** Not in the code: object [i] gets a new value. *)
Fixpoint setobj {T} (s : objs T) (i : nat) (o : option T) : objs T :=
  match s, i with
  | [], _ => []
  | _ :: s, O => o :: s
  | x :: s, S i => x :: setobj s i o
  end.

(** Not in the code: one operation, given the constructor, the methods and the destructor.  The
    copy constructor and the assignment copy every member. *)
Definition do_op {C T} (new : T) (call : C -> T -> prog (T * bool)) (destroy : T -> prog T)
    (a : op C) (s : objs T) : prog (objs T) :=
  match a with
  | ONew => Ret (s ++ [Some new])
  | OCopy j => match obj s j with Some o => Ret (s ++ [Some o]) | None => Ret s end
  | OAssign i j =>
      match obj s i, obj s j with Some _, Some o => Ret (setobj s i (Some o)) | _, _ => Ret s end
  | OCall i c =>
      match obj s i with
      | Some o => '(o, b) <~ call c o ;; Ret (setobj s i (Some o))
      | None => Ret s
      end
  | ODestroy i =>
      match obj s i with
      | Some o => _ <~ destroy o ;; Ret (setobj s i None)
      | None => Ret s
      end
  end.

(** operations on maps; members of shm_hash_map.hpp:17-18 and 56-65, methods 27-47 *)
Definition map_op : op mcall -> objs map -> prog (objs map) := do_op map_new m_call m_destroy.

(** put and get work on the buffer of the queue, flush and unflush on the buffer and the segment;
    shm_queue.tcc:250-340 *)
Inductive qucall := QU (c : qcall) | QItem.
(** put and get as far as the object is concerned: without room in the buffer (none when there is
    no buffer) they do what flush and unflush do, which is QU QUse; with room they use only the
    buffer, shm_queue.tcc:57-97, 250-262, 302-312 *)
Definition qu_call (c : qucall) (o : queue) : prog (queue * bool) :=
  match c with
  | QU c => q_call c o
  | QItem => Ret (o, negb (q_ptr o =? 0))
  end.
(** operations on queues; members of shm_queue.hpp:43-45 and 62-71, methods 79-95 *)
Definition queue_op : op qucall -> objs queue -> prog (objs queue) := do_op queue_new qu_call q_destroy.

(** Not in the code: one operation after the other. *)
Fixpoint do_ops {C T} (one : op C -> objs T -> prog (objs T)) (ops : list (op C)) (s : objs T) : prog (objs T) :=
  match ops with
  | [] => Ret s
  | a :: ops => s <~ one a s ;; do_ops one ops s
  end.
