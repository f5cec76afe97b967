(** What copies of shared objects may touch. *)

From Coq Require Import ZArith List Bool.
From Verif Require Import Base Life_Model Life_Spec Copy_Model.
Import ListNotations.
Local Open Scope Z_scope.

(** A use of a map works on the segment the map points to. *)
Definition map_touch (w : world) (a : op mcall) (s : objs map) : Prop :=
  match a with
  | OCall i MUse => forall o, obj s i = Some o -> m_ptrs o = true -> In (m_mem o) (w_att w)
  | _ => True
  end.
(** flush and unflush work on the segment and on the buffer, put and get on the buffer. *)
Definition queue_touch (w : world) (a : op qucall) (s : objs queue) : Prop :=
  match a with
  | OCall i (QU QUse) => forall o, obj s i = Some o -> q_boxes o <> 0 ->
      In (q_info o) (w_att w) /\ (q_ptr o <> 0 -> In (q_ptr o) (w_heap w))
  | OCall i QItem => forall o, obj s i = Some o -> q_ptr o <> 0 -> In (q_ptr o) (w_heap w)
  | _ => True
  end.

(** Everything a program touches is there when it touches it. *)
Fixpoint touches_ok {C T} (step : op C -> objs T -> prog (objs T)) (touch : world -> op C -> objs T -> Prop)
    (w0 : world) (ans : log -> call -> Z) (ops : list (op C)) (s : objs T) (l : log) : Prop :=
  match ops with
  | [] => True
  | a :: ops => touch (worldof w0 l) a s /\
      match run (step a s) ans l with
      | (Ok s', l') => touches_ok step touch w0 ans ops s' l'
      | _ => True
      end
  end.

(** a queue that holds neither a segment nor a buffer: new, disconnected or never connected *)
Definition idle_queue (o : queue) : Prop := q_ptr o = 0 /\ q_info o = 0.
(** The program copies and assigns only queues that hold nothing; with [strict] it also assigns
    only to queues that hold nothing. *)
Definition op_careful (strict : bool) (a : op qucall) (s : objs queue) : Prop :=
  match a with
  | OCopy j => forall o, obj s j = Some o -> idle_queue o
  | OAssign i j => (forall o, obj s j = Some o -> idle_queue o) /\
                   (strict = true -> forall o, obj s i = Some o -> idle_queue o)
  | _ => True
  end.
Fixpoint careful (strict : bool) (ans : log -> call -> Z) (ops : list (op qucall)) (s : objs queue) (l : log) : Prop :=
  match ops with
  | [] => True
  | a :: ops => op_careful strict a s /\
      match run (queue_op a s) ans l with
      | (Ok s', l') => careful strict ans ops s' l'
      | _ => True
      end
  end.

(** what the objects that exist point to *)
Definition nz (p : Z) : list Z := if p =? 0 then [] else [p].
Definition segments (s : objs queue) : list Z :=
  flat_map (fun x => match x with Some o => nz (q_info o) | None => [] end) s.
Definition buffers (s : objs queue) : list Z :=
  flat_map (fun x => match x with Some o => nz (q_ptr o) | None => [] end) s.
