(** What writers and readers of a shared queue may expect of the items they put and get. *)
From Coq Require Import ZArith List Bool.
From Verif Require Import Base ShmQ_Spec ShmQ_Model ShmQSys_Spec ShmQE_Model.
Import ListNotations.
Local Open Scope Z_scope.

Section S.
Variable T : Type.
Notation eev := (eev T).

(** the events of the ring *)
Definition rings (tr : list eev) : list event :=
  flat_map (fun e => match e with Ring _ e => [e] | _ => [] end) tr.
(** the items process [i] has put, and those process [j] has got *)
Definition puts (i : nat) (tr : list eev) : list T :=
  flat_map (fun e => match e with Put _ k x true => if (k =? i)%nat then [x] else [] | _ => [] end) tr.
Definition gets (j : nat) (tr : list eev) : list T :=
  flat_map (fun e => match e with Get _ k _ y true => if (k =? j)%nat then [y] else [] | _ => [] end) tr.
(** the items [i] has put since its last flush *)
Definition unsent (i : nat) (tr : list eev) : list T :=
  fold_left (fun l e => match e with
                        | Put _ k x true => if (k =? i)%nat then l ++ [x] else l
                        | Ring _ (EDone k (QFlush _) _) => if (k =? i)%nat then [] else l
                        | _ => l
                        end) tr [].
(** [j] has received a box and not yet been told that it has no more items *)
Definition opened (j : nat) (tr : list eev) : bool :=
  fold_left (fun o e => match e with
                        | Get _ k _ _ false => if (k =? j)%nat then false else o
                        | Ring _ (EDone k QUnflush _) => if (k =? j)%nat then true else o
                        | _ => o
                        end) tr false.

(** how the processes use the queue: [writer] says who writes; the others read.  A reader goes
    on to the next box when get has returned false, and passes objects no larger than any item. *)
Inductive proper (small : T -> Prop) (writer : nat -> bool) : list eev -> Prop :=
| pr_nil : proper small writer []
| pr_snoc : forall tr e, proper small writer tr ->
    match e with
    | Put _ i _ _ => writer i = true
    | Get _ j h _ _ => writer j = false /\ small h
    | Ring _ (ECall i (QFlush _)) => writer i = true
    | Ring _ (ECall j QUnflush) => writer j = false /\ opened j tr = false
    | _ => True
    end -> proper small writer (tr ++ [e]).

(** a box on its way: who filled it, with what, and what became of it *)
Inductive fate := Refused | Waiting | Read (by_whom : nat).
Record parcel := mkParcel { p_from : nat; p_items : list T; p_fate : fate }.
Definition from (i : nat) (p : parcel) : bool := (p_from p =? i)%nat.
Definition to (j : nat) (p : parcel) : bool := match p_fate p with Read k => (k =? j)%nat | _ => false end.
Definition is_refused (p : parcel) : bool := match p_fate p with Refused => true | _ => false end.
Definition is_waiting (p : parcel) : bool := match p_fate p with Waiting => true | _ => false end.
Definition items (f : parcel -> bool) (l : list parcel) : list T := concat (map p_items (filter f l)).
(** how often a flush found the queue full *)
Definition refusals (h : list (qop * qret)) : nat :=
  length (filter (fun x => match x with (QFlush _, QStored false) => true | _ => false end) h).
(** how often a flush found room, and how often unflush returned *)
Definition stored (h : list (qop * qret)) : nat :=
  length (filter (fun x => match x with (QFlush _, QStored true) => true | _ => false end) h).
Definition taken (h : list (qop * qret)) : nat :=
  length (filter (fun x => match x with (QUnflush, _) => true | _ => false end) h).
(** who flushed, in the order in which the flushes returned, and whether there was room; who
    received a box, in the order of the returns of unflush *)
Definition flushes (l : list event) : list (nat * bool) :=
  flat_map (fun e => match e with EDone i (QFlush _) (QStored ok) => [(i, ok)] | _ => [] end) l.
Definition receivers (l : list event) : list nat :=
  flat_map (fun e => match e with EDone j QUnflush _ => [j] | _ => [] end) l.
Definition reader_of (p : parcel) : list nat := match p_fate p with Read j => [j] | _ => [] end.
(** an item, the process that put it and the process that got it *)
Record delivery := mkDel { d_from : nat; d_to : nat; d_item : T }.
End S.
