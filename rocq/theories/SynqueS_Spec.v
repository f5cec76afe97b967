(** When serving threads are to stop: elements that mean stop. *)
From Coq Require Import List Bool.
From Verif Require Import Synque_Spec Synque_Model.
Import ListNotations.

Section Spec.
Variable A : Type.
Variable stop : A -> bool.                     (* the elements that mean stop *)
Variable workers : list nat.                   (* the threads that serve *)

(** a thread was given an element that means stop *)
Definition told (t : nat) (tr : list (event A)) : Prop := exists x, In (Return t (RGet x)) tr /\ stop x = true.
(** serving threads only get, one element at a time, until they are told to stop; the others do
    not get *)
Definition serving (tr : list (event A)) : Prop :=
  forall tr1 t o tr2, tr = tr1 ++ Call t o :: tr2 ->
    (In t workers -> (exists w, o = OGet w) /\ ~ told t tr1) /\
    (~ In t workers -> match o with OGet _ | OBatch _ _ => False | _ => True end).
(** nothing moves any more: every thread sleeps or is outside; a serving thread that is outside
    would call again, unless it was told to stop *)
Definition at_rest (tr : list (event A)) (s : state A) : Prop :=
  forall t p, nth_error (pcs A s) t = Some p ->
    (exists g w, p = GetSleep A g w) \/ (p = Idle A /\ (In t workers -> told t tr)).
End Spec.
