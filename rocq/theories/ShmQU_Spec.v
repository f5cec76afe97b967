(** What a caller of unflush may expect of the flags and the timeout it passes. *)
From Coq Require Import ZArith List Bool.
From Verif Require Import Base ShmQ_Spec ShmQ_Model ShmQSys_Spec ShmQU_Model.
Import ListNotations.
Local Open Scope Z_scope.

(** nothing was interrupted, and nobody died *)
Definition calm (tr : list (event * how)) : Prop :=
  forall x, In x tr -> is_intr (fst x) = false /\ is_death (fst x) = false.
(** how many tickets process [i] took with SEM_UNDO *)
Fixpoint flagged (i : nat) (tr : list (event * how)) : Z :=
  match tr with
  | [] => 0
  | (ETau j, Flagged) :: tr => (if (i =? j)%nat then 1 else 0) + flagged i tr
  | _ :: tr => flagged i tr
  end.
Definition claim (p : pc) : Z := if claims p then 1 else 0.
(** what the count should be: a ticket per box that is stored and not promised to anybody;
    [q] is the queue as the completed calls make it *)
Definition owed (s : sys) (q : qst) : Z :=
  Z.of_nat (length (q_boxes q)) + Z.of_nat (count posted (procs s)) - Z.of_nat (count claims (procs s)).
