(** When a thread-safe queue may be destroyed. *)

From Coq Require Import ZArith List Bool.
From Verif Require Import Synque_Spec.
Import ListNotations.

Section Spec.
Variable A : Type.

(** the elements that calls of get have returned *)
Definition received (tr : list (event A)) : list A :=
  flat_map (fun e => match e with Return _ (RGet x) => [x] | Return _ (RBatch l) => l | _ => [] end) tr.
(** the elements that calls of add were made with *)
Definition sent (tr : list (event A)) : list A :=
  flat_map (fun e => match e with Call _ (OAdd x) => [x] | _ => [] end) tr.
(** no call of get, size or signal is in progress *)
Definition only_adds_open (tr : list (event A)) : Prop :=
  forall t ph, protocol t tr ph ->
    match ph with
    | PIdle | PCalled (OAdd _) | PDone (OAdd _) _ => True
    | _ => False
    end.
End Spec.
Arguments received {A}. Arguments sent {A}. Arguments only_adds_open {A}.
