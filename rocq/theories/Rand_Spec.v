(** What callers of coda_random_init may expect. *)
From Coq Require Import ZArith List Bool.
From Verif Require Import Base Rand_Model.
Import ListNotations.
Local Open Scope Z_scope.

Definition is_seed (e : rnd_ev) : bool := match e with Seed _ _ => true | _ => false end.
Definition is_ok (e : rnd_ev) : bool := match e with Ret _ 0 => true | _ => false end.
Definition seeds (tr : list rnd_ev) : nat := length (filter is_seed tr).

(** thread [i] is inside a call *)
Definition inside (i : nat) (tr : list rnd_ev) : bool :=
  fold_left (fun b e => match e with
                        | Call k => if (k =? i)%nat then true else b
                        | Ret k _ => if (k =? i)%nat then false else b
                        | _ => b
                        end) tr false.

(** no call begins while another one is running *)
Inductive one_at_a_time : list rnd_ev -> Prop :=
| oa_nil : one_at_a_time []
| oa_snoc : forall tr e, one_at_a_time tr ->
    (forall i, e = Call i -> forall k, inside k tr = false) -> one_at_a_time (tr ++ [e]).

(** every byte of the seed came from the device *)
Definition whole_seed (s : list (option Z)) : Prop := length s = 4%nat /\ ~ In None s.
