(** What a walk over a map that changes on the way should do. *)

From Coq Require Import ZArith List Bool Permutation.
From Verif Require Import Shm_Spec.
Import ListNotations.
Local Open Scope Z_scope.

(** [tour act seen s vis s']: a walk that has already seen the keys [seen] in a map that is
    now [s] sees the entries [vis], none of whose keys it saw before, each with the value it
    has in the map at that moment; after each entry the map is changed by [act]; [s'] is
    the map in the end *)
Inductive tour (act : Z -> list Z -> fmap -> fmap) :
  list Z -> fmap -> fmap -> fmap -> Prop :=
| tour_end : forall seen s, tour act seen s [] s
| tour_step : forall seen s k v vis s',
    ~ In k seen -> lookup s k = Some v ->
    tour act (k :: seen) (act k v s) vis s' ->
    tour act seen s ((k, v) :: vis) s'.

(** the entries that [sel] does not select *)
Definition kept (sel : Z -> list Z -> bool) (s : fmap) : fmap :=
  filter (fun e => negb (sel (fst e) (snd e))) s.
