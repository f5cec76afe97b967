(** Which keys the string storage keeps apart from all others. *)

From Coq Require Import ZArith List Bool.
From Verif Require Import Base SStore_Spec.
Import ListNotations.
Local Open Scope nat_scope.

(** A key is lonely among the keys [S] if it shares at most 8 bytes with every other key, or
    if after the bytes it shares with a key [x] it shares at most 8 with what follows in a
    third key after the bytes that one shares with [x]. *)
Definition lonely (S : list Z -> Prop) (k : list Z) : Prop :=
  forall x y, S x -> S y -> x <> k -> y <> k -> x <> y -> 8 < lcp x k -> 8 < lcp x y ->
    lcp (skipn (lcp x k) k) (skipn (lcp x y) y) <= 8.

(** no two keys share 256 bytes or more *)
Definition under256 (S : list Z -> Prop) : Prop :=
  forall c x, S c -> S x -> c <> x -> lcp c x < 256.
