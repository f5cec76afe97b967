(** What a call that ran out of memory may leave in a map or a set. *)

From Coq Require Import ZArith List.
From Verif Require Import Base Url_Spec.
Import ListNotations.
Local Open Scope Z_scope.

(** [old] and [new] tell what a key has before and after.  The fields [pre] are stored; the
    next field may have left its key with an empty value, if the key was not there. *)
Definition stopped_at (d : Z) (segs : list (list Z)) (old new : list Z -> option (list Z)) : Prop :=
  exists pre seg post k v mid, segs = pre ++ seg :: post /\ field d seg k v /\
    (forall x, value_after d pre (old x) x (mid x)) /\
    ((forall x, new x = mid x) \/
     (mid k = None /\ new k = Some [] /\ forall x, x <> k -> new x = mid x)).

(** [new] is [old] and the first elements of [l] *)
Definition first_of {A} (l : list A) (old new : A -> Prop) : Prop :=
  exists pre post, l = pre ++ post /\ post <> [] /\ forall x, new x <-> old x \/ In x pre.
