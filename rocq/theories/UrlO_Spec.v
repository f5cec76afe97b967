(** Specification of URL objects as values: a text and a domain, or empty. *)

From Coq Require Import ZArith List Bool.
From Verif Require Import Base.
Import ListNotations.
Local Open Scope Z_scope.

Definition uval := option (list Z * list Z).
(** the objects; None: destroyed *)
Definition world := list (option uval).

Inductive vop :=
| VNew | VCopy (src : nat) | VAssign (dst src : nat) | VDestroy (i : nat)
| VCreate (i : nat) (r : uval).

Inductive vstep : world -> vop -> world -> Prop :=
| v_new : forall w, vstep w VNew (w ++ [Some None])
| v_copy : forall w src v, nth_error w src = Some (Some v) -> vstep w (VCopy src) (w ++ [Some v])
| v_assign : forall w dst src old v, nth_error w dst = Some (Some old) -> nth_error w src = Some (Some v) ->
    vstep w (VAssign dst src) (upd w dst (Some v))
| v_destroy : forall w i v, nth_error w i = Some (Some v) -> vstep w (VDestroy i) (upd w i None)
| v_create : forall w i r, nth_error w i = Some (Some None) -> vstep w (VCreate i r) (upd w i (Some r))
  (* an object that holds a URL is emptied *)
| v_create_full : forall w i r v, nth_error w i = Some (Some (Some v)) ->
    vstep w (VCreate i r) (upd w i (Some None)).

Inductive vrun : world -> list vop -> world -> Prop :=
| vrun_nil : forall w, vrun w [] w
| vrun_cons : forall w o w1 os w2, vstep w o w1 -> vrun w1 os w2 -> vrun w (o :: os) w2.
