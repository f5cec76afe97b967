(** Well-founded progress of a list of processes. *)

From Coq Require Import List.
From Verif Require Import Base.
Import ListNotations.

(** *** a list one element of which goes down *)
Inductive one {T} (L : T -> T -> Prop) : list T -> list T -> Prop :=
| one_here : forall x' x l, L x' x -> one L (x' :: l) (x :: l)
| one_there : forall x l' l, one L l' l -> one L (x :: l') (x :: l).
Lemma one_upd : forall T (L : T -> T -> Prop) l i x x', nth_error l i = Some x -> L x' x -> one L (upd l i x') l.
Proof.
  intros T L. induction l as [|y l IH]; intros [|i] x x' E H; try discriminate E.
  - injection E as ->. constructor. exact H.
  - cbn. constructor 2. eapply IH; eauto.
Qed.
Lemma acc_one : forall T (L : T -> T -> Prop), (forall x, Acc L x) -> forall l, Acc (one L) l.
Proof.
  intros T L W. induction l as [|x l IH].
  - constructor. intros l' H. inversion H.
  - revert l IH. induction (W x) as [x _ IHx]. intros l IH. induction IH as [l A IHl].
    constructor. intros l' H. inversion H; subst.
    + apply IHx; [assumption|]. constructor. exact A.
    + apply IHl. assumption.
Qed.
