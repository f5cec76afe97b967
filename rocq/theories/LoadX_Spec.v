(** What is in an object when loading it was cut off by an exception. *)

From Coq Require Import ZArith List Bool.
From Verif Require Import Base Txml_Model Txml_Spec Load_Model Load_Spec.
Import ListNotations.

(** [mid t v w v1]: [w] is a stage on the way from [v] to [v1]: nothing is stored yet, or
    everything; of an object, the members before the one being stored are finished and those
    after it are as they were; of a list, only the last item is on its way, and if it is a
    new one it started from the default *)
Inductive mid : ty -> val -> val -> val -> Prop :=
| mid_old : forall t v v1, mid t v v v1
| mid_new : forall t v v1, mid t v v1 v1
| mid_member : forall ms1 key t ms2 vs1 ws1 v w v1 vs2 ws2, mid t v w v1 ->
    length vs1 = length ms1 -> length ws1 = length ms1 -> length ws2 = length vs2 ->
    mid (TObj (ms1 ++ (key, t) :: ms2)) (VObj (vs1 ++ v :: vs2)) (VObj (ws1 ++ w :: vs2)) (VObj (ws1 ++ v1 :: ws2))
| mid_last : forall t d l v w v1, mid t v w v1 ->
    mid (TList t d) (VList (l ++ [v])) (VList (l ++ [w])) (VList (l ++ [v1]))
| mid_item : forall t d l w v1, mid t d w v1 ->
    mid (TList t d) (VList l) (VList (l ++ [w])) (VList (l ++ [v1])).

(** the moments at which the members are gone through, in a load without exceptions of the
    events [evs] from [s]: for an attribute, after the attributes, at the end of an element *)
Inductive moment (t : ty) (evs : list event) (s : st) : st -> Prop :=
| mo_attr : forall evs1 name a1 k a a2 rest s1 s2, evs = evs1 ++ Beg name (a1 ++ (k, a) :: a2) :: rest ->
    handle t evs1 s = Ok s1 -> attributes t a1 (push s1 name) = Ok s2 ->
    moment t evs s (mkSt (lvs (push s2 k)) a (root s2))
| mo_begin : forall evs1 name attrs rest s1 s2, evs = evs1 ++ Beg name attrs :: rest ->
    handle t evs1 s = Ok s1 -> attributes t attrs (push s1 name) = Ok s2 ->
    moment t evs s (mkSt (lvs (push s2 [])) [] (root s2))
| mo_end : forall evs1 rest s1, evs = evs1 ++ End :: rest -> handle t evs1 s = Ok s1 -> moment t evs s s1.

(** what can be found after an exception: the object as it is between two events, or on its
    way from one moment to what storing the members makes of it *)
Definition cut_off (t : ty) (evs : list event) (s : st) (w : val) : Prop :=
  (exists evs1 rest s1, evs = evs1 ++ rest /\ handle t evs1 s = Ok s1 /\ w = root s1) \/
  (exists m m1, moment t evs s m /\ determine t m = Ok m1 /\ mid t (root m) w (root m1)).

(** no place throws *)
Definition calm (thr : nat -> bool) : Prop := forall n, thr n = false.
