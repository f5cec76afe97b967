(** What the callers of the system functions rely on. *)

From Coq Require Import ZArith List Bool.
From Verif Require Import Base Fd_Model.
Import ListNotations.
Local Open Scope Z_scope.

(** the same descriptors are open, for the same objects *)
Definition same_fds (s s' : os) : Prop := forall i, tab s' i = tab s i.
(** [fd] has been opened for [o] and nothing else changed *)
Definition opened (s s' : os) (fd : Z) (o : obj) : Prop :=
  0 <= fd /\ tab s fd = None /\ tab s' fd = Some o /\ forall i, i <> fd -> tab s' i = tab s i.

(** the directories above a path: what precedes each slash but a leading one *)
Definition parent (path d : list Z) : Prop := exists rest, path = d ++ 47 :: rest /\ d <> [].
(** in order of length *)
Fixpoint parents_from (pre rest : list Z) : list (list Z) :=
  match rest with
  | [] => []
  | c :: t => if c =? 47 then pre :: parents_from (pre ++ [c]) t else parents_from (pre ++ [c]) t
  end.
Definition parents (path : list Z) : list (list Z) :=
  match path with [] => [] | c :: t => parents_from [c] t end.

(** a directory was there or has been made *)
Definition dir_ok (a : ans) : Prop := 0 <= rc a \/ errno a = EEXIST.

(** exactly these calls were made, in this order, and all succeeded *)
Definition did (s s' : os) (calls : list call) : Prop :=
  exists h, hist s' = h ++ hist s /\ map fst (rev h) = calls /\ Forall (fun x => 0 <= snd x) h.
