(** What log rotation promises. *)
From Coq Require Import ZArith List Bool Arith.
From Verif Require Import Base Rot_Model.
Import ListNotations.
Local Open Scope Z_scope.

(** a process at rest: nobody is in a call, descriptor 2 is open *)
Definition at_rest (s : sys) : Prop := (forall i, thr s i = Out) /\ lck s = None /\ fd s 2 <> None.
(** nobody is in log_create *)
Definition quiet (s : sys) : Prop := forall i, thr s i = Out \/ exists cs, thr s i = Fmt cs.

(** the pieces of all messages, in the order in which fprintf was called *)
Definition said (tr : list ev) : list (list Z) :=
  flat_map (fun e => match e with EMsg _ cs => cs | _ => [] end) tr.
(** the pieces written, in the order of the writes *)
Definition written (tr : list ev) : list (list Z) :=
  flat_map (fun e => match e with EWrite _ _ c => [c] | _ => [] end) tr.
(** the bytes written to one file, in the order of the writes *)
Definition bytes_to (f : nat) (tr : list ev) : list Z :=
  flat_map (fun e => match e with EWrite _ g c => if Nat.eqb g f then c else [] | _ => [] end) tr.
(** what the message that is being written still lacks *)
Definition rest (s : sys) : list (list Z) :=
  match lck s with Some i => match thr s i with Fmt cs => cs | _ => [] end | None => [] end.
(** descriptors and names stand for files that exist *)
Definition sane_files (s : sys) : Prop :=
  (forall d f, fd s d = Some f -> (f < nxt s)%nat) /\ (forall q f, nam s q = Some (File f) -> (f < nxt s)%nat).
(** files made during the execution *)
Definition new_file (s0 : sys) (f : nat) : Prop := (nxt s0 <= f)%nat.

Definition write_fails (e : ev) : Prop := match e with EWrFail _ _ => True | _ => False end.
Definition is_call (e : ev) : Prop := match e with ECall _ _ _ => True | _ => False end.
Definition is_env (e : ev) : Prop := match e with EMove _ _ | ERemove _ => True | _ => False end.
Definition dup_fails (e : ev) : Prop := match e with EDupFail _ _ => True | _ => False end.

(** a text in the memory of a path: at least one character, then the terminator at the end *)
Definition path_text (t : list Z) : Prop := exists q, t = q ++ [0] /\ q <> [] /\ ~ In 0 q.
(** the directories of a path: the part in front of each slash but a leading one *)
Definition dir_of (q d : list Z) : Prop := exists r, q = d ++ 47 :: r /\ d <> [].
(** the text a thread passed to the log_create it is in *)
Definition text_of (tr : list ev) (i : nat) : option nat :=
  fold_left (fun o e => match e with
    | ECall j b _ => if Nat.eqb j i then Some b else o
    | ERet j _ => if Nat.eqb j i then None else o
    | _ => o end) tr None.
(** no two calls that overlap are given the same memory for the path *)
Definition own_texts (tr : list ev) : Prop :=
  forall tr1 tr2 i b lv, tr = tr1 ++ ECall i b lv :: tr2 -> forall j, text_of tr1 j <> Some b.

(** the directories of a path, outermost first: what stands in front of each slash but a leading one *)
Definition dirs_to (q : list Z) (n : nat) : list (list Z) :=
  map (fun p => firstn p q) (filter (fun p => nth p q 0 =? 47) (seq 1 (n - 1))).
Definition dirs (q : list Z) : list (list Z) := dirs_to q (length q).
(** the directories a thread has made, or found, since it called log_create *)
Definition made (tr : list ev) (i : nat) : list (list Z) :=
  fold_left (fun l e => match e with
    | ECall j _ _ => if Nat.eqb j i then [] else l
    | EMkdir j d => if Nat.eqb j i then l ++ [d] else l
    | _ => l end) tr [].
