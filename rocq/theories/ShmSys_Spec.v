(** What the reader/writer lock of the shared hash map should guarantee. *)

From Coq Require Import ZArith List Bool.
From Verif Require Import Base Shm_Spec Shm_Model ShmSys_Model.
Import ListNotations.
Local Open Scope Z_scope.

Section Spec.
Variable R : Type.
Variable lim : Z.

(** process [i] is inside a section *)
Definition inside (s : sys R) (i : nat) (g : mode) : Prop :=
  exists b0 b u, nth_error (s_procs R s) i = Some (mkProc (Inside g b0 b) u).

(** a writer is alone *)
Definition exclusive (s : sys R) : Prop :=
  forall i j g, inside s i Wr -> inside s j g -> i = j.

(** a body that stores nothing *)
Fixpoint readonly (p : prog R) : Prop :=
  match p with
  | Load _ _ k => forall v, readonly (k v)
  | Store _ _ _ _ => False
  | _ => True
  end.

(** The sections one after the other, in the order in which they are left: a completed
    section is run alone, uninterrupted, on the memory the previous one left; of a writer
    that died only a first part is run. *)
Inductive serial : mem -> list (event R) -> mem -> Prop :=
| serial_nil : forall m, serial m [] m
| serial_read : forall m i b r tr m', run lim b m = Ok (r, m) -> serial m tr m' ->
    serial m (EDone i Rd b r :: tr) m'
| serial_write : forall m i b r m1 tr m', run lim b m = Ok (r, m1) -> serial m1 tr m' ->
    serial m (EDone i Wr b r :: tr) m'
| serial_died : forall m i b b' m1 tr m', psteps lim b m b' m1 -> serial m1 tr m' ->
    serial m (ECrash i (Some (Wr, b)) :: tr) m'
| serial_other : forall m e tr m',
    (match e with
     | EDone _ _ _ _ => False
     | ECrash _ (Some (Wr, _)) => False
     | _ => True
     end) -> serial m tr m' -> serial m (e :: tr) m'.

End Spec.

(** process [i] is in a write section of connect *)
Definition cinside (s : csys) (i : nat) : Prop :=
  exists p u, nth_error (c_procs s) i = Some (p, u) /\ (p = KShmIn \/ p = KIn).
Definition cexclusive (s : csys) : Prop :=
  forall i j, cinside s i -> cinside s j -> i = j.

(** ** Traces of calls of the map's methods *)

(** an element pushed on a stack has the size of its type *)
Definition swf (s : stack) (o : sop) : Prop :=
  match o with SPush el => length el = s_words s | _ => True end.

(** values have the size of the type *)
Definition mwf (P : tpar) (o : mop) : Prop :=
  match o with
  | MInsert _ v => length v = words P
  | MInsertMany l => Forall (fun e => length (snd e) = words P) l
  | _ => True
  end.

(** the bodies in which a writer may die *)
Definition died_batch (o : mop) : option fmap :=
  match o with
  | MInsert k v => Some [(k, v)]
  | MInsertMany l => Some l
  | _ => None
  end.

(** which completed calls and which deaths of a writer a trace shows *)
Inductive shows (P : tpar) (fuel : nat) : list (event mret) -> list item -> Prop :=
| sh_nil : shows P fuel [] []
| sh_done : forall i o r tr l, mwf P o -> shows P fuel tr l ->
    shows P fuel (EDone i (lock_of o) (api P fuel o) r :: tr) (Did o r :: l)
| sh_died : forall i o b tr l, mwf P o -> died_batch o = Some b -> shows P fuel tr l ->
    shows P fuel (ECrash i (Some (Wr, api P fuel o)) :: tr) (Died b :: l)
| sh_other : forall e tr l,
    (match e with
     | EDone _ _ _ _ => False
     | ECrash _ (Some (Wr, _)) => False
     | _ => True
     end) -> shows P fuel tr l -> shows P fuel (e :: tr) l.

(** the calls of a trace are API calls, and a writer only dies while it inserts *)
Definition api_trace (P : tpar) (fuel : nat) (tr : list (event mret)) : Prop :=
  (forall i g b, In (ECall i g b) tr ->
     exists o, mwf P o /\ g = lock_of o /\ b = api P fuel o)
  /\ (forall i b, In (ECrash i (Some (Wr, b))) tr ->
     exists o l, mwf P o /\ died_batch o = Some l /\ b = api P fuel o).
