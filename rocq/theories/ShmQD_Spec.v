(** What the death of a process between lock and unlock may do to the shared queue. *)

From Coq Require Import ZArith List Bool.
From Verif Require Import Base Shm_Model ShmQ_Spec ShmQ_Model ShmQSys_Spec.
Import ListNotations.
Local Open Scope Z_scope.

(** a history: calls that returned, and calls whose process died inside *)
Inductive cop := CDone (o : qop) (r : qret) | CDied (o : qop).

(** What a call may have done when its process dies: nothing, everything, or, for an unflush,
    the first [k] bytes of the oldest box are zero. *)
Definition died (sz : Z) (q : qst) (o : qop) (q' : qst) : Prop :=
  q' = q \/ (exists r, qspec sz q o = Some (r, q')) \/
  (o = QUnflush /\ exists b l k, q_boxes q = b :: l /\ (k <= length b)%nat /\
     q' = mkQ ((repeat 0 k ++ skipn k b) :: l) (q_regs q)).

Inductive cruns (sz : Z) : qst -> list cop -> qst -> Prop :=
| cr_nil : forall q, cruns sz q [] q
| cr_done : forall q h q1 o r q2, cruns sz q h q1 -> qspec sz q1 o = Some (r, q2) ->
    cruns sz q (h ++ [CDone o r]) q2
| cr_died : forall q h q1 o q2, cruns sz q h q1 -> died sz q1 o q2 ->
    cruns sz q (h ++ [CDied o]) q2.

(** the call process [i] has made last *)
Fixpoint called (i : nat) (tr : list event) (acc : option qop) : option qop :=
  match tr with
  | [] => acc
  | ECall j o :: tr => called i tr (if (j =? i)%nat then Some o else acc)
  | _ :: tr => called i tr acc
  end.

(** events that are no part of a history *)
Definition silent (e : event) : bool :=
  match e with EDone _ _ _ => false | EDie _ b => negb b | _ => true end.

(** the history of a trace *)
Inductive hist : list event -> list cop -> Prop :=
| h_nil : hist [] []
| h_done : forall tr h i o r, hist tr h -> hist (tr ++ [EDone i o r]) (h ++ [CDone o r])
| h_died : forall tr h i o, hist tr h -> called i tr None = Some o ->
    hist (tr ++ [EDie i true]) (h ++ [CDied o])
| h_other : forall tr h e, hist tr h -> silent e = true -> hist (tr ++ [e]) h.

(** both indices in the header of the segment are numbers of boxes *)
Definition in_range (sz : Z) (m : mem) : Prop := m a_start < sz /\ m a_end < sz.

(** Executions without interrupted locks in which no process dies between the two assignments
    to an index that take it from the last box to the first. *)
Inductive dexec (sz : Z) (n k : nat) (m0 : mem) : list event -> sys -> Prop :=
| dexec_nil : dexec sz n k m0 [] (init k m0)
| dexec_snoc : forall tr s e s', dexec sz n k m0 tr s -> step (seg_size n sz) n s e s' ->
    is_intr e = false -> (is_inner_death e = true -> in_range sz (sm s)) ->
    dexec sz n k m0 (tr ++ [e]) s'.

(** the first bytes of a box replaced by zeros *)
Inductive zeroed : list Z -> list Z -> Prop :=
| z_stop : forall b, zeroed b b
| z_zero : forall x b b', zeroed b b' -> zeroed (x :: b) (0 :: b').

(** the boxes that came in: those of the flushes that reported success, and any of those
    whose process died in flush *)
Inductive came : list cop -> list (list Z) -> Prop :=
| ca_nil : came [] []
| ca_done : forall h ws b, came h ws -> came (h ++ [CDone (QFlush b) (QStored true)]) (ws ++ [b])
| ca_died : forall h ws b, came h ws -> came (h ++ [CDied (QFlush b)]) (ws ++ [b])
| ca_skip : forall h ws c, came h ws -> (forall b, c <> CDone (QFlush b) (QStored true)) -> came (h ++ [c]) ws.

(** the boxes that went out: those delivered, and one, seen by nobody, for any of the readers
    that died *)
Inductive went : list cop -> list (option (list Z)) -> Prop :=
| we_nil : went [] []
| we_done : forall h rs b, went h rs -> went (h ++ [CDone QUnflush (QBox b)]) (rs ++ [Some b])
| we_died : forall h rs, went h rs -> went (h ++ [CDied QUnflush]) (rs ++ [None])
| we_skip : forall h rs c, went h rs -> (forall b, c <> CDone QUnflush (QBox b)) -> went (h ++ [c]) rs.

Definition arrives (w : list Z) (r : option (list Z)) : Prop :=
  match r with Some b => zeroed w b | None => True end.
