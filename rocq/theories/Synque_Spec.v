(** Specification of the thread-safe queue: a sequential FIFO queue, and what it means for
    a concurrent history to behave like it. *)

From Coq Require Import ZArith List Bool.
Import ListNotations.

Section Spec.
Variable A : Type.

(** the calls and their results *)
Inductive op :=
| OAdd (x : A)                          (* add(x) *)
| OSignal                               (* signal() *)
| OGet (canwait : bool)                 (* get(e, canwait) *)
| OBatch (max : Z) (canwait : bool)     (* get(out, max_count, canwait) *)
| OSize.                                (* size() *)
Inductive ret :=
| RUnit
| RFail                                 (* -1 *)
| RGet (x : A)                          (* 0, e = x *)
| RBatch (l : list A)                   (* 0, l appended to out *)
| RSize (n : nat).

(** number of elements a batch takes from a queue of [n] *)
Definition batch_count (max : Z) (n : nat) : nat :=
  if (0 <? max)%Z && (max <? Z.of_nat n)%Z then Z.to_nat max else n.

(** one call on the sequential queue, oldest element first *)
Inductive qstep : list A -> op -> ret -> list A -> Prop :=
| q_add : forall q x, qstep q (OAdd x) RUnit (q ++ [x])
| q_signal : forall q, qstep q OSignal RUnit q
| q_get : forall q x w, qstep (x :: q) (OGet w) (RGet x) q
| q_get_empty : forall w, qstep [] (OGet w) RFail []
| q_batch : forall q max w, q <> [] ->
    qstep q (OBatch max w) (RBatch (firstn (batch_count max (length q)) q)) (skipn (batch_count max (length q)) q)
| q_batch_empty : forall max w, qstep [] (OBatch max w) RFail []
| q_size : forall q, qstep q OSize (RSize (length q)) q.

Inductive qrun : list A -> list (op * ret) -> list A -> Prop :=
| qrun_nil : forall q, qrun q [] q
| qrun_snoc : forall q l q1 o r q2, qrun q l q1 -> qstep q1 o r q2 -> qrun q (l ++ [(o, r)]) q2.

(** events of a concurrent history: a thread calls, the call takes effect, it returns;
    [Wake] is a wake-up without a signal, [Tau] a step that cannot be observed *)
Inductive event :=
| Call (t : nat) (o : op)
| Effect (t : nat) (o : op) (r : ret)
| Return (t : nat) (r : ret)
| Wake (t : nat)
| Tau (t : nat).

Definition effects (tr : list event) : list (op * ret) :=
  flat_map (fun e => match e with Effect _ o r => [(o, r)] | _ => [] end) tr.

(** each thread calls, the call takes effect once, and it returns with that result *)
Inductive phase := PIdle | PCalled (o : op) | PDone (o : op) (r : ret).
Inductive protocol (t : nat) : list event -> phase -> Prop :=
| pr_nil : protocol t [] PIdle
| pr_call : forall tr o, protocol t tr PIdle -> protocol t (tr ++ [Call t o]) (PCalled o)
| pr_effect : forall tr o r, protocol t tr (PCalled o) -> protocol t (tr ++ [Effect t o r]) (PDone o r)
| pr_return : forall tr o r, protocol t tr (PDone o r) -> protocol t (tr ++ [Return t r]) PIdle
| pr_other : forall tr e p, protocol t tr p ->
    match e with Call t' _ | Effect t' _ _ | Return t' _ => t' <> t | Wake _ | Tau _ => True end ->
    protocol t (tr ++ [e]) p.

(** the elements added and those handed out, in the order of the effects *)
Definition added (l : list (op * ret)) : list A :=
  flat_map (fun p => match p with (OAdd x, _) => [x] | _ => [] end) l.
Definition taken (l : list (op * ret)) : list A :=
  flat_map (fun p => match p with (_, RGet x) => [x] | (_, RBatch xs) => xs | _ => [] end) l.
End Spec.
Arguments OAdd {A}. Arguments OSignal {A}. Arguments OGet {A}. Arguments OBatch {A}. Arguments OSize {A}.
Arguments RUnit {A}. Arguments RFail {A}. Arguments RGet {A}. Arguments RBatch {A}. Arguments RSize {A}.
Arguments Call {A}. Arguments Effect {A}. Arguments Return {A}. Arguments Wake {A}. Arguments Tau {A}.
Arguments PIdle {A}. Arguments PCalled {A}. Arguments PDone {A}.
Arguments qstep {A}. Arguments qrun {A}. Arguments effects {A}. Arguments protocol {A}.
Arguments added {A}. Arguments taken {A}.
