(** What the shared-memory queue should do. *)

From Coq Require Import ZArith List Bool.
Import ListNotations.
Local Open Scope Z_scope.

(** ** A bounded FIFO of boxes and twelve registers *)
Record qst := mkQ { q_boxes : list (list Z); q_regs : list Z }.

(** flush of a box, unflush that gets one, the registers *)
Inductive qop := QFlush (b : list Z) | QUnflush | QSetReg (o v : Z) | QGetReg (o : Z).
(** flush does not tell its caller whether the box was stored; [QStored] says it *)
Inductive qret := QStored (b : bool) | QBox (b : list Z) | QNum (v : Z) | QUnit.

Fixpoint set_nth (l : list Z) (i : nat) (v : Z) : list Z :=
  match l, i with
  | [], _ => []
  | _ :: l, O => v :: l
  | x :: l, S i => x :: set_nth l i v
  end.

(** a queue of [sz] boxes holds at most [sz - 1] *)
Definition qspec (sz : Z) (s : qst) (o : qop) : option (qret * qst) :=
  match o with
  | QFlush b => if Z.of_nat (length (q_boxes s)) <? sz - 1
                then Some (QStored true, mkQ (q_boxes s ++ [b]) (q_regs s))
                else Some (QStored false, s)
  | QUnflush => match q_boxes s with
                | [] => None
                | b :: l => Some (QBox b, mkQ l (q_regs s))
                end
  | QSetReg r v => Some (QUnit, if r <? 12 then mkQ (q_boxes s) (set_nth (q_regs s) (Z.to_nat r) v)
                                else s)
  | QGetReg r => Some (QNum (if r <? 12 then nth (Z.to_nat r) (q_regs s) 0 else 0), s)
  end.

Inductive qruns (sz : Z) : qst -> list (qop * qret) -> qst -> Prop :=
| qruns_nil : forall s, qruns sz s [] s
| qruns_snoc : forall s h s1 o r s2, qruns sz s h s1 -> qspec sz s1 o = Some (r, s2) ->
    qruns sz s (h ++ [(o, r)]) s2.

(** the boxes stored and the boxes delivered in a history *)
Fixpoint stored (h : list (qop * qret)) : list (list Z) :=
  match h with
  | [] => []
  | (QFlush b, QStored true) :: h => b :: stored h
  | _ :: h => stored h
  end.
Fixpoint delivered (h : list (qop * qret)) : list (list Z) :=
  match h with
  | [] => []
  | (QUnflush, QBox b) :: h => b :: delivered h
  | _ :: h => delivered h
  end.

(** ** Packing of items into boxes of [n] bytes *)
Section Pack.
Variable T : Type.
Variable enc : T -> list Z.

(** the box that holds the items [c]: their encodings in a row, then zeros *)
Definition packed (n : nat) (c : list T) (b : list Z) : Prop :=
  exists z, b = concat (map enc c) ++ repeat 0 z /\ length b = n.
End Pack.
