(** Why a waiting get of the thread-safe queue returned -1. *)
From Coq Require Import ZArith List Bool.
From Verif Require Import Synque_Spec.
Import ListNotations.

(** a get that may wait *)
Definition waiting {A} (o : op A) : Prop := o = OGet true \/ exists max, o = OBatch max true.
(** a thread other than [t] took elements *)
Definition taken {A} (t : nat) (b : list (event A)) : Prop :=
  exists v, v <> t /\ ((exists w x, In (Effect v (OGet w) (RGet x)) b) \/
                       (exists max w l, In (Effect v (OBatch max w) (RBatch l)) b /\ l <> [])).
(** [b]: what happened between the call and the failure.  The thread woke up by itself, or
    signal() was called, or something was added and another thread took it afterwards. *)
Definition excuse {A} (t : nat) (b : list (event A)) : Prop :=
  In (Wake t) b \/ (exists u, In (Effect u OSignal RUnit) b) \/
  exists u x b1 b2, b = b1 ++ Effect u (OAdd x) RUnit :: b2 /\ taken t b2.
