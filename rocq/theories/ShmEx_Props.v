(** A concrete process that dies inside insert (property C81): the hypotheses of
    C81_insert_survives_crash, and what the survivors see. *)
From Coq Require Import ZArith List Bool Lia.
From Verif Require Import Base Shm_Model Shm_Spec Shm_Proof ShmSys_Spec Shm_Props.
Import ListNotations.
Local Open Scope Z_scope.

Definition ins1 := calls (required_space exP) (api exP 5) [MAttach; MInsert 4 [10]] (cells 0 []).
(** the process has taken a node off the free stack and has not yet linked it *)
Definition ins2 := runn (required_space exP) 9 (api exP 5 (MInsert 6 [20])) (mem_after ins1).
Definition ins3 := calls (required_space exP) (api exP 5)
  [MRead 4; MRead 6; MInsert 8 [40]; MInsert 9 [50]; MRead 8; MRead 9; MIterate] (mem_cut ins2).
Example C81_ex : fits exP /\ died_batch (MInsert 6 [20]) = Some [(6, [20])] /\
  ins1 = Ok ([MBool true; MBool true], mem_after ins1) /\
  psteps (required_space exP) (api exP 5 (MInsert 6 [20])) (mem_after ins1) (prog_cut (MBool false) ins2) (mem_cut ins2) /\
  (* the key 4 is kept, 6 is not there, and of three places one is lost *)
  res_of ins3 = Ok [MVal (Some [10]); MVal None; MBool true; MBool false; MVal (Some [40]); MVal None; MList [(4, [10]); (8, [40])]].
Proof.
  split; [exact ex_fits|]. split; [reflexivity|]. split; [apply (ok_after _ []); vm_compute; reflexivity|].
  split; [apply runn_cut; vm_compute; reflexivity|]. vm_compute. reflexivity.
Qed.
