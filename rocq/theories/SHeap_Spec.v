(** What owning memory means, and histories of calls on a storage with a heap. *)

From Coq Require Import ZArith List Bool Permutation.
From Verif Require Import Base SStore_Model SStore_Spec SHeap_Model.
Import ListNotations.
Local Open Scope nat_scope.

(** The heap [h] has exactly the blocks [M] allocated, each once. *)
Definition holds (h : heap) (M : list nat) : Prop :=
  NoDup M /\ Permutation (h_live h) M /\ Forall (fun p => p < h_next h) M.

(** A history on a storage: as [exec] of SStore_Spec, with memory requests answered
    by [ok]. *)
Definition aexec_op (mv ok : nat -> bool) (st : astorage * log) (o : op) : res (astorage * log) :=
  let (st, lg) := st in
  match o with
  | OAdd k => '(st, p) <- aadd mv ok st (cstr k) ;; Ok (st, lg ++ [(k, p)])
  | OWrite i d =>
      match nth_error lg i with
      | Some (_, Some p) =>
          '(sb, _) <- user_write (b_sb (st_b st), erase (st_r st)) p d ;;
          Ok (mkAs (st_h st) (mkAb sb (b_arr (st_b st)) (b_ids (st_b st))) (st_r st), lg)
      | _ => Ok (st, lg)
      end
  end.
Fixpoint aexec (mv ok : nat -> bool) (st : astorage * log) (ops : list op) : res (astorage * log) :=
  match ops with
  | [] => Ok st
  | o :: ops => st <- aexec_op mv ok st o ;; aexec mv ok st ops
  end.
Definition aplay (mv ok : nat -> bool) (uds : nat) (h : heap) (ops : list op)
  : res (astorage * log) := aexec mv ok (ainit uds h, []) ops.

(** every add returned a slot, except for keys too long to store *)
Definition all_stored (uds : nat) (lg : log) : Prop :=
  forall k, In (k, None) lg -> 4096 < length k + 1 + uds.
