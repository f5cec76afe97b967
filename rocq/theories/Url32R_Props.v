(** References relative to any parent, with 32-bit lengths (property C123). *)
From Coq Require Import ZArith List Bool Lia Arith.
From Verif Require Import Base Str_Model Str_Spec UrlP_Model UrlP_Spec UrlP_Proof UrlP_Props UrlR_Spec UrlR_Proof UrlR_Props Url32_Model Url32_Props.
Import ListNotations.
Local Open Scope Z_scope.

Lemma create_relative_agree : forall mem0 this u sz flags parent,
  Z.of_nat (u_len parent) + Z.of_nat sz + 8 < 2 ^ 32 -> Z.of_nat (u_dlen parent) < 2 ^ 32 ->
  create_relative32 (Some mem0) this (Some u) sz flags (Some parent) = create_relative mem0 this (Some u) sz flags (Some parent).
Proof.
  intros mem0 this u sz flags parent Hl Hd. unfold create_relative32, create_relative.
  destruct sz as [|k]; [reflexivity|]. destruct this; [reflexivity|].
  apply bind_ext. intros t1 _. apply bind_ext. intros t2 _. destruct t2.
  - rewrite create_scheme_agree by lia. reflexivity.
  - rewrite create_suburl_agree by lia. reflexivity.
Qed.

(** what C40_outcomes_any_parent says, for the 32-bit object: every parent, also one whose scheme
    is written in capitals.  Missing: sums of the lengths of 2^32 and more. *)
Theorem C123_relative_any_parent_partial : forall mem0 u t flags parent P d,
  Z.of_nat (u_len parent) + Z.of_nat (length t) + 8 < 2 ^ 32 -> Z.of_nat (u_dlen parent) < 2 ^ 32 ->
  rel_readable u t -> t <> [] -> length mem0 = rel_size (length t) parent -> holds parent P d ->
  exists r, create_relative32 (Some mem0) None (Some u) (length t) flags (Some parent) = Ok r /\
    any_outcome flags u t parent P d r.
Proof.
  intros mem0 u t flags parent P d Hl Hd Hr Ht Hm HP.
  destruct (C40_outcomes_any_parent mem0 u t flags parent P d Hr Ht Hm HP) as [r [Er Ho]].
  exists r. split; [|exact Ho]. rewrite <- Er. apply create_relative_agree; [exact Hl|exact Hd].
Qed.
Print Assumptions C123_relative_any_parent_partial.

(** which of these calls are defined: exactly those of C35_create_relative_exact *)
Theorem C123_relative_exact_partial : forall mem0 u t j flags parent,
  Z.of_nat (u_len parent) + Z.of_nat (length t) + 8 < 2 ^ 32 -> Z.of_nat (u_dlen parent) < 2 ^ 32 ->
  u = t ++ j -> t <> [] -> length mem0 = rel_size (length t) parent -> made parent ->
  ((exists r, create_relative32 (Some mem0) None (Some u) (length t) flags (Some parent) = Ok r) <-> rel_readable u t).
Proof.
  intros mem0 u t j flags parent Hl Hd Hu Ht Hm Hmade. rewrite create_relative_agree by assumption.
  exact (C35_create_relative_exact mem0 u t j flags parent Hu Ht Hm Hmade).
Qed.
Print Assumptions C123_relative_exact_partial.

(** a parent whose scheme is written with capitals and the reference "/b": the host is replaced *)
Example C123_ex_capitals : exists parent r,
  create_absolute (repeat 1 40) None (Some (zs "HTTPS://h.x/a" ++ [0])) 13 0 = Ok (0, Some parent) /\
  u_len parent = 13%nat /\ u_dlen parent = 3%nat /\
  create_relative32 (Some (repeat 1 60)) None (Some (zs "/b" ++ repeat 0 9)) 2 0 (Some parent) = Ok (0, Some r) /\
  url_text r = zs "HTTPS://b".
Proof. eexists. eexists. split; [vm_compute; reflexivity|]. split; [reflexivity|]. split; [reflexivity|]. split; vm_compute; reflexivity. Qed.
