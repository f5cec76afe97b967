(** Properties C112 and C115: the results for all messages and values. *)

From Coq Require Import ZArith List Lia.
From Verif Require Import Base Cap_Model Cap_Spec Log_Model Log_Spec Log_Proof Log_Props.
Import ListNotations.
Local Open Scope Z_scope.

(** C112.  For all lengths: what() of coda_errno is the first 4095 bytes of the message followed by
    the number and the text of the error; so all of it is there exactly if it has at most 4095. *)
Theorem C112_errno_exact : forall text err strerr, ~ In 0 text -> ~ In 0 strerr -> - 2 ^ 31 <= err < 2 ^ 31 ->
  exists d, decimal err d /\
    let full := text ++ zs " (" ++ d ++ zs ": " ++ strerr ++ zs ")" in
    c_string (coda_errno text err strerr) = Ok (firstn 4095 full) /\
    (c_string (coda_errno text err strerr) = Ok full <-> (length full <= 4095)%nat).
Proof.
  intros text err strerr H1 H2 H3. destruct (fmt_d_ok err H3) as [D L]. exists (fmt_d err). split; [exact D|]. cbv zeta.
  assert (E : c_string (coda_errno text err strerr) = Ok (firstn 4095 (text ++ zs " (" ++ fmt_d err ++ zs ": " ++ strerr ++ zs ")"))).
  { unfold coda_errno. rewrite (proj1 (C112_what _)). rewrite upto_nul_id; [reflexivity|].
    assert (ND : ~ In 0 (fmt_d err)).
    { destruct D as (m & -> & _ & F & _). rewrite Forall_forall in F. intros X.
      assert (Y : In 0 m) by (destruct (err <? 0); [destruct X as [X|X]; [discriminate|exact X]|exact X]). apply F in Y. lia. }
    unfold errno_suffix. intros X. rewrite !in_app_iff in X. cbn in X. intuition discriminate. }
  split; [exact E|]. rewrite E. set (full := text ++ _). split.
  - assert (Inj : forall a b : list Z, Ok a = Ok b -> a = b) by (intros a b Z; injection Z; auto).
    intros X. apply Inj in X. pose proof (firstn_le_length 4095 full) as Y. rewrite X in Y. exact Y.
  - intros X. rewrite firstn_all2 by exact X. reflexivity.
Qed.
Print Assumptions C112_errno_exact.

Example C112_exact_ex : c_string (coda_errno (zs "open") 2 (zs "No such file")) = Ok (zs "open (2: No such file)").
Proof. vm_compute. reflexivity. Qed.

(** C115.  The estimate of a vector misses exactly what its elements own. *)
Theorem C115_missing : forall cap s elems, sane (Vec cap s elems) ->
  held (Vec cap s elems) - estimate (Vec cap s elems) = fold_right Z.add 0 (map owned elems).
Proof.
  intros cap s elems (S1 & S2 & S3 & _). unfold held. cbn [estimate size_of owned].
  rewrite Z.mod_small; [lia|]. nia.
Qed.
Print Assumptions C115_missing.

Example C115_missing_ex : sane (Vec 1 32 [Str 100 1]) /\
  held (Vec 1 32 [Str 100 1]) - estimate (Vec 1 32 [Str 100 1]) = 101.
Proof. split; [|reflexivity]. cbn [sane length map fold_right]. cbn. repeat split; try lia. constructor; [reflexivity|constructor]. Qed.
