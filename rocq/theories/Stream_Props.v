(** Properties of coda_unix_send and coda_unix_recv on a stream. *)

From Coq Require Import ZArith List Bool Lia.
From Verif Require Import Base Util_Model Net_Model Stream_Model.
Import ListNotations.
Local Open Scope Z_scope.

Lemma int_id : forall r, -1 <= r < 2 ^ 31 -> INT r = r.
Proof. intros r H. unfold INT. rewrite Z.mod_small by lia. lia. Qed.

(** *** C153: nothing is lost, doubled or reordered between send and recv *)

Lemma recv_takes_once : forall maxrw n w b answers w' b' rc, maxrw < 2 ^ 31 ->
  krecv maxrw n w b answers w' b' -> unix_recv answers = Ok (rc, []) ->
  (rc = -1 /\ w' = w) \/
  (0 <= rc /\ rc <= Z.of_nat n /\ rc <= Z.of_nat (length w) /\
   b' = firstn (Z.to_nat rc) w /\ w' = skipn (Z.to_nat rc) w).
Proof.
  intros maxrw n w b answers w' b' rc M K. induction K as [w b|w b e answers w' b' K IH|w b r e answers w' b' H1 H2 H3 H4 K IH];
    intros E; cbn [unix_recv] in E.
  - discriminate.
  - rewrite int_id in E by lia. cbn [Z.leb Z.compare] in E.
    destruct (negb (EINTR =? e)).
    + inversion E; subst. left. split; [reflexivity|]. inversion K; subst. reflexivity.
    + exact (IH E).
  - rewrite int_id in E by lia. destruct (Z.leb_spec 0 r); [|lia]. inversion E; subst.
    right. inversion K; subst. auto.
Qed.

(** However the kernel splits the data and whichever calls are interrupted or fail: what was
    received, what is on its way and what is not yet sent are together the data, in order; the
    receiver has never more than it wants. *)
Theorem C153_stream : forall maxrw want left wire c, maxrw < 2 ^ 31 ->
  crounds maxrw want (mkC left wire []) c ->
  c_got c ++ c_wire c ++ c_left c = wire ++ left /\ (length (c_got c) <= want)%nat.
Proof.
  intros maxrw want left wire c M H. induction H as [|c c' H (IH & L) St]; [split; [reflexivity|cbn; lia]|].
  inversion St as [l w g n r N R|l w g n an w' buf rc N K E]; subst; cbn [c_got c_wire c_left] in *.
  - split; [|exact L]. rewrite <- IH. rewrite <- !app_assoc. do 2 f_equal. unfold unix_send.
    destruct R as [->|(R1 & R2 & R3)].
    + rewrite int_id by lia. reflexivity.
    + rewrite int_id by lia. destruct (Z.ltb_spec r 0); [lia|]. apply firstn_skipn.
  - destruct (recv_takes_once _ _ _ _ _ _ _ _ M K E) as [(-> & ->)|(R1 & R2 & R3 & -> & ->)].
    + cbn [Z.ltb Z.compare]. rewrite app_nil_r. split; [exact IH|exact L].
    + destruct (Z.ltb_spec rc 0); [lia|]. rewrite firstn_firstn, Nat.min_id. split.
      * rewrite <- IH, <- !app_assoc. f_equal. rewrite app_assoc. f_equal. apply firstn_skipn.
      * rewrite app_length, firstn_length. lia.
Qed.
Print Assumptions C153_stream.

(** So messages of known lengths keep their boundaries: a receiver that has as many bytes as the
    first message has this message, and the rest is left for later, on whatever calls. *)
Theorem C153_messages : forall maxrw m rest wire left c, maxrw < 2 ^ 31 -> wire ++ left = m ++ rest ->
  crounds maxrw (length m) (mkC left wire []) c -> length (c_got c) = length m ->
  c_got c = m /\ c_wire c ++ c_left c = rest.
Proof.
  intros maxrw m rest wire left c M Q H L.
  destruct (C153_stream _ _ _ _ _ M H) as (A & _). rewrite Q in A.
  assert (X : forall (a b c d : list Z), length a = length b -> a ++ c = b ++ d -> a = b /\ c = d).
  { clear. induction a as [|x a IH]; intros [|y b] c d E F; try discriminate; [auto|].
    cbn in E, F. inversion F; subst. destruct (IH b c d) as (-> & ->); auto. }
  exact (X _ _ _ _ L A).
Qed.
Print Assumptions C153_messages.

(** Nothing is stuck: while something is left it can be sent, while something is on its way and
    wanted it can be received, a failure at any point changes nothing. *)
Theorem C153_goes_on : forall maxrw want c, 0 < maxrw < 2 ^ 31 ->
  (c_left c <> [] -> exists c', cstep maxrw want c c' /\ (length (c_left c') < length (c_left c))%nat) /\
  (c_wire c <> [] -> (length (c_got c) < want)%nat ->
     exists c', cstep maxrw want c c' /\ (length (c_got c) < length (c_got c'))%nat) /\
  cstep maxrw want c c.
Proof.
  intros maxrw want [left wire got] M. cbn [c_left c_wire c_got]. split; [|split].
  - intros H. destruct left as [|x left]; [congruence|].
    eexists. split; [apply (c_send maxrw want (x :: left) wire got 1 1); [cbn; lia|right; lia]|].
    cbn [c_left]. change (unix_send 1) with 1. change (Z.to_nat 1) with 1%nat. cbn. lia.
  - intros H W. destruct wire as [|x wire]; [congruence|].
    eexists. split; [apply (c_recv maxrw want left (x :: wire) got 1 [(1, 0)] wire [x] 1)|].
    + lia.
    + apply kr_data; cbn [length]; try lia. constructor.
    + reflexivity.
    + cbn [c_got Z.ltb Z.compare]. change (Z.to_nat 1) with 1%nat. rewrite app_length. cbn. lia.
  - pose proof (c_send maxrw want left wire got 0 (-1) (Nat.le_0_l _) (or_introl eq_refl)) as S.
    change (Z.to_nat (-1)) with 0%nat in S. cbn [firstn] in S. rewrite app_nil_r in S. exact S.
Qed.
Print Assumptions C153_goes_on.

(** The bound on what one call transfers is needed: both functions return int.  With a kernel that
    transfers 2^32 bytes at once the sender sends everything again. *)
Theorem C153_huge_transfers : forall data, Z.of_nat (length data) = 2 ^ 32 -> exists c,
  crounds (2 ^ 32) 0 (mkC data [] []) c /\ c_wire c = data /\ c_left c = data.
Proof.
  intros data L.
  assert (F : firstn (Z.to_nat (2 ^ 32)) data = data).
  { rewrite <- L, Nat2Z.id. apply firstn_all. }
  exists (mkC data data []). split; [|split; reflexivity].
  econstructor; [constructor|].
  pose proof (c_send (2 ^ 32) 0 data [] [] (length data) (2 ^ 32) (le_n _)) as S.
  rewrite F in S. apply S. right. rewrite L. lia.
Qed.
Print Assumptions C153_huge_transfers.

(** two messages, sent in pieces that do not fit them, with a failure and an interruption *)
Example C153_ex : exists c,
  crounds 2147479552 3 (mkC [1; 2; 3; 4; 5] [] []) c /\ c_got c = [1; 2; 3] /\ c_wire c = [4] /\ c_left c = [5].
Proof.
  exists (mkC [5] [4] [1; 2; 3]). split; [|repeat split].
  eapply cr_snoc. 2: { apply (c_recv _ 3 [5] [3; 4] [1; 2] 1 [(-1, EINTR); (1, 0)] [4] [3] 1); [cbn; lia| |reflexivity].
    apply kr_fail. apply (kr_data _ 1 [3; 4] [] 1 0 [] [4] [3]); cbn; try lia. constructor. }
  eapply cr_snoc. 2: { apply (c_send _ 3 [5] [3; 4] [1; 2] 1 (-1)); [cbn; lia|left; reflexivity]. }
  eapply cr_snoc. 2: { apply (c_send _ 3 [3; 4; 5] [] [1; 2] 3 2); [cbn; lia|right; lia]. }
  eapply cr_snoc. 2: { apply (c_recv _ 3 [3; 4; 5] [1; 2] [] 3 [(2, 0)] [] [1; 2] 2); [cbn; lia| |reflexivity].
    apply (kr_data _ 3 [1; 2] [] 2 0 [] [] [1; 2]); cbn; try lia. constructor. }
  eapply cr_snoc. 2: { apply (c_send _ 3 [1; 2; 3; 4; 5] [] [] 5 2); [cbn; lia|right; lia]. }
  constructor.
Qed.

(** there is data of 2^32 bytes *)
Example C153_huge_ex : exists data : list Z, Z.of_nat (length data) = 2 ^ 32.
Proof. exists (repeat 0 (Z.to_nat (2 ^ 32))). rewrite repeat_length, Z2Nat.id; [reflexivity|discriminate]. Qed.
