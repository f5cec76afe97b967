(** Theorems about decoding text where it stands (property C121). *)

From Coq Require Import ZArith List Bool Lia Arith.
From Verif Require Import Base Base64_Model Base64_Spec Base64_Proof Base64_Props B64At_Model.
Import ListNotations.
Local Open Scope Z_scope.

Lemma list_ext : forall A (a b : list A), (forall i, nth_error a i = nth_error b i) -> a = b.
Proof.
  induction a as [|x a IH]; intros [|y b] H; auto; try (specialize (H O); discriminate).
  pose proof (H O) as H0. cbn in H0. injection H0 as ->. f_equal. apply IH. intros i. exact (H (S i)).
Qed.
Lemma nth_skipn : forall A n i (l : list A), nth_error (skipn n l) i = nth_error l (n + i).
Proof. induction n as [|n IH]; intros i [|x l]; cbn [skipn]; cbn; auto; destruct i; auto. Qed.
Lemma nth_firstn : forall A n i (l : list A), nth_error (firstn n l) i = if (i <? n)%nat then nth_error l i else None.
Proof. induction n as [|n IH]; intros [|i] [|x l]; cbn [firstn nth_error]; auto; [now destruct (S i <? S n)%nat|rewrite IH; reflexivity]. Qed.

Section Sim.
  Variable tab : list Z.
  Variable pad : Z.
  Variable m0 : list Z.
  Variables pi po : nat.
  Variable inb : list Z.
  Hypothesis Hin : forall j, (j < length inb)%nat -> rd inb j = rd m0 (pi + j).

  (** the memory is the old one with the first [op] bytes of [out] at [po] *)
  Definition R (m out : list Z) (op : nat) : Prop :=
    length m = length m0 /\ (op <= length out)%nat /\ (po + length out <= length m0)%nat /\
    forall i, nth_error m i = if ((po <=? i) && (i <? po + op))%nat then nth_error out (i - po) else nth_error m0 i.

  Lemma rdR : forall m out op j, R m out op -> (po + op <= pi + j)%nat -> (j < length inb)%nat -> rd m (pi + j) = rd inb j.
  Proof.
    intros m out op j (_ & _ & _ & H) Hi Hj. rewrite Hin by exact Hj. unfold rd. rewrite H.
    destruct (Nat.ltb_spec (pi + j) (po + op)); [lia|]. rewrite andb_false_r. reflexivity.
  Qed.
  Lemma putR : forall m out op ol v, R m out op -> (op + ol <= length out)%nat ->
    exists m' out' op' ol', put out op ol v = Ok (out', op', ol') /\ put m (po + op) ol v = Ok (m', (po + op')%nat, ol') /\
      R m' out' op' /\ (op <= op' <= S op)%nat /\ (op' + ol' = op + ol)%nat /\ length out' = length out.
  Proof.
    intros m out op ol v HR Hc. unfold put. destruct (Nat.eqb_spec ol 0) as [->|Hn].
    - exists m, out, op, O. split; [reflexivity|]. split; [reflexivity|]. split; [exact HR|]. lia.
    - destruct HR as (Hl & Ho & Hb & Hm). rewrite !wr_ok by lia. cbn [bind].
      exists (upd m (po + op) (to_char v)), (upd out op (to_char v)), (S op), (pred ol).
      split; [reflexivity|]. split; [do 3 f_equal; lia|]. rewrite upd_length. split; [|lia].
      split; [rewrite upd_length; lia|]. rewrite upd_length. split; [lia|]. split; [lia|]. intros i.
      destruct (Nat.eq_dec i (po + op)) as [->|Hne].
      + rewrite nth_error_upd_same by lia. destruct (Nat.leb_spec po (po + op)); [|lia]. destruct (Nat.ltb_spec (po + op) (po + S op)); [|lia].
        cbn [andb]. replace (po + op - po)%nat with op by lia. rewrite nth_error_upd_same by lia. reflexivity.
      + rewrite nth_error_upd_other by lia. rewrite Hm.
        destruct (Nat.leb_spec po i); cbn [andb]; [|reflexivity].
        destruct (Nat.ltb_spec i (po + op)); destruct (Nat.ltb_spec i (po + S op)); try lia; [|reflexivity].
        rewrite nth_error_upd_other by lia. reflexivity.
  Qed.

  Ltac rds HR ip := rewrite ?(rdR _ _ _ ip HR), ?(rdR _ _ _ (ip + 1) HR), ?(rdR _ _ _ (ip + 2) HR) by lia.
  Ltac rd3 HR ip := rewrite (rdR _ _ _ (ip + 3) HR) by lia.

  Lemma dec_at_sim : forall fuel m ip inlen out op ol, R m out op -> (ip + inlen <= length inb)%nat ->
    (po + op <= pi + ip)%nat -> (op + ol <= length out)%nat ->
    match dec_loop tab pad fuel inb ip inlen out op ol with
    | Ok (out', ol', r) => exists m' op', dec_at tab pad fuel m (pi + ip) inlen (po + op) ol = Ok (m', ol', r) /\
        R m' out' op' /\ (op' + ol' = op + ol)%nat /\ length out' = length out
    | _ => True
    end.
  Proof.
    induction fuel as [|fuel IH]; intros m ip inlen out op ol HR Hip Hop Hc; cbn [dec_loop dec_at];
      (destruct (Nat.ltb_spec inlen 2) as [Hl|Hl]; [exists m, op; auto|]); [exact I|].
    replace (pi + ip + 1)%nat with (pi + (ip + 1))%nat by lia. replace (pi + ip + 2)%nat with (pi + (ip + 2))%nat by lia.
    replace (pi + ip + 3)%nat with (pi + (ip + 3))%nat by lia. replace (pi + ip + 4)%nat with (pi + (ip + 4))%nat by lia.
    unfold val_at. rewrite ?(rdR _ _ _ ip HR), ?(rdR _ _ _ (ip + 1) HR) by lia.
    destruct (rd inb ip) as [i0| |] eqn:E0; cbn [bind]; [|exact I..].
    destruct (isb tab i0) as [b0| |]; cbn [bind]; [|exact I..]. destruct b0; cbn [negb]; [|exists m, op; auto].
    destruct (rd inb (ip + 1)) as [i1| |] eqn:E1; cbn [bind]; [|exact I..].
    destruct (isb tab i1) as [b1| |]; cbn [bind]; [|exact I..]. destruct b1; cbn [negb]; [|exists m, op; auto].
    destruct (rd tab (Z.to_nat i0)) as [v0| |]; cbn [bind]; [|exact I..].
    destruct (rd tab (Z.to_nat i1)) as [v1| |] eqn:V1; cbn [bind]; [|exact I..].
    destruct (putR _ _ _ _ (Z.lor (Z.shiftl v0 2) (Z.shiftr v1 4)) HR Hc) as (m1 & out1 & op1 & ol1 & P1 & Q1 & HR1 & Ha1 & Hb1 & Hc1).
    rewrite P1, Q1. cbn [bind]. destruct (Nat.eqb_spec inlen 2) as [H2|H2]; [exists m1, op1; auto|].
    rds HR1 ip.
    destruct (rd inb (ip + 2)) as [i2| |] eqn:E2; cbn [bind]; [|exact I..].
    destruct (i2 =? pad).
    { destruct (Nat.eqb_spec inlen 4) as [H4|H4]; cbn [negb]; [|exists m1, op1; auto].
      rd3 HR1 ip. destruct (rd inb (ip + 3)) as [i3| |] eqn:E3; cbn [bind]; [|exact I..].
      destruct (negb (i3 =? pad)); [exists m1, op1; auto|].
      specialize (IH m1 (ip + 4)%nat (inlen - 4)%nat out1 op1 ol1 HR1 ltac:(lia) ltac:(lia) ltac:(lia)).
      destruct (dec_loop tab pad fuel inb (ip + 4) (inlen - 4) out1 op1 ol1) as [[[o' l'] r']| |]; [|exact I..].
      destruct IH as (m' & op' & E & HR' & Hs & Hlen). exists m', op'. split; [exact E|]. split; [exact HR'|]. lia. }
    destruct (isb tab i2) as [b2| |]; cbn [bind]; [|exact I..]. destruct b2; cbn [negb]; [|exists m1, op1; auto].
    rewrite E1. cbn [bind]. rewrite V1. cbn [bind].
    destruct (rd tab (Z.to_nat i2)) as [v2| |] eqn:V2; cbn [bind]; [|exact I..].
    destruct (putR m1 out1 op1 ol1 (Z.lor (Z.land (Z.shiftl v1 4) 240) (Z.shiftr v2 2)) HR1 ltac:(lia)) as (m2 & out2 & op2 & ol2 & P2 & Q2 & HR2 & Ha2 & Hb2 & Hc2).
    rewrite P2, Q2. cbn [bind]. destruct (Nat.eqb_spec inlen 3) as [H3|H3]; [exists m2, op2; split; [reflexivity|]; split; [exact HR2|]; lia|].
    rds HR2 ip. rd3 HR2 ip. destruct (rd inb (ip + 3)) as [i3| |] eqn:E3; cbn [bind]; [|exact I..].
    destruct (i3 =? pad).
    { destruct (Nat.eqb_spec inlen 4) as [H4|H4]; cbn [negb]; [|exists m2, op2; split; [reflexivity|]; split; [exact HR2|]; lia].
      specialize (IH m2 (ip + 4)%nat (inlen - 4)%nat out2 op2 ol2 HR2 ltac:(lia) ltac:(lia) ltac:(lia)).
      destruct (dec_loop tab pad fuel inb (ip + 4) (inlen - 4) out2 op2 ol2) as [[[o' l'] r']| |]; [|exact I..].
      destruct IH as (m' & op' & E & HR' & Hs & Hlen). exists m', op'. split; [exact E|]. split; [exact HR'|]. lia. }
    destruct (isb tab i3) as [b3| |]; cbn [bind]; [|exact I..]. destruct b3; cbn [negb]; [|exists m2, op2; split; [reflexivity|]; split; [exact HR2|]; lia].
    rewrite E2. cbn [bind]. rewrite V2. cbn [bind].
    destruct (rd tab (Z.to_nat i3)) as [v3| |] eqn:V3; cbn [bind]; [|exact I..].
    destruct (putR m2 out2 op2 ol2 (Z.lor (Z.land (Z.shiftl v2 6) 192) v3) HR2 ltac:(lia)) as (m3 & out3 & op3 & ol3 & P3 & Q3 & HR3 & Ha3 & Hb3 & Hc3).
    rewrite P3, Q3. cbn [bind].
    specialize (IH m3 (ip + 4)%nat (inlen - 4)%nat out3 op3 ol3 HR3 ltac:(lia) ltac:(lia) ltac:(lia)).
    destruct (dec_loop tab pad fuel inb (ip + 4) (inlen - 4) out3 op3 ol3) as [[[o' l'] r']| |]; [|exact I..].
    destruct IH as (m' & op' & E & HR' & Hs & Hlen). exists m', op'. split; [exact E|]. split; [exact HR'|]. lia.
  Qed.
End Sim.

Lemma decode_at_sim : forall tab pad m pi inlen po cap, (po <= pi)%nat -> (pi + inlen <= length m)%nat -> (po + cap <= length m)%nat ->
  match decode tab pad (firstn inlen (skipn pi m)) inlen (firstn cap (skipn po m)) cap with
  | Ok (b, out, k) => decode_at tab pad m pi inlen po cap = Ok (b, firstn po m ++ firstn k out ++ skipn (po + k) m, k)
  | _ => True
  end.
Proof.
  intros tab pad m pi inlen po cap Hp Hi Ho. unfold decode, decode_at.
  assert (Li : length (firstn inlen (skipn pi m)) = inlen) by (rewrite firstn_length, skipn_length; lia).
  assert (Lo : length (firstn cap (skipn po m)) = cap) by (rewrite firstn_length, skipn_length; lia).
  assert (Hin : forall j, (j < length (firstn inlen (skipn pi m)))%nat -> rd (firstn inlen (skipn pi m)) j = rd m (pi + j)).
  { intros j Hj. unfold rd. rewrite nth_firstn, nth_skipn. destruct (Nat.ltb_spec j inlen); [reflexivity|lia]. }
  assert (HR : R m po m (firstn cap (skipn po m)) 0).
  { split; [reflexivity|]. rewrite Lo. split; [lia|]. split; [lia|]. intros i.
    destruct (Nat.leb_spec po i); cbn [andb]; [|reflexivity]. destruct (Nat.ltb_spec i (po + 0)); [lia|reflexivity]. }
  pose proof (dec_at_sim tab pad m pi po _ Hin inlen m 0 inlen _ 0 cap HR ltac:(lia) ltac:(lia) ltac:(lia)) as S1.
  rewrite !Nat.add_0_r in S1.
  destruct (dec_loop tab pad inlen (firstn inlen (skipn pi m)) 0 inlen (firstn cap (skipn po m)) 0 cap) as [[[out ol] r]| |]; cbn [bind]; [|exact I..].
  destruct S1 as (m' & op & E & (Hl & Hop & Hb & Hm) & Hs & Hlen). rewrite E. cbn [bind]. do 2 f_equal. f_equal.
  replace (cap - ol)%nat with op by lia. apply list_ext. intros i. rewrite Hm.
  assert (L1 : length (firstn po m) = po) by (rewrite firstn_length; lia).
  assert (L2 : length (firstn op out) = op) by (rewrite firstn_length; lia).
  destruct (Nat.leb_spec po i); cbn [andb].
  - rewrite nth_error_app2 by lia. rewrite L1. destruct (Nat.ltb_spec i (po + op)).
    + rewrite nth_error_app1 by lia. rewrite nth_firstn. destruct (Nat.ltb_spec (i - po) op); [reflexivity|lia].
    + rewrite nth_error_app2 by lia. rewrite L2, nth_skipn. f_equal. lia.
  - rewrite nth_error_app1 by lia. rewrite nth_firstn. destruct (Nat.ltb_spec i po); [reflexivity|lia].
Qed.

Lemma bytes_slice : forall m a n, bytes m -> bytes (firstn n (skipn a m)).
Proof. intros. apply Forall_firstn, Forall_skipn. assumption. Qed.

(** ** C121: text can be decoded in place

    Text at [pi] is decoded to [po <= pi] of the same memory ([po = pi]: in place).  The
    result is that of separate buffers, and no other byte changes. *)
Theorem C121_base64_in_place : forall m pi inlen po cap,
  bytes m -> (po <= pi)%nat -> (pi + inlen <= length m)%nat -> (po + cap <= length m)%nat ->
  exists okb,
    base64_decode_at m pi inlen po cap =
      (let o := rfc_decoded 43 47 (firstn inlen (skipn pi m)) in
       let k := Nat.min cap (length o) in
       Ok (okb, firstn po m ++ firstn k o ++ skipn (po + k) m, k)) /\
    (okb = true <-> well_formed 43 47 61 (firstn inlen (skipn pi m))).
Proof.
  intros m pi inlen po cap B Hp Hi Ho.
  assert (Li : length (firstn inlen (skipn pi m)) = inlen) by (rewrite firstn_length, skipn_length; lia).
  assert (Lo : length (firstn cap (skipn po m)) = cap) by (rewrite firstn_length, skipn_length; lia).
  pose proof (decode_at_sim b64 61 m pi inlen po cap Hp Hi Ho) as S1.
  destruct (C03_base64_decode_exact _ (firstn cap (skipn po m)) cap (bytes_slice m pi inlen B) ltac:(lia)) as (okb & E & W).
  unfold base64_decode in E. rewrite Li in E. rewrite E in S1. cbv zeta in *. exists okb. split; [|exact W].
  unfold base64_decode_at. rewrite S1. do 3 f_equal. f_equal.
  rewrite firstn_app_ge by (rewrite firstn_length; lia). rewrite firstn_length.
  replace (_ - _)%nat with 0%nat by lia. rewrite app_nil_r. reflexivity.
Qed.
Print Assumptions C121_base64_in_place.

Theorem C121_web64_in_place : forall m pi inlen po cap,
  bytes m -> (po <= pi)%nat -> (pi + inlen <= length m)%nat -> (po + cap <= length m)%nat ->
  exists okb,
    web64_decode_at m pi inlen po cap =
      (let o := rfc_decoded 45 95 (firstn inlen (skipn pi m)) in
       let k := Nat.min cap (length o) in
       Ok (okb, firstn po m ++ firstn k o ++ skipn (po + k) m, k)) /\
    (okb = true <-> well_formed 45 95 46 (firstn inlen (skipn pi m))).
Proof.
  intros m pi inlen po cap B Hp Hi Ho.
  assert (Li : length (firstn inlen (skipn pi m)) = inlen) by (rewrite firstn_length, skipn_length; lia).
  assert (Lo : length (firstn cap (skipn po m)) = cap) by (rewrite firstn_length, skipn_length; lia).
  pose proof (decode_at_sim w64 46 m pi inlen po cap Hp Hi Ho) as S1.
  destruct (C08_web64_decode_exact _ (firstn cap (skipn po m)) cap (bytes_slice m pi inlen B) ltac:(lia)) as (okb & E & W).
  unfold web64_decode in E. rewrite Li in E. rewrite E in S1. cbv zeta in *. exists okb. split; [|exact W].
  unfold web64_decode_at. rewrite S1. do 3 f_equal. f_equal.
  rewrite firstn_app_ge by (rewrite firstn_length; lia). rewrite firstn_length.
  replace (_ - _)%nat with 0%nat by lia. rewrite app_nil_r. reflexivity.
Qed.
Print Assumptions C121_web64_in_place.

(** decoding upwards in memory does not work: the text is overwritten before it is read *)
Theorem C121_upwards_refuted : exists m pi inlen po cap,
  bytes m /\ (pi < po)%nat /\ (pi + inlen <= length m)%nat /\ (po + cap <= length m)%nat /\
  well_formed 43 47 61 (firstn inlen (skipn pi m)) /\
  length (rfc_decoded 43 47 (firstn inlen (skipn pi m))) = cap /\
  exists m' k, base64_decode_at m pi inlen po cap = Ok (false, m', k) /\
    firstn cap (skipn po m') <> rfc_decoded 43 47 (firstn inlen (skipn pi m)).
Proof.
  exists (zs "aGVsbG8hAAAA"), 0%nat, 8%nat, 3%nat, 6%nat.
  split; [repeat constructor; cbn; lia|]. split; [lia|]. split; [cbn; lia|]. split; [cbn; lia|].
  split; [repeat constructor; cbn; discriminate|].
  split; [reflexivity|]. eexists _, _. split; [vm_compute; reflexivity|]. vm_compute. discriminate.
Qed.
Print Assumptions C121_upwards_refuted.

Example C121_ex : base64_decode_at (zs "<aGVsbG8h>") 1 8 1 8 = Ok (true, zs "<hello!8h>", 6%nat).
Proof. reflexivity. Qed.
Example C121_ex_web : web64_decode_at (zs "aGVsbG8.") 0 8 0 8 = Ok (true, zs "helloG8.", 5%nat).
Proof. reflexivity. Qed.
