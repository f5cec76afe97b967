(** Theorems about encoding when the text overlaps the input (property C134). *)

From Coq Require Import ZArith List Bool Lia Arith.
From Verif Require Import Base Base64_Model Base64_Spec Base64_Proof Base64_Props B64At_Props B64Enc_Model.
Import ListNotations.
Local Open Scope Z_scope.

Section Sim.
  Variable alpha : list Z.
  Variable pad : Z.
  Variable m0 : list Z.
  Variables pi po : nat.
  Variable inb : list Z.
  Hypothesis Hin : forall j, (j < length inb)%nat -> rd inb j = rd m0 (pi + j).

  (** the memory is the old one with [out] at [po], and [out] is the old memory from [op] on *)
  Definition RE (m out : list Z) (op : nat) : Prop :=
    length m = length m0 /\ (po + length out <= length m0)%nat /\
    (forall i, nth_error m i = if ((po <=? i) && (i <? po + length out))%nat then nth_error out (i - po) else nth_error m0 i) /\
    (forall k, (op <= k)%nat -> (k < length out)%nat -> nth_error out k = nth_error m0 (po + k)).

  (** [j] is not overwritten by the first [op] bytes of the output *)
  Definition clear (op j : nat) : Prop := (po + op <= pi + j \/ pi + j < po)%nat.

  Lemma rdE : forall m out op j, RE m out op -> clear op j -> (j < length inb)%nat -> rd m (pi + j) = rd inb j.
  Proof.
    intros m out op j (_ & _ & H & T) Hc Hj. rewrite Hin by exact Hj. unfold rd. rewrite H.
    destruct (Nat.leb_spec po (pi + j)); cbn [andb]; [|reflexivity].
    destruct (Nat.ltb_spec (pi + j) (po + length out)); [|reflexivity].
    destruct Hc as [Hc|Hc]; [|lia].
    rewrite T by lia. replace (po + (pi + j - po))%nat with (pi + j)%nat by lia. reflexivity.
  Qed.

  Lemma wrE : forall m out op v, RE m out op -> (op < length out)%nat ->
    exists m', wr out op v = Ok (upd out op v) /\ wr m (po + op) v = Ok m' /\ RE m' (upd out op v) (S op).
  Proof.
    intros m out op v (Hl & Hb & Hm & T) Hc. rewrite !wr_ok by lia. eexists.
    split; [reflexivity|]. split; [reflexivity|]. unfold RE. rewrite !upd_length.
    split; [exact Hl|]. split; [exact Hb|]. split.
    - intros i. destruct (Nat.eq_dec i (po + op)) as [->|Hne].
      + rewrite nth_error_upd_same by lia. destruct (Nat.leb_spec po (po + op)); [|lia].
        destruct (Nat.ltb_spec (po + op) (po + length out)); [|lia].
        cbn [andb]. replace (po + op - po)%nat with op by lia. rewrite nth_error_upd_same by lia. reflexivity.
      + rewrite nth_error_upd_other by lia. rewrite Hm.
        destruct (Nat.leb_spec po i); cbn [andb]; [|reflexivity].
        destruct (Nat.ltb_spec i (po + length out)); [|reflexivity].
        rewrite nth_error_upd_other by lia. reflexivity.
    - intros k Hk Hk2. rewrite nth_error_upd_other by lia. apply T; lia.
  Qed.

  Definition safe (op ip inlen : nat) : Prop :=
    (3 * (po + op) + inlen <= 3 * (pi + ip) \/ pi + length inb <= po)%nat.

  Ltac fin := eexists; split; [reflexivity|]; split; [eassumption|]; rewrite ?upd_length; lia.
  Ltac cl := unfold clear, safe in *; lia.

  Lemma enc_at_sim : forall fuel m ip inlen out op ol, RE m out op -> (ip + inlen <= length inb)%nat ->
    (inlen = 0%nat \/ safe op ip inlen) -> (op + ol = length out)%nat ->
    match enc_loop alpha pad fuel inb ip inlen out op ol with
    | Ok (out', op', ol') => exists m', enc_at alpha pad fuel m (pi + ip) inlen (po + op) ol = Ok (m', (po + op')%nat, ol') /\
        RE m' out' op' /\ (op' + ol' = length out')%nat /\ length out' = length out
    | _ => True
    end.
  Proof.
    induction fuel as [|fuel IH]; intros m ip inlen out op ol HR Hip Hs Hc; cbn [enc_loop enc_at];
      (destruct (Nat.eqb_spec inlen 0) as [H0|H0]; cbn [orb]; [exists m; auto|]);
      (destruct (Nat.eqb_spec ol 0) as [H1|H1]; [exists m; auto|]); [exact I|].
    destruct Hs as [Hs|Hs]; [lia|].
    replace (pi + ip + 1)%nat with (pi + (ip + 1))%nat by lia. replace (pi + ip + 2)%nat with (pi + (ip + 2))%nat by lia.
    rewrite (rdE m out op ip HR) by cl.
    destruct (rd inb ip) as [c0| |] eqn:E0; cbn [bind]; [|exact I..].
    destruct (rd alpha _) as [ch| |]; cbn [bind]; [|exact I..].
    destruct (wrE m out op ch HR ltac:(lia)) as (m1 & W1 & W1' & HR1). rewrite W1, W1'. cbn [bind].
    assert (L1 : length (upd out op ch) = length out) by apply upd_length.
    set (out1 := upd out op ch) in *. clearbody out1.
    replace (S (po + op)) with (po + S op)%nat by lia.
    destruct (Nat.eqb_spec (pred ol) 0) as [H2|H2]; [fin|].
    rewrite (rdE m1 out1 (S op) ip HR1) by cl. rewrite E0. cbn [bind].
    assert (X1 : (if (pred inlen =? 0)%nat then Ok 0 else c1 <- rd m1 (pi + (ip + 1)) ;; Ok (Z.shiftr c1 4)) =
                 (if (pred inlen =? 0)%nat then Ok 0 else c1 <- rd inb (ip + 1) ;; Ok (Z.shiftr c1 4))).
    { destruct (Nat.eqb_spec (pred inlen) 0); [reflexivity|]. rewrite (rdE m1 out1 (S op) (ip + 1) HR1) by cl. reflexivity. }
    rewrite X1. clear X1.
    destruct (if (pred inlen =? 0)%nat then Ok 0 else c1 <- rd inb (ip + 1) ;; Ok (Z.shiftr c1 4)) as [x| |]; cbn [bind]; [|exact I..].
    destruct (rd alpha _) as [ch2| |]; cbn [bind]; [|exact I..].
    destruct (wrE m1 out1 (S op) ch2 HR1 ltac:(lia)) as (m2 & W2 & W2' & HR2). rewrite W2, W2'. cbn [bind].
    assert (L2 : length (upd out1 (S op) ch2) = length out) by (rewrite upd_length; exact L1).
    set (out2 := upd out1 (S op) ch2) in *. clearbody out2.
    replace (S (po + S op)) with (po + S (S op))%nat by lia.
    destruct (Nat.eqb_spec (pred (pred ol)) 0) as [H3|H3]; [fin|].
    set (G := fun (rd1 rd2 : res Z) => if (pred inlen =? 0)%nat then Ok (pad, pred inlen)
         else c1 <- rd1 ;;
              x <- (if (pred (pred inlen) =? 0)%nat then Ok 0 else c2 <- rd2 ;; Ok (Z.shiftr c2 6)) ;;
              ch <- rd alpha (Z.to_nat (Z.land (Z.shiftl c1 2 + x) 63)) ;; Ok (ch, pred (pred inlen))).
    change (if (pred inlen =? 0)%nat then Ok (pad, pred inlen) else c1 <- rd inb (ip + 1) ;; _)
      with (G (rd inb (ip + 1)) (rd inb (ip + 2))).
    change (if (pred inlen =? 0)%nat then Ok (pad, pred inlen) else c1 <- rd m2 (pi + (ip + 1)) ;; _)
      with (G (rd m2 (pi + (ip + 1))) (rd m2 (pi + (ip + 2)))).
    assert (X2 : G (rd m2 (pi + (ip + 1))) (rd m2 (pi + (ip + 2))) = G (rd inb (ip + 1)) (rd inb (ip + 2))).
    { unfold G. destruct (Nat.eqb_spec (pred inlen) 0); [reflexivity|].
      rewrite (rdE m2 out2 (S (S op)) (ip + 1) HR2) by cl.
      destruct (rd inb (ip + 1)) as [c1| |]; cbn [bind]; [|reflexivity..].
      destruct (Nat.eqb_spec (pred (pred inlen)) 0); [reflexivity|].
      rewrite (rdE m2 out2 (S (S op)) (ip + 2) HR2) by cl. reflexivity. }
    rewrite X2. clear X2.
    assert (X3 : match G (rd inb (ip + 1)) (rd inb (ip + 2)) with Ok (_, i2) => i2 = pred (pred inlen) | _ => True end).
    { unfold G. destruct (Nat.eqb_spec (pred inlen) 0) as [E|E]; [now rewrite E|].
      destruct (rd inb (ip + 1)) as [c1| |]; cbn [bind]; [|exact I..].
      destruct (if (pred (pred inlen) =? 0)%nat then _ else _); cbn [bind]; [|exact I..].
      destruct (rd alpha _); cbn [bind]; [reflexivity|exact I..]. }
    destruct (G (rd inb (ip + 1)) (rd inb (ip + 2))) as [[ch3 i2]| |]; cbn [bind]; [|exact I..]. subst i2. clear G.
    destruct (wrE m2 out2 (S (S op)) ch3 HR2 ltac:(lia)) as (m3 & W3 & W3' & HR3). rewrite W3, W3'. cbn [bind].
    assert (L3 : length (upd out2 (S (S op)) ch3) = length out) by (rewrite upd_length; exact L2).
    set (out3 := upd out2 (S (S op)) ch3) in *. clearbody out3.
    replace (S (po + S (S op))) with (po + S (S (S op)))%nat by lia.
    destruct (Nat.eqb_spec (pred (pred (pred ol))) 0) as [H4|H4]; [fin|].
    assert (X4 : (if (pred (pred inlen) =? 0)%nat then Ok pad else c2 <- rd m3 (pi + (ip + 2)) ;; rd alpha (Z.to_nat (Z.land c2 63))) =
                 (if (pred (pred inlen) =? 0)%nat then Ok pad else c2 <- rd inb (ip + 2) ;; rd alpha (Z.to_nat (Z.land c2 63)))).
    { destruct (Nat.eqb_spec (pred (pred inlen)) 0); [reflexivity|]. rewrite (rdE m3 out3 (S (S (S op))) (ip + 2) HR3) by cl. reflexivity. }
    rewrite X4. clear X4.
    destruct (if (pred (pred inlen) =? 0)%nat then Ok pad else _) as [ch4| |]; cbn [bind]; [|exact I..].
    destruct (wrE m3 out3 (S (S (S op))) ch4 HR3 ltac:(lia)) as (m4 & W4 & W4' & HR4). rewrite W4, W4'. cbn [bind].
    assert (L4 : length (upd out3 (S (S (S op))) ch4) = length out) by (rewrite upd_length; exact L3).
    set (out4 := upd out3 (S (S (S op))) ch4) in *. clearbody out4.
    replace (S (po + S (S (S op)))) with (po + S (S (S (S op))))%nat by lia.
    destruct (Nat.eqb_spec (pred (pred (pred (pred ol)))) 0) as [H5|H5]; [fin|].
    replace (if (pred (pred (pred inlen)) =? 0)%nat then (pi + ip)%nat else (pi + ip + 3)%nat)
      with (pi + (if (pred (pred (pred inlen)) =? 0)%nat then ip else ip + 3))%nat
      by (destruct (pred (pred (pred inlen)) =? 0)%nat; lia).
    assert (Hx : (let ip' := if (pred (pred (pred inlen)) =? 0)%nat then ip else (ip + 3)%nat in
                  ip' + pred (pred (pred inlen)) <= length inb /\
                  (pred (pred (pred inlen)) = 0 \/ safe (S (S (S (S op)))) ip' (pred (pred (pred inlen)))))%nat).
    { cbv zeta. destruct (Nat.eqb_spec (pred (pred (pred inlen))) 0); cl. }
    destruct Hx as (Hx1 & Hx2).
    specialize (IH m4 _ _ out4 (S (S (S (S op)))) (pred (pred (pred (pred ol)))) HR4 Hx1 Hx2 ltac:(lia)).
    match goal with |- match ?e with _ => _ end => destruct e as [[[o' q'] l']| |] end; [|exact I..].
    destruct IH as (m' & E & HR' & Hs' & Hlen). exists m'. split; [exact E|]. split; [exact HR'|]. lia.
  Qed.
End Sim.

Lemma encode_at_sim : forall alpha pad m pi inlen po cap,
  (inlen <= 3 * (pi - po) \/ pi + inlen <= po)%nat -> (pi + inlen <= length m)%nat -> (po + cap <= length m)%nat ->
  match encode alpha pad (firstn inlen (skipn pi m)) inlen (firstn cap (skipn po m)) cap with
  | Ok out => encode_at alpha pad m pi inlen po cap = Ok (firstn po m ++ out ++ skipn (po + cap) m)
  | _ => True
  end.
Proof.
  intros alpha pad m pi inlen po cap Hp Hi Ho. unfold encode, encode_at.
  assert (Li : length (firstn inlen (skipn pi m)) = inlen) by (rewrite firstn_length, skipn_length; lia).
  assert (Lo : length (firstn cap (skipn po m)) = cap) by (rewrite firstn_length, skipn_length; lia).
  assert (Hin : forall j, (j < length (firstn inlen (skipn pi m)))%nat -> rd (firstn inlen (skipn pi m)) j = rd m (pi + j)).
  { intros j Hj. unfold rd. rewrite nth_firstn, nth_skipn. destruct (Nat.ltb_spec j inlen); [reflexivity|lia]. }
  assert (Hout : forall k, (k < cap)%nat -> nth_error (firstn cap (skipn po m)) k = nth_error m (po + k)).
  { intros k Hk. rewrite nth_firstn, nth_skipn. destruct (Nat.ltb_spec k cap); [reflexivity|lia]. }
  assert (HR : RE m po m (firstn cap (skipn po m)) 0).
  { split; [reflexivity|]. rewrite Lo. split; [lia|]. split.
    - intros i. destruct (Nat.leb_spec po i); cbn [andb]; [|reflexivity].
      destruct (Nat.ltb_spec i (po + cap)); [|reflexivity]. rewrite Hout by lia. f_equal. lia.
    - intros k _ Hk. apply Hout. exact Hk. }
  assert (Hend : forall m' out op, RE m po m' out op -> length out = cap -> m' = firstn po m ++ out ++ skipn (po + cap) m).
  { intros m' out op (Hl & Hb & Hm & _) Lout. apply list_ext. intros i. rewrite Hm, Lout.
    assert (L1 : length (firstn po m) = po) by (rewrite firstn_length; lia).
    destruct (Nat.leb_spec po i); cbn [andb].
    - rewrite nth_error_app2 by lia. rewrite L1. destruct (Nat.ltb_spec i (po + cap)).
      + rewrite nth_error_app1 by lia. reflexivity.
      + rewrite nth_error_app2 by lia. rewrite Lout, nth_skipn. f_equal. lia.
    - rewrite nth_error_app1 by lia. rewrite nth_firstn. destruct (Nat.ltb_spec i po); [reflexivity|lia]. }
  pose proof (enc_at_sim alpha pad m pi po _ Hin (S inlen) m 0 inlen _ 0 cap HR ltac:(lia)
                ltac:(right; unfold safe; rewrite Li; lia) ltac:(lia)) as S1.
  rewrite !Nat.add_0_r in S1.
  destruct (enc_loop alpha pad (S inlen) (firstn inlen (skipn pi m)) 0 inlen (firstn cap (skipn po m)) 0 cap) as [[[out op] ol]| |]; cbn [bind]; [|exact I..].
  destruct S1 as (m' & E & HR' & Hs & Hlen). rewrite E. cbn [bind].
  destruct (Nat.eqb_spec ol 0) as [H0|H0]; [f_equal; apply (Hend m' out op); [exact HR'|lia]|].
  destruct (wrE m pi po _ Hin m' out op 0 HR' ltac:(lia)) as (m2 & W & W' & HR2). rewrite W, W'. f_equal.
  apply (Hend m2 _ (S op)); [exact HR2|rewrite upd_length; lia].
Qed.

Lemma skip_first : forall m po cap k, (k <= cap)%nat ->
  skipn k (firstn cap (skipn po m)) ++ skipn (po + cap) m = skipn (po + k) m :> list Z.
Proof.
  intros m po cap k Hk. rewrite skipn_firstn_comm, skipn_skipn.
  rewrite <- (firstn_skipn (cap - k) (skipn (po + k) m)). rewrite skipn_skipn.
  replace (k + po)%nat with (po + k)%nat by lia. replace (cap - k + (po + k))%nat with (po + cap)%nat by lia. reflexivity.
Qed.

Lemma new_bytes : forall m po cap (text : list Z),
  (firstn (Nat.min cap (length text)) text ++
    (if (length text <? cap)%nat then 0 :: skipn (S (Nat.min cap (length text))) (firstn cap (skipn po m))
     else skipn (Nat.min cap (length text)) (firstn cap (skipn po m)))) ++ skipn (po + cap) m =
  firstn cap (text ++ [0]) ++ skipn (po + length (firstn cap (text ++ [0]))) m.
Proof.
  intros m po cap text. rewrite <- app_assoc. destruct (Nat.ltb_spec (length text) cap) as [H|H].
  - rewrite Nat.min_r by lia. rewrite firstn_all, (firstn_all2 (n := cap) (text ++ [0])) by (rewrite app_length; cbn; lia).
    rewrite <- app_assoc, app_length. cbn [length app]. rewrite skip_first by lia. do 3 f_equal. lia.
  - rewrite Nat.min_l by lia. rewrite firstn_app. replace (cap - length text)%nat with 0%nat by lia. cbn [firstn]. rewrite app_nil_r.
    rewrite firstn_length, Nat.min_l by lia. f_equal. apply skip_first. lia.
Qed.

(** ** C134: where the text may lie when it overlaps the input

    [inlen] bytes at [pi] are encoded to [po] of the same memory.  It is enough that the
    output starts at least a third of the input's length below the input, or starts at its
    end or above.  Then the memory afterwards is the old one with the text and a zero byte,
    cut off at [cap], at [po]. *)
Theorem C134_base64_encode_overlap : forall m pi inlen po cap,
  bytes m -> (pi + inlen <= length m)%nat -> (po + cap <= length m)%nat ->
  (inlen <= 3 * (pi - po) \/ pi + inlen <= po)%nat ->
  base64_encode_at m pi inlen po cap =
    let text := rfc_encode 43 47 61 (firstn inlen (skipn pi m)) in
    let new := firstn cap (text ++ [0]) in
    Ok (firstn po m ++ new ++ skipn (po + length new) m).
Proof.
  intros m pi inlen po cap B Hi Ho Hp.
  assert (Li : length (firstn inlen (skipn pi m)) = inlen) by (rewrite firstn_length, skipn_length; lia).
  assert (Lo : length (firstn cap (skipn po m)) = cap) by (rewrite firstn_length, skipn_length; lia).
  pose proof (encode_at_sim b64str 61 m pi inlen po cap Hp Hi Ho) as S1.
  pose proof (C02_base64_encode_exact _ (firstn cap (skipn po m)) cap (bytes_slice m pi inlen B) ltac:(lia)) as E.
  unfold base64_encode in E. rewrite Li in E. rewrite E in S1. cbv zeta in *.
  unfold base64_encode_at. rewrite S1. f_equal. f_equal. apply new_bytes.
Qed.
Print Assumptions C134_base64_encode_overlap.

Theorem C134_web64_encode_overlap : forall m pi inlen po cap,
  bytes m -> (pi + inlen <= length m)%nat -> (po + cap <= length m)%nat ->
  (inlen <= 3 * (pi - po) \/ pi + inlen <= po)%nat ->
  web64_encode_at m pi inlen po cap =
    let text := rfc_encode 45 95 46 (firstn inlen (skipn pi m)) in
    let new := firstn cap (text ++ [0]) in
    Ok (firstn po m ++ new ++ skipn (po + length new) m).
Proof.
  intros m pi inlen po cap B Hi Ho Hp.
  assert (Li : length (firstn inlen (skipn pi m)) = inlen) by (rewrite firstn_length, skipn_length; lia).
  assert (Lo : length (firstn cap (skipn po m)) = cap) by (rewrite firstn_length, skipn_length; lia).
  pose proof (encode_at_sim w64str 46 m pi inlen po cap Hp Hi Ho) as S1.
  pose proof (C08_web64_encode_exact _ (firstn cap (skipn po m)) cap (bytes_slice m pi inlen B) ltac:(lia)) as E.
  unfold web64_encode in E. rewrite Li in E. rewrite E in S1. cbv zeta in *.
  unfold web64_encode_at. rewrite S1. f_equal. f_equal. apply new_bytes.
Qed.
Print Assumptions C134_web64_encode_overlap.

(** the condition of the theorems is met with an overlap, at the least distance *)
Example C134_ex : base64_encode_at (zs "..hello!") 2 6 0 8 = Ok (zs "aGVsbG8h").
Proof. reflexivity. Qed.
Example C134_ex_web : web64_encode_at (zs "..hello....") 2 5 0 11 = Ok (zs "aGVsbG8." ++ [0] ++ zs "..").
Proof. reflexivity. Qed.
Example C134_ex_above : base64_encode_at (zs "foo......") 0 3 3 5 = Ok (zs "fooZm9v" ++ [0] ++ zs ".").
Proof. reflexivity. Qed.

(** one byte less is not enough, for either encoder *)
Theorem C134_distance_refuted : exists m pi inlen po cap,
  bytes m /\ (pi + inlen <= length m)%nat /\ (po + cap <= length m)%nat /\
  (po < pi)%nat /\ (inlen <= 3 * (pi - po) + 3)%nat /\
  (exists m', base64_encode_at m pi inlen po cap = Ok m' /\
    firstn cap (skipn po m') <> rfc_encode 43 47 61 (firstn inlen (skipn pi m))) /\
  (exists m', web64_encode_at m pi inlen po cap = Ok m' /\
    firstn cap (skipn po m') <> rfc_encode 45 95 46 (firstn inlen (skipn pi m))).
Proof.
  exists (zs ".hello!."), 1%nat, 6%nat, 0%nat, 8%nat.
  split; [repeat constructor; cbn; lia|]. do 4 (split; [cbn; lia|]).
  split; (eexists; split; [vm_compute; reflexivity|vm_compute; discriminate]).
Qed.
Print Assumptions C134_distance_refuted.

(** and data cannot be encoded where it stands, not even a single byte *)
Theorem C134_in_place_refuted : exists m cap,
  bytes m /\ (cap <= length m)%nat /\
  (exists m', base64_encode_at m 0 1 0 cap = Ok m' /\ firstn cap m' <> rfc_encode 43 47 61 (firstn 1 m)) /\
  (exists m', web64_encode_at m 0 1 0 cap = Ok m' /\ firstn cap m' <> rfc_encode 45 95 46 (firstn 1 m)).
Proof.
  exists (zs "h..."), 4%nat. split; [repeat constructor; cbn; lia|]. split; [cbn; lia|].
  split; (eexists; split; [vm_compute; reflexivity|vm_compute; discriminate]).
Qed.
Print Assumptions C134_in_place_refuted.
