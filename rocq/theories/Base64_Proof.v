(** Proofs about the Base 64 model. *)

From Coq Require Import ZArith List Lia Bool ZifyBool ZifyNat.
From Verif Require Import Base Base64_Model Base64_Spec.
Import ListNotations.
Local Open Scope Z_scope.

Lemma land63 : forall x, Z.land x 63 = x mod 64.
Proof. intros. change 63 with (Z.ones 6). now rewrite Z.land_ones by lia. Qed.

Lemma shr : forall x k, 0 <= k -> Z.shiftr x k = x / 2 ^ k.
Proof. intros. now apply Z.shiftr_div_pow2. Qed.

Lemma shl : forall x k, 0 <= k -> Z.shiftl x k = x * 2 ^ k.
Proof. intros. now apply Z.shiftl_mul_pow2. Qed.

Ltac zdm := Z.div_mod_to_equations; lia.

(* the index computations of the encoder *)
Lemma ix0 : forall a b c, byte a -> byte b -> byte c ->
  Z.land (Z.shiftr a 2) 63 = (a * 65536 + b * 256 + c) / 262144.
Proof. unfold byte; intros. rewrite land63, shr by lia. change (2 ^ 2) with 4. zdm. Qed.
Lemma ix1 : forall a b c, byte a -> byte b -> byte c ->
  Z.land (Z.shiftl a 4 + Z.shiftr b 4) 63 = (a * 65536 + b * 256 + c) / 4096 mod 64.
Proof. unfold byte; intros. rewrite land63, shl, shr by lia. change (2 ^ 4) with 16. zdm. Qed.
Lemma ix2 : forall a b c, byte a -> byte b -> byte c ->
  Z.land (Z.shiftl b 2 + Z.shiftr c 6) 63 = (a * 65536 + b * 256 + c) / 64 mod 64.
Proof.
  unfold byte; intros. rewrite land63, shl, shr by lia.
  change (2 ^ 2) with 4; change (2 ^ 6) with 64. zdm.
Qed.
Lemma ix3 : forall a b c, byte a -> byte b -> byte c ->
  Z.land c 63 = (a * 65536 + b * 256 + c) mod 64.
Proof. unfold byte; intros. rewrite land63. zdm. Qed.
Lemma ix1' : forall a, byte a ->
  Z.land (Z.shiftl a 4 + 0) 63 = (a * 65536) / 4096 mod 64.
Proof. unfold byte; intros. rewrite land63, shl by lia. change (2 ^ 4) with 16. zdm. Qed.
Lemma ix2' : forall a b, byte a -> byte b ->
  Z.land (Z.shiftl b 2 + 0) 63 = (a * 65536 + b * 256) / 64 mod 64.
Proof. unfold byte; intros. rewrite land63, shl by lia. change (2 ^ 2) with 4. zdm. Qed.

Lemma byte0 : byte 0. Proof. unfold byte; lia. Qed.

Set Default Proof Using "All".
Section P.
  Variables c62 c63 pad : Z.
  Variables alpha tab : list Z.
  Notation ch := (rfc_char c62 c63).
  Notation val := (rfc_value c62 c63).
  Notation enc := (rfc_encode c62 c63 pad).

  Hypothesis Halpha : forall v, 0 <= v < 64 -> rd alpha (Z.to_nat v) = Ok (ch v).
  Hypothesis Htab : forall c, byte c ->
    rd tab (Z.to_nat c) = Ok (match val c with Some v => v | None => -1 end).
  Hypothesis Hpad : val pad = None.
  Hypothesis Hval : forall v, 0 <= v < 64 -> val (ch v) = Some v.
  Hypothesis Hbyte : forall c, val c <> None \/ c = pad -> byte c.
  Hypothesis Hrange : forall c v, val c = Some v -> 0 <= v < 64.

  Lemma grp_range0 : forall a b c, byte a -> byte b -> byte c ->
    0 <= (a * 65536 + b * 256 + c) / 262144 < 64.
  Proof. unfold byte; intros; zdm. Qed.
  Lemma mod64_range : forall x, 0 <= x mod 64 < 64.
  Proof. intros; apply Z.mod_pos_bound; lia. Qed.

  (** The four characters of a full group. *)
  Lemma full_chars : forall a b c, byte a -> byte b -> byte c ->
    let n := a * 65536 + b * 256 + c in
    rd alpha (Z.to_nat (Z.land (Z.shiftr a 2) 63)) = Ok (ch (n / 262144)) /\
    rd alpha (Z.to_nat (Z.land (Z.shiftl a 4 + Z.shiftr b 4) 63)) = Ok (ch (n / 4096 mod 64)) /\
    rd alpha (Z.to_nat (Z.land (Z.shiftl b 2 + Z.shiftr c 6) 63)) = Ok (ch (n / 64 mod 64)) /\
    rd alpha (Z.to_nat (Z.land c 63)) = Ok (ch (n mod 64)).
  Proof.
    intros a b c Ha Hb Hc n. subst n.
    rewrite (ix0 a b c), (ix1 a b c), (ix2 a b c), (ix3 a b c) by auto.
    repeat split; apply Halpha; auto using grp_range0, mod64_range.
  Qed.

  Lemma two_chars : forall a b, byte a -> byte b ->
    let n := a * 65536 + b * 256 in
    rd alpha (Z.to_nat (Z.land (Z.shiftr a 2) 63)) = Ok (ch (n / 262144)) /\
    rd alpha (Z.to_nat (Z.land (Z.shiftl a 4 + Z.shiftr b 4) 63)) = Ok (ch (n / 4096 mod 64)) /\
    rd alpha (Z.to_nat (Z.land (Z.shiftl b 2 + 0) 63)) = Ok (ch (n / 64 mod 64)).
  Proof.
    intros a b Ha Hb n. pose proof (full_chars a b 0 Ha Hb byte0) as (H1 & H2 & H3 & _).
    rewrite (Z.add_0_r (a * 65536 + b * 256)) in *. rewrite Z.shiftr_0_l in H3.
    subst n. repeat split; auto.
  Qed.

  Lemma one_chars : forall a, byte a ->
    let n := a * 65536 in
    rd alpha (Z.to_nat (Z.land (Z.shiftr a 2) 63)) = Ok (ch (n / 262144)) /\
    rd alpha (Z.to_nat (Z.land (Z.shiftl a 4 + 0) 63)) = Ok (ch (n / 4096 mod 64)).
  Proof.
    intros a Ha n. pose proof (two_chars a 0 Ha byte0) as (H1 & H2 & _).
    rewrite Z.mul_0_l, (Z.add_0_r (a * 65536)) in *. rewrite Z.shiftr_0_l in H2.
    subst n. auto.
  Qed.

  Ltac push1 :=
    match goal with
    | |- context [wr (?p ++ ?x :: ?r) ?i ?v] =>
      rewrite (wr_push _ p x r v i) by (rewrite ?app_length; simpl; lia)
    end; cbn [bind].

  Ltac fin :=
    cbn; apply ok3; [now repeat (rewrite <- app_assoc; cbn)|rewrite ?app_length; cbn; lia|lia].

  Lemma enc_loop_spec : forall n suf, (length suf <= n)%nat ->
    forall ipre pre rest fuel outlen,
    bytes suf -> (length suf < fuel)%nat -> (outlen <= length rest)%nat ->
    enc_loop alpha pad fuel (ipre ++ suf) (length ipre) (length suf)
             (pre ++ rest) (length pre) outlen =
    let k := Nat.min outlen (length (enc suf)) in
    Ok (pre ++ firstn k (enc suf) ++ skipn k rest, (length pre + k)%nat, (outlen - k)%nat).
  Proof.
    induction n as [|n IH]; intros suf Hn ipre pre rest fuel outlen Hb Hf Ho.
    - destruct suf; [|simpl in Hn; lia]. destruct fuel; [simpl in Hf; lia|].
      cbn. rewrite Nat.min_0_r. cbn. now rewrite Nat.add_0_r, Nat.sub_0_r.
    - destruct fuel as [|fuel]; [lia|].
      destruct suf as [|a suf].
      { cbn. rewrite Nat.min_0_r. cbn. now rewrite Nat.add_0_r, Nat.sub_0_r. }
      destruct outlen as [|outlen].
      { cbn. now rewrite Nat.add_0_r. }
      apply bytes_cons in Hb. destruct Hb as [Ha Hb].
      destruct rest as [|r0 rest]; [simpl in Ho; lia|].
      destruct suf as [|b suf]; [|destruct suf as [|c suf]].
      + (* one byte left *)
        destruct (one_chars a Ha) as (E0 & E1).
        cbn [enc_loop]. cbn [length Nat.eqb orb].
        rewrite (rd_app _ ipre a [] (length ipre)) by auto. cbn [bind].
        rewrite E0; cbn [bind]. push1.
        destruct outlen as [|outlen]; [ fin | ].
        destruct rest as [|r1 rest]; [simpl in Ho; lia|]. cbn [pred Nat.eqb bind].
        rewrite E1; cbn [bind]. push1.
        destruct outlen as [|outlen]; [ fin | ].
        destruct rest as [|r2 rest]; [simpl in Ho; lia|]. cbn [pred Nat.eqb bind].
        push1.
        destruct outlen as [|outlen]; [ fin | ].
        destruct rest as [|r3 rest]; [simpl in Ho; lia|]. cbn [pred Nat.eqb bind].
        push1.
        destruct outlen as [|outlen]; [ fin | ].
        cbn [pred Nat.eqb bind]. destruct fuel; [simpl in Hf; lia|]. cbn [enc_loop Nat.eqb orb].
        fin.
      + apply bytes_cons in Hb. destruct Hb as [Hb _].
        destruct (two_chars a b Ha Hb) as (E0 & E1 & E2).
        cbn [enc_loop]. cbn [length Nat.eqb orb].
        rewrite (rd_app _ ipre a [b] (length ipre)) by auto. cbn [bind].
        rewrite E0; cbn [bind]. push1.
        destruct outlen as [|outlen]; [ fin | ].
        destruct rest as [|r1 rest]; [simpl in Ho; lia|]. cbn [pred Nat.eqb bind].
        rewrite (rd_app_r _ ipre [a; b] (length ipre + 1) 1) by auto. cbn [rd nth_error bind].
        rewrite E1; cbn [bind]. push1.
        destruct outlen as [|outlen]; [ fin | ].
        destruct rest as [|r2 rest]; [simpl in Ho; lia|]. cbn [pred Nat.eqb bind].
        rewrite E2; cbn [bind]. push1.
        destruct outlen as [|outlen]; [ fin | ].
        destruct rest as [|r3 rest]; [simpl in Ho; lia|]. cbn [pred Nat.eqb bind].
        push1.
        destruct outlen as [|outlen]; [ fin | ].
        cbn [pred Nat.eqb bind]. destruct fuel; [simpl in Hf; lia|]. cbn [enc_loop Nat.eqb orb].
        fin.
      + apply bytes_cons in Hb. destruct Hb as [Hb Hs].
        apply bytes_cons in Hs. destruct Hs as [Hc Hs].
        destruct (full_chars a b c Ha Hb Hc) as (E0 & E1 & E2 & E3).
        cbn [enc_loop]. cbn [length Nat.eqb orb].
        rewrite (rd_app _ ipre a (b :: c :: suf) (length ipre)) by auto. cbn [bind].
        rewrite E0; cbn [bind]. push1.
        destruct outlen as [|outlen]; [ fin | ].
        destruct rest as [|r1 rest]; [simpl in Ho; lia|]. cbn [pred Nat.eqb bind].
        rewrite (rd_app_r _ ipre (a :: b :: c :: suf) (length ipre + 1) 1) by auto.
        rewrite (rd_app_r _ ipre (a :: b :: c :: suf) (length ipre + 2) 2) by auto.
        cbn [rd nth_error bind].
        rewrite E1; cbn [bind]. push1.
        destruct outlen as [|outlen]; [ fin | ].
        destruct rest as [|r2 rest]; [simpl in Ho; lia|]. cbn [pred Nat.eqb bind].
        rewrite E2; cbn [bind]. push1.
        destruct outlen as [|outlen]; [ fin | ].
        destruct rest as [|r3 rest]; [simpl in Ho; lia|]. cbn [pred Nat.eqb bind].
        rewrite E3; cbn [bind]. push1.
        destruct outlen as [|outlen]; [ fin | ].
        cbn [pred Nat.eqb bind].
        destruct suf as [|d suf].
        * cbn [length Nat.eqb]. destruct fuel; [simpl in Hf; lia|].
          cbn [enc_loop Nat.eqb orb]. fin.
        * cbn [length Nat.eqb].
          replace (length ipre + 3)%nat with (length (ipre ++ [a; b; c]))
            by (rewrite app_length; auto).
          replace (ipre ++ a :: b :: c :: d :: suf) with ((ipre ++ [a; b; c]) ++ d :: suf)
            by (rewrite <- app_assoc; auto).
          match goal with |- enc_loop _ _ _ _ _ _ (?p ++ rest) ?i _ = _ =>
            replace i with (length p) by (rewrite ?app_length; simpl; lia) end.
          change (S (length suf)) with (length (d :: suf)).
          rewrite IH; [ | simpl in *; lia | auto | simpl in *; lia | simpl in *; lia].
          cbn zeta.
          change (enc (a :: b :: c :: d :: suf)) with
              (group c62 c63 (a * 65536 + b * 256 + c) ++ enc (d :: suf)).
          rewrite (app_length (group c62 c63 (a * 65536 + b * 256 + c))). change (length (group c62 c63 (a * 65536 + b * 256 + c))) with 4%nat.
          assert (Em : Nat.min (S (S (S (S (S outlen))))) (4 + length (enc (d :: suf))) =
                       (4 + Nat.min (S outlen) (length (enc (d :: suf))))%nat) by lia.
          rewrite Em.
          remember (Nat.min (S outlen) (length (enc (d :: suf)))) as m eqn:Dm.
          cbn [Nat.add firstn skipn group app]. apply ok3; [|rewrite ?app_length; cbn [length]; lia|lia].
          now rewrite <- !app_assoc.
  Qed.

  Lemma enc_length : forall n l, (length l <= n)%nat -> length (enc l) = rfc_length (length l).
  Proof.
    induction n as [|n IH]; intros l Hl.
    - destruct l; [reflexivity|simpl in Hl; lia].
    - destruct l as [|a [|b [|c t]]]; try reflexivity.
      cbn [rfc_encode]. rewrite app_length, IH by (simpl in Hl; lia).
      change (length (group c62 c63 (a * 65536 + b * 256 + c))) with 4%nat.
      unfold rfc_length. cbn [length].
      replace (S (S (S (length t))) + 2)%nat with (1 * 3 + (length t + 2))%nat by lia.
      rewrite Nat.div_add_l by lia. lia.
  Qed.

  Lemma encode_spec : forall inb out outlen,
    bytes inb -> (outlen <= length out)%nat ->
    encode alpha pad inb (length inb) out outlen =
    let k := Nat.min outlen (length (enc inb)) in
    Ok (firstn k (enc inb) ++
        (if (length (enc inb) <? outlen)%nat then 0 :: skipn (S k) out else skipn k out)).
  Proof.
    intros inb out outlen Hb Ho. unfold encode.
    pose proof (enc_loop_spec (length inb) inb (le_n _) [] [] out (S (length inb)) outlen Hb
                  ltac:(lia) Ho) as E.
    cbn [app length] in E. rewrite E. clear E.
    cbn zeta. cbn [bind].
    remember (Nat.min outlen (length (enc inb))) as k eqn:Dk. cbn [length app Nat.add].
    destruct (Nat.ltb_spec (length (enc inb)) outlen).
    - replace k with (length (enc inb)) in * by lia.
      destruct (Nat.eqb_spec (outlen - length (enc inb)) 0); [lia|].
      destruct (skipn (length (enc inb)) out) as [|x r] eqn:E.
      { assert (length (skipn (length (enc inb)) out) = 0%nat) by now rewrite E.
        rewrite skipn_length in H0. lia. }
      rewrite wr_app by (rewrite firstn_length; lia).
      replace (skipn (S (length (enc inb))) out) with r; auto.
      replace (S (length (enc inb))) with (1 + length (enc inb))%nat by lia.
      rewrite <- skipn_skipn, E. reflexivity.
    - destruct (Nat.eqb_spec (outlen - k) 0); [|lia]. reflexivity.
  Qed.

  (** *** Decoder *)

  Notation lead := (leading_values c62 c63).
  Notation wf := (well_formed c62 c63 pad).

  Lemma isb_spec : forall c, byte c ->
    isb tab c = Ok (match val c with Some _ => true | None => false end).
  Proof.
    intros. unfold isb. rewrite Htab by auto. cbn. destruct (val c) eqn:E; auto.
    apply Hrange in E. f_equal. lia.
  Qed.

  Definition sweep64 (P : Z -> Z -> bool) := forallb (fun a => forallb (P a) (zrange 64)) (zrange 64).
  Lemma sweep64_ok : forall P, sweep64 P = true ->
    forall a b, 0 <= a < 64 -> 0 <= b < 64 -> P a b = true.
  Proof.
    intros. pose proof (zrange_forall _ _ H a H0). cbn in H2.
    apply (zrange_forall 64 _ H2). auto.
  Qed.

  Lemma dx0 : forall a b, 0 <= a < 64 -> 0 <= b < 64 ->
    to_char (Z.lor (Z.shiftl a 2) (Z.shiftr b 4)) = a * 4 + b / 16.
  Proof.
    intros. apply Z.eqb_eq.
    apply (sweep64_ok (fun a b => to_char (Z.lor (Z.shiftl a 2) (Z.shiftr b 4)) =? a * 4 + b / 16));
      auto; vm_compute; reflexivity.
  Qed.
  Lemma dx1 : forall a b, 0 <= a < 64 -> 0 <= b < 64 ->
    to_char (Z.lor (Z.land (Z.shiftl a 4) 240) (Z.shiftr b 2)) = (a mod 16) * 16 + b / 4.
  Proof.
    intros. apply Z.eqb_eq.
    apply (sweep64_ok (fun a b => to_char (Z.lor (Z.land (Z.shiftl a 4) 240) (Z.shiftr b 2)) =? (a mod 16) * 16 + b / 4));
      auto; vm_compute; reflexivity.
  Qed.
  Lemma dx2 : forall a b, 0 <= a < 64 -> 0 <= b < 64 ->
    to_char (Z.lor (Z.land (Z.shiftl a 6) 192) b) = (a mod 4) * 64 + b.
  Proof.
    intros. apply Z.eqb_eq.
    apply (sweep64_ok (fun a b => to_char (Z.lor (Z.land (Z.shiftl a 6) 192) b) =? (a mod 4) * 64 + b));
      auto; vm_compute; reflexivity.
  Qed.

  Lemma put_spec : forall pre rest k v, (k <= length rest)%nat ->
    put (pre ++ rest) (length pre) k v =
    Ok (pre ++ firstn k [to_char v] ++ skipn (Nat.min k 1) rest,
        (length pre + Nat.min k 1)%nat, (k - 1)%nat).
  Proof.
    intros. unfold put. destruct k as [|k].
    - cbn. now rewrite Nat.add_0_r.
    - destruct rest as [|x rest]; [simpl in H; lia|].
      cbn [Nat.eqb]. rewrite wr_app by auto. cbn. rewrite Nat.min_0_r, firstn_nil. cbn.
      repeat f_equal; lia.
  Qed.

  (** The decoder's progress: the output buffer after storing [os], as far as the
      capacity [k] allows. *)
  Definition stored (pre rest : list Z) (k : nat) (os : list Z) : list Z :=
    pre ++ firstn k os ++ skipn (Nat.min k (length os)) rest.

  Lemma put_stored : forall pre rest k os v, (k <= length rest)%nat ->
    put (stored pre rest k os) (length pre + Nat.min k (length os)) (k - length os) v =
    Ok (stored pre rest k (os ++ [to_char v]),
        (length pre + Nat.min k (length (os ++ [to_char v])))%nat,
        (k - length (os ++ [to_char v]))%nat).
  Proof.
    intros. unfold stored.
    rewrite app_assoc.
    replace (length pre + Nat.min k (length os))%nat with (length (pre ++ firstn k os))
      by (rewrite app_length, firstn_length; lia).
    rewrite put_spec by (rewrite skipn_length; lia).
    rewrite !app_length, firstn_length. cbn [length].
    apply ok3; try lia.
    rewrite <- !app_assoc. f_equal.
    rewrite (firstn_app k os). rewrite <- app_assoc. f_equal. f_equal.
    rewrite skipn_skipn. f_equal. lia.
  Qed.

  Lemma stored_nil : forall pre rest k, pre ++ rest = stored pre rest k [].
  Proof. intros; unfold stored. cbn. rewrite firstn_nil, Nat.min_0_r. reflexivity. Qed.

  Lemma put_first : forall pre rest k v, (k <= length rest)%nat ->
    put (pre ++ rest) (length pre) k v =
    Ok (stored pre rest k [to_char v],
        (length pre + Nat.min k (length [to_char v]))%nat, (k - length [to_char v])%nat).
  Proof.
    intros. pose proof (put_stored pre rest k [] v H) as E.
    rewrite <- stored_nil in E. cbn [length app] in E.
    now rewrite Nat.min_0_r, Nat.add_0_r, Nat.sub_0_r in E.
  Qed.

  Lemma stored_app : forall pre rest k os os', (k <= length rest)%nat ->
    stored pre rest k (os ++ os') =
    stored (pre ++ firstn k os) (skipn (Nat.min k (length os)) rest) (k - length os) os'.
  Proof.
    intros. unfold stored. rewrite firstn_app, <- !app_assoc. do 3 f_equal.
    rewrite skipn_skipn, app_length. f_equal. lia.
  Qed.

  Ltac some c := destruct (val c) eqn:?; [|].

  Lemma wf_inv4 : forall a b c d t, wf (a :: b :: c :: d :: t) ->
    val a <> None /\ val b <> None /\
    ((c = pad /\ d = pad /\ t = []) \/
     (val c <> None /\ ((d = pad /\ t = []) \/ (val d <> None /\ wf t)))).
  Proof. intros. inversion H; subst; tauto. Qed.

  Lemma wf_len : forall l, wf l -> exists k, length l = (4 * k)%nat.
  Proof.
    induction 1; try (exists 1%nat; reflexivity).
    - exists 0%nat; reflexivity.
    - destruct IHwell_formed as [k E]. exists (S k). cbn. lia.
  Qed.

  Ltac wfbad := let W := fresh in let k := fresh in let E := fresh in
    right; split; [lia | intro W; apply wf_len in W; destruct W as [k E]; simpl in E; lia].

  Ltac bound := match goal with
    | H : val ?c = Some ?v |- _ => 
      lazymatch goal with
      | _ : 0 <= v < 64 |- _ => fail
      | _ => pose proof (Hrange c v H)
      end end.

  (* final outcome of the loop: all octets stored, and the remaining length tells
     whether the text was well formed *)
  Definition outcome (suf pre rest : list Z) (k : nat) (r : res (list Z * nat * nat)) : Prop :=
    exists left_, r = Ok (stored pre rest k (octets (lead suf)),
                          (k - length (octets (lead suf)))%nat, left_)
                  /\ ((left_ = 0%nat /\ wf suf) \/ ((0 < left_)%nat /\ ~ wf suf)).

  Lemma o1 : forall a b, 0 <= a < 64 -> 0 <= b < 64 ->
    (a * 262144 + b * 4096) / 65536 = a * 4 + b / 16.
  Proof. intros; zdm. Qed.
  Lemma o2a : forall a b c, 0 <= a < 64 -> 0 <= b < 64 -> 0 <= c < 64 ->
    (a * 262144 + b * 4096 + c * 64) / 65536 = a * 4 + b / 16.
  Proof. intros; zdm. Qed.
  Lemma o2b : forall a b c, 0 <= a < 64 -> 0 <= b < 64 -> 0 <= c < 64 ->
    (a * 262144 + b * 4096 + c * 64) / 256 mod 256 = (b mod 16) * 16 + c / 4.
  Proof. intros; zdm. Qed.
  Lemma o3a : forall a b c d, 0 <= a < 64 -> 0 <= b < 64 -> 0 <= c < 64 -> 0 <= d < 64 ->
    (a * 262144 + b * 4096 + c * 64 + d) / 65536 = a * 4 + b / 16.
  Proof. intros; zdm. Qed.
  Lemma o3b : forall a b c d, 0 <= a < 64 -> 0 <= b < 64 -> 0 <= c < 64 -> 0 <= d < 64 ->
    (a * 262144 + b * 4096 + c * 64 + d) / 256 mod 256 = (b mod 16) * 16 + c / 4.
  Proof. intros; zdm. Qed.
  Lemma o3c : forall a b c d, 0 <= a < 64 -> 0 <= b < 64 -> 0 <= c < 64 -> 0 <= d < 64 ->
    (a * 262144 + b * 4096 + c * 64 + d) mod 256 = (c mod 4) * 64 + d.
  Proof. intros; zdm. Qed.

  Lemma lead1 : forall a va t, val a = Some va -> lead (a :: t) = va :: lead t.
  Proof. intros. cbn. now rewrite H. Qed.
  Lemma lead0 : forall a t, val a = None -> lead (a :: t) = [].
  Proof. intros. cbn. now rewrite H. Qed.

  (** Octets when the first two (three) values are known but no fourth one. *)
  Lemma oct2 : forall a b, 0 <= a < 64 -> 0 <= b < 64 -> octets [a; b] = [a * 4 + b / 16].
  Proof. intros. cbn [octets]. now rewrite o1. Qed.
  Lemma oct3 : forall a b c, 0 <= a < 64 -> 0 <= b < 64 -> 0 <= c < 64 ->
    octets [a; b; c] = [a * 4 + b / 16; (b mod 16) * 16 + c / 4].
  Proof. intros. cbn [octets]. now rewrite o2a, o2b. Qed.
  Lemma oct4 : forall a b c d t, 0 <= a < 64 -> 0 <= b < 64 -> 0 <= c < 64 -> 0 <= d < 64 ->
    octets (a :: b :: c :: d :: t) =
    [a * 4 + b / 16; (b mod 16) * 16 + c / 4; (c mod 4) * 64 + d] ++ octets t.
  Proof. intros. cbn [octets app]. now rewrite o3a, o3b, o3c. Qed.

  Lemma dec_loop_spec : forall n suf, (length suf <= n)%nat ->
    forall ipre pre rest fuel k,
    bytes suf -> (length suf <= fuel)%nat -> (k <= length rest)%nat ->
    outcome suf pre rest k
      (dec_loop tab pad fuel (ipre ++ suf) (length ipre) (length suf) (pre ++ rest) (length pre) k).
  Proof.
    induction n as [|n IH]; intros suf Hn ipre pre rest fuel k Hb Hf Hk.
    - destruct suf; [|simpl in Hn; lia]. unfold outcome. destruct fuel; cbn.
      all: exists 0%nat; split;
        [rewrite <- stored_nil; repeat f_equal; lia | left; split; auto; constructor].
    - destruct suf as [|a suf].
      { unfold outcome. destruct fuel; cbn.
        all: exists 0%nat; split;
        [rewrite <- stored_nil; repeat f_equal; lia | left; split; auto; constructor]. }
      destruct suf as [|b suf].
      { unfold outcome. exists 1%nat. split.
        - assert (E : octets (lead [a]) = []) by (cbn; destruct (val a); auto).
          rewrite E. rewrite <- stored_nil. destruct fuel; cbn; repeat f_equal; lia.
        - wfbad. }
      destruct fuel as [|fuel]; [simpl in Hf; lia|].
      apply bytes_cons in Hb; destruct Hb as [Ha Hb].
      apply bytes_cons in Hb; destruct Hb as [Hbb Hb].
      cbn [dec_loop]. cbn [length]. change (S (S (length suf)) <? 2)%nat with false. cbn match.
      rewrite (rd_app_r _ ipre (a :: b :: suf) (length ipre) 0) by lia.
      rewrite (rd_app_r _ ipre (a :: b :: suf) (length ipre + 1) 1) by lia.
      rewrite (rd_app_r _ ipre (a :: b :: suf) (length ipre + 2) 2) by lia.
      rewrite (rd_app_r _ ipre (a :: b :: suf) (length ipre + 3) 3) by lia.
      cbn [rd nth_error bind].
      rewrite (isb_spec a Ha). cbn [bind].
      destruct (val a) as [va|] eqn:Va; cbn [negb].
      2: { exists (S (S (length suf))). split.
           - rewrite lead0 by auto. cbn [octets]. rewrite <- stored_nil. cbn; repeat f_equal; lia.
           - right. split; [lia|]. intro W. inversion W; congruence. }
      rewrite (isb_spec b Hbb). cbn [bind].
      destruct (val b) as [vb|] eqn:Vb; cbn [negb].
      2: { exists (S (S (length suf))). split.
           - rewrite (lead1 a va), lead0 by auto. cbn [octets].
             rewrite <- stored_nil. cbn; repeat f_equal; lia.
           - right. split; [lia|]. intro W. inversion W; congruence. }
      repeat bound.
      rewrite (Htab a Ha), Va, (Htab b Hbb), Vb. cbn [bind].
      rewrite put_first by auto. cbn [bind].
      rewrite dx0 by auto. cbn [app].
      destruct suf as [|c suf].
      { cbn [length Nat.eqb]. exists 2%nat. split; [|wfbad].
        rewrite (lead1 a va), (lead1 b vb) by auto. cbn [leading_values].
        rewrite oct2 by auto. reflexivity. }
      apply bytes_cons in Hb; destruct Hb as [Hc Hb].
      cbn [length]. change (S (S (S (length suf))) =? 2)%nat with false. cbn match.
      cbn [rd nth_error bind].
      destruct (Z.eqb_spec c pad) as [->|Hcp].
      + (* in[2] is padding *)
        assert (EL : octets (lead (a :: b :: pad :: suf)) = [va * 4 + vb / 16]).
        { rewrite (lead1 a va), (lead1 b vb), lead0 by auto. now rewrite oct2. }
        destruct (Nat.eqb_spec (S (S (S (length suf)))) 4); cbn [negb].
        2: { exists (S (S (S (length suf)))). split; [now rewrite EL|].
             right; split; [lia|]. intro W. destruct suf as [|d suf]; [inversion W|].
             apply wf_inv4 in W. destruct W as (_ & _ & [(_ & _ & W)|(W & _)]); subst; cbn in *; try lia; congruence. }
        destruct suf as [|d suf]; [simpl in *; lia|].
        destruct suf as [|x suf]; [|simpl in *; lia].
        cbn [rd bind nth_error].
        destruct (Z.eqb_spec d pad) as [->|Hd]; cbn [negb].
        * replace (4 - 4)%nat with 0%nat by lia.
          exists 0%nat. split.
          -- rewrite EL. destruct fuel; reflexivity.
          -- left; split; auto. apply wf_pad2; congruence.
        * exists 4%nat. split; [now rewrite EL|]. right; split; [lia|]. intro W.
          apply wf_inv4 in W. destruct W as (_ & _ & [(_ & W & _)|(W & _)]); congruence.
      + rewrite (isb_spec c Hc). cbn [bind].
        destruct (val c) as [vc|] eqn:Vc; cbn [negb].
        2: { exists (S (S (S (length suf)))). split.
             - rewrite (lead1 a va), (lead1 b vb), lead0 by auto. now rewrite oct2.
             - right; split; [lia|]. intro W. inversion W; congruence. }
        repeat bound.
        rewrite (Htab c Hc), Vc. cbn [bind].
        rewrite put_stored by auto. cbn [bind]. rewrite dx1 by auto. cbn [app].
        destruct suf as [|d suf].
        { cbn [length Nat.eqb]. exists 3%nat. split; [|wfbad].
          rewrite (lead1 a va), (lead1 b vb), (lead1 c vc) by auto. cbn [leading_values].
          rewrite oct3 by auto. reflexivity. }
        apply bytes_cons in Hb; destruct Hb as [Hd Hb].
        cbn [length]. change (S (S (S (S (length suf)))) =? 3)%nat with false. cbn match.
        cbn [rd nth_error bind].
        destruct (Z.eqb_spec d pad) as [->|Hdp].
        * assert (EL : octets (lead (a :: b :: c :: pad :: suf)) =
                       [va * 4 + vb / 16; vb mod 16 * 16 + vc / 4]).
          { rewrite (lead1 a va), (lead1 b vb), (lead1 c vc), lead0 by auto. now rewrite oct3. }
          destruct suf as [|x suf].
          -- cbn [length Nat.eqb negb]. replace (4 - 4)%nat with 0%nat by lia.
             exists 0%nat. split.
             ++ rewrite EL. destruct fuel; reflexivity.
             ++ left; split; auto. apply wf_pad1; congruence.
          -- cbn [length Nat.eqb negb]. exists (S (S (S (S (S (length suf)))))). split.
             ++ now rewrite EL.
             ++ right; split; [lia|]. intro W. apply wf_inv4 in W.
                destruct W as (_ & _ & [(W & _)|(_ & [(_ & W)|(W & _)])]); congruence.
        * rewrite (isb_spec d Hd). cbn [bind].
          destruct (val d) as [vd|] eqn:Vd; cbn [negb].
          2: { exists (S (S (S (S (length suf))))). split.
               - rewrite (lead1 a va), (lead1 b vb), (lead1 c vc), lead0 by auto. now rewrite oct3.
               - right; split; [lia|]. intro W. inversion W; congruence. }
          repeat bound.
          rewrite (Htab d Hd), Vd. cbn [bind].
          rewrite put_stored by auto. cbn [bind]. rewrite dx2 by auto. cbn [app].
          set (os := [va * 4 + vb / 16; vb mod 16 * 16 + vc / 4; vc mod 4 * 64 + vd]).
          replace (S (S (S (S (length suf)))) - 4)%nat with (length suf) by lia.
          replace (length ipre + 4)%nat with (length (ipre ++ [a; b; c; d]))
            by (rewrite app_length; auto).
          replace (ipre ++ a :: b :: c :: d :: suf) with ((ipre ++ [a; b; c; d]) ++ suf)
            by (rewrite <- app_assoc; auto).
          unfold stored. rewrite app_assoc.
          replace (length pre + Nat.min k (length os))%nat with (length (pre ++ firstn k os))
            by (rewrite app_length, firstn_length; lia).
          destruct (IH suf ltac:(simpl in *; lia) (ipre ++ [a; b; c; d]) (pre ++ firstn k os)
                       (skipn (Nat.min k (length os)) rest) fuel (k - length os)%nat)
            as (lf & E & W); auto; try (simpl in *; lia).
          { rewrite skipn_length. lia. }
          exists lf. split.
          -- rewrite E. rewrite (lead1 a va), (lead1 b vb), (lead1 c vc), (lead1 d vd) by auto.
             rewrite oct4 by auto. fold os. rewrite stored_app by auto.
             apply ok3; auto. rewrite app_length. lia.
          -- destruct W as [(? & W)|(? & W)]; [left|right]; split; auto.
             ++ apply wf_quad; auto; congruence.
             ++ intro W'. apply W. apply wf_inv4 in W'.
                destruct W' as (_ & _ & [(W' & _)|(_ & [(W' & _)|(_ & W')])]); auto; congruence.
  Qed.

  Lemma decode_spec : forall inb out cap, bytes inb -> (cap <= length out)%nat ->
    exists okb, decode tab pad inb (length inb) out cap =
      (let o := octets (lead inb) in let k := Nat.min cap (length o) in
       Ok (okb, firstn k o ++ skipn k out, k)) /\ (okb = true <-> wf inb).
  Proof.
    intros inb out cap Hb Hc. unfold decode.
    destruct (dec_loop_spec (length inb) inb (le_n _) [] [] out (length inb) cap Hb)
      as (lf & E & W); auto.
    cbn [app length] in E. rewrite E. cbn [bind].
    exists (lf =? 0)%nat. split.
    - unfold stored. cbn zeta. cbn [app].
      replace (firstn (Nat.min cap (length (octets (lead inb)))) (octets (lead inb)))
        with (firstn cap (octets (lead inb))).
      + apply ok3; auto. lia.
      + destruct (Nat.le_ge_cases cap (length (octets (lead inb)))).
        * now rewrite Nat.min_l by auto.
        * rewrite Nat.min_r by auto. rewrite !firstn_all2; auto.
    - destruct W as [(-> & W)|(H & W)].
      + cbn. tauto.
      + destruct lf; [lia|]. cbn. split; [discriminate|tauto].
  Qed.

  (** *** Round trip *)

  Lemma octets_length : forall n l, (length l <= n)%nat ->
    (length (octets l) <= 3 * (length l / 4) + 2)%nat.
  Proof.
    induction n as [|n IH]; intros l Hl.
    - destruct l; [cbn; lia|simpl in Hl; lia].
    - destruct l as [|a [|b [|c [|d t]]]]; try (cbn; lia).
      cbn [octets length]. specialize (IH t ltac:(simpl in Hl; lia)).
      replace (S (S (S (S (length t))))) with (1 * 4 + length t)%nat by lia.
      rewrite Nat.div_add_l by lia. lia.
  Qed.

  Lemma lead_length : forall l, (length (lead l) <= length l)%nat.
  Proof. induction l; cbn; [lia|]. destruct (val a); cbn; lia. Qed.

  Lemma lead_ch : forall v t, 0 <= v < 64 -> lead (ch v :: t) = v :: lead t.
  Proof. intros. apply lead1. apply Hval; auto. Qed.

  Lemma wfch : forall v, 0 <= v < 64 -> val (ch v) <> None.
  Proof. intros. rewrite Hval by auto. discriminate. Qed.

  Lemma regroup : forall n, 0 <= n < 16777216 ->
    n / 262144 * 262144 + n / 4096 mod 64 * 4096 + n / 64 mod 64 * 64 + n mod 64 = n.
  Proof. intros; zdm. Qed.

  Lemma roundtrip : forall m l, (length l <= m)%nat -> bytes l ->
    wf (enc l) /\ octets (lead (enc l)) = l.
  Proof.
    induction m as [|m IH]; intros l Hl Hb.
    - destruct l; [|simpl in Hl; lia]. split; [constructor|reflexivity].
    - destruct l as [|a l]; [split; [constructor|reflexivity]|].
      apply bytes_cons in Hb; destruct Hb as [Ha Hb]. unfold byte in *.
      destruct l as [|b l].
      { assert (0 <= a * 65536 / 262144 < 64) by zdm.
        pose proof (mod64_range (a * 65536 / 4096)).
        cbn [rfc_encode group firstn app]. split.
        - apply wf_pad2; apply wfch; auto.
        - rewrite !lead_ch by auto. rewrite lead0 by auto. cbn [octets].
          f_equal. zdm. }
      apply bytes_cons in Hb; destruct Hb as [Hbb Hb]. unfold byte in *.
      destruct l as [|c l].
      { set (n := a * 65536 + b * 256).
        assert (0 <= n / 262144 < 64) by (subst n; zdm).
        pose proof (mod64_range (n / 4096)). pose proof (mod64_range (n / 64)).
        change (enc [a; b]) with (firstn 3 (group c62 c63 n) ++ [pad]).
        cbn [group firstn app]. split.
        - apply wf_pad1; apply wfch; auto.
        - rewrite !lead_ch by auto. rewrite lead0 by auto. cbn [octets].
          subst n. f_equal; [zdm|f_equal; zdm]. }
      apply bytes_cons in Hb; destruct Hb as [Hc Hb]. unfold byte in *.
      destruct (IH l ltac:(simpl in Hl; lia) Hb) as [W O].
      set (n := a * 65536 + b * 256 + c).
      assert (0 <= n / 262144 < 64) by (subst n; zdm).
      pose proof (mod64_range (n / 4096)). pose proof (mod64_range (n / 64)).
      pose proof (mod64_range n).
      change (enc (a :: b :: c :: l)) with (group c62 c63 n ++ enc l).
      cbn [group app]. split.
      + apply wf_quad; auto; apply wfch; auto.
      + rewrite !lead_ch by auto. cbn [octets]. cbn zeta. rewrite regroup by (subst n; lia).
        rewrite O. subst n. f_equal; [zdm|f_equal; [zdm|f_equal; zdm]].
  Qed.

  Lemma wf_alpha : forall l, wf l -> Forall (fun c => val c <> None \/ c = pad) l.
  Proof. induction 1; repeat (apply Forall_cons; [tauto|]); auto. Qed.
Lemma roundtrip_main : forall x ebuf outlen dbuf cap,
  bytes x -> (rfc_length (length x) <= outlen <= length ebuf)%nat ->
  (length x <= cap <= length dbuf)%nat ->
  exists text rest,
    encode alpha pad x (length x) ebuf outlen = Ok (text ++ rest) /\
    length text = rfc_length (length x) /\
    decode tab pad text (length text) dbuf cap =
      Ok (true, x ++ skipn (length x) dbuf, length x).
Proof.
  intros. pose proof (encode_spec x ebuf outlen H ltac:(lia)) as E.
  destruct (roundtrip (length x) x (le_n _) H) as [W O].
  pose proof (enc_length (length x) x (le_n _)) as L.
  cbn zeta in E. rewrite Nat.min_r in E by lia. rewrite firstn_all in E.
  exists (rfc_encode c62 c63 pad x). eexists. split; [exact E|]. split; [exact L|].
  assert (B : bytes (rfc_encode c62 c63 pad x)).
  { eapply Forall_impl; [|eapply wf_alpha; eauto]. cbn. auto. }
  destruct (decode_spec _ dbuf cap B ltac:(lia))
    as (okb & D & Wb).
  rewrite D. cbn zeta. rewrite O. rewrite Nat.min_r by lia. rewrite firstn_all.
  assert (okb = true) by tauto. subst. reflexivity.
Qed.

Lemma decode_alloc_main : forall fresh inb,
  (forall n b, fresh n = Some b -> length b = n) -> bytes inb ->
  (well_formed c62 c63 pad inb /\
   exists blk, fresh (3 * (length inb / 4) + 2)%nat = Some blk /\
   decode_alloc tab pad fresh inb (length inb) =
     Ok (true, Some (rfc_decoded c62 c63 inb ++ skipn (length (rfc_decoded c62 c63 inb)) blk),
         Some (length (rfc_decoded c62 c63 inb)))) \/
  (fresh (3 * (length inb / 4) + 2)%nat = None /\
   decode_alloc tab pad fresh inb (length inb) = Ok (true, None, None)) \/
  (~ well_formed c62 c63 pad inb /\
   fresh (3 * (length inb / 4) + 2)%nat <> None /\
   decode_alloc tab pad fresh inb (length inb) = Ok (false, None, None)).
Proof.
  intros. unfold decode_alloc.
  destruct (fresh (3 * (length inb / 4) + 2)%nat) as [blk|] eqn:F; [|right; left; auto].
  pose proof (H _ _ F) as L.
  destruct (decode_spec inb blk _ H0
              (Nat.eq_le_incl _ _ (eq_sym L))) as (okb & D & W).
  rewrite D. cbn zeta. cbn [bind].
  pose proof (lead_length inb) as LL.
  pose proof (octets_length _ (leading_values c62 c63 inb) (le_n _)) as OL.
  assert (length (leading_values c62 c63 inb) / 4 <= length inb / 4)%nat
    by (apply Nat.div_le_mono; lia).
  fold (rfc_decoded c62 c63 inb) in *.
  rewrite Nat.min_r by lia. rewrite firstn_all.
  destruct okb.
  - left. split; [tauto|]. exists blk. auto.
  - right; right. split; [intro W'; apply W in W'; discriminate|]. split; [discriminate|auto].
Qed.
End P.
Set Default Proof Using "Type".

(** *** Instances *)

Definition ok_res (r : res Z) (v : Z) : bool := match r with Ok x => x =? v | _ => false end.
Lemma ok_res_eq : forall r v, ok_res r v = true -> r = Ok v.
Proof. destruct r; cbn; intros; try discriminate. f_equal. lia. Qed.

Lemma alpha64 : forall v, 0 <= v < 64 -> rd b64str (Z.to_nat v) = Ok (rfc_char 43 47 v).
Proof.
  intros. apply ok_res_eq.
  apply (zrange_forall 64 (fun v => ok_res (rd b64str (Z.to_nat v)) (rfc_char 43 47 v))); auto.
Qed.
Lemma alphaw : forall v, 0 <= v < 64 -> rd w64str (Z.to_nat v) = Ok (rfc_char 45 95 v).
Proof.
  intros. apply ok_res_eq.
  apply (zrange_forall 64 (fun v => ok_res (rd w64str (Z.to_nat v)) (rfc_char 45 95 v))); auto.
Qed.
Lemma tab64 : forall c, byte c ->
  rd b64 (Z.to_nat c) = Ok (match rfc_value 43 47 c with Some v => v | None => -1 end).
Proof.
  intros. apply ok_res_eq.
  apply (zrange_forall 256 (fun c => ok_res (rd b64 (Z.to_nat c))
           (match rfc_value 43 47 c with Some v => v | None => -1 end))); auto.
Qed.
Lemma tabw : forall c, byte c ->
  rd w64 (Z.to_nat c) = Ok (match rfc_value 45 95 c with Some v => v | None => -1 end).
Proof.
  intros. apply ok_res_eq.
  apply (zrange_forall 256 (fun c => ok_res (rd w64 (Z.to_nat c))
           (match rfc_value 45 95 c with Some v => v | None => -1 end))); auto.
Qed.

Definition ok_opt (r : option Z) (v : Z) : bool := match r with Some x => x =? v | _ => false end.
Lemma val64 : forall v, 0 <= v < 64 -> rfc_value 43 47 (rfc_char 43 47 v) = Some v.
Proof.
  intros. pose proof (zrange_forall 64 (fun v => ok_opt (rfc_value 43 47 (rfc_char 43 47 v)) v) eq_refl v H).
  cbn beta in H0. destruct (rfc_value 43 47 (rfc_char 43 47 v)); cbn in H0; [f_equal; lia|discriminate].
Qed.
Lemma valw : forall v, 0 <= v < 64 -> rfc_value 45 95 (rfc_char 45 95 v) = Some v.
Proof.
  intros. pose proof (zrange_forall 64 (fun v => ok_opt (rfc_value 45 95 (rfc_char 45 95 v)) v) eq_refl v H).
  cbn beta in H0. destruct (rfc_value 45 95 (rfc_char 45 95 v)); cbn in H0; [f_equal; lia|discriminate].
Qed.
Lemma range_val : forall c62 c63 c v, rfc_value c62 c63 c = Some v -> 0 <= v < 64.
Proof.
  unfold rfc_value; intros.
  repeat match type of H with context [if ?b then _ else _] => destruct b eqn:? end;
    inversion H; lia.
Qed.

(** *** encode_alloc *)

Lemma alloc_request_spec : forall inlen, 0 <= inlen < 2 ^ 64 ->
  encode_alloc_request inlen =
  if 1 + 4 * ((inlen + 2) / 3) <? 2 ^ 64 then Some (1 + 4 * ((inlen + 2) / 3)) else None.
Proof.
  intros. unfold encode_alloc_request, BASE64_LENGTH, size_max.
  change (2 ^ 64) with 18446744073709551616 in *.
  destruct (Z_lt_ge_dec (inlen + 2) 18446744073709551616).
  - rewrite (Z.mod_small (inlen + 2)) by lia.
    destruct (Z_lt_ge_dec (1 + 4 * ((inlen + 2) / 3)) 18446744073709551616).
    + rewrite (Z.mod_small (_ * 4)) by zdm. rewrite Z.mod_small by zdm.
      destruct (Z.ltb_spec (1 + (inlen + 2) / 3 * 4) inlen); [zdm|].
      destruct (Z.ltb_spec (1 + 4 * ((inlen + 2) / 3)) 18446744073709551616); [f_equal; lia|lia].
    + destruct (Z.ltb_spec (1 + 4 * ((inlen + 2) / 3)) 18446744073709551616); [lia|].
      match goal with |- context [if ?b then _ else _] => assert (E : b = true) end.
      { apply Z.ltb_lt. zdm. }
      now rewrite E.
  - match goal with |- context [(1 + ?e) mod _] => assert (E : e = 0) by zdm end.
    rewrite E. change ((1 + 0) mod 18446744073709551616) with 1.
    destruct (Z.ltb_spec 1 inlen); [|lia].
    destruct (Z.ltb_spec (1 + 4 * ((inlen + 2) / 3)) 18446744073709551616); [zdm|auto].
Qed.

(** *** The statements used by Base64_Props.v *)

Lemma min_ltb_skip : forall (o : list Z) (n outlen : nat), (outlen <= n)%nat ->
  (n <? outlen)%nat = false.
Proof. intros. apply Nat.ltb_ge. auto. Qed.

Lemma byte64 : forall c, rfc_value 43 47 c <> None \/ c = 61 -> byte c.
Proof.
  unfold byte, rfc_value. intros c [H|H]; [|lia].
  repeat match type of H with context [if ?b then _ else _] => destruct b eqn:? end; try lia.
  congruence.
Qed.
Lemma bytew : forall c, rfc_value 45 95 c <> None \/ c = 46 -> byte c.
Proof.
  unfold byte, rfc_value. intros c [H|H]; [|lia].
  repeat match type of H with context [if ?b then _ else _] => destruct b eqn:? end; try lia.
  congruence.
Qed.

Lemma web64_safe_text : forall x, bytes x ->
  Forall (fun c => 65 <= c <= 90 \/ 97 <= c <= 122 \/ 48 <= c <= 57 \/ c = 45 \/ c = 95 \/ c = 46)
         (rfc_encode 45 95 46 x).
Proof.
  intros. destruct (roundtrip 45 95 46 w64str w64 alphaw tabw eq_refl valw bytew (range_val 45 95) (length x) x (le_n _) H) as [W _].
  eapply Forall_impl; [|eapply (wf_alpha 45 95 46 w64str w64 alphaw tabw eq_refl valw bytew (range_val 45 95)); eauto]. cbn. unfold rfc_value. intros c [V|V]; [|lia].
  repeat match type of V with context [if ?b then _ else _] => destruct b eqn:? end; try lia.
  congruence.
Qed.


Definition rt64 := roundtrip_main 43 47 61 b64str b64 alpha64 tab64 eq_refl val64 byte64 (range_val 43 47).
Definition rtw := roundtrip_main 45 95 46 w64str w64 alphaw tabw eq_refl valw bytew (range_val 45 95).
Definition enc64 := encode_spec 43 47 61 b64str b64 alpha64 tab64 eq_refl val64 byte64 (range_val 43 47).
Definition encw := encode_spec 45 95 46 w64str w64 alphaw tabw eq_refl valw bytew (range_val 45 95).
Definition dec64 := decode_spec 43 47 61 b64str b64 alpha64 tab64 eq_refl val64 byte64 (range_val 43 47).
Definition decw := decode_spec 45 95 46 w64str w64 alphaw tabw eq_refl valw bytew (range_val 45 95).
Definition da64 := decode_alloc_main 43 47 61 b64str b64 alpha64 tab64 eq_refl val64 byte64 (range_val 43 47).
Definition len64 := enc_length 43 47 61 b64str b64 alpha64 tab64 eq_refl val64 byte64 (range_val 43 47).

Lemma web64_urlsafe_lemma : forall x out outlen,
  bytes x -> (outlen <= length out)%nat ->
  exists text rest, web64_encode x (length x) out outlen = Ok (text ++ rest) /\
    length text = Nat.min outlen (rfc_length (length x)) /\
    Forall (fun c => 65 <= c <= 90 \/ 97 <= c <= 122 \/ 48 <= c <= 57 \/ c = 45 \/ c = 95 \/ c = 46) text.
Proof.
  intros. unfold web64_encode. rewrite encw by auto. cbn zeta.
  eexists. eexists. split; [reflexivity|]. split.
  - rewrite firstn_length.
    rewrite (enc_length 45 95 46 w64str w64 alphaw tabw eq_refl valw bytew (range_val 45 95) (length x)) by auto.
    lia.
  - apply Forall_firstn. apply web64_safe_text; auto.
Qed.

Lemma encode_alloc_lemma : forall fresh x,
  (forall n b, fresh n = Some b -> length b = n) -> bytes x ->
  Z.of_nat (length x) < 2 ^ 64 ->
  let need := 1 + 4 * ((Z.of_nat (length x) + 2) / 3) in
  encode_alloc fresh x (length x) =
    if 2 ^ 64 <=? need then Ok (0, None)
    else match fresh (Z.to_nat need) with
         | None => Ok (need, None)
         | Some _ => Ok (need - 1, Some (rfc_encode 43 47 61 x ++ [0]))
         end.
Proof.
  intros fresh x Hf Hb Hlt need. unfold encode_alloc.
  rewrite alloc_request_spec by lia. fold need.
  destruct (Z.ltb_spec need (2 ^ 64)), (Z.leb_spec (2 ^ 64) need); try lia; auto.
  destruct (fresh (Z.to_nat need)) as [blk|] eqn:F; auto.
  apply Hf in F. rewrite enc64 by (auto; lia). cbn zeta.
  assert (L : length (rfc_encode 43 47 61 x) = rfc_length (length x)) by (eapply len64; auto).
  assert (N : Z.to_nat need = S (rfc_length (length x))).
  { unfold need, rfc_length. rewrite Z2Nat.inj_add; [|lia|].
    2: { pose proof (Z.div_pos (Z.of_nat (length x) + 2) 3). lia. }
    rewrite Z2Nat.inj_mul; [|lia|apply Z.div_pos; lia].
    rewrite Z2Nat.inj_div by lia. rewrite Z2Nat.inj_add by lia. rewrite Nat2Z.id.
    change (Z.to_nat 1) with 1%nat. change (Z.to_nat 4) with 4%nat.
    change (Z.to_nat 2) with 2%nat. change (Z.to_nat 3) with 3%nat. lia. }
  rewrite N in *. rewrite L. rewrite Nat.min_r by lia.
  destruct (Nat.ltb_spec (rfc_length (length x)) (S (rfc_length (length x)))); [|lia].
  cbn [bind]. rewrite <- L at 1. rewrite firstn_all. rewrite <- F. rewrite skipn_all. reflexivity.
Qed.
