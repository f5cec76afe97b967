(** Properties of coda/socket.h: addresses, ports, timeouts, send and recv. *)

From Coq Require Import ZArith List Bool Lia.
From Verif Require Import Base Util_Model Util_Proof Net_Model Net_Spec Net_Proof.
Import ListNotations.
Local Open Scope Z_scope.

(** *** C69: coda_inet_addr *)

(** Every dotted quad gives the address with its four bytes in network order; leading zeros
    do no harm, in any number. *)
Theorem C69_accepts_quads : forall s a b c d, quad s a b c d ->
  exists r, inet_addr s (length s) = Ok r /\ mem32 r = network_order a b c d.
Proof.
  intros s a b c d (s1 & s2 & s3 & s4 & D & O1 & O2 & O3 & O4).
  assert (V : forall g v, octet g v -> Forall digit g /\ val g = v /\ val g < 256).
  { intros g v (_ & Hd & Hv & Hl). split; [auto|]. pose proof (decimal_bound g Hd).
    unfold val. rewrite W64_small by lia. lia. }
  destruct (V _ _ O1) as (D1 & <- & V1), (V _ _ O2) as (D2 & <- & V2),
    (V _ _ O3) as (D3 & <- & V3), (V _ _ O4) as (D4 & <- & V4).
  eapply inet_addr_groups; eauto.
Qed.
Print Assumptions C69_accepts_quads.

(** Any input gives an answer without reading outside of it.  What is accepted has exactly
    three dots between groups of digits, and unless a group is empty or has 20 digits or
    more it is a dotted quad.  Missing to the full claim: see the refutations. *)
Theorem C69_rejects_the_rest_partial : forall s, Z.of_nat (length s) < 2 ^ 64 ->
  exists r, inet_addr s (length s) = Ok r /\
    (r <> INADDR_NONE ->
     exists s1 s2 s3 s4, dotted s s1 s2 s3 s4 /\ Forall (Forall digit) [s1; s2; s3; s4] /\
       (Forall (fun g => g <> [] /\ (length g <= 19)%nat) [s1; s2; s3; s4] ->
        quad s (decimal s1) (decimal s2) (decimal s3) (decimal s4))).
Proof.
  intros s Hl. destruct (inet_addr_total s) as [r Hr]. exists r. split; [exact Hr|]. intros N.
  destruct (inet_addr_accepts s r Hl Hr N) as (s1 & s2 & s3 & s4 & D & D1 & D2 & D3 & D4 & V1 & V2 & V3 & V4).
  exists s1, s2, s3, s4. split; [exact D|]. split; [repeat constructor; auto|]. intros F.
  inversion F as [|? ? [N1 L1] F1]; subst. inversion F1 as [|? ? [N2 L2] F2]; subst.
  inversion F2 as [|? ? [N3 L3] F3]; subst. inversion F3 as [|? ? [N4 L4] _]; subst.
  rewrite val_decimal in V1, V2, V3, V4 by auto.
  exists s1, s2, s3, s4. split; [exact D|]. unfold octet. repeat split; auto.
Qed.
Print Assumptions C69_rejects_the_rest_partial.

(** The answer for every text: four groups of digits, which may be empty, with dots between
    them, each below 256 after reduction modulo 2^64, are an address; anything else is
    INADDR_NONE. *)
Theorem C69_exact : forall s, Z.of_nat (length s) < 2 ^ 64 ->
  (forall s1 s2 s3 s4, dotted s s1 s2 s3 s4 -> Forall (Forall digit) [s1; s2; s3; s4] ->
     Forall (fun g => decimal g mod 2 ^ 64 < 256) [s1; s2; s3; s4] ->
     exists r, inet_addr s (length s) = Ok r /\
       mem32 r = network_order (decimal s1 mod 2 ^ 64) (decimal s2 mod 2 ^ 64) (decimal s3 mod 2 ^ 64) (decimal s4 mod 2 ^ 64)) /\
  ((forall s1 s2 s3 s4, dotted s s1 s2 s3 s4 -> Forall (Forall digit) [s1; s2; s3; s4] ->
     ~ Forall (fun g => decimal g mod 2 ^ 64 < 256) [s1; s2; s3; s4]) ->
   inet_addr s (length s) = Ok INADDR_NONE).
Proof.
  intros s Hl. split.
  - intros s1 s2 s3 s4 D F V. inversion F as [|? ? D1 F1]; subst. inversion F1 as [|? ? D2 F2]; subst.
    inversion F2 as [|? ? D3 F3]; subst. inversion F3 as [|? ? D4 _]; subst.
    inversion V as [|? ? V1 W1]; subst. inversion W1 as [|? ? V2 W2]; subst.
    inversion W2 as [|? ? V3 W3]; subst. inversion W3 as [|? ? V4 _]; subst.
    exact (inet_addr_groups s s1 s2 s3 s4 D D1 D2 D3 D4 V1 V2 V3 V4).
  - intros N. destruct (inet_addr_total s) as [r Hr]. destruct (Z.eq_dec r INADDR_NONE) as [->|E]; [exact Hr|]. exfalso.
    destruct (inet_addr_accepts s r Hl Hr E) as (s1 & s2 & s3 & s4 & D & D1 & D2 & D3 & D4 & V1 & V2 & V3 & V4).
    apply (N s1 s2 s3 s4 D); repeat constructor; assumption.
Qed.
Print Assumptions C69_exact.

Example C69_ex :
  (exists r, inet_addr (zs "192.168.0.17") 12 = Ok r /\ mem32 r = [192; 168; 0; 17]) /\
  inet_addr (zs "1.2.3") 5 = Ok INADDR_NONE /\ inet_addr (zs "1.2.3.256") 9 = Ok INADDR_NONE /\
  inet_addr (zs "1.2.3.4 ") 8 = Ok INADDR_NONE /\
  quad (zs "192.168.0.17") 192 168 0 17.
Proof.
  split; [eexists; split; reflexivity|]. repeat split.
  exists (zs "192"), (zs "168"), (zs "0"), (zs "17"). unfold octet, digit.
  repeat split; try discriminate; repeat constructor; cbn; lia.
Qed.

(** False as stated: text without digits is an address, *)
Theorem C69_empty_octets_refuted : exists s, (forall a b c d, ~ quad s a b c d) /\
  exists r, inet_addr s (length s) = Ok r /\ r <> INADDR_NONE /\ mem32 r = [0; 0; 0; 0].
Proof.
  exists (zs "..."). split.
  - intros a b c d (s1 & s2 & s3 & s4 & D & (N1 & D1 & _) & _). unfold dotted in D.
    destruct s1 as [|x s1]; [congruence|]. inversion D1 as [|? ? H _]; subst. cbn in D.
    injection D as E _. unfold digit in H. lia.
  - exists 0. split; [reflexivity|]. split; [discriminate|reflexivity].
Qed.
Print Assumptions C69_empty_octets_refuted.

(** a number above 255 is accepted if its remainder modulo 2^64 is small, *)
Theorem C69_overflow_refuted : exists s s1 s2 s3 s4, dotted s s1 s2 s3 s4 /\
  Forall (Forall digit) [s1; s2; s3; s4] /\ 255 < decimal s1 /\
  exists r, inet_addr s (length s) = Ok r /\ r <> INADDR_NONE /\ mem32 r = [10; 0; 0; 1].
Proof.
  exists (zs "18446744073709551626.0.0.1"), (zs "18446744073709551626"), (zs "0"), (zs "0"), (zs "1").
  split; [reflexivity|]. split.
  { repeat constructor; cbn; lia. }
  split; [vm_compute; reflexivity|]. exists 16777226. split; [reflexivity|]. split; [discriminate|reflexivity].
Qed.
Print Assumptions C69_overflow_refuted.

(** and the valid address 255.255.255.255 cannot be told from an error. *)
Theorem C69_broadcast_refuted : exists s, quad s 255 255 255 255 /\
  inet_addr s (length s) = Ok INADDR_NONE /\ inet_addr (zs "x") 1 = Ok INADDR_NONE.
Proof.
  exists (zs "255.255.255.255"). split; [|split; reflexivity].
  exists (zs "255"), (zs "255"), (zs "255"), (zs "255"). unfold octet, digit.
  repeat split; try discriminate; repeat constructor; cbn; lia.
Qed.
Print Assumptions C69_broadcast_refuted.

(** *** C70: coda_unix_recv *)

(** Any number of interruptions is survived: the result is that of the first call that is
    not interrupted, and that call is the last one made. *)
Theorem C70_recv_retries : forall intr r errno rest,
  Forall (fun x => fst x = -1 /\ snd x = EINTR) intr ->
  -1 <= r < 2 ^ 31 -> (r = -1 -> errno <> EINTR) ->
  unix_recv (intr ++ (r, errno) :: rest) = Ok (r, rest).
Proof.
  intros intr r errno rest H Hr He. induction H as [|[r' e'] intr [H1 H2] _ IH].
  - cbn [app unix_recv]. rewrite INT_small by lia.
    destruct (Z.leb_spec 0 r); [reflexivity|]. assert (r = -1) by lia. subst r.
    specialize (He eq_refl). destruct (Z.eqb_spec EINTR errno); [congruence|]. reflexivity.
  - cbn [fst snd] in H1, H2. subst. cbn [app unix_recv]. exact IH.
Qed.
Print Assumptions C70_recv_retries.

(** As long as all calls are interrupted it does not return. *)
Theorem C70_recv_waits : forall intr, Forall (fun x => fst x = -1 /\ snd x = EINTR) intr ->
  unix_recv intr = Fuel.
Proof.
  intros intr H. induction H as [|[r e] intr [H1 H2] _ IH]; [reflexivity|].
  cbn [fst snd] in *. subst. exact IH.
Qed.
Print Assumptions C70_recv_waits.

Example C70_ex : unix_recv [(-1, EINTR); (-1, EINTR); (17, 0); (3, 0)] = Ok (17, [(3, 0)]) /\
  unix_recv [(-1, EINTR); (0, 0)] = Ok (0, []) /\ unix_recv [(-1, 11)] = Ok (-1, []).
Proof. repeat split. Qed.

(** False for results beyond int: data that has been received is reported as an error, and
    after an earlier interruption it is thrown away and recv is called again. *)
Theorem C70_large_results_refuted : exists n, 0 < n < 2 ^ 63 /\
  unix_recv [(n, 0); (5, 0)] = Ok (-1, [(5, 0)]) /\
  unix_recv [(-1, EINTR); (n, EINTR); (5, 0)] = Ok (5, []).
Proof. exists (2 ^ 31). split; [lia|]. split; reflexivity. Qed.
Print Assumptions C70_large_results_refuted.

(** *** C89: socket timeouts *)

(** Below one second the timeout is what was asked for. *)
Theorem C89_timeout_partial : forall t, 0 <= t < 1000000 ->
  good_timeval (socket_timeout t) /\ microseconds (socket_timeout t) = t.
Proof. intros t H. unfold good_timeval, microseconds, socket_timeout. cbn [fst snd]. lia. Qed.
Print Assumptions C89_timeout_partial.

(** From one second on the kernel is given an invalid timeval and refuses it. *)
Theorem C89_long_timeouts_refuted : forall t, 1000000 <= t -> ~ good_timeval (socket_timeout t).
Proof. intros t H. unfold good_timeval, socket_timeout. cbn [snd]. lia. Qed.
Print Assumptions C89_long_timeouts_refuted.

Example C89_ex : socket_timeout 250000 = (0, 250000).
Proof. reflexivity. Qed.

(** *** C90: ports *)

(** A decimal port number below 65536 ends up in the address in network order; the text is
    not read past its terminator. *)
Theorem C90_port_partial : forall ds, ds <> [] -> Forall digit ds -> decimal ds < 65536 ->
  sin_port (ds ++ [0]) = Ok [decimal ds / 256; decimal ds mod 256] /\
  0 <= decimal ds / 256 < 256 /\ 0 <= decimal ds mod 256 < 256.
Proof.
  intros ds N D H. pose proof (decimal_bound ds D). rewrite sin_port_ok by auto. cbv zeta.
  rewrite Z.min_l by lia. rewrite (Z.mod_small (decimal ds)) by lia. split; [reflexivity|].
  split; [|apply Z.mod_pos_bound; lia]. split; [apply Z.div_pos; lia | apply Z.div_lt_upper_bound; lia].
Qed.
Print Assumptions C90_port_partial.

(** The port for every text: white space, then a sign or none, then digits, which may be
    missing; what follows is ignored.  The number is taken modulo 65536, after it was cut at
    2^64 - 1. *)
Theorem C90_exact : forall sp sign ds c rest,
  Forall white sp -> In sign [[]; [43]; [45]] -> Forall digit ds -> ~ digit c ->
  (sign = [] -> ds = [] -> ~ white c /\ c <> 43 /\ c <> 45) ->
  let v := decimal ds in
  let p := (if v <? 2 ^ 64 then match sign with [45] => - v | _ => v end else 2 ^ 64 - 1) mod 65536 in
  sin_port (sp ++ sign ++ ds ++ c :: rest) = Ok [p / 256; p mod 256] /\
  0 <= p / 256 < 256 /\ 0 <= p mod 256 < 256.
Proof.
  intros sp sign ds c rest Hs Hg Hd Hc Hn v p.
  assert (Pp : 0 <= p < 65536) by (apply Z.mod_pos_bound; lia).
  split; [|split; [split; [apply Z.div_pos; lia|apply Z.div_lt_upper_bound; lia]|apply Z.mod_pos_bound; lia]].
  assert (Wh : forall x, is_space x = true <-> white x).
  { intros x. unfold is_space, white. rewrite orb_true_iff, andb_true_iff, !Z.leb_le, Z.eqb_eq. tauto. }
  assert (Dg : forall x, digit x -> is_space x = false /\ (x =? 45) = false /\ (x =? 43) = false).
  { intros x Hx. unfold digit in Hx. split; [|split; apply Z.eqb_neq; lia].
    destruct (is_space x) eqn:E; [|reflexivity]. apply Wh in E. unfold white in E. lia. }
  assert (SK : forall t, match t with x :: _ => is_space x = false | [] => False end -> skip_spaces (sp ++ t) = Ok t).
  { intros t Ht. induction Hs as [|x sp Hx _ IH].
    - destruct t as [|x t]; [destruct Ht|]. cbn [app skip_spaces]. now rewrite Ht.
    - cbn [app skip_spaces]. apply Wh in Hx. rewrite Hx. exact IH. }
  unfold sin_port, strtoul10.
  assert (UD : ul_digits (ds ++ c :: rest) 0 = Ok v) by (apply ul_digits_ok; [exact Hd|exact Hc]).
  pose proof (decimal_bound ds Hd) as Bv. fold v in Bv.
  assert (FIN : forall b : bool, sign = (if b then [45] else sign) -> (b = false -> sign <> [45]) ->
    (v0 <- (if 2 ^ 64 <=? v then Ok (2 ^ 64 - 1) else Ok (if b then W64 (- v) else v)) ;;
     let h := v0 mod 65536 in Ok [h / 256; h mod 256]) = Ok [p / 256; p mod 256]).
  { intros b E1 E2. unfold p. destruct (Z.leb_spec (2 ^ 64) v) as [L|L], (Z.ltb_spec v (2 ^ 64)) as [L'|L']; try lia;
      cbn [bind]; [reflexivity|]. destruct b.
    - rewrite E1. cbv zeta. unfold W64. replace ((- v) mod 2 ^ 64 mod 65536) with ((- v) mod 65536); [reflexivity|].
      change (2 ^ 64) with (65536 * 2 ^ 48). rewrite Z.rem_mul_r by lia.
      rewrite Z.add_mod, (Z.mul_comm 65536), Z.mod_mul, Z.add_0_r, !Z.mod_mod by lia. reflexivity.
    - specialize (E2 eq_refl). destruct Hg as [<-|[<-|[<-|[]]]]; try reflexivity. congruence. }
  destruct Hg as [<-|[<-|[<-|[]]]].
  - cbn [app]. destruct ds as [|d ds].
    + destruct Hn as (N1 & N2 & N3); auto. cbn [app] in *.
      rewrite SK; [|destruct (is_space c) eqn:E; [apply Wh in E; contradiction|reflexivity]].
      cbn [bind rd nth_error]. rewrite (proj2 (Z.eqb_neq c 45) N3), (proj2 (Z.eqb_neq c 43) N2). rewrite UD. cbn [bind].
      apply (FIN false); [reflexivity|discriminate].
    + inversion Hd as [|? ? Hx _]; subst. destruct (Dg d Hx) as (X1 & X2 & X3).
      rewrite SK; [|exact X1]. cbn [bind rd nth_error app]. rewrite X2, X3. cbn [app] in UD. rewrite UD. cbn [bind].
      apply (FIN false); [reflexivity|discriminate].
  - rewrite SK; [|reflexivity]. cbn [bind rd nth_error app Z.eqb Pos.eqb tl]. rewrite UD. cbn [bind].
    apply (FIN false); [reflexivity|discriminate].
  - rewrite SK; [|reflexivity]. cbn [bind rd nth_error app Z.eqb Pos.eqb tl]. rewrite UD. cbn [bind].
    apply (FIN true); [reflexivity|discriminate].
Qed.
Print Assumptions C90_exact.
(** Every text with a terminator has this form. *)
Theorem C90_every_text : forall s, ~ In 0 s -> exists sp sign ds c rest, s ++ [0] = sp ++ sign ++ ds ++ c :: rest /\
  Forall white sp /\ In sign [[]; [43]; [45]] /\ Forall digit ds /\ ~ digit c /\
  (sign = [] -> ds = [] -> ~ white c /\ c <> 43 /\ c <> 45).
Proof.
  intros s _.
  assert (SP : exists sp t, s ++ [0] = sp ++ t /\ Forall white sp /\ exists c t', t = c :: t' /\ ~ white c /\ exists u, t = u ++ [0]).
  { induction s as [|x s (sp & t & E & F & c & t' & E' & N & u & U)].
    - exists [], [0]. split; [reflexivity|]. split; [constructor|]. exists 0, []. split; [reflexivity|].
      split; [unfold white; lia|]. exists []. reflexivity.
    - assert (D : white x \/ ~ white x) by (unfold white; lia). destruct D as [D|D].
      + exists (x :: sp), t. split; [cbn; now rewrite E|]. split; [constructor; assumption|]. exists c, t'. eauto.
      + exists [], (x :: s ++ [0]). split; [reflexivity|]. split; [constructor|]. exists x, (s ++ [0]).
        split; [reflexivity|]. split; [exact D|]. exists (x :: s). reflexivity. }
  assert (DG : forall u, exists ds c rest, u ++ [0] = ds ++ c :: rest /\ Forall digit ds /\ ~ digit c).
  { induction u as [|x u (ds & c & rest & E & F & N)].
    - exists [], 0, []. split; [reflexivity|]. split; [constructor|]. unfold digit. lia.
    - assert (D : digit x \/ ~ digit x) by (unfold digit; lia). destruct D as [D|D].
      + exists (x :: ds), c, rest. split; [cbn; now rewrite E|]. split; [constructor; assumption|exact N].
      + exists [], x, (u ++ [0]). split; [reflexivity|]. split; [constructor|exact D]. }
  destruct SP as (sp & t & E & F & c & t' & E' & N & u & U). rewrite E. subst t.
  assert (S0 : c <> 43 /\ c <> 45 \/ (c = 43 \/ c = 45)) by lia. destruct S0 as [S0|S0].
  - rewrite U. destruct (DG u) as (ds & d & rest & E2 & F2 & N2). exists sp, [], ds, d, rest.
    split; [now rewrite E2|]. split; [exact F|]. split; [left; reflexivity|]. split; [exact F2|]. split; [exact N2|].
    intros _ ->. rewrite <- U in E2. injection E2 as -> _. tauto.
  - destruct u as [|x u]; [injection U as -> _; lia|]. injection U as <- ->.
    destruct (DG u) as (ds & d & rest & E2 & F2 & N2). exists sp, [c], ds, d, rest.
    split; [cbn; now rewrite E2|]. split; [exact F|]. split; [cbn; destruct S0 as [->| ->]; tauto|].
    split; [exact F2|]. split; [exact N2|]. discriminate.
Qed.
Print Assumptions C90_every_text.

Example C90_ex2 : sin_port (zs " -1" ++ [0]) = Ok [255; 255] /\ sin_port (zs "80/tcp" ++ [0]) = Ok [0; 80].
Proof. split; reflexivity. Qed.

Example C90_ex : sin_port (zs "8080" ++ [0]) = Ok [31; 144] /\ Forall digit (zs "8080") /\ decimal (zs "8080") = 8080.
Proof. repeat split; repeat constructor; cbn; lia. Qed.

(** A larger number or other text is not refused: some other port is used. *)
Theorem C90_bad_ports_refuted :
  (exists ds, Forall digit ds /\ 65535 < decimal ds /\ sin_port (ds ++ [0]) = sin_port (zs "80" ++ [0])) /\
  (exists s, ~ Forall digit s /\ sin_port (s ++ [0]) = Ok [0; 0]).
Proof.
  split.
  - exists (zs "65616"). split; [repeat constructor; cbn; lia|]. split; reflexivity.
  - exists (zs "http"). split; [|reflexivity]. intros H. inversion H as [|? ? Hc _]; subst. unfold digit in Hc. cbn in Hc. lia.
Qed.
Print Assumptions C90_bad_ports_refuted.
