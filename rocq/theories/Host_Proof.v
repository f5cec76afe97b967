(** Lemmas about inet_addr of the C library. *)

From Coq Require Import ZArith List Bool Lia.
From Verif Require Import Base Fd_Model Net_Model Net_Spec Host_Model Host_Spec.
Import ListNotations.
Local Open Scope Z_scope.
Ltac dm := Z.to_euclidean_division_equations; lia.

(** *** digits *)

Lemma digit_in_dig : forall base c v, 2 <= base <= 16 -> digit_in base c = Some v <-> dig c v /\ v < base.
Proof.
  intros base c v Hb. unfold digit_in, isdigit.
  destruct (Z.leb_spec 48 c), (Z.leb_spec c 57), (Z.leb_spec 65 c), (Z.leb_spec c 90), (Z.leb_spec 97 c), (Z.leb_spec c 122);
    cbn [andb]; try lia;
    (match goal with |- context [?a <? ?b] => destruct (Z.ltb_spec a b) end; (split;
      [ intros E; try discriminate; injection E as <-; split; try lia;
        try (apply Dig_09; lia);
        try (replace (c - 55) with (c - 65 + 10) by lia; apply Dig_AF; lia);
        try (replace (c - 87) with (c - 97 + 10) by lia; apply Dig_af; lia); lia
      | intros [D L]; inversion D; subst; try lia; f_equal; lia ])).
Qed.
Lemma digit_in_none : forall base c, 2 <= base <= 16 -> digit_in base c = None -> forall v, dig c v -> v < base -> False.
Proof. intros base c Hb E v D L. rewrite (proj2 (digit_in_dig base c v Hb)) in E; [discriminate|auto]. Qed.

Lemma ul_base_app : forall base s n, 2 <= base <= 16 -> digits base s n -> forall rest acc,
  ul_base base (s ++ rest) acc = ul_base base rest (acc * base ^ Z.of_nat (length s) + n).
Proof.
  intros base s n Hb H. induction H as [c v Hd Hv | s n c v Hs IH Hd Hv]; intros rest acc.
  - cbn [app ul_base length]. rewrite (proj2 (digit_in_dig base c v Hb)) by auto.
    change (Z.of_nat 1) with 1. now rewrite Z.pow_1_r.
  - rewrite <- app_assoc, IH. cbn [app ul_base]. rewrite (proj2 (digit_in_dig base c v Hb)) by auto.
    f_equal. rewrite app_length. cbn [length]. rewrite Nat2Z.inj_add. change (Z.of_nat 1) with 1.
    rewrite Z.pow_add_r, Z.pow_1_r by lia. ring.
Qed.
Lemma digits_nonneg : forall base s n, 0 <= base -> digits base s n -> 0 <= n.
Proof. intros base s n Hb H. induction H as [c v D _ | s n c v _ IH D _]; inversion D; subst; nia. Qed.
Lemma digits_nonnil : forall base s n, digits base s n -> s <> [].
Proof. intros base s n H. inversion H; [discriminate|]. intros E. apply app_eq_nil in E. destruct E; discriminate. Qed.

(** scanning from a position where [acc] digits were read already *)
Lemma ul_base_scan : forall base t, 2 <= base <= 16 -> forall s0 n0, digits base s0 n0 ->
  exists s1 n rest, t ++ [0] = s1 ++ rest /\ digits base (s0 ++ s1) n /\ ul_base base (t ++ [0]) n0 = Ok (n, rest) /\
    exists c rest', rest = c :: rest' /\ digit_in base c = None.
Proof.
  intros base t Hb. induction t as [|c t IH]; intros s0 n0 H0.
  - exists [], n0, [0]. rewrite app_nil_r. split; [reflexivity|]. split; [exact H0|]. cbn [app ul_base].
    assert (D : digit_in base 0 = None).
    { destruct (digit_in base 0) as [v|] eqn:E; [|reflexivity]. apply digit_in_dig in E; [|exact Hb].
      destruct E as [E _]. inversion E; lia. }
    rewrite D. split; [reflexivity|]. exists 0, []. auto.
  - destruct (digit_in base c) as [v|] eqn:E.
    + assert (E' := E). apply digit_in_dig in E; [|exact Hb]. destruct E as [E1 E2].
      destruct (IH (s0 ++ [c]) (n0 * base + v)) as (s1 & n & rest & A1 & A2 & A3 & A4).
      { apply D_more; auto. }
      exists (c :: s1), n, rest. split; [cbn [app]; now rewrite A1|]. rewrite <- app_assoc in A2. split; [exact A2|].
      split; [cbn [app ul_base]; now rewrite E'|exact A4].
    + exists [], n0, (c :: t ++ [0]). rewrite app_nil_r. split; [reflexivity|]. split; [exact H0|].
      split; [cbn [app ul_base]; now rewrite E|]. exists c, (t ++ [0]). auto.
Qed.

Lemma c_number_nonneg : forall s n, c_number s n -> 0 <= n.
Proof. intros s n H. inversion H; subst; eapply digits_nonneg; eauto; lia. Qed.

(** *** strtoul *)

Definition ends (c : Z) : Prop := c = 0 \/ c = 46 \/ white c.
Lemma ends_no_digit : forall base c, 2 <= base <= 16 -> ends c -> digit_in base c = None.
Proof.
  intros base c Hb H. destruct (digit_in base c) as [v|] eqn:E; [|reflexivity]. apply digit_in_dig in E; [|exact Hb].
  destruct E as [E _]. unfold ends, white in H. inversion E; lia.
Qed.

Definition cut64 (n : Z) : option Z := if n <? 2 ^ 64 then Some n else None.
Lemma cut64_eq : forall n (e : list Z), (if n <? 2 ^ 64 then Ok (Some n, e) else Ok (None, e)) = Ok (cut64 n, e).
Proof. intros. unfold cut64. destruct (n <? 2 ^ 64); reflexivity. Qed.

(** a complete number before a dot, white space or the end is read in full *)
Lemma strtoul0_number : forall s n c rest, c_number s n -> ends c ->
  strtoul0 (s ++ c :: rest) = Ok (cut64 n, c :: rest).
Proof.
  intros s n c rest H Hc. unfold strtoul0. inversion H as [d t v Hd Hs|t v Hs|x t v Hx Hs]; subst.
  - cbn [app rd nth_error bind]. rewrite (proj2 (Z.eqb_neq d 48)) by lia. cbn [negb].
    rewrite (ul_base_app 10 (d :: t) n ltac:(lia) Hs (c :: rest) 0 : ul_base 10 (d :: t ++ c :: rest) 0 = _).
    cbn [ul_base]. rewrite ends_no_digit by (auto; lia). cbn [bind]. rewrite Z.mul_0_l, Z.add_0_l. apply cut64_eq.
  - cbn [app]. change (rd (48 :: t ++ c :: rest) 0) with (@Ok Z 48). cbn [bind Z.eqb Pos.eqb negb].
    assert (Rd : exists x, rd (48 :: t ++ c :: rest) 1 = Ok x /\ (x =? 120) || (x =? 88) = false).
    { destruct t as [|x t].
      - exists c. split; [reflexivity|]. unfold ends, white in Hc. apply orb_false_iff. rewrite !Z.eqb_neq. lia.
      - exists x. split; [reflexivity|].
        assert (D : exists v, dig x v /\ v < 8).
        { clear - Hs. remember (48 :: x :: t) as u eqn:E. revert x t E. induction Hs as [y v D L|s n y v Hs IH D L]; intros x t E.
          - discriminate.
          - destruct s as [|z s]; [exfalso; eapply digits_nonnil; eauto|]. cbn [app] in E. injection E as -> E.
            destruct s as [|w s].
            + cbn [app] in E. injection E as -> _. eauto.
            + cbn [app] in E. injection E as -> _. eapply IH. reflexivity. }
        destruct D as (v & D & L). inversion D; subst; apply orb_false_iff; rewrite !Z.eqb_neq; lia. }
    destruct Rd as (x & R1 & R2). rewrite R1. cbn [bind]. rewrite R2.
    rewrite (ul_base_app 8 (48 :: t) n ltac:(lia) Hs (c :: rest) 0 : ul_base 8 (48 :: t ++ c :: rest) 0 = _).
    cbn [ul_base]. rewrite ends_no_digit by (auto; lia). cbn [bind]. rewrite Z.mul_0_l, Z.add_0_l. apply cut64_eq.
  - cbn [app rd nth_error bind Z.eqb Pos.eqb negb].
    assert (X : (x =? 120) || (x =? 88) = true) by (apply orb_true_iff; rewrite !Z.eqb_eq; lia).
    rewrite X.
    assert (D : exists d t', t = d :: t' /\ exists v, digit_in 16 d = Some v).
    { clear - Hs. induction Hs as [y v D L|s n y v Hs (d & t' & -> & E) D L].
      - exists y, []. split; [reflexivity|]. exists v. apply digit_in_dig; [lia|auto].
      - exists d, (t' ++ [y]). auto. }
    destruct D as (d & t' & -> & w & Ed). cbn [app rd nth_error bind skipn]. rewrite Ed.
    rewrite (ul_base_app 16 (d :: t') n ltac:(lia) Hs (c :: rest) 0 : ul_base 16 (d :: t' ++ c :: rest) 0 = _).
    cbn [ul_base]. rewrite ends_no_digit by (auto; lia). cbn [bind]. rewrite Z.mul_0_l, Z.add_0_l. apply cut64_eq.
Qed.

(** what is read is a number *)
Lemma strtoul0_scan : forall c t, isdigit c = true ->
  exists s n rest, (c :: t) ++ [0] = s ++ rest /\ c_number s n /\ strtoul0 ((c :: t) ++ [0]) = Ok (cut64 n, rest) /\
    exists d rest', rest = d :: rest'.
Proof.
  intros c t Hc. unfold isdigit in Hc. apply andb_prop in Hc. rewrite !Z.leb_le in Hc. destruct Hc as [C1 C2].
  unfold strtoul0. cbn [app rd nth_error bind]. destruct (Z.eqb_spec c 48) as [->|N]; cbn [negb].
  - assert (D8 : digits 8 [48] 0) by (apply (D_one 8 48 (48 - 48)); [apply Dig_09; lia|lia]).
    assert (OCT : exists s n rest, 48 :: t ++ [0] = s ++ rest /\ c_number s n /\ ul_base 8 (48 :: t ++ [0]) 0 = Ok (n, rest) /\
      exists d rest', rest = d :: rest').
    { destruct (ul_base_scan 8 t ltac:(lia) [48] 0 D8) as (s1 & n & rest & A1 & A2 & A3 & d & r' & A4 & _).
      exists (48 :: s1), n, rest. split; [cbn [app]; now rewrite A1|]. split; [now apply N_oct|].
      split; [exact A3|]. eauto. }
    destruct t as [|x t].
    + cbn [app rd nth_error bind Z.eqb orb]. destruct OCT as (s & n & rest & B1 & B2 & B3 & B4).
      exists s, n, rest. cbn [app] in B1, B3. rewrite B3. cbn [bind]. split; [exact B1|]. split; [exact B2|]. split; [apply cut64_eq|exact B4].
    + cbn [app rd nth_error bind]. destruct ((x =? 120) || (x =? 88)) eqn:Ex.
      * assert (Hx : x = 120 \/ x = 88) by (apply orb_true_iff in Ex; rewrite !Z.eqb_eq in Ex; lia).
        destruct t as [|d t].
        -- cbn [app rd nth_error bind]. change (digit_in 16 0) with (@None Z). cbn [bind tl].
           exists [48], 0, [x; 0]. split; [reflexivity|]. split; [now apply N_oct|]. split; [reflexivity|]. eauto.
        -- cbn [app rd nth_error bind]. destruct (digit_in 16 d) as [v|] eqn:Ed.
           ++ assert (Ed' := Ed). apply digit_in_dig in Ed; [|lia]. destruct Ed as [E1 E2].
              destruct (ul_base_scan 16 t ltac:(lia) [d] v (D_one 16 d v E1 E2)) as (s1 & n & rest & A1 & A2 & A3 & e & r' & A4 & _).
              cbn [skipn ul_base]. rewrite Ed'. rewrite Z.mul_0_l, Z.add_0_l, A3. cbn [bind].
              exists (48 :: x :: d :: s1), n, rest. split; [cbn [app]; now rewrite A1|].
              split; [now apply N_hex|]. split; [apply cut64_eq|]. eauto.
           ++ cbn [bind tl]. exists [48], 0, (x :: d :: t ++ [0]). split; [reflexivity|]. split; [now apply N_oct|].
              split; [reflexivity|]. eauto.
      * destruct OCT as (s & n & rest & B1 & B2 & B3 & B4). cbn [app] in B1, B3.
        exists s, n, rest. rewrite B3. cbn [bind]. split; [exact B1|]. split; [exact B2|]. split; [apply cut64_eq|exact B4].
  - assert (D1 : digits 10 [c] (c - 48)) by (apply D_one; [apply Dig_09; lia|lia]).
    destruct (ul_base_scan 10 t ltac:(lia) [c] (c - 48) D1) as (s1 & n & rest & A1 & A2 & A3 & d & r' & A4 & _).
    cbn [ul_base]. rewrite (proj2 (digit_in_dig 10 c (c - 48) ltac:(lia))) by (split; [apply Dig_09; lia|lia]).
    rewrite Z.mul_0_l, Z.add_0_l, A3. cbn [bind].
    exists (c :: s1), n, rest. split; [cbn [app]; now rewrite A1|]. split; [apply N_dec; [lia|exact A2]|].
    split; [apply cut64_eq|]. eauto.
Qed.

Lemma c_number_first : forall s n, c_number s n -> exists c t, s = c :: t /\ isdigit c = true.
Proof.
  intros s n H. inversion H; subst; eexists; eexists; split; try reflexivity.
  unfold isdigit. apply andb_true_intro. rewrite !Z.leb_le. lia.
Qed.

(** *** the loop over the parts *)

(** the bytes read so far are parts before dots *)
Inductive parts : list Z -> list Z -> Prop :=
| P_nil : parts [] []
| P_cons : forall s a t l, c_number s a -> a < 256 -> parts t l -> parts (s ++ [46] ++ t) (a :: l).
Lemma parts_snoc : forall t l, parts t l -> forall s a, c_number s a -> a < 256 -> parts (t ++ s ++ [46]) (l ++ [a]).
Proof.
  intros t l H. induction H as [|s0 a0 t l H1 H2 _ IH]; intros s a Hs Ha.
  - cbn [app]. rewrite <- (app_nil_r [46]). apply (P_cons s a [] []); auto. constructor.
  - rewrite <- !app_assoc. apply (P_cons s0 a0 (t ++ s ++ [46]) (l ++ [a])); auto.
Qed.

Lemma cut_small : forall n, 0 <= n <= 4294967295 -> cut64 n = Some n /\ (4294967295 <? n) = false.
Proof. intros n H. unfold cut64. rewrite (proj2 (Z.ltb_lt n (2 ^ 64))) by lia. rewrite (proj2 (Z.ltb_ge 4294967295 n)) by lia. auto. Qed.

(** reading texts that are in order *)
Lemma aton_reads : forall t l, parts t l -> forall fuel s n c rest pp,
  c_number s n -> n <= 4294967295 -> c = 0 \/ white c -> (length pp + length l <= 3)%nat ->
  (length (t ++ s) <= fuel)%nat ->
  aton_loop fuel (t ++ s ++ c :: rest) pp = Ok (Some (pp ++ l, n, c :: rest)).
Proof.
  intros t l H. induction H as [|s0 a t l H1 H2 _ IH]; intros fuel s n c rest pp Hs Hn Hc Hl Hf.
  - destruct (c_number_first s n Hs) as (x & s' & -> & Hx). cbn [app] in Hf.
    destruct fuel as [|fuel]; [cbn in Hf; lia|]. cbn [app aton_loop rd nth_error bind]. rewrite Hx. cbn [negb].
    pose proof (strtoul0_number (x :: s') n c rest Hs ltac:(unfold ends; tauto)) as E. cbn [app] in E. rewrite E. cbn [bind].
    pose proof (c_number_nonneg _ _ Hs). destruct (cut_small n) as [-> ->]; [lia|]. cbn [rd nth_error bind].
    rewrite (proj2 (Z.eqb_neq c 46)) by (unfold white in Hc; lia). now rewrite app_nil_r.
  - destruct (c_number_first s0 a H1) as (x & s' & -> & Hx).
    destruct fuel as [|fuel]; [cbn in Hf; lia|].
    pose proof (strtoul0_number (x :: s') a 46 (t ++ s ++ c :: rest) H1 ltac:(unfold ends; auto)) as E.
    rewrite <- !app_assoc. cbn [app] in *. cbn [aton_loop rd nth_error bind]. rewrite Hx. cbn [negb]. rewrite E. cbn [bind].
    pose proof (c_number_nonneg _ _ H1). destruct (cut_small a) as [-> ->]; [lia|]. cbn [rd nth_error bind Z.eqb Pos.eqb tl].
    rewrite (proj2 (Nat.ltb_ge 2 (length pp))) by (cbn [length] in Hl; lia).
    rewrite (proj2 (Z.ltb_ge 255 a)) by lia. cbn [orb].
    rewrite (IH fuel s n c rest (pp ++ [a])); auto.
    + now rewrite <- app_assoc.
    + rewrite app_length. cbn [length] in *. lia.
    + cbn [length] in Hf. repeat (rewrite ?app_length in Hf; cbn [length] in Hf). rewrite app_length. lia.
Qed.

(** whatever is read was in order *)
Lemma aton_total : forall fuel t pp, (length t < fuel)%nat -> (length pp <= 3)%nat ->
  aton_loop fuel (t ++ [0]) pp = Ok None \/
  exists u l s n c rest, t ++ [0] = u ++ s ++ c :: rest /\ parts u l /\ c_number s n /\ 0 <= n <= 4294967295 /\ c <> 46 /\
    (length pp + length l <= 3)%nat /\ aton_loop fuel (t ++ [0]) pp = Ok (Some (pp ++ l, n, c :: rest)).
Proof.
  induction fuel as [|fuel IH]; intros t pp Hf Hp; [lia|].
  destruct t as [|x t]; [left; reflexivity|]. cbn [app aton_loop rd nth_error bind].
  destruct (isdigit x) eqn:Hx; cbn [negb]; [|left; reflexivity].
  destruct (strtoul0_scan x t Hx) as (s & n & rest & A1 & A2 & A3 & d & rest' & ->). cbn [app] in A3. rewrite A3. cbn [bind].
  destruct (cut64 n) as [m|] eqn:Em; [|left; reflexivity].
  assert (m = n) by (unfold cut64 in Em; destruct (n <? 2 ^ 64); congruence). subst m.
  destruct (Z.ltb_spec 4294967295 n) as [L|L]; [left; reflexivity|]. cbn [rd nth_error bind].
  pose proof (c_number_nonneg _ _ A2) as N0.
  destruct (Z.eqb_spec d 46) as [->|N].
  - destruct (Nat.ltb_spec 2 (length pp)) as [P|P]; [left; reflexivity|]. cbn [orb].
    destruct (Z.ltb_spec 255 n) as [Q|Q]; [left; reflexivity|]. cbn [tl].
    assert (R : exists t', rest' = t' ++ [0] /\ (length t' < fuel)%nat).
    { destruct (exists_last (l := rest')) as (t' & y & ->).
      - intros ->. pose proof (f_equal (fun l => last l 7) A1) as B. cbn beta in B. rewrite !last_last in B. discriminate.
      - exists t'. pose proof A1 as B. replace (s ++ 46 :: t' ++ [y]) with ((s ++ 46 :: t') ++ [y]) in B by (rewrite <- app_assoc; reflexivity).
        apply app_inj_tail in B. destruct B as [B <-]. split; [reflexivity|].
        apply (f_equal (@length Z)) in B. rewrite app_length in B. cbn [length] in B, Hf. lia. }
    destruct R as (t' & -> & Hl). destruct (IH t' (pp ++ [n])) as [E|(u & l & s' & n' & c & r & B1 & B2 & B3 & B4 & B5 & B6 & B7)].
    + exact Hl.
    + rewrite app_length. cbn [length]. lia.
    + left. exact E.
    + right. exists (s ++ [46] ++ u), (n :: l), s', n', c, r. cbn [app] in A1. split.
      { rewrite A1, B1. rewrite <- !app_assoc. reflexivity. }
      split; [apply P_cons; auto; lia|]. split; [exact B3|]. split; [exact B4|]. split; [exact B5|].
      rewrite app_length in B6. cbn [length] in *. split; [lia|]. rewrite B7. now rewrite <- app_assoc.
  - right. exists [], [], s, n, d, rest'. cbn [app] in *. split; [exact A1|]. split; [constructor|]. split; [exact A2|].
    split; [lia|]. split; [exact N|]. split; [cbn [length]; lia|]. now rewrite app_nil_r.
Qed.

(** *** the address *)

Fixpoint addr_of (l : list Z) (w v : Z) : Z :=
  match l with [] => v | a :: l => a * 2 ^ w + addr_of l (w - 8) v end.

Lemma parts_nonneg : forall t l, parts t l -> Forall (fun a => 0 <= a < 256) l.
Proof. intros t l H. induction H; constructor; auto. pose proof (c_number_nonneg _ _ H). lia. Qed.

Lemma be32 : forall v, 0 <= v < 2 ^ 32 -> mem32 (htonl v) = net_bytes v.
Proof.
  intros v H. unfold mem32, htonl, net_bytes. change (2 ^ 24) with 16777216. change (2 ^ 16) with 65536. change (2 ^ 8) with 256.
  change (2 ^ 32) with 4294967296 in H.
  f_equal; [dm|]. f_equal; [dm|]. f_equal; [dm|]. f_equal. dm.
Qed.

Lemma assemble : forall l v, Forall (fun a => 0 <= a < 256) l -> (length l <= 3)%nat -> 0 <= v <= aton_max (length l) ->
  map (fun p => Z.lor (fst p) (snd p)) (combine (l ++ repeat 0 (4 - length l)) (mem32 (htonl v))) =
  net_bytes (addr_of l 24 v).
Proof.
  intros l v Hl Hn Hv.
  assert (B : 0 <= v < 2 ^ 32).
  { change (2 ^ 32) with 4294967296. destruct l as [|a [|b [|c [|]]]]; cbn [length aton_max] in Hv; lia. }
  rewrite be32 by exact B. clear B. unfold net_bytes.
  change (2 ^ 24) with 16777216. change (2 ^ 16) with 65536. change (2 ^ 8) with 256.
  destruct l as [|a [|b [|c [|]]]]; cbn [length] in Hn; try lia;
    repeat match goal with H : Forall _ (_ :: _) |- _ => inversion H as [|? ? ? ?]; subst; clear H end;
    cbn [length aton_max Nat.sub repeat app combine map fst snd addr_of] in *;
    change (2 ^ 24) with 16777216; change (2 ^ (24 - 8)) with 65536; change (2 ^ (24 - 8 - 8)) with 256;
    rewrite ?Z.lor_0_l.
  - reflexivity.
  - replace (v / 16777216) with 0 by dm. rewrite Z.lor_0_r. f_equal; [dm|]. f_equal; [dm|]. f_equal; [dm|]. f_equal. dm.
  - replace (v / 16777216) with 0 by dm. replace (v / 65536 mod 256) with 0 by dm. rewrite !Z.lor_0_r.
    f_equal; [dm|]. f_equal; [dm|]. f_equal; [dm|]. f_equal. dm.
  - replace (v / 16777216) with 0 by dm. replace (v / 65536 mod 256) with 0 by dm. replace (v / 256 mod 256) with 0 by dm.
    rewrite !Z.lor_0_r. f_equal; [dm|]. f_equal; [dm|]. f_equal; [dm|]. f_equal. dm.
Qed.

(** the notation in terms of [parts] *)
Lemma notation_parts : forall s v, notation s v <->
  exists t l u n, s = t ++ u /\ parts t l /\ (length l <= 3)%nat /\ c_number u n /\ n <= aton_max (length l) /\ v = addr_of l 24 n.
Proof.
  intros s v. split.
  - intros H. destruct H as [s v H L | s1 a s v H1 L1 H L | s1 a s2 b s v H1 L1 H2 L2 H L | s1 a s2 b s3 c s v H1 L1 H2 L2 H3 L3 H L].
    + exists [], [], s, v. cbn. repeat split; auto; try lia. constructor.
    + exists (s1 ++ [46] ++ []), [a], s, v. split; [rewrite <- !app_assoc; reflexivity|]. split; [repeat constructor; auto|].
      cbn. repeat split; auto; lia.
    + exists (s1 ++ [46] ++ (s2 ++ [46] ++ [])), [a; b], s, v. split; [rewrite <- !app_assoc; reflexivity|].
      split; [repeat constructor; auto|]. cbn [length aton_max addr_of]. repeat split; auto; try lia.
    + exists (s1 ++ [46] ++ (s2 ++ [46] ++ (s3 ++ [46] ++ []))), [a; b; c], s, v. split; [rewrite <- !app_assoc; reflexivity|].
      split; [repeat constructor; auto|]. cbn [length aton_max addr_of]. repeat split; auto; try lia.
  - intros (t & l & u & n & -> & Ht & Hl & Hu & Hn & ->).
    inversion Ht as [|s1 a t1 l1 P1 Q1 T1]; subst; [cbn [app addr_of length aton_max] in *; apply A_1; auto; lia|].
    inversion T1 as [|s2 b t2 l2 P2 Q2 T2]; subst.
    { rewrite <- !app_assoc. cbn [app length aton_max addr_of] in *. apply (A_2 s1 a u n); auto. lia. }
    inversion T2 as [|s3 c t3 l3 P3 Q3 T3]; subst.
    { rewrite <- !app_assoc. cbn [app length aton_max addr_of] in *. change (24 - 8) with 16.
      replace (a * 2 ^ 24 + (b * 2 ^ 16 + n)) with (a * 2 ^ 24 + b * 2 ^ 16 + n) by lia.
      apply (A_3 s1 a s2 b u n); auto. lia. }
    inversion T3 as [|s4 d t4 l4 P4 Q4 T4]; subst; [|cbn [length] in Hl; lia].
    rewrite <- !app_assoc. cbn [app length aton_max addr_of] in *. change (24 - 8) with 16. change (16 - 8) with 8.
    replace (a * 2 ^ 24 + (b * 2 ^ 16 + (c * 2 ^ 8 + n))) with (a * 2 ^ 24 + b * 2 ^ 16 + c * 2 ^ 8 + n) by lia.
    apply (A_4 s1 a s2 b s3 c u n); auto. lia.
Qed.
