(** Lemmas about coda_inet_addr, coda_unix_recv and the port. *)

From Coq Require Import ZArith List Bool Lia.
From Verif Require Import Base Util_Model Util_Proof Net_Model Net_Spec.
Import ListNotations.
Local Open Scope Z_scope.

(** the loop over a list *)
Fixpoint il (s : list Z) (addr octet n : Z) : option (Z * Z * Z) :=
  match s with
  | [] => Some (addr, octet, n)
  | c :: s =>
      if (48 <=? c) && (c <=? 57) then il s addr (W64 (octet * 10 + (c - 48))) n
      else if (c =? 46) && (octet <? 256) then il s (W32 (addr * 256 + octet)) 0 (W64 (n + 1))
      else None
  end.

Lemma W32_add : forall a o, 0 <= o < 2 ^ 64 -> W32 (W64 (W32 (a * 256) + o)) = W32 (a * 256 + o).
Proof.
  intros a o Ho. unfold W32, W64. 
  rewrite <- Znumtheory.Zmod_div_mod; try lia; [|exists (2 ^ 32); reflexivity].
  rewrite Z.add_mod_idemp_l by lia. reflexivity.
Qed.
Lemma W64_digit : forall o c, W64 (W64 (o * 10) + (c - 48)) = W64 (o * 10 + (c - 48)).
Proof. intros. apply W64_addl. Qed.
Lemma W64_range : forall x, 0 <= W64 x < 2 ^ 64.
Proof. intros. unfold W64. apply Z.mod_pos_bound. lia. Qed.

Lemma inet_loop_eq : forall s pre data addr o n, data = pre ++ s -> 0 <= o < 2 ^ 64 ->
  inet_loop (length s) data (length pre) addr o n = Ok (il s addr o n).
Proof.
  induction s as [|c s IH]; intros pre data addr o n E Ho; [reflexivity|].
  cbn [length inet_loop il]. rewrite E, rd_app by reflexivity. cbn [bind]. rewrite <- E.
  assert (E' : data = (pre ++ [c]) ++ s) by (rewrite E, <- app_assoc; reflexivity).
  assert (L : S (length pre) = length (pre ++ [c])) by (rewrite app_length; simpl; lia).
  destruct ((48 <=? c) && (c <=? 57)).
  - rewrite L, W64_digit. apply IH; [exact E' | apply W64_range].
  - destruct ((c =? 46) && (o <? 256)); [|reflexivity].
    rewrite L, W32_add by auto. apply IH; [exact E' | lia].
Qed.

Lemma inet_loop_0 : forall s, inet_loop (length s) s 0 0 0 0 = Ok (il s 0 0 0).
Proof. intros s. apply (inet_loop_eq s [] s 0 0 0 eq_refl). lia. Qed.

Definition val (s : list Z) : Z := W64 (decimal s).
Lemma decimal_snoc : forall s c, decimal (s ++ [c]) = decimal s * 10 + (c - 48).
Proof. intros. unfold decimal. rewrite fold_left_app. reflexivity. Qed.
Lemma val_snoc : forall s c, val (s ++ [c]) = W64 (val s * 10 + (c - 48)).
Proof.
  intros. unfold val. rewrite decimal_snoc. unfold W64.
  rewrite <- (Z.add_mod_idemp_l (decimal s mod _ * 10)), Z.mul_mod_idemp_l, Z.add_mod_idemp_l by lia. reflexivity.
Qed.

Lemma il_digits : forall ds cur s addr n, Forall digit ds ->
  il (ds ++ s) addr (val cur) n = il s addr (val (cur ++ ds)) n.
Proof.
  induction ds as [|c ds IH]; intros cur s addr n H; cbn [app il]; [rewrite app_nil_r; reflexivity|].
  inversion H as [|? ? Hc Ht]; subst. unfold digit in Hc.
  destruct (Z.leb_spec 48 c); [|lia]. destruct (Z.leb_spec c 57); [|lia]. cbn [andb].
  rewrite <- val_snoc, IH by auto. rewrite <- app_assoc. reflexivity.
Qed.

Definition acc (a : Z) (p : list Z) : Z := W32 (a * 256 + val p).

Lemma il_parts : forall s cur addr n a' o' n', Forall digit cur ->
  il s addr (val cur) n = Some (a', o', n') ->
  exists ps last, cur ++ s = flat_map (fun p => p ++ [46]) ps ++ last /\
    Forall (Forall digit) ps /\ Forall digit last /\ Forall (fun p => val p < 256) ps /\
    a' = fold_left acc ps addr /\ o' = val last /\ W64 n' = W64 (n + Z.of_nat (length ps)) /\
    (ps = [] -> n' = n) /\ (ps <> [] -> 0 <= n' < 2 ^ 64).
Proof.
  induction s as [|c s IH]; intros cur addr n a' o' n' Hc H; cbn [il] in H.
  - injection H as <- <- <-. exists [], cur. cbn [flat_map app fold_left length]. rewrite app_nil_r.
    repeat split; auto; try (f_equal; lia); try congruence.
  - destruct ((48 <=? c) && (c <=? 57)) eqn:Ed.
    + rewrite <- val_snoc in H. apply IH in H.
      * rewrite <- app_assoc in H. exact H.
      * apply Forall_app. split; [auto|]. constructor; [|constructor].
        apply andb_true_iff in Ed. destruct Ed as [E1 E2]. apply Z.leb_le in E1, E2. split; auto.
    + destruct ((c =? 46) && (val cur <? 256)) eqn:Ep; [|discriminate].
      apply andb_true_iff in Ep. destruct Ep as [E1 E2]. apply Z.eqb_eq in E1. apply Z.ltb_lt in E2. subst c.
      change 0 with (val []) in H at 1. apply IH in H; [|constructor].
      destruct H as (ps & last & E & F1 & F2 & F3 & A & O & N & N1 & N2). cbn [app] in E.
      exists (cur :: ps), last. cbn [flat_map fold_left length]. rewrite E, <- !app_assoc.
      repeat split; auto.
      * rewrite N. rewrite W64_addl. f_equal. lia.
      * intros X. discriminate.
      * destruct ps; [rewrite N1 by auto; apply W64_range | apply N2; discriminate].
      * destruct ps; [rewrite N1 by auto; apply W64_range | apply N2; discriminate].
Qed.

Lemma W32_3 : forall a b c d, 0 <= a < 256 -> 0 <= b < 256 -> 0 <= c < 256 -> 0 <= d < 256 ->
  W32 (W32 (W32 (W32 (0 * 256 + a) * 256 + b) * 256 + c) * 256 + d) = ((a * 256 + b) * 256 + c) * 256 + d.
Proof.
  intros. unfold W32. rewrite (Z.mod_small (0 * 256 + a)) by lia.
  rewrite (Z.mod_small ((0 * 256 + a) * 256 + b)) by lia.
  rewrite (Z.mod_small (((0 * 256 + a) * 256 + b) * 256 + c)) by lia. rewrite Z.mod_small; lia.
Qed.

Lemma mem_htonl : forall a b c d, 0 <= a < 256 -> 0 <= b < 256 -> 0 <= c < 256 -> 0 <= d < 256 ->
  mem32 (htonl (((a * 256 + b) * 256 + c) * 256 + d)) = [a; b; c; d].
Proof.
  intros a b c d Ha Hb Hc Hd.
  assert (E : htonl (((a * 256 + b) * 256 + c) * 256 + d) = ((d * 256 + c) * 256 + b) * 256 + a).
  { unfold htonl.
    replace ((((a * 256 + b) * 256 + c) * 256 + d) mod 256) with d by (apply Z.mod_unique_pos with ((a * 256 + b) * 256 + c); lia).
    replace ((((a * 256 + b) * 256 + c) * 256 + d) / 256) with ((a * 256 + b) * 256 + c) by (apply Z.div_unique_pos with d; lia).
    replace ((((a * 256 + b) * 256 + c) * 256 + d) / 65536) with (a * 256 + b) by (apply Z.div_unique_pos with (c * 256 + d); lia).
    replace ((((a * 256 + b) * 256 + c) * 256 + d) / 16777216) with a by (apply Z.div_unique_pos with ((b * 256 + c) * 256 + d); lia).
    replace (((a * 256 + b) * 256 + c) mod 256) with c by (apply Z.mod_unique_pos with (a * 256 + b); lia).
    replace ((a * 256 + b) mod 256) with b by (apply Z.mod_unique_pos with a; lia).
    rewrite (Z.mod_small a) by lia. lia. }
  rewrite E. unfold mem32.
  replace ((((d * 256 + c) * 256 + b) * 256 + a) mod 256) with a by (apply Z.mod_unique_pos with ((d * 256 + c) * 256 + b); lia).
  replace ((((d * 256 + c) * 256 + b) * 256 + a) / 256) with ((d * 256 + c) * 256 + b) by (apply Z.div_unique_pos with a; lia).
  replace ((((d * 256 + c) * 256 + b) * 256 + a) / 65536) with (d * 256 + c) by (apply Z.div_unique_pos with (b * 256 + a); lia).
  replace ((((d * 256 + c) * 256 + b) * 256 + a) / 16777216) with d by (apply Z.div_unique_pos with ((c * 256 + b) * 256 + a); lia).
  replace (((d * 256 + c) * 256 + b) mod 256) with b by (apply Z.mod_unique_pos with (d * 256 + c); lia).
  replace ((d * 256 + c) mod 256) with c by (apply Z.mod_unique_pos with d; lia).
  rewrite (Z.mod_small d) by lia. reflexivity.
Qed.

Lemma val_range : forall s, 0 <= val s < 2 ^ 64.
Proof. intros. apply W64_range. Qed.

(** what the function returns for four groups of digits *)
Lemma inet_addr_groups : forall s s1 s2 s3 s4, dotted s s1 s2 s3 s4 ->
  Forall digit s1 -> Forall digit s2 -> Forall digit s3 -> Forall digit s4 ->
  val s1 < 256 -> val s2 < 256 -> val s3 < 256 -> val s4 < 256 ->
  exists r, inet_addr s (length s) = Ok r /\ mem32 r = [val s1; val s2; val s3; val s4].
Proof.
  intros s s1 s2 s3 s4 -> D1 D2 D3 D4 V1 V2 V3 V4.
  pose proof (val_range s1). pose proof (val_range s2). pose proof (val_range s3). pose proof (val_range s4).
  exists (htonl (((val s1 * 256 + val s2) * 256 + val s3) * 256 + val s4)). split; [|apply mem_htonl; lia].
  set (s := s1 ++ _). unfold inet_addr. rewrite (inet_loop_0 s). cbn [bind].
  assert (E : il s 0 0 0 = Some (W32 (W32 (W32 (0 * 256 + val s1) * 256 + val s2) * 256 + val s3), val s4, 3)).
  { unfold s. assert (ST : forall d t addr n, Forall digit d -> val d < 256 ->
      il (d ++ [46] ++ t) addr 0 n = il t (W32 (addr * 256 + val d)) 0 (W64 (n + 1))).
    { intros d t addr n Hd Hv. change 0 with (val []) at 1. rewrite il_digits by auto. cbn [app il].
      destruct (Z.ltb_spec (val d) 256); [reflexivity|lia]. }
    rewrite !ST by auto. change 0 with (val []) at 2. rewrite <- (app_nil_r s4) at 1. rewrite il_digits by auto.
    reflexivity. }
  rewrite E. cbn [Z.eqb negb Pos.eqb]. destruct (Z.ltb_spec (val s4) 256); [|lia].
  rewrite W32_add by lia. rewrite W32_3 by lia. reflexivity.
Qed.

Lemma inet_addr_accepts : forall s r, Z.of_nat (length s) < 2 ^ 64 -> inet_addr s (length s) = Ok r ->
  r <> INADDR_NONE ->
  exists s1 s2 s3 s4, dotted s s1 s2 s3 s4 /\
    Forall digit s1 /\ Forall digit s2 /\ Forall digit s3 /\ Forall digit s4 /\
    val s1 < 256 /\ val s2 < 256 /\ val s3 < 256 /\ val s4 < 256.
Proof.
  intros s r Hl H N. unfold inet_addr in H. rewrite (inet_loop_0 s) in H. cbn [bind] in H.
  destruct (il s 0 0 0) as [[[a o] n]|] eqn:E; [|congruence].
  change (il s 0 (val []) 0 = Some (a, o, n)) in E. apply il_parts in E; [|constructor].
  destruct E as (ps & last & E & F1 & F2 & F3 & _ & O & N0 & N1 & N2). cbn [app] in E.
  destruct (Z.eqb_spec n 3) as [-> | Nn]; cbn [negb] in H; [|congruence].
  destruct (Z.ltb_spec o 256) as [Ho | Ho]; [|congruence].
  assert (Lp : (length ps <= length s)%nat).
  { rewrite E. rewrite app_length. clear. induction ps as [|p ps IH]; cbn [flat_map length]; [lia|].
    rewrite !app_length in *. cbn [length]. lia. }
  assert (L3 : length ps = 3%nat).
  { unfold W64 in N0. rewrite !Z.mod_small in N0 by lia. lia. }
  destruct ps as [|p1 [|p2 [|p3 [|? ?]]]]; try discriminate.
  inversion F1 as [|? ? D1 F1']; inversion F1' as [|? ? D2 F1'']; inversion F1'' as [|? ? D3 _]; subst.
  inversion F3 as [|? ? V1 F3']; inversion F3' as [|? ? V2 F3'']; inversion F3'' as [|? ? V3 _]; subst.
  exists p1, p2, p3, last. unfold dotted. cbn [flat_map]. rewrite <- !app_assoc. cbn [app]. repeat split; auto.
Qed.

Lemma inet_addr_total : forall s, exists r, inet_addr s (length s) = Ok r.
Proof.
  intros s. unfold inet_addr. rewrite (inet_loop_0 s). cbn [bind].
  destruct (il s 0 0 0) as [[[a o] n]|]; [|eauto]. destruct (negb (n =? 3)); [eauto|]. destruct (o <? 256); eauto.
Qed.

Lemma decimal_bound : forall s, Forall digit s -> 0 <= decimal s < 10 ^ Z.of_nat (length s).
Proof.
  intros s. induction s as [|c s IH] using rev_ind; intros H; [cbn; lia|].
  apply Forall_app in H. destruct H as [H1 H2]. inversion H2 as [|? ? Hc _]; subst. specialize (IH H1).
  rewrite decimal_snoc, app_length. cbn [length]. rewrite Nat2Z.inj_add. change (Z.of_nat 1) with 1.
  rewrite Z.pow_add_r by lia. unfold digit in Hc. lia.
Qed.

Lemma val_decimal : forall s, Forall digit s -> (length s <= 19)%nat -> val s = decimal s.
Proof.
  intros s H L. pose proof (decimal_bound s H) as B. unfold val. apply W64_small.
  pose proof (Z.pow_le_mono_r 10 (Z.of_nat (length s)) 19 ltac:(lia) ltac:(lia)).
  change (10 ^ 19) with 10000000000000000000 in *. lia.
Qed.

(** the port *)
Lemma ul_digits_ok : forall ds t cur, Forall digit ds -> match t with c :: _ => ~ digit c | [] => False end ->
  ul_digits (ds ++ t) cur = Ok (fold_left (fun a c => a * 10 + (c - 48)) ds cur).
Proof.
  induction ds as [|c ds IH]; intros t cur H Ht.
  - destruct t as [|c t]; [destruct Ht|]. cbn [app ul_digits fold_left]. unfold digit in Ht.
    destruct (Z.leb_spec 48 c); destruct (Z.leb_spec c 57); cbn [andb]; auto; lia.
  - inversion H as [|? ? Hc Hd]; subst. cbn [app ul_digits fold_left]. unfold digit in Hc.
    destruct (Z.leb_spec 48 c); [|lia]. destruct (Z.leb_spec c 57); [|lia]. cbn [andb]. apply IH; auto.
Qed.

Lemma sin_port_ok : forall ds, ds <> [] -> Forall digit ds -> 
  sin_port (ds ++ [0]) = let v := Z.min (decimal ds) (2 ^ 64 - 1) in Ok [v mod 65536 / 256; v mod 256].
Proof.
  intros ds Hn H. destruct ds as [|c ds]; [congruence|]. inversion H as [|? ? Hc Hd]; subst. unfold digit in Hc.
  unfold sin_port, strtoul10. cbn [app skip_spaces].
  assert (E : is_space c = false).
  { unfold is_space. destruct (Z.leb_spec c 13); [lia|]. rewrite andb_false_r. destruct (Z.eqb_spec c 32); [lia|reflexivity]. }
  rewrite E. cbn [bind rd nth_error]. destruct (Z.eqb_spec c 45); [lia|]. destruct (Z.eqb_spec c 43); [lia|].
  change (c :: ds ++ [0]) with ((c :: ds) ++ [0]). rewrite ul_digits_ok by (auto; unfold digit; lia).
  cbn [bind]. fold (decimal (c :: ds)).
  assert (M : forall v, v mod 65536 mod 256 = v mod 256).
  { intros v. symmetry. apply Znumtheory.Zmod_div_mod; try lia. exists 256. reflexivity. }
  destruct (Z.leb_spec (2 ^ 64) (decimal (c :: ds))); cbn [bind]; rewrite M; cbv zeta.
  - rewrite Z.min_r by lia. reflexivity.
  - rewrite Z.min_l by lia. reflexivity.
Qed.
