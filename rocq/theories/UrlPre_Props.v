(** Property C80, what coda_url_preunescape does with every string (coda/url.cpp:349-399). *)

From Coq Require Import ZArith List Lia.
From Verif Require Import Base Str_Model Str_Spec Str_Proof StrCpp_Model StrCpp_Spec StrCpp_Proof Url_Model Url_Spec Url_Proof.
Import ListNotations.
Local Open Scope Z_scope.

(** Specification: as [preunescapes], and \xXX of an ASCII character disappears. *)
Inductive predrops : list Z -> list Z -> Prop :=
| pd_nil : predrops [] []
| pd_pct_hi : forall a b s t, hexd a -> hexd b -> 128 <= hexval a * 16 + hexval b ->
    predrops s t -> predrops (37 :: a :: b :: s) (hexval a * 16 + hexval b :: t)
| pd_pct_lo : forall a b s t, hexd a -> hexd b -> hexval a * 16 + hexval b < 128 ->
    predrops s t -> predrops (37 :: a :: b :: s) (37 :: a :: b :: t)
| pd_bsx_hi : forall a b s t, hexd a -> hexd b -> 128 <= hexval a * 16 + hexval b ->
    predrops s t -> predrops (92 :: 120 :: a :: b :: s) (hexval a * 16 + hexval b :: t)
| pd_bsx_lo : forall a b s t, hexd a -> hexd b -> hexval a * 16 + hexval b < 128 ->
    predrops s t -> predrops (92 :: 120 :: a :: b :: s) t
| pd_copy : forall c s t,
    ~ (c = 37 /\ starts [hexd; hexd] s) -> ~ (c = 92 /\ starts [eq 120; hexd; hexd] s) ->
    predrops s t -> predrops (c :: s) (c :: t).

(** Every string has a result, and only one. *)
Lemma predrops_total : forall n s, (length s <= n)%nat -> exists t, predrops s t.
Proof.
  induction n as [|n IH]; intros s Hs.
  { destruct s; [exists []; constructor|cbn in Hs; lia]. }
  destruct s as [|c s]; [exists []; constructor|]. cbn [length] in Hs.
  destruct (test_pct c s []) as [[_ (x & y & s' & -> & -> & Hx & Hy)]|[_ Hp]].
  { cbn [length] in Hs. destruct (IH s' ltac:(lia)) as [t Ht].
    destruct (Z_le_gt_dec 128 (hexval x * 16 + hexval y)); eexists;
      [apply pd_pct_hi|apply pd_pct_lo]; eauto; lia. }
  destruct (test_bsx c s []) as [[_ (x & y & s' & -> & -> & Hx & Hy)]|[_ Hb]].
  { cbn [length] in Hs. destruct (IH s' ltac:(lia)) as [t Ht].
    destruct (Z_le_gt_dec 128 (hexval x * 16 + hexval y)); eexists;
      [apply pd_bsx_hi|apply pd_bsx_lo]; eauto; lia. }
  destruct (IH s ltac:(lia)) as [t Ht]. exists (c :: t). apply pd_copy; auto.
Qed.

Lemma predrops_det : forall s t, predrops s t -> forall t', predrops s t' -> t = t'.
Proof.
  induction 1 as [|a b s t Ha Hb Hv H IH|a b s t Ha Hb Hv H IH|a b s t Ha Hb Hv H IH|a b s t Ha Hb Hv H IH|c s t Hp Hx H IH];
    intros t' H'; inversion H'; subst; try lia; try (f_equal; auto; fail); auto;
    try (exfalso; match goal with H : ~ _ |- _ => apply H; cbn; auto; fail end).
  all: try (f_equal; f_equal; f_equal; auto).
Qed.

Lemma predrops_length : forall s t, predrops s t -> (length t <= length s)%nat.
Proof. induction 1; cbn [length]; lia. Qed.

Lemma preunescape_drops : forall s t, predrops s t -> nonul s -> forall fuel pre rest junk sz,
  (length s < fuel)%nat -> sz + 5 < 2 ^ 64 -> sz <= Z.of_nat (length pre + length rest) ->
  Z.of_nat (length pre + length t) + 2 <= sz ->
  exists tail, preunescape_loop fuel (pre ++ rest) (length pre) (s ++ 0 :: junk) sz
  = Ok (pre ++ t ++ 0 :: tail) /\ (length t + S (length tail) = length rest)%nat.
Proof.
  assert (One : forall s t fuel pre rest junk sz x,
    (forall pre rest, sz <= Z.of_nat (length pre + length rest) -> Z.of_nat (length pre + length t) + 2 <= sz ->
       exists tail, preunescape_loop fuel (pre ++ rest) (length pre) (s ++ 0 :: junk) sz
       = Ok (pre ++ t ++ 0 :: tail) /\ (length t + S (length tail) = length rest)%nat) ->
    sz <= Z.of_nat (length pre + length rest) ->
    Z.of_nat (length pre + length (x :: t)) + 2 <= sz ->
    exists tail, (dest <- wr (pre ++ rest) (length pre) x ;;
     preunescape_loop fuel dest (length pre + 1) (s ++ 0 :: junk) sz)
    = Ok (pre ++ (x :: t) ++ 0 :: tail) /\ (length (x :: t) + S (length tail) = length rest)%nat).
  { intros s t fuel pre rest junk sz x H Hz Hl. destruct rest as [|r rest]; [cbn [length] in *; lia|].
    cbn [length] in *. rewrite wr_push by reflexivity. cbn [bind].
    replace (length pre + 1)%nat with (length (pre ++ [x])) by (rewrite app_length; reflexivity).
    destruct (H (pre ++ [x]) rest) as (tail & E & L); [rewrite app_length; cbn [length]; lia|rewrite app_length; cbn [length]; lia|].
    exists tail. rewrite E, <- app_assoc. split; [reflexivity|lia]. }
  induction 1 as [|a b s t Ha Hb Hv H IH|a b s t Ha Hb Hv H IH|a b s t Ha Hb Hv H IH|a b s t Ha Hb Hv H IH|c s t Hp Hx H IH];
    intros Hn fuel pre rest junk sz Hf Hsz Hd Hz;
    (destruct fuel as [|fuel]; [lia|]); cbn [preunescape_loop];
    rewrite (Z.mod_small (sz + 5)) by lia.
  - cbn [app deref bind Z.eqb orb length] in *. destruct rest as [|r rest]; [cbn [length] in *; lia|].
    rewrite wr_app by reflexivity. exists rest. split; reflexivity.
  - inversion Hn as [|? ? _ Hn1]; inversion Hn1 as [|? ? _ Hn2]; inversion Hn2 as [|? ? _ Hn']; subst.
    cbn [length] in Hf. cbn [app].
    destruct (test_pct 37 (a :: b :: s) junk) as [[E _]|[_ E]]; [|destruct E; cbn; auto].
    cbn [app] in E. cbn [deref bind]. rewrite E. cbn [bind Z.eqb Pos.eqb orb].
    destruct (Z.ltb_spec (Z.of_nat (length pre)) (sz + 5)); [|lia]. cbn [negb].
    cbn [rd nth_error bind skipn]. rewrite hex2_ok by assumption.
    pose proof (hexval_range a). pose proof (hexval_range b).
    rewrite land128 by lia. destruct (Z.leb_spec 128 (hexval a * 16 + hexval b)); [|lia].
    apply One; [|exact Hd|exact Hz]. intros. apply IH; try assumption; lia.
  - inversion Hn as [|? ? _ Hn1]; inversion Hn1 as [|? ? _ Hn2]; inversion Hn2 as [|? ? _ Hn']; subst.
    cbn [length] in *. cbn [app].
    destruct (test_pct 37 (a :: b :: s) junk) as [[E _]|[_ E]]; [|destruct E; cbn; auto].
    cbn [app] in E. cbn [deref bind]. rewrite E. cbn [bind Z.eqb Pos.eqb orb].
    destruct (Z.ltb_spec (Z.of_nat (length pre)) (sz + 5)); [|lia]. cbn [negb].
    cbn [rd nth_error bind skipn]. rewrite hex2_ok by assumption.
    pose proof (hexval_range a). pose proof (hexval_range b).
    rewrite land128 by lia. destruct (Z.leb_spec 128 (hexval a * 16 + hexval b)); [lia|].
    destruct (Z.ltb_spec (Z.of_nat (length pre + 4)) sz); [|lia].
    destruct rest as [|r1 [|r2 [|r3 rest]]]; cbn [length] in *; try lia.
    change (r1 :: r2 :: r3 :: rest) with ([r1; r2; r3] ++ rest).
    rewrite (wr_list_ok [37; a; b] pre [r1; r2; r3] rest) by reflexivity. cbn [bind].
    rewrite app_assoc.
    replace (length pre + 3)%nat with (length (pre ++ [37; a; b])) by (rewrite app_length; reflexivity).
    destruct (IH Hn' fuel (pre ++ [37; a; b]) rest junk sz) as (tail & E2 & L); try (rewrite ?app_length; cbn [length]; lia).
    exists tail. rewrite E2, <- app_assoc. split; [reflexivity|lia].
  - inversion Hn as [|? ? _ Hn0]; inversion Hn0 as [|? ? _ Hn1]; inversion Hn1 as [|? ? _ Hn2];
      inversion Hn2 as [|? ? _ Hn']; subst.
    cbn [length] in Hf. cbn [app].
    destruct (test_bsx 92 (120 :: a :: b :: s) junk) as [[E _]|[_ E]]; [|destruct E; cbn; auto].
    cbn [app] in E. cbn [deref bind]. rewrite E. cbn [bind Z.eqb Pos.eqb orb andr].
    destruct (Z.ltb_spec (Z.of_nat (length pre)) (sz + 5)); [|lia]. cbn [negb].
    cbn [rd nth_error bind skipn]. rewrite hex2_ok by assumption.
    pose proof (hexval_range a). pose proof (hexval_range b).
    rewrite land128 by lia. destruct (Z.leb_spec 128 (hexval a * 16 + hexval b)); [|lia].
    apply One; [|exact Hd|exact Hz]. intros. apply IH; try assumption; lia.
  - inversion Hn as [|? ? _ Hn0]; inversion Hn0 as [|? ? _ Hn1]; inversion Hn1 as [|? ? _ Hn2];
      inversion Hn2 as [|? ? _ Hn']; subst.
    cbn [length] in Hf. cbn [app].
    destruct (test_bsx 92 (120 :: a :: b :: s) junk) as [[E _]|[_ E]]; [|destruct E; cbn; auto].
    cbn [app] in E. cbn [deref bind]. rewrite E. cbn [bind Z.eqb Pos.eqb orb andr].
    destruct (Z.ltb_spec (Z.of_nat (length pre)) (sz + 5)); [|lia]. cbn [negb].
    cbn [rd nth_error bind skipn]. rewrite hex2_ok by assumption.
    pose proof (hexval_range a). pose proof (hexval_range b).
    rewrite land128 by lia. destruct (Z.leb_spec 128 (hexval a * 16 + hexval b)); [lia|].
    destruct (Z.ltb_spec (Z.of_nat (length pre + 3)) sz).
    + destruct rest as [|r1 [|r2 [|r3 [|r4 rest]]]]; cbn [length] in *; try lia.
      change (r1 :: r2 :: r3 :: r4 :: rest) with ([r1; r2; r3; r4] ++ rest).
      rewrite (wr_list_ok [92; 120; a; b] pre [r1; r2; r3; r4] rest) by reflexivity. cbn [bind].
      destruct (IH Hn' fuel pre ([92; 120; a; b] ++ rest) junk sz) as (tail & E2 & L); try (rewrite ?app_length; cbn [length]; lia).
      exists tail. rewrite E2. split; [reflexivity|]. rewrite app_length in L. cbn [length] in L. lia.
    + apply IH; try assumption; lia.
  - inversion Hn as [|? ? Hc Hn']; subst. cbn [length] in Hf. cbn [app].
    destruct (test_pct c s junk) as [[_ E]|[E _]].
    { exfalso. apply Hp. destruct E as (x & y & t' & -> & -> & ? & ?). cbn. auto. }
    destruct (test_bsx c s junk) as [[_ E']|[E' _]].
    { exfalso. apply Hx. destruct E' as (x & y & t' & -> & -> & ? & ?). cbn. auto. }
    cbn [deref bind]. destruct (Z.eqb_spec c 0); [contradiction|]. cbn [orb].
    destruct (Z.ltb_spec (Z.of_nat (length pre)) (sz + 5)); [|cbn [length] in Hz; lia]. cbn [negb].
    rewrite E. cbn [bind]. rewrite E'. cbn [bind tl].
    apply One; [|exact Hd|exact Hz]. intros. apply IH; try assumption; lia.
Qed.

(** C80 (what holds, for every string).  There is exactly one text [t] that results from
    replacing the escapes of bytes >= 128, removing each \xXX of an ASCII character and copying
    all else; when the buffer has room for [t] and one byte more than its terminator, the call
    writes exactly [t] and a zero byte, and touches nothing outside the buffer. *)
Theorem C80_every_string_partial : forall s junk dest sz,
  nonul s -> sz + 5 < 2 ^ 64 -> sz <= Z.of_nat (length dest) ->
  exists t, predrops s t /\ (forall t', predrops s t' -> t' = t) /\
    (Z.of_nat (length t) + 2 <= sz ->
     exists tail, url_preunescape (s ++ 0 :: junk) dest sz = Ok (t ++ 0 :: tail) /\
       length (t ++ 0 :: tail) = length dest).
Proof.
  intros s junk dest sz Hn Hsz Hd. destruct (predrops_total (length s) s (le_n _)) as [t Ht].
  exists t. split; [exact Ht|]. split; [intros t' H'; symmetry; eapply predrops_det; eauto|].
  intros Hz. unfold url_preunescape.
  destruct (preunescape_drops s t Ht Hn (length (s ++ 0 :: junk)) [] dest junk sz) as (tail & E & L);
    cbn [length app Nat.add] in *; try lia.
  { rewrite app_length. cbn [length]. lia. }
  exists tail. split; [exact E|]. rewrite app_length. cbn [length]. exact L.
Qed.
Print Assumptions C80_every_string_partial.

(** C80 (what does not hold).  Every string with \xXX of an ASCII character comes out
    shorter than a verbatim copy of that escape would make it: the four bytes are gone. *)
Theorem C80_escape_lost : forall p a b s t,
  predrops (92 :: 120 :: a :: b :: s) t -> hexd a -> hexd b -> hexval a * 16 + hexval b < 128 ->
  (forall c, In c p -> c <> 37 /\ c <> 92) ->
  predrops s t /\ predrops (p ++ 92 :: 120 :: a :: b :: s) (p ++ t).
Proof.
  intros p a b s t H Ha Hb Hv Hp.
  assert (Hs : predrops s t).
  { inversion H; subst; auto; try lia. exfalso. match goal with H : ~ (92 = 92 /\ _) |- _ => apply H; cbn; auto end. }
  split; [exact Hs|]. induction p as [|c p IH]; [exact H|].
  cbn [app]. destruct (Hp c (or_introl eq_refl)). apply pd_copy; try tauto. apply IH. intros; apply Hp; right; auto.
Qed.
Print Assumptions C80_escape_lost.

Example C80_every_ex : predrops (zs "a\x41%d0\xd1") [97; 208; 209] /\
  url_preunescape (zs "a\x41%d0\xd1" ++ [0]) (repeat 7 8) 8 = Ok [97; 208; 209; 0; 49; 7; 7; 7].
Proof.
  assert (hx : forall c, isxdigit c = true -> hexd c) by (intros c; apply isxdigit_iff).
  split; [|vm_compute; reflexivity].
  apply pd_copy; [cbv; intuition discriminate|cbv; intuition discriminate|].
  apply (pd_bsx_lo 52 49); try (apply hx; reflexivity); [reflexivity|].
  apply (pd_pct_hi 100 48); try (apply hx; reflexivity); [cbv; discriminate|].
  apply (pd_bsx_hi 100 49); try (apply hx; reflexivity); [cbv; discriminate|]. constructor.
Qed.
