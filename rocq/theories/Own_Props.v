(** Property C104: the codecs give back every block they allocate, except the one they
    hand to the caller. *)

From Coq Require Import ZArith List Bool Lia Permutation.
From Verif Require Import Base Base58_Model Base58_Spec Base58_Proof Base64_Model Base64_Spec
  Base64_Props SHeap_Model SHeap_Spec SHeap_Proof Own_Model.
Import ListNotations.
Local Open Scope Z_scope.

(** the block handed to the caller *)
Definition handed {A} (o : option (nat * A)) : list nat :=
  match o with Some (q, _) => [q] | None => [] end.

Lemma release_top : forall ok h L h1 q, holds h L -> alloc ok h = (h1, Some q) ->
  exists h2, release h1 q = Ok h2 /\ holds h2 L.
Proof.
  intros. eapply release_ok; [eapply alloc_some; eauto|]. apply Permutation_refl.
Qed.
Lemma alloc_ok : forall ok h, exists h1,
  alloc ok h = (h1, if ok (h_next h) then Some (h_next h) else None) /\ h_next h1 = S (h_next h).
Proof. intros. unfold alloc. destruct (ok (h_next h)); eauto. Qed.
Lemma release_next : forall h q h', release h q = Ok h' -> h_next h' = h_next h.
Proof. unfold release. intros. destruct (live h q); inversion H; subst. reflexivity. Qed.

(** *** Base 58 *)

(** coda_base58_encode frees its scratch block *)
Theorem C104_base58_encode : forall ok h L x t out outlen,
  holds h L -> ok (h_next h) = true ->
  bytes x -> base58_of x t -> (outlen <= length out)%nat ->
  Z.of_nat (length x) * 138 / 100 + 1 <= 2 ^ 31 ->
  exists h' out', encode58_h ok h x (length x) out outlen = Ok (h', out') /\
    Base58_Model.encode true x (length x) out outlen = Ok out' /\ holds h' L.
Proof.
  intros ok h L x t out outlen H Ho Hb Ht Hl Hs.
  pose proof (encode_spec x t out outlen Hb Ht Hl Hs) as E. cbn zeta in E.
  unfold encode58_h. destruct (alloc_ok ok h) as (h1 & A & _). rewrite Ho in A. rewrite A.
  cbn [got]. rewrite E. cbn [bind release0].
  destruct (release_top _ _ _ _ _ H A) as (h2 & R & H2). rewrite R. cbn [bind]. eauto.
Qed.
Print Assumptions C104_base58_encode.

(** it does not look at the answer of calloc: without memory it is undefined *)
Theorem C104_base58_encode_no_memory_refuted : exists ok h x out,
  bytes x /\ encode58_h ok h x (length x) out (length out) = Ub NullDeref.
Proof.
  exists (fun _ => false), (mkH 0 []), [255], (repeat 0 8). split; [repeat constructor; lia|reflexivity].
Qed.
Print Assumptions C104_base58_encode_no_memory_refuted.

(** a text is leading '1's, digits, and a tail that starts with a bad character *)
Lemma shape : forall t, bytes t -> exists z ds bad,
  t = repeat 49 z ++ map ch58 ds ++ bad /\ digits 58 ds /\ no_lead_zero ds /\ bytes bad /\
  match bad with c :: _ => ~ is58 c | [] => True end.
Proof.
  intros t Hb. destruct (split_bad t Hb) as (g & bad & -> & Fg & Bb & Hbad).
  destruct (good_shape g Fg) as (z & ds & -> & D & N).
  exists z, ds, bad. rewrite <- app_assoc. auto.
Qed.

Lemma decode58_h_core : forall ok h L z ds bad out,
  holds h L -> digits 58 ds -> no_lead_zero ds -> bytes bad ->
  match bad with c :: _ => ~ is58 c | [] => True end ->
  let t := repeat 49 z ++ map ch58 ds ++ bad in
  let m := (length ds + length bad)%nat in
  Z.of_nat (length t) * 733 / 1000 + 1 <= 2 ^ 31 ->
  Z.of_nat z + Z.of_nat m * 733 / 1000 + 1 <= Z.of_nat (length out) ->
  exists h' r out', decode58_h ok h t (length t) out = Ok (h', r, out') /\
    Base58_Model.decode (ok (h_next h)) t (length t) out = Ok (r, out') /\ holds h' L /\
    h_next h' = S (h_next h).
Proof.
  intros ok h L z ds bad out H D N Bb Hbad t m Hsz Hout.
  set (Lz := Z.to_nat (Z.of_nat m * 733 / 1000 + 1)).
  assert (P0 : 0 <= Z.of_nat m * 733 / 1000) by (apply Z.div_pos; lia).
  assert (HL : Z.of_nat Lz = Z.of_nat m * 733 / 1000 + 1) by (unfold Lz; rewrite Z2Nat.id; lia).
  assert (Hlen : length t = (z + m)%nat).
  { unfold t. rewrite !app_length, repeat_length, map_length. unfold m. lia. }
  assert (Hm : Z.of_nat m * 733 / 1000 + 1 <= 2 ^ 31).
  { etransitivity; [|exact Hsz]. apply Z.add_le_mono_r. apply Z.div_le_mono; [lia|]. lia. }
  assert (Ho : (z <= length out)%nat) by lia.
  destruct (dec_outer_spec ds bad (repeat 49 z) (repeat 0 Lz) Lz) as (buf & E & BL & BD & BN); auto.
  { apply repeat_length. }
  { lia. }
  { lia. }
  { apply digits_repeat0; lia. }
  { rewrite num0_repeat, HL, Z.mul_0_l, Z.add_0_l.
    pose proof (num_bound 58 ds ltac:(lia) D).
    pose proof (scratch_dec (Z.of_nat m) ltac:(lia)).
    assert (pw 58 (length ds) <= pw 58 m) by (apply Z.pow_le_mono_r; unfold m; lia). lia. }
  rewrite repeat_length in E. fold t in E. fold m in E.
  pose proof (dec_ones_spec z (map ch58 ds ++ bad) [] [] out (not49 _ _ D N Hbad) Ho) as E1.
  cbn [app length Nat.add] in E1. rewrite app_length, map_length in E1.
  fold m in E1. fold t in E1.
  unfold decode58_h, Base58_Model.decode. rewrite Hlen. rewrite E1. cbn [bind].
  rewrite b256len_small by auto. rewrite <- HL, Nat2Z.id.
  destruct (alloc_ok ok h) as (h1 & A & Nx). destruct (ok (h_next h)); rewrite A; cbn [negb].
  2:{ eexists _, _, _. split; [reflexivity|]. split; [reflexivity|]. split; [|exact Nx].
      eapply alloc_none; eauto. }
  destruct (release_top _ _ _ _ _ H A) as (h2 & R & H2). pose proof (release_next _ _ _ R) as Nx2.
  rewrite E. cbn [bind]. destruct (negb (length bad =? 0)%nat).
  { rewrite R. cbn [bind]. eexists _, _, _. split; [reflexivity|]. split; [reflexivity|]. split; [exact H2|congruence]. }
  destruct (strip buf) as (q & x2 & -> & N2).
  rewrite <- BL. rewrite app_length, repeat_length in *.
  pose proof (skip_zeros_spec q [] x2 N2) as E2. cbn [app length Nat.add] in E2. rewrite E2. clear E2.
  cbn [bind].
  pose proof (dec_emit_spec x2 (repeat 0 q) (repeat 0 z) (skipn z out)) as E2.
  rewrite !repeat_length in E2. rewrite E2 by (rewrite skipn_length; lia). cbn [bind].
  rewrite R. cbn [bind]. eexists _, _, _. split; [reflexivity|]. split; [reflexivity|]. split; [exact H2|congruence].
Qed.

(** coda_base58_decode frees its scratch block on every path, for good and bad texts,
    whether or not the request was granted (so the return of line 256, which does not
    free it, is never taken). *)
Theorem C104_base58_decode : forall ok h L t out,
  holds h L -> bytes t -> Z.of_nat (length t) * 733 / 1000 + 1 <= 2 ^ 31 ->
  (length t < length out)%nat ->
  exists h' r out', decode58_h ok h t (length t) out = Ok (h', r, out') /\
    Base58_Model.decode (ok (h_next h)) t (length t) out = Ok (r, out') /\ holds h' L.
Proof.
  intros ok h L t out H Hb Hs Ho. destruct (shape t Hb) as (z & ds & bad & -> & D & N & Bb & Hbad).
  destruct (decode58_h_core ok h L z ds bad out) as (h' & r & out' & A & B & C & _); auto.
  - rewrite !app_length, repeat_length, map_length in Ho.
    assert (Z.of_nat (length ds + length bad) * 733 / 1000 <= Z.of_nat (length ds + length bad)).
    { apply Z.div_le_upper_bound; lia. }
    lia.
  - eauto 6.
Qed.
Print Assumptions C104_base58_decode.

Lemma shape_count : forall z ds bad, digits 58 ds -> no_lead_zero ds ->
  match bad with c :: _ => ~ is58 c | [] => True end ->
  let t := repeat 49 z ++ map ch58 ds ++ bad in
  count_lead 49 t 0 (length t) = Ok (z, (length ds + length bad)%nat).
Proof.
  intros z ds bad D N Hbad t. pose proof (not49 ds bad D N Hbad) as X.
  pose proof (count_lead_spec 49 z (map ch58 ds ++ bad) []) as C. cbn [app length Nat.add] in C.
  rewrite app_length, map_length in C. unfold t.
  rewrite !app_length, repeat_length, map_length. apply C.
  destruct (map ch58 ds ++ bad) as [|c l]; [exact I|]. intros ->. exact X.
Qed.

(** coda_base58_decode_alloc: for every text, good or bad, and whichever of the two
    requests is refused, the only new block is the one returned through [*out]. *)
Theorem C104_base58_decode_alloc : forall ok fill h L t,
  (forall n, length (fill n) = n) -> holds h L -> bytes t ->
  Z.of_nat (length t) * 733 / 1000 + 1 <= 2 ^ 31 ->
  exists h' r o, decode58_alloc_h ok fill h t (length t) = Ok (h', r, o) /\
    Base58_Model.decode_alloc (ok (S (h_next h)))
      (fun n => if ok (h_next h) then Some (fill n) else None) t (length t) = Ok (r, option_map snd o) /\
    holds h' (handed o ++ L).
Proof.
  intros ok fill h L t Hf H Hb Hs.
  destruct (shape t Hb) as (z & ds & bad & -> & D & N & Bb & Hbad).
  set (t := repeat 49 z ++ map ch58 ds ++ bad) in *. set (m := (length ds + length bad)%nat).
  unfold decode58_alloc_h, Base58_Model.decode_alloc.
  pose proof (shape_count z ds bad D N Hbad) as C. fold t in C. fold m in C. cbn zeta in C. rewrite C. cbn [bind].
  assert (Hlen : length t = (z + m)%nat).
  { unfold t. rewrite !app_length, repeat_length, map_length. unfold m. lia. }
  assert (Hzm : Z.of_nat z + Z.of_nat m <= 2 ^ 32).
  { rewrite Hlen in Hs. clear - Hs. Z.div_mod_to_equations. lia. }
  assert (P0 : 0 <= Z.of_nat m * 733 / 1000) by (apply Z.div_pos; lia).
  assert (Ez : u64 (Z.of_nat z + u64 (Z.of_nat m * 733) / 1000 + 1) = Z.of_nat z + Z.of_nat m * 733 / 1000 + 1).
  { unfold u64. rewrite (Z.mod_small (Z.of_nat m * 733)) by lia. apply Z.mod_small.
    split; [lia|]. assert (Z.of_nat m * 733 / 1000 <= Z.of_nat m) by (apply Z.div_le_upper_bound; lia). lia. }
  rewrite Ez. set (need := Z.to_nat (Z.of_nat z + Z.of_nat m * 733 / 1000 + 1)).
  destruct (alloc_ok ok h) as (h1 & A & Nx). destruct (ok (h_next h)); rewrite A.
  2:{ eexists _, _, _. split; [reflexivity|]. split; [reflexivity|]. eapply alloc_none; eauto. }
  pose proof (alloc_some _ _ _ _ _ H A) as H1.
  destruct (decode58_h_core ok h1 _ z ds bad (fill need) H1 D N Bb Hbad Hs) as (h2 & r & out' & E1 & E2 & H2 & _).
  { rewrite Hf. unfold need. rewrite Z2Nat.id; [fold m; lia|lia]. }
  fold t in E1, E2. rewrite E1. rewrite Nx in E2. rewrite E2. cbn [bind].
  destruct (r <? 0).
  - destruct (release_ok h2 _ _ _ H2 (Permutation_refl _)) as (h3 & R & H3). rewrite R. cbn [bind].
    eexists _, _, _. split; [reflexivity|]. split; [reflexivity|]. exact H3.
  - eexists _, _, _. split; [reflexivity|]. split; [reflexivity|]. exact H2.
Qed.
Print Assumptions C104_base58_decode_alloc.

(** coda_base58_encode_alloc, unless the second request is refused (C11: it then
    dereferences null) *)
Theorem C104_base58_encode_alloc : forall ok fill h L x,
  (forall n, length (fill n) = n) -> holds h L -> bytes x ->
  Z.of_nat (length x) * 138 / 100 + 1 <= 2 ^ 31 -> ok (S (h_next h)) = true ->
  exists h' r o, encode58_alloc_h ok fill h x (length x) = Ok (h', r, o) /\
    Base58_Model.encode_alloc true
      (fun n => if ok (h_next h) then Some (fill n) else None) x (length x) = Ok (r, option_map snd o) /\
    holds h' (handed o ++ L).
Proof.
  intros ok fill h L x Hf H Hb Hs Ho. destruct (base58_exists x Hb) as (t & Ht).
  unfold encode58_alloc_h, Base58_Model.encode_alloc.
  destruct (count_lead 0 x 0 (length x)) as [[z m]|u|] eqn:C.
  - cbn [bind]. set (n := Z.to_nat _). destruct (alloc_ok ok h) as (h1 & A & Nx).
    destruct (ok (h_next h)); rewrite A.
    2:{ eexists _, _, _. split; [reflexivity|]. split; [reflexivity|]. eapply alloc_none; eauto. }
    pose proof (alloc_some _ _ _ _ _ H A) as H1.
    destruct (C104_base58_encode ok h1 _ x t (fill n) n H1) as (h2 & out' & E1 & E2 & H2); auto.
    { congruence. }
    { rewrite Hf. lia. }
    rewrite E1, E2. cbn [bind]. eexists _, _, _. split; [reflexivity|]. split; [reflexivity|]. exact H2.
  - exfalso. destruct (encode_alloc_spec (fun _ => None) x t) as (cap & _ & E); auto; [discriminate|].
    unfold Base58_Model.encode_alloc in E. rewrite C in E. discriminate.
  - exfalso. destruct (encode_alloc_spec (fun _ => None) x t) as (cap & _ & E); auto; [discriminate|].
    unfold Base58_Model.encode_alloc in E. rewrite C in E. discriminate.
Qed.
Print Assumptions C104_base58_encode_alloc.

(** *** Base 64 *)

Theorem C104_base64_encode_alloc : forall ok fill h L x,
  (forall n, length (fill n) = n) -> holds h L -> bytes x -> Z.of_nat (length x) < 2 ^ 64 ->
  exists h' r o, encode64_alloc_h ok fill h x (length x) = Ok (h', r, o) /\
    Base64_Model.encode_alloc (fun n => if ok (h_next h) then Some (fill n) else None) x (length x)
      = Ok (r, option_map snd o) /\
    holds h' (handed o ++ L).
Proof.
  intros ok fill h L x Hf H Hb Hs.
  pose proof (C04_encode_alloc (fun n => if ok (h_next h) then Some (fill n) else None) x) as E.
  cbn zeta in E. specialize (E ltac:(intros n b X; destruct (ok (h_next h)); inversion X; auto) Hb Hs).
  unfold encode64_alloc_h. unfold Base64_Model.encode_alloc in E |- *.
  destruct (encode_alloc_request (Z.of_nat (length x))) as [n|].
  2:{ eexists _, _, None. split; [reflexivity|]. split; [reflexivity|]. exact H. }
  destruct (alloc_ok ok h) as (h1 & A & Nx). destruct (ok (h_next h)); rewrite A.
  2:{ eexists _, _, None. split; [reflexivity|]. split; [reflexivity|]. eapply alloc_none; eauto. }
  pose proof (alloc_some _ _ _ _ _ H A) as H1.
  unfold base64_encode.
  destruct (Base64_Model.encode b64str 61 x (length x) (fill (Z.to_nat n)) (Z.to_nat n)) as [blk| |].
  - cbn [bind]. eexists _, _, (Some (_, _)). split; [reflexivity|]. split; [reflexivity|]. exact H1.
  - destruct (_ <=? _); discriminate E.
  - destruct (_ <=? _); discriminate E.
Qed.
Print Assumptions C104_base64_encode_alloc.

Theorem C104_base64_decode_alloc : forall ok fill h L t,
  (forall n, length (fill n) = n) -> holds h L -> bytes t ->
  exists h' r o n, decode64_alloc_h ok fill h t (length t) = Ok (h', r, o, n) /\
    base64_decode_alloc (fun n => if ok (h_next h) then Some (fill n) else None) t (length t)
      = Ok (r, option_map snd o, n) /\
    holds h' (handed o ++ L) /\ (r = false -> o = None).
Proof.
  intros ok fill h L t Hf H Hb.
  pose proof (C05_decode_alloc_complete (fun n => if ok (h_next h) then Some (fill n) else None) t) as E.
  specialize (E ltac:(intros n b X; destruct (ok (h_next h)); inversion X; auto) Hb).
  assert (G : exists v, base64_decode_alloc (fun n => if ok (h_next h) then Some (fill n) else None) t (length t) = Ok v).
  { destruct E as [(_ & blk & _ & E)|[(_ & E)|(_ & _ & E)]]; rewrite E; eauto. }
  clear E. destruct G as (v & G). rewrite G.
  unfold decode64_alloc_h. unfold base64_decode_alloc, Base64_Model.decode_alloc in G.
  destruct (alloc_ok ok h) as (h1 & A & Nx). destruct (ok (h_next h)); rewrite A.
  2:{ inversion G; subst. eexists _, _, None, _. split; [reflexivity|]. split; [reflexivity|].
      split; [eapply alloc_none; eauto|auto]. }
  pose proof (alloc_some _ _ _ _ _ H A) as H1. unfold base64_decode.
  destruct (Base64_Model.decode b64 61 t (length t) _ _) as [[[okb blk] n]| |]; try discriminate G.
  cbn [bind] in G |- *. destruct okb; inversion G; subst.
  - eexists _, _, (Some (_, _)), _. split; [reflexivity|]. split; [reflexivity|]. split; [exact H1|discriminate].
  - destruct (release_ok h1 _ _ _ H1 (Permutation_refl _)) as (h2 & R & H2). rewrite R. cbn [bind].
    eexists _, _, None, _. split; [reflexivity|]. split; [reflexivity|]. split; [exact H2|auto].
Qed.
Print Assumptions C104_base64_decode_alloc.

(** *** concrete cases *)

Definition h2 : heap := mkH 2 [1%nat].
Definition yes : nat -> bool := fun _ => true.
Example C104_ex :
  holds h2 [1%nat] /\
  decode58_alloc_h yes (repeat 7) h2 (zs "112Uess") 7 =
    Ok (mkH 4 [2; 1]%nat, 5, Some (2%nat, [0; 0; 255; 1; 2; 7])) /\
  decode58_alloc_h yes (repeat 7) h2 (zs "112Ues0") 7 = Ok (mkH 4 [1%nat], -6, None) /\
  encode58_alloc_h yes (repeat 7) h2 [1; 2] 2 = Ok (mkH 4 [2; 1]%nat, 3%nat, Some (2%nat, zs "5T" ++ [0; 7])) /\
  decode64_alloc_h yes (repeat 7) h2 (zs "YWI=") 4 =
    Ok (mkH 3 [2; 1]%nat, true, Some (2%nat, zs "ab" ++ [7; 7; 7]), Some 2%nat) /\
  decode64_alloc_h yes (repeat 7) h2 (zs "YW") 2 = Ok (mkH 3 [1%nat], false, None, None).
Proof.
  split; [split; [repeat constructor; cbn; intuition lia|split; [apply Permutation_refl|repeat constructor]]|].
  repeat split; vm_compute; reflexivity.
Qed.

(** Without the size limit the scratch block is leaked: for a text of 5859436966
    characters its 32-bit length wraps to 1, the second digit overflows it, and the
    function returns at line 256 without freeing it. *)
Theorem C104_base58_decode_unlimited_refuted : exists t, Forall is58 t /\
  Z.of_nat (length t) = 5859436966 /\
  forall ok h L out, holds h L -> ok (h_next h) = true ->
    exists h' r out', decode58_h ok h t (length t) out = Ok (h', r, out') /\
      holds h' (h_next h :: L).
Proof.
  assert (exists m, Z.of_nat m = 5859436964) as (m & Hm).
  { exists (Z.to_nat 5859436964). exact (Z2Nat.id 5859436964 ltac:(discriminate)). }
  exists (122 :: 122 :: repeat 122 m). cbn [length]. rewrite repeat_length. split; [|split].
  - assert (X : is58 122) by (exists 57; split; [lia|reflexivity]).
    constructor; [exact X|]. constructor; [exact X|]. apply Forall_forall. intros y Hy.
    apply repeat_spec in Hy. subst. exact X.
  - lia.
  - intros ok h L out H Ho. unfold decode58_h. cbn [dec_ones rd nth_error bind Z.eqb].
    change (Pos.eqb 122 49) with false. cbn match. cbn [bind].
    replace (b256len_of (S (S m))) with 1
      by (unfold b256len_of; rewrite !Nat2Z.inj_succ, Hm; vm_compute; reflexivity).
    destruct (alloc_ok ok h) as (h1 & A & _). rewrite Ho in A. rewrite A.
    change (Z.to_nat 1) with 1%nat.
    replace (dec_outer (122 :: 122 :: repeat 122 m) 0 (S (S m)) (repeat 0 1) 1)
      with (Ok ([35], S m, true)) by (cbn [dec_outer rd nth_error bind]; vm_compute; reflexivity).
    cbn [bind]. eexists _, _, _. split; [reflexivity|]. eapply alloc_some; eauto.
Qed.
Print Assumptions C104_base58_decode_unlimited_refuted.

(** When the scratch block is refused, decode_alloc of a text without leading '1' reports
    success: the decoding has length 0. *)
Theorem C104_decode_alloc_scratch_refused_refuted : exists ok t h' blk,
  Forall is58 t /\ t <> [] /\
  decode58_alloc_h ok (repeat 7) h2 t (length t) = Ok (h', 0, Some (2%nat, blk)).
Proof.
  exists (fun i => (i =? 2)%nat), (zs "2Uess"), (mkH 4 [2; 1]%nat), [7; 7; 7; 7].
  split; [|split; [discriminate|vm_compute; reflexivity]].
  change (zs "2Uess") with (map ch58 [1; 27; 37; 50; 50]). apply Forall_forall. intros c Hc.
  apply in_map_iff in Hc. destruct Hc as (d & <- & Hd). exists d. split; [|reflexivity].
  cbn in Hd. lia.
Qed.
Print Assumptions C104_decode_alloc_scratch_refused_refuted.
