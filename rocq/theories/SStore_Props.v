(** Properties C63-C65, C86 and C87: the string storage. *)

From Coq Require Import ZArith List Bool Lia Permutation.
From Verif Require Import Base SStore_Model SStore_Spec SStore_Proof SStoreTree_Proof
  SStoreFlat_Proof SStoreEnum_Proof.
Import ListNotations.
Local Open Scope nat_scope.

(** *** C63: distinct keys get distinct slots, equal keys the same *)

(** Partial: for every history over a shallow set of keys (and every use of the user
    data).  Missing: sets that are not shallow, for which the property is false, below. *)
Theorem C63_shallow_keys_partial : forall uds (S : list Z -> Prop) ops,
  shallow S -> (forall k, S k -> key k /\ length k + 2 + uds <= block_size) ->
  Forall S (keys_of ops) -> writes_fit uds ops ->
  exists ss lg, play uds ops = Ok (ss, lg) /\ map fst lg = keys_of ops /\
    (forall k, ~ In (k, None) lg) /\
    (forall k p k' p', In (k, Some p) lg -> In (k', Some p') lg -> (p = p' <-> k = k')) /\
    (forall k, S k -> exists q, find ss (cstr k) = Ok q /\
       forall p, q = Some p <-> In (k, Some p) lg).
Proof.
  intros uds S ops HS HF HK HW.
  destruct (play_flat uds S ops HS HF HK HW) as (sb & r & lg & L & E & H & F).
  exists (sb, r), lg. split; [exact E|]. split; [apply H|]. split; [|split].
  - intros k Hk. destruct (f_in _ _ _ _ _ F _ _ Hk) as (v & Ev & _). discriminate.
  - intros k p k' p' Hp Hp'.
    destruct (f_in _ _ _ _ _ F _ _ Hp) as (v & Ev & Hv).
    destruct (f_in _ _ _ _ _ F _ _ Hp') as (v' & Ev' & Hv').
    injection Ev as Ev. injection Ev' as Ev'.
    assert (Hfst : forall l : list (list Z * ptr), NoDup (map fst l) -> forall a b c,
      In (a, b) l -> In (a, c) l -> b = c).
    { clear. induction l as [|[a0 b0] l IH]; intros N a b c H1 H2; [contradiction|].
      cbn in N. inversion N as [|? ? N1 N2]; subst.
      destruct H1 as [H1 | H1], H2 as [H2 | H2].
      - congruence.
      - exfalso. apply N1. injection H1 as -> ->. apply (in_map fst) in H2. exact H2.
      - exfalso. apply N1. injection H2 as -> ->. apply (in_map fst) in H1. exact H1.
      - eauto. }
    assert (Hsnd : forall l : list (list Z * ptr), NoDup (map snd l) -> forall a b c,
      In (b, a) l -> In (c, a) l -> b = c).
    { clear. induction l as [|[a0 b0] l IH]; intros N a b c H1 H2; [contradiction|].
      cbn in N. inversion N as [|? ? N1 N2]; subst.
      destruct H1 as [H1 | H1], H2 as [H2 | H2].
      - congruence.
      - exfalso. apply N1. injection H1 as -> ->. apply (in_map snd) in H2. exact H2.
      - exfalso. apply N1. injection H2 as -> ->. apply (in_map snd) in H1. exact H1.
      - eauto. }
    split.
    + intros Epp. rewrite Ev, Ev' in Epp. apply padd_inj in Epp. subst v'.
      eapply Hsnd; [apply F | exact Hv | exact Hv'].
    + intros Ekk. subst k'. assert (v = v') by (eapply Hfst; [apply F | exact Hv | exact Hv']).
      congruence.
  - intros k Sk. unfold find.
    assert (HK' : forall k0, S k0 -> key k0 /\ length k0 + 2 + s_uds sb <= block_size).
    { intros k0 S0. rewrite (h_uds _ _ _ _ _ _ H). apply HF. auto. }
    destruct (flat_add S sb L HS HK' (h_inv _ _ _ _ _ _ H) r k false (h_twf _ _ _ _ _ _ H) (f_sh _ _ _ _ _ F) Sk)
      as (sb2 & r2 & q & E2 & D).
    rewrite cstr_length, E2. cbn [bind]. exists q. split; [reflexivity|].
    destruct D as [(_ & _ & v & Hv & ->) | (Hnot & [(_ & _ & _ & ->) | (Q & _)])]; [| |discriminate].
    + intros p. split.
      * intros Q. injection Q as <-. apply F. exact Hv.
      * intros Hp. destruct (f_in _ _ _ _ _ F _ _ Hp) as (v' & Ev' & Hv').
        rewrite Ev'. do 2 f_equal.
        assert (Hfst : forall l : list (list Z * ptr), NoDup (map fst l) -> forall a b c,
          In (a, b) l -> In (a, c) l -> b = c).
        { clear. induction l as [|[a0 b0] l IH]; intros N a b c H1 H2; [contradiction|].
          cbn in N. inversion N as [|? ? N1 N2]; subst.
          destruct H1 as [H1 | H1], H2 as [H2 | H2].
          - congruence.
          - exfalso. apply N1. injection H1 as -> ->. apply (in_map fst) in H2. exact H2.
          - exfalso. apply N1. injection H2 as -> ->. apply (in_map fst) in H1. exact H1.
          - eauto. }
        eapply Hfst; [apply F | exact Hv | exact Hv'].
    + intros p. split; [discriminate|]. intros Hp.
      destruct (f_in _ _ _ _ _ F _ _ Hp) as (v' & Ev' & Hv'). exfalso. eapply Hnot; eauto.
Qed.
Print Assumptions C63_shallow_keys_partial.

Lemma lcp_self : forall a b, lcp a b = length a -> lcp a b = length b -> a = b.
Proof.
  induction a as [|x a IH]; intros [|y b] H1 H2; simpl in *; auto; try lia.
  destruct (Z.eqb_spec x y); [|lia]. subst. f_equal. apply IH; lia.
Qed.

Lemma short_shallow : shallow (fun k => length k <= 17).
Proof.
  split.
  - intros c x Hc Hx _. pose proof (lcp_le_l c x). lia.
  - intros c x y Hc Hx Hy _ _ _ H1 H2. pose proof (lcp_le_l (skipn (lcp c x) x) (skipn (lcp c y) y)) as H.
    rewrite skipn_length in H. lia.
Qed.

(** In particular: for every history over keys of at most 17 bytes. *)
Theorem C63_short_keys_partial : forall uds ops, uds <= 4077 ->
  Forall key (keys_of ops) -> Forall (fun k => length k <= 17) (keys_of ops) -> writes_fit uds ops ->
  exists ss lg, play uds ops = Ok (ss, lg) /\ map fst lg = keys_of ops /\
    (forall k, ~ In (k, None) lg) /\
    (forall k p k' p', In (k, Some p) lg -> In (k', Some p') lg -> (p = p' <-> k = k')) /\
    (forall k, key k -> length k <= 17 -> exists q, find ss (cstr k) = Ok q /\
       forall p, q = Some p <-> In (k, Some p) lg).
Proof.
  intros uds ops Hu H1 H2 HW.
  destruct (C63_shallow_keys_partial uds (fun k => key k /\ length k <= 17) ops) as (ss & lg & E & P1 & P2 & P3 & P4); auto.
  - destruct short_shallow as [A B]. split.
    + intros c x [_ Hc] [_ Hx]. apply A; auto.
    + intros c x y [_ Hc] [_ Hx] [_ Hy]. apply B; auto.
  - intros k [Kk Hk]. split; auto.
    assert (block_size = 4096) by (vm_compute; reflexivity). lia.
  - apply Forall_forall. intros k Hk. rewrite Forall_forall in H1, H2. auto.
  - exists ss, lg. repeat split; auto; apply P3; auto.
Qed.
Print Assumptions C63_short_keys_partial.

(** ... and for keys of any length no two of which share more than 8 bytes. *)
Theorem C63_no_shared_prefix_partial : forall uds ops,
  Forall key (keys_of ops) -> Forall (fun k => length k + 2 + uds <= 4096) (keys_of ops) ->
  (forall k k', In k (keys_of ops) -> In k' (keys_of ops) -> k <> k' -> lcp k k' <= 8) ->
  writes_fit uds ops ->
  exists ss lg, play uds ops = Ok (ss, lg) /\ map fst lg = keys_of ops /\
    (forall k, ~ In (k, None) lg) /\
    (forall k p k' p', In (k, Some p) lg -> In (k', Some p') lg -> (p = p' <-> k = k')).
Proof.
  intros uds ops H1 H2 H3 HW. rewrite Forall_forall in H1, H2.
  destruct (C63_shallow_keys_partial uds (fun k => In k (keys_of ops)) ops) as (ss & lg & E & P1 & P2 & P3 & P4).
  - split.
    + intros c x Hc Hx N. specialize (H3 c x Hc Hx N). lia.
    + intros c x y Hc Hx _ _ N _ H _. specialize (H3 c x Hc Hx). destruct (H3 ltac:(congruence)); lia.
  - intros k Hk. split; auto.
  - apply Forall_forall. auto.
  - exact HW.
  - exists ss, lg. repeat split; auto; apply P3; auto.
Qed.
Print Assumptions C63_no_shared_prefix_partial.

Example C63_long_ex_hyps :
  let ks := [zs "the first of two long keys"; zs "a key that shares nothing with it"] in
  Forall (fun k => length k + 2 + 4 <= 4096) ks /\
  (forall k k', In k ks -> In k' ks -> k <> k' -> lcp k k' <= 8).
Proof.
  split.
  - repeat (constructor; [vm_compute; lia|]). constructor.
  - intros k k' H H' N. destruct H as [<- | [<- | []]], H' as [<- | [<- | []]]; try congruence; vm_compute; lia.
Qed.

(** a run: two keys under a third, one of them added twice, with user data *)
Definition ex_ops : list op :=
  [OAdd (zs "AAA"); OAdd (zs "AAAaaaaaaa"); OWrite 1 [7%Z]; OAdd (zs "AAAaaaaaabbbb");
   OWrite 2 [1%Z; 2%Z]; OAdd (zs "AAAaaaaaaabc"); OAdd (zs "AAAaaaaaabbbb")].
Definition logged (x : res (storage * log)) : res (list (option ptr)) :=
  match x with Ok (_, l) => Ok (map snd l) | Ub u => Ub u | Fuel => Fuel end.
Example C63_ex_hyps : Forall key (keys_of ex_ops) /\
  Forall (fun k => length k <= 17) (keys_of ex_ops) /\ writes_fit 4 ex_ops.
Proof.
  split; [|split].
  - unfold key, ex_ops, keys_of. repeat (constructor; [vm_compute; repeat (constructor; [split; reflexivity|]); constructor|]).
    constructor.
  - unfold ex_ops, keys_of. repeat (constructor; [vm_compute; lia|]). constructor.
  - intros i d H. unfold ex_ops in H. cbn [In] in H.
    repeat (destruct H as [H | H]; [try discriminate H; injection H as <- <-; simpl; lia|]).
    contradiction.
Qed.
Example C63_ex : logged (play 4 ex_ops) =
  Ok [Some (0, 1); Some (0, 10); Some (0, 26); Some (0, 36); Some (0, 26)].
Proof. vm_compute. reflexivity. Qed.

(** Refuted for longer keys: two different keys share one slot. *)
Definition rep (n : nat) (c : Z) : list Z := repeat c n.
Theorem C63_keys_collide_refuted : exists t c k k' : list Z, k <> k' /\
  Forall key [t; c; k; k'] /\ Forall (fun x => length x <= 40) [t; c; k; k'] /\
  exists ss a b p, play 4 (map OAdd [t; c; k; k']) =
    Ok (ss, [(t, Some a); (c, Some b); (k, Some p); (k', Some p)]).
Proof.
  exists (rep 30 97), (rep 20 97 ++ rep 19 98 ++ [109%Z]), (rep 10 97 ++ rep 19 98 ++ [122%Z]),
    (rep 20 97 ++ rep 9 98 ++ [122%Z]).
  split; [vm_compute; congruence|]. split.
  { repeat (constructor; [vm_compute; repeat (constructor; [split; reflexivity|]); constructor|]). constructor. }
  split.
  { repeat (constructor; [vm_compute; lia|]). constructor. }
  destruct (play 4 _) as [[ss lg]| |] eqn:E.
  2,3: exfalso; revert E; vm_compute; discriminate.
  assert (Hl : lg = [(rep 30 97, Some (0, 1)); (rep 20 97 ++ rep 19 98 ++ [109%Z], Some (0, 37));
    (rep 10 97 ++ rep 19 98 ++ [122%Z], Some (0, 63)); (rep 20 97 ++ rep 9 98 ++ [122%Z], Some (0, 63))]).
  { assert (E' : match play 4 (map OAdd [rep 30 97; rep 20 97 ++ rep 19 98 ++ [109%Z];
        rep 10 97 ++ rep 19 98 ++ [122%Z]; rep 20 97 ++ rep 9 98 ++ [122%Z]]) with
      | Ok (_, l) => Some l | _ => None end = Some lg) by (now rewrite E).
    clear E. revert E'. vm_compute. intros E'. injection E' as <-. reflexivity. }
  rewrite Hl. exists ss, (0, 1), (0, 37), (0, 63). reflexivity.
Qed.
Print Assumptions C63_keys_collide_refuted.

(** Refuted for longer keys: a key that was added and never removed gets a second slot
    when it is added again after another key. *)
Theorem C63_key_is_lost_refuted : exists t c k w : list Z,
  Forall key [t; c; k; w] /\ Forall (fun x => length x <= 40) [t; c; k; w] /\
  exists ss a b e p q, p <> q /\ play 4 (map OAdd [t; c; k; w; k]) =
    Ok (ss, [(t, Some a); (c, Some b); (k, Some p); (w, Some e); (k, Some q)]).
Proof.
  exists (rep 30 97), (rep 20 97 ++ rep 19 98 ++ [109%Z]), (rep 10 97 ++ rep 19 98 ++ [122%Z]),
    (rep 15 97 ++ [99%Z]).
  split.
  { repeat (constructor; [vm_compute; repeat (constructor; [split; reflexivity|]); constructor|]). constructor. }
  split.
  { repeat (constructor; [vm_compute; lia|]). constructor. }
  destruct (play 4 _) as [[ss lg]| |] eqn:E.
  2,3: exfalso; revert E; vm_compute; discriminate.
  assert (Hl : lg = [(rep 30 97, Some (0, 1)); (rep 20 97 ++ rep 19 98 ++ [109%Z], Some (0, 37));
    (rep 10 97 ++ rep 19 98 ++ [122%Z], Some (0, 63)); (rep 15 97 ++ [99%Z], Some (0, 70));
    (rep 10 97 ++ rep 19 98 ++ [122%Z], Some (0, 77))]).
  { assert (E' : match play 4 (map OAdd [rep 30 97; rep 20 97 ++ rep 19 98 ++ [109%Z];
        rep 10 97 ++ rep 19 98 ++ [122%Z]; rep 15 97 ++ [99%Z]; rep 10 97 ++ rep 19 98 ++ [122%Z]]) with
      | Ok (_, l) => Some l | _ => None end = Some lg) by (now rewrite E).
    clear E. revert E'. vm_compute. intros E'. injection E' as <-. reflexivity. }
  rewrite Hl. exists ss, (0, 1), (0, 37), (0, 70), (0, 63), (0, 77).
  split; [congruence | reflexivity].
Qed.
Print Assumptions C63_key_is_lost_refuted.

(** *** C64: slots are inside their blocks and apart *)

(** Partial: for every history and any keys, except keys that with their terminator and
    the user data take exactly 4096 bytes; for those it is false, below. *)
Theorem C64_slots_partial : forall uds ops,
  Forall key (keys_of ops) -> Forall (fun k => length k + 1 + uds <> 4096) (keys_of ops) ->
  writes_fit uds ops ->
  exists ss lg, play uds ops = Ok (ss, lg) /\ map fst lg = keys_of ops /\
    (forall k q, In (k, q) lg -> (q = None <-> 4096 < length k + 1 + uds)) /\
    (forall k p, In (k, Some p) lg -> slot_inside uds p /\ fst p < length (s_blocks (fst ss))) /\
    (forall k p k' p', In (k, Some p) lg -> In (k', Some p') lg -> p = p' \/ slots_apart uds p p').
Proof.
  intros uds ops H1 H2 H3.
  assert (Eb : block_size = 4096) by (vm_compute; reflexivity).
  destruct (play_ok uds ops) as (sb & r & lg & L & E & H).
  { split; [auto|]. split; auto. }
  exists (sb, r), lg. split; [exact E|]. split; [apply H|].
  pose proof (h_inv _ _ _ _ _ _ H) as I.
  split; [|split].
  - intros k q Hq. split.
    + intros ->. pose proof (h_none _ _ _ _ _ _ H k Hq). rewrite Eb in *. lia.
    + intros Hl. destruct q as [p|]; auto. pose proof (h_some _ _ _ _ _ _ H k p Hq). rewrite Eb in *. lia.
  - intros k p Hp. destruct (h_log _ _ _ _ _ _ H _ _ Hp) as (x & Hx & Ex). injection Ex as ->.
    destruct (i_in _ _ I x Hx) as (b & Hb & Hl & _). unfold slot_inside, sl_len, sl_o, sl_b in *.
    rewrite (h_uds _ _ _ _ _ _ H) in Hl. cbn [padd fst snd].
    assert (fst (sl_v x) < length (s_blocks sb)) by (apply nth_error_Some; congruence). lia.
  - intros k p k' p' Hp Hp'.
    destruct (h_log _ _ _ _ _ _ H _ _ Hp) as (x & Hx & Ex). injection Ex as ->.
    destruct (h_log _ _ _ _ _ _ H _ _ Hp') as (x' & Hx' & Ex'). injection Ex' as ->.
    destruct (apart_in _ _ x x' (i_apart _ _ I) Hx Hx') as [-> | A]; auto. right.
    unfold apart, slots_apart, sl_len, sl_o, sl_b in *. rewrite (h_uds _ _ _ _ _ _ H) in A.
    cbn [padd fst snd]. lia.
Qed.
Print Assumptions C64_slots_partial.

(** the run of C63_ex with a key that is too long *)
Example C64_ex : let ops := ex_ops ++ [OAdd (rep 4092 97)] in
  Forall key (keys_of ops) /\ Forall (fun k => length k + 1 + 4 <> 4096) (keys_of ops) /\ writes_fit 4 ops /\
  logged (play 4 ops) = Ok [Some (0, 1); Some (0, 10); Some (0, 26); Some (0, 36); Some (0, 26); None].
Proof.
  destruct C63_ex_hyps as (H1 & H2 & H3). cbv zeta.
  assert (E : keys_of (ex_ops ++ [OAdd (rep 4092 97)]) = keys_of ex_ops ++ [rep 4092 97]) by reflexivity.
  rewrite E. split; [|split; [|split]].
  - apply Forall_app. split; [exact H1|]. constructor; [|constructor]. unfold key, rep. apply Forall_forall. intros c Hc.
    apply repeat_spec in Hc. subst. lia.
  - apply Forall_app. split.
    + eapply Forall_impl; [|exact H2]. cbn beta. intros k Hk. lia.
    + constructor; [|constructor]. unfold rep. rewrite repeat_length. lia.
  - intros i d H. apply in_app_or in H. destruct H as [H|[H|[]]]; [exact (H3 i d H)|discriminate].
  - vm_compute. reflexivity.
Qed.

(** Refuted: string_storage_add accepts a key for which it writes 4097 bytes. *)
Theorem C64_exact_fit_refuted : exists k, key k /\ length k + 1 + 4 = 4096 /\
  add (init 4) (cstr k) = Ub OobWrite.
Proof.
  exists (rep 4091 97). split; [|split].
  - unfold key, rep. apply Forall_forall. intros c Hc. apply repeat_spec in Hc. subst. lia.
  - unfold rep. rewrite repeat_length. reflexivity.
  - vm_compute. reflexivity.
Qed.
Print Assumptions C64_exact_fit_refuted.

Lemma wrbs_oob : forall l b i, i <= length b -> length b < i + length l -> wrbs b i l = Ub OobWrite.
Proof.
  induction l as [|x l IH]; intros b i H1 H2; cbn [length wrbs] in *; [lia|].
  destruct (Nat.eq_dec i (length b)) as [E|N].
  - unfold wr. destruct (Nat.ltb_spec i (length b)); [lia|]. reflexivity.
  - unfold wr at 1. destruct (Nat.ltb_spec i (length b)); [|lia]. cbn [bind]. apply IH; rewrite ?upd_length; lia.
Qed.
Lemma new_slot_exact : forall sb prev s, length s + s_uds sb = block_size -> 0 < length s ->
  new_slot sb prev s = Ub OobWrite.
Proof.
  intros sb prev s L P. unfold new_slot, new_block.
  replace (match s_cur sb with None => true | _ => false end
     || (block_size <? s_used sb + 1 + length s + s_uds sb)) with true.
  2: { symmetry. apply orb_true_iff. right. apply Nat.ltb_lt. lia. }
  destruct (length (s_blocks sb) <? _); [|reflexivity]. cbn [bind s_cur s_used].
  destruct (wrp_ok (mkSb (s_uds sb) 0 (Some (length (s_blocks sb))) (s_blocks sb ++ [repeat 0%Z block_size])
     (grow (s_bcap sb) (length (s_blocks sb)))) (length (s_blocks sb), 0) (repeat 0%Z block_size) [Z.of_nat prev]) as (b' & E & El & _).
  { cbn [s_blocks fst]. rewrite nth_error_app2, Nat.sub_diag by lia. reflexivity. }
  { cbn [snd length]. rewrite repeat_length. lia. }
  rewrite E. cbn [bind]. unfold wrp at 1. cbn [set_blocks s_blocks padd fst snd s_uds].
  rewrite nth_error_upd_same by (rewrite app_length; cbn [length]; lia).
  rewrite wrbs_oob; [reflexivity| |]; rewrite El, repeat_length; lia.
Qed.

(** It is so for every key of that length, and after every history over a shallow set of keys with which
    the key shares no more than 8 bytes. *)
Theorem C64_exact_fit_breaks : forall uds (S : list Z -> Prop) ops k,
  shallow S -> (forall x, S x -> key x /\ length x + 2 + uds <= 4096) ->
  Forall S (keys_of ops) -> writes_fit uds ops ->
  key k -> length k + 1 + uds = 4096 -> (forall x, S x -> x <> k /\ lcp k x <= 8) ->
  exists ss lg, play uds ops = Ok (ss, lg) /\ add ss (cstr k) = Ub OobWrite.
Proof.
  intros uds S ops k HS HF HK HW Kk Lk HN.
  assert (Eb : block_size = 4096) by (vm_compute; reflexivity).
  destruct (play_flat uds S ops HS) as (sb & r & lg & L & E & H & F); auto.
  exists (sb, r), lg. split; [exact E|].
  pose proof (h_inv _ _ _ _ _ _ H) as I. pose proof (h_twf _ _ _ _ _ _ H) as W.
  pose proof (h_uds _ _ _ _ _ _ H) as U. destruct (f_sh _ _ _ _ _ F) as [SS TO].
  pose proof (twf_known _ _ W) as KN.
  unfold add. rewrite U, cstr_length, Eb. destruct (Nat.ltb_spec 4096 (Datatypes.S (length k) + uds)); [lia|].
  cbn [find_add].
  destruct (search_sorted sb L (n_kids r) 0 k I Kk KN) as (o & Eo & P).
  { eapply SS_impl; [|exact SS]. intros x y _ _ [R _]. exact R. }
  rewrite Eo. cbn [bind]. destruct o as [m | g].
  - destruct P as (x & Hx & Ex). apply nth_error_In in Hx. destruct (TO x Hx) as (_ & Sx & _).
    rewrite Ex in Sx. cbn [snd] in Sx. destruct (HN k Sx). congruence.
  - assert (C : exists cb, (if g =? 0 then Ok 0
             else x <- rd (n_kids r) (g - 1) ;;
                  n <- common_prefix sb (cstr k) (padd (n_val x) (s_uds sb + 1)) ;;
                  Ok (n mod 256)) = Ok cb /\ cb <= 8).
    { destruct (Nat.eqb_spec g 0); [exists 0; split; [reflexivity|lia]|]. destruct P as (Hg & _ & _).
      destruct (nth_error (n_kids r) (g - 1)) as [x|] eqn:Hx; [|apply nth_error_None in Hx; lia].
      unfold rd. rewrite Hx. cbn [bind]. apply nth_error_In in Hx.
      rewrite Forall_forall in KN. destruct (known_slot _ _ (KN x Hx)) as (sl & Hsl & Esl).
      rewrite <- Esl, (slot_common sb sl k (i_in _ _ I _ Hsl) Kk). cbn [bind].
      destruct (TO x Hx) as (_ & Sx & _). unfold lbn in Sx. rewrite <- Esl, (lab_in _ _ _ I Hsl) in Sx. cbn [snd] in Sx.
      destruct (HN _ Sx) as [_ Q]. eexists. split; [reflexivity|].
      rewrite Nat.mod_small; rewrite ?(lcp_sym (sl_s sl) k); lia. }
    destruct C as (cb & Ec & Hc). rewrite Ec. cbn [bind]. destruct (Nat.ltb_spec 8 cb); [lia|]. cbn [negb].
    rewrite new_slot_exact; [reflexivity| |]; rewrite cstr_length, ?U, ?Eb; lia.
Qed.
Print Assumptions C64_exact_fit_breaks.
Example C64_exact_fit_ex : let ks := [zs "the first of two long keys"; zs "a key that shares nothing with it"] in
  let S := fun x => In x ks in
  shallow S /\ (forall x, S x -> key x /\ length x + 2 + 4 <= 4096) /\ Forall S (keys_of (map OAdd ks)) /\
  writes_fit 4 (map OAdd ks) /\ key (rep 4091 98) /\ length (rep 4091 98) + 1 + 4 = 4096 /\
  (forall x, S x -> x <> rep 4091 98 /\ lcp (rep 4091 98) x <= 8).
Proof.
  cbv zeta. split; [|split; [|split; [|split; [|split; [|split]]]]].
  - split.
    + intros c x [<-|[<-|[]]] [<-|[<-|[]]] N; try congruence; vm_compute; lia.
    + intros c x y [<-|[<-|[]]] [<-|[<-|[]]] _ _ N _ H; try congruence; apply Nat.ltb_lt in H; vm_compute in H; discriminate.
  - intros x [<-|[<-|[]]]; (split; [|vm_compute; lia]); unfold key; apply Forall_forall; intros c Hc; vm_compute in Hc; lia.
  - apply Forall_forall. intros x Hx. exact Hx.
  - intros i d [H|[H|[]]]; discriminate.
  - unfold key, rep. apply Forall_forall. intros c Hc. apply repeat_spec in Hc. subst. lia.
  - unfold rep. rewrite repeat_length. reflexivity.
  - intros x [<-|[<-|[]]]; (split; [intros H; apply (f_equal (@length Z)) in H; unfold rep in H; rewrite repeat_length in H; vm_compute in H; discriminate | vm_compute; lia]).
Qed.

(** *** C65: the arrays have room *)

Theorem C65_arrays_have_room : forall n, n <= room n /\ room n <= room (S n) /\ room n <= n + 15.
Proof.
  assert (H : forall n, capinv (room n) n).
  { induction n as [|n IH]; [left; auto|]. cbn [room]. apply grow_room. exact IH. }
  intros n. pose proof (H n) as Hn. pose proof (H (S n)) as Hs.
  split; [|split].
  - unfold capinv in Hn. lia.
  - cbn [room]. unfold grow. destruct (Nat.eqb_spec n 0); [subst; simpl; lia|].
    destruct (Nat.eqb_spec n 2); [unfold capinv in Hn; lia|].
    destruct (Nat.eqb_spec (Nat.land n 15) 0) as [E|]; [|lia].
    unfold capinv in Hn. lia.
  - unfold capinv in Hn. lia.
Qed.
Print Assumptions C65_arrays_have_room.

Example C65_ex : map room [0; 1; 2; 3; 16; 17; 32; 33] = [0; 2; 2; 16; 16; 32; 32; 48].
Proof. reflexivity. Qed.

(** *** C86: enumeration *)

(** The enumeration is defined after every history. *)
Theorem C86_enumeration_is_defined : forall uds ops,
  Forall key (keys_of ops) -> Forall (fun k => length k + 1 + uds <> 4096) (keys_of ops) ->
  writes_fit uds ops ->
  exists ss lg l, play uds ops = Ok (ss, lg) /\ enumerate ss = Ok l.
Proof.
  intros uds ops H1 H2 H3.
  assert (Eb : block_size = 4096) by (vm_compute; reflexivity).
  destruct (play_ok uds ops) as (sb & r & lg & L & E & H).
  { split; [auto|]. split; auto. }
  destruct (enum_ok sb L (h_inv _ _ _ _ _ _ H) r [] (h_twf _ _ _ _ _ _ H)) as (l & El).
  { intros x Hx. destruct (h_top _ _ _ _ _ _ H x Hx) as (sl & A & B & C). exists sl. simpl. repeat split; auto. lia. }
  exists (sb, r), lg, l. auto.
Qed.
Print Assumptions C86_enumeration_is_defined.

(** Partial: over a shallow set of keys, every key is reported once, with its slot and its
    text, cut to 255 bytes.
    Missing: other sets, and the rest of longer keys (false, below). *)
Theorem C86_enumeration_partial : forall uds (S : list Z -> Prop) ops,
  shallow S -> (forall k, S k -> key k /\ length k + 2 + uds <= block_size) ->
  Forall S (keys_of ops) -> writes_fit uds ops ->
  exists ss lg l d, play uds ops = Ok (ss, lg) /\ enumerate ss = Ok l /\
    l = map (fun e : list Z * ptr => (padded (fst e), snd e)) d /\
    NoDup (map fst d) /\ (forall k p, In (k, p) d <-> In (k, Some p) lg).
Proof.
  intros uds S ops HS HF HK HW.
  destruct (play_flat uds S ops HS) as (sb & r & lg & L & E & H & F); auto.
  pose proof (h_twf _ _ _ _ _ _ H) as W. apply twf_eq in W. destruct W as [_ W].
  pose proof (enum_flat S sb L (h_inv _ _ _ _ _ _ H) (n_kids r)
    (f_sh _ _ _ _ _ F) W) as En.
  exists (sb, r), lg, (map shown (entries (lab L) (n_kids r))),
    (map (fun e : list Z * ptr => (fst e, padd (snd e) 1)) (entries (lab L) (n_kids r))).
  split; [exact E|]. split; [unfold enumerate; cbn [fst snd]; rewrite enum_rec_eq; exact En|].
  split; [rewrite map_map; apply map_ext; intros [a b]; reflexivity|].
  split; [rewrite map_map; apply F|].
  intros k p. split.
  - intros Hi. apply in_map_iff in Hi. destruct Hi as ([a b] & Ei & Hi). cbn in Ei. injection Ei as -> <-.
    apply F. exact Hi.
  - intros Hi. destruct (f_in _ _ _ _ _ F _ _ Hi) as (v & Ev & Hv). injection Ev as ->.
    apply in_map_iff. exists (k, v). auto.
Qed.
Print Assumptions C86_enumeration_partial.

Example C86_ex :
  match play 4 ex_ops with
  | Ok (ss, _) => match enumerate ss with
                  | Ok l => map (fun e => (firstn 16 (fst e), snd e)) l
                  | _ => [] end
  | _ => [] end =
  map (fun e => (firstn 16 (padded (fst e)), snd e))
    [(zs "AAA", (0, 1)); (zs "AAAaaaaaaa", (0, 10)); (zs "AAAaaaaaaabc", (0, 36));
     (zs "AAAaaaaaabbbb", (0, 26))].
Proof. vm_compute. reflexivity. Qed.

(** Refuted for long keys: two keys are reported under the same text. *)
Theorem C86_long_keys_refuted : exists k k' : list Z, k <> k' /\ Forall key [k; k'] /\
  exists ss lg t p q, play 4 [OAdd k; OAdd k'] = Ok (ss, lg) /\
    enumerate ss = Ok [(t, p); (t, q)] /\ p <> q.
Proof.
  exists (rep 260 97), (rep 260 97 ++ [98%Z]).
  split; [vm_compute; discriminate|]. split.
  { constructor; [|constructor; [|constructor]]; unfold key.
    - apply Forall_forall. intros c Hc. apply repeat_spec in Hc. subst. lia.
    - apply Forall_app. split.
      + apply Forall_forall. intros c Hc. apply repeat_spec in Hc. subst. lia.
      + constructor; [lia|constructor]. }
  destruct (play 4 _) as [[ss lg]| |] eqn:E.
  2,3: exfalso; revert E; vm_compute; discriminate.
  assert (E' : match play 4 [OAdd (rep 260 97); OAdd (rep 260 97 ++ [98%Z])] with
    | Ok (s, _) => enumerate s | _ => Fuel end = enumerate ss) by (now rewrite E).
  exists ss, lg, (rep 255 97 ++ [0%Z]), (0, 1), (0, 267).
  split; [reflexivity|]. split; [|congruence].
  rewrite <- E'. vm_compute. reflexivity.
Qed.
Print Assumptions C86_long_keys_refuted.

(** *** C87: user data *)

(** After every history the user data at every slot is what was last stored there through
    a pointer to it, and zeros before; nothing else changes it. *)
Theorem C87_user_data_is_kept : forall uds ops,
  Forall key (keys_of ops) -> Forall (fun k => length k + 1 + uds <> 4096) (keys_of ops) ->
  writes_fit uds ops ->
  exists ss lg, play uds ops = Ok (ss, lg) /\
    forall k p, In (k, Some p) lg ->
      bytes_at ss p uds = Some (view ops 0 lg p (repeat 0%Z uds)).
Proof.
  intros uds ops H1 H2 H3.
  assert (Eb : block_size = 4096) by (vm_compute; reflexivity).
  destruct (play_ok uds ops) as (sb & r & lg & L & E & H).
  { split; [auto|]. split; auto. }
  exists (sb, r), lg. split; [exact E|]. intros k p Hp.
  pose proof (h_inv _ _ _ _ _ _ H) as I.
  destruct (h_log _ _ _ _ _ _ H _ _ Hp) as (x & Hx & Ex). injection Ex as ->.
  destruct (i_in _ _ I x Hx) as (b & Hb & Hl & _).
  assert (Hlb : length b = block_size).
  { pose proof (i_len _ _ I) as F. rewrite Forall_forall in F. apply F. eapply nth_error_In; eauto. }
  pose proof (h_data _ _ _ _ _ _ H x Hx) as U.
  rewrite <- (h_uds _ _ _ _ _ _ H) at 1. eapply udata_bytes; eauto.
  unfold sl_len, sl_o in Hl. lia.
Qed.
Print Assumptions C87_user_data_is_kept.

Example C87_ex :
  match play 4 ex_ops with
  | Ok (ss, _) => (bytes_at ss (0, 10) 4, bytes_at ss (0, 26) 4)
  | _ => (None, None) end = (Some [7; 0; 0; 0]%Z, Some [1; 2; 0; 0]%Z).
Proof. vm_compute. reflexivity. Qed.
