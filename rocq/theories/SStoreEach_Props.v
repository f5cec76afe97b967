(** Theorems about keys that the string storage keeps apart from all others. *)

From Coq Require Import ZArith List Bool Lia Permutation.
From Verif Require Import Base SStore_Model SStore_Spec SStore_Proof SStoreTree_Proof SStoreFlat_Proof SStoreEnum_Proof
  SStoreAgain_Proof SStoreEach_Spec SStoreEach_Proof SStore_Props.
Import ListNotations.
Local Open Scope nat_scope.

Lemma nodup_snd : forall A B (l : list (A * B)) a b c, NoDup (map snd l) -> In (a, c) l -> In (b, c) l -> b = a.
Proof.
  induction l as [|[x y] l IH]; intros a b c N Ha Hb; cbn in *; [contradiction|].
  inversion N as [|? ? N1 N2]; subst.
  destruct Ha as [Ha | Ha], Hb as [Hb | Hb]; try congruence.
  - injection Ha as -> ->. exfalso. apply N1. apply in_map_iff. exists (b, c). auto.
  - injection Hb as -> ->. exfalso. apply N1. apply in_map_iff. exists (a, c). auto.
  - eapply IH; eauto.
Qed.
Lemma nodup_fst : forall A B (l : list (A * B)) a b c, NoDup (map fst l) -> In (c, a) l -> In (c, b) l -> a = b.
Proof.
  induction l as [|[x y] l IH]; intros a b c N Ha Hb; cbn in *; [contradiction|].
  inversion N as [|? ? N1 N2]; subst.
  destruct Ha as [Ha | Ha], Hb as [Hb | Hb]; try congruence.
  - injection Ha as -> ->. exfalso. apply N1. apply in_map_iff. exists (c, b). auto.
  - injection Hb as -> ->. exfalso. apply N1. apply in_map_iff. exists (c, a). auto.
  - eapply IH; eauto.
Qed.

(** *** C63: a lonely key has a slot of its own and is never lost

    The other keys need not be lonely: they may be lost or share slots among themselves
    (C63_key_is_lost_refuted, C63_keys_collide_refuted), but not with a lonely key.  Missing
    for the full claim: keys that are not lonely, and keys that share 256 bytes. *)
Theorem C63_lonely_key_partial : forall uds (S : list Z -> Prop) ops,
  under256 S -> (forall k, S k -> key k /\ length k + 2 + uds <= 4096) ->
  Forall S (keys_of ops) -> writes_fit uds ops ->
  exists ss lg, play uds ops = Ok (ss, lg) /\ map fst lg = keys_of ops /\
    forall k, S k -> lonely S k ->
      (forall p k', In (k, Some p) lg -> In (k', Some p) lg -> k' = k) /\
      exists q, find ss (cstr k) = Ok q /\ forall p, q = Some p <-> In (k, Some p) lg.
Proof.
  intros uds S ops HS HF0 HK HW.
  assert (Eb : block_size = 4096) by (vm_compute; reflexivity).
  assert (HF : fits uds S) by (intros k Sk; rewrite Eb; auto).
  destruct (play_each uds S ops HS HF HK HW) as (sb & r & lg & L & E & G & F).
  destruct (play_ok uds ops (fits_sizes uds S ops HF HK HW)) as (sb1 & r1 & lg1 & L1 & E1 & H1).
  rewrite E in E1. injection E1 as <- <- <-.
  exists (sb, r), lg. split; [exact E|]. split; [apply H1|]. intros k Sk Hl.
  pose proof (proj1 (split_nodup (lab L) r (ginv_nodup _ _ _ _ _ G))) as Nv.
  assert (Hin : forall p, In (k, Some p) lg <-> exists v, p = padd v 1 /\ In (k, v) (entries (lab L) (n_kids r))).
  { intros p. split.
    - intros Hp. destruct (e_in _ _ _ _ F _ _ Hp) as (v & Ev & _ & [Hv | [_ N]]); [|contradiction].
      exists v. split; congruence.
    - intros (v & -> & Hv). apply F. auto. }
  split.
  - intros p k' Hp Hp'. apply Hin in Hp. destruct Hp as (v & -> & Hv).
    destruct (e_in _ _ _ _ F _ _ Hp') as (v' & Ev & _ & Hv'). injection Ev as Ev.
    assert (v = v') as <- by (apply padd_inj; unfold padd; congruence).
    destruct Hv' as [Hv' | [N _]].
    + eapply nodup_snd; eauto.
    + exfalso. apply N. apply in_map_iff. exists (k, v). auto.
  - assert (HK' : forall k0, S k0 -> key k0 /\ length k0 + 2 + s_uds sb <= block_size).
    { intros k0 S0. rewrite (g_uds _ _ _ _ _ G). apply HF. auto. }
    destruct (flat_add2 S sb L HS HK' (g_inv _ _ _ _ _ G) r k false (g_twf _ _ _ _ _ G) (e_sh _ _ _ _ F)
      (g_sort _ _ _ _ _ G) Sk (fun _ => Hl)) as (sb2 & r2 & q & E2 & D).
    exists q. unfold find. rewrite cstr_length, E2. cbn [bind]. split; [reflexivity|].
    intros p. rewrite Hin.
    destruct D as [(_ & _ & v & Hv & ->) | (Hnot & [(_ & _ & _ & ->) | [(Hf & _) | (Hf & _)]])]; try discriminate.
    + split.
      * intros Ep. injection Ep as <-. exists v. auto.
      * intros (v' & -> & Hv'). f_equal.
        assert (v' = v) as ->; auto. eapply nodup_fst; [apply (e_keys _ _ _ _ F) | exact Hv' | exact Hv].
    + split; [discriminate|]. intros (v & _ & Hv). exfalso. eapply Hnot; eauto.
Qed.
Print Assumptions C63_lonely_key_partial.

(** Two keys that get the same slot are both not lonely. *)
Corollary C63_only_deep_keys_collide_partial : forall uds (S : list Z -> Prop) ops ss lg k k' p,
  under256 S -> (forall k, S k -> key k /\ length k + 2 + uds <= 4096) ->
  Forall S (keys_of ops) -> writes_fit uds ops -> play uds ops = Ok (ss, lg) ->
  In (k, Some p) lg -> In (k', Some p) lg -> k <> k' -> ~ lonely S k /\ ~ lonely S k'.
Proof.
  intros uds S ops ss lg k k' p HS HF HK HW E Hk Hk' N.
  destruct (C63_lonely_key_partial uds S ops HS HF HK HW) as (ss' & lg' & E' & M & H).
  rewrite E in E'. injection E' as <- <-.
  assert (A : forall x q, In (x, q) lg -> S x).
  { intros x q Hx. rewrite Forall_forall in HK. apply HK. rewrite <- M. apply in_map_iff. exists (x, q). auto. }
  split; intros Hl.
  - apply N. symmetry. destruct (H k (A _ _ Hk) Hl) as [B _]. eapply B; eauto.
  - apply N. destruct (H k' (A _ _ Hk') Hl) as [B _]. eapply B; eauto.
Qed.
Print Assumptions C63_only_deep_keys_collide_partial.

Lemma short_lonely : forall S k, length k <= 17 -> lonely S k.
Proof.
  intros S k H x y _ _ _ _ _ H1 _. pose proof (lcp_le_l (skipn (lcp x k) k) (skipn (lcp x y) y)) as A.
  rewrite skipn_length in A. lia.
Qed.

(** A key of at most 17 bytes has a slot of its own and is never lost, among keys of up to
    255 bytes. *)
Theorem C63_short_key_partial : forall uds ops, uds <= 3839 ->
  Forall key (keys_of ops) -> Forall (fun k => length k <= 255) (keys_of ops) -> writes_fit uds ops ->
  exists ss lg, play uds ops = Ok (ss, lg) /\ map fst lg = keys_of ops /\
    forall k, key k -> length k <= 17 ->
      (forall p k', In (k, Some p) lg -> In (k', Some p) lg -> k' = k) /\
      exists q, find ss (cstr k) = Ok q /\ forall p, q = Some p <-> In (k, Some p) lg.
Proof.
  intros uds ops Hu H1 H2 HW.
  destruct (C63_lonely_key_partial uds (fun k => key k /\ length k <= 255) ops) as (ss & lg & E & M & H); auto.
  - intros c x [_ Hc] [_ Hx] _. pose proof (lcp_le_l c x). lia.
  - intros k [Kk Hk]. split; auto. lia.
  - rewrite Forall_forall in *. intros k Hk. split; auto.
  - exists ss, lg. split; [exact E|]. split; [exact M|]. intros k Kk Hk. apply H.
    + split; auto. lia.
    + apply short_lonely. exact Hk.
Qed.
Print Assumptions C63_short_key_partial.

(** A key that shares at most 8 bytes with every other key has a slot of its own and is
    never lost, whatever the other keys share. *)
Theorem C63_distant_key_partial : forall uds (S : list Z -> Prop) ops k,
  under256 S -> (forall k, S k -> key k /\ length k + 2 + uds <= 4096) ->
  Forall S (keys_of ops) -> writes_fit uds ops -> S k -> (forall x, S x -> x <> k -> lcp x k <= 8) ->
  exists ss lg, play uds ops = Ok (ss, lg) /\
    (forall p k', In (k, Some p) lg -> In (k', Some p) lg -> k' = k) /\
    exists q, find ss (cstr k) = Ok q /\ forall p, q = Some p <-> In (k, Some p) lg.
Proof.
  intros uds S ops k HS HF HK HW Sk Hd.
  destruct (C63_lonely_key_partial uds S ops HS HF HK HW) as (ss & lg & E & _ & H).
  exists ss, lg. split; [exact E|]. apply H; auto.
  intros x y Sx _ Nx _ _ H1 _. specialize (Hd x Sx Nx). lia.
Qed.
Print Assumptions C63_distant_key_partial.

(** 17 is the limit: a key of 18 bytes gets lost, here among keys of up to 30 bytes. *)
Theorem C63_eighteen_bytes_refuted : exists t c k w : list Z,
  Forall key [t; c; k; w] /\ Forall (fun x => length x <= 30) [t; c; k; w] /\ length k = 18 /\
  exists ss a b e p q, p <> q /\ play 4 (map OAdd [t; c; k; w; k]) =
    Ok (ss, [(t, Some a); (c, Some b); (k, Some p); (w, Some e); (k, Some q)]).
Proof.
  exists (rep 30 97), (rep 10 97 ++ rep 19 98 ++ [109%Z]), (rep 9 97 ++ rep 9 98), (rep 9 97 ++ [98%Z]).
  split.
  { repeat (constructor; [vm_compute; repeat (constructor; [split; reflexivity|]); constructor|]). constructor. }
  split.
  { repeat (constructor; [vm_compute; lia|]). constructor. }
  split; [reflexivity|].
  destruct (play 4 _) as [[ss lg]| |] eqn:E.
  2,3: exfalso; revert E; vm_compute; discriminate.
  assert (Hl : lg = [(rep 30 97, Some (0, 1)); (rep 10 97 ++ rep 19 98 ++ [109%Z], Some (0, 37));
    (rep 9 97 ++ rep 9 98, Some (0, 63)); (rep 9 97 ++ [98%Z], Some (0, 69));
    (rep 9 97 ++ rep 9 98, Some (0, 76))]).
  { assert (E' : match play 4 (map OAdd [rep 30 97; rep 10 97 ++ rep 19 98 ++ [109%Z];
        rep 9 97 ++ rep 9 98; rep 9 97 ++ [98%Z]; rep 9 97 ++ rep 9 98]) with
      | Ok (_, l) => Some l | _ => None end = Some lg) by (now rewrite E).
    clear E. revert E'. vm_compute. intros E'. injection E' as <-. reflexivity. }
  rewrite Hl. exists ss, (0, 1), (0, 37), (0, 69), (0, 63), (0, 76).
  split; [congruence | reflexivity].
Qed.
Print Assumptions C63_eighteen_bytes_refuted.

(** The keys of C63_key_is_lost_refuted meet the hypotheses; the short key "aaaaaaaaaaaaaaac"
    keeps its slot although the key before it is lost. *)
Definition mixed_ops : list op := map OAdd
  [rep 30 97; rep 20 97 ++ rep 19 98 ++ [109%Z]; rep 10 97 ++ rep 19 98 ++ [122%Z]; rep 15 97 ++ [99%Z]].
Example C63_ex_mixed_hypotheses : Forall key (keys_of mixed_ops) /\
  Forall (fun k => length k <= 255) (keys_of mixed_ops) /\ writes_fit 4 mixed_ops /\
  key (rep 15 97 ++ [99%Z]) /\ length (rep 15 97 ++ [99%Z]) <= 17.
Proof.
  split; [|split; [|split; [|split]]].
  - repeat constructor; cbn; try lia.
  - repeat constructor; cbn; lia.
  - intros i d Hi. cbn in Hi. destruct Hi as [Hi | [Hi | [Hi | [Hi | []]]]]; discriminate.
  - repeat constructor; cbn; lia.
  - cbn. lia.
Qed.
Example C63_ex_mixed : match play 4 mixed_ops with
  | Ok (ss, lg) => (map snd lg, find ss (cstr (rep 15 97 ++ [99%Z])), find ss (cstr (rep 10 97 ++ rep 19 98 ++ [122%Z])))
      = ([Some (0, 1); Some (0, 37); Some (0, 63); Some (0, 70)], Ok (Some (0, 70)), Ok None)
  | _ => False end.
Proof. vm_compute. reflexivity. Qed.
