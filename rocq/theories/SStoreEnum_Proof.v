(** Lemmas about the string storage: enumeration, and histories over shallow sets. *)

From Coq Require Import ZArith List Bool Lia Sorted Permutation.
From Verif Require Import Base SStore_Model SStore_Spec SStore_Proof SStoreTree_Proof SStoreFlat_Proof.
Import ListNotations.
Local Open Scope nat_scope.
Local Opaque block_size.

(** *** enumeration *)

Lemma firstn_rep : forall A (x : A) m k, m <= k -> firstn m (repeat x k) = repeat x m.
Proof.
  induction m as [|m IH]; intros [|k] H; simpl; auto; try lia. rewrite IH by lia. reflexivity.
Qed.

Lemma strncpy_spec : forall sb b n t i v, key t ->
  nth_error (s_blocks sb) (fst v) = Some b -> snd v = i ->
  (forall j c, nth_error (cstr t) j = Some c -> nth_error b (i + j) = Some c) ->
  strncpy sb v n = Ok (firstn n (t ++ repeat 0%Z n)).
Proof.
  intros sb b. induction n as [|n IH]; intros t i v K Hb Hi H; [reflexivity|].
  cbn [strncpy]. unfold rdp. rewrite Hb. unfold rd. rewrite Hi.
  destruct t as [|c t].
  - rewrite <- (Nat.add_0_r i), (H 0 0%Z) by reflexivity. cbn [bind]. rewrite Z.eqb_refl.
    cbn [app]. rewrite firstn_all2 by (rewrite repeat_length; lia). reflexivity.
  - rewrite <- (Nat.add_0_r i), (H 0 c) by reflexivity. cbn [bind]. ki.
    destruct (Z.eqb_spec c 0); [lia|].
    rewrite (IH t (i + 1)); auto.
    + cbn [bind app firstn]. f_equal. f_equal. rewrite !firstn_app. f_equal.
      rewrite !firstn_rep by lia. reflexivity.
    + cbn. lia.
    + intros j x Hj. replace (i + 1 + j) with (i + S j) by lia. apply H. exact Hj.
Qed.

Definition key_buf (parent : list Z) (p : nat) (t : list Z) : list Z :=
  firstn p parent ++ firstn (255 - p) (t ++ repeat 0%Z (255 - p)) ++ [0%Z].

Lemma enum_key_ok : forall sb parent x, slot_in sb x -> sl_p x <= length parent ->
  enum_key sb parent (sl_v x) = Ok (key_buf parent (sl_p x) (sl_s x)).
Proof.
  intros sb parent x Hin Hp. unfold enum_key. rewrite slot_prev by auto. cbn [bind].
  rewrite Nat2Z.id. destruct (Nat.ltb_spec (length parent) (sl_p x)); [lia|].
  destruct Hin as (b & Hb & Hl & _ & Hs & _ & Hk).
  rewrite (strncpy_spec sb b _ (sl_s x) (sl_o x + (s_uds sb + 1))); auto.
  cbn. unfold sl_o. lia.
Qed.

Lemma key_buf_length : forall parent p t, p <= length parent -> p < 256 ->
  length (key_buf parent p t) = 256.
Proof.
  intros. unfold key_buf. rewrite !app_length, !firstn_length, app_length, repeat_length.
  change (length [0%Z]) with 1. lia.
Qed.

Fixpoint enum_list (sb : sblocks) (parent : list Z) (l : list node) : res (list (list Z * ptr)) :=
  match l with
  | [] => Ok []
  | x :: l =>
      buf <- enum_key sb parent (n_val x) ;;
      sub <- enum_rec sb buf x ;;
      rest <- enum_list sb parent l ;;
      Ok ((buf, padd (n_val x) 1) :: sub ++ rest)
  end.

Lemma enum_rec_eq : forall sb parent r, enum_rec sb parent r = enum_list sb parent (n_kids r).
Proof.
  intros sb parent [v cap kids]. cbn [enum_rec n_kids].
  induction kids as [|x l IH]; [reflexivity|]. cbn [enum_list]. rewrite IH. reflexivity.
Qed.

Lemma enum_ok : forall sb L, inv sb L -> forall r parent, twf L r ->
  (forall x, In x (n_kids r) -> exists sl, In sl L /\ sl_v sl = n_val x /\ sl_p sl <= length parent) ->
  exists l, enum_rec sb parent r = Ok l.
Proof.
  intros sb L I. induction r as [v cap kids IH] using node_ind'. intros parent W H.
  rewrite enum_rec_eq. cbn [n_kids] in *. apply twf_eq in W. destruct W as [_ W]. cbn [n_kids] in W.
  induction kids as [|x l IHl]; [eexists; reflexivity|].
  inversion IH as [|? ? IHx IHr]; subst. inversion W as [|? ? [Kx Wx] Wr]; subst.
  cbn [enum_list]. destruct (H x (or_introl eq_refl)) as (sl & Hsl & E & Hp).
  pose proof (i_in _ _ I _ Hsl) as Hin.
  rewrite <- E. rewrite enum_key_ok by auto. cbn [bind].
  assert (Hp256 : forall s, In s L -> sl_p s < 256).
  { intros s Hs. destruct (i_in _ _ I _ Hs) as (b & _ & _ & _ & _ & Q & _). auto. }
  destruct (IHx (key_buf parent (sl_p sl) (sl_s sl)) Wx) as (sub & Es).
  { intros y Hy. apply twf_known in Wx. rewrite Forall_forall in Wx.
    destruct (known_slot _ _ (Wx y Hy)) as (s & Hs & Es). exists s. split; auto. split; auto.
    rewrite key_buf_length by auto. specialize (Hp256 s Hs). lia. }
  rewrite Es. cbn [bind]. destruct (IHl IHr) as (rest & Er); auto.
  { intros y Hy. apply H. right. auto. }
  rewrite Er. cbn [bind]. eexists. reflexivity.
Qed.

Lemma key_buf_padded : forall parent p t k, p <= 255 ->
  p <= length parent -> k = firstn p parent ++ t -> key_buf parent p t = padded k.
Proof.
  intros parent p t k Hl Hp ->. unfold key_buf, padded.
  assert (L : length (firstn p parent) = p) by (rewrite firstn_length; lia).
  rewrite (firstn_app 255), L, (firstn_all2 (firstn p parent)) by lia.
  rewrite app_length, L, <- app_assoc. f_equal.
  rewrite firstn_app, <- app_assoc. f_equal. rewrite firstn_length.
  rewrite firstn_rep by lia.
  replace (256 - (p + Nat.min (255 - p) (length t))) with (S (255 - p - length t)) by lia.
  symmetry. apply repeat_cons.
Qed.

Lemma firstn_padded : forall k p, p <= length k -> p <= 255 -> firstn p (padded k) = firstn p k.
Proof.
  intros k p H H'. unfold padded. rewrite firstn_app, firstn_length.
  replace (p - Nat.min 255 (length k)) with 0 by lia. rewrite app_nil_r, firstn_firstn. f_equal. lia.
Qed.

Definition shown (e : list Z * ptr) : list Z * ptr := (padded (fst e), padd (snd e) 1).

Lemma enum_flat : forall (S : list Z -> Prop) sb L, inv sb L ->
  forall kids, sh S (lab L) kids -> Forall (fun x => known L x /\ twf L x) kids ->
  enum_list sb [] kids = Ok (map shown (entries (lab L) kids)).
Proof.
  intros S sb L I. induction kids as [|x kids IH]; intros [SS T] W; [reflexivity|].
  inversion W as [|? ? [Kx Wx] Wr]; subst.
  apply SS_cons in SS. destruct SS as [SS _].
  destruct (T x (or_introl eq_refl)) as (T1 & T2 & T3 & T4).
  destruct (known_slot _ _ Kx) as (sl & Hsl & E).
  pose proof (i_in _ _ I _ Hsl) as Hin.
  assert (El : lbn (lab L) x = (sl_p sl, sl_s sl)) by (unfold lbn; rewrite <- E; eapply lab_in; eauto).
  cbn [enum_list]. rewrite <- E at 1. rewrite El in *. cbn [fst snd] in *.
  rewrite enum_key_ok by (auto; simpl; lia). cbn [bind]. rewrite T1.
  rewrite (key_buf_padded [] 0 (sl_s sl) (sl_s sl)) by (auto; cbn; lia).
  assert (Hsub : enum_rec sb (padded (sl_s sl)) x =
    Ok (map shown (map (fun y => (kk (lab L) x y, n_val y)) (n_kids x)))).
  { rewrite enum_rec_eq. apply twf_eq in Wx. destruct Wx as [_ Wx].
    clear T3. induction (n_kids x) as [|y l IHl]; [reflexivity|].
    inversion Wx as [|? ? [Ky Wy] Wl]; subst. cbn [enum_list map].
    destruct (T4 y (or_introl eq_refl)) as (C0 & C1 & C2 & C3 & C4).
    destruct (known_slot _ _ Ky) as (sy & Hsy & Ey).
    pose proof (i_in _ _ I _ Hsy) as Hiny.
    assert (Ely : lbn (lab L) y = (sl_p sy, sl_s sy)) by (unfold lbn; rewrite <- Ey; eapply lab_in; eauto).
    rewrite <- Ey at 1. rewrite Ely in *. rewrite El in *. cbn [fst snd] in *.
    pose proof (lcp_le_l (sl_s sl) (kk (lab L) x y)) as Hp. rewrite <- C2 in Hp.
    assert (Hpl : length (padded (sl_s sl)) = 256)
      by (unfold padded; rewrite app_length, repeat_length, firstn_length; lia).
    assert (Hp5 : sl_p sy <= 255).
    { destruct Hiny as (? & _ & _ & _ & _ & Q & _). lia. }
    assert (Ek : kk (lab L) x y = firstn (sl_p sy) (sl_s sl) ++ sl_s sy)
      by (unfold kk; rewrite El, Ely; reflexivity).
    rewrite enum_key_ok by (auto; lia). cbn [bind].
    rewrite (key_buf_padded _ _ _ (kk (lab L) x y)).
    2: exact Hp5.
    2: lia.
    2: { rewrite firstn_padded by auto. exact Ek. }
    rewrite enum_rec_eq, C0. cbn [enum_list bind].
    rewrite IHl; auto. intros z Hz. apply T4. right. auto. }
  rewrite Hsub. cbn [bind].
  rewrite IH; [|split; auto; intros z Hz; apply T; right; auto | auto].
  cbn [bind entries flat_map entries1 app map]. rewrite map_app, El. reflexivity.
Qed.

(** *** histories over a shallow set of keys *)

Record finv (S : list Z -> Prop) (ops : list op) (r : node) (lg : log) (L : list slot) : Prop := {
  f_sh : sh S (lab L) (n_kids r);
  f_in : forall k q, In (k, q) lg -> exists v, q = Some (padd v 1) /\ In (k, v) (entries (lab L) (n_kids r));
  f_out : forall k v, In (k, v) (entries (lab L) (n_kids r)) -> In (k, Some (padd v 1)) lg;
  f_keys : NoDup (map fst (entries (lab L) (n_kids r)));
  f_vals : NoDup (map snd (entries (lab L) (n_kids r))) }.

Lemma agree_det : forall sb L L' kids, inv sb L -> inv sb L' ->
  Forall (fun x => known L x /\ twf L x) kids -> Forall (fun x => known L' x /\ twf L' x) kids ->
  agree (lab L) (lab L') kids.
Proof.
  intros sb L L' kids I I' H H' x Hx. rewrite Forall_forall in H, H'.
  destruct (H x Hx) as [K W], (H' x Hx) as [K' W']. split.
  - symmetry. unfold lbn. eapply lab_det; eauto.
  - intros y Hy. apply twf_known in W, W'. rewrite Forall_forall in W, W'.
    symmetry. unfold lbn. eapply lab_det; eauto; [apply W | apply W']; auto.
Qed.

Lemma entries_known : forall L r, twf L r -> forall k v, In (k, v) (entries (lab L) (n_kids r)) ->
  In v (map sl_v L).
Proof.
  intros L r W k v H. unfold entries in H. apply in_flat_map in H. destruct H as (x & Hx & H).
  apply twf_eq in W. destruct W as [_ W]. rewrite Forall_forall in W. destruct (W x Hx) as [K Wx].
  destruct H as [E | H].
  - injection E as _ <-. exact K.
  - apply in_map_iff in H. destruct H as (y & E & Hy). injection E as _ <-.
    apply twf_known in Wx. rewrite Forall_forall in Wx. apply Wx. auto.
Qed.

Definition fits (uds : nat) (S : list Z -> Prop) : Prop :=
  forall k, S k -> key k /\ length k + 2 + uds <= block_size.

Lemma fits_sizes : forall uds S ops, fits uds S -> Forall S (keys_of ops) -> writes_fit uds ops ->
  sizes_ok uds ops.
Proof.
  intros uds S ops HF H W. rewrite Forall_forall in H. repeat split; auto; apply Forall_forall; intros k Hk;
    destruct (HF k (H k Hk)); auto. lia.
Qed.

Lemma play_flat : forall uds S ops, shallow S -> fits uds S -> Forall S (keys_of ops) ->
  writes_fit uds ops ->
  exists sb r lg L, play uds ops = Ok ((sb, r), lg) /\ hinv uds ops sb r lg L /\ finv S ops r lg L.
Proof.
  intros uds S ops HS HF. induction ops as [|o ops IH] using rev_ind; intros HK HW.
  - exists (fst (init uds)), (snd (init uds)), [], []. split; [reflexivity|].
    split; [apply hinv_init|]. cbn. constructor; cbn; try (intros; contradiction); try constructor.
    + constructor.
    + intros x [].
  - rewrite keys_of_app in HK. apply Forall_app in HK. destruct HK as [HK1 HK2].
    destruct IH as (sb & r & lg & L & E & Hi & F); auto.
    { intros i d Hd. apply (HW i d). apply in_or_app. auto. }
    unfold play in *. rewrite exec_app, E. cbn [bind exec].
    destruct o as [k | i d].
    + cbn in HK2. inversion HK2 as [|? ? Sk _]; subst.
      destruct (HF k Sk) as [Kk Hlen].
      destruct (add_step uds ops sb r lg L k Hi Kk) as (sb' & r' & p & L' & E' & H' & Hp1 & Hp2); [lia|].
      cbn [exec_op]. rewrite E'. cbn [bind]. exists sb', r', (lg ++ [(k, p)]), L'.
      split; [reflexivity|]. split; [exact H'|].
      assert (Hp : p <> None) by (intros Q; apply Hp1 in Q; lia). specialize (Hp2 Hp).
      pose proof (h_inv _ _ _ _ _ _ Hi) as I. pose proof (h_twf _ _ _ _ _ _ Hi) as W.
      assert (HK : forall k0, S k0 -> key k0 /\ length k0 + 2 + s_uds sb <= block_size).
      { intros k0 S0. rewrite (h_uds _ _ _ _ _ _ Hi). apply HF. auto. }
      destruct (flat_add S sb L HS HK I r k true W (f_sh _ _ _ _ _ F) Sk) as (sb2 & r2 & q & E2 & D).
      rewrite Hp2 in E2. injection E2 as <- <- <-.
      pose proof (h_inv _ _ _ _ _ _ H') as I'. pose proof (h_twf _ _ _ _ _ _ H') as W'.
      destruct D as [(-> & -> & v & Hv & ->) | (Hnot & [(Hf & _) | (_ & v & L2 & -> & N & I2 & W2 & S2 & P2)])];
        [| discriminate |].
      * assert (A : agree (lab L) (lab L') (n_kids r)).
        { eapply agree_det; eauto; [apply twf_eq in W | apply twf_eq in W']; tauto. }
        pose proof (entries_ext _ _ _ A) as EE.
        constructor; rewrite ?EE; try apply F.
        -- eapply sh_ext; eauto. apply F.
        -- intros k0 q Hq. apply in_app_or in Hq. destruct Hq as [Hq | [Hq | []]].
           ++ apply F; auto.
           ++ injection Hq as <- <-. exists v. auto.
        -- intros k0 v0 Hv0. apply in_or_app. left. apply F. auto.
      * assert (A : agree (lab L2) (lab L') (n_kids r')).
        { eapply agree_det; eauto; [apply twf_eq in W2 | apply twf_eq in W']; tauto. }
        pose proof (entries_ext _ _ _ A) as EE.
        constructor; rewrite ?EE.
        -- eapply sh_ext; eauto.
        -- intros k0 q Hq. apply in_app_or in Hq. destruct Hq as [Hq | [Hq | []]].
           ++ destruct (f_in _ _ _ _ _ F _ _ Hq) as (v0 & Ev & Hv). exists v0. split; auto.
              eapply Permutation_in; [symmetry; exact P2|]. right. auto.
           ++ injection Hq as <- <-. exists v. split; auto.
              eapply Permutation_in; [symmetry; exact P2|]. left. auto.
        -- intros k0 v0 Hv0. eapply Permutation_in in Hv0; [|exact P2]. apply in_or_app.
           destruct Hv0 as [Hv0 | Hv0]; [right; left; congruence|]. left. apply F. auto.
        -- eapply Permutation_NoDup; [apply Permutation_map; symmetry; exact P2|]. cbn. constructor; [|apply F].
           intros Hk. apply in_map_iff in Hk. destruct Hk as ([k0 v0] & Ek & Hk). cbn in Ek. subst k0.
           eapply Hnot; eauto.
        -- eapply Permutation_NoDup; [apply Permutation_map; symmetry; exact P2|]. cbn. constructor; [|apply F].
           intros Hk. apply in_map_iff in Hk. destruct Hk as ([k0 v0] & Ek & Hk). cbn in Ek. subst v0.
           apply N. eapply entries_known; eauto.
    + destruct (write_step uds ops sb r lg L i d Hi) as (sb' & E' & H').
      { apply (HW i d). apply in_or_app. right. left. auto. }
      rewrite E'. cbn [bind]. exists sb', r, lg, L. split; [reflexivity|]. split; [exact H'|].
      constructor; apply F.
Qed.
