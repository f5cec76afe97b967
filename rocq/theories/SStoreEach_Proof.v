(** Lemmas about the string storage: a key that never goes below the second level is kept
    apart from all others, whatever the others are. *)

From Coq Require Import ZArith List Bool Lia Sorted Permutation.
From Verif Require Import Base SStore_Model SStore_Spec SStore_Proof SStoreTree_Proof SStoreFlat_Proof SStoreEnum_Proof
  SStoreAgain_Proof SStoreEach_Spec.
Import ListNotations.
Local Open Scope nat_scope.
Local Opaque block_size.

Definition child2 (S : list Z -> Prop) lb (x y : node) : Prop :=
  S (kk lb x y) /\ fst (lbn lb y) = lcp (snd (lbn lb x)) (kk lb x y) /\
  8 < fst (lbn lb y) /\ (scmp (snd (lbn lb x)) (kk lb x y) < 0)%Z.

Definition top2 (S : list Z -> Prop) lb (x : node) : Prop :=
  fst (lbn lb x) = 0 /\ S (snd (lbn lb x)) /\ StronglySorted (R2 lb) (n_kids x) /\
  (forall y, In y (n_kids x) -> child2 S lb x y).

Definition sh2 (S : list Z -> Prop) lb (kids : list node) : Prop :=
  StronglySorted (R1 lb) kids /\ (forall x, In x kids -> top2 S lb x).

(** the slots below the second level *)
Definition deep (kids : list node) : list ptr := flat_map (fun x => flat_map tvals (n_kids x)) kids.

Lemma top_ext2 : forall S lb lb' x, lbn lb' x = lbn lb x ->
  (forall y, In y (n_kids x) -> lbn lb' y = lbn lb y) -> top2 S lb x -> top2 S lb' x.
Proof.
  intros S lb lb' x Hx Hy (T1 & T2 & T3 & T4). unfold top2. rewrite Hx. repeat split; auto.
  - eapply SS_impl; [|exact T3]. intros a b Ha Hb. unfold R2. rewrite !Hy by auto. auto.
  - rewrite (kk_ext lb lb') by auto. apply T4; auto.
  - rewrite (kk_ext lb lb'), Hy by auto. rewrite Hx. apply T4; auto.
  - rewrite Hy by auto. apply T4; auto.
  - rewrite (kk_ext lb lb'), Hx by auto. apply T4; auto.
Qed.

Lemma sh_ext2 : forall S lb lb' kids, agree lb lb' kids -> sh2 S lb kids -> sh2 S lb' kids.
Proof.
  intros S lb lb' kids A [H1 H2]. split.
  - eapply SS_impl; [|exact H1]. intros a b Ha Hb [Q1 Q2].
    destruct (A a Ha) as [Ea Ea'], (A b Hb) as [Eb _]. split.
    + unfold R2. rewrite Ea, Eb. exact Q1.
    + intros y Hy. rewrite (kk_ext lb lb') by auto. rewrite Eb. auto.
  - intros x Hx. destruct (A x Hx). eapply top_ext2; eauto.
Qed.

Lemma kk_suffix2 : forall S lb x y, child2 S lb x y ->
  skipn (lcp (snd (lbn lb x)) (kk lb x y)) (kk lb x y) = snd (lbn lb y).
Proof.
  intros S lb x y (_ & E & _). rewrite <- E. unfold kk in *.
  pose proof (lcp_le_l (snd (lbn lb x)) (firstn (fst (lbn lb y)) (snd (lbn lb x)) ++ snd (lbn lb y))) as H.
  rewrite <- E in H. rewrite skipn_app, firstn_length.
  replace (fst (lbn lb y) - Nat.min (fst (lbn lb y)) (length (snd (lbn lb x)))) with 0 by lia.
  rewrite skipn_all2 by (rewrite firstn_length; lia). reflexivity.
Qed.

Section ADD.
Variable S : list Z -> Prop.
Variable sb : sblocks.
Variable L : list slot.
Hypothesis HS1 : forall c x, S c -> S x -> c <> x -> lcp c x < 256.
Hypothesis HK : forall k, S k -> key k /\ length k + 2 + s_uds sb <= block_size.
Hypothesis I : inv sb L.

Let lb := lab L.

(** where a stored key can be: between its neighbours at the top *)
Lemma entry_under2 : forall l1 x l2 s v, sh2 S lb (l1 ++ x :: l2) -> S s ->
  (scmp (snd (lbn lb x)) s < 0)%Z ->
  (forall z, In z l2 -> (scmp s (snd (lbn lb z)) < 0)%Z) ->
  In (s, v) (entries lb (l1 ++ x :: l2)) ->
  exists y, In y (n_kids x) /\ n_val y = v /\ kk lb x y = s.
Proof.
  intros l1 x l2 s v [SS T] Ss Hx Hl2 Hin.
  assert (Kx : key (snd (lbn lb x))) by (apply HK, T; apply in_or_app; right; left; auto).
  pose proof (proj1 (HK s Ss)) as Ks.
  apply SS_app in SS. destruct SS as (S1 & S2 & S3).
  unfold entries in Hin. apply in_flat_map in Hin. destruct Hin as (z & Hz & Hv).
  assert (Tz : top2 S lb z) by (apply T; auto).
  destruct Hv as [E | Hv].
  - (* at the top *) exfalso. injection E as E _.
    apply in_app_or in Hz. destruct Hz as [Hz | [<- | Hz]].
    + destruct (S3 z x Hz (or_introl eq_refl)) as [Q _]. unfold R2, lt2 in Q.
      destruct Tz as (Z0 & _). destruct (T x) as (X0 & _); [apply in_or_app; right; left; auto|].
      rewrite Z0, X0, E in Q. rewrite scmp_sym in Q. lia.
    + rewrite E, scmp_refl in Hx. lia.
    + specialize (Hl2 z Hz). rewrite E, scmp_refl in Hl2. lia.
  - apply in_map_iff in Hv. destruct Hv as (y & E & Hy). injection E as E1 E2.
    apply in_app_or in Hz. destruct Hz as [Hz | [<- | Hz]].
    + exfalso. destruct (S3 z x Hz (or_introl eq_refl)) as [_ Q]. specialize (Q y Hy).
      rewrite E1, scmp_sym in Q. lia.
    + exists y. auto.
    + exfalso. specialize (Hl2 z Hz). destruct Tz as (_ & _ & _ & Tz).
      destruct (Tz y Hy) as (_ & _ & _ & Q). rewrite E1, scmp_sym in Q. lia.
Qed.

(** the children of a top node *)
Lemma inner_ok2 : forall x s doadd fuel, known L x -> twf L x -> top2 S lb x -> tsort lb x -> S s ->
  (scmp (snd (lbn lb x)) s < 0)%Z -> 8 < lcp (snd (lbn lb x)) s ->
  length s < fuel -> (doadd = false -> lonely S s) ->
  let p := lcp (snd (lbn lb x)) s in
  exists sb' x' q, find_add fuel sb x p (cstr (skipn p s)) doadd = Ok (sb', x', q) /\
    n_val x' = n_val x /\
    ((sb' = sb /\ x' = x /\ exists y, In y (n_kids x) /\ kk lb x y = s /\ q = Some (padd (n_val y) 1)) \/
     ((forall y, In y (n_kids x) -> kk lb x y <> s) /\
      ((doadd = false /\ sb' = sb /\ x' = x /\ q = None) \/
       (doadd = true /\ exists v, q = Some (padd v 1) /\ ~ In v (map sl_v L) /\
          inv sb' (mkSl v p (skipn p s) :: L) /\
          let L' := mkSl v p (skipn p s) :: L in
          twf L' x' /\ top2 S (lab L') x' /\
          exists a b, n_kids x = a ++ b /\ n_kids x' = a ++ Node v 0 [] :: b) \/
       (doadd = true /\ ~ lonely S s /\ exists v L' y y' a b, q = Some (padd v 1) /\ In v (tvals y') /\
          n_kids x = a ++ y :: b /\ n_kids x' = a ++ y' :: b /\ n_val y' = n_val y /\ n_cap x' = n_cap x /\
          inv sb' L' /\ twf L' y' /\ incl L L' /\
          (forall u, In u (map sl_v L) -> lab L' u = lab L u))))).
Proof.
  intros x s doadd fuel Kn W T TS Ss Hlt H8 Hf Hlon p.
  pose proof (proj1 (HK s Ss)) as Ks.
  destruct T as (T1 & T2 & T3 & T4).
  assert (Kx : key (snd (lbn lb x))) by (apply HK; auto).
  assert (Hne : snd (lbn lb x) <> s) by (intros E; rewrite E, scmp_refl in Hlt; lia).
  assert (Hp : p < 256) by (apply HS1; auto).
  destruct fuel as [|fuel]; [lia|]. cbn [find_add].
  pose proof (twf_known _ _ W) as FK.
  destruct (search_sorted sb L (n_kids x) p (skipn p s) I (key_skipn _ _ Ks) FK T3) as (o & Eo & Po).
  rewrite Eo. cbn [bind].
  destruct o as [m | g].
  - destruct Po as (y & Hy & Ey). unfold rd. rewrite Hy. cbn [bind].
    eexists _, _, _. split; [reflexivity|]. split; [reflexivity|]. left.
    split; [reflexivity|]. split; [reflexivity|]. exists y.
    split; [eapply nth_error_In; eauto|]. split; auto. unfold kk. unfold lb. rewrite Ey. cbn.
    apply split_key.
  - destruct Po as (Hg & Hlo & Hhi).
    (* not there *)
    assert (Hnot : forall y, In y (n_kids x) -> kk lb x y <> s).
    { intros y Hy E. pose proof (T4 y Hy) as C. pose proof (kk_suffix2 _ _ _ _ C) as Sf.
      destruct C as (_ & C & _).
      assert (Ey : lbn lb y = (p, skipn p s)).
      { rewrite E in C, Sf. unfold p. rewrite Sf, <- C. destruct (lbn lb y); reflexivity. }
      rewrite <- (firstn_skipn g (n_kids x)) in Hy. apply in_app_or in Hy.
      destruct Hy as [Hy | Hy]; [apply Hlo in Hy | apply Hhi in Hy]; fold lb in Hy; rewrite Ey in Hy;
        eapply lt2_irrefl; eauto. }
    (* no descent, or the key is not lonely *)
    assert (Hcb : exists cb, (if g =? 0 then Ok 0
             else x <- rd (n_kids x) (g - 1) ;;
                  n <- common_prefix sb (cstr (skipn p s)) (padd (n_val x) (s_uds sb + 1)) ;;
                  Ok (n mod 256)) = Ok cb /\ cb <= length (skipn p s) /\
                  (8 < cb -> ~ lonely S s /\ exists y, nth_error (n_kids x) (g - 1) = Some y)).
    { destruct (Nat.eqb_spec g 0); [exists 0; split; [reflexivity|]; split; lia|].
      destruct (nth_error (n_kids x) (g - 1)) as [y|] eqn:Ey.
      2: { apply nth_error_None in Ey. lia. }
      apply nth_error_In in Ey as Hy. unfold rd. rewrite Ey. cbn [bind].
      rewrite Forall_forall in FK. destruct (known_slot L y) as (sl & Hsl & Esl); [apply FK; auto|].
      rewrite <- Esl. rewrite slot_common by (auto using key_skipn; apply (i_in _ _ I); auto).
      cbn [bind]. eexists. split; [reflexivity|].
      pose proof (T4 y Hy) as C. pose proof (kk_suffix2 _ _ _ _ C) as Sf.
      destruct C as (C1 & C2 & C3 & C4).
      assert (Esf : snd (lbn lb y) = sl_s sl).
      { unfold lbn, lb. rewrite <- Esl, (lab_in _ _ _ I Hsl). reflexivity. }
      pose proof (Nat.mod_le (lcp (sl_s sl) (skipn p s)) 256) as Hm.
      split; [pose proof (lcp_le_r (sl_s sl) (skipn p s)); lia|].
      intros H. split; [|eauto]. intros Hl.
      assert (Hle : lcp (skipn p s) (sl_s sl) <= 8).
      { rewrite <- Esf, <- Sf. apply Hl; auto.
        - intros E. rewrite E, scmp_refl in C4. lia.
        - rewrite <- C2. exact C3. }
      rewrite lcp_sym in Hle. lia. }
    destruct Hcb as (cb & Ecb & Hcb & Hdeep). rewrite Ecb. cbn [bind].
    destruct (Nat.ltb_spec 8 cb) as [Hd | Hd].
    { destruct (Hdeep Hd) as (Hnl & y & Ey). destruct doadd; [|exfalso; apply Hnl; auto].
      unfold rd. rewrite Ey. cbn [bind]. rewrite skipn_cstr by auto.
      assert (Hy : In y (n_kids x)) by (eapply nth_error_In; eauto).
      pose proof (proj1 (twf_eq _ _) W) as [_ Wk]. rewrite Forall_forall in Wk. destruct (Wk y Hy) as [_ Wy].
      apply tsort_eq in TS. destruct TS as [_ TS]. rewrite Forall_forall in TS.
      assert (Hps : length (skipn p s) <= length s) by (rewrite skipn_length; lia).
      pose proof (HK s Ss) as [_ Hlen].
      destruct (find_add_again fuel sb L y ((p + cb) mod 256) (skipn cb (skipn p s)))
        as (sb' & y' & v & L' & E & I' & W' & _ & V & _ & Hv & D & _); auto using key_skipn.
      { apply Nat.mod_upper_bound. lia. }
      { rewrite skipn_length. lia. }
      { rewrite skipn_length. lia. }
      rewrite E. cbn [bind]. eexists _, _, _. split; [reflexivity|]. split; [reflexivity|].
      right. split; [exact Hnot|]. right. right. split; [reflexivity|]. split; [exact Hnl|].
      destruct (upd_split _ (n_kids x) (g - 1) y y' Ey) as (a & b & Ea & Eb).
      exists v, L', y, y', a, b. cbn [n_kids n_cap]. split; [reflexivity|]. split; [exact Hv|].
      split; [exact Ea|]. split; [exact Eb|]. split; [exact V|]. split; [reflexivity|].
      split; [exact I'|]. split; [exact W'|].
      destruct D as [(_ & _ & -> & _) | (pp & tt & -> & N & _)].
      - split; [apply incl_refl | auto].
      - split; [apply incl_tl, incl_refl|]. intros u Hu. apply lab_cons. cbn. intros ->. contradiction. }
    destruct doadd; cbn [negb].
    2: { eexists _, _, _. split; [reflexivity|]. split; [reflexivity|]. right. split; [exact Hnot|]. left. auto. }
    destruct (new_slot_ok sb L p (skipn p s) I (key_skipn _ _ Ks) Hp) as (sb' & v & E & I' & F & N & U).
    { rewrite skipn_length. pose proof (HK s Ss). lia. }
    rewrite E. cbn [bind]. set (L' := mkSl v p (skipn p s) :: L) in *.
    destruct (insert_child_ok L' x g v) as (x' & Ex & Wx & Ek); auto.
    { eapply twf_mono; [|exact W]. apply incl_tl, incl_refl. }
    { left. reflexivity. }
    rewrite Ex. cbn [bind].
    assert (Ev : n_val x' = n_val x).
    { unfold insert_child in Ex. destruct (_ && _) in Ex; [|discriminate]. injection Ex as <-. reflexivity. }
    eexists _, _, _. split; [reflexivity|]. split; [exact Ev|].
    right. split; [exact Hnot|]. right. left. split; [reflexivity|]. exists v.
    split; [reflexivity|]. split; [exact N|]. split; [exact I'|].
    split; [exact Wx|].
    split; [|exists (firstn g (n_kids x)), (skipn g (n_kids x)); split; [symmetry; apply firstn_skipn | exact Ek]].
    assert (Hold : forall z, known L z -> lbn (lab L') z = lbn lb z).
    { intros z Hz. unfold lbn, L', lb. apply lab_cons. cbn. intros E'. apply N. rewrite <- E'. exact Hz. }
    assert (Hnew : lbn (lab L') (Node v 0 []) = (p, skipn p s)).
    { unfold lbn, L'. cbn. apply lab_head. }
    assert (Ex' : lbn (lab L') x' = lbn lb x).
    { unfold lbn. rewrite Ev. apply (Hold x). exact Kn. }
    rewrite Forall_forall in FK.
    assert (Hin : forall z, In z (firstn g (n_kids x)) \/ In z (skipn g (n_kids x)) -> In z (n_kids x)).
    { intros z Hz. rewrite <- (firstn_skipn g (n_kids x)). apply in_or_app. exact Hz. }
    fold L'. unfold top2. rewrite Ex'. split; [exact T1|]. split; [exact T2|]. rewrite Ek. split.
    + rewrite <- (firstn_skipn g (n_kids x)) in T3. apply SS_app in T3. destruct T3 as (Q1 & Q2 & Q3).
      assert (Hext : forall l, (forall z, In z l -> In z (n_kids x)) -> StronglySorted (R2 lb) l ->
        StronglySorted (R2 (lab L')) l).
      { intros l Hl Sl. eapply SS_impl; [|exact Sl]. intros a b Ha Hb. unfold R2.
        rewrite !Hold by (apply FK; auto). auto. }
      apply SS_app. split; [apply Hext; auto|]. split.
      * apply SS_cons. split; [apply Hext; auto|]. intros y Hy. unfold R2. rewrite Hnew.
        rewrite Hold by (apply FK; auto). apply Hhi; auto.
      * intros a b Ha [<- | Hb]; unfold R2.
        -- rewrite Hnew. rewrite Hold by (apply FK; auto). apply Hlo; auto.
        -- rewrite !Hold by (apply FK; auto). apply Q3; auto.
    + intros y Hy. apply in_app_or in Hy.
      assert (Hc : forall z, In z (n_kids x) -> child2 S (lab L') x' z).
      { intros z Hz. destruct (T4 z Hz) as (C1 & C2 & C3 & C4).
        assert (Ez : kk (lab L') x' z = kk lb x z).
        { unfold kk. rewrite Ex', Hold by (apply FK; auto). reflexivity. }
        unfold child2. rewrite Ez, Ex', Hold by (apply FK; auto). auto. }
      destruct Hy as [Hy | [<- | Hy]]; auto.
      unfold child2. rewrite Hnew, Ex'. cbn [fst n_kids].
      assert (Ez : kk (lab L') x' (Node v 0 []) = s).
      { unfold kk. rewrite Hnew, Ex'. cbn. apply split_key. }
      rewrite Ez. auto.
Qed.

Lemma flat_add2 : forall r s doadd, twf L r -> sh2 S lb (n_kids r) -> tsort lb r -> S s -> (doadd = false -> lonely S s) ->
  exists sb' r' q, find_add (Datatypes.S (Datatypes.S (length s))) sb r 0 (cstr s) doadd = Ok (sb', r', q) /\
    ((sb' = sb /\ r' = r /\ exists v, In (s, v) (entries lb (n_kids r)) /\ q = Some (padd v 1)) \/
     ((forall v, ~ In (s, v) (entries lb (n_kids r))) /\
      ((doadd = false /\ sb' = sb /\ r' = r /\ q = None) \/
       (doadd = true /\ exists v L', q = Some (padd v 1) /\ ~ In v (map sl_v L) /\
          inv sb' L' /\ twf L' r' /\ sh2 S (lab L') (n_kids r') /\
          Permutation (entries (lab L') (n_kids r')) ((s, v) :: entries lb (n_kids r))) \/
       (doadd = true /\ ~ lonely S s /\ exists v L', q = Some (padd v 1) /\ In v (deep (n_kids r')) /\
          inv sb' L' /\ twf L' r' /\ sh2 S (lab L') (n_kids r') /\
          entries (lab L') (n_kids r') = entries lb (n_kids r))))).
Proof.
  intros r s doadd W SH TS Ss Hlon. pose proof (proj1 (HK s Ss)) as Ks.
  destruct (HK s Ss) as [_ Hlen].
  pose proof (twf_known _ _ W) as FK. rewrite Forall_forall in FK.
  destruct SH as [SS T].
  assert (SS2 : StronglySorted (R2 lb) (n_kids r)).
  { eapply SS_impl; [|exact SS]. intros a b _ _ [Q _]. exact Q. }
  remember (Datatypes.S (length s)) as fuel eqn:Hfuel.
  cbn [find_add]. rewrite <- Forall_forall in FK.
  destruct (search_sorted sb L (n_kids r) 0 s I Ks FK SS2) as (o & Eo & Po).
  rewrite Forall_forall in FK. rewrite Eo. cbn [bind].
  destruct o as [m | g].
  - destruct Po as (x & Hx & Ex). unfold rd. rewrite Hx. cbn [bind].
    eexists _, _, _. split; [reflexivity|]. left. split; [reflexivity|]. split; [reflexivity|].
    exists (n_val x). split; auto. unfold entries. apply in_flat_map. exists x.
    split; [eapply nth_error_In; eauto|]. left. unfold lb. rewrite Ex. reflexivity.
  - destruct Po as (Hg & Hlo & Hhi).
    assert (Hlo' : forall x, In x (firstn g (n_kids r)) -> (scmp (snd (lbn lb x)) s < 0)%Z).
    { intros x Hx. destruct (Hlo x Hx) as [Q | [_ Q]]; auto. cbn in Q.
      destruct (T x) as (Q' & _); [rewrite <- (firstn_skipn g (n_kids r)); apply in_or_app; auto|].
      unfold lb in Q'. lia. }
    assert (Hhi' : forall x, In x (skipn g (n_kids r)) -> (scmp s (snd (lbn lb x)) < 0)%Z).
    { intros x Hx. destruct (Hhi x Hx) as [Q | [_ Q]]; auto. cbn in Q. lia. }
    (* the insertion at the top *)
    assert (Htop : forall cb, cb <= 8 ->
      (forall v, ~ In (s, v) (entries lb (n_kids r))) ->
      (forall x y, In x (firstn g (n_kids r)) -> In y (n_kids x) -> (scmp (kk lb x y) s < 0)%Z) ->
      exists sb' r' q,
       (if 8 <? cb then
          x <- rd (n_kids r) (g - 1) ;;
          '(sb, x, p) <- find_add fuel sb x ((0 + cb) mod 256) (skipn cb (cstr s)) doadd ;;
          Ok (sb, Node (n_val r) (n_cap r) (upd (n_kids r) (g - 1) x), p)
        else if negb doadd then Ok (sb, r, None)
        else
        '(sb, v) <- new_slot sb 0 (cstr s) ;;
        r <- insert_child r g v ;;
        Ok (sb, r, Some (padd v 1))) = Ok (sb', r', q) /\
      ((sb' = sb /\ r' = r /\ exists v, In (s, v) (entries lb (n_kids r)) /\ q = Some (padd v 1)) \/
       ((forall v, ~ In (s, v) (entries lb (n_kids r))) /\
        ((doadd = false /\ sb' = sb /\ r' = r /\ q = None) \/
         (doadd = true /\ exists v L', q = Some (padd v 1) /\ ~ In v (map sl_v L) /\
          inv sb' L' /\ twf L' r' /\ sh2 S (lab L') (n_kids r') /\
          Permutation (entries (lab L') (n_kids r')) ((s, v) :: entries lb (n_kids r))) \/
       (doadd = true /\ ~ lonely S s /\ exists v L', q = Some (padd v 1) /\ In v (deep (n_kids r')) /\
          inv sb' L' /\ twf L' r' /\ sh2 S (lab L') (n_kids r') /\
          entries (lab L') (n_kids r') = entries lb (n_kids r)))))).
    { intros cb Hcb Hnot Hkk. destruct (Nat.ltb_spec 8 cb); [lia|].
      destruct doadd; cbn [negb].
      2: { eexists _, _, _. split; [reflexivity|]. right. split; [exact Hnot|]. left. auto. }
      destruct (new_slot_ok sb L 0 s I Ks ltac:(lia) Hlen) as (sb' & v & E & I' & F & N & U).
      rewrite E. cbn [bind]. set (L' := mkSl v 0 s :: L) in *.
      destruct (insert_child_ok L' r g v) as (r' & Er & Wr & Ek); auto.
      { eapply twf_mono; [|exact W]. apply incl_tl, incl_refl. }
      { left. reflexivity. }
      rewrite Er. cbn [bind]. eexists _, _, _. split; [reflexivity|]. right. split; [exact Hnot|].
      right. left. split; [reflexivity|]. exists v, L'.
      split; [reflexivity|]. split; [exact N|]. split; [exact I'|]. split; [exact Wr|].
      assert (Hold : forall z, known L z -> lbn (lab L') z = lbn lb z).
      { intros z Hz. unfold lbn, L', lb. apply lab_cons. cbn. intros E'. apply N. rewrite <- E'. exact Hz. }
      assert (Hnew : lbn (lab L') (Node v 0 []) = (0, s)).
      { unfold lbn, L'. cbn. apply lab_head. }
      assert (Wk : forall x y, In x (n_kids r) -> In y (n_kids x) -> known L y).
      { intros x y Hx Hy. apply twf_eq in W. destruct W as [_ W]. rewrite Forall_forall in W.
        destruct (W x Hx) as [_ Wx]. apply twf_known in Wx. rewrite Forall_forall in Wx. auto. }
      assert (Ag : agree lb (lab L') (n_kids r)).
      { intros x Hx. split; [apply Hold; auto|]. intros y Hy. apply Hold. eapply Wk; eauto. }
      rewrite Ek. pose proof (sh_ext2 S lb (lab L') _ Ag (conj SS T)) as SH'.
      pose proof (entries_ext lb (lab L') _ Ag) as EE.
      rewrite <- (firstn_skipn g (n_kids r)) in SH', EE, Ag.
      split.
      - destruct SH' as [S1 T1]. apply SS_app in S1. destruct S1 as (Q1 & Q2 & Q3). split.
        + apply SS_app. split; auto. split.
          * apply SS_cons. split; auto. intros y Hy. split.
            -- unfold R2. rewrite Hnew. destruct (Ag y) as [-> _]; [apply in_or_app; auto|].
               apply Hhi. auto.
            -- intros z [].
          * intros a b Ha [<- | Hb]; [|apply Q3; auto].
            destruct (Ag a) as [Ea Ea']; [apply in_or_app; auto|].
            split.
            -- unfold R2. rewrite Hnew, Ea. apply Hlo. auto.
            -- intros y Hy. rewrite Hnew. rewrite (kk_ext lb (lab L')) by auto. apply Hkk; auto.
        + intros x Hx. apply in_app_or in Hx. destruct Hx as [Hx | [<- | Hx]].
          * apply T1. apply in_or_app. auto.
          * unfold top2. rewrite Hnew. cbn. repeat split; auto; try contradiction. constructor.
          * apply T1. apply in_or_app. auto.
      - unfold entries in *. rewrite flat_map_app in EE. rewrite flat_map_app. cbn [flat_map].
        unfold entries1 at 2. rewrite Hnew. cbn [map n_kids n_val snd app].
        rewrite (firstn_skipn g (n_kids r)) in EE. rewrite <- EE.
        symmetry. apply Permutation_middle. }
    destruct (Nat.eqb_spec g 0) as [-> | Hg0].
    + cbn [bind].
      destruct (Htop 0) as (sb' & r' & q & E & P); [lia| | |exists sb', r', q; split; [exact E | exact P]].
      * cbn [firstn skipn] in *. intros v Hv. unfold entries in Hv. apply in_flat_map in Hv.
        destruct Hv as (x & Hx & Hv). specialize (Hhi' x Hx). destruct Hv as [E | Hv].
        -- injection E as E _. rewrite E, scmp_refl in Hhi'. lia.
        -- apply in_map_iff in Hv. destruct Hv as (y & E & Hy). injection E as E _.
           destruct (T x Hx) as (_ & _ & _ & T4). destruct (T4 y Hy) as (_ & _ & _ & Q).
           rewrite E, scmp_sym in Q. lia.
      * cbn [firstn]. intros x y [].
    + destruct (nth_error (n_kids r) (g - 1)) as [x|] eqn:Ex.
      2: { apply nth_error_None in Ex. lia. }
      assert (Hx : In x (n_kids r)) by (eapply nth_error_In; eauto).
      pose proof (T x Hx) as Tx.
      destruct (nth_error_split _ _ Ex) as (l1 & l2 & Ekids & Hl1).
      assert (Ef : firstn g (n_kids r) = l1 ++ [x]).
      { rewrite Ekids. replace g with (length (l1 ++ [x])) by (rewrite app_length; simpl; lia).
        change (l1 ++ x :: l2) with (l1 ++ [x] ++ l2). rewrite app_assoc, firstn_app, Nat.sub_diag, firstn_all.
        apply app_nil_r. }
      assert (Es : skipn g (n_kids r) = l2).
      { rewrite Ekids. replace g with (length (l1 ++ [x])) by (rewrite app_length; simpl; lia).
        change (l1 ++ x :: l2) with (l1 ++ [x] ++ l2). rewrite app_assoc, skipn_app, Nat.sub_diag, skipn_all.
        reflexivity. }
      rewrite Es in Hhi, Hhi'. rewrite Ef in Hlo'.
      assert (Hxs : (scmp (snd (lbn lb x)) s < 0)%Z) by (apply Hlo'; apply in_or_app; right; left; auto).
      assert (Kx : key (snd (lbn lb x))) by (apply HK, Tx).
      assert (Hne : snd (lbn lb x) <> s) by (intros E; rewrite E, scmp_refl in Hxs; lia).
      assert (Hund : forall v, In (s, v) (entries lb (n_kids r)) ->
        exists y, In y (n_kids x) /\ n_val y = v /\ kk lb x y = s).
      { intros v Hv. rewrite Ekids in Hv. eapply entry_under2; eauto. rewrite <- Ekids. split; auto. }
      unfold rd at 1. rewrite Ex. cbn [bind].
      destruct (known_slot L x) as (sl & Hsl & Esl); [apply FK; auto|].
      rewrite <- Esl. rewrite slot_common by (auto; apply (i_in _ _ I); auto). cbn [bind].
      assert (Esx : sl_s sl = snd (lbn lb x)).
      { unfold lbn, lb. rewrite <- Esl, (lab_in _ _ _ I Hsl). reflexivity. }
      rewrite Esx. rewrite Nat.mod_small by (apply HS1; auto; apply Tx).
      destruct (le_lt_dec (lcp (snd (lbn lb x)) s) 8) as [Hc | Hc].
      * apply Htop; [exact Hc| |].
        -- intros v Hv. destruct (Hund v Hv) as (y & Hy & _ & Ey).
           destruct Tx as (_ & _ & _ & T4). destruct (T4 y Hy) as (_ & C2 & C3 & _).
           rewrite Ey in C2. lia.
        -- rewrite Ef. intros z y Hz Hy. apply in_app_or in Hz. destruct Hz as [Hz | [<- | []]].
           ++ assert (Q : (scmp (kk lb z y) (snd (lbn lb x)) < 0)%Z).
              { rewrite Ekids in SS. apply SS_app in SS. destruct SS as (_ & _ & Q).
                apply (Q z x Hz (or_introl eq_refl)); auto. }
              assert (Sz : S (kk lb z y)).
              { destruct (T z) as (_ & _ & _ & T4); [rewrite Ekids; apply in_or_app; auto|].
                apply T4; auto. }
              eapply scmp_trans; [apply HK; exact Sz | exact Kx | exact Ks | exact Q | exact Hxs].
           ++ destruct Tx as (_ & _ & _ & T4). destruct (T4 y Hy) as (C1 & C2 & C3 & C4).
              apply lcp_less with (snd (lbn lb x)); auto; [apply HK; auto|]. lia.
      * (* descent *)
        destruct (Nat.ltb_spec 8 (lcp (snd (lbn lb x)) s)); [|lia].
        unfold rd. rewrite Ex. cbn [bind].
        rewrite skipn_cstr by apply lcp_le_r.
        cbn [Nat.add]. rewrite Nat.mod_small by (apply HS1; auto; apply Tx).
        pose proof (proj1 (twf_eq _ _) W) as [Wc Wk]. rewrite Forall_forall in Wk.
        destruct (Wk x Hx) as [Knx Wx].
        assert (TSx : tsort lb x) by (apply tsort_eq in TS; destruct TS as [_ TS]; rewrite Forall_forall in TS; auto).
        destruct (inner_ok2 x s doadd fuel Knx Wx Tx TSx Ss Hxs Hc ltac:(lia) Hlon)
          as (sb' & x' & q & E & Ev & D).
        rewrite E. cbn [bind]. eexists _, _, _. split; [reflexivity|].
        assert (Hupd : forall z, upd (n_kids r) (g - 1) z = l1 ++ z :: l2).
        { intros z. rewrite Ekids, <- Hl1. apply upd_app. }
        rewrite Hupd.
        destruct D as [(-> & -> & y & Hy & Ey & ->) | (Hnot & D)].
        { left. split; [reflexivity|]. split; [rewrite <- Ekids; destruct r; reflexivity|].
          exists (n_val y). split; auto. unfold entries. apply in_flat_map. exists x. split; auto.
          right. apply in_map_iff. exists y. rewrite Ey. auto. }
        right. split.
        { intros v Hv. destruct (Hund v Hv) as (y & Hy & _ & Ey). eapply Hnot; eauto. }
        destruct D as [(-> & -> & -> & ->) | [(-> & v & -> & N & I' & Wx' & Tx' & a & b & Ea & Eb) | (-> & Hnl & v & L' & y & y' & a & b & -> & Hv & Ea & Eb & Vy & Ec & I' & Wy' & HinclL & Hlab)]].
        { left. repeat split. rewrite <- Ekids. destruct r; reflexivity. }
        { right. left. split; [reflexivity|].
        set (L' := mkSl v (lcp (snd (lbn lb x)) s) (skipn (lcp (snd (lbn lb x)) s) s) :: L) in *.
        exists v, L'. split; [reflexivity|]. split; [exact N|]. split; [exact I'|].
        assert (HinclL : incl L L') by (apply incl_tl, incl_refl).
        assert (Wfk : forall z, known L z -> known L' z).
        { intros z Hz. unfold known in *. eapply incl_map; eauto. }
        assert (Hold : forall z, known L z -> lbn (lab L') z = lbn lb z).
        { intros z Hz. unfold lbn, L', lb. apply lab_cons. cbn. intros E'. apply N. rewrite <- E'. exact Hz. }
        assert (Hnew : lbn (lab L') (Node v 0 []) = (lcp (snd (lbn lb x)) s, skipn (lcp (snd (lbn lb x)) s) s)).
        { unfold lbn at 1, L'. cbn [n_val]. apply lab_head. }
        assert (Hkz : forall z y, In z (n_kids r) -> In y (n_kids z) -> known L y).
        { intros z y Hz Hy. destruct (Wk z Hz) as [_ Wz]. apply twf_known in Wz.
          rewrite Forall_forall in Wz. auto. }
        assert (Ag : agree lb (lab L') (n_kids r)).
        { intros z Hz. split; [apply Hold; auto|]. intros y Hy. apply Hold. eapply Hkz; eauto. }
        assert (Ex' : lbn (lab L') x' = lbn lb x).
        { unfold lbn. rewrite Ev. apply (Hold x). auto. }
        assert (Ekk : kk (lab L') x' (Node v 0 []) = s).
        { unfold kk. rewrite Hnew, Ex'. cbn. apply split_key. }
        cbn [n_kids].
        pose proof (sh_ext2 S lb (lab L') _ Ag (conj SS T)) as SH'.
        pose proof (entries_ext lb (lab L') _ Ag) as EE.
        split; [|split].
        { apply twf_eq. cbn [n_cap n_kids]. split.
          - rewrite Ekids in Wc. rewrite app_length in *. exact Wc.
          - apply Forall_forall. intros z Hz. apply in_app_or in Hz.
            assert (Hz' : In z l1 \/ In z l2 -> known L' z /\ twf L' z).
            { intros Hz'. destruct (Wk z) as [K1 K2].
              - rewrite Ekids. apply in_or_app. destruct Hz'; [left | right; right]; auto.
              - split; auto. eapply twf_mono; eauto. }
            destruct Hz as [Hz | [<- | Hz]]; auto. split; auto. unfold known. rewrite Ev. apply Wfk. auto. }
        { destruct SH' as [S1 T1']. rewrite Ekids in S1, T1'. split.
          - apply SS_app in S1. destruct S1 as (Q1 & Q2 & Q3). apply SS_cons in Q2. destruct Q2 as [Q2 Q4].
            apply SS_app. split; auto. split.
            + apply SS_cons. split; auto. intros z Hz. destruct (Q4 z Hz) as [Z1 Z2].
              assert (Exx : lbn (lab L') x = lbn lb x) by (apply Hold; auto).
              split.
              * unfold R2 in *. rewrite Ex', <- Exx. exact Z1.
              * intros y Hy. rewrite Eb in Hy. apply in_app_or in Hy.
                assert (Ho : In y (n_kids x) -> (scmp (kk (lab L') x' y) (snd (lbn (lab L') z)) < 0)%Z).
                { intros Hy'. replace (kk (lab L') x' y) with (kk (lab L') x y); [apply Z2; auto|].
                  unfold kk. rewrite Ex', Exx. reflexivity. }
                destruct Hy as [Hy | [<- | Hy]].
                -- apply Ho. rewrite Ea. apply in_or_app. auto.
                -- rewrite Ekk. rewrite Hold; [apply Hhi'; auto|].
                   apply FK. rewrite Ekids. apply in_or_app. right. right. auto.
                -- apply Ho. rewrite Ea. apply in_or_app. auto.
            + intros c d Hc' [<- | Hd].
              * destruct (Q3 c x Hc' (or_introl eq_refl)) as [Z1 Z2].
                assert (Exx : lbn (lab L') x' = lbn (lab L') x) by (unfold lbn; now rewrite Ev).
                split; [unfold R2 in *; rewrite Exx; exact Z1|]. intros y Hy. rewrite Exx. auto.
              * apply Q3; auto. right. auto.
          - intros z Hz. apply in_app_or in Hz. destruct Hz as [Hz | [<- | Hz]]; auto;
              apply T1'; apply in_or_app; auto. right. right. auto. }
        rewrite <- EE, Ekids. unfold entries. rewrite !flat_map_app. cbn [flat_map].
        assert (Exx : lbn (lab L') x = lbn lb x) by (apply Hold; auto).
        assert (E1 : Permutation (entries1 (lab L') x') ((s, v) :: entries1 (lab L') x)).
        { unfold entries1. rewrite Ex', Exx, Ev, Eb, Ea.
          assert (Em : forall l, map (fun y => (kk (lab L') x' y, n_val y)) l = map (fun y => (kk (lab L') x y, n_val y)) l).
          { intros l. apply map_ext. intros y. unfold kk. rewrite Ex', Exx. reflexivity. }
          rewrite !map_app. cbn [map]. rewrite Ekk. cbn [n_val]. rewrite !Em.
          eapply perm_trans; [apply perm_skip; symmetry; apply Permutation_middle|]. apply perm_swap. }
        rewrite E1. cbn [app]. symmetry. apply Permutation_middle. }
        (* below the second level *)
        right. right. split; [reflexivity|]. split; [exact Hnl|]. exists v, L'. split; [reflexivity|].
        cbn [n_kids].
        split.
        { unfold deep. apply in_flat_map. exists x'. split; [apply in_or_app; right; left; auto|].
          apply in_flat_map. exists y'. split; [rewrite Eb; apply in_or_app; right; left; auto | exact Hv]. }
        split; [exact I'|].
        assert (Wfk : forall z, known L z -> known L' z).
        { intros z Hz. unfold known in *. eapply incl_map; eauto. }
        assert (Hold : forall z, known L z -> lbn (lab L') z = lbn lb z) by (intros z Hz; apply Hlab; exact Hz).
        assert (Hkz : forall z y, In z (n_kids r) -> In y (n_kids z) -> known L y).
        { intros z w Hz Hw. destruct (Wk z Hz) as [_ Wz]. apply twf_known in Wz.
          rewrite Forall_forall in Wz. auto. }
        assert (Ag : agree lb (lab L') (n_kids r)).
        { intros z Hz. split; [apply Hold; auto|]. intros w Hw. apply Hold. eapply Hkz; eauto. }
        pose proof (sh_ext2 S lb (lab L') _ Ag (conj SS T)) as SH'.
        pose proof (entries_ext lb (lab L') _ Ag) as EE.
        assert (Hmv : map n_val (n_kids x') = map n_val (n_kids x)) by (rewrite Ea, Eb, !map_app; cbn; now rewrite Vy).
        assert (Exx : lbn (lab L') x' = lbn (lab L') x) by (unfold lbn; now rewrite Ev).
        assert (Eyy : lbn (lab L') y' = lbn (lab L') y) by (unfold lbn; now rewrite Vy).
        assert (Hkk : forall w, In w (n_kids x') -> exists w', In w' (n_kids x) /\ lbn (lab L') w = lbn (lab L') w').
        { intros w Hw. rewrite Eb in Hw. rewrite Ea. apply in_app_or in Hw. destruct Hw as [Hw | [<- | Hw]].
          - exists w. split; auto. apply in_or_app. auto.
          - exists y. split; auto. apply in_or_app. right. left. auto.
          - exists w. split; auto. apply in_or_app. right. right. auto. }
        assert (Kx' : known L' x') by (unfold known; rewrite Ev; apply Wfk; auto).
        split; [|split].
        { apply twf_eq. cbn [n_cap n_kids]. split.
          - rewrite Ekids in Wc. rewrite app_length in *. exact Wc.
          - apply Forall_forall. intros z Hz. apply in_app_or in Hz.
            assert (Hz' : In z l1 \/ In z l2 -> known L' z /\ twf L' z).
            { intros Hz'. destruct (Wk z) as [K1 K2].
              - rewrite Ekids. apply in_or_app. destruct Hz'; [left | right; right]; auto.
              - split; auto. eapply twf_mono; eauto. }
            destruct Hz as [Hz | [<- | Hz]]; auto. split; auto.
            apply twf_eq in Wx. destruct Wx as [Wx1 Wx2]. apply twf_eq. split.
            + rewrite Ec, <- (map_length n_val (n_kids x')), Hmv, map_length. exact Wx1.
            + rewrite Forall_forall in Wx2. rewrite Eb. rewrite Ea in Wx2. apply Forall_forall. intros w Hw.
              apply in_app_or in Hw. destruct Hw as [Hw | [<- | Hw]].
              * destruct (Wx2 w) as [A B]; [apply in_or_app; auto|]. split; auto. eapply twf_mono; eauto.
              * split; auto. unfold known. rewrite Vy. apply Wfk. apply Wx2. apply in_or_app. right. left. auto.
              * destruct (Wx2 w) as [A B]; [apply in_or_app; right; right; auto|]. split; auto. eapply twf_mono; eauto. }
        { destruct SH' as [S1 T1']. rewrite Ekids in S1, T1'. split.
          - apply SS_app in S1. destruct S1 as (Q1 & Q2 & Q3). apply SS_cons in Q2. destruct Q2 as [Q2 Q4].
            apply SS_app. split; auto. split.
            + apply SS_cons. split; auto. intros z Hz. destruct (Q4 z Hz) as [Z1 Z2]. split.
              * unfold R2 in *. rewrite Exx. exact Z1.
              * intros w Hw. destruct (Hkk w Hw) as (w' & Hw' & Ew).
                replace (kk (lab L') x' w) with (kk (lab L') x w'); [apply Z2; auto|].
                unfold kk. rewrite Exx, Ew. reflexivity.
            + intros c d Hc' [<- | Hd].
              * destruct (Q3 c x Hc' (or_introl eq_refl)) as [Z1 Z2].
                split; [unfold R2 in *; rewrite Exx; exact Z1|]. intros w Hw. rewrite Exx. auto.
              * apply Q3; auto. right. auto.
          - assert (Tx' : top2 S (lab L') x).
            { apply T1'. apply in_or_app. right. left. auto. }
            intros z Hz. apply in_app_or in Hz. destruct Hz as [Hz | [<- | Hz]]; auto;
              try (apply T1'; apply in_or_app; auto; right; right; auto; fail).
            destruct Tx' as (A1 & A2 & A3 & A4). unfold top2. rewrite Exx.
            split; [exact A1|]. split; [exact A2|]. split.
            + rewrite Ea in A3. rewrite Eb. apply SS_app in A3. destruct A3 as (Q1 & Q2 & Q3).
              apply SS_cons in Q2. destruct Q2 as [Q2 Q4]. apply SS_app. split; auto. split.
              * apply SS_cons. split; auto. intros w Hw. unfold R2. rewrite Eyy. apply Q4; auto.
              * intros c d Hc' [<- | Hd]; [|apply Q3; auto; right; auto].
                unfold R2. rewrite Eyy. apply Q3; auto. left. auto.
            + intros w Hw. destruct (Hkk w Hw) as (w' & Hw' & Ew). destruct (A4 w' Hw') as (B1 & B2 & B3 & B4).
              assert (Ek' : kk (lab L') x' w = kk (lab L') x w') by (unfold kk; rewrite Exx, Ew; reflexivity).
              unfold child2. rewrite Ek', Ew, Exx. auto. }
        rewrite <- EE, Ekids. unfold entries. rewrite !flat_map_app. cbn [flat_map]. f_equal. f_equal.
        unfold entries1. rewrite Exx, Ev. f_equal. rewrite Ea, Eb, !map_app. cbn [map]. rewrite Vy.
        assert (Em : forall l, map (fun y => (kk (lab L') x' y, n_val y)) l = map (fun y => (kk (lab L') x y, n_val y)) l).
        { intros l. apply map_ext. intros w. unfold kk. rewrite Exx. reflexivity. }
        rewrite !Em. f_equal. f_equal. f_equal. unfold kk. rewrite Exx, Eyy. reflexivity.
Qed.
End ADD.

(** every slot is at one of the first two levels or below *)
Lemma tvals_split : forall lb r, Permutation (tvals r) (map snd (entries lb (n_kids r)) ++ deep (n_kids r)).
Proof.
  intros lb r. rewrite tvals_eq. unfold entries, deep. induction (n_kids r) as [|x l IH]; [constructor|].
  cbn [flat_map]. rewrite map_app, IH.
  assert (A : forall k, Permutation (flat_map (fun x0 => n_val x0 :: tvals x0) k)
     (map n_val k ++ flat_map tvals k)).
  { induction k as [|y k IHk]; [constructor|]. cbn [flat_map map app]. apply perm_skip. rewrite IHk.
    rewrite !app_assoc. apply Permutation_app_tail. apply Permutation_app_comm. }
  assert (B : map snd (entries1 lb x) = n_val x :: map n_val (n_kids x)).
  { unfold entries1. cbn [map snd]. f_equal. rewrite map_map. apply map_ext. reflexivity. }
  rewrite B, (tvals_eq x), A. cbn [app]. apply perm_skip.
  rewrite <- !app_assoc. apply Permutation_app_head.
  rewrite !app_assoc. apply Permutation_app_tail. apply Permutation_app_comm.
Qed.

Lemma split_nodup : forall lb r, NoDup (tvals r) ->
  NoDup (map snd (entries lb (n_kids r))) /\
  (forall v, In v (deep (n_kids r)) -> ~ In v (map snd (entries lb (n_kids r)))).
Proof.
  intros lb r N. eapply Permutation_NoDup in N; [|apply (tvals_split lb)].
  revert N. generalize (map snd (entries lb (n_kids r))) as a, (deep (n_kids r)) as b.
  induction a as [|x a IH]; intros b N; cbn in *.
  - split; [constructor | auto].
  - inversion N as [|? ? N1 N2]; subst. destruct (IH b N2) as [A B]. split.
    + constructor; auto. intros H. apply N1. apply in_or_app. auto.
    + intros v Hv [<- | H].
      * apply N1. apply in_or_app. auto.
      * eapply B; eauto.
Qed.

(** *** histories *)

Record einv (S : list Z -> Prop) (r : node) (lg : log) (L : list slot) : Prop := {
  e_sh : sh2 S (lab L) (n_kids r);
  e_in : forall k q, In (k, q) lg -> exists v, q = Some (padd v 1) /\ In v (map sl_v L) /\
    (In (k, v) (entries (lab L) (n_kids r)) \/
     (~ In v (map snd (entries (lab L) (n_kids r))) /\ ~ lonely S k));
  e_out : forall k v, In (k, v) (entries (lab L) (n_kids r)) -> In (k, Some (padd v 1)) lg;
  e_keys : NoDup (map fst (entries (lab L) (n_kids r))) }.

Lemma play_each : forall uds S ops, under256 S -> fits uds S -> Forall S (keys_of ops) ->
  writes_fit uds ops ->
  exists sb r lg L, play uds ops = Ok ((sb, r), lg) /\ ginv uds sb r lg L /\ einv S r lg L.
Proof.
  intros uds S ops HS HF. induction ops as [|o ops IH] using rev_ind; intros HK HW.
  - exists (fst (init uds)), (snd (init uds)), [], []. split; [reflexivity|].
    split; [apply ginv_init|]. cbn. constructor; cbn; try (intros; contradiction); try constructor.
    + constructor.
    + intros x [].
  - rewrite keys_of_app in HK. apply Forall_app in HK. destruct HK as [HK1 HK2].
    destruct IH as (sb & r & lg & L & E & Hi & F); auto.
    { intros i d Hd. apply (HW i d). apply in_or_app. auto. }
    unfold play in *. rewrite exec_app, E. cbn [bind exec].
    destruct o as [k | i d].
    + cbn in HK2. inversion HK2 as [|? ? Sk _]; subst.
      destruct (HF k Sk) as [Kk Hlen].
      destruct (gadd uds sb r lg L k Hi Kk Hlen) as (sb' & r' & v & L' & E' & H' & Dg & _).
      cbn [exec_op]. rewrite E'. cbn [bind]. exists sb', r', (lg ++ [(k, Some (padd v 1))]), L'.
      split; [reflexivity|]. split; [exact H'|].
      pose proof (g_inv _ _ _ _ _ Hi) as I. pose proof (g_twf _ _ _ _ _ Hi) as W.
      assert (HK : forall k0, S k0 -> key k0 /\ length k0 + 2 + s_uds sb <= block_size).
      { intros k0 S0. rewrite (g_uds _ _ _ _ _ Hi). apply HF. auto. }
      destruct (flat_add2 S sb L HS HK I r k true W (e_sh _ _ _ _ F) (g_sort _ _ _ _ _ Hi) Sk) as (sb2 & r2 & q & E2 & D).
      { discriminate. }
      assert (Eq : sb2 = sb' /\ r2 = r' /\ q = Some (padd v 1)).
      { unfold add in E'. rewrite cstr_length, (g_uds _ _ _ _ _ Hi) in E'.
        destruct (Nat.ltb_spec block_size (Datatypes.S (length k) + uds)); [lia|].
        rewrite E2 in E'. cbn [bind] in E'. injection E' as -> -> ->. auto. }
      destruct Eq as (-> & -> & ->). clear E2.
      pose proof (g_inv _ _ _ _ _ H') as I'. pose proof (g_twf _ _ _ _ _ H') as W'.
      assert (Hgrow : forall u, In u (map sl_v L) -> In u (map sl_v L')).
      { intros u Hu. destruct (g_out _ _ _ _ _ Hi u Hu) as (k0 & Hk0).
        destruct (g_log _ _ _ _ _ H' k0 (padd u 1)) as (u' & Eu & Hu'); [apply in_or_app; auto|].
        apply padd_inj in Eu. now subst. }
      assert (HvL : In v (map sl_v L')).
      { destruct (g_log _ _ _ _ _ H' k (padd v 1)) as (u' & Eu & Hu'); [apply in_or_app; right; left; auto|].
        apply padd_inj in Eu. now subst. }
      destruct D as [(-> & -> & u & Hu & Eu) | (Hnot & [(Hf & _) | [(_ & u & L2 & Eu & N & I2 & W2 & S2 & P2)
        | (_ & Hnl & u & L2 & Eu & Hd & I2 & W2 & S2 & P2)]])]; [| discriminate | |];
        injection Eu as Eu; assert (u = v) as -> by (symmetry; apply padd_inj; unfold padd; congruence).
      * assert (A : agree (lab L) (lab L') (n_kids r)).
        { eapply agree_det; eauto; [apply twf_eq in W | apply twf_eq in W']; tauto. }
        pose proof (entries_ext _ _ _ A) as EE.
        constructor; rewrite ?EE; try apply F.
        -- eapply sh_ext2; eauto. apply F.
        -- intros k0 q Hq. apply in_app_or in Hq. destruct Hq as [Hq | [Hq | []]].
           ++ destruct (e_in _ _ _ _ F k0 q Hq) as (w & -> & Hw & Hc). exists w. auto.
           ++ injection Hq as <- <-. exists v. auto.
        -- intros k0 v0 Hv0. apply in_or_app. left. apply F. auto.
      * assert (A : agree (lab L2) (lab L') (n_kids r')).
        { eapply agree_det; eauto; [apply twf_eq in W2 | apply twf_eq in W']; tauto. }
        pose proof (entries_ext _ _ _ A) as EE.
        constructor; rewrite ?EE.
        -- eapply sh_ext2; eauto.
        -- intros k0 q Hq. apply in_app_or in Hq. destruct Hq as [Hq | [Hq | []]].
           ++ destruct (e_in _ _ _ _ F _ _ Hq) as (v0 & Ev & Hv0 & Hv). exists v0. split; auto. split; auto.
              destruct Hv as [Hv | [Hv Hl]].
              ** left. eapply Permutation_in; [symmetry; exact P2|]. right. auto.
              ** right. split; auto. intros Hin. eapply Permutation_in in Hin; [|apply Permutation_map; exact P2].
                 destruct Hin as [<- | Hin]; auto.
           ++ injection Hq as <- <-. exists v. split; auto. split; auto. left.
              eapply Permutation_in; [symmetry; exact P2|]. left. auto.
        -- intros k0 v0 Hv0. eapply Permutation_in in Hv0; [|exact P2]. apply in_or_app.
           destruct Hv0 as [Hv0 | Hv0]; [right; left; congruence|]. left. apply F. auto.
        -- eapply Permutation_NoDup; [apply Permutation_map; symmetry; exact P2|]. cbn. constructor; [|apply F].
           intros Hk. apply in_map_iff in Hk. destruct Hk as ([k0 v0] & Ek & Hk). cbn in Ek. subst k0.
           eapply Hnot; eauto.
      * assert (A : agree (lab L2) (lab L') (n_kids r')).
        { eapply agree_det; eauto; [apply twf_eq in W2 | apply twf_eq in W']; tauto. }
        pose proof (entries_ext _ _ _ A) as EE. rewrite P2 in EE.
        constructor; rewrite ?EE; try apply F.
        -- eapply sh_ext2; eauto.
        -- intros k0 q Hq. apply in_app_or in Hq. destruct Hq as [Hq | [Hq | []]].
           ++ destruct (e_in _ _ _ _ F k0 q Hq) as (w & -> & Hw & Hc). exists w. auto.
           ++ injection Hq as <- <-. exists v. split; auto. split; auto. right. split; auto.
              rewrite <- P2. apply split_nodup; auto. eapply ginv_nodup; eauto.
        -- intros k0 v0 Hv0. apply in_or_app. left. apply F. auto.
    + destruct (gwrite uds sb r lg L i d Hi) as (sb' & E' & H').
      { apply (HW i d). apply in_or_app. right. left. auto. }
      rewrite E'. cbn [bind]. exists sb', r, lg, L. split; [reflexivity|]. split; [exact H'|].
      constructor; apply F.
Qed.
