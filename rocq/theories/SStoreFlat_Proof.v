(** Lemmas about the string storage: for shallow sets of keys the tree is a dictionary. *)

From Coq Require Import ZArith List Bool Lia Sorted Permutation.
From Verif Require Import Base SStore_Model SStore_Spec SStore_Proof SStoreTree_Proof.
Import ListNotations.
Local Open Scope nat_scope.
Local Opaque block_size.

(** *** sorted lists *)

Lemma SS_app : forall A (R : A -> A -> Prop) l1 l2, StronglySorted R (l1 ++ l2) <->
  StronglySorted R l1 /\ StronglySorted R l2 /\ (forall x y, In x l1 -> In y l2 -> R x y).
Proof.
  induction l1 as [|a l1 IH]; intros l2; cbn [app].
  - split; [intros H; repeat split; auto; [constructor | intros x y []] | tauto].
  - split.
    + intros H. inversion H as [|? ? H1 H2]; subst. apply IH in H1. destruct H1 as (K1 & K2 & K3).
      apply Forall_app in H2. destruct H2 as [F1 F2]. repeat split; auto.
      * constructor; auto.
      * intros x y [<- | Hx] Hy; auto. rewrite Forall_forall in F2. auto.
    + intros (H1 & H2 & H3). inversion H1 as [|? ? K1 K2]; subst. constructor.
      * apply IH. repeat split; auto. intros x y Hx Hy. apply H3; auto. right. auto.
      * apply Forall_app. split; auto. apply Forall_forall. intros y Hy. apply H3; auto. left. auto.
Qed.

Lemma SS_impl : forall A (R R' : A -> A -> Prop) l,
  (forall x y, In x l -> In y l -> R x y -> R' x y) -> StronglySorted R l -> StronglySorted R' l.
Proof.
  intros A R R' l H S. induction S as [|a l S IH F]; constructor.
  - apply IH. intros x y Hx Hy. apply H; right; auto.
  - rewrite Forall_forall in *. intros y Hy. apply H; [left | right |]; auto.
Qed.

Lemma SS_cons : forall A (R : A -> A -> Prop) a l, StronglySorted R (a :: l) <->
  StronglySorted R l /\ (forall y, In y l -> R a y).
Proof.
  intros. split.
  - intros H. inversion H as [|? ? H1 H2]; subst. rewrite Forall_forall in H2. auto.
  - intros [H1 H2]. constructor; auto. apply Forall_forall. auto.
Qed.

(** *** the order of the children: longer prefixes first, then by string *)

Definition lt2 (a b : nat * list Z) : Prop :=
  fst b < fst a \/ (fst a = fst b /\ (scmp (snd a) (snd b) < 0)%Z).

Lemma lt2_trans : forall a b c, key (snd a) -> key (snd b) -> key (snd c) ->
  lt2 a b -> lt2 b c -> lt2 a c.
Proof.
  unfold lt2. intros [p s] [q t] [o u]; cbn [fst snd]. intros Ka Kb Kc H1 H2.
  destruct H1 as [H1 | [H1 H1']], H2 as [H2 | [H2 H2']]; try (left; lia).
  right. split; [lia|]. eapply scmp_trans; [exact Ka | exact Kb | exact Kc | |]; auto.
Qed.
Lemma lt2_irrefl : forall a, ~ lt2 a a.
Proof. unfold lt2. intros a. rewrite scmp_refl. lia. Qed.
Lemma lt2_asym : forall a b, lt2 a b -> ~ lt2 b a.
Proof. unfold lt2. intros a b. rewrite (scmp_sym (snd a) (snd b)). lia. Qed.

Definition lbn (lb : ptr -> nat * list Z) (x : node) := lb (n_val x).
Definition R2 (lb : ptr -> nat * list Z) (x y : node) : Prop := lt2 (lbn lb x) (lbn lb y).

Lemma side_lt : forall L prev s x, key s -> key (snd (lbn (lab L) x)) ->
  ((side L prev s x > 0)%Z <-> lt2 (lbn (lab L) x) (prev, s)) /\
  ((side L prev s x < 0)%Z <-> lt2 (prev, s) (lbn (lab L) x)) /\
  ((side L prev s x = 0)%Z <-> lbn (lab L) x = (prev, s)).
Proof.
  intros L prev s x Ks Kx. unfold side, lbn, lt2 in *. destruct (lab L (n_val x)) as [p t].
  cbn [fst snd] in *. rewrite (scmp_sym s t).
  destruct (Nat.eqb_spec p prev) as [-> | N].
  - split; [lia|]. split; [lia|]. split.
    + intros H. f_equal. symmetry. apply scmp_0; auto.
    + intros H. injection H as ->. apply scmp_refl.
  - split; [lia|]. split; [lia|]. split; [lia | congruence].
Qed.

Lemma lab_key : forall sb L x, inv sb L -> known L x -> key (snd (lbn (lab L) x)) /\ fst (lbn (lab L) x) < 256.
Proof.
  intros sb L x I H. destruct (known_slot _ _ H) as (sl & Hsl & E). unfold lbn.
  rewrite <- E, (lab_in _ _ _ I Hsl). cbn.
  destruct (i_in _ _ I _ Hsl) as (b & _ & _ & _ & _ & Hp & Hk). auto.
Qed.

(** the search in a sorted array *)
Lemma search_sorted : forall sb L kids prev s, inv sb L -> key s -> Forall (known L) kids ->
  StronglySorted (R2 (lab L)) kids ->
  exists o, search (S (length kids)) sb kids prev (cstr s) 0 (length kids) = Ok o /\
    match o with
    | inl m => exists x, nth_error kids m = Some x /\ lbn (lab L) x = (prev, s)
    | inr g => g <= length kids /\
               (forall x, In x (firstn g kids) -> lt2 (lbn (lab L) x) (prev, s)) /\
               (forall x, In x (skipn g kids) -> lt2 (prev, s) (lbn (lab L) x))
    end.
Proof.
  intros sb L kids prev s I K F SS.
  destruct (search_ok sb L kids prev s I K F) as (o & E & P). exists o. split; [exact E|].
  assert (Kk : forall x, In x kids -> key (snd (lbn (lab L) x))).
  { intros x Hx. rewrite Forall_forall in F. eapply lab_key; eauto. }
  destruct o as [m | g].
  - destruct P as (x & Hx & Hs). exists x. split; auto.
    apply (side_lt L prev s x K); auto. apply Kk. eapply nth_error_In; eauto.
  - destruct P as (Hg & HL & HR). split; auto. split.
    + intros x Hx. destruct HL as [-> | (y & Hy & Sy)]; [contradiction|].
      assert (Ky : key (snd (lbn (lab L) y))) by (apply Kk; eapply nth_error_In; eauto).
      apply (side_lt L prev s y K) in Sy; auto.
      destruct g as [|g]; [contradiction|]. cbn [Nat.sub] in Hy. rewrite Nat.sub_0_r in Hy.
      apply nth_error_split in Hy. destruct Hy as (l1 & l2 & -> & Hl1).
      rewrite <- Hl1 in Hx. replace (S (length l1)) with (length (l1 ++ [y])) in Hx by (rewrite app_length; simpl; lia).
      change (l1 ++ y :: l2) with (l1 ++ [y] ++ l2) in Hx.
      rewrite app_assoc, firstn_app, Nat.sub_diag, firstn_all, app_nil_r in Hx.
      apply in_app_or in Hx. destruct Hx as [Hx | [<- | []]]; auto.
      apply SS_app in SS. destruct SS as (_ & _ & SS).
      apply lt2_trans with (lbn (lab L) y); auto.
      * apply Kk. apply in_or_app. auto.
      * apply SS; auto. left. auto.
    + intros x Hx. destruct HR as [-> | (y & Hy & Sy)].
      { rewrite skipn_all in Hx. contradiction. }
      assert (Ky : key (snd (lbn (lab L) y))) by (apply Kk; eapply nth_error_In; eauto).
      apply (side_lt L prev s y K) in Sy; auto.
      apply nth_error_split in Hy. destruct Hy as (l1 & l2 & -> & Hl1).
      rewrite <- Hl1, skipn_app, Nat.sub_diag, skipn_all in Hx. cbn [skipn app] in Hx.
      destruct Hx as [<- | Hx]; auto.
      apply SS_app in SS. destruct SS as (_ & SS & _). apply SS_cons in SS. destruct SS as [_ SS].
      apply lt2_trans with (lbn (lab L) y); auto.
      * apply Kk. apply in_or_app. right. right. auto.
      * apply SS; auto.
Qed.

(** *** the dictionary *)

(** the full key of a grandchild [y] below the child [x] of the root *)
Definition kk (lb : ptr -> nat * list Z) (x y : node) : list Z :=
  firstn (fst (lbn lb y)) (snd (lbn lb x)) ++ snd (lbn lb y).

Definition entries1 lb (x : node) : list (list Z * ptr) :=
  (snd (lbn lb x), n_val x) :: map (fun y => (kk lb x y, n_val y)) (n_kids x).
Definition entries lb (kids : list node) : list (list Z * ptr) := flat_map (entries1 lb) kids.

Definition R1 lb (x z : node) : Prop :=
  R2 lb x z /\ (forall y, In y (n_kids x) -> (scmp (kk lb x y) (snd (lbn lb z)) < 0)%Z).

Definition child_ok (S : list Z -> Prop) lb (x y : node) : Prop :=
  n_kids y = [] /\ S (kk lb x y) /\ fst (lbn lb y) = lcp (snd (lbn lb x)) (kk lb x y) /\
  8 < fst (lbn lb y) /\ (scmp (snd (lbn lb x)) (kk lb x y) < 0)%Z.

Definition top_ok (S : list Z -> Prop) lb (x : node) : Prop :=
  fst (lbn lb x) = 0 /\ S (snd (lbn lb x)) /\ StronglySorted (R2 lb) (n_kids x) /\
  (forall y, In y (n_kids x) -> child_ok S lb x y).

Definition sh (S : list Z -> Prop) lb (kids : list node) : Prop :=
  StronglySorted (R1 lb) kids /\ (forall x, In x kids -> top_ok S lb x).

Definition agree (lb lb' : ptr -> nat * list Z) (kids : list node) : Prop :=
  forall x, In x kids -> lbn lb' x = lbn lb x /\ forall y, In y (n_kids x) -> lbn lb' y = lbn lb y.

Lemma kk_ext : forall lb lb' x y, lbn lb' x = lbn lb x -> lbn lb' y = lbn lb y ->
  kk lb' x y = kk lb x y.
Proof. intros lb lb' x y H1 H2. unfold kk. rewrite H1, H2. reflexivity. Qed.

Lemma top_ext : forall S lb lb' x, lbn lb' x = lbn lb x ->
  (forall y, In y (n_kids x) -> lbn lb' y = lbn lb y) -> top_ok S lb x -> top_ok S lb' x.
Proof.
  intros S lb lb' x Hx Hy (T1 & T2 & T3 & T4). unfold top_ok. rewrite Hx. repeat split; auto.
  - eapply SS_impl; [|exact T3]. intros a b Ha Hb. unfold R2. rewrite !Hy by auto. auto.
  - apply T4; auto.
  - rewrite (kk_ext lb lb') by auto. apply T4; auto.
  - rewrite (kk_ext lb lb'), Hy by auto. rewrite Hx. apply T4; auto.
  - rewrite Hy by auto. apply T4; auto.
  - rewrite (kk_ext lb lb'), Hx by auto. apply T4; auto.
Qed.

Lemma sh_ext : forall S lb lb' kids, agree lb lb' kids -> sh S lb kids -> sh S lb' kids.
Proof.
  intros S lb lb' kids A [H1 H2]. split.
  - eapply SS_impl; [|exact H1]. intros a b Ha Hb [Q1 Q2].
    destruct (A a Ha) as [Ea Ea'], (A b Hb) as [Eb _]. split.
    + unfold R2. rewrite Ea, Eb. exact Q1.
    + intros y Hy. rewrite (kk_ext lb lb') by auto. rewrite Eb. auto.
  - intros x Hx. destruct (A x Hx). eapply top_ext; eauto.
Qed.

Lemma entries1_ext : forall lb lb' x, lbn lb' x = lbn lb x ->
  (forall y, In y (n_kids x) -> lbn lb' y = lbn lb y) -> entries1 lb' x = entries1 lb x.
Proof.
  intros lb lb' x Hx Hy. unfold entries1. rewrite Hx. f_equal. apply map_ext_in.
  intros y H. rewrite (kk_ext lb lb'); auto.
Qed.

Lemma entries_ext : forall lb lb' kids, agree lb lb' kids -> entries lb' kids = entries lb kids.
Proof.
  intros lb lb' kids A. unfold entries. rewrite !flat_map_concat_map. f_equal.
  apply map_ext_in. intros x Hx. destruct (A x Hx). apply entries1_ext; auto.
Qed.

Lemma lab_det : forall sb L L' v, inv sb L -> inv sb L' ->
  In v (map sl_v L) -> In v (map sl_v L') -> lab L v = lab L' v.
Proof.
  intros sb L L' v I I' H H'. apply in_map_iff in H, H'.
  destruct H as (x & <- & Hx), H' as (x' & E & Hx').
  rewrite (lab_in _ _ _ I Hx), <- E, (lab_in _ _ _ I' Hx').
  pose proof (i_in _ _ I _ Hx) as S. pose proof (i_in _ _ I' _ Hx') as S'.
  f_equal.
  - pose proof (slot_prev _ _ S) as P. pose proof (slot_prev _ _ S') as P'. rewrite E in P'.
    rewrite P in P'. injection P' as P'. lia.
  - assert (K : key (sl_s x)) by (destruct S as (b & _ & _ & _ & _ & _ & K); exact K).
    assert (K' : key (sl_s x')) by (destruct S' as (b & _ & _ & _ & _ & _ & K'); exact K').
    pose proof (slot_strcmp _ _ (sl_s x) S K) as P.
    pose proof (slot_strcmp _ _ (sl_s x) S' K) as P'. rewrite E, P, scmp_refl in P'.
    injection P' as P'. apply scmp_0; auto.
Qed.

Lemma split_key : forall k s, firstn (lcp k s) k ++ skipn (lcp k s) s = s.
Proof.
  intros k s. rewrite (lcp_firstn k s (lcp k s)) by auto. apply firstn_skipn.
Qed.

Lemma kk_suffix : forall S lb x y, child_ok S lb x y ->
  skipn (lcp (snd (lbn lb x)) (kk lb x y)) (kk lb x y) = snd (lbn lb y).
Proof.
  intros S lb x y (_ & _ & E & _). rewrite <- E. unfold kk in *.
  pose proof (lcp_le_l (snd (lbn lb x)) (firstn (fst (lbn lb y)) (snd (lbn lb x)) ++ snd (lbn lb y))) as H.
  rewrite <- E in H. rewrite skipn_app, firstn_length.
  replace (fst (lbn lb y) - Nat.min (fst (lbn lb y)) (length (snd (lbn lb x)))) with 0 by lia.
  rewrite skipn_all2 by (rewrite firstn_length; lia). reflexivity.
Qed.

Section ADD.
Variable S : list Z -> Prop.
Variable sb : sblocks.
Variable L : list slot.
Hypothesis HS : shallow S.
Hypothesis HK : forall k, S k -> key k /\ length k + 2 + s_uds sb <= block_size.
Hypothesis I : inv sb L.

Let lb := lab L.

(** where a stored key can be: between its neighbours at the top *)
Lemma entry_under : forall l1 x l2 s v, sh S lb (l1 ++ x :: l2) -> S s ->
  (scmp (snd (lbn lb x)) s < 0)%Z ->
  (forall z, In z l2 -> (scmp s (snd (lbn lb z)) < 0)%Z) ->
  In (s, v) (entries lb (l1 ++ x :: l2)) ->
  exists y, In y (n_kids x) /\ n_val y = v /\ kk lb x y = s.
Proof.
  intros l1 x l2 s v [SS T] Ss Hx Hl2 Hin.
  assert (Kx : key (snd (lbn lb x))) by (apply HK, T; apply in_or_app; right; left; auto).
  pose proof (proj1 (HK s Ss)) as Ks.
  apply SS_app in SS. destruct SS as (S1 & S2 & S3).
  unfold entries in Hin. apply in_flat_map in Hin. destruct Hin as (z & Hz & Hv).
  assert (Tz : top_ok S lb z) by (apply T; auto).
  destruct Hv as [E | Hv].
  - (* at the top *) exfalso. injection E as E _.
    apply in_app_or in Hz. destruct Hz as [Hz | [<- | Hz]].
    + destruct (S3 z x Hz (or_introl eq_refl)) as [Q _]. unfold R2, lt2 in Q.
      destruct Tz as (Z0 & _). destruct (T x) as (X0 & _); [apply in_or_app; right; left; auto|].
      rewrite Z0, X0, E in Q. rewrite scmp_sym in Q. lia.
    + rewrite E, scmp_refl in Hx. lia.
    + specialize (Hl2 z Hz). rewrite E, scmp_refl in Hl2. lia.
  - apply in_map_iff in Hv. destruct Hv as (y & E & Hy). injection E as E1 E2.
    apply in_app_or in Hz. destruct Hz as [Hz | [<- | Hz]].
    + exfalso. destruct (S3 z x Hz (or_introl eq_refl)) as [_ Q]. specialize (Q y Hy).
      rewrite E1, scmp_sym in Q. lia.
    + exists y. auto.
    + exfalso. specialize (Hl2 z Hz). destruct Tz as (_ & _ & _ & Tz).
      destruct (Tz y Hy) as (_ & _ & _ & _ & Q). rewrite E1, scmp_sym in Q. lia.
Qed.

(** the children of a top node *)
Lemma inner_ok : forall x s doadd fuel, known L x -> twf L x -> top_ok S lb x -> S s ->
  (scmp (snd (lbn lb x)) s < 0)%Z -> 8 < lcp (snd (lbn lb x)) s ->
  length s < fuel ->
  let p := lcp (snd (lbn lb x)) s in
  exists sb' x' q, find_add fuel sb x p (cstr (skipn p s)) doadd = Ok (sb', x', q) /\
    n_val x' = n_val x /\
    ((sb' = sb /\ x' = x /\ exists y, In y (n_kids x) /\ kk lb x y = s /\ q = Some (padd (n_val y) 1)) \/
     ((forall y, In y (n_kids x) -> kk lb x y <> s) /\
      ((doadd = false /\ sb' = sb /\ x' = x /\ q = None) \/
       (doadd = true /\ exists v, q = Some (padd v 1) /\ ~ In v (map sl_v L) /\
          inv sb' (mkSl v p (skipn p s) :: L) /\
          let L' := mkSl v p (skipn p s) :: L in
          twf L' x' /\ top_ok S (lab L') x' /\
          exists a b, n_kids x = a ++ b /\ n_kids x' = a ++ Node v 0 [] :: b)))).
Proof.
  intros x s doadd fuel Kn W T Ss Hlt H8 Hf p.
  destruct HS as [HS1 HS2]. pose proof (proj1 (HK s Ss)) as Ks.
  destruct T as (T1 & T2 & T3 & T4).
  assert (Kx : key (snd (lbn lb x))) by (apply HK; auto).
  assert (Hne : snd (lbn lb x) <> s) by (intros E; rewrite E, scmp_refl in Hlt; lia).
  assert (Hp : p < 256) by (apply HS1; auto).
  destruct fuel as [|fuel]; [lia|]. cbn [find_add].
  pose proof (twf_known _ _ W) as FK.
  destruct (search_sorted sb L (n_kids x) p (skipn p s) I (key_skipn _ _ Ks) FK T3) as (o & Eo & Po).
  rewrite Eo. cbn [bind].
  destruct o as [m | g].
  - destruct Po as (y & Hy & Ey). unfold rd. rewrite Hy. cbn [bind].
    eexists _, _, _. split; [reflexivity|]. split; [reflexivity|]. left.
    split; [reflexivity|]. split; [reflexivity|]. exists y.
    split; [eapply nth_error_In; eauto|]. split; auto. unfold kk. unfold lb. rewrite Ey. cbn.
    apply split_key.
  - destruct Po as (Hg & Hlo & Hhi).
    (* not there *)
    assert (Hnot : forall y, In y (n_kids x) -> kk lb x y <> s).
    { intros y Hy E. pose proof (T4 y Hy) as C. pose proof (kk_suffix _ _ _ _ C) as Sf.
      destruct C as (_ & _ & C & _).
      assert (Ey : lbn lb y = (p, skipn p s)).
      { rewrite E in C, Sf. unfold p. rewrite Sf, <- C. destruct (lbn lb y); reflexivity. }
      rewrite <- (firstn_skipn g (n_kids x)) in Hy. apply in_app_or in Hy.
      destruct Hy as [Hy | Hy]; [apply Hlo in Hy | apply Hhi in Hy]; fold lb in Hy; rewrite Ey in Hy;
        eapply lt2_irrefl; eauto. }
    (* no descent *)
    assert (Hcb : exists cb, (if g =? 0 then Ok 0
             else x <- rd (n_kids x) (g - 1) ;;
                  n <- common_prefix sb (cstr (skipn p s)) (padd (n_val x) (s_uds sb + 1)) ;;
                  Ok (n mod 256)) = Ok cb /\ cb <= 8).
    { destruct (Nat.eqb_spec g 0); [exists 0; split; [reflexivity|lia]|].
      destruct (nth_error (n_kids x) (g - 1)) as [y|] eqn:Ey.
      2: { apply nth_error_None in Ey. lia. }
      apply nth_error_In in Ey as Hy. unfold rd. rewrite Ey. cbn [bind].
      rewrite Forall_forall in FK. destruct (known_slot L y) as (sl & Hsl & Esl); [apply FK; auto|].
      rewrite <- Esl. rewrite slot_common by (auto using key_skipn; apply (i_in _ _ I); auto).
      cbn [bind]. eexists. split; [reflexivity|].
      pose proof (T4 y Hy) as C. pose proof (kk_suffix _ _ _ _ C) as Sf.
      destruct C as (_ & C1 & C2 & C3 & C4).
      assert (Esf : snd (lbn lb y) = sl_s sl).
      { unfold lbn, lb. rewrite <- Esl, (lab_in _ _ _ I Hsl). reflexivity. }
      assert (Hle : lcp (sl_s sl) (skipn p s) <= 8).
      { rewrite <- Esf, <- Sf. apply HS2; auto.
        - intros E. rewrite E, scmp_refl in C4. lia.
        - rewrite <- C2. exact C3. }
      pose proof (Nat.mod_le (lcp (sl_s sl) (skipn p s)) 256). lia. }
    destruct Hcb as (cb & Ecb & Hcb). rewrite Ecb. cbn [bind].
    destruct (Nat.ltb_spec 8 cb); [lia|].
    destruct doadd; cbn [negb].
    2: { eexists _, _, _. split; [reflexivity|]. split; [reflexivity|]. right. auto 6. }
    destruct (new_slot_ok sb L p (skipn p s) I (key_skipn _ _ Ks) Hp) as (sb' & v & E & I' & F & N & U).
    { rewrite skipn_length. pose proof (HK s Ss). lia. }
    rewrite E. cbn [bind]. set (L' := mkSl v p (skipn p s) :: L) in *.
    destruct (insert_child_ok L' x g v) as (x' & Ex & Wx & Ek); auto.
    { eapply twf_mono; [|exact W]. apply incl_tl, incl_refl. }
    { left. reflexivity. }
    rewrite Ex. cbn [bind].
    assert (Ev : n_val x' = n_val x).
    { unfold insert_child in Ex. destruct (_ && _) in Ex; [|discriminate]. injection Ex as <-. reflexivity. }
    eexists _, _, _. split; [reflexivity|]. split; [exact Ev|].
    right. split; [exact Hnot|]. right. split; [reflexivity|]. exists v.
    split; [reflexivity|]. split; [exact N|]. split; [exact I'|].
    split; [exact Wx|].
    split; [|exists (firstn g (n_kids x)), (skipn g (n_kids x)); split; [symmetry; apply firstn_skipn | exact Ek]].
    assert (Hold : forall z, known L z -> lbn (lab L') z = lbn lb z).
    { intros z Hz. unfold lbn, L', lb. apply lab_cons. cbn. intros E'. apply N. rewrite <- E'. exact Hz. }
    assert (Hnew : lbn (lab L') (Node v 0 []) = (p, skipn p s)).
    { unfold lbn, L'. cbn. apply lab_head. }
    assert (Ex' : lbn (lab L') x' = lbn lb x).
    { unfold lbn. rewrite Ev. apply (Hold x). exact Kn. }
    rewrite Forall_forall in FK.
    assert (Hin : forall z, In z (firstn g (n_kids x)) \/ In z (skipn g (n_kids x)) -> In z (n_kids x)).
    { intros z Hz. rewrite <- (firstn_skipn g (n_kids x)). apply in_or_app. exact Hz. }
    fold L'. unfold top_ok. rewrite Ex'. split; [exact T1|]. split; [exact T2|]. rewrite Ek. split.
    + rewrite <- (firstn_skipn g (n_kids x)) in T3. apply SS_app in T3. destruct T3 as (Q1 & Q2 & Q3).
      assert (Hext : forall l, (forall z, In z l -> In z (n_kids x)) -> StronglySorted (R2 lb) l ->
        StronglySorted (R2 (lab L')) l).
      { intros l Hl Sl. eapply SS_impl; [|exact Sl]. intros a b Ha Hb. unfold R2.
        rewrite !Hold by (apply FK; auto). auto. }
      apply SS_app. split; [apply Hext; auto|]. split.
      * apply SS_cons. split; [apply Hext; auto|]. intros y Hy. unfold R2. rewrite Hnew.
        rewrite Hold by (apply FK; auto). apply Hhi; auto.
      * intros a b Ha [<- | Hb]; unfold R2.
        -- rewrite Hnew. rewrite Hold by (apply FK; auto). apply Hlo; auto.
        -- rewrite !Hold by (apply FK; auto). apply Q3; auto.
    + intros y Hy. apply in_app_or in Hy.
      assert (Hc : forall z, In z (n_kids x) -> child_ok S (lab L') x' z).
      { intros z Hz. destruct (T4 z Hz) as (C0 & C1 & C2 & C3 & C4).
        assert (Ez : kk (lab L') x' z = kk lb x z).
        { unfold kk. rewrite Ex', Hold by (apply FK; auto). reflexivity. }
        unfold child_ok. rewrite Ez, Ex', Hold by (apply FK; auto). auto. }
      destruct Hy as [Hy | [<- | Hy]]; auto.
      unfold child_ok. rewrite Hnew, Ex'. cbn [fst n_kids].
      assert (Ez : kk (lab L') x' (Node v 0 []) = s).
      { unfold kk. rewrite Hnew, Ex'. cbn. apply split_key. }
      rewrite Ez. auto.
Qed.

Lemma flat_add : forall r s doadd, twf L r -> sh S lb (n_kids r) -> S s ->
  exists sb' r' q, find_add (Datatypes.S (Datatypes.S (length s))) sb r 0 (cstr s) doadd = Ok (sb', r', q) /\
    ((sb' = sb /\ r' = r /\ exists v, In (s, v) (entries lb (n_kids r)) /\ q = Some (padd v 1)) \/
     ((forall v, ~ In (s, v) (entries lb (n_kids r))) /\
      ((doadd = false /\ sb' = sb /\ r' = r /\ q = None) \/
       (doadd = true /\ exists v L', q = Some (padd v 1) /\ ~ In v (map sl_v L) /\
          inv sb' L' /\ twf L' r' /\ sh S (lab L') (n_kids r') /\
          Permutation (entries (lab L') (n_kids r')) ((s, v) :: entries lb (n_kids r)))))).
Proof.
  intros r s doadd W SH Ss. pose proof (proj1 (HK s Ss)) as Ks.
  destruct (HK s Ss) as [_ Hlen].
  pose proof (twf_known _ _ W) as FK. rewrite Forall_forall in FK.
  destruct SH as [SS T].
  assert (SS2 : StronglySorted (R2 lb) (n_kids r)).
  { eapply SS_impl; [|exact SS]. intros a b _ _ [Q _]. exact Q. }
  remember (Datatypes.S (length s)) as fuel eqn:Hfuel.
  cbn [find_add]. rewrite <- Forall_forall in FK.
  destruct (search_sorted sb L (n_kids r) 0 s I Ks FK SS2) as (o & Eo & Po).
  rewrite Forall_forall in FK. rewrite Eo. cbn [bind].
  destruct o as [m | g].
  - destruct Po as (x & Hx & Ex). unfold rd. rewrite Hx. cbn [bind].
    eexists _, _, _. split; [reflexivity|]. left. split; [reflexivity|]. split; [reflexivity|].
    exists (n_val x). split; auto. unfold entries. apply in_flat_map. exists x.
    split; [eapply nth_error_In; eauto|]. left. unfold lb. rewrite Ex. reflexivity.
  - destruct Po as (Hg & Hlo & Hhi).
    assert (Hlo' : forall x, In x (firstn g (n_kids r)) -> (scmp (snd (lbn lb x)) s < 0)%Z).
    { intros x Hx. destruct (Hlo x Hx) as [Q | [_ Q]]; auto. cbn in Q.
      destruct (T x) as (Q' & _); [rewrite <- (firstn_skipn g (n_kids r)); apply in_or_app; auto|].
      unfold lb in Q'. lia. }
    assert (Hhi' : forall x, In x (skipn g (n_kids r)) -> (scmp s (snd (lbn lb x)) < 0)%Z).
    { intros x Hx. destruct (Hhi x Hx) as [Q | [_ Q]]; auto. cbn in Q. lia. }
    (* the insertion at the top *)
    assert (Htop : forall cb, cb <= 8 ->
      (forall v, ~ In (s, v) (entries lb (n_kids r))) ->
      (forall x y, In x (firstn g (n_kids r)) -> In y (n_kids x) -> (scmp (kk lb x y) s < 0)%Z) ->
      exists sb' r' q,
       (if 8 <? cb then
          x <- rd (n_kids r) (g - 1) ;;
          '(sb, x, p) <- find_add fuel sb x ((0 + cb) mod 256) (skipn cb (cstr s)) doadd ;;
          Ok (sb, Node (n_val r) (n_cap r) (upd (n_kids r) (g - 1) x), p)
        else if negb doadd then Ok (sb, r, None)
        else
        '(sb, v) <- new_slot sb 0 (cstr s) ;;
        r <- insert_child r g v ;;
        Ok (sb, r, Some (padd v 1))) = Ok (sb', r', q) /\
      ((sb' = sb /\ r' = r /\ exists v, In (s, v) (entries lb (n_kids r)) /\ q = Some (padd v 1)) \/
       ((forall v, ~ In (s, v) (entries lb (n_kids r))) /\
        ((doadd = false /\ sb' = sb /\ r' = r /\ q = None) \/
         (doadd = true /\ exists v L', q = Some (padd v 1) /\ ~ In v (map sl_v L) /\
          inv sb' L' /\ twf L' r' /\ sh S (lab L') (n_kids r') /\
          Permutation (entries (lab L') (n_kids r')) ((s, v) :: entries lb (n_kids r))))))).
    { intros cb Hcb Hnot Hkk. destruct (Nat.ltb_spec 8 cb); [lia|].
      destruct doadd; cbn [negb].
      2: { eexists _, _, _. split; [reflexivity|]. right. auto 6. }
      destruct (new_slot_ok sb L 0 s I Ks ltac:(lia) Hlen) as (sb' & v & E & I' & F & N & U).
      rewrite E. cbn [bind]. set (L' := mkSl v 0 s :: L) in *.
      destruct (insert_child_ok L' r g v) as (r' & Er & Wr & Ek); auto.
      { eapply twf_mono; [|exact W]. apply incl_tl, incl_refl. }
      { left. reflexivity. }
      rewrite Er. cbn [bind]. eexists _, _, _. split; [reflexivity|]. right. split; [exact Hnot|].
      right. split; [reflexivity|]. exists v, L'.
      split; [reflexivity|]. split; [exact N|]. split; [exact I'|]. split; [exact Wr|].
      assert (Hold : forall z, known L z -> lbn (lab L') z = lbn lb z).
      { intros z Hz. unfold lbn, L', lb. apply lab_cons. cbn. intros E'. apply N. rewrite <- E'. exact Hz. }
      assert (Hnew : lbn (lab L') (Node v 0 []) = (0, s)).
      { unfold lbn, L'. cbn. apply lab_head. }
      assert (Wk : forall x y, In x (n_kids r) -> In y (n_kids x) -> known L y).
      { intros x y Hx Hy. apply twf_eq in W. destruct W as [_ W]. rewrite Forall_forall in W.
        destruct (W x Hx) as [_ Wx]. apply twf_known in Wx. rewrite Forall_forall in Wx. auto. }
      assert (Ag : agree lb (lab L') (n_kids r)).
      { intros x Hx. split; [apply Hold; auto|]. intros y Hy. apply Hold. eapply Wk; eauto. }
      rewrite Ek. pose proof (sh_ext S lb (lab L') _ Ag (conj SS T)) as SH'.
      pose proof (entries_ext lb (lab L') _ Ag) as EE.
      rewrite <- (firstn_skipn g (n_kids r)) in SH', EE, Ag.
      split.
      - destruct SH' as [S1 T1]. apply SS_app in S1. destruct S1 as (Q1 & Q2 & Q3). split.
        + apply SS_app. split; auto. split.
          * apply SS_cons. split; auto. intros y Hy. split.
            -- unfold R2. rewrite Hnew. destruct (Ag y) as [-> _]; [apply in_or_app; auto|].
               apply Hhi. auto.
            -- intros z [].
          * intros a b Ha [<- | Hb]; [|apply Q3; auto].
            destruct (Ag a) as [Ea Ea']; [apply in_or_app; auto|].
            split.
            -- unfold R2. rewrite Hnew, Ea. apply Hlo. auto.
            -- intros y Hy. rewrite Hnew. rewrite (kk_ext lb (lab L')) by auto. apply Hkk; auto.
        + intros x Hx. apply in_app_or in Hx. destruct Hx as [Hx | [<- | Hx]].
          * apply T1. apply in_or_app. auto.
          * unfold top_ok. rewrite Hnew. cbn. repeat split; auto; try contradiction. constructor.
          * apply T1. apply in_or_app. auto.
      - unfold entries in *. rewrite flat_map_app in EE. rewrite flat_map_app. cbn [flat_map].
        unfold entries1 at 2. rewrite Hnew. cbn [map n_kids n_val snd app].
        rewrite (firstn_skipn g (n_kids r)) in EE. rewrite <- EE.
        symmetry. apply Permutation_middle. }
    destruct (Nat.eqb_spec g 0) as [-> | Hg0].
    + cbn [bind].
      destruct (Htop 0) as (sb' & r' & q & E & P); [lia| | |exists sb', r', q; split; [exact E | exact P]].
      * cbn [firstn skipn] in *. intros v Hv. unfold entries in Hv. apply in_flat_map in Hv.
        destruct Hv as (x & Hx & Hv). specialize (Hhi' x Hx). destruct Hv as [E | Hv].
        -- injection E as E _. rewrite E, scmp_refl in Hhi'. lia.
        -- apply in_map_iff in Hv. destruct Hv as (y & E & Hy). injection E as E _.
           destruct (T x Hx) as (_ & _ & _ & T4). destruct (T4 y Hy) as (_ & _ & _ & _ & Q).
           rewrite E, scmp_sym in Q. lia.
      * cbn [firstn]. intros x y [].
    + destruct (nth_error (n_kids r) (g - 1)) as [x|] eqn:Ex.
      2: { apply nth_error_None in Ex. lia. }
      assert (Hx : In x (n_kids r)) by (eapply nth_error_In; eauto).
      pose proof (T x Hx) as Tx.
      destruct (nth_error_split _ _ Ex) as (l1 & l2 & Ekids & Hl1).
      assert (Ef : firstn g (n_kids r) = l1 ++ [x]).
      { rewrite Ekids. replace g with (length (l1 ++ [x])) by (rewrite app_length; simpl; lia).
        change (l1 ++ x :: l2) with (l1 ++ [x] ++ l2). rewrite app_assoc, firstn_app, Nat.sub_diag, firstn_all.
        apply app_nil_r. }
      assert (Es : skipn g (n_kids r) = l2).
      { rewrite Ekids. replace g with (length (l1 ++ [x])) by (rewrite app_length; simpl; lia).
        change (l1 ++ x :: l2) with (l1 ++ [x] ++ l2). rewrite app_assoc, skipn_app, Nat.sub_diag, skipn_all.
        reflexivity. }
      rewrite Es in Hhi, Hhi'. rewrite Ef in Hlo'.
      assert (Hxs : (scmp (snd (lbn lb x)) s < 0)%Z) by (apply Hlo'; apply in_or_app; right; left; auto).
      assert (Kx : key (snd (lbn lb x))) by (apply HK, Tx).
      assert (Hne : snd (lbn lb x) <> s) by (intros E; rewrite E, scmp_refl in Hxs; lia).
      assert (Hund : forall v, In (s, v) (entries lb (n_kids r)) ->
        exists y, In y (n_kids x) /\ n_val y = v /\ kk lb x y = s).
      { intros v Hv. rewrite Ekids in Hv. eapply entry_under; eauto. rewrite <- Ekids. split; auto. }
      unfold rd at 1. rewrite Ex. cbn [bind].
      destruct (known_slot L x) as (sl & Hsl & Esl); [apply FK; auto|].
      rewrite <- Esl. rewrite slot_common by (auto; apply (i_in _ _ I); auto). cbn [bind].
      assert (Esx : sl_s sl = snd (lbn lb x)).
      { unfold lbn, lb. rewrite <- Esl, (lab_in _ _ _ I Hsl). reflexivity. }
      rewrite Esx. rewrite Nat.mod_small by (apply HS; auto; apply Tx).
      destruct (le_lt_dec (lcp (snd (lbn lb x)) s) 8) as [Hc | Hc].
      * apply Htop; [exact Hc| |].
        -- intros v Hv. destruct (Hund v Hv) as (y & Hy & _ & Ey).
           destruct Tx as (_ & _ & _ & T4). destruct (T4 y Hy) as (_ & _ & C2 & C3 & _).
           rewrite Ey in C2. lia.
        -- rewrite Ef. intros z y Hz Hy. apply in_app_or in Hz. destruct Hz as [Hz | [<- | []]].
           ++ assert (Q : (scmp (kk lb z y) (snd (lbn lb x)) < 0)%Z).
              { rewrite Ekids in SS. apply SS_app in SS. destruct SS as (_ & _ & Q).
                apply (Q z x Hz (or_introl eq_refl)); auto. }
              assert (Sz : S (kk lb z y)).
              { destruct (T z) as (_ & _ & _ & T4); [rewrite Ekids; apply in_or_app; auto|].
                apply T4; auto. }
              eapply scmp_trans; [apply HK; exact Sz | exact Kx | exact Ks | exact Q | exact Hxs].
           ++ destruct Tx as (_ & _ & _ & T4). destruct (T4 y Hy) as (_ & C1 & C2 & C3 & C4).
              apply lcp_less with (snd (lbn lb x)); auto; [apply HK; auto|]. lia.
      * (* descent *)
        destruct (Nat.ltb_spec 8 (lcp (snd (lbn lb x)) s)); [|lia].
        unfold rd. rewrite Ex. cbn [bind].
        rewrite skipn_cstr by apply lcp_le_r.
        cbn [Nat.add]. rewrite Nat.mod_small by (apply HS; auto; apply Tx).
        pose proof (proj1 (twf_eq _ _) W) as [Wc Wk]. rewrite Forall_forall in Wk.
        destruct (Wk x Hx) as [Knx Wx].
        destruct (inner_ok x s doadd fuel Knx Wx Tx Ss Hxs Hc ltac:(lia))
          as (sb' & x' & q & E & Ev & D).
        rewrite E. cbn [bind]. eexists _, _, _. split; [reflexivity|].
        assert (Hupd : forall z, upd (n_kids r) (g - 1) z = l1 ++ z :: l2).
        { intros z. rewrite Ekids, <- Hl1. apply upd_app. }
        rewrite Hupd.
        destruct D as [(-> & -> & y & Hy & Ey & ->) | (Hnot & D)].
        { left. split; [reflexivity|]. split; [rewrite <- Ekids; destruct r; reflexivity|].
          exists (n_val y). split; auto. unfold entries. apply in_flat_map. exists x. split; auto.
          right. apply in_map_iff. exists y. rewrite Ey. auto. }
        right. split.
        { intros v Hv. destruct (Hund v Hv) as (y & Hy & _ & Ey). eapply Hnot; eauto. }
        destruct D as [(-> & -> & -> & ->) | (-> & v & -> & N & I' & Wx' & Tx' & a & b & Ea & Eb)].
        { left. repeat split. rewrite <- Ekids. destruct r; reflexivity. }
        right. split; [reflexivity|].
        set (L' := mkSl v (lcp (snd (lbn lb x)) s) (skipn (lcp (snd (lbn lb x)) s) s) :: L) in *.
        exists v, L'. split; [reflexivity|]. split; [exact N|]. split; [exact I'|].
        assert (HinclL : incl L L') by (apply incl_tl, incl_refl).
        assert (Wfk : forall z, known L z -> known L' z).
        { intros z Hz. unfold known in *. eapply incl_map; eauto. }
        assert (Hold : forall z, known L z -> lbn (lab L') z = lbn lb z).
        { intros z Hz. unfold lbn, L', lb. apply lab_cons. cbn. intros E'. apply N. rewrite <- E'. exact Hz. }
        assert (Hnew : lbn (lab L') (Node v 0 []) = (lcp (snd (lbn lb x)) s, skipn (lcp (snd (lbn lb x)) s) s)).
        { unfold lbn at 1, L'. cbn [n_val]. apply lab_head. }
        assert (Hkz : forall z y, In z (n_kids r) -> In y (n_kids z) -> known L y).
        { intros z y Hz Hy. destruct (Wk z Hz) as [_ Wz]. apply twf_known in Wz.
          rewrite Forall_forall in Wz. auto. }
        assert (Ag : agree lb (lab L') (n_kids r)).
        { intros z Hz. split; [apply Hold; auto|]. intros y Hy. apply Hold. eapply Hkz; eauto. }
        assert (Ex' : lbn (lab L') x' = lbn lb x).
        { unfold lbn. rewrite Ev. apply (Hold x). auto. }
        assert (Ekk : kk (lab L') x' (Node v 0 []) = s).
        { unfold kk. rewrite Hnew, Ex'. cbn. apply split_key. }
        cbn [n_kids].
        pose proof (sh_ext S lb (lab L') _ Ag (conj SS T)) as SH'.
        pose proof (entries_ext lb (lab L') _ Ag) as EE.
        split; [|split].
        { apply twf_eq. cbn [n_cap n_kids]. split.
          - rewrite Ekids in Wc. rewrite app_length in *. exact Wc.
          - apply Forall_forall. intros z Hz. apply in_app_or in Hz.
            assert (Hz' : In z l1 \/ In z l2 -> known L' z /\ twf L' z).
            { intros Hz'. destruct (Wk z) as [K1 K2].
              - rewrite Ekids. apply in_or_app. destruct Hz'; [left | right; right]; auto.
              - split; auto. eapply twf_mono; eauto. }
            destruct Hz as [Hz | [<- | Hz]]; auto. split; auto. unfold known. rewrite Ev. apply Wfk. auto. }
        { destruct SH' as [S1 T1']. rewrite Ekids in S1, T1'. split.
          - apply SS_app in S1. destruct S1 as (Q1 & Q2 & Q3). apply SS_cons in Q2. destruct Q2 as [Q2 Q4].
            apply SS_app. split; auto. split.
            + apply SS_cons. split; auto. intros z Hz. destruct (Q4 z Hz) as [Z1 Z2].
              assert (Exx : lbn (lab L') x = lbn lb x) by (apply Hold; auto).
              split.
              * unfold R2 in *. rewrite Ex', <- Exx. exact Z1.
              * intros y Hy. rewrite Eb in Hy. apply in_app_or in Hy.
                assert (Ho : In y (n_kids x) -> (scmp (kk (lab L') x' y) (snd (lbn (lab L') z)) < 0)%Z).
                { intros Hy'. replace (kk (lab L') x' y) with (kk (lab L') x y); [apply Z2; auto|].
                  unfold kk. rewrite Ex', Exx. reflexivity. }
                destruct Hy as [Hy | [<- | Hy]].
                -- apply Ho. rewrite Ea. apply in_or_app. auto.
                -- rewrite Ekk. rewrite Hold; [apply Hhi'; auto|].
                   apply FK. rewrite Ekids. apply in_or_app. right. right. auto.
                -- apply Ho. rewrite Ea. apply in_or_app. auto.
            + intros c d Hc' [<- | Hd].
              * destruct (Q3 c x Hc' (or_introl eq_refl)) as [Z1 Z2].
                assert (Exx : lbn (lab L') x' = lbn (lab L') x) by (unfold lbn; now rewrite Ev).
                split; [unfold R2 in *; rewrite Exx; exact Z1|]. intros y Hy. rewrite Exx. auto.
              * apply Q3; auto. right. auto.
          - intros z Hz. apply in_app_or in Hz. destruct Hz as [Hz | [<- | Hz]]; auto;
              apply T1'; apply in_or_app; auto. right. right. auto. }
        rewrite <- EE, Ekids. unfold entries. rewrite !flat_map_app. cbn [flat_map].
        assert (Exx : lbn (lab L') x = lbn lb x) by (apply Hold; auto).
        assert (E1 : Permutation (entries1 (lab L') x') ((s, v) :: entries1 (lab L') x)).
        { unfold entries1. rewrite Ex', Exx, Ev, Eb, Ea.
          assert (Em : forall l, map (fun y => (kk (lab L') x' y, n_val y)) l = map (fun y => (kk (lab L') x y, n_val y)) l).
          { intros l. apply map_ext. intros y. unfold kk. rewrite Ex', Exx. reflexivity. }
          rewrite !map_app. cbn [map]. rewrite Ekk. cbn [n_val]. rewrite !Em.
          eapply perm_trans; [apply perm_skip; symmetry; apply Permutation_middle|]. apply perm_swap. }
        rewrite E1. cbn [app]. symmetry. apply Permutation_middle.
Qed.
End ADD.
