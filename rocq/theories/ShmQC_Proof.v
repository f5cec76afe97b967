(** Lemmas about connecting to a shared queue. *)
From Coq Require Import ZArith List Bool Lia Arith.
From Verif Require Import Base ShmQ_Model ShmSys_Proof ShmQC_Model ShmQC_Spec.
Import ListNotations.
Local Open Scope Z_scope.

Definition ind (f : qpc -> bool) (x : qpc * Z) : Z := if f (fst x) then 1 else 0.
Lemma ind_nn : forall f x, 0 <= ind f x.
Proof. intros f x. unfold ind. destruct (f (fst x)); lia. Qed.
Lemma number_ind : forall f s, number f s = sumz (ind f) (ps s).
Proof.
  intros f s. unfold number. induction (ps s) as [|x l IH]; auto. cbn [filter sumz]. unfold ind at 1.
  destruct (f (fst x)); cbn [length]; lia.
Qed.
Lemma ind_clear : forall f l, sumz (ind f) (map (fun x : qpc * Z => (fst x, 0)) l) = sumz (ind f) l.
Proof. intros f l. induction l as [|x l IH]; auto. cbn [map sumz]. rewrite IH. reflexivity. Qed.
Lemma ind_none : forall f l, (forall i p u, nth_error l i = Some (p, u) -> f p = false) -> sumz (ind f) l = 0.
Proof.
  intros f l H. apply sumz_zero. intros [p u] Hx. apply In_nth_error in Hx. destruct Hx as (i & Hi).
  unfold ind. cbn [fst]. rewrite (H _ _ _ Hi). auto.
Qed.
Lemma get_upd : forall A (l : list A) i x y j z, nth_error l i = Some x -> nth_error (upd l i y) j = Some z ->
  (i = j /\ z = y) \/ (i <> j /\ nth_error l j = Some z).
Proof.
  intros A l i x y j z Hi Hj. rewrite nth_upd_cases in Hj by (apply nth_error_Some; congruence).
  destruct (Nat.eqb_spec i j); [injection Hj as <-|]; auto.
Qed.
Lemma get_clear : forall (l : list (qpc * Z)) j p u, nth_error (map (fun x => (fst x, 0)) l) j = Some (p, u) ->
  u = 0 /\ exists v, nth_error l j = Some (p, v).
Proof.
  intros l j p u H. rewrite nth_error_map in H. destruct (nth_error l j) as [[q v]|] eqn:E; [|discriminate].
  injection H as <- <-. eauto.
Qed.

(** *** the lock *)
Definition fresh (p : qpc) : bool := match p with QGet | QCreate | QDead => true | _ => false end.
Record LInv (s : csys) : Prop := mkLInv
  { li_l : 0 <= lk (gl s);
    li_x : lk (gl s) + sumz (ind inside) (ps s) <= 1;
    li_e : ex (gl s) = false -> lk (gl s) = 0 /\ cnt (gl s) = 0 /\ forall i p u, nth_error (ps s) i = Some (p, u) -> fresh p = true;
    li_u : forall i p u, nth_error (ps s) i = Some (p, u) -> u = ind inside (p, u) }.

Lemma linv_init : forall e n, LInv (init e n).
Proof.
  intros e n. assert (R : forall i p u, nth_error (repeat (QGet, 0) n) i = Some (p, u) -> p = QGet /\ u = 0).
  { intros i p u H. apply nth_error_In, repeat_spec in H. injection H as -> ->. auto. }
  constructor; cbn [init gl ps ex lk cnt].
  - destruct e; lia.
  - rewrite ind_none; [destruct e; lia|]. intros i p u H. destruct (R _ _ _ H) as (-> & _). auto.
  - intros ->. split; auto. split; auto. intros i p u H. destruct (R _ _ _ H) as (-> & _). auto.
  - intros i p u H. destruct (R _ _ _ H) as (-> & ->). auto.
Qed.

Lemma loc_lk : forall g p k g' q d, loc g p k g' q d -> k <> KIntr ->
  d = ind inside (q, 0) - ind inside (p, 0) /\
  (lk g' = lk g - d \/ (k = KCreate /\ ex g = false /\ lk g' = 0 /\ d = 0)) /\
  (0 <= lk g -> 0 <= lk g') /\
  (ex g' = false -> ex g = false /\ (fresh p = true -> fresh q = true /\ lk g' = lk g /\ cnt g' = cnt g)).
Proof.
  intros g p k g' q d H K. inversion H; subst; try congruence; cbn [ind fst inside lk ex cnt fresh]; unfold ind; cbn [fst inside];
    try (split; [lia|]; split; [left; lia|]; split; [lia|]; intros E; split; [exact E || auto|]; intros; try discriminate; auto; fail).
  - destruct e; (split; [lia|]; split; [auto; left; lia|]; split; [lia|]; discriminate).
Qed.

Lemma linv_step : forall s k i s', LInv s -> step s k i s' -> k <> KIntr ->
  (k = KReset -> forall j p u, nth_error (ps s) j = Some (p, u) -> inside p = false) -> LInv s'.
Proof.
  intros s k i s' I St K C. pose proof I as [I1 I2 I3 I4].
  inversion St; subst; cbn [gl ps] in *.
  - destruct (loc_lk _ _ _ _ _ _ H0 K) as (D & L & P & E).
    pose proof (sumz_upd _ (ind inside) _ _ _ (q, u + d) H) as SU.
    assert (SA : ind inside (q, u + d) = ind inside (q, 0)) by reflexivity.
    assert (SB : ind inside (p, u) = ind inside (p, 0)) by reflexivity.
    constructor; cbn [gl ps].
    + auto.
    + rewrite SU, SA, SB. destruct L as [L|(-> & Eg & L & D0)].
      * lia.
      * destruct (I3 Eg) as (L0 & _ & F). rewrite (ind_none inside l) by (intros j p1 u1 Hj; specialize (F _ _ _ Hj); destruct p1; auto; discriminate). lia.
    + intros Ef. destruct (E Ef) as (Eg & Ff). destruct (I3 Eg) as (L0 & C0 & F).
      destruct (Ff (F _ _ _ H)) as (Fq & L1 & C1). split; [lia|]. split; [lia|]. intros j p1 u1 Hj.
      destruct (get_upd _ _ _ _ _ _ _ H Hj) as [(-> & X)|(_ & X)]; [injection X as -> ->; auto|eauto].
    + intros j p1 u1 Hj. destruct (get_upd _ _ _ _ _ _ _ H Hj) as [(-> & X)|(_ & X)]; [|eauto].
      injection X as -> ->. rewrite (I4 _ _ _ H). rewrite SB, D. unfold ind. cbn [fst]. lia.
  - pose proof (C eq_refl) as N.
    assert (N2 : forall j p u0, nth_error (upd l i (QSet1, u)) j = Some (p, u0) -> inside p = false).
    { intros j p u0 Hj. destruct (get_upd _ _ _ _ _ _ _ H Hj) as [(-> & X)|(_ & X)]; [injection X as -> ->; auto|eauto]. }
    constructor; cbn [gl ps set_lk lk ex cnt].
    + lia.
    + rewrite ind_clear, ind_none by auto. lia.
    + intros Ef. destruct (I3 Ef) as (_ & _ & F). specialize (F _ _ _ H). discriminate.
    + intros j p1 u1 Hj. apply get_clear in Hj. destruct Hj as (-> & v & Hj). unfold ind. cbn [fst]. rewrite (N2 _ _ _ Hj). auto.
  - pose proof (I4 _ _ _ H) as U. unfold ind in U. cbn in U.
    pose proof (sumz_upd _ (ind inside) _ _ _ (QDead, 0) H) as SU. unfold ind at 3 4 in SU. cbn [fst inside] in SU.
    constructor; cbn [gl ps set_lk lk ex cnt].
    + lia.
    + lia.
    + intros Ef. destruct (I3 Ef) as (_ & _ & F). specialize (F _ _ _ H). discriminate.
    + intros j p1 u1 Hj. destruct (get_upd _ _ _ _ _ _ _ H Hj) as [(-> & X)|(_ & X)]; [injection X as -> ->; auto|eauto].
  - pose proof (I4 _ _ _ H) as U.
    pose proof (sumz_upd _ (ind inside) _ _ _ (QDead, 0) H) as SU. unfold ind at 4 in SU. cbn [fst inside] in SU.
    pose proof (ind_nn inside (p, u)).
    constructor; cbn [gl ps set_lk lk ex cnt].
    + lia.
    + lia.
    + intros Ef. destruct (I3 Ef) as (L0 & C0 & F). pose proof (F _ _ _ H) as Fp.
      assert (u = 0) by (rewrite U; destruct p; try discriminate; reflexivity).
      split; [lia|]. split; auto. intros j p1 u1 Hj. destruct (get_upd _ _ _ _ _ _ _ H Hj) as [(-> & X)|(_ & X)]; [injection X as -> ->; auto|eauto].
    + intros j p1 u1 Hj. destruct (get_upd _ _ _ _ _ _ _ H Hj) as [(-> & X)|(_ & X)]; [injection X as -> ->; auto|eauto].
Qed.

Lemma linv_one : forall s, LInv s -> one_inside s.
Proof.
  intros s [I1 I2 I3 I4] i j p q u v Hi Hj Pi Pj. destruct (Nat.eq_dec i j) as [|Hne]; auto. exfalso.
  pose proof (sumz_two _ (ind inside) _ _ _ _ _ (ind_nn inside) Hne Hi Hj) as B. unfold ind at 1 2 in B.
  cbn [fst] in B. rewrite Pi, Pj in B. lia.
Qed.

Lemma calm_linv : forall e n tr s, calm (init e n) tr s -> undisturbed tr -> LInv s.
Proof.
  intros e n tr s H. induction H as [|tr s k i s' H IH St C1 C2]; intros U; [apply linv_init|].
  eapply linv_step; eauto.
  - apply IH. intros X. apply U. apply in_or_app. auto.
  - intros ->. apply U. apply in_or_app. right. left. auto.
Qed.

(** *** one creator *)
Definition at_set (p : qpc) : bool := match p with QSet0 => true | _ => false end.
Lemma creations_snoc : forall tr k, creations (tr ++ [k]) = (creations tr + match k with KCreate => 1 | _ => 0 end)%nat.
Proof. intros tr k. unfold creations. rewrite filter_app, app_length. destruct k; reflexivity. Qed.
Lemma loc_set : forall g p k g' q d, loc g p k g' q d ->
  (at_set q = true <-> k = KCreate) /\ at_set p = false /\ k <> KReset /\
  (k = KCreate -> ex g' = true /\ fresh p = true /\ (ex g = false -> lk g' = 0)) /\
  (lk g = 0 -> inside p = false -> k <> KIntr -> lk g' = 0 /\ inside q = false) /\
  (ex g' = true -> k <> KCreate -> ex g = true).
Proof.
  intros g p k g' q d H. inversion H; subst; try (destruct e); cbn [at_set lk ex inside fresh];
  (split; [split; intros X; try discriminate X; auto|]); (split; [reflexivity|]); (split; [discriminate|]);
  (split; [intros X; first [discriminate X | repeat split; auto; intros; congruence]|]);
  (split; [intros; try discriminate; try congruence; try lia; auto|]); intros; try congruence; auto.
Qed.

(** with one creator nobody is inside before the lock is set, and it is set once *)
Record SInv (tr : list kind) (s : csys) : Prop := mkSInv
  { si_0 : creations tr = 0%nat -> ex (gl s) = false;
    si_n : sumz (ind at_set) (ps s) <= Z.of_nat (creations tr);
    si_h : 0 < sumz (ind at_set) (ps s) -> lk (gl s) = 0 /\ sumz (ind inside) (ps s) = 0 }.

Lemma sinv_step : forall tr s k i s', LInv s -> SInv tr s -> step s k i s' -> k <> KIntr ->
  (creations (tr ++ [k]) <= 1)%nat ->
  SInv (tr ++ [k]) s' /\ (k = KReset -> forall j p u, nth_error (ps s) j = Some (p, u) -> inside p = false).
Proof.
  intros tr s k i s' L [S0 Sn Sh] St K C. rewrite creations_snoc in C.
  assert (NN : forall f l, 0 <= sumz (ind f) l) by (intros; apply sumz_nonneg; apply ind_nn).
  assert (IN : forall l, sumz (ind inside) l = 0 -> forall j p u, nth_error l j = Some (p, u) -> inside p = false).
  { intros l0 Z0 j p u Hj. pose proof (sumz_in _ (ind inside) _ _ _ (ind_nn inside) Hj) as B. rewrite Z0 in B.
    unfold ind in B. cbn [fst] in B. destruct (inside p); auto. lia. }
  inversion St; subst; cbn [gl ps] in *.
  - destruct (loc_set _ _ _ _ _ _ H0) as (Q & P & KR & KC & Z0 & E). split; [|congruence].
    pose proof (sumz_upd _ (ind at_set) _ _ _ (q, u + d) H) as SU. unfold ind at 3 4 in SU. cbn [fst] in SU. rewrite P in SU.
    pose proof (sumz_upd _ (ind inside) _ _ _ (q, u + d) H) as SI. unfold ind at 3 4 in SI. cbn [fst] in SI.
    constructor; cbn [gl ps]; rewrite ?creations_snoc.
    + intros Z1. destruct (ex g') eqn:Eg; auto. rewrite <- (E eq_refl); [apply S0; lia|]. intros ->. lia.
    + destruct (at_set q) eqn:Aq; [rewrite (proj1 Q eq_refl) in *; cbn [Z.of_nat] in *; lia|lia].
    + intros Pos. destruct (at_set q) eqn:Aq.
      * pose proof (proj1 Q eq_refl) as ->. destruct (KC eq_refl) as (_ & Fp & L0).
        assert (Ef : ex g = false) by (apply S0; lia). split; [apply L0; auto|].
        pose proof (li_e _ L Ef) as (_ & _ & F). cbn [ps] in F.
        rewrite SI, (ind_none inside l) by (intros j p1 u1 Hj; specialize (F _ _ _ Hj); destruct p1; auto; discriminate).
        destruct q; try discriminate Aq. destruct p; try discriminate Fp; reflexivity.
      * destruct Sh as (A & B); [lia|]. pose proof (IN _ B _ _ _ H) as Ip. destruct (Z0 A Ip K) as (A' & Iq).
        rewrite Ip, Iq in SI. split; [auto|lia].
  - pose proof (sumz_in _ (ind at_set) _ _ _ (ind_nn at_set) H) as In1. unfold ind at 1 in In1. cbn [fst at_set] in In1.
    destruct Sh as (A & B); [lia|].
    pose proof (sumz_upd _ (ind at_set) _ _ _ (QSet1, u) H) as SU. unfold ind at 3 4 in SU. cbn [fst at_set] in SU.
    split; [|intros _; apply IN; auto].
    constructor; cbn [gl ps set_lk ex lk]; rewrite ?creations_snoc, ?ind_clear.
    + intros Z1. apply S0. lia.
    + lia.
    + intros Pos. exfalso. cbn [Nat.add] in C. lia.
  - pose proof (sumz_upd _ (ind at_set) _ _ _ (QDead, 0) H) as SU. unfold ind at 3 4 in SU. cbn [fst at_set] in SU.
    pose proof (sumz_in _ (ind inside) _ _ _ (ind_nn inside) H) as In1. unfold ind at 1 in In1. cbn [fst inside] in In1.
    split; [|discriminate].
    constructor; cbn [gl ps set_lk ex lk]; rewrite ?creations_snoc.
    + intros Z1. apply S0. lia.
    + lia.
    + intros Pos. destruct Sh; lia.
  - pose proof (sumz_upd _ (ind at_set) _ _ _ (QDead, 0) H) as SU. unfold ind at 4 in SU. cbn [fst at_set] in SU.
    pose proof (sumz_upd _ (ind inside) _ _ _ (QDead, 0) H) as SI. unfold ind at 4 in SI. cbn [fst inside] in SI.
    pose proof (sumz_in _ (ind inside) _ _ _ (ind_nn inside) H) as In1.
    pose proof (ind_nn inside (p, u)). pose proof (ind_nn at_set (p, u)). pose proof (li_u _ L _ _ _ H) as U.
    split; [|discriminate].
    constructor; cbn [gl ps set_lk ex lk]; rewrite ?creations_snoc.
    + intros Z1. apply S0. lia.
    + lia.
    + intros Pos. destruct Sh; lia.
Qed.

Lemma one_creator_inv : forall n tr s, exec (init false n) tr s -> undisturbed tr -> (creations tr <= 1)%nat ->
  LInv s /\ SInv tr s.
Proof.
  intros n tr s H. induction H as [|tr s k i s' H IH St]; intros U C.
  - split; [apply linv_init|]. constructor; cbn [init gl ps ex]; auto.
    + rewrite ind_none; [cbn; lia|]. intros i p u Hi. apply nth_error_In, repeat_spec in Hi. injection Hi as -> ->. auto.
    + rewrite ind_none; [lia|]. intros i p u Hi. apply nth_error_In, repeat_spec in Hi. injection Hi as -> ->. auto.
  - assert (K : k <> KIntr) by (intros ->; apply U; apply in_or_app; right; left; auto).
    destruct IH as (L & S).
    { intros X. apply U. apply in_or_app. auto. }
    { rewrite creations_snoc in C. lia. }
    destruct (sinv_step _ _ _ _ _ L S St K C) as (S' & R). split; auto. eapply linv_step; eauto.
Qed.

(** *** the segment and the count *)
Lemma set_ups_snoc : forall tr k, set_ups (tr ++ [k]) = (set_ups tr + match k with KInit => 1 | _ => 0 end)%nat.
Proof. intros tr k. unfold set_ups. rewrite filter_app, app_length. destruct k; reflexivity. Qed.
(** past the check of the header *)
Definition past (p : qpc) : bool := match p with QCheck | QUnlock => true | _ => connected p end.
Record HInv (tr : list kind) (s : csys) : Prop := mkHInv
  { hi_p : forall i p u, nth_error (ps s) i = Some (p, u) ->
       (past p = true -> seg (gl s) = Some true) /\ (p = QMake -> seg (gl s) = None) /\ (p = QInit -> seg (gl s) = Some false);
    hi_h : seg (gl s) = Some false -> exists i u, nth_error (ps s) i = Some (QInit, u);
    hi_n : set_ups tr = match seg (gl s) with Some true => 1%nat | _ => 0%nat end;
    hi_z : seg (gl s) <> Some true -> cnt (gl s) = 0 /\ stored (gl s) = 0;
    hi_c : 0 <= cnt (gl s);
    hi_b : cnt (gl s) + sumz (ind claims) (ps s) <= stored (gl s) - sumz (ind pending) (ps s) }.

Lemma hinv_same : forall tr g l i p u g' q v k, HInv tr (mkS g l) -> nth_error l i = Some (p, u) ->
  seg g' = seg g -> k <> KInit -> p <> QInit -> q <> QInit ->
  (past q = true -> seg g = Some true) -> (q = QMake -> seg g = None) ->
  (seg g <> Some true -> cnt g' = 0 /\ stored g' = 0) -> 0 <= cnt g' ->
  cnt g' + ind claims (q, v) - ind claims (p, u) - cnt g <= stored g' - stored g - (ind pending (q, v) - ind pending (p, u)) ->
  HInv (tr ++ [k]) (mkS g' (upd l i (q, v))).
Proof.
  intros tr g l i p u g' q v k [H1 H2 H3 H4 H5 H6] H E K Np Nq Pq Mq Z0 C0 B. cbn [gl ps] in *.
  constructor; cbn [gl ps].
  - rewrite E. intros j p1 u1 Hj. destruct (get_upd _ _ _ _ _ _ _ H Hj) as [(-> & X)|(_ & X)]; [|eauto].
    injection X as -> ->. split; auto. split; auto. congruence.
  - rewrite E. intros F. destruct (H2 F) as (j & w & Hj). exists j, w.
    rewrite nth_upd_cases by (apply nth_error_Some; congruence).
    destruct (Nat.eqb_spec i j); auto. subst j. rewrite H in Hj. injection Hj as -> ->. congruence.
  - rewrite set_ups_snoc, H3, E. destruct k; try congruence; destruct (seg g) as [[]|]; reflexivity.
  - rewrite E. auto.
  - auto.
  - rewrite (sumz_upd _ (ind claims) _ _ _ (q, v) H), (sumz_upd _ (ind pending) _ _ _ (q, v) H). lia.
Qed.

Lemma hinv_step : forall tr s k i s', LInv s -> HInv tr s -> step s k i s' -> k <> KIntr -> k <> KDie true ->
  (k = KZero -> cnt (gl s) = 0) -> HInv (tr ++ [k]) s' /\ k <> KCrash.
Proof.
  intros tr s k i s' L HI St K KD KZ. pose proof HI as [H1 H2 H3 H4 H5 H6]. pose proof (linv_one _ L) as One.
  inversion St; subst; cbn [gl ps] in *.
  - split; [|inversion H0; discriminate]. destruct (H1 _ _ _ H) as (P1 & P2 & P3).
    inversion H0; subst; cbn [seg cnt stored] in *; try congruence;
    try (apply (hinv_same _ _ _ _ _ _ _ _ _ _ HI H); cbn [seg cnt stored past connected] in *; unfold ind; cbn [fst claims pending];
      auto; try discriminate; try (intros; destruct P1; auto; discriminate); try lia;
      try (intros NT; exfalso; apply NT; apply P1; reflexivity); fail).
    + (* semget makes a set *)
      apply (hinv_same _ _ _ _ _ _ _ _ _ _ HI H); cbn [seg cnt stored past connected] in *; unfold ind; cbn [fst claims pending];
      auto; try discriminate; destruct e; auto; try lia. intros NT. destruct (H4 NT). auto.
    + (* SETVAL of the count *)
      specialize (KZ eq_refl). subst c.
      apply (hinv_same _ _ _ _ _ _ _ _ _ _ HI H); cbn [seg cnt stored past connected] in *; unfold ind; cbn [fst claims pending];
      auto; try discriminate; lia.
    + (* an old segment *)
      assert (b = true). { destruct b; auto. destruct (H2 eq_refl) as (j & w & Hj).
        assert (i = j) by (eapply (One i j); eauto; reflexivity). subst j. cbn [ps] in Hj. congruence. }
      subst b. apply (hinv_same _ _ _ _ _ _ _ _ _ _ HI H); cbn [seg cnt stored past connected] in *; unfold ind; cbn [fst claims pending];
      auto; try discriminate; try lia. 
    + (* shmget makes the segment *)
      assert (N : g0 = None) by auto. subst g0. clear P1 P2 P3.
      constructor; cbn [gl ps seg cnt stored].
      * intros j p1 u1 Hj. destruct (get_upd _ _ _ _ _ _ _ H Hj) as [(-> & X)|(Hne & X)].
        -- injection X as -> ->. split; [discriminate|]. split; [discriminate|auto].
        -- destruct (H1 _ _ _ X) as (Q1 & Q2 & Q3). split; [intros Y; discriminate (Q1 Y)|]. split; [|auto].
           intros ->. exfalso. apply Hne. eapply (One i j); eauto; reflexivity.
      * intros _. exists i. eexists. rewrite nth_upd_cases by (apply nth_error_Some; congruence). rewrite Nat.eqb_refl. reflexivity.
      * rewrite set_ups_snoc, H3. reflexivity.
      * intros _. apply H4. discriminate.
      * auto.
      * rewrite (sumz_upd _ (ind claims) _ _ _ (QInit, u + 0) H), (sumz_upd _ (ind pending) _ _ _ (QInit, u + 0) H).
        unfold ind at 2 3 5 6. cbn [fst claims pending]. lia.
    + (* the header *)
      assert (N : g0 = Some false) by auto. subst g0. clear P1 P2 P3.
      destruct H4 as (C0 & S0); [discriminate|]. subst.
      assert (NC : forall j p1 u1, nth_error l j = Some (p1, u1) -> past p1 = false).
      { intros j p1 u1 Hj. destruct (H1 _ _ _ Hj) as (Q1 & _). destruct (past p1); auto. discriminate (Q1 eq_refl). }
      constructor; cbn [gl ps seg cnt stored].
      * intros j p1 u1 Hj. destruct (get_upd _ _ _ _ _ _ _ H Hj) as [(-> & X)|(Hne & X)].
        -- injection X as -> ->. split; [auto|]. split; discriminate.
        -- destruct (H1 _ _ _ X) as (Q1 & Q2 & Q3). split; [auto|].
           split; intros ->; exfalso; apply Hne; eapply (One i j); eauto; reflexivity.
      * discriminate.
      * rewrite set_ups_snoc, H3. reflexivity.
      * congruence.
      * lia.
      * rewrite (sumz_upd _ (ind claims) _ _ _ (QCheck, u + 0) H), (sumz_upd _ (ind pending) _ _ _ (QCheck, u + 0) H).
        rewrite (ind_none claims l), (ind_none pending l); [reflexivity| |];
          intros j p1 u1 Hj; specialize (NC _ _ _ Hj); destruct p1; auto; discriminate.
    + (* the count is at its limit *)
      assert (T : g0 = Some true) by (apply P1; reflexivity). subst g0.
      apply (hinv_same _ _ _ _ _ _ _ _ _ _ HI H); cbn [seg cnt stored past connected] in *; unfold ind; cbn [fst claims pending];
      auto; try discriminate; try congruence; destruct (c <? semvmx); lia.
  - split; [|discriminate].
    assert (HI2 : HInv (tr ++ [KReset]) (mkS (set_lk g 1) (upd l i (QSet1, u)))).
    { apply (hinv_same _ _ _ _ _ _ _ _ _ _ HI H); cbn [set_lk seg cnt stored past connected]; unfold ind; cbn [fst claims pending];
      auto; try discriminate; lia. }
    destruct HI2 as [J1 J2 J3 J4 J5 J6]. cbn [gl ps] in *. constructor; cbn [gl ps]; auto.
    + intros j p1 u1 Hj. apply get_clear in Hj. destruct Hj as (_ & w & Hj). eauto.
    + intros F. destruct (J2 F) as (j & w & Hj). exists j, 0. rewrite nth_error_map, Hj. reflexivity.
    + rewrite !ind_clear. auto.
  - exfalso. destruct (H1 _ _ _ H) as (P1 & _). apply H0. apply P1. reflexivity.
  - split; [|discriminate].
    assert (Np : p <> QInit) by (intros ->; congruence).
    apply (hinv_same _ _ _ _ _ _ _ _ _ _ HI H); cbn [set_lk seg cnt stored past connected]; auto; try discriminate.
    unfold ind at 1 3. cbn [fst claims pending].
    pose proof (ind_nn claims (p, u)). pose proof (ind_nn pending (p, u)). lia.
Qed.

Lemma calm_inv : forall e n tr s, calm (init e n) tr s -> undisturbed tr -> ~ In (KDie true) tr ->
  HInv tr s /\ ~ In KCrash tr.
Proof.
  intros e n tr s H. induction H as [|tr s k i s' H IH St C1 C2]; intros U D.
  - split; [|intros []]. assert (R : forall i p u, nth_error (repeat (QGet, 0) n) i = Some (p, u) -> p = QGet).
    { intros i p u Hi. apply nth_error_In, repeat_spec in Hi. congruence. }
    constructor; cbn [init gl ps seg cnt stored]; auto; try discriminate; try lia.
    + intros i p u Hi. rewrite (R _ _ _ Hi). split; [discriminate|]. split; discriminate.
    + rewrite !ind_none; [lia| |]; intros i p u Hi; rewrite (R _ _ _ Hi); auto.
  - assert (U' : undisturbed tr) by (intros X; apply U; apply in_or_app; auto).
    assert (D' : ~ In (KDie true) tr) by (intros X; apply D; apply in_or_app; auto).
    destruct (IH U' D') as (HI & NC).
    destruct (hinv_step _ _ _ _ _ (calm_linv _ _ _ _ H U') HI St) as (HI' & NK); auto.
    + intros ->. apply U. apply in_or_app. right. left. auto.
    + intros ->. apply D. apply in_or_app. right. left. auto.
    + split; auto. intros X. apply in_app_or in X. destruct X as [X|[X|[]]]; auto.
Qed.
