(** Lemmas about store buffers: with one process at a time storing, the delayed stores are not seen. *)

From Coq Require Import ZArith List Bool Lia.
From Verif Require Import Base Shm_Spec Shm_Model ShmSys_Model ShmSys_Spec ShmSys_Proof Wmm_Model.
From Verif Require ShmQ_Spec ShmQ_Model ShmQSys_Spec ShmQSys_Proof ShmQ_Props.
Import ListNotations.
Local Open Scope Z_scope.

(** *** buffers *)

Lemma find_app' : forall A (f : A -> bool) l1 l2, find f (l1 ++ l2) =
  match find f l1 with Some x => Some x | None => find f l2 end.
Proof. induction l1 as [|a l1 IH]; intros l2; cbn [app find]; auto. destruct (f a); auto. Qed.

Lemma look_nil : forall m x, look [] m x = m x.
Proof. reflexivity. Qed.
Lemma look_store : forall b m a w x, look (b ++ [(a, w)]) m x = mset (look b m) a w x.
Proof.
  intros. unfold look, mset. rewrite rev_app_distr. cbn [rev app find fst snd]. rewrite (Z.eqb_sym x a).
  destruct (a =? x); reflexivity.
Qed.
Lemma look_ext : forall b m m', (forall x, m x = m' x) -> forall x, look b m x = look b m' x.
Proof. intros b m m' H x. unfold look. destruct (find _ _); auto. Qed.
Lemma look_drain : forall b1 a w b2 m x, ~ In a (map fst b1) ->
  look (b1 ++ (a, w) :: b2) m x = look (b1 ++ b2) (mset m a w) x.
Proof.
  intros b1 a w b2 m x N. unfold look. rewrite !rev_app_distr. cbn [rev].
  rewrite <- app_assoc, !find_app'. destruct (find _ (rev b2)); auto. cbn [find fst app].
  destruct (Z.eqb_spec a x) as [<- | Q].
  - destruct (find (fun e => fst e =? a) (rev b1)) as [e|] eqn:E.
    + apply find_some in E. destruct E as (E1 & E2). apply Z.eqb_eq in E2. exfalso. apply N.
      apply in_map_iff. exists e. split; auto. apply in_rev. auto.
    + unfold mset. rewrite Z.eqb_refl. reflexivity.
  - destruct (find _ (rev b1)); auto. unfold mset. destruct (Z.eqb_spec x a); [congruence|auto].
Qed.

Lemma concat_one : forall (bs : list buf) i b, nth_error bs i = Some b ->
  (forall j c, j <> i -> nth_error bs j = Some c -> c = []) -> concat bs = b.
Proof.
  induction bs as [|c bs IH]; intros [|i] b Hi H; try discriminate; cbn [nth_error concat] in *.
  - injection Hi as ->. assert (E : concat bs = []).
    { assert (G : forall j c, nth_error bs j = Some c -> c = []) by (intros j c Hj; apply (H (S j) c); auto).
      clear H IH. induction bs as [|c bs IH]; auto. cbn [concat]. rewrite (G 0%nat c eq_refl), IH; auto.
      intros j d Hj. apply (G (S j)). auto. }
    rewrite E, app_nil_r. auto.
  - rewrite (H 0%nat c); [|lia|auto]. cbn [app]. apply IH with i; auto.
    intros j d N Hj. apply (H (S j)); auto.
Qed.
Lemma concat_upd : forall (bs : list buf) i b b', nth_error bs i = Some b ->
  (forall j c, j <> i -> nth_error bs j = Some c -> c = []) -> concat (upd bs i b') = b'.
Proof.
  intros bs i b b' Hi H. apply concat_one with i.
  - apply nth_error_upd_same. apply nth_error_Some. congruence.
  - intros j c N Hj. rewrite nth_error_upd_other in Hj by auto. eauto.
Qed.
Lemma concat_none : forall (bs : list buf), (forall j c, nth_error bs j = Some c -> c = []) -> concat bs = [].
Proof.
  induction bs as [|c bs IH]; intros G; auto. cbn [concat]. rewrite (G 0%nat c eq_refl), IH; auto.
  intros j d Hj. apply (G (S j)). auto.
Qed.
Lemma upd_id : forall A (l : list A) i x, nth_error l i = Some x -> upd l i x = l.
Proof.
  induction l as [|a l IH]; intros [|i] x H; try discriminate; cbn in *.
  - injection H as ->. reflexivity.
  - f_equal. auto.
Qed.

(** *** the map *)
Section Map.
Variable R : Type.
Variable lim : Z.

Record wsim (w : wsys R) (s : sys R) : Prop := mkSim
  { ws_sems : s_sems R s = s_sems R (w_sys w);
    ws_procs : s_procs R s = s_procs R (w_sys w);
    ws_len : length (w_bufs w) = length (s_procs R s);
    ws_buf : forall i b, nth_error (w_bufs w) i = Some b -> b <> [] -> inside R s i Wr;
    ws_mem : forall x, s_mem R s x = look (concat (w_bufs w)) (s_mem R (w_sys w)) x }.

Lemma quiet_mem : forall v m ps e v' m' ps', step R lim (mkSys v m ps) e (mkSys v' m' ps') -> quiet R e = true ->
  m' = m /\ forall m2, step R lim (mkSys v m2 ps) e (mkSys v' m2 ps').
Proof.
  intros v m ps e v' m' ps' H Q. inversion H; subst; try discriminate Q; (split; [reflexivity|intros m2]).
  - eapply SCall; eauto.
  - eapply SLock; eauto.
  - eapply SThrow; eauto.
  - eapply SDone; eauto.
Qed.

Lemma quiet_inside : forall v m ps e v' m' ps' i b0 b u, step R lim (mkSys v m ps) e (mkSys v' m' ps') ->
  quiet R e = true -> nth_error ps i = Some (mkProc (Inside Wr b0 b) u) ->
  (exists b0 b u, nth_error ps' i = Some (mkProc (Inside Wr b0 b) u)) \/ (semop_ok R e = true /\ actor R e = i).
Proof.
  intros v m ps e v' m' ps' i b0 b u H Q Hp.
  inversion H; subst; try discriminate Q; cbn [semop_ok actor]; auto;
    match goal with |- context [upd ?l ?i0 _] =>
      destruct (Nat.eq_dec i0 i) as [-> | N]; [first [congruence | right; auto; fail]|rewrite nth_error_upd_other by auto; left; eauto] end.
Qed.

Lemma others_empty : forall w s i g, wsim w s -> exclusive R s -> inside R s i g ->
  forall j c, j <> i -> nth_error (w_bufs w) j = Some c -> c = [].
Proof.
  intros w s i g Hs X Hi j c N Hj. destruct c as [|x c]; auto. exfalso. apply N.
  eapply X; [|exact Hi]. eapply (ws_buf _ _ Hs); eauto. discriminate.
Qed.

Lemma wsim_step : forall w e w' s, wsim w s -> exclusive R s ->
  (forall i b0 b u, nth_error (s_procs R s) i = Some (mkProc (Inside Rd b0 b) u) -> readonly R b) ->
  wstep R lim true w e w' ->
  match e with
  | Some e => exists s', step R lim s e s' /\ wsim w' s'
  | None => wsim w' s
  end.
Proof.
  intros w e w' s Hs X RO H. destruct s as [sv sm sps]. pose proof Hs as [W1 W2 W3 W4 W5].
  inversion H; subst; cbn [w_sys w_bufs s_sems s_procs s_mem] in *; subst.
  - (* quiet *)
    destruct s as [v m ps], s' as [v' m' ps']. cbn [s_sems s_procs s_mem] in *.
    destruct (quiet_mem _ _ _ _ _ _ _ H0 H1) as (-> & G). exists (mkSys v' sm ps'). split; [apply G|].
    assert (L : length ps' = length ps) by (inversion H0; subst; rewrite ?upd_length; auto).
    constructor; cbn [w_sys w_bufs s_sems s_procs s_mem]; auto; [lia|].
    intros i b Hi N. destruct (W4 i b Hi N) as (b0 & bb & u & Hp). cbn [s_procs] in Hp.
    destruct (quiet_inside _ _ _ _ _ _ _ _ _ _ _ H0 H1 Hp) as [K | (K1 & K2)]; [exact K|].
    specialize (H2 eq_refl K1). rewrite K2 in H2. pose proof (eq_trans (eq_sym Hi) H2) as Q. injection Q as ->. exfalso. apply N. reflexivity.
  - (* load *)
    assert (I : inside R (mkSys v sm ps) i g) by (unfold inside; cbn [s_procs]; eauto).
    assert (C : concat bs = b) by (eapply concat_one; [eassumption|intros; eapply (others_empty _ _ _ _ Hs X I); eauto]).
    rewrite C in W5. eexists. split.
    + eapply SMem; [eassumption|]. apply PLoad. assumption.
    + rewrite W5. constructor; cbn [w_sys w_bufs s_sems s_procs s_mem]; auto; try rewrite upd_length; auto.
      * intros j c Hj N. destruct (W4 j c Hj N) as (b0' & bb & u' & Hp). cbn [s_procs] in Hp. unfold inside. cbn [s_procs].
        destruct (Nat.eq_dec i j) as [<- | Ne]; [|rewrite nth_error_upd_other by auto; eauto].
        rewrite nth_error_upd_same by (apply nth_error_Some; congruence).
        rewrite H0 in Hp. injection Hp as Eg _ _ _. rewrite Eg. eauto.
      * rewrite C. auto.
  - (* store *)
    assert (I : inside R (mkSys v sm ps) i g) by (unfold inside; cbn [s_procs]; eauto).
    assert (O : forall j c, j <> i -> nth_error bs j = Some c -> c = []) by (intros; eapply (others_empty _ _ _ _ Hs X I); eauto).
    assert (C : concat bs = b) by (eapply concat_one; eauto).
    destruct g; [exfalso; apply (RO _ _ _ _ H0)|].
    rewrite C in W5. eexists. split.
    + eapply SMem; [eassumption|]. apply PStore. assumption.
    + constructor; cbn [w_sys w_bufs s_sems s_procs s_mem]; auto; rewrite ?upd_length; auto.
      * intros j c Hj N. unfold inside. cbn [s_procs].
        destruct (Nat.eq_dec i j) as [<- | Ne].
        -- rewrite nth_error_upd_same by (apply nth_error_Some; congruence). eauto.
        -- rewrite nth_error_upd_other in Hj by auto. rewrite (O j c) in N; auto. congruence.
      * intros x. rewrite (concat_upd _ _ _ _ H1 O), look_store. unfold mset. destruct (x =? a); auto.
  - (* drain *)
    assert (I : inside R (mkSys v sm ps) i Wr) by (eapply W4; eauto; now destruct b1).
    assert (O : forall j c, j <> i -> nth_error bs j = Some c -> c = []) by (intros; eapply (others_empty _ _ _ _ Hs X I); eauto).
    rewrite (concat_one _ _ _ H0 O) in W5.
    constructor; cbn [w_sys w_bufs s_sems s_procs s_mem]; auto; rewrite ?upd_length; auto.
    + intros j c Hj N. destruct (Nat.eq_dec i j) as [<- | Ne]; auto.
      rewrite nth_error_upd_other in Hj by auto. eauto.
    + intros x. rewrite (concat_upd _ _ _ _ H0 O), <- look_drain by auto. auto.
  - (* death *)
    inversion H1; subst. eexists. split; [eapply SCrash; eauto|].
    constructor; cbn [w_sys w_bufs s_sems s_procs s_mem]; auto; rewrite ?upd_length; auto.
    + intros j c Hj N. destruct (Nat.eq_dec i j) as [<- | Ne].
      { rewrite nth_error_upd_same in Hj by (apply nth_error_Some; congruence). congruence. }
      rewrite nth_error_upd_other in Hj by auto. destruct (W4 j c Hj N) as (b0' & bb & u' & Hp). cbn [s_procs] in Hp.
      unfold inside. cbn [s_procs]. rewrite nth_error_upd_other by auto. eauto.
    + intros x. destruct b as [|y b].
      * rewrite (upd_id _ _ _ _ H0). rewrite W5. apply look_ext. reflexivity.
      * assert (I : inside R (mkSys v sm ps) i Wr) by (eapply W4; eauto; discriminate).
        assert (O : forall j c, j <> i -> nth_error bs j = Some c -> c = []) by (intros; eapply (others_empty _ _ _ _ Hs X I); eauto).
        rewrite (concat_upd _ _ _ _ H0 O), look_nil, <- (concat_one _ _ _ H0 O). auto.
Qed.

Lemma wsim_exec : forall n m0 tr w, wexec R lim true n m0 tr w ->
  (forall i b, In (ECall i Rd b) tr -> readonly R b) ->
  exists s, exec R lim n m0 tr s /\ wsim w s.
Proof.
  intros n m0 tr w H. induction H as [|tr w e w' H IH St|tr w w' H IH St]; intros RO.
  - exists (init R n m0). split; [constructor|]. unfold init.
    constructor; cbn [w_sys w_bufs s_sems s_procs s_mem]; auto; rewrite ?repeat_length; auto.
    + intros i b Hi N. apply nth_error_In, repeat_spec in Hi. congruence.
    + intros x. rewrite concat_none; [reflexivity|]. intros j c Hj. apply nth_error_In, repeat_spec in Hj. auto.
  - destruct IH as (s & E & S); [intros i b Hi; apply (RO i b), in_or_app; auto|].
    destruct (minv_exec R lim n m0 tr s E) as (m1 & _ & M); [intros i b Hi; apply (RO i b), in_or_app; auto|].
    pose proof (wsim_step w (Some e) w' s S (sinv_exclusive _ _ (sinv_exec _ _ _ _ _ _ E))
      (fun i b0 b u Hp => proj1 (mi_rd _ _ _ _ M i b0 b u Hp)) St) as K. cbn in K.
    destruct K as (s' & K1 & K2). exists s'. split; auto. econstructor; eauto.
  - destruct IH as (s & E & S); auto.
    destruct (minv_exec R lim n m0 tr s E) as (m1 & _ & M); auto.
    pose proof (wsim_step w None w' s S (sinv_exclusive _ _ (sinv_exec _ _ _ _ _ _ E))
      (fun i b0 b u Hp => proj1 (mi_rd _ _ _ _ M i b0 b u Hp)) St) as K. cbn in K.
    exists s. auto.
Qed.
End Map.

(** *** the queue *)
Section Queue.
Import ShmQ_Spec ShmQ_Model ShmQSys_Spec ShmQSys_Proof.
Variable lim : Z.
Variable n : nat.

(** between lock and unlock *)
Definition holder (s : ShmQ_Model.sys) (i : nat) : Prop :=
  exists p u, nth_error (procs s) i = Some (p, u) /\ holds p = true.

Record vsim (w : vsys) (s : ShmQ_Model.sys) : Prop := mkVsim
  { vs_lk : lk s = lk (v_sys w);
    vs_cnt : cnt s = cnt (v_sys w);
    vs_procs : procs s = procs (v_sys w);
    vs_buf : forall i b, nth_error (v_bufs w) i = Some b -> b <> [] -> holder s i;
    vs_mem : forall x, sm s x = look (concat (v_bufs w)) (sm (v_sys w)) x }.

Lemma v_others : forall w s i, vsim w s -> one_holder s -> holder s i ->
  forall j c, j <> i -> nth_error (v_bufs w) j = Some c -> c = [].
Proof.
  intros w s i Hs X (p & u & Hi & Hp) j c N Hj. destruct c as [|x c]; auto. exfalso. apply N.
  destruct (vs_buf _ _ Hs j _ Hj ltac:(discriminate)) as (q & v & Hq & Hh). eapply X; eauto.
Qed.

(** a step that touches no memory *)
Lemma vquiet_mem : forall l c m ps e s' p u, ShmQ_Model.step lim n (mkS l c m ps) e s' ->
  (forall i h, e <> EDie i h) -> nth_error ps (qactor e) = Some (p, u) -> no_access p ->
  exists l' c' q u', s' = mkS l' c' m (upd ps (qactor e) (q, u')) /\
    (forall m2, ShmQ_Model.step lim n (mkS l c m2 ps) e (mkS l' c' m2 (upd ps (qactor e) (q, u')))) /\
    (holds p = true -> at_semop p \/ holds q = true).
Proof.
  intros l c m ps e s' p u H ND Hp NA.
  inversion H; subst; cbn [qactor] in *;
    try match goal with K : nth_error ps _ = Some _ |- _ => rewrite K in Hp; injection Hp as <- <- end.
  - do 4 eexists. split; [reflexivity|]. split; [intros; eapply ShmQ_Model.SCall; eauto|discriminate].
  - exists l, c, ShmQ_Model.Idle, u0. rewrite upd_id by auto. split; [reflexivity|]. split; [intros; eapply SNoReg; eauto|discriminate].
  - exists l, c, ShmQ_Model.Idle, u0. rewrite upd_id by auto. split; [reflexivity|]. split; [intros; eapply SCount; eauto|discriminate].
  - do 4 eexists. split; [reflexivity|]. split; [intros; eapply STicket; eauto|discriminate].
  - do 4 eexists. split; [reflexivity|]. split; [intros; eapply SFail; eauto|discriminate].
  - do 4 eexists. split; [reflexivity|]. split; [intros; eapply ShmQ_Model.SLock; eauto|discriminate].
  - do 4 eexists. split; [reflexivity|]. split; [intros; eapply SIntr; eauto|discriminate].
  - match goal with K : pstep _ _ _ _ _ |- _ => inversion K; subst end; contradiction NA.
  - do 4 eexists. split; [reflexivity|]. split; [intros; eapply SEnd; eauto|].
    intros _. right. unfold after. destruct r as [[]| | |]; reflexivity.
  - do 4 eexists. split; [reflexivity|]. split; [intros; eapply SPost; eauto|]. cbn. auto.
  - do 4 eexists. split; [reflexivity|]. split; [intros; eapply SUnlock; eauto|]. cbn. auto.
  - exfalso. eapply ND. reflexivity.
Qed.

Lemma vsim_step : forall w e w' s, vsim w s -> one_holder s -> vstep lim n w e w' ->
  match e with
  | Some e => exists s', ShmQ_Model.step lim n s e s' /\ vsim w' s'
  | None => vsim w' s
  end.
Proof.
  intros w e w' s Hs X H. destruct s as [sl sc smm sps]. pose proof Hs as [W1 W2 W3 W4 W5].
  inversion H; subst; cbn [v_sys v_bufs lk cnt procs sm] in *; subst.
  - (* quiet *)
    destruct s as [l c m ps]. cbn [lk cnt procs sm] in *.
    destruct (vquiet_mem _ _ _ _ _ _ _ _ H0 H1 H2 H3) as (l' & c' & q & u' & -> & G & HH).
    eexists. split; [apply G|].
    constructor; cbn [v_sys v_bufs lk cnt procs sm]; auto.
    intros i b Hi N. destruct (W4 i b Hi N) as (p' & v' & Hp & Hh). unfold holder. cbn [procs] in *.
    destruct (Nat.eq_dec (qactor e0) i) as [<- | Ne]; [|rewrite nth_error_upd_other by auto; eauto].
    rewrite H2 in Hp. injection Hp as <- <-. rewrite nth_error_upd_same by (apply nth_error_Some; congruence).
    destruct (HH Hh) as [A | A]; [|eauto]. pose proof (eq_trans (eq_sym Hi) (H4 A)) as Q. injection Q as ->.
    exfalso. apply N. reflexivity.
  - (* load *)
    assert (I : holder (mkS l c smm ps) i) by (do 2 eexists; split; [eassumption|reflexivity]).
    assert (C : concat bs = b) by (eapply concat_one; [eassumption|intros; eapply (v_others _ _ _ Hs X I); eauto]).
    rewrite C in W5. eexists. split.
    + eapply ShmQ_Model.SMem; [eassumption|]. apply PLoad. assumption.
    + rewrite W5. constructor; cbn [v_sys v_bufs lk cnt procs sm]; auto.
      * intros j d Hj N. destruct (W4 j d Hj N) as (p' & v' & Hp & Hh). unfold holder. cbn [procs] in *.
        destruct (Nat.eq_dec i j) as [<- | Ne]; [|rewrite nth_error_upd_other by auto; eauto].
        rewrite nth_error_upd_same by (apply nth_error_Some; congruence). do 2 eexists. split; reflexivity.
      * rewrite C. auto.
  - (* store *)
    assert (I : holder (mkS l c smm ps) i) by (do 2 eexists; split; [eassumption|reflexivity]).
    assert (O : forall j c, j <> i -> nth_error bs j = Some c -> c = []) by (intros; eapply (v_others _ _ _ Hs X I); eauto).
    assert (C : concat bs = b) by (eapply concat_one; eauto).
    rewrite C in W5. eexists. split.
    + eapply ShmQ_Model.SMem; [eassumption|]. apply PStore. assumption.
    + constructor; cbn [v_sys v_bufs lk cnt procs sm]; auto.
      * intros j d Hj N. unfold holder. cbn [procs].
        destruct (Nat.eq_dec i j) as [<- | Ne].
        -- rewrite nth_error_upd_same by (apply nth_error_Some; congruence). do 2 eexists. split; reflexivity.
        -- rewrite nth_error_upd_other in Hj by auto. rewrite (O j d) in N; auto. congruence.
      * intros x. rewrite (concat_upd _ _ _ _ H1 O), look_store. unfold mset. destruct (x =? a); auto.
  - (* drain *)
    assert (I : holder (mkS l c smm ps) i) by (eapply W4; eauto; now destruct b1).
    assert (O : forall j c, j <> i -> nth_error bs j = Some c -> c = []) by (intros; eapply (v_others _ _ _ Hs X I); eauto).
    rewrite (concat_one _ _ _ H0 O) in W5.
    constructor; cbn [v_sys v_bufs lk cnt procs sm]; auto.
    + intros j d Hj N. destruct (Nat.eq_dec i j) as [<- | Ne]; auto.
      rewrite nth_error_upd_other in Hj by auto. eauto.
    + intros x. rewrite (concat_upd _ _ _ _ H0 O), <- look_drain by auto. auto.
  - (* death *)
    inversion H1; subst. eexists. split; [eapply SDie; eauto|].
    constructor; cbn [v_sys v_bufs lk cnt procs sm]; auto.
    + intros j d Hj N. destruct (Nat.eq_dec i j) as [<- | Ne].
      { rewrite nth_error_upd_same in Hj by (apply nth_error_Some; congruence). congruence. }
      rewrite nth_error_upd_other in Hj by auto. destruct (W4 j d Hj N) as (p' & v' & Hp & Hh). unfold holder. cbn [procs] in *.
      rewrite nth_error_upd_other by auto. eauto.
    + intros x. destruct b as [|y b].
      * rewrite (upd_id _ _ _ _ H0). rewrite W5. apply look_ext. reflexivity.
      * assert (I : holder (mkS l c smm ps) i) by (eapply W4; eauto; discriminate).
        assert (O : forall j c, j <> i -> nth_error bs j = Some c -> c = []) by (intros; eapply (v_others _ _ _ Hs X I); eauto).
        rewrite (concat_upd _ _ _ _ H0 O), look_nil, <- (concat_one _ _ _ H0 O). auto.
Qed.

Lemma vsim_exec : forall k m0 tr w, vexec lim n k m0 tr w -> (forall e, In e tr -> is_intr e = false) ->
  exists s, ShmQ_Model.exec lim n k m0 tr s /\ vsim w s.
Proof.
  intros k m0 tr w H. induction H as [|tr w e w' H IH St|tr w w' H IH St]; intros F.
  - exists (ShmQ_Model.init k m0). split; [constructor|]. unfold ShmQ_Model.init.
    constructor; cbn [v_sys v_bufs lk cnt procs sm]; auto.
    + intros i b Hi N. apply nth_error_In, repeat_spec in Hi. congruence.
    + intros x. rewrite concat_none; [reflexivity|]. intros j c Hj. apply nth_error_In, repeat_spec in Hj. auto.
  - assert (F' : forall e, In e tr -> is_intr e = false) by (intros e' He; apply F, in_or_app; auto).
    destruct (IH F') as (s & E & S).
    destruct (vsim_step w (Some e) w' s S (ShmQ_Props.C62_lock_excludes_partial _ _ _ _ _ _ E F') St) as (s' & K1 & K2).
    exists s'. split; auto. econstructor; eauto.
  - destruct (IH F) as (s & E & S).
    pose proof (vsim_step w None w' s S (ShmQ_Props.C62_lock_excludes_partial _ _ _ _ _ _ E F) St) as K.
    exists s. auto.
Qed.
End Queue.
