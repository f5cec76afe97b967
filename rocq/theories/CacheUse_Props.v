(** Theorems about pointers into the cache (C125), copies of a cache (C126) and its report
    (C127). *)

From Coq Require Import ZArith List Bool Lia Arith Permutation.
From Verif Require Import Base Cache_Model Cache_Spec Cache_Proof Cache_Props Log_Model Log_Spec Log_Proof CacheUse_Model.
Import ListNotations.
Local Open Scope Z_scope.

(** ** Specification *)

Section Spec.
  Variables K V : Type.
  (** in the history [os] the entry [k] is held when it ends *)
  Definition held (smax tmax : Z) (os : list (op K V)) (k : K) : Prop :=
    forall rs s, srun K V smax tmax [] os rs s -> ~ absent K V k s.
  Definition gone (smax tmax : Z) (os : list (op K V)) (k : K) : Prop :=
    forall rs s, srun K V smax tmax [] os rs s -> absent K V k s.
End Spec.

(** ** Lemmas *)

Lemma bind_inv : forall A B (e : res A) (k : A -> res B) r, bind e k = Ok r -> exists x, e = Ok x /\ k x = Ok r.
Proof. intros A B [x|u|] k r H; cbn in H; try discriminate. eauto. Qed.

Section Lemmas.
  Variables K V : Type.
  Variable eqb : K -> K -> bool.
  Hypothesis eqb_spec : forall a b, eqb a b = true <-> a = b.
  Notation cache := (cache K V).
  Notation hp := (heap K V).

  (** [h'] has no further nodes, and the nodes keep their keys *)
  Definition hsub (h h' : nat -> option (node K V)) : Prop :=
    forall a n', h' a = Some n' -> exists n, h a = Some n /\ n_key K V n' = n_key K V n.
  Lemma hsub_refl : forall h, hsub h h.
  Proof. intros h a n H. eauto. Qed.
  Lemma hsub_trans : forall h1 h2 h3, hsub h1 h2 -> hsub h2 h3 -> hsub h1 h3.
  Proof. intros h1 h2 h3 A B a n H. destruct (B a n H) as (m & Hm & E). destruct (A a m Hm) as (x & Hx & E'). exists x. split; congruence. Qed.
  Lemma upd_sub : forall h p f h', (forall n, n_key K V (f n) = n_key K V n) -> node_upd K V h p f = Ok h' -> hsub h h'.
  Proof.
    intros h p f h' Hf H. unfold node_upd in H. apply bind_inv in H. destruct H as (n & Hn & H).
    destruct p as [a|]; [|discriminate]. injection H as <-. unfold node_at in Hn. destruct (h a) as [m|] eqn:E; [|discriminate].
    injection Hn as ->. intros b n' Hb. unfold hset in Hb. destruct (Nat.eqb_spec b a) as [->|]; [|eauto].
    injection Hb as <-. exists n. auto.
  Qed.

  (** [c'] has no further entries *)
  Definition shrink (c c' : cache) : Prop :=
    (forall k a, find K eqb k (idx K V c') = Some a -> find K eqb k (idx K V c) = Some a) /\
    hsub (hp c) (hp c') /\ fresh K V c' = fresh K V c.
  Lemma shrink_refl : forall c, shrink c c.
  Proof. intros c. split; [auto|]. split; [apply hsub_refl|reflexivity]. Qed.
  Lemma shrink_trans : forall a b c, shrink a b -> shrink b c -> shrink a c.
  Proof.
    intros a b c [A1 [A2 A3]] [B1 [B2 B3]]. split; [auto|]. split; [eapply hsub_trans; eassumption|congruence].
  Qed.
  Lemma shrink_heap : forall c h, hsub (hp c) h -> shrink c (with_heap K V c h).
  Proof. intros c h H. split; [auto|]. split; [exact H|reflexivity]. Qed.
  Lemma shrink_same : forall c c', idx K V c' = idx K V c -> hp c' = hp c -> fresh K V c' = fresh K V c -> shrink c c'.
  Proof. intros c c' A B C. split; [rewrite A; auto|]. split; [rewrite B; apply hsub_refl|exact C]. Qed.

  Lemma shrink_upd : forall c p f h, (forall n, n_key K V (f n) = n_key K V n) -> node_upd K V (hp c) p f = Ok h ->
    shrink c (with_heap K V c h).
  Proof. intros. apply shrink_heap. eapply upd_sub; eassumption. Qed.

  Lemma shrink_erase_node : forall c a c', data_erase K V eqb c a = Ok c' -> shrink c c'.
  Proof.
    intros c a c' H. unfold data_erase in H. apply bind_inv in H. destruct H as (n & Hn & H). injection H as <-.
    split; [|split; [|reflexivity]].
    - cbn [idx]. intros k b Hf. 
      assert (G : forall i, find K eqb k (unindex K eqb (n_key K V n) i) = Some b -> find K eqb k i = Some b).
      { clear -eqb_spec. intros i. induction i as [|[k' x] i IH]; cbn; [discriminate|].
        destruct (eqb (n_key K V n) k') eqn:E.
        - intros H. destruct (eqb k k') eqn:E'; [|auto]. exfalso. apply eqb_spec in E, E'. subst k' k. 
          revert H. clear -eqb_spec. induction i as [|[k' x] i IH]; cbn; [discriminate|].
          destruct (eqb (n_key K V n) k') eqn:E; [exact IH|]. cbn. rewrite E. exact IH.
        - cbn. destruct (eqb k k'); auto. }
      apply G, Hf.
    - cbn [heap]. intros b n' Hb. unfold hset in Hb. destruct (b =? a)%nat; [discriminate|]. eauto.
  Qed.

  Ltac inv H := apply bind_inv in H; let x := fresh "x" in let E := fresh "E" in destruct H as (x & E & H).
  Ltac same := apply shrink_same; reflexivity.

  Lemma shrink_erase_it : forall c it b c', erase_it K V eqb c it = Ok (b, c') -> shrink c c'.
  Proof.
    intros c it b c' H. unfold erase_it in H. destruct it as [a|]; [|injection H as <- <-; apply shrink_refl].
    inv H. inv H.
    assert (S1 : shrink c x0).
    { destruct (n_next K V x); [inv E0; injection E0 as <-; eapply shrink_upd; [|eassumption]; reflexivity|injection E0 as <-; same]. }
    inv H. inv H.
    assert (S2 : shrink x0 x2).
    { destruct (n_prev K V x1); [inv E2; injection E2 as <-; eapply shrink_upd; [|eassumption]; reflexivity|injection E2 as <-; same]. }
    inv H. cbv zeta in H. inv H. injection H as _ <-.
    eapply shrink_trans; [exact S1|]. eapply shrink_trans; [exact S2|].
    eapply shrink_trans; [|eapply shrink_erase_node; eassumption]. same.
  Qed.
  Lemma shrink_drop_one : forall c c', drop_one K V eqb c = Ok c' -> shrink c c'.
  Proof.
    intros c c' H. unfold drop_one in H. inv H. cbv zeta in H. inv H.
    assert (S1 : shrink c x0).
    { cbn [begp with_begp] in E0. destruct (n_next K V x).
      - inv E0. injection E0 as <-. eapply shrink_trans; [apply (shrink_same c (with_begp K V c (Some n))); reflexivity|].
        eapply shrink_upd; [|eassumption]; reflexivity.
      - injection E0 as <-. same. }
    inv H. destruct (begp K V c); [|discriminate]. apply shrink_erase_node in H.
    eapply shrink_trans; [exact S1|]. eapply shrink_trans; [|exact H]. same.
  Qed.
  Lemma shrink_drop : forall c c', drop_last_unused K V eqb c = Ok c' -> shrink c c'.
  Proof.
    intros c c' H. unfold drop_last_unused in H. destruct (begp K V c); [|injection H as <-; apply shrink_refl].
    generalize dependent (S (length (idx K V c))). intros m H. revert c H. induction m as [|m IH]; intros c H; cbn [drop_loop] in H;
      (destruct (negb _); [injection H as <-; apply shrink_refl|]); [discriminate|].
    inv H. eapply shrink_trans; [eapply shrink_drop_one; eassumption|]. apply IH. exact H.
  Qed.
  Lemma shrink_refill : forall c a v sz now upd c', refill K V c a v sz now upd = Ok c' -> shrink c c'.
  Proof.
    intros c a v sz now upd c' H. unfold refill in H. inv H. cbv zeta in H. inv H. inv H. inv H.
    apply upd_sub in E0; [|reflexivity]. apply upd_sub in E1; [|reflexivity]. cbn [heap with_size] in *.
    assert (Sx : hsub (hp c) x1) by (eapply hsub_trans; eassumption).
    destruct upd.
    - inv H. injection H as <-. apply upd_sub in E3; [|reflexivity]. cbn in E3.
      split; [auto|]. split; [cbn; eapply hsub_trans; eassumption|reflexivity].
    - injection H as <-. split; [auto|]. split; [exact Sx|reflexivity].
  Qed.
  Lemma shrink_move : forall c a c', move_back K V c a = Ok c' -> shrink c c'.
  Proof.
    intros c a c' H. unfold move_back in H. inv H. destruct (n_next K V x); [|injection H as <-; apply shrink_refl].
    inv H. cbv zeta in H. inv H. inv H.
    assert (S1 : shrink c (with_heap K V c x0)) by (eapply shrink_upd; [|eassumption]; reflexivity).
    assert (S2 : shrink (with_heap K V c x0) x2).
    { destruct (n_prev K V x1); [inv E2; injection E2 as <-; eapply shrink_upd; [|eassumption]; reflexivity|injection E2 as <-; same]. }
    inv H. inv H. inv H. injection H as <-.
    apply upd_sub in E3; [|reflexivity]. apply upd_sub in E4; [|reflexivity]. apply upd_sub in E5; [|reflexivity].
    eapply shrink_trans; [exact S1|]. eapply shrink_trans; [exact S2|].
    split; [auto|]. split; [|reflexivity]. cbn [heap with_endp with_heap]. eapply hsub_trans; [exact E3|]. eapply hsub_trans; eassumption.
  Qed.
  Lemma shrink_fill : forall c a v sz c', fill_new K V c a v sz = Ok c' -> shrink c c'.
  Proof.
    intros c a v sz c' H. unfold fill_new in H. inv H. inv H. cbv zeta in H. inv H. injection H as <-.
    apply upd_sub in E; [|reflexivity]. apply upd_sub in E0; [|reflexivity].
    split; [auto|]. split; [|reflexivity]. cbn. eapply hsub_trans; eassumption.
  Qed.

  (** what one call does to the addresses *)
  Definition steady (c c' : cache) : Prop :=
    (forall k a, find K eqb k (idx K V c) = Some a -> find K eqb k (idx K V c') = Some a \/ find K eqb k (idx K V c') = None) /\
    (forall a n', hp c' a = Some n' -> (fresh K V c <= a)%nat \/ exists n, hp c a = Some n /\ n_key K V n' = n_key K V n) /\
    (fresh K V c <= fresh K V c')%nat.
  Lemma shrink_steady : forall c c', shrink c c' -> steady c c'.
  Proof.
    intros c c' [A [B C]]. split; [|split; [|lia]].
    - intros k a H. destruct (find K eqb k (idx K V c')) as [b|] eqn:E; [left|right; reflexivity]. apply A in E. congruence.
    - intros a n' H. right. apply B, H.
  Qed.
  Lemma link_steady : forall c k now c', find K eqb k (idx K V c) = None -> link_new K V c k now = Ok c' ->
    (forall k' a, find K eqb k' (idx K V c) = Some a -> find K eqb k' (idx K V c') = Some a) /\
    (forall a n', hp c' a = Some n' -> (fresh K V c <= a)%nat \/ exists n, hp c a = Some n /\ n_key K V n' = n_key K V n) /\
    (fresh K V c <= fresh K V c')%nat.
  Proof.
    intros c k now c' Hk H. unfold link_new in H. cbv zeta in H. cbn [heap endp] in H. inv H. inv H. injection H as <-.
    apply upd_sub in E; [|reflexivity].
    assert (Sx : hsub x x0).
    { destruct (endp K V c); [eapply upd_sub; [|eassumption]; reflexivity|injection E0 as <-; apply hsub_refl]. }
    match goal with |- context [match ?b with Some _ => ?u | None => ?w end] =>
      assert (I : idx K V (match b with Some _ => u | None => w end) = (k, fresh K V c) :: idx K V c) by (destruct b; reflexivity);
      assert (Hh : hp (match b with Some _ => u | None => w end) = x0) by (destruct b; reflexivity);
      assert (F : fresh K V (match b with Some _ => u | None => w end) = S (fresh K V c)) by (destruct b; reflexivity) end.
    rewrite I, Hh, F. split; [|split; [|lia]].
    - intros k' a Hf. cbn [find]. destruct (eqb k' k) eqn:Ek; [|exact Hf]. apply eqb_spec in Ek. subst. congruence.
    - intros a n' Ha. destruct (Sx _ _ Ha) as (n1 & H1 & K1). destruct (E _ _ H1) as (n2 & H2 & K2).
      unfold hset in H2. destruct (Nat.eqb_spec a (fresh K V c)) as [->|]; [left; lia|]. right. exists n2. split; congruence.
  Qed.
  Lemma set_steady : forall c k v sz upd now c', set K V eqb c k v sz upd now = Ok c' -> steady c c'.
  Proof.
    intros c k v sz upd now c' H. unfold set in H. destruct (find K eqb k (idx K V c)) as [a|] eqn:Ek.
    - inv H. apply shrink_steady. eapply shrink_trans; [eapply shrink_move; eassumption|eapply shrink_refill; eassumption].
    - inv H. inv H. destruct (link_steady _ _ _ _ Ek E) as (A & B & C).
      destruct (shrink_trans _ _ _ (shrink_fill _ _ _ _ _ E0) (shrink_drop _ _ H)) as (A' & B' & C').
      split; [|split; [|lia]].
      + intros k' b Hf. apply A in Hf. destruct (find K eqb k' (idx K V c')) as [d|] eqn:Ed; [left|right; reflexivity].
        apply A' in Ed. congruence.
      + intros b n' Hb. destruct (B' _ _ Hb) as (n1 & H1 & K1). destruct (B _ _ H1) as [L|(n2 & H2 & K2)]; [left; exact L|right].
        exists n2. split; congruence.
  Qed.
  Lemma get_shrink : forall c k now r c', get K V eqb c k now = Ok (r, c') -> shrink c c'.
  Proof.
    intros c k now r c' H. unfold get in H. destruct (find K eqb k (idx K V c)) as [a|]; [|injection H as _ <-; apply shrink_refl].
    inv H. destruct (_ && _).
    - apply bind_inv in H. destruct H as ((b & c1) & E1 & H). injection H as _ <-. eapply shrink_erase_it; exact E1.
    - destruct (n_elem K V x); [injection H as _ <-; apply shrink_refl|discriminate].
  Qed.
  Lemma step_steady : forall c o r c', step K V eqb c o = Ok (r, c') -> steady c c'.
  Proof.
    intros c o r c' H. destruct o as [k now|k v sz upd now|k]; cbn [step] in H.
    - apply bind_inv in H. destruct H as ((v & c1) & E & H). injection H as _ <-. apply shrink_steady. eapply get_shrink; exact E.
    - inv H. injection H as _ <-. eapply set_steady; exact E.
    - apply bind_inv in H. destruct H as ((v & c1) & E & H). injection H as _ <-. apply shrink_steady.
      unfold erase in E. eapply shrink_erase_it; exact E.
  Qed.
End Lemmas.

Section Pointers.
  Variables K V : Type.
  Variable eqb : K -> K -> bool.
  Hypothesis eqb_spec : forall a b, eqb a b = true <-> a = b.
  Notation rep := (rep K V eqb).
  Notation mk := (mk K V).

  Lemma rep_deref : forall c l a e, rep c l -> In (a, e) l -> deref K V c a = Ok (e_val K V e).
  Proof.
    intros c l a e R H. destruct R as [D _]. destruct (dseg_in K V eqb eqb_spec _ _ _ _ _ _ D H) as (p & q & E).
    unfold deref, node_at. rewrite E. reflexivity.
  Qed.
  Lemma rep_present : forall c l k, rep c l -> ~ absent K V k (map snd l) -> find K eqb k (idx K V c) <> None.
  Proof. intros c l k R H E. apply H. eapply rep_absent; eassumption. Qed.
  Lemma rep_gone : forall c l k, rep c l -> absent K V k (map snd l) -> find K eqb k (idx K V c) = None.
  Proof.
    intros c l k R H. destruct (find K eqb k (idx K V c)) as [a|] eqn:E; [|reflexivity]. exfalso.
    destruct R as [_ [_ [_ [_ [_ [Hf _]]]]]]. apply Hf in E. destruct E as (e & Hin & Hk).
    apply (H e); [|exact Hk]. apply (in_map snd) in Hin. exact Hin.
  Qed.

  (** [get] and the pointer agree *)
  Lemma ptr_get : forall c l k now r c', rep c l -> get K V eqb c k now = Ok (r, c') ->
    exists p, get_ptr K V eqb c k now = Ok (p, c') /\
      match p with
      | Some a => c' = c /\ find K eqb k (idx K V c') = Some a /\ exists v, r = Some v /\ deref K V c' a = Ok v
      | None => r = None
      end.
  Proof.
    intros c l k now r c' R H. unfold get, get_ptr in *. destruct (find K eqb k (idx K V c)) as [a|] eqn:E.
    - apply bind_inv in H. destruct H as (n & En & H). rewrite En. cbn [bind].
      destruct (negb (time_max K V c =? 0) && (szt (n_time K V n + time_max K V c) <? szt now)).
      + apply bind_inv in H. destruct H as ((b & c1) & E1 & H). rewrite E1. cbn [bind]. injection H as <- <-. exists None. auto.
      + destruct (n_elem K V n) as [v|] eqn:Ev; [|discriminate]. injection H as <- <-. exists (Some a).
        split; [reflexivity|]. split; [reflexivity|]. split; [exact E|]. exists v. split; [reflexivity|].
        unfold deref. rewrite En. cbn [bind]. rewrite Ev. reflexivity.
    - injection H as <- <-. exists None. auto.
  Qed.

  (** the address [a] has been freed *)
  Definition freed (c : cache K V) (a : nat) : Prop := (a < fresh K V c)%nat /\ heap K V c a = None.
  Lemma freed_step : forall c o r c' a, step K V eqb c o = Ok (r, c') -> freed c a -> freed c' a.
  Proof.
    intros c o r c' a H [L F]. destruct (step_steady K V eqb eqb_spec c o r c' H) as (_ & B & C).
    split; [lia|]. destruct (heap K V c' a) as [n|] eqn:E; [|reflexivity]. exfalso.
    destruct (B a n E) as [G|(m & Hm & _)]; [lia|congruence].
  Qed.
  Lemma freed_run : forall os c rs c' a, run K V eqb c os = Ok (rs, c') -> freed c a -> freed c' a.
  Proof.
    induction os as [|o os IH]; intros c rs c' a H F; cbn [run] in H; [injection H as _ <-; exact F|].
    apply bind_inv in H. destruct H as ((r & c1) & E & H). apply bind_inv in H. destruct H as ((rs1 & c2) & E2 & H).
    injection H as _ <-. eapply IH; [exact E2|]. eapply freed_step; eassumption.
  Qed.
  Lemma freed_deref : forall c a, freed c a -> deref K V c a = Ub UseAfterFree.
  Proof. intros c a [_ F]. unfold deref, node_at. rewrite F. reflexivity. Qed.

  (** the entry of [k] leaves the cache in a step: its node is freed *)
  Lemma leaves_step : forall c l k a o r c' l', rep c l -> find K eqb k (idx K V c) = Some a ->
    step K V eqb c o = Ok (r, c') -> rep c' l' -> find K eqb k (idx K V c') = None -> freed c' a.
  Proof.
    intros c l k a o r c' l' R Hf H R' Hg. destruct (step_steady K V eqb eqb_spec c o r c' H) as (_ & B & C).
    destruct (rep_find K V eqb eqb_spec c l k a R Hf) as (pre & e & post & -> & Hk & Ha).
    assert (L : (a < fresh K V c)%nat).
    { destruct R as [_ [_ [_ [_ [_ [_ [_ [Hfr _]]]]]]]]. apply Hfr. unfold addrs. rewrite map_app. apply in_or_app. right. left. reflexivity. }
    split; [lia|]. destruct (heap K V c' a) as [n|] eqn:E; [|reflexivity]. exfalso.
    destruct (B a n E) as [G|(m & Hm & Hkey)]; [lia|]. rewrite Ha in Hm. injection Hm as <-. cbn in Hkey. rewrite Hk in Hkey.
    pose proof R' as R2. destruct R2 as [D [_ [_ [_ [_ [Hfd [Hl _]]]]]]].
    assert (I : In a (addrs K V l')) by (apply Hl; congruence).
    unfold addrs in I. apply in_map_iff in I. destruct I as ((a' & e') & X & I). cbn in X. subst a'.
    destruct (dseg_in K V eqb eqb_spec _ _ _ _ _ _ D I) as (p & q & E2). rewrite E in E2. injection E2 as ->. cbn in Hkey.
    assert (F : find K eqb k (idx K V c') = Some a) by (apply Hfd; eauto). congruence.
  Qed.

  Notation times_ok := (times_ok K V).

  (** C125: the pointer that [get] returns is good as long as its entry stays in the cache,
      whatever else is stored, looked up, erased or evicted meanwhile; it shows the value
      stored last.  From the moment the entry is erased, evicted, or found to be too old by
      another [get], it dangles, even if the key is stored again. *)
  Theorem C125_pointers : forall smax tmax os1 k now os2,
    0 <= smax < 2 ^ 64 -> 0 <= tmax <= 2 ^ 63 -> Forall (op_ok K V) (os1 ++ OGet K V k now :: os2) ->
    fits K V smax tmax [] (os1 ++ OGet K V k now :: os2) ->
    exists rs1 c1 p c2 rs2 c3 rs s3,
      run K V eqb (create K V smax tmax) os1 = Ok (rs1, c1) /\
      get_ptr K V eqb c1 k now = Ok (p, c2) /\
      run K V eqb c2 os2 = Ok (rs2, c3) /\
      srun K V smax tmax [] (os1 ++ OGet K V k now :: os2) rs s3 /\
      forall a, p = Some a ->
        ((forall os os', os2 = os ++ os' -> held K V smax tmax (os1 ++ OGet K V k now :: os) k) ->
           exists e, In e s3 /\ e_key K V e = k /\ deref K V c3 a = Ok (e_val K V e)) /\
        ((exists os os', os2 = os ++ os' /\ gone K V smax tmax (os1 ++ OGet K V k now :: os) k) ->
           deref K V c3 a = Ub UseAfterFree).
  Proof.
    intros smax tmax os1 k now os2 Hm Ht Ho Hf.
    apply Forall_app in Ho. destruct Ho as [Ho1 Ho]. inversion Ho as [|? ? Hog Ho2]; subst.
    assert (Hf1 : fits K V smax tmax [] os1).
    { intros o1 k1 v1 sz1 u1 n1 o2 rs s' -> R. apply (Hf o1 k1 v1 sz1 u1 n1 (o2 ++ OGet K V k now :: os2) rs s'); [|exact R].
      rewrite <- app_assoc. reflexivity. }
    destruct (run_ok K V eqb eqb_spec os1 (create K V smax tmax) [] (create_rep K V eqb smax tmax) Ho1 ltac:(constructor)
                ltac:(cbn; lia) ltac:(cbn; lia) Hf1) as [rs1 [c1 [l1 [E1 [R1 [M1 [M2 [T1 S1]]]]]]]].
    cbn [create size_max time_max map] in *.
    destruct (step_ok K V eqb eqb_spec c1 l1 (OGet K V k now) R1 Hog T1 ltac:(lia) ltac:(lia)) as [r [c2 [l2 [E2 [R2 [M3 [M4 S2]]]]]]].
    { intros; discriminate. }
    pose proof (times_step K V _ _ _ _ _ _ S2 Hog T1) as T2.
    cbn [step] in E2. apply bind_inv in E2. destruct E2 as ((v & c2') & E2 & X). injection X as <- ->.
    destruct (ptr_get c1 l1 k now v c2 R1 E2) as (p & Ep & Hp).
    rewrite M1, M2 in S2.
    assert (S12 : srun K V smax tmax [] (os1 ++ [OGet K V k now]) (rs1 ++ [RGet V v]) (map snd l2)).
    { eapply (srun_snoc K V); eassumption. }
    (* the rest of the history, from any state reached *)
    assert (G : forall os' os c l rsa, os2 = os ++ os' -> rep c l -> times_ok (map snd l) -> size_max K V c = smax -> time_max K V c = tmax ->
      srun K V smax tmax [] (os1 ++ OGet K V k now :: os) rsa (map snd l) ->
      exists rs2 c3 l3 rsb, run K V eqb c os' = Ok (rs2, c3) /\ rep c3 l3 /\
        srun K V smax tmax [] (os1 ++ OGet K V k now :: os2) rsb (map snd l3) /\
        forall a, find K eqb k (idx K V c) = Some a ->
          ((forall o o', os' = o ++ o' -> held K V smax tmax (os1 ++ OGet K V k now :: os ++ o) k) -> find K eqb k (idx K V c3) = Some a) /\
          ((exists o o', os' = o ++ o' /\ gone K V smax tmax (os1 ++ OGet K V k now :: os ++ o) k) -> freed c3 a)).
    { induction os' as [|o os' IH]; intros os c l rsa Eo R T Ms Mt S.
      - rewrite app_nil_r in Eo. subst os. exists [], c, l, rsa. split; [reflexivity|]. split; [exact R|]. split; [exact S|].
        intros a Ha. split; [auto|]. intros (o & o' & X & Hg). symmetry in X. apply app_eq_nil in X. destruct X as [-> ->].
        rewrite app_nil_r in Hg. apply Hg in S. rewrite (rep_gone c l k R S) in Ha. discriminate.
      - assert (Hop : op_ok K V o).
        { rewrite Eo in Ho2. apply Forall_app in Ho2. destruct Ho2 as [_ Ho2]. inversion Ho2; assumption. }
        destruct (step_ok K V eqb eqb_spec c l o R Hop T ltac:(lia) ltac:(lia)) as [r1 [c' [l' [E' [R' [N1 [N2 S']]]]]]].
        { intros k1 v1 sz1 u1 n1 ->. apply (Hf (os1 ++ OGet K V k now :: os) k1 v1 sz1 u1 n1 os' rsa (map snd l)); [|exact S].
          rewrite Eo, <- app_assoc. reflexivity. }
        pose proof (times_step K V _ _ _ _ _ _ S' Hop T) as T'. rewrite Ms, Mt in S'.
        assert (Sn : srun K V smax tmax [] (os1 ++ OGet K V k now :: os ++ [o]) (rsa ++ [r1]) (map snd l')).
        { replace (os1 ++ OGet K V k now :: os ++ [o]) with ((os1 ++ OGet K V k now :: os) ++ [o]) by (rewrite <- app_assoc; reflexivity).
          eapply (srun_snoc K V); eassumption. }
        assert (Eo' : os2 = (os ++ [o]) ++ os') by (rewrite Eo, <- app_assoc; reflexivity).
        destruct (IH (os ++ [o]) c' l' (rsa ++ [r1]) Eo' R' T' ltac:(congruence) ltac:(congruence) Sn)
          as (rs2 & c3 & l3 & rsb & Er & R3 & S3 & H3).
        exists (r1 :: rs2), c3, l3, rsb. cbn [run]. rewrite E'. cbn [bind]. rewrite Er. cbn [bind].
        split; [reflexivity|]. split; [exact R3|]. split; [exact S3|].
        intros a Ha. destruct (step_steady K V eqb eqb_spec c o r1 c' E') as (St & _ & _). split.
        + intros Hh.
          assert (Hc' : find K eqb k (idx K V c') = Some a).
          { destruct (St k a Ha) as [X|X]; [exact X|]. exfalso.
            apply (Hh [o] os' eq_refl (rsa ++ [r1]) (map snd l') Sn). eapply rep_absent; eassumption. }
          apply (proj1 (H3 a Hc')). intros o1 o2 ->.
          specialize (Hh (o :: o1) o2 eq_refl). replace ((os ++ [o]) ++ o1) with (os ++ o :: o1) by (rewrite <- app_assoc; reflexivity).
          exact Hh.
        + intros (o1 & o2 & X & Hg). destruct o1 as [|x o1].
          * exfalso. rewrite app_nil_r in Hg. apply Hg in S. rewrite (rep_gone c l k R S) in Ha. discriminate.
          * cbn [app] in X. injection X as <- ->.
            destruct (St k a Ha) as [Hc'|Hc'].
            -- apply (proj2 (H3 a Hc')). exists o1, o2. split; [reflexivity|].
               replace ((os ++ [o]) ++ o1) with (os ++ o :: o1) by (rewrite <- app_assoc; reflexivity). exact Hg.
            -- eapply freed_run; [exact Er|]. exact (leaves_step c l k a o r1 c' l' R Ha E' R' Hc'). }
    destruct (G os2 [] c2 l2 (rs1 ++ [RGet V v]) eq_refl R2 T2 ltac:(congruence) ltac:(congruence) S12)
      as (rs2 & c3 & l3 & rsb & Er & R3 & S3 & H3).
    exists rs1, c1, p, c2, rs2, c3, rsb, (map snd l3). split; [exact E1|]. split; [exact Ep|]. split; [exact Er|]. split; [exact S3|].
    intros a ->. destruct Hp as (_ & Hfa & _). destruct (H3 a Hfa) as [Ha Hb]. split.
    - intros Hh. specialize (Ha Hh). pose proof R3 as R4. destruct R4 as [_ [_ [_ [_ [_ [Hfd _]]]]]]. apply Hfd in Ha.
      destruct Ha as (e & Hin & Hk). exists e. split; [exact (in_map snd _ _ Hin)|]. split; [exact Hk|]. eapply rep_deref; eassumption.
    - intros Hg. apply freed_deref, Hb, Hg.
  Qed.

  (** C125: the pointer shows what [get] answers, and there is one exactly when there is an
      answer. *)
  Theorem C125_same_as_get : forall smax tmax os k now,
    0 <= smax < 2 ^ 64 -> 0 <= tmax <= 2 ^ 63 -> Forall (op_ok K V) os -> 0 <= now < 2 ^ 63 ->
    fits K V smax tmax [] os ->
    exists rs c p r c', run K V eqb (create K V smax tmax) os = Ok (rs, c) /\
      get_ptr K V eqb c k now = Ok (p, c') /\ get K V eqb c k now = Ok (r, c') /\
      (forall v, r = Some v <-> exists a, p = Some a /\ deref K V c' a = Ok v).
  Proof.
    intros smax tmax os k now Hm Ht Ho Hn Hf.
    destruct (run_ok K V eqb eqb_spec os (create K V smax tmax) [] (create_rep K V eqb smax tmax) Ho ltac:(constructor)
                ltac:(cbn; lia) ltac:(cbn; lia) Hf) as [rs [c [l [E [R [M1 [M2 [T S]]]]]]]].
    cbn [create size_max time_max map] in *.
    destruct (step_ok K V eqb eqb_spec c l (OGet K V k now) R Hn T ltac:(lia) ltac:(lia)) as [r [c2 [l2 [E2 [R2 _]]]]].
    { intros; discriminate. }
    cbn [step] in E2. apply bind_inv in E2. destruct E2 as ((v & c2') & E2 & X). injection X as <- ->.
    destruct (ptr_get c l k now v c2 R E2) as (p & Ep & Hp).
    exists rs, c, p, v, c2. split; [exact E|]. split; [exact Ep|]. split; [exact E2|].
    intros w. destruct p as [a|].
    - destruct Hp as (_ & _ & u & -> & D). split.
      + intros X. injection X as <-. eauto.
      + intros (b & X & D2). injection X as <-. congruence.
    - subst v. split; [discriminate|]. intros (b & X & _). discriminate.
  Qed.

  (** C125: a value may be passed to [set] where it lies in the cache, c.set(k, c.get(k2)): it
      is read before anything is evicted, so the result is as with a copy of it. *)
  Theorem C125_set_by_reference : forall smax tmax os k now a c' k2 sz upd t rs c,
    0 <= smax < 2 ^ 64 -> 0 <= tmax <= 2 ^ 63 -> Forall (op_ok K V) os -> 0 <= now < 2 ^ 63 ->
    fits K V smax tmax [] os ->
    run K V eqb (create K V smax tmax) os = Ok (rs, c) -> get_ptr K V eqb c k now = Ok (Some a, c') ->
    exists v, deref K V c' a = Ok v /\ set_ref K V eqb c' k2 a sz upd t = set K V eqb c' k2 v sz upd t.
  Proof.
    intros smax tmax os k now a c' k2 sz upd t rs c Hm Ht Ho Hn Hf E0 Ep0.
    destruct (run_ok K V eqb eqb_spec os (create K V smax tmax) [] (create_rep K V eqb smax tmax) Ho ltac:(constructor)
                ltac:(cbn; lia) ltac:(cbn; lia) Hf) as [rs' [c0 [l [E [R [M1 [M2 [T S]]]]]]]].
    rewrite E0 in E. injection E as <- <-. cbn [create size_max time_max map] in *.
    destruct (step_ok K V eqb eqb_spec c l (OGet K V k now) R Hn T ltac:(lia) ltac:(lia)) as [r [c2 [l2 [E2 [R2 _]]]]].
    { intros; discriminate. }
    cbn [step] in E2. apply bind_inv in E2. destruct E2 as ((v & c2') & E2 & X). injection X as <- ->.
    destruct (ptr_get c l k now v c2 R E2) as (p & Ep & Hp). rewrite Ep0 in Ep. injection Ep as <- ->.
    destruct Hp as (-> & Hfa & u & -> & D). exists u. split; [exact D|].
    destruct (rep_find K V eqb eqb_spec c l k a R Hfa) as (pre & e & post & -> & Hk & Ha).
    assert (u = e_val K V e) as -> by (unfold deref, node_at in D; rewrite Ha in D; cbn in D; congruence).
    unfold set_ref, set. destruct (find K eqb k2 (idx K V c)) as [b|] eqn:Eb.
    - destruct (rep_find K V eqb eqb_spec c _ k2 b R Eb) as (pre2 & e2 & post2 & Es & Hk2 & Ha2). rewrite Es in R.
      destruct (move_back_ok K V eqb eqb_spec _ _ _ _ _ R) as [c1 [E1 [R5 _]]]. rewrite E1. cbn [bind].
      assert (I : In (a, e) ((pre2 ++ post2) ++ [(b, e2)])).
      { assert (I : In (a, e) (pre ++ (a, e) :: post)) by (apply in_or_app; right; left; reflexivity). rewrite Es in I.
        apply in_app_or in I. apply in_or_app. destruct I as [I|[I|I]].
        - left. apply in_or_app. auto.
        - right. left. exact I.
        - left. apply in_or_app. auto. }
      rewrite (rep_deref _ _ _ _ R5 I). reflexivity.
    - (* only the last node is changed, and only its link *)
      assert (La : (a < fresh K V c)%nat).
      { destruct R as [_ [_ [_ [_ [_ [_ [_ [Hfr _]]]]]]]]. apply Hfr. unfold addrs. rewrite map_app. apply in_or_app. right. left. reflexivity. }
      destruct (link_new K V c k2 t) as [c1|ub|] eqn:El; [|reflexivity|reflexivity]. cbn [bind].
      assert (Dk : deref K V c1 a = Ok (e_val K V e)); [|rewrite Dk; reflexivity].
      unfold link_new in El. cbv zeta in El. cbn [heap endp] in El.
      unfold node_upd at 1, node_at at 1 in El. rewrite (hset_same K V eqb eqb_spec) in El. cbn [bind] in El.
      match type of El with bind (match _ with Some _ => node_upd K V ?h _ _ | None => _ end) _ = _ => set (h1 := h) in El end.
      assert (H1 : h1 a = Some (mk e (lastp K V pre None) (first K V post None))).
      { unfold h1. rewrite !(hset_other K V eqb eqb_spec) by lia. exact Ha. }
      clearbody h1. apply bind_inv in El. destruct El as (h2 & E3 & El).
      assert (H2 : exists n, h2 a = Some n /\ n_elem K V n = Some (e_val K V e)).
      { destruct (endp K V c) as [z|]; [|injection E3 as <-; eexists; split; [exact H1|reflexivity]].
        unfold node_upd, node_at in E3. destruct (h1 z) as [nz|] eqn:Ez; [|discriminate]. cbn [bind] in E3. injection E3 as <-.
        unfold hset. destruct (Nat.eqb_spec a z) as [->|]; [|eexists; split; [exact H1|reflexivity]].
        eexists. split; [reflexivity|]. rewrite H1 in Ez. injection Ez as <-. reflexivity. }
      destruct H2 as (n & H2 & Hn2). injection El as <-. unfold deref, node_at.
      match goal with |- context [heap K V (match ?b with Some _ => ?u | None => ?w end)] =>
        replace (heap K V (match b with Some _ => u | None => w end)) with h2 by (destruct b; reflexivity) end.
      rewrite H2. cbn [bind]. rewrite Hn2. reflexivity.
  Qed.
End Pointers.

(** ** The history determines the state *)
Section Deterministic.
  Variables K V : Type.
  Variable eqb : K -> K -> bool.
  Hypothesis eqb_spec : forall a b, eqb a b = true <-> a = b.
  Notation key := (e_key K V).

  Lemma split_unique : forall a e b a' e' b', NoDup (map key (a ++ e :: b)) -> a ++ e :: b = a' ++ e' :: b' ->
    key e = key e' -> a = a' /\ e = e' /\ b = b'.
  Proof.
    induction a as [|x a IH]; intros e b [|x' a'] e' b' N E Hk; cbn in E, N.
    - injection E as -> ->. auto.
    - exfalso. injection E as -> ->. inversion N as [|? ? Hn _]; subst. apply Hn. rewrite map_app. apply in_or_app. right. left. auto.
    - exfalso. injection E as -> <-. inversion N as [|? ? Hn _]; subst. apply Hn. rewrite map_app. apply in_or_app. right. left. auto.
    - injection E as -> E. inversion N; subst. destruct (IH _ _ _ _ _ ltac:(eassumption) E Hk) as (-> & -> & ->). auto.
  Qed.
  Lemma absent_split : forall k a e b, absent K V k (a ++ e :: b) -> key e = k -> False.
  Proof. intros k a e b H E. apply (H e); [apply in_or_app; right; left; reflexivity|exact E]. Qed.

  Lemma evict_det : forall smax s s1 s2, evict K V smax s s1 -> evict K V smax s s2 -> s1 = s2.
  Proof.
    intros smax s s1 s2 (n & -> & T1 & M1) (m & -> & T2 & M2).
    destruct (Nat.lt_trichotomy n m) as [L|[->|L]]; [|reflexivity|].
    - specialize (M2 n L). lia.
    - specialize (M1 m L). lia.
  Qed.
  Lemma sstep_det : forall smax tmax s o r1 s1 r2 s2, NoDup (map key s) -> sstep K V smax tmax s o r1 s1 ->
    sstep K V smax tmax s o r2 s2 -> r1 = r2 /\ s1 = s2.
  Proof.
    intros smax tmax s o r1 s1 r2 s2 N H1 H2. inversion H1 as [? ? ? ? ? G1|? ? ? ? ? ? ? G1|? ? ? ? G1]; subst;
      inversion H2 as [? ? ? ? ? G2|? ? ? ? ? ? ? G2|? ? ? ? G2]; subst; inversion G1; subst; inversion G2; subst; auto;
      try (exfalso; eapply absent_split; [eassumption|]; congruence);
      try (match goal with X : ?a ++ ?e :: ?b = ?c ++ ?d :: ?f |- _ => 
             destruct (split_unique a e b c d f) as (-> & -> & ->); [assumption || (rewrite X; assumption)|exact X|congruence|] end); 
      try (match goal with X : ?a ++ ?e :: ?b = ?c ++ ?d :: ?f |- _ => 
             destruct (split_unique a e b c d f) as (-> & <- & ->); [assumption || (rewrite X; assumption)|exact X|congruence|] end); 
      auto; try contradiction.
    split; [reflexivity|]. eapply evict_det; eassumption.
  Qed.

  Lemma srun_det : forall smax tmax os r1 s1 r2 s2, srun K V smax tmax [] os r1 s1 -> srun K V smax tmax [] os r2 s2 ->
    r1 = r2 /\ s1 = s2.
  Proof.
    intros smax tmax os. induction os as [|o os IH] using rev_ind; intros r1 s1 r2 s2 H1 H2.
    - inversion H1; subst. inversion H2; subst. auto.
    - destruct (srun_snoc_inv K V _ _ _ _ _ _ _ H1) as (q1 & x1 & t1 & -> & S1 & P1).
      destruct (srun_snoc_inv K V _ _ _ _ _ _ _ H2) as (q2 & x2 & t2 & -> & S2 & P2).
      destruct (IH _ _ _ _ S1 S2) as (-> & ->).
      destruct (origin_run K V _ _ _ _ _ _ S2 [] ltac:(constructor) ltac:(intros e [])) as [N _].
      destruct (sstep_det _ _ _ _ _ _ _ _ N P1 P2) as (-> & ->). auto.
  Qed.

  (** C125: at every point of a history the entry is either held or gone, so that
      [C125_pointers] covers every history. *)
  Theorem C125_held_or_gone : forall smax tmax os k,
    0 <= smax < 2 ^ 64 -> 0 <= tmax <= 2 ^ 63 -> Forall (op_ok K V) os -> fits K V smax tmax [] os ->
    (held K V smax tmax os k /\ ~ gone K V smax tmax os k) \/ (gone K V smax tmax os k /\ ~ held K V smax tmax os k).
  Proof.
    intros smax tmax os k Hm Ht Ho Hf.
    destruct (run_ok K V eqb eqb_spec os (create K V smax tmax) [] (create_rep K V eqb smax tmax) Ho ltac:(constructor)
                ltac:(cbn; lia) ltac:(cbn; lia) Hf) as [rs [c [l [E [R [M1 [M2 [T S]]]]]]]].
    cbn [create size_max time_max map] in *.
    assert (D : absent K V k (map snd l) \/ ~ absent K V k (map snd l)).
    { destruct (find K eqb k (idx K V c)) as [a|] eqn:F.
      - right. intros A. rewrite (rep_gone K V eqb c l k R A) in F. discriminate.
      - left. eapply rep_absent; eassumption. }
    destruct D as [D|D]; [right|left]; (split; [intros rs' s' S'; destruct (srun_det _ _ _ _ _ _ _ S' S) as (_ & ->); exact D|]).
    - intros H. exact (H _ _ S D).
    - intros H. exact (D (H _ _ S)).
  Qed.
End Deterministic.

(** ** Copies *)

Section Copies.
  Variables K V : Type.
  Variable eqb : K -> K -> bool.
  Hypothesis eqb_spec : forall a b, eqb a b = true <-> a = b.
  Notation rep := (rep K V eqb).

  Lemma reach : forall smax tmax os rs c,
    0 <= smax < 2 ^ 64 -> 0 <= tmax <= 2 ^ 63 -> Forall (op_ok K V) os -> fits K V smax tmax [] os ->
    run K V eqb (create K V smax tmax) os = Ok (rs, c) ->
    exists l, rep c l /\ srun K V smax tmax [] os rs (map snd l) /\ size_max K V c = smax /\ time_max K V c = tmax.
  Proof.
    intros smax tmax os rs c Hm Ht Ho Hf E.
    destruct (run_ok K V eqb eqb_spec os (create K V smax tmax) [] (create_rep K V eqb smax tmax) Ho ltac:(constructor)
                ltac:(cbn; lia) ltac:(cbn; lia) Hf) as [rs' [c' [l [E' [R [M1 [M2 [T S]]]]]]]].
    rewrite E in E'. injection E' as <- <-. cbn in *. exists l. auto.
  Qed.

  Lemma find_snd : forall k (i : list (K * nat)) a, find K eqb k i = Some a -> In a (map snd i).
  Proof.
    intros k i a. induction i as [|[k' x] i IH]; cbn; [discriminate|]. destruct (eqb k k'); [|auto]. intros H. injection H as ->. auto.
  Qed.
  Lemma in_find : forall (i : list (K * nat)) k a, NoDup (map fst i) -> In (k, a) i -> find K eqb k i = Some a.
  Proof.
    intros i k a. induction i as [|[k' x] i IH]; cbn; [contradiction|]. intros N [E|H].
    - injection E as -> ->. rewrite (proj2 (eqb_spec k k) eq_refl). reflexivity.
    - inversion N as [|? ? Hn N']; subst. destruct (eqb k k') eqn:E; [|auto]. apply eqb_spec in E. subst k'.
      exfalso. apply Hn. exact (in_map fst _ _ H).
  Qed.

  (** the nodes are copied to new addresses, in order, and no node is changed *)
  Lemma copy_nodes_ok : forall i h f, (forall k a, In (k, a) i -> h a <> None /\ (a < f)%nat) ->
    exists i' h', copy_nodes K V i h f = Ok (i', h', (f + length i)%nat) /\ map fst i' = map fst i /\
      (forall a, (a < f)%nat -> h' a = h a) /\ (forall a, (f + length i <= a)%nat -> h' a = h a) /\
      map snd i' = seq f (length i) /\
      map (fun x => h' (snd x)) i' = map (fun x => h (snd x)) i.
  Proof.
    induction i as [|[k a] i IH]; intros h f H.
    - exists [], h. rewrite Nat.add_0_r. cbn. auto 10.
    - cbn [copy_nodes]. destruct (H k a (or_introl eq_refl)) as [Ha La]. destruct (h a) as [n|] eqn:En; [|contradiction].
      unfold node_at. rewrite En. cbn [bind].
      destruct (IH (hset K V h f (Some n)) (S f)) as (i' & h' & E & Hk & Hb & Hp & Hs & Hm).
      { intros k' a' I. destruct (H k' a' (or_intror I)) as [X Y]. split; [|lia]. unfold hset. destruct (a' =? f)%nat; [discriminate|exact X]. }
      rewrite E. cbn [bind]. exists ((k, f) :: i'), h'. split; [cbn [length]; replace (S f + length i)%nat with (f + S (length i))%nat by lia; reflexivity|]. split; [cbn; congruence|].
      split; [|split; [|split]].
      + intros x Lx. rewrite Hb by lia. unfold hset. destruct (Nat.eqb_spec x f); [lia|reflexivity].
      + intros x Lx. cbn [length] in Lx. rewrite Hp by lia. unfold hset. destruct (Nat.eqb_spec x f); [lia|reflexivity].
      + cbn. rewrite Hs. reflexivity.
      + cbn [map snd]. f_equal.
        * rewrite Hb by lia. unfold hset. rewrite Nat.eqb_refl. congruence.
        * rewrite Hm. apply map_ext_in. intros [k' a'] I. cbn. destruct (H k' a' (or_intror I)) as [_ Y].
          unfold hset. destruct (Nat.eqb_spec a' f); [lia|reflexivity].
  Qed.
  Lemma rep_live : forall c l, rep c l -> forall k a, In (k, a) (idx K V c) -> heap K V c a <> None /\ (a < fresh K V c)%nat.
  Proof.
    intros c l (D & _ & _ & _ & _ & Hf & _ & Hfr & _ & _ & _ & _ & Ni) k a I. apply (in_find _ _ _ Ni) in I. apply Hf in I.
    destruct I as (e & I & _). destruct (dseg_in K V eqb eqb_spec _ _ _ _ _ _ D I) as (p & q & E). split; [congruence|].
    apply Hfr. exact (in_map fst _ _ I).
  Qed.
  Lemma find_parallel : forall k (i i' : list (K * nat)) (h h' : nat -> option (node K V)), map fst i' = map fst i ->
    map (fun x => h' (snd x)) i' = map (fun x => h (snd x)) i ->
    match find K eqb k i, find K eqb k i' with
    | Some a, Some a' => h' a' = h a
    | None, None => True
    | _, _ => False
    end.
  Proof.
    intros k. induction i as [|[k1 a] i IH]; intros [|[k2 a'] i'] h h' E1 E2; cbn in *; try discriminate; [exact I|].
    injection E1 as -> E1. injection E2 as H E2. destruct (eqb k k1); [exact H|]. apply IH; assumption.
  Qed.

  Lemma free_all : forall (i : list (K * nat)) (h : nat -> option (node K V)) a,
    fold_left (fun h x => hset K V h (snd x) None) i h a = if in_dec Nat.eq_dec a (map snd i) then None else h a.
  Proof.
    induction i as [|[k b] i IH]; intros h a; [reflexivity|]. cbn [fold_left]. rewrite IH. cbn [map snd].
    destruct (in_dec Nat.eq_dec a (map snd i)) as [I|I]; destruct (in_dec Nat.eq_dec a (b :: map snd i)) as [J|J]; try reflexivity.
    - exfalso. apply J. right. exact I.
    - cbn. unfold hset. destruct J as [->|J]; [rewrite Nat.eqb_refl; reflexivity|contradiction].
    - cbn. unfold hset. destruct (Nat.eqb_spec a b) as [->|]; [|reflexivity]. exfalso. apply J. left. reflexivity.
  Qed.

  (** C126: a cache that is empty can be copied and assigned: the copy is as the original,
      and as a new cache of the same limits. *)
  Theorem C126_copy_of_an_empty_cache : forall smax tmax os rs c,
    0 <= smax < 2 ^ 64 -> 0 <= tmax <= 2 ^ 63 -> Forall (op_ok K V) os -> fits K V smax tmax [] os ->
    run K V eqb (create K V smax tmax) os = Ok (rs, c) -> srun K V smax tmax [] os rs [] ->
    copy K V c = Ok c /\ begp K V c = None /\ endp K V c = None /\ size_cur K V c = 0 /\ idx K V c = [] /\
    size_max K V c = smax /\ time_max K V c = tmax /\ (forall a, heap K V c a = None).
  Proof.
    intros smax tmax os rs c Hm Ht Ho Hf E S0.
    destruct (reach smax tmax os rs c Hm Ht Ho Hf E) as (l & R & S & M1 & M2).
    destruct (srun_det K V _ _ _ _ _ _ _ S0 S) as (_ & X). destruct l; [|discriminate].
    destruct R as (_ & B & En & _ & _ & _ & Hl & _ & Sz & _ & _ & L & _). cbn in B, En, Sz, L.
    destruct c as [i h f b e sc sm tm]. cbn in *. subst b e sc sm tm. destruct i; [|discriminate].
    repeat split. intros a. destruct (h a) eqn:Ea; [|reflexivity]. exfalso. apply (Hl a). congruence.
  Qed.

  (** C126: the copy answers look-ups of unexpired entries as the original does. *)
  Theorem C126_copy_look_up_partial : forall smax tmax os rs c,
    0 <= smax < 2 ^ 64 -> 0 <= tmax <= 2 ^ 63 -> Forall (op_ok K V) os -> fits K V smax tmax [] os ->
    run K V eqb (create K V smax tmax) os = Ok (rs, c) ->
    exists c', copy K V c = Ok c' /\
      forall k now v, get K V eqb c k now = Ok (Some v, c) <-> get K V eqb c' k now = Ok (Some v, c').
  Proof.
    intros smax tmax os rs c Hm Ht Ho Hf E.
    destruct (reach smax tmax os rs c Hm Ht Ho Hf E) as (l & R & S & M1 & M2).
    destruct (copy_nodes_ok (idx K V c) (heap K V c) (fresh K V c) (rep_live c l R)) as (i' & h' & Ec & Hk & Hb & Hp & Hs & Hm').
    unfold copy. rewrite Ec. cbn [bind]. eexists. split; [reflexivity|]. intros k now v.
    unfold get. cbn [idx heap time_max].
    pose proof (find_parallel k (idx K V c) i' (heap K V c) h' Hk Hm') as P.
    destruct (find K eqb k (idx K V c)) as [a|]; destruct (find K eqb k i') as [a'|]; try contradiction;
      [|split; discriminate].
    unfold node_at. rewrite P. destruct (heap K V c a) as [n|]; [|split; discriminate]. cbn [bind].
    destruct (negb (time_max K V c =? 0) && (szt (n_time K V n + time_max K V c) <? szt now)).
    - split; intros H; exfalso; apply bind_inv in H; destruct H as ((b & x) & _ & X); discriminate X.
    - destruct (n_elem K V n) as [u|]; [|split; discriminate]. split; intros H; injection H as ->; reflexivity.
  Qed.

  (** C126 is false of every cache that is not empty: the copy keeps the list of the original.
      When the original has been destroyed, storing a new key in the copy writes through a
      dangling pointer. *)
  Theorem C126_copy_refuted : forall smax tmax os rs c s k v sz upd now,
    0 <= smax < 2 ^ 64 -> 0 <= tmax <= 2 ^ 63 -> Forall (op_ok K V) os -> fits K V smax tmax [] os ->
    run K V eqb (create K V smax tmax) os = Ok (rs, c) -> srun K V smax tmax [] os rs s -> s <> [] -> absent K V k s ->
    exists c', copy K V c = Ok c' /\
      set K V eqb (share K V c' (destroy K V (share K V c c'))) k v sz upd now = Ub UseAfterFree.
  Proof.
    intros smax tmax os rs c s k v sz upd now Hm Ht Ho Hf E S0 Hne Hab.
    destruct (reach smax tmax os rs c Hm Ht Ho Hf E) as (l & R & S & M1 & M2).
    destruct (srun_det K V _ _ _ _ _ _ _ S0 S) as (_ & ->).
    destruct (copy_nodes_ok (idx K V c) (heap K V c) (fresh K V c) (rep_live c l R)) as (i' & h' & Ec & Hk & Hb & Hp & Hs & Hm').
    unfold copy. rewrite Ec. cbn [bind]. eexists. split; [reflexivity|].
    pose proof (find_parallel k (idx K V c) i' (heap K V c) h' Hk Hm') as P.
    rewrite (rep_gone K V eqb c l k R Hab) in P. unfold set. cbn [share idx].
    destruct (find K eqb k i') as [a'|]; [contradiction|].
    pose proof R as R'. destruct R' as (D & _ & En & _ & _ & Hfd & _ & Hfr & _).
    destruct (lastp K V l None) as [z|] eqn:Ez.
    2:{ destruct (last_case K V eqb eqb_spec l) as [->|(l' & z & e & ->)]; [cbn in Hne; contradiction|]. 
        rewrite (lastp_app K V eqb eqb_spec) in Ez. discriminate. }
    assert (Iz : In z (addrs K V l)).
    { apply (lastp_in K V eqb eqb_spec l None z Ez). intros ->. apply Hne. reflexivity. }
    pose proof (Hfr z Iz) as Lz.
    assert (Jz : In z (map snd (idx K V c))).
    { unfold addrs in Iz. apply in_map_iff in Iz. destruct Iz as ((z' & e) & X & I). cbn in X. subst z'.
      apply (find_snd (e_key K V e)). apply Hfd. eauto. }
    unfold link_new. cbv zeta. cbn [share destroy heap fresh endp begp idx]. rewrite En.
    unfold node_upd at 1, node_at at 1. rewrite (hset_same K V eqb eqb_spec). cbn [bind].
    unfold node_upd, node_at. rewrite !(hset_other K V eqb eqb_spec) by lia.
    rewrite free_all. destruct (in_dec Nat.eq_dec z (map snd (idx K V c))); [reflexivity|contradiction].
  Qed.
End Copies.

(** C126 is false also while the original lives: it loses count of its entries.  Here a cache
    with one entry is copied, another key is stored in the copy, and then the original lists
    that key although it cannot find it; and to drop its own entry it is left with a list that
    starts in the copy. *)
Theorem C126_original_refuted : exists c c' c1 ns,
  run nat nat Nat.eqb (create nat nat 10 0) [OSet nat nat 1%nat 7%nat 5 true 100] = Ok ([RSet nat], c) /\
  copy nat nat c = Ok c' /\
  set nat nat Nat.eqb c' 2%nat 8%nat 5 true 100 = Ok c1 /\
  walk nat nat 5 (heap nat nat (share nat nat c c1)) (begp nat nat (share nat nat c c1)) = Ok ns /\
  map (n_key nat nat) ns = [1%nat; 2%nat] /\
  get nat nat Nat.eqb (share nat nat c c1) 2%nat 100 = Ok (None, share nat nat c c1) /\
  exists c2, erase nat nat Nat.eqb (share nat nat c c1) 1%nat = Ok (true, c2) /\ idx nat nat c2 = [] /\ begp nat nat c2 = Some 2%nat.
Proof.
  eexists _, _, _, _. split; [cbn; reflexivity|]. split; [cbn; reflexivity|]. split; [cbn; reflexivity|].
  split; [cbn; reflexivity|]. split; [reflexivity|]. split; [reflexivity|]. eexists. split; [cbn; reflexivity|]. split; reflexivity.
Qed.

(** ** The report *)

Section Report.
  Variables K V : Type.
  Variable eqb : K -> K -> bool.
  Hypothesis eqb_spec : forall a b, eqb a b = true <-> a = b.
  Variable show : K -> list Z.
  Variable ptr : option nat -> list Z.

  (** [t] is the number [n] written in decimal *)
  Definition decimal (n : Z) (t : list Z) : Prop := Forall (fun c => 48 <= c <= 57) t /\ number t = n.
  Lemma lu_decimal : forall n, 0 <= n < 2 ^ 64 -> decimal n (fmt_lu n).
  Proof. intros n H. unfold fmt_lu. rewrite Z.mod_small by lia. apply udec_ok. assert (X : 2 ^ 64 < 10 ^ Z.of_nat 20) by (vm_compute; reflexivity). lia. Qed.
  Lemma lu_mod : forall n, fmt_lu (szt n) = fmt_lu n.
  Proof. intros n. unfold fmt_lu, szt. rewrite Z.mod_mod by lia. reflexivity. Qed.

  (** the line of an entry: key, size, the two links, time *)
  Definition line_of (e : entry K V) (t : list Z) : Prop :=
    exists sz p q tm, t = show (e_key K V e) ++ [9] ++ sz ++ [9] ++ ptr p ++ [45] ++ ptr q ++ [9] ++ tm ++ [10] /\
      decimal (e_size K V e) sz /\ decimal (e_time K V e) tm.

  (** C127: the report says how many entries there are, their total size and the limit, and
      lists the entries, the oldest first. *)
  Theorem C127_report : forall smax tmax os rs c out flag now,
    0 <= smax < 2 ^ 64 -> 0 <= tmax <= 2 ^ 63 -> Forall (op_ok K V) os -> fits K V smax tmax [] os ->
    run K V eqb (create K V smax tmax) os = Ok (rs, c) -> Z.of_nat (length (idx K V c)) < 2 ^ 64 ->
    exists s n sz m x lines, srun K V smax tmax [] os rs s /\
      dbg_text K V show ptr out c flag now =
        Ok (out ++ zs "nelt_cur=" ++ n ++ [10] ++ zs "size_cur=" ++ sz ++ [10] ++ zs "size_max=" ++ m ++ [10]
                ++ zs "time_max=" ++ x ++ [10] ++ [10] ++ (if flag =? 0 then [] else concat lines)) /\
      decimal (Z.of_nat (length s)) n /\ decimal (total K V s) sz /\ decimal smax m /\
      decimal ((now - tmax) mod 2 ^ 64) x /\ Forall2 line_of s lines.
  Proof.
    intros smax tmax os rs c out flag now Hm Ht Ho Hf E Hlen.
    destruct (run_ok K V eqb eqb_spec os (create K V smax tmax) [] (create_rep K V eqb smax tmax) Ho ltac:(constructor)
                ltac:(cbn; lia) ltac:(cbn; lia) Hf) as [rs' [c' [l [E' [R [M1 [M2 [T S]]]]]]]].
    rewrite E in E'. injection E' as <- <-. cbn [create size_max time_max map] in *.
    pose proof (rep_bounds K V eqb eqb_spec c l R) as B.
    destruct R as (D & Bg & _ & _ & _ & _ & _ & _ & Sz & Tt & Pos & L & _).
    destruct (walk_ok K V eqb eqb_spec l (heap K V c) None (length (idx K V c)) D ltac:(lia)) as (ns & W & Mp).
    exists (map snd l), (fmt_lu (Z.of_nat (length (idx K V c)))), (fmt_lu (size_cur K V c)), (fmt_lu (size_max K V c)),
      (fmt_lu (szt (now - time_max K V c))), (map (dbg_line K V show ptr) ns).
    split; [exact S|]. split.
    { unfold dbg_text, dbg_head. cbv zeta. destruct (flag =? 0).
      - rewrite app_nil_r. reflexivity.
      - unfold dbg. rewrite Bg, W. cbn [bind]. f_equal. rewrite <- !app_assoc. reflexivity. }
    rewrite map_length, <- L, <- Sz, M1, M2. split; [apply lu_decimal; lia|]. split; [apply lu_decimal; lia|].
    split; [apply lu_decimal; lia|]. split; [apply lu_decimal; unfold szt; apply Z.mod_pos_bound; lia|].
    clear -eqb_spec Mp T Pos Tt. revert ns Mp T Pos Tt. induction l as [|[a e] l IH]; intros [|n ns] Mp T Pos Tt; try discriminate; [constructor|].
    cbn [map snd] in *. injection Mp as Hk Hv Hs Htm Mp. inversion T as [|? ? T1 T2]; subst. inversion Pos as [|? ? P1 P2]; subst.
    unfold total in Tt. cbn [fold_right] in Tt. fold (total K V (map snd l)) in Tt.
    pose proof (total_nonneg K V eqb eqb_spec (map snd l) P2) as Tn.
    constructor; [|apply IH; try assumption; lia].
    unfold line_of, dbg_line. rewrite Hk, Hs, Htm. eexists _, _, _, _. split; [reflexivity|].
    split; apply lu_decimal; lia.
  Qed.

  (** C127 is false of the line time_max: it does not show the limit, but the clock less the
      limit; the two differ at every time but one. *)
  Theorem C127_time_max_refuted : forall smax tmax os rs c now t,
    0 <= smax < 2 ^ 64 -> 0 <= tmax <= 2 ^ 63 -> Forall (op_ok K V) os -> fits K V smax tmax [] os ->
    run K V eqb (create K V smax tmax) os = Ok (rs, c) -> 0 <= now < 2 ^ 63 -> now <> 2 * tmax -> now <> 2 * tmax - 2 ^ 64 ->
    dbg_head K V c now = zs "nelt_cur=" ++ fmt_lu (Z.of_nat (length (idx K V c))) ++ [10] ++
      zs "size_cur=" ++ fmt_lu (size_cur K V c) ++ [10] ++ zs "size_max=" ++ fmt_lu (size_max K V c) ++ [10] ++
      zs "time_max=" ++ t ++ [10] ++ [10] -> ~ decimal tmax t.
  Proof.
    intros smax tmax os rs c now t Hm Ht Ho Hf E Hn Hd Hd' H [Ft Nt].
    destruct (reach K V eqb eqb_spec smax tmax os rs c Hm Ht Ho Hf E) as (l & R & S & M1 & M2).
    unfold dbg_head in H. repeat first [apply app_inv_head in H].
    assert (X : fmt_lu (szt (now - time_max K V c)) ++ [10] ++ [10] = t ++ [10] ++ [10]).
    { repeat (apply app_inv_head in H || (injection H; clear H; intros H)). exact H. }
    apply app_inv_tail in X. subst t. rewrite M2 in Nt.
    destruct (lu_decimal (szt (now - tmax))) as [_ N]; [unfold szt; apply Z.mod_pos_bound; lia|].
    rewrite Nt in N. unfold szt in N. 
    destruct (Z_lt_le_dec now tmax) as [L|L].
    - rewrite <- (Z_mod_plus_full _ 1), Z.mod_small in N by lia. lia.
    - rewrite Z.mod_small in N by lia. lia.
  Qed.
End Report.

(** ** Examples *)

(** the pointer to 1 survives the eviction of 2 and shows the new value; later it dangles *)
Definition demo1 : list (op nat nat) := [OSet nat nat 2%nat 20%nat 4 true 100; OSet nat nat 1%nat 10%nat 4 true 100].
Definition demo2 : list (op nat nat) := [OSet nat nat 1%nat 11%nat 4 true 101; OSet nat nat 3%nat 30%nat 4 true 101].
Definition demo3 : list (op nat nat) := demo2 ++ [OErase nat nat 1%nat; OSet nat nat 1%nat 12%nat 4 true 102].
Example C125_ex_hyp : Forall (op_ok nat nat) (demo1 ++ OGet nat nat 1%nat 100 :: demo3) /\
  fits nat nat 10 50 [] (demo1 ++ OGet nat nat 1%nat 100 :: demo3).
Proof.
  assert (Ho : Forall (op_ok nat nat) (demo1 ++ OGet nat nat 1%nat 100 :: demo3)) by (repeat constructor; cbn; lia).
  split; [exact Ho|]. apply (sizes_fit nat nat Nat.eqb Nat.eqb_eq); [exact Ho|]. cbn. lia.
Qed.
Example C125_ex_run :
  match run nat nat Nat.eqb (create nat nat 10 50) demo1 with
  | Ok (_, c) =>
    match get_ptr nat nat Nat.eqb c 1%nat 100 with
    | Ok (Some a, c) =>
      match run nat nat Nat.eqb c demo2, run nat nat Nat.eqb c demo3, set_ref nat nat Nat.eqb c 9%nat a 4 true 100 with
      | Ok (_, c2), Ok (_, c3), Ok c4 =>
        Some (deref nat nat c a, deref nat nat c2 a, deref nat nat c3 a, size_cur nat nat c4)
      | _, _, _ => None
      end
    | _ => None
    end
  | _ => None
  end = Some (Ok 10%nat, Ok 11%nat, Ub UseAfterFree, 8).
Proof. vm_compute. reflexivity. Qed.
(** held after demo2 *)
Example C125_ex_held : held nat nat 10 50 (demo1 ++ OGet nat nat 1%nat 100 :: demo2) 1%nat.
Proof.
  assert (Ho : Forall (op_ok nat nat) (demo1 ++ OGet nat nat 1%nat 100 :: demo2)) by (repeat constructor; cbn; lia).
  assert (Hf : fits nat nat 10 50 [] (demo1 ++ OGet nat nat 1%nat 100 :: demo2)).
  { apply (sizes_fit nat nat Nat.eqb Nat.eqb_eq); [exact Ho|]. cbn. lia. }
  destruct (run nat nat Nat.eqb (create nat nat 10 50) (demo1 ++ OGet nat nat 1%nat 100 :: demo2)) as [[rs c]|u|] eqn:E;
    [|vm_compute in E; discriminate|vm_compute in E; discriminate].
  destruct (reach nat nat Nat.eqb Nat.eqb_eq 10 50 _ rs c ltac:(lia) ltac:(lia) Ho Hf E) as (l & R & S & _).
  intros rs' s S' A. destruct (srun_det nat nat _ _ _ _ _ _ _ S' S) as (_ & ->).
  apply (rep_gone nat nat Nat.eqb c l 1%nat R) in A.
  assert (X : match run nat nat Nat.eqb (create nat nat 10 50) (demo1 ++ OGet nat nat 1%nat 100 :: demo2) with
              | Ok (_, c) => match find nat Nat.eqb 1%nat (idx nat nat c) with Some _ => true | None => false end
              | _ => false
              end = true) by (vm_compute; reflexivity).
  rewrite E, A in X. discriminate X.
Qed.
Example C126_ex : exists rs c, run nat nat Nat.eqb (create nat nat 10 0) [OSet nat nat 1%nat 7%nat 5 true 100] = Ok (rs, c) /\
  srun nat nat 10 0 [] [OSet nat nat 1%nat 7%nat 5 true 100] rs [mkEntry nat nat 1%nat 7%nat 5 100] /\
  absent nat nat 2%nat [mkEntry nat nat 1%nat 7%nat 5 100].
Proof.
  eexists _, _. split; [cbn; reflexivity|]. split.
  - apply srun_cons with [mkEntry nat nat 1%nat 7%nat 5 100]; [|constructor]. constructor. apply sset_new.
    + intros e [].
    + exists 0%nat. cbn. split; [reflexivity|]. split; [lia|]. intros m Hm. lia.
  - intros e [<-|[]]. cbn. lia.
Qed.
Example C127_ex : exists c, run nat nat Nat.eqb (create nat nat 10 50) [OSet nat nat 1%nat 7%nat 5 true 100] = Ok ([RSet nat], c) /\
  dbg_text nat nat (fun k => [48 + Z.of_nat k]) (fun _ => [48]) [] c 1 1000 =
    Ok (zs "nelt_cur=1" ++ [10] ++ zs "size_cur=5" ++ [10] ++ zs "size_max=10" ++ [10] ++ zs "time_max=950" ++ [10; 10] ++
        zs "1" ++ [9] ++ zs "5" ++ [9] ++ zs "0-0" ++ [9] ++ zs "100" ++ [10]).
Proof. eexists. split; [cbn; reflexivity|]. vm_compute. reflexivity. Qed.

Print Assumptions C125_pointers.
Print Assumptions C125_same_as_get.
Print Assumptions C125_set_by_reference.
Print Assumptions C125_held_or_gone.
Print Assumptions C126_copy_of_an_empty_cache.
Print Assumptions C126_copy_look_up_partial.
Print Assumptions C126_copy_refuted.
Print Assumptions C126_original_refuted.
Print Assumptions C127_report.
Print Assumptions C127_time_max_refuted.
