(** C42-C46: the cache. *)

From Coq Require Import ZArith List Bool Lia Arith Permutation.
From Verif Require Import Base Cache_Model Cache_Spec Cache_Proof.
Import ListNotations.
Local Open Scope Z_scope.

Section Props.
  Variables K V : Type.
  Variable eqb : K -> K -> bool.
  Hypothesis eqb_spec : forall a b, eqb a b = true <-> a = b.

  Notation entry := (entry K V).
  Notation rep := (rep K V eqb).
  Notation total := (total K V).
  Notation srun := (srun K V).

  Definition times_ok (s : list entry) : Prop := Forall (fun e => 0 <= e_time K V e < 2 ^ 63) s.

  Lemma in_mid : forall {A} (x y : A) a b, In x (a ++ b) -> In x (a ++ y :: b).
  Proof. intros A x y a b H. apply in_or_app. apply in_app_or in H. cbn. tauto. Qed.

  Lemma skipn_incl : forall {A} n (l : list A) x, In x (skipn n l) -> In x l.
  Proof.
    intros A n. induction n as [|n IH]; intros [|y l] x H; try exact H. right. apply IH. exact H.
  Qed.

  Lemma times_step : forall smax tmax s o r s', sstep K V smax tmax s o r s' -> op_ok K V o ->
    times_ok s -> times_ok s'.
  Proof.
    intros smax tmax s o r s' H Ho T. unfold times_ok in *. rewrite Forall_forall in *.
    destruct H as [s k now r s' H|s k v sz upd now s' H|s k b s' H]; destruct H; intros x Hx; cbn in Ho.
    - auto.
    - auto.
    - apply T. apply in_mid. exact Hx.
    - destruct H0 as [n [-> _]]. apply skipn_incl in Hx. apply in_app_or in Hx.
      destruct Hx as [Hx|[<-|[]]]; [auto|cbn; lia].
    - rewrite app_assoc in Hx. apply in_app_or in Hx. destruct Hx as [Hx|[<-|[]]].
      + apply T. apply in_mid. exact Hx.
      + cbn. destruct upd; [lia|]. apply T. apply in_or_app. right. left. reflexivity.
    - auto.
    - apply T. apply in_mid. exact Hx.
  Qed.

  Lemma create_rep : forall smax tmax, rep (create K V smax tmax) [].
  Proof.
    intros. unfold Cache_Proof.rep. cbn. repeat split; try (constructor; fail); try lia.
    - intros H. discriminate.
    - intros [e [[] _]].
    - intros a H. congruence.
  Qed.

  Lemma step_ok : forall c l o, rep c l -> op_ok K V o -> times_ok (map snd l) ->
    0 <= size_max K V c -> 0 <= time_max K V c <= 2 ^ 63 ->
    (forall k v sz upd now, o = OSet K V k v sz upd now -> total (map snd l) + sz < 2 ^ 64) ->
    exists r c' l', step K V eqb c o = Ok (r, c') /\ rep c' l' /\
      size_max K V c' = size_max K V c /\ time_max K V c' = time_max K V c /\
      sstep K V (size_max K V c) (time_max K V c) (map snd l) o r (map snd l').
  Proof.
    intros c l o R Ho T Hm Ht Hf. destruct o as [k now|k v sz upd now|k]; cbn [step op_ok] in *.
    - assert (T' : Forall (fun e => 0 <= e_time K V e /\ e_time K V e + time_max K V c < 2 ^ 64) (map snd l)).
      { eapply Forall_impl; [|exact T]. intros e He. cbn in He. lia. }
      destruct (get_ok K V eqb eqb_spec c l k now R ltac:(lia) ltac:(lia) T')
        as [r [c' [l' [E [R' [M1 [M2 M3]]]]]]].
      rewrite E. cbn [bind]. exists (RGet V r), c', l'. split; [reflexivity|]. split; [exact R'|].
      split; [exact M1|]. split; [exact M2|]. constructor. exact M3.
    - destruct (set_ok K V eqb eqb_spec c l k v sz upd now R Hm ltac:(lia) ltac:(eapply Hf; reflexivity))
        as [c' [l' [E [R' [M1 [M2 M3]]]]]].
      rewrite E. cbn [bind]. exists (RSet V), c', l'. split; [reflexivity|]. split; [exact R'|].
      split; [exact M1|]. split; [exact M2|]. constructor. exact M3.
    - destruct (erase_ok K V eqb eqb_spec c l k R) as [b [c' [l' [E [R' [M1 [M2 M3]]]]]]].
      rewrite E. cbn [bind]. exists (RErase V b), c', l'. split; [reflexivity|]. split; [exact R'|].
      split; [exact M1|]. split; [exact M2|]. constructor. exact M3.
  Qed.

  Lemma run_ok : forall os c l, rep c l -> Forall (op_ok K V) os -> times_ok (map snd l) ->
    0 <= size_max K V c -> 0 <= time_max K V c <= 2 ^ 63 ->
    fits K V (size_max K V c) (time_max K V c) (map snd l) os ->
    exists rs c' l', run K V eqb c os = Ok (rs, c') /\ rep c' l' /\
      size_max K V c' = size_max K V c /\ time_max K V c' = time_max K V c /\ times_ok (map snd l') /\
      srun (size_max K V c) (time_max K V c) (map snd l) os rs (map snd l').
  Proof.
    induction os as [|o os IH]; intros c l R Ho T Hm Ht Hf.
    - exists [], c, l. split; [reflexivity|]. split; [exact R|]. split; [reflexivity|].
      split; [reflexivity|]. split; [exact T|]. constructor.
    - inversion Ho as [|? ? Ho1 Ho2]; subst.
      destruct (step_ok c l o R Ho1 T Hm Ht) as [r [c1 [l1 [E [R1 [M1 [M2 S]]]]]]].
      { intros k v sz upd now ->. apply (Hf [] k v sz upd now os [] (map snd l)); [reflexivity|constructor]. }
      pose proof (times_step _ _ _ _ _ _ S Ho1 T) as T1.
      destruct (IH c1 l1 R1 Ho2 T1 ltac:(lia) ltac:(lia)) as [rs [c2 [l2 [E2 [R2 [M3 [M4 [T2 S2]]]]]]]].
      { rewrite M1, M2. intros os1 k v sz upd now os2 rs s' -> Hr.
        apply (Hf (o :: os1) k v sz upd now os2 (r :: rs) s'); [reflexivity|].
        econstructor; eassumption. }
      exists (r :: rs), c2, l2. cbn [run]. rewrite E. cbn [bind]. rewrite E2. cbn [bind].
      split; [reflexivity|]. split; [exact R2|]. split; [congruence|]. split; [congruence|].
      split; [exact T2|]. econstructor; [exact S|]. rewrite <- M1, <- M2. exact S2.
  Qed.

  Lemma nonneg_step : forall smax tmax s o r s', sstep K V smax tmax s o r s' -> op_ok K V o ->
    Forall (fun e => 0 <= e_size K V e) s ->
    Forall (fun e => 0 <= e_size K V e) s' /\ total s' <= total s + sizes K V [o].
  Proof.
    intros smax tmax s o r s' H Ho T.
    assert (Rm : forall a e b, Forall (fun e => 0 <= e_size K V e) (a ++ e :: b) ->
      Forall (fun e => 0 <= e_size K V e) (a ++ b) /\ 0 <= e_size K V e /\
      total (a ++ e :: b) = total (a ++ b) + e_size K V e).
    { intros a e b Hab. apply Forall_app in Hab. destruct Hab as [H1 H2]. inversion H2; subst.
      split; [apply Forall_app; split; assumption|]. split; [assumption|].
      rewrite !(total_app K V eqb eqb_spec). cbn [Cache_Spec.total fold_right]. unfold Cache_Spec.total. cbn. lia. }
    destruct H as [s k now r s' H|s k v sz upd now s' H|s k b s' H]; destruct H; cbn in Ho; cbn [sizes].
    - split; [exact T|lia].
    - split; [exact T|lia].
    - apply Rm in T. destruct T as [T1 [T2 T3]]. split; [exact T1|]. lia.
    - destruct H0 as [n [-> _]].
      assert (T' : Forall (fun e => 0 <= e_size K V e) (s ++ [mkEntry K V k v sz now])).
      { apply Forall_app. split; [exact T|]. constructor; [cbn; lia|constructor]. }
      assert (Tot : total (s ++ [mkEntry K V k v sz now]) = total s + sz).
      { rewrite (total_app K V eqb eqb_spec). cbn. lia. }
      rewrite <- (firstn_skipn n (s ++ [mkEntry K V k v sz now])) in T', Tot.
      apply Forall_app in T'. destruct T' as [Ta Tb].
      rewrite (total_app K V eqb eqb_spec) in Tot. pose proof (total_nonneg K V eqb eqb_spec _ Ta).
      split; [exact Tb|lia].
    - apply Rm in T. destruct T as [T1 [T2 T3]]. rewrite app_assoc. split.
      + apply Forall_app. split; [exact T1|]. constructor; [cbn; lia|constructor].
      + rewrite (total_app K V eqb eqb_spec (a ++ b)). rewrite T3. cbn. lia.
    - split; [exact T|lia].
    - apply Rm in T. destruct T as [T1 [T2 T3]]. split; [exact T1|]. lia.
  Qed.

  Lemma sizes_app : forall a b, sizes K V (a ++ b) = sizes K V a + sizes K V b.
  Proof. induction a as [|[| |] a IH]; intros b; cbn [app sizes]; rewrite ?IH; lia. Qed.
  Lemma sizes_nonneg : forall os, Forall (op_ok K V) os -> 0 <= sizes K V os.
  Proof. induction 1 as [|[| |] os Ho _ IH]; cbn [sizes op_ok] in *; lia. Qed.

  Lemma nonneg_run : forall smax tmax s os rs s', srun smax tmax s os rs s' -> Forall (op_ok K V) os ->
    Forall (fun e => 0 <= e_size K V e) s ->
    Forall (fun e => 0 <= e_size K V e) s' /\ total s' <= total s + sizes K V os.
  Proof.
    intros smax tmax s os rs s' H. induction H as [s|s o r s1 os rs s2 S R IH]; intros Ho T.
    - cbn. split; [exact T|lia].
    - inversion Ho; subst. destruct (nonneg_step _ _ _ _ _ _ S H1 T) as [T1 L1].
      destruct (IH H2 T1) as [T2 L2]. split; [exact T2|].
      change (o :: os) with ([o] ++ os). rewrite sizes_app. lia.
  Qed.

  (** a simple condition for [fits]: all sizes ever set sum up to less than 2^64 *)
  Lemma sizes_fit : forall smax tmax os, Forall (op_ok K V) os -> sizes K V os < 2 ^ 64 ->
    fits K V smax tmax [] os.
  Proof.
    intros smax tmax os Ho Hs os1 k v sz upd now os2 rs s' -> R.
    apply Forall_app in Ho. destruct Ho as [H1 H2].
    destruct (nonneg_run _ _ _ _ _ _ R H1 ltac:(constructor)) as [_ L].
    rewrite sizes_app in Hs. cbn [sizes] in Hs. inversion H2; subst. pose proof (sizes_nonneg _ H4).
    change (total []) with 0 in L. lia.
  Qed.

  (** ** C45: the cache never follows a bad link, and behaves as the specification.
      [run = Ok] includes: no null or dangling pointer is followed, no loop runs on. *)
  Theorem C45_refines : forall smax tmax os,
    0 <= smax < 2 ^ 64 -> 0 <= tmax <= 2 ^ 63 -> Forall (op_ok K V) os ->
    fits K V smax tmax [] os ->
    exists rs c s ns, run K V eqb (create K V smax tmax) os = Ok (rs, c) /\
      srun smax tmax [] os rs s /\
      (* the size accounting *)
      size_cur K V c = total s /\
      (* the list from oldest to newest holds exactly the stored entries *)
      dbg K V c = Ok ns /\
      map (fun n => (n_key K V n, n_elem K V n, n_size K V n, n_time K V n)) ns =
      map (fun e => (e_key K V e, Some (e_val K V e), e_size K V e, e_time K V e)) s /\
      NoDup (map (e_key K V) s) /\
      (* the index holds exactly the same keys *)
      Permutation (map fst (idx K V c)) (map (e_key K V) s).
  Proof.
    intros smax tmax os Hm Ht Ho Hf.
    destruct (run_ok os (create K V smax tmax) [] (create_rep smax tmax) Ho ltac:(constructor)
                ltac:(cbn; lia) ltac:(cbn; lia) Hf) as [rs [c [l [E [R [_ [_ [_ S]]]]]]]].
    exists rs, c, (map snd l).
    pose proof R as R'. destruct R' as [Hd [Hb [He [Hn [Hk [Hfd [Hl [Hfr [Hs [Htt [Hp [Hlen Hi]]]]]]]]]]]].
    destruct (walk_ok K V eqb eqb_spec l (heap K V c) None (length (idx K V c)) Hd ltac:(lia)) as [ns [W M]].
    exists ns. split; [exact E|]. split; [exact S|]. split; [exact Hs|].
    split; [unfold dbg; rewrite Hb; exact W|]. split; [rewrite map_map; exact M|].
    assert (Hk' : NoDup (map (e_key K V) (map snd l))) by (rewrite map_map; exact Hk).
    split; [exact Hk'|].
    apply NoDup_Permutation_bis; [exact Hi|rewrite !map_length; lia|].
    intros k Hin.
    assert (F : exists a, find K eqb k (idx K V c) = Some a).
    { clear -Hin eqb_spec. induction (idx K V c) as [|[k' a] i IH]; [destruct Hin|]. cbn in *.
      destruct (eqb k k') eqn:Ek; [eauto|]. destruct Hin as [->|Hin]; [|auto].
      assert (eqb k k = true) by (apply eqb_spec; reflexivity). congruence. }
    destruct F as [a F]. apply Hfd in F. destruct F as [e [Hin2 <-]].
    apply in_map. exact (in_map snd _ _ Hin2).
  Qed.

  (** the same under the simpler condition on the sizes *)
  Corollary C45_refines_sum : forall smax tmax os,
    0 <= smax < 2 ^ 64 -> 0 <= tmax <= 2 ^ 63 -> Forall (op_ok K V) os -> sizes K V os < 2 ^ 64 ->
    exists rs c s, run K V eqb (create K V smax tmax) os = Ok (rs, c) /\ srun smax tmax [] os rs s.
  Proof.
    intros smax tmax os Hm Ht Ho Hs.
    destruct (C45_refines smax tmax os Hm Ht Ho (sizes_fit _ _ _ Ho Hs)) as [rs [c [s [ns [E [S _]]]]]].
    eauto.
  Qed.

  (** ** C42: get returns the last value set *)

  Definition touches (k : K) (o : op K V) : Prop :=
    match o with OSet _ _ k' _ _ _ _ | OErase _ _ k' => k' = k | OGet _ _ _ _ => False end.

  Definition origin (os : list (op K V)) (e : entry) : Prop :=
    exists os1 sz upd t os2, os = os1 ++ OSet K V (e_key K V e) (e_val K V e) sz upd t :: os2 /\
      Forall (fun o => ~ touches (e_key K V e) o) os2.

  Lemma origin_snoc : forall os o e, origin os e -> ~ touches (e_key K V e) o -> origin (os ++ [o]) e.
  Proof.
    intros os o e [os1 [sz [upd [t [os2 [-> H]]]]]] Ho. exists os1, sz, upd, t, (os2 ++ [o]).
    split; [rewrite <- app_assoc; reflexivity|]. apply Forall_app. split; [exact H|].
    constructor; [exact Ho|constructor].
  Qed.

  Lemma nodup_keys_mid : forall a (e : entry) b x, NoDup (map (e_key K V) (a ++ e :: b)) ->
    In x (a ++ b) -> e_key K V x <> e_key K V e.
  Proof.
    intros a e b x H Hx E. rewrite map_app in H. cbn [map] in H. apply NoDup_remove_2 in H.
    apply H. rewrite <- map_app, <- E. apply in_map. exact Hx.
  Qed.

  Lemma nodup_skipn : forall {A} n (l : list A), NoDup l -> NoDup (skipn n l).
  Proof.
    intros A n. induction n as [|n IH]; intros [|x l] H; try exact H. apply IH. inversion H. assumption.
  Qed.

  Lemma origin_step : forall smax tmax s o r s' os, sstep K V smax tmax s o r s' ->
    NoDup (map (e_key K V) s) -> (forall e, In e s -> origin os e) ->
    NoDup (map (e_key K V) s') /\ (forall e, In e s' -> origin (os ++ [o]) e).
  Proof.
    intros smax tmax s o r s' os H Hn Hor.
    assert (Rm : forall (a : list entry) e b, NoDup (map (e_key K V) (a ++ e :: b)) -> NoDup (map (e_key K V) (a ++ b))).
    { intros a e b N. rewrite map_app in *. cbn [map] in N. exact (NoDup_remove_1 _ _ _ N). }
    destruct H as [s k now r s' H|s k v sz upd now s' H|s k b s' H]; destruct H.
    - split; [exact Hn|]. intros e He. apply origin_snoc; [auto|]. intros [].
    - split; [exact Hn|]. intros x He. apply origin_snoc; [auto|]. intros [].
    - split; [exact (Rm _ _ _ Hn)|]. intros x He. apply origin_snoc; [apply Hor; apply in_mid; exact He|]. intros [].
    - destruct H0 as [n [-> _]]. split.
      + assert (Em : map (e_key K V) (skipn n (s ++ [mkEntry K V k v sz now])) =
                     skipn n (map (e_key K V) (s ++ [mkEntry K V k v sz now]))).
        { generalize (s ++ [mkEntry K V k v sz now]). induction n as [|n IH]; intros [|x l]; try reflexivity. apply IH. }
        rewrite Em. apply nodup_skipn. rewrite map_app. cbn [map e_key].
        apply (Permutation_NoDup (l := k :: map (e_key K V) s)); [apply Permutation_cons_append|].
        constructor; [|exact Hn]. intros F. apply in_map_iff in F. destruct F as [e [E F]].
        exact (H e F E).
      + intros e He. apply skipn_incl in He. apply in_app_or in He. destruct He as [He|[<-|[]]].
        * apply origin_snoc; [auto|]. cbn. intros E. exact (H e He (eq_sym E)).
        * exists os, sz, upd, now, []. split; [reflexivity|constructor].
    - split.
      + rewrite app_assoc, map_app. cbn [map e_key]. rewrite map_app in Hn. cbn [map] in Hn.
        rewrite map_app. rewrite <- app_assoc.
        eapply Permutation_NoDup; [|exact Hn]. apply Permutation_app_head. apply Permutation_cons_append.
      + intros x Hx. rewrite app_assoc in Hx. apply in_app_or in Hx. destruct Hx as [Hx|[<-|[]]].
        * apply origin_snoc; [apply Hor; apply in_mid; exact Hx|]. cbn. intros E.
          exact (nodup_keys_mid _ _ _ _ Hn Hx (eq_sym E)).
        * exists os, sz, upd, now, []. split; [reflexivity|constructor].
    - split; [exact Hn|]. intros e He. apply origin_snoc; [auto|]. cbn. intros E. exact (H e He (eq_sym E)).
    - split; [exact (Rm _ _ _ Hn)|]. intros x He. apply origin_snoc; [apply Hor; apply in_mid; exact He|].
      cbn. intros E. exact (nodup_keys_mid _ _ _ _ Hn He (eq_sym E)).
  Qed.

  Lemma origin_run : forall smax tmax s os rs s', srun smax tmax s os rs s' -> forall os0,
    NoDup (map (e_key K V) s) -> (forall e, In e s -> origin os0 e) ->
    NoDup (map (e_key K V) s') /\ (forall e, In e s' -> origin (os0 ++ os) e).
  Proof.
    intros smax tmax s os rs s' H. induction H as [s|s o r s1 os rs s2 S R IH]; intros os0 Hn Hor.
    - rewrite app_nil_r. auto.
    - destruct (origin_step _ _ _ _ _ _ os0 S Hn Hor) as [N1 O1].
      destruct (IH (os0 ++ [o]) N1 O1) as [N2 O2]. split; [exact N2|].
      rewrite <- app_assoc in O2. exact O2.
  Qed.

  Lemma srun_snoc_inv : forall smax tmax os s o rs s', srun smax tmax s (os ++ [o]) rs s' ->
    exists rs1 r s1, rs = rs1 ++ [r] /\ srun smax tmax s os rs1 s1 /\ sstep K V smax tmax s1 o r s'.
  Proof.
    intros smax tmax. induction os as [|p os IH]; intros s o rs s' H; inversion H; subst.
    - inversion H6; subst. exists [], r, s. split; [reflexivity|]. split; [constructor|assumption].
    - destruct (IH _ _ _ _ H6) as [rs1 [r1 [s2 [-> [R S]]]]]. exists (r :: rs1), r1, s2.
      split; [reflexivity|]. split; [econstructor; eassumption|exact S].
  Qed.

  Lemma srun_snoc : forall smax tmax s os rs s1 o r s2, srun smax tmax s os rs s1 ->
    sstep K V smax tmax s1 o r s2 -> srun smax tmax s (os ++ [o]) (rs ++ [r]) s2.
  Proof.
    intros smax tmax s os rs s1 o r s2 H. induction H; intros S; cbn [app].
    - econstructor; [exact S|constructor].
    - econstructor; [eassumption|auto].
  Qed.

  (** what get(k) returns at the end of any history is the value of a set(k, .) after
      which neither set(k, .) nor erase(k) was called *)
  Theorem C42_last_value : forall smax tmax os k now,
    0 <= smax < 2 ^ 64 -> 0 <= tmax <= 2 ^ 63 -> Forall (op_ok K V) os -> 0 <= now < 2 ^ 63 ->
    fits K V smax tmax [] os ->
    exists rs c r c', run K V eqb (create K V smax tmax) os = Ok (rs, c) /\
      get K V eqb c k now = Ok (r, c') /\
      (forall v0, get_into K V eqb c k v0 now = Ok (match r with Some v => v | None => v0 end, c')) /\
      (forall v, r = Some v ->
        exists os1 sz upd t os2, os = os1 ++ OSet K V k v sz upd t :: os2 /\
          Forall (fun o => ~ touches k o) os2).
  Proof.
    intros smax tmax os k now Hm Ht Ho Hnow Hf.
    destruct (run_ok os (create K V smax tmax) [] (create_rep smax tmax) Ho ltac:(constructor)
                ltac:(cbn; lia) ltac:(cbn; lia) Hf) as [rs [c [l [E [R [M1 [M2 [T S]]]]]]]].
    cbn [create size_max time_max] in *.
    assert (T' : Forall (fun e => 0 <= e_time K V e /\ e_time K V e + time_max K V c < 2 ^ 64) (map snd l)).
    { eapply Forall_impl; [|exact T]. intros e He. cbn in He. lia. }
    destruct (get_ok K V eqb eqb_spec c l k now R ltac:(lia) ltac:(lia) T')
      as [r [c' [l' [E2 [_ [_ [_ G]]]]]]].
    exists rs, c, r, c'. split; [exact E|]. split; [exact E2|].
    split; [intros v0; apply (get_into_get K V eqb eqb_spec); exact E2|].
    intros v ->. destruct (origin_run _ _ _ _ _ _ S [] ltac:(constructor) ltac:(intros e [])) as [_ Or].
    cbn [app] in Or. inversion G; subst.
    destruct (Or e) as [os1 [sz [upd [t [os2 [X Y]]]]]].
    { match goal with H : _ = map snd l |- _ => rewrite <- H end. apply in_or_app. right. left. reflexivity. }
    exists os1, sz, upd, t, os2. split; assumption.
  Qed.

  Lemma evict_last : forall smax (s : list entry) e s', evict K V smax (s ++ [e]) s' ->
    e_size K V e <= smax -> exists a, s' = a ++ [e].
  Proof.
    intros smax s e s' [n [-> [_ Hmin]]] Hle.
    destruct (Nat.le_gt_cases n (length s)) as [L|L].
    - exists (skipn n s). rewrite skipn_app. replace (n - length s)%nat with O by lia. reflexivity.
    - specialize (Hmin (length s) L). rewrite skipn_app, skipn_all, Nat.sub_diag in Hmin.
      cbn in Hmin. lia.
  Qed.

  (** a value that fits is there right after it was set (and not yet expired) *)
  Theorem C42_set_then_get : forall smax tmax os k v sz upd t now,
    0 <= smax < 2 ^ 64 -> 0 <= tmax <= 2 ^ 63 -> Forall (op_ok K V) os ->
    op_ok K V (OSet K V k v sz upd t) -> 0 <= now < 2 ^ 63 ->
    fits K V smax tmax [] (os ++ [OSet K V k v sz upd t]) ->
    sz <= smax -> upd = true -> tmax = 0 \/ now <= t + tmax ->
    exists rs c c', run K V eqb (create K V smax tmax) (os ++ [OSet K V k v sz upd t]) = Ok (rs, c) /\
      get K V eqb c k now = Ok (Some v, c').
  Proof.
    intros smax tmax os k v sz upd t now Hm Ht Ho Hop Hnow Hf Hsz -> Hexp.
    set (o := OSet K V k v sz true t) in *.
    destruct (run_ok (os ++ [o]) (create K V smax tmax) [] (create_rep smax tmax)
                ltac:(apply Forall_app; auto) ltac:(constructor)
                ltac:(cbn; lia) ltac:(cbn; lia) Hf) as [rs [c [l [E [R [M1 [M2 [T S]]]]]]]].
    cbn [create size_max time_max] in *.
    assert (T' : Forall (fun e => 0 <= e_time K V e /\ e_time K V e + time_max K V c < 2 ^ 64) (map snd l)).
    { eapply Forall_impl; [|exact T]. intros e He. cbn in He. lia. }
    destruct (get_ok K V eqb eqb_spec c l k now R ltac:(lia) ltac:(lia) T')
      as [r [c' [l' [E2 [_ [_ [_ G]]]]]]].
    exists rs, c, c'. split; [exact E|]. rewrite E2. apply ok2; [|reflexivity].
    destruct (origin_run _ _ _ _ _ _ S [] ltac:(constructor) ltac:(intros e [])) as [N _].
    assert (L : exists a, map snd l = a ++ [mkEntry K V k v sz t]).
    { destruct (srun_snoc_inv _ _ _ _ _ _ _ S) as [rs1 [r1 [s1 [_ [_ S1]]]]].
      inversion S1; subst.
      match goal with H : sset _ _ _ _ _ _ _ _ _ _ |- _ => inversion H; subst end.
      - match goal with H : evict _ _ _ _ _ |- _ => exact (evict_last _ _ _ _ H Hsz) end.
      - exists (a ++ b). rewrite app_assoc. reflexivity. }
    destruct L as [a0 L].
    assert (U : forall a e b, a ++ e :: b = map snd l -> e_key K V e = k -> e = mkEntry K V k v sz t).
    { intros a e b Ha Hk. rewrite <- Ha in N. rewrite <- Ha in L.
      assert (Hin : In (mkEntry K V k v sz t) (a ++ e :: b)).
      { rewrite L. apply in_or_app. right. left. reflexivity. }
      apply in_app_or in Hin. destruct Hin as [Hin|[Hin|Hin]]; [|exact Hin|];
        exfalso; eapply (nodup_keys_mid a e b (mkEntry K V k v sz t) N);
        try (apply in_or_app; eauto; fail); symmetry; exact Hk. }
    inversion G; subst.
    - exfalso. match goal with H : absent _ _ _ _ |- _ =>
        apply (H (mkEntry K V k v sz t)); [|reflexivity] end.
      rewrite L. apply in_or_app. right. left. reflexivity.
    - erewrite (U a e b) by (eassumption || reflexivity). reflexivity.
    - exfalso. match goal with H : expired _ _ _ _ _ |- _ => destruct H as [X1 X2] end. rewrite (U a e b) in X2 by (assumption || reflexivity).
      cbn in X2. destruct Hexp; lia.
  Qed.

  (** ** C43: eviction is in the order of the last set, oldest first, and minimal *)

  (** The order of the entries: every entry set again moves to the end, a new one is
      added at the end, nothing else changes the order. *)
  Theorem C43_evict_order : forall smax tmax os k v sz upd t,
    0 <= smax < 2 ^ 64 -> 0 <= tmax <= 2 ^ 63 -> Forall (op_ok K V) os ->
    op_ok K V (OSet K V k v sz upd t) ->
    fits K V smax tmax [] (os ++ [OSet K V k v sz upd t]) ->
    exists rs c c' s ns,
      run K V eqb (create K V smax tmax) os = Ok (rs, c) /\ srun smax tmax [] os rs s /\
      set K V eqb c k v sz upd t = Ok c' /\ dbg K V c' = Ok ns /\
      (absent K V k s ->
        let s1 := s ++ [mkEntry K V k v sz t] in
        exists n, map (fun n => (n_key K V n, n_elem K V n)) ns =
                  map (fun e => (e_key K V e, Some (e_val K V e))) (skipn n s1) /\
          total (skipn n s1) <= smax /\ (forall m, (m < n)%nat -> total (skipn m s1) > smax)) /\
      (~ absent K V k s ->
        exists a e b, s = a ++ e :: b /\ e_key K V e = k /\
          map (fun n => (n_key K V n, n_elem K V n)) ns =
          map (fun e => (e_key K V e, Some (e_val K V e))) (a ++ b) ++ [(k, Some v)]).
  Proof.
    intros smax tmax os k v sz upd t Hm Ht Ho Hop Hf.
    assert (Hf1 : fits K V smax tmax [] os).
    { intros os1 k1 v1 sz1 upd1 now1 os2 rs s' -> R.
      apply (Hf os1 k1 v1 sz1 upd1 now1 (os2 ++ [OSet K V k v sz upd t]) rs s'); [|exact R].
      rewrite <- app_assoc. reflexivity. }
    destruct (run_ok os (create K V smax tmax) [] (create_rep smax tmax) Ho ltac:(constructor)
                ltac:(cbn; lia) ltac:(cbn; lia) Hf1) as [rs [c [l [E [R [M1 [M2 [T S]]]]]]]].
    cbn [create size_max time_max] in *.
    assert (Hlim : total (map snd l) + sz < 2 ^ 64).
    { apply (Hf os k v sz upd t [] rs (map snd l)); [reflexivity|exact S]. }
    destruct Hop as [Hsz _].
    destruct (set_ok K V eqb eqb_spec c l k v sz upd t R ltac:(lia) Hsz Hlim)
      as [c' [l' [E2 [R2 [_ [_ G]]]]]].
    pose proof R2 as R2'. destruct R2' as [Hd [Hb [_ [_ [_ [_ [_ [_ [_ [_ [_ [Hlen _]]]]]]]]]]]].
    destruct (walk_ok K V eqb eqb_spec l' (heap K V c') None (length (idx K V c')) Hd ltac:(lia)) as [ns [W M]].
    exists rs, c, c', (map snd l), ns. split; [exact E|]. split; [exact S|]. split; [exact E2|].
    split; [unfold dbg; rewrite Hb; exact W|].
    assert (M' : map (fun n => (n_key K V n, n_elem K V n)) ns =
                 map (fun e => (e_key K V e, Some (e_val K V e))) (map snd l')).
    { apply (f_equal (map (fun x : K * option V * Z * Z => let '(a, b, _, _) := x in (a, b)))) in M.
      rewrite !map_map in M. rewrite map_map. exact M. }
    rewrite M1 in G. inversion G; subst.
    - split; [|intros F; contradiction]. intros _.
      match goal with H : evict _ _ _ _ _ |- _ => destruct H as [n [Es [B1 B2]]] end.
      exists n. rewrite M', Es. rewrite Es in B1. auto.
    - split.
      + intros F. exfalso. apply (F e); [|reflexivity].
        apply in_or_app. right. left. reflexivity.
      + intros _. exists a, e, b. split; [reflexivity|]. split; [reflexivity|].
        rewrite M'. match goal with X : _ = map snd l' |- _ => rewrite <- X end.
        rewrite app_assoc, map_app. reflexivity.
  Qed.

  (** ** C44: the size limit *)

  Lemma limit_step : forall smax tmax s o r s', sstep K V smax tmax s o r s' ->
    Forall (fun e => 0 <= e_size K V e) s ->
    (total s <= smax -> total s' > smax ->
        exists k v sz upd now e, o = OSet K V k v sz upd now /\ In e s /\ e_key K V e = k /\
          e_size K V e < sz) /\
    (forall k v sz upd now, o = OSet K V k v sz upd now -> absent K V k s -> total s' <= smax).
  Proof.
    intros smax tmax s o r s' G N.
    assert (Rm : forall (a : list entry) e b, total (a ++ e :: b) = total (a ++ b) + e_size K V e).
    { intros a e b. rewrite !(total_app K V eqb eqb_spec). unfold Cache_Spec.total. cbn. lia. }
    assert (Nm : forall (a : list entry) e b, Forall (fun e => 0 <= e_size K V e) (a ++ e :: b) -> 0 <= e_size K V e).
    { intros a e b H. apply Forall_app in H. destruct H as [_ H]. inversion H. assumption. }
    destruct G as [s k now r s' G|s k v sz upd now s' G|s k b s' G].
    - split; [|discriminate]. intros L1 L2. exfalso. destruct G; try lia.
      rewrite Rm in L1. apply Nm in N. lia.
    - destruct G.
      + destruct H0 as [n [_ [L3 _]]]. split; [intros; lia|]. intros; exact L3.
      + split.
        * intros L1 L2. exists (e_key K V e), v, sz, upd, now, e. split; [reflexivity|].
          split; [apply in_or_app; right; left; reflexivity|]. split; [reflexivity|].
          rewrite Rm in L1. rewrite app_assoc, (total_app K V eqb eqb_spec (a ++ b)) in L2.
          unfold Cache_Spec.total at 2 in L2. cbn in L2. lia.
        * intros k v0 sz0 upd0 now0 E Ha. injection E as <- _ _ _ _. exfalso. apply (Ha e); [|reflexivity].
          apply in_or_app. right. left. reflexivity.
    - split; [|discriminate]. intros L1 L2. exfalso. destruct G; try lia.
      rewrite Rm in L1. apply Nm in N. lia.
  Qed.

  (** What is missing for C44: a set of a stored key does not evict, so the limit can
      be exceeded by overwriting a value by a larger one (refuted below).  Proved:
      whenever a call leaves the limit exceeded although it was kept before, the call is such
      an overwriting set; and after every set of a new key the limit holds again. *)
  Theorem C44_limit_partial : forall smax tmax os o,
    0 <= smax < 2 ^ 64 -> 0 <= tmax <= 2 ^ 63 -> Forall (op_ok K V) (os ++ [o]) ->
    fits K V smax tmax [] (os ++ [o]) ->
    exists rs c r c' s s', run K V eqb (create K V smax tmax) os = Ok (rs, c) /\
      srun smax tmax [] os rs s /\ step K V eqb c o = Ok (r, c') /\
      srun smax tmax [] (os ++ [o]) (rs ++ [r]) s' /\
      size_cur K V c = total s /\ size_cur K V c' = total s' /\
      (total s <= smax -> total s' > smax ->
        exists k v sz upd now e, o = OSet K V k v sz upd now /\ In e s /\ e_key K V e = k /\
          e_size K V e < sz) /\
      (forall k v sz upd now, o = OSet K V k v sz upd now -> absent K V k s -> total s' <= smax).
  Proof.
    intros smax tmax os o Hm Ht Ho Hf.
    assert (Hf1 : fits K V smax tmax [] os).
    { intros os1 k1 v1 sz1 upd1 now1 os2 rs s' -> R.
      apply (Hf os1 k1 v1 sz1 upd1 now1 (os2 ++ [o]) rs s'); [|exact R].
      rewrite <- app_assoc. reflexivity. }
    apply Forall_app in Ho. destruct Ho as [Ho1 Ho2]. inversion Ho2 as [|? ? Hop _]; subst.
    destruct (run_ok os (create K V smax tmax) [] (create_rep smax tmax) Ho1 ltac:(constructor)
                ltac:(cbn; lia) ltac:(cbn; lia) Hf1) as [rs [c [l [E [R [M1 [M2 [T S]]]]]]]].
    cbn [create size_max time_max] in *.
    destruct (step_ok c l o R Hop T ltac:(lia) ltac:(lia)) as [r [c' [l' [E2 [R2 [_ [_ G]]]]]]].
    { intros k v sz upd now ->. apply (Hf os k v sz upd now [] rs (map snd l)); [reflexivity|exact S]. }
    exists rs, c, r, c', (map snd l), (map snd l').
    split; [exact E|]. split; [exact S|]. split; [exact E2|]. rewrite M1, M2 in G.
    split.
    { eapply srun_snoc; [exact S|exact G]. }
    assert (N : Forall (fun e => 0 <= e_size K V e) (map snd l)) by (apply R).
    split; [apply R|]. split; [apply R2|].
    exact (limit_step _ _ _ _ _ _ G N).
  Qed.

  (** ** C46: expiry *)

  Lemma expiry_step : forall tmax s k now r s', sget K V tmax s k now r s' ->
    NoDup (map (e_key K V) s) ->
    forall e, In e s -> e_key K V e = k ->
        (tmax = 0 -> r = Some (e_val K V e) /\ s' = s) /\
        (tmax <> 0 -> now <= e_time K V e + tmax -> r = Some (e_val K V e) /\ s' = s) /\
        (tmax <> 0 -> now > e_time K V e + tmax -> r = None /\ absent K V k s').
  Proof.
    intros tmax s k now r s' G N.
    assert (U : forall a e' b e, NoDup (map (e_key K V) (a ++ e' :: b)) -> In e (a ++ e' :: b) ->
      e_key K V e = e_key K V e' -> e' = e).
    { intros a e' b e Nd Hin Hk.
      apply in_app_or in Hin. destruct Hin as [Hin|[Hin|Hin]]; [|exact Hin|];
        exfalso; eapply (nodup_keys_mid a e' b e Nd);
        try (apply in_or_app; eauto; fail); exact Hk. }
    destruct G as [s k now H|a e' b now H|a e' b now H]; intros e Hin Hk.
    - destruct (H e Hin Hk).
    - rewrite (U _ _ _ _ N Hin Hk) in *.
      split; [auto|]. split; [auto|]. intros X1 X2. exfalso. apply H. split; [exact X1|lia].
    - pose proof (U _ _ _ _ N Hin Hk) as E. subst e'. destruct H as [X1 X2].
      split; [intros; contradiction|]. split; [intros; lia|]. intros _ _. split; [reflexivity|].
      intros x Hx. exact (nodup_keys_mid _ _ _ _ N Hx).
  Qed.

  (** the time of an entry: the last set with do_update_time, or the insertion *)
  Theorem C46_expiry : forall smax tmax os k now,
    0 <= smax < 2 ^ 64 -> 0 <= tmax <= 2 ^ 63 -> Forall (op_ok K V) os -> 0 <= now < 2 ^ 63 ->
    fits K V smax tmax [] os ->
    exists rs c s r c' s', run K V eqb (create K V smax tmax) os = Ok (rs, c) /\
      srun smax tmax [] os rs s /\ get K V eqb c k now = Ok (r, c') /\
      srun smax tmax [] (os ++ [OGet K V k now]) (rs ++ [RGet V r]) s' /\
      (forall e, In e s -> e_key K V e = k ->
        (tmax = 0 -> r = Some (e_val K V e) /\ s' = s) /\
        (tmax <> 0 -> now <= e_time K V e + tmax -> r = Some (e_val K V e) /\ s' = s) /\
        (tmax <> 0 -> now > e_time K V e + tmax -> r = None /\ absent K V k s')).
  Proof.
    intros smax tmax os k now Hm Ht Ho Hnow Hf.
    destruct (run_ok os (create K V smax tmax) [] (create_rep smax tmax) Ho ltac:(constructor)
                ltac:(cbn; lia) ltac:(cbn; lia) Hf) as [rs [c [l [E [R [M1 [M2 [T S]]]]]]]].
    cbn [create size_max time_max] in *.
    assert (T' : Forall (fun e => 0 <= e_time K V e /\ e_time K V e + time_max K V c < 2 ^ 64) (map snd l)).
    { eapply Forall_impl; [|exact T]. intros e He. cbn in He. lia. }
    destruct (get_ok K V eqb eqb_spec c l k now R ltac:(lia) ltac:(lia) T')
      as [r [c' [l' [E2 [_ [_ [_ G]]]]]]]. rewrite M2 in G.
    exists rs, c, (map snd l), r, c', (map snd l'). split; [exact E|]. split; [exact S|]. split; [exact E2|].
    split.
    { eapply srun_snoc; [exact S|]. constructor. exact G. }
    destruct (origin_run _ _ _ _ _ _ S [] ltac:(constructor) ltac:(intros e [])) as [N _].
    exact (expiry_step _ _ _ _ _ _ G N).
  Qed.

  (** the stored time is the one of the last set with do_update_time or of the insertion *)
  Theorem C46_time : forall smax s k v sz (upd : bool) now s',
    sset K V smax s k v sz upd now s' -> NoDup (map (e_key K V) s) ->
    forall e', In e' s' -> e_key K V e' = k ->
      (upd = true -> e_time K V e' = now) /\
      (forall e, upd = false -> In e s -> e_key K V e = k -> e_time K V e' = e_time K V e) /\
      (absent K V k s -> e_time K V e' = now).
  Proof.
    intros smax s k v sz upd now s' H N e' Hin Hk. destruct H.
    - assert (E : e' = mkEntry K V k v sz now).
      { destruct H0 as [n [-> _]]. apply skipn_incl in Hin. apply in_app_or in Hin.
        destruct Hin as [Hin|[<-|[]]]; [|reflexivity]. destruct (H e' Hin Hk). }
      subst e'. repeat split; auto. intros e _ He Hke. destruct (H e He Hke).
    - assert (E : e' = mkEntry K V (e_key K V e) v sz (if upd then now else e_time K V e)).
      { rewrite app_assoc in Hin. apply in_app_or in Hin. destruct Hin as [Hin|[<-|[]]]; [|reflexivity].
        destruct (nodup_keys_mid _ _ _ _ N Hin Hk). }
      subst e'. cbn. split; [intros ->; reflexivity|]. split.
      + intros e2 -> He2 Hk2. apply in_app_or in He2. destruct He2 as [He2|[->|He2]]; [|reflexivity|];
          exfalso; eapply (nodup_keys_mid a e b e2 N); try (apply in_or_app; eauto; fail); exact Hk2.
      + intros F. exfalso. apply (F e); [|reflexivity]. apply in_or_app. right. left. reflexivity.
  Qed.
End Props.

(** ** Refutations *)

(** C44 is false: overwriting a value by a larger one leaves the limit exceeded *)
Theorem C44_limit_refuted : exists smax tmax os,
  0 <= smax < 2 ^ 64 /\ 0 <= tmax <= 2 ^ 63 /\ Forall (op_ok nat nat) os /\
  fits nat nat smax tmax [] os /\
  exists rs c, run nat nat Nat.eqb (create nat nat smax tmax) os = Ok (rs, c) /\
    size_cur nat nat c > smax.
Proof.
  exists 10, 0, [OSet nat nat 1%nat 7%nat 5 true 100; OSet nat nat 1%nat 8%nat 50 true 100].
  assert (Ho : Forall (op_ok nat nat) [OSet nat nat 1%nat 7%nat 5 true 100; OSet nat nat 1%nat 8%nat 50 true 100]).
  { repeat constructor; cbn; lia. }
  split; [lia|]. split; [lia|]. split; [exact Ho|]. split.
  - apply (sizes_fit nat nat Nat.eqb Nat.eqb_eq); [exact Ho|]. cbn. lia.
  - assert (C : match run nat nat Nat.eqb (create nat nat 10 0)
                  [OSet nat nat 1%nat 7%nat 5 true 100; OSet nat nat 1%nat 8%nat 50 true 100] with
                | Ok (_, c) => 10 <? size_cur nat nat c
                | _ => false
                end = true) by (vm_compute; reflexivity).
    destruct (run nat nat Nat.eqb (create nat nat 10 0)
                  [OSet nat nat 1%nat 7%nat 5 true 100; OSet nat nat 1%nat 8%nat 50 true 100])
      as [[rs c]|u|]; [|discriminate C|discriminate C].
    exists rs, c. split; [reflexivity|]. apply Z.ltb_lt in C. lia.
Qed.

(** C46 is false when time + time_max exceeds the range of size_t: an entry stored a
    moment ago is reported as expired *)
Theorem C46_expiry_refuted : exists smax tmax os now,
  0 <= smax < 2 ^ 64 /\ 0 <= tmax < 2 ^ 64 /\ Forall (op_ok nat nat) os /\
  exists rs c c', run nat nat Nat.eqb (create nat nat smax tmax) os = Ok (rs, c) /\
    os = [OSet nat nat 1%nat 7%nat 5 true now] /\
    get nat nat Nat.eqb c 1%nat now = Ok (None, c').
Proof.
  exists 10, (2 ^ 64 - 1), [OSet nat nat 1%nat 7%nat 5 true 100], 100.
  split; [lia|]. split; [lia|]. split; [repeat constructor; cbn; lia|].
  assert (C : match run nat nat Nat.eqb (create nat nat 10 (2 ^ 64 - 1)) [OSet nat nat 1%nat 7%nat 5 true 100] with
              | Ok (_, c) => match get nat nat Nat.eqb c 1%nat 100 with Ok (None, _) => true | _ => false end
              | _ => false
              end = true) by (vm_compute; reflexivity).
  destruct (run nat nat Nat.eqb (create nat nat 10 (2 ^ 64 - 1)) [OSet nat nat 1%nat 7%nat 5 true 100])
    as [[rs c]|u|]; [|discriminate C|discriminate C].
  destruct (get nat nat Nat.eqb c 1%nat 100) as [[[v|] c']|u|] eqn:G; try discriminate C.
  exists rs, c, c'. split; [reflexivity|]. split; [reflexivity|exact G].
Qed.

(** ** Examples *)
Definition demo : list (op nat nat) :=
  [OSet nat nat 1%nat 10%nat 4 true 100; OSet nat nat 2%nat 20%nat 4 true 101;
   OSet nat nat 1%nat 11%nat 4 false 102; OSet nat nat 3%nat 30%nat 4 true 103;
   OGet nat nat 1%nat 104; OGet nat nat 2%nat 104; OGet nat nat 3%nat 104;
   OErase nat nat 3%nat; OGet nat nat 1%nat 200].
Example C42_ex_hyp : Forall (op_ok nat nat) demo /\ fits nat nat 10 50 [] demo.
Proof.
  assert (Ho : Forall (op_ok nat nat) demo) by (repeat constructor; cbn; lia).
  split; [exact Ho|]. apply (sizes_fit nat nat Nat.eqb Nat.eqb_eq); [exact Ho|]. cbn. lia.
Qed.
(** 2 is evicted (1 was set again later); at 200 entry 1 of time 100 has expired *)
Example C42_ex_run :
  match run nat nat Nat.eqb (create nat nat 10 50) demo with
  | Ok (rs, c) => Some (rs, size_cur nat nat c)
  | _ => None
  end =
  Some ([RSet nat; RSet nat; RSet nat; RSet nat; RGet nat (Some 11%nat); RGet nat None;
         RGet nat (Some 30%nat); RErase nat true; RGet nat None], 0).
Proof. vm_compute. reflexivity. Qed.

Print Assumptions C45_refines.
Print Assumptions C45_refines_sum.
Print Assumptions C42_last_value.
Print Assumptions C42_set_then_get.
Print Assumptions C43_evict_order.
Print Assumptions C44_limit_partial.
Print Assumptions C44_limit_refuted.
Print Assumptions C46_expiry.
Print Assumptions C46_time.
Print Assumptions C46_expiry_refuted.
