(** Lemmas about the cache. *)

From Coq Require Import ZArith List Bool Lia Arith Permutation.
From Verif Require Import Base Cache_Model Cache_Spec.
Import ListNotations.
Local Open Scope Z_scope.

Section Cache.
  Set Default Proof Using "All".
  Variables K V : Type.
  Variable eqb : K -> K -> bool.
  Hypothesis eqb_spec : forall a b, eqb a b = true <-> a = b.

  Notation node := (node K V).
  Notation cache := (cache K V).
  Notation entry := (entry K V).
  Notation ent := (nat * entry)%type.

  Lemma eqb_refl : forall k, eqb k k = true.
  Proof. intros k. apply eqb_spec. reflexivity. Qed.
  Lemma eqb_ne : forall a b, a <> b -> eqb a b = false.
  Proof.
    intros a b H. destruct (eqb a b) eqn:E; [|reflexivity]. apply eqb_spec in E. contradiction.
  Qed.

  Definition mk (e : entry) (p q : option nat) : node :=
    mkNode K V (e_key K V e) (Some (e_val K V e)) p q (e_size K V e) (e_time K V e).

  Definition first (l : list ent) (q : option nat) : option nat :=
    match l with [] => q | (a, _) :: _ => Some a end.
  Fixpoint lastp (l : list ent) (p : option nat) : option nat :=
    match l with [] => p | (a, _) :: l => lastp l (Some a) end.
  Definition addrs (l : list ent) : list nat := map fst l.

  Fixpoint dseg (h : nat -> option node) (p : option nat) (l : list ent) (q : option nat) : Prop :=
    match l with
    | [] => True
    | (a, e) :: l => h a = Some (mk e p (first l q)) /\ dseg h (Some a) l q
    end.

  Lemma first_app : forall l1 l2 q, first (l1 ++ l2) q = first l1 (first l2 q).
  Proof. intros [|[a e] l1] l2 q; reflexivity. Qed.
  Lemma lastp_app : forall l1 l2 p, lastp (l1 ++ l2) p = lastp l2 (lastp l1 p).
  Proof. induction l1 as [|[a e] l1 IH]; intros l2 p; cbn; [reflexivity|apply IH]. Qed.

  Lemma dseg_app : forall l1 l2 h p q,
    dseg h p (l1 ++ l2) q <-> dseg h p l1 (first l2 q) /\ dseg h (lastp l1 p) l2 q.
  Proof.
    induction l1 as [|[a e] l1 IH]; intros l2 h p q; cbn [app dseg lastp]; [tauto|].
    rewrite first_app, IH. tauto.
  Qed.

  Lemma hset_same : forall h a (n : option node), hset K V h a n a = n.
  Proof. intros. unfold hset. rewrite Nat.eqb_refl. reflexivity. Qed.
  Lemma hset_other : forall h a b (n : option node), b <> a -> hset K V h a n b = h b.
  Proof. intros. unfold hset. destruct (Nat.eqb_spec b a); [contradiction|reflexivity]. Qed.

  Lemma dseg_frame : forall l h a n p q, ~ In a (addrs l) ->
    dseg h p l q -> dseg (hset K V h a n) p l q.
  Proof.
    induction l as [|[b e] l IH]; intros h a n p q Ha H; cbn [dseg addrs map fst In] in *; [exact I|].
    destruct H as [H1 H2]. split; [rewrite hset_other by tauto; exact H1|apply IH; tauto].
  Qed.

  Lemma dseg_in : forall l h p q a e, dseg h p l q -> In (a, e) l -> exists p' q', h a = Some (mk e p' q').
  Proof.
    induction l as [|[b e'] l IH]; intros h p q a e H Hin; [destruct Hin|].
    destruct Hin as [E|Hin]; cbn [dseg] in H; destruct H as [H1 H2].
    - injection E as <- <-. eauto.
    - eapply IH; eassumption.
  Qed.

  Lemma relink_first : forall l h p q b e p', NoDup (addrs ((b, e) :: l)) ->
    dseg h p ((b, e) :: l) q ->
    dseg (hset K V h b (Some (set_prev K V p' (mk e p (first l q))))) p' ((b, e) :: l) q.
  Proof.
    intros l h p q b e p' Hn [H1 H2]. inversion Hn; subst. cbn [dseg]. split.
    - rewrite hset_same. reflexivity.
    - apply dseg_frame; assumption.
  Qed.

  Lemma addrs_app : forall l1 l2, addrs (l1 ++ l2) = addrs l1 ++ addrs l2.
  Proof. intros. apply map_app. Qed.
  Lemma in_addrs : forall a e l, In (a, e) l -> In a (addrs l).
  Proof. intros a e l H. exact (in_map fst _ _ H). Qed.

  Lemma nodup_app_l : forall (a b : list nat), NoDup (a ++ b) -> NoDup a.
  Proof.
    induction a as [|x a IH]; intros b H; [constructor|]. cbn in H. inversion H; subst.
    constructor; [intros F; apply H2; apply in_or_app; left; exact F|exact (IH b H3)].
  Qed.
  Lemma nodup_app_r : forall (a b : list nat), NoDup (a ++ b) -> NoDup b.
  Proof.
    induction a as [|x a IH]; intros b H; [exact H|]. cbn in H. inversion H; subst. exact (IH b H3).
  Qed.
  Lemma nodup_mid : forall (pre : list nat) a post, NoDup (pre ++ a :: post) ->
    ~ In a pre /\ ~ In a post /\ NoDup (pre ++ post).
  Proof.
    intros pre a post H. apply NoDup_remove in H. destruct H as [H1 H2].
    repeat split; [| |exact H1]; intros F; apply H2; apply in_or_app; tauto.
  Qed.

  Lemma relink_last : forall l h p q z e q', NoDup (addrs (l ++ [(z, e)])) ->
    dseg h p (l ++ [(z, e)]) q ->
    dseg (hset K V h z (Some (set_next K V q' (mk e (lastp l p) q)))) p (l ++ [(z, e)]) q'.
  Proof.
    intros l h p q z e q' Hn H. rewrite addrs_app in Hn. apply nodup_mid in Hn.
    destruct Hn as [Hz _]. apply dseg_app in H. destruct H as [H1 [H2 _]].
    apply dseg_app. split; [apply dseg_frame; assumption|].
    cbn [dseg]. split; [|exact I]. rewrite hset_same. reflexivity.
  Qed.

  (** ** The representation invariant *)

  Definition rep (c : cache) (l : list ent) : Prop :=
    dseg (heap K V c) None l None /\
    begp K V c = first l None /\ endp K V c = lastp l None /\
    NoDup (addrs l) /\ NoDup (map (fun x => e_key K V (snd x)) l) /\
    (forall k a, find K eqb k (idx K V c) = Some a <-> exists e, In (a, e) l /\ e_key K V e = k) /\
    (forall a, heap K V c a <> None -> In a (addrs l)) /\
    (forall a, In a (addrs l) -> (a < fresh K V c)%nat) /\
    size_cur K V c = total K V (map snd l) /\ total K V (map snd l) < 2 ^ 64 /\
    Forall (fun e => 0 <= e_size K V e) (map snd l) /\
    length (idx K V c) = length l /\ NoDup (map fst (idx K V c)).

  Lemma total_app : forall a b, total K V (a ++ b) = total K V a + total K V b.
  Proof.
    induction a as [|e a IH]; intros b; [reflexivity|].
    cbn [app]. unfold total in *. cbn [fold_right]. rewrite IH. lia.
  Qed.
  Lemma total_nonneg : forall s, Forall (fun e => 0 <= e_size K V e) s -> 0 <= total K V s.
  Proof. induction 1; unfold total in *; cbn [fold_right]; lia. Qed.

  Lemma find_unindex_same : forall k i, find K eqb k (unindex K eqb k i) = None.
  Proof.
    intros k. induction i as [|[k' a] i IH]; cbn; [reflexivity|].
    destruct (eqb k k') eqn:E; [exact IH|]. cbn. rewrite E. exact IH.
  Qed.
  Lemma find_unindex_other : forall k k' i, k <> k' ->
    find K eqb k (unindex K eqb k' i) = find K eqb k i.
  Proof.
    intros k k' i Hne. induction i as [|[k2 a] i IH]; cbn; [reflexivity|].
    destruct (eqb k' k2) eqn:E.
    - apply eqb_spec in E. subst k2. rewrite (eqb_ne k k') by exact Hne. exact IH.
    - cbn. rewrite IH. reflexivity.
  Qed.
  Lemma unindex_notin : forall k i, ~ In k (map fst i) -> unindex K eqb k i = i.
  Proof.
    intros k. induction i as [|[k' a] i IH]; intros H; cbn in *; [reflexivity|].
    rewrite eqb_ne by (intros ->; tauto). rewrite IH by tauto. reflexivity.
  Qed.
  Lemma unindex_incl : forall k i x, In x (map fst (unindex K eqb k i)) -> In x (map fst i).
  Proof.
    intros k. induction i as [|[k' a] i IH]; intros x H; cbn in *; [exact H|].
    destruct (eqb k k'); cbn in H; [right; apply IH; exact H|]. destruct H; [left|right]; auto.
  Qed.
  Lemma unindex_nodup : forall k i, NoDup (map fst i) -> NoDup (map fst (unindex K eqb k i)).
  Proof.
    intros k. induction i as [|[k' a] i IH]; intros H; cbn in *; [constructor|].
    inversion H; subst. destruct (eqb k k'); [auto|]. cbn. constructor; [|auto].
    intros F. apply unindex_incl in F. contradiction.
  Qed.
  Lemma find_in : forall k i a, find K eqb k i = Some a -> In k (map fst i).
  Proof.
    intros k. induction i as [|[k' a'] i IH]; intros a H; cbn in *; [discriminate|].
    destruct (eqb k k') eqn:E; [left; symmetry; apply eqb_spec; exact E|right; eapply IH; exact H].
  Qed.
  Lemma unindex_length : forall k i a, NoDup (map fst i) -> find K eqb k i = Some a ->
    S (length (unindex K eqb k i)) = length i.
  Proof.
    intros k. induction i as [|[k' a'] i IH]; intros a Hn H; cbn in *; [discriminate|].
    inversion Hn as [|? ? Hk Hn']; subst. destruct (eqb k k') eqn:E.
    - apply eqb_spec in E. subst k'. rewrite unindex_notin by exact Hk. reflexivity.
    - cbn. rewrite (IH a Hn' H). reflexivity.
  Qed.

  (** an entry found by key splits the list *)
  Lemma rep_find : forall c l k a, rep c l -> find K eqb k (idx K V c) = Some a ->
    exists pre e post, l = pre ++ (a, e) :: post /\ e_key K V e = k /\
      heap K V c a = Some (mk e (lastp pre None) (first post None)).
  Proof.
    intros c l k a R H. destruct R as [Hd [_ [_ [Hn [_ [Hf _]]]]]].
    apply Hf in H. destruct H as [e [Hin Hk]]. apply in_split in Hin. destruct Hin as [pre [post E]].
    exists pre, e, post. split; [exact E|]. split; [exact Hk|].
    subst l. apply dseg_app in Hd. destruct Hd as [_ [Hd _]]. exact Hd.
  Qed.
  Lemma rep_absent : forall c l k, rep c l -> find K eqb k (idx K V c) = None ->
    absent K V k (map snd l).
  Proof.
    intros c l k R H e Hin Hk. destruct R as [_ [_ [_ [_ [_ [Hf _]]]]]].
    apply in_map_iff in Hin. destruct Hin as [[a e'] [E Hin]]. cbn in E. subst e'.
    assert (F : find K eqb k (idx K V c) = Some a) by (apply Hf; eauto). congruence.
  Qed.

  Lemma node_upd_ok : forall h a n f, h a = Some n ->
    node_upd K V h (Some a) f = Ok (hset K V h a (Some (f n))).
  Proof. intros h a n f H. unfold node_upd, node_at. rewrite H. reflexivity. Qed.

  Lemma last_case : forall l : list ent, l = [] \/ exists l' z e, l = l' ++ [(z, e)].
  Proof.
    intros l. destruct l as [|x l]; [left; reflexivity|right].
    destruct (@exists_last _ (x :: l) ltac:(discriminate)) as [l' [[z e] E]]. eauto.
  Qed.

  Lemma szt_small : forall z, 0 <= z < 2 ^ 64 -> szt z = z.
  Proof. intros z H. apply Z.mod_small. exact H. Qed.

  (** unlinking the node [a]: the heap after both link updates *)
  Definition unlink_heap (h : nat -> option node) (pre post : list ent) : nat -> option node :=
    fun x => if match post with (b, _) :: _ => (x =? b)%nat | [] => false end
             then match h x with Some n => Some (set_prev K V (lastp pre None) n) | None => None end
             else if match lastp pre None with Some z => (x =? z)%nat | None => false end
             then match h x with Some n => Some (set_next K V (first post None) n) | None => None end
             else h x.

  Lemma dseg_ext : forall l h h' p q, (forall a, In a (addrs l) -> h' a = h a) ->
    dseg h p l q -> dseg h' p l q.
  Proof.
    induction l as [|[a e] l IH]; intros h h' p q H D; cbn [dseg] in *; [exact I|].
    destruct D as [D1 D2]. split; [rewrite H by (left; reflexivity); exact D1|].
    apply (IH h); [|exact D2]. intros b Hb. apply H. right. exact Hb.
  Qed.

  Lemma lastp_in : forall l p z, lastp l p = Some z -> l <> [] -> In z (addrs l).
  Proof.
    induction l as [|[a e] l IH]; intros p z H Hne; [congruence|]. cbn [lastp] in H.
    destruct l as [|x l]; [cbn in H; injection H as <-; left; reflexivity|].
    right. apply (IH (Some a)); [exact H|discriminate].
  Qed.

  Lemma unlink_dseg : forall h pre a e post,
    NoDup (addrs (pre ++ (a, e) :: post)) -> dseg h None (pre ++ (a, e) :: post) None ->
    dseg (unlink_heap h pre post) None (pre ++ post) None.
  Proof.
    intros h pre a e post Hn D. rewrite addrs_app in Hn. cbn [addrs map fst] in Hn.
    apply nodup_mid in Hn. destruct Hn as [Hapre [Hapost Hn]].
    apply dseg_app in D. destruct D as [D1 [Da D2]]. cbn [first] in D1.
    assert (Disj : forall x, In x (addrs pre) -> ~ In x (addrs post)).
    { intros x H1 H2. clear -Hn H1 H2. unfold addrs in *. induction (map fst pre) as [|y l IH]; [destruct H1|].
      cbn in Hn. inversion Hn; subst. destruct H1 as [<-|H1]; [|apply IH; assumption].
      apply H3. apply in_or_app. right. exact H2. }
    apply dseg_app. split.
    - (* the prefix: only its last node changes *)
      destruct (last_case pre) as [->|[pre' [z [ez ->]]]]; [exact I|].
      assert (Hnz : NoDup (addrs (pre' ++ [(z, ez)]))).
      { exact (nodup_app_l _ _ Hn). }
      pose proof (relink_last pre' h None (Some a) z ez (first post None) Hnz D1) as R.
      apply (dseg_ext _ (hset K V h z (Some (set_next K V (first post None) (mk ez (lastp pre' None) (Some a))))));
        [|exact R].
      intros x Hx. unfold unlink_heap. rewrite lastp_app. cbn [lastp].
      assert (Nb : match post with (b, _) :: _ => (x =? b)%nat | [] => false end = false).
      { destruct post as [|[b eb] post]; [reflexivity|]. apply Nat.eqb_neq. intros ->.
        apply (Disj b Hx). left. reflexivity. }
      rewrite Nb. unfold hset. destruct (Nat.eqb_spec x z) as [->|_]; [|reflexivity].
      apply dseg_app in D1. destruct D1 as [_ [D1 _]]. rewrite D1. reflexivity.
    - destruct post as [|[b eb] post]; [exact I|].
      assert (Hnp : NoDup (addrs ((b, eb) :: post))) by (apply nodup_app_r in Hn; exact Hn).
      pose proof (relink_first post h (Some a) None b eb (lastp pre None) Hnp D2) as R.
      apply (dseg_ext _ (hset K V h b (Some (set_prev K V (lastp pre None) (mk eb (Some a) (first post None))))));
        [|exact R].
      intros x Hx. unfold unlink_heap, hset.
      destruct (Nat.eqb_spec x b) as [->|_]; [destruct D2 as [D2 _]; rewrite D2; reflexivity|].
      destruct (lastp pre None) as [z|] eqn:El; [|reflexivity].
      destruct (Nat.eqb_spec x z) as [->|_]; [|reflexivity].
      destruct pre as [|y pre]; [discriminate|]. apply lastp_in in El; [|discriminate].
      destruct (Disj z El Hx).
  Qed.

  Lemma unlink_exec : forall h pre a e post,
    NoDup (addrs (pre ++ (a, e) :: post)) -> dseg h None (pre ++ (a, e) :: post) None ->
    exists h1 h2,
      match first post None with
      | Some _ => node_upd K V h (first post None) (set_prev K V (lastp pre None))
      | None => Ok h
      end = Ok h1 /\ h1 a = h a /\
      match lastp pre None with
      | Some _ => node_upd K V h1 (lastp pre None) (set_next K V (first post None))
      | None => Ok h1
      end = Ok h2 /\ h2 a = h a /\
      (forall x, h2 x = unlink_heap h pre post x) /\ (forall x, h2 x <> None -> h x <> None).
  Proof.
    intros h pre a e post Hn D. rewrite addrs_app in Hn. cbn [addrs map fst] in Hn.
    apply nodup_mid in Hn. destruct Hn as [Hapre [Hapost Hn]].
    apply dseg_app in D. destruct D as [D1 [Da D2]]. cbn [first] in D1.
    assert (Disj : forall x, In x (addrs pre) -> ~ In x (addrs post)).
    { intros x H1 H2. clear -Hn H1 H2. unfold addrs in *. induction (map fst pre) as [|y l IH]; [destruct H1|].
      cbn in Hn. inversion Hn; subst. destruct H1 as [<-|H1]; [|apply IH; assumption].
      apply H3. apply in_or_app. right. exact H2. }
    assert (E1 : exists h1,
      match first post None with
      | Some _ => node_upd K V h (first post None) (set_prev K V (lastp pre None))
      | None => Ok h
      end = Ok h1 /\ forall x, h1 x = if match post with (b, _) :: _ => (x =? b)%nat | [] => false end
             then match h x with Some n => Some (set_prev K V (lastp pre None) n) | None => None end
             else h x).
    { destruct post as [|[b eb] post]; cbn [first].
      - exists h. split; [reflexivity|]. intros x. reflexivity.
      - destruct D2 as [D2 _]. rewrite (node_upd_ok h b _ _ D2).
        eexists. split; [reflexivity|]. intros x. unfold hset.
        destruct (Nat.eqb_spec x b) as [->|_]; [rewrite D2; reflexivity|reflexivity]. }
    destruct E1 as [h1 [E1 X1]]. exists h1.
    assert (A1 : h1 a = h a).
    { rewrite X1. destruct post as [|[b eb] post]; [reflexivity|].
      destruct (Nat.eqb_spec a b) as [->|_]; [|reflexivity]. destruct Hapost. left. reflexivity. }
    assert (E2 : exists h2,
      match lastp pre None with
      | Some _ => node_upd K V h1 (lastp pre None) (set_next K V (first post None))
      | None => Ok h1
      end = Ok h2 /\ forall x, h2 x = unlink_heap h pre post x).
    { destruct (last_case pre) as [->|[pre' [z [ez ->]]]].
      - cbn [lastp]. exists h1. split; [reflexivity|]. intros x. rewrite X1. reflexivity.
      - rewrite lastp_app. cbn [lastp]. apply dseg_app in D1. destruct D1 as [_ [D1 _]].
        cbn [first] in D1.
        assert (Hz : In z (addrs (pre' ++ [(z, ez)]))).
        { rewrite addrs_app. apply in_or_app. right. left. reflexivity. }
        assert (Z1 : match post with (b, _) :: _ => (z =? b)%nat | [] => false end = false).
        { destruct post as [|[b eb] post]; [reflexivity|]. apply Nat.eqb_neq. intros ->.
          apply (Disj b Hz). left. reflexivity. }
        assert (H1z : h1 z = Some (mk ez (lastp pre' None) (Some a))) by (rewrite X1, Z1; exact D1).
        rewrite (node_upd_ok h1 z _ _ H1z). eexists. split; [reflexivity|]. intros x.
        unfold unlink_heap, hset. rewrite lastp_app. cbn [lastp].
        destruct (Nat.eqb_spec x z) as [->|Nz].
        + rewrite Z1, D1. reflexivity.
        + rewrite X1, lastp_app. reflexivity. }
    destruct E2 as [h2 [E2 X2]]. exists h2.
    split; [exact E1|]. split; [exact A1|]. split; [exact E2|].
    assert (A2 : h2 a = h a).
    { rewrite X2. unfold unlink_heap. specialize (X1 a). rewrite A1 in X1.
      replace (match post with (b, _) :: _ => (a =? b)%nat | [] => false end) with false.
      - destruct (lastp pre None) as [z|] eqn:El; [|reflexivity].
        destruct (Nat.eqb_spec a z) as [->|_]; [|reflexivity].
        destruct pre as [|y pre]; [discriminate|]. apply lastp_in in El; [contradiction|discriminate].
      - destruct post as [|[b eb] post]; [reflexivity|]. symmetry. apply Nat.eqb_neq. intros ->.
        apply Hapost. left. reflexivity. }
    split; [exact A2|]. split; [exact X2|].
    intros x Hx Hc. apply Hx. rewrite X2. unfold unlink_heap. rewrite Hc.
    destruct post as [|[b eb] post]; [|destruct (x =? b)%nat]; destruct (lastp pre None) as [z|];
      try destruct (x =? z)%nat; reflexivity.
  Qed.

  (** ** Removing an entry *)

  Lemma in_remove : forall (pre post : list ent) x y, In x (pre ++ post) -> In x (pre ++ y :: post).
  Proof. intros pre post x y H. apply in_or_app. apply in_app_or in H. cbn. tauto. Qed.

  (** what remains of the invariant once the links skip the node and it is erased *)
  Lemma rep_remove : forall (c : cache) pre a e post h b' e' sz,
    rep c (pre ++ (a, e) :: post) ->
    dseg h None (pre ++ post) None ->
    (forall x, h x <> None -> heap K V c x <> None) ->
    b' = first (pre ++ post) None -> e' = lastp (pre ++ post) None ->
    sz = total K V (map snd (pre ++ post)) ->
    rep (mkCache K V (unindex K eqb (e_key K V e) (idx K V c)) (hset K V h a None) (fresh K V c)
           b' e' sz (size_max K V c) (time_max K V c)) (pre ++ post).
  Proof.
    intros c pre a e post h b' e' sz R D Hh -> -> ->.
    destruct R as [_ [_ [_ [Hn [Hk [Hf [Hl [Hfr [Hs [Ht [Hp [Hlen Hi]]]]]]]]]]]].
    assert (Hn' := Hn). rewrite addrs_app in Hn'. cbn [addrs map fst] in Hn'.
    apply nodup_mid in Hn'. destruct Hn' as [Na1 [Na2 Nn]].
    assert (Hk' := Hk). rewrite map_app in Hk'. cbn [map snd] in Hk'. apply NoDup_remove in Hk'.
    destruct Hk' as [Hk1 Hk2].
    unfold rep. cbn [heap begp endp idx fresh size_cur].
    assert (Na : ~ In a (addrs (pre ++ post))).
    { rewrite addrs_app. intros F. apply in_app_or in F. tauto. }
    split; [apply dseg_frame; assumption|]. split; [reflexivity|]. split; [reflexivity|].
    split; [rewrite addrs_app; exact Nn|]. split; [rewrite map_app; exact Hk1|].
    split.
    { intros k x. split.
      - intros F. destruct (eqb k (e_key K V e)) eqn:E.
        + apply eqb_spec in E. subst k. rewrite find_unindex_same in F. discriminate.
        + rewrite find_unindex_other in F by (intros ->; rewrite eqb_refl in E; discriminate).
          apply Hf in F. destruct F as [e1 [Hin He]]. exists e1. split; [|exact He].
          apply in_app_or in Hin. apply in_or_app. destruct Hin as [Hin|[Hin|Hin]]; [tauto| |tauto].
          injection Hin as <- <-. subst k. rewrite eqb_refl in E. discriminate.
      - intros [e1 [Hin He]].
        rewrite find_unindex_other.
        + apply Hf. exists e1. split; [apply in_remove; exact Hin|exact He].
        + intros ->. apply Hk2. rewrite <- map_app. rewrite <- He.
          exact (in_map (fun x => e_key K V (snd x)) _ _ Hin). }
    split.
    { intros x Hx. unfold hset in Hx. destruct (Nat.eqb_spec x a) as [E|Nx]; [congruence|].
      specialize (Hl x (Hh x Hx)). rewrite addrs_app in *. cbn [addrs map fst] in Hl.
      apply in_app_or in Hl. apply in_or_app. destruct Hl as [Hl|[Hl|Hl]]; [tauto|congruence|tauto]. }
    split.
    { intros x Hx. apply Hfr. rewrite addrs_app in *. cbn [addrs map fst].
      apply in_or_app. apply in_app_or in Hx. cbn. tauto. }
    rewrite map_app in *. cbn [map snd] in *. rewrite total_app in *.
    apply Forall_app in Hp. destruct Hp as [Hp1 Hp2]. inversion Hp2 as [|? ? Hpe Hp3]; subst.
    assert (Et : total K V (e :: map snd post) = e_size K V e + total K V (map snd post)) by reflexivity.
    split; [reflexivity|]. split; [lia|].
    split; [apply Forall_app; split; assumption|].
    split; [|apply unindex_nodup; exact Hi].
    assert (Fk : find K eqb (e_key K V e) (idx K V c) = Some a).
    { apply Hf. exists e. split; [apply in_or_app; right; left; reflexivity|reflexivity]. }
    pose proof (unindex_length _ _ _ Hi Fk) as L. rewrite Hlen in L.
    rewrite app_length in *. cbn [length] in L. lia.
  Qed.

  Lemma erase_it_ok : forall c pre a e post, rep c (pre ++ (a, e) :: post) ->
    exists c', erase_it K V eqb c (Some a) = Ok (true, c') /\ rep c' (pre ++ post) /\
      size_max K V c' = size_max K V c /\ time_max K V c' = time_max K V c.
  Proof.
    intros c pre a e post R.
    assert (R' := R). destruct R' as [Hd [Hb [He [Hn [_ [_ [_ [_ [Hs [Ht [Hp _]]]]]]]]]]].
    assert (Ha : heap K V c a = Some (mk e (lastp pre None) (first post None))).
    { apply dseg_app in Hd. destruct Hd as [_ [Hd _]]. exact Hd. }
    destruct (unlink_exec _ _ _ _ _ Hn Hd) as [h1 [h2 [E1 [A1 [E2 [A2 [X2 Hx]]]]]]].
    pose proof (unlink_dseg _ _ _ _ _ Hn Hd) as D2.
    assert (D3 : dseg h2 None (pre ++ post) None).
    { apply (dseg_ext _ (unlink_heap (heap K V c) pre post)); [intros x _; apply X2|exact D2]. }
    assert (Sz : szt (size_cur K V c - e_size K V e) = total K V (map snd (pre ++ post))).
    { rewrite Hs. rewrite !map_app in *. cbn [map snd] in *. rewrite !total_app in *.
      apply Forall_app in Hp. destruct Hp as [Hp1 Hp2]. inversion Hp2; subst.
      apply total_nonneg in Hp1. pose proof (total_nonneg _ H2).
      assert (Et : total K V (e :: map snd post) = e_size K V e + total K V (map snd post)) by reflexivity.
      rewrite szt_small; lia. }
    unfold erase_it. unfold node_at at 1. rewrite Ha. cbn [bind].
    change (n_next K V (mk e (lastp pre None) (first post None))) with (first post None).
    change (n_prev K V (mk e (lastp pre None) (first post None))) with (lastp pre None).
    (* the two link updates *)
    assert (S1 : match first post None with
                 | Some _ => h <- node_upd K V (heap K V c) (first post None) (set_prev K V (lastp pre None)) ;;
                             Ok (with_heap K V c h)
                 | None => Ok (with_endp K V c (lastp pre None))
                 end = Ok (mkCache K V (idx K V c) h1 (fresh K V c) (begp K V c)
                             (lastp (pre ++ post) None) (size_cur K V c) (size_max K V c) (time_max K V c))).
    { destruct post as [|[b eb] post]; cbn [first] in E1 |- *.
      - injection E1 as <-. rewrite app_nil_r. reflexivity.
      - rewrite E1. cbn [bind]. unfold with_heap. rewrite He, !lastp_app. reflexivity. }
    rewrite S1. cbn [bind]. unfold node_at at 1. cbn [heap]. rewrite A1, Ha. cbn [bind].
    change (n_next K V (mk e (lastp pre None) (first post None))) with (first post None).
    change (n_prev K V (mk e (lastp pre None) (first post None))) with (lastp pre None).
    match goal with |- context [with_heap K V ?c1 _] => set (c1' := c1) end.
    assert (S2 : match lastp pre None with
                 | Some _ => h <- node_upd K V h1 (lastp pre None) (set_next K V (first post None)) ;;
                             Ok (with_heap K V c1' h)
                 | None => Ok (with_begp K V c1' (first post None))
                 end = Ok (mkCache K V (idx K V c) h2 (fresh K V c) (first (pre ++ post) None)
                             (lastp (pre ++ post) None) (size_cur K V c) (size_max K V c) (time_max K V c))).
    { destruct (lastp pre None) as [z|] eqn:El.
      - rewrite E2. cbn [bind]. unfold c1', with_heap. cbn. rewrite Hb.
        destruct pre as [|[y ey] pre]; [discriminate|reflexivity].
      - injection E2 as <-. destruct (last_case pre) as [->|[pre' [z [ez ->]]]]; [reflexivity|].
        rewrite lastp_app in El. discriminate. }
    rewrite S2. cbn [bind]. unfold node_at at 1. cbn [heap]. rewrite A2, Ha. cbn [bind].
    unfold data_erase, with_size. cbn [heap idx fresh begp endp size_cur size_max time_max].
    unfold node_at. rewrite A2, Ha. cbn [bind]. eexists. split; [reflexivity|].
    split; [|split; reflexivity].
    apply (rep_remove c pre a e post h2); try assumption; reflexivity.
  Qed.

  Lemma in_total : forall (l : list ent) x, In x l -> Forall (fun e => 0 <= e_size K V e) (map snd l) ->
    e_size K V (snd x) <= total K V (map snd l).
  Proof.
    induction l as [|y l IH]; intros x H Hp; [destruct H|]. cbn [map snd] in *. inversion Hp; subst.
    change (total K V (snd y :: map snd l)) with (e_size K V (snd y) + total K V (map snd l)).
    pose proof (total_nonneg _ H3). destruct H as [<-|H]; [lia|]. specialize (IH x H H3). lia.
  Qed.

  (** ** Eviction *)

  Lemma drop_one_ok : forall l c a e, rep c ((a, e) :: l) ->
    exists c', drop_one K V eqb c = Ok c' /\ rep c' l /\
      size_max K V c' = size_max K V c /\ time_max K V c' = time_max K V c.
  Proof.
    intros l c a e R.
    pose proof R as R'; destruct R' as [Hd [Hb [He [Hn [_ [_ [_ [_ [Hs [Ht [Hp _]]]]]]]]]]].
    unfold drop_one.
    cbn [first] in Hb. rewrite Hb.
    destruct Hd as [Ha Hd]. unfold node_at at 1. rewrite Ha. cbn [bind].
    change (n_next K V (mk e None (first l None))) with (first l None).
    unfold with_begp. cbn [begp heap].
    assert (Hn' : NoDup (addrs ([] ++ (a, e) :: l))) by exact Hn.
    assert (Hd' : dseg (heap K V c) None ([] ++ (a, e) :: l) None) by (split; assumption).
    destruct (unlink_exec _ _ _ _ _ Hn' Hd') as [h1 [h2 [E1 [A1 [E2 [A2 [X2 Hx]]]]]]].
    cbn [lastp] in E2. injection E2 as <-.
    pose proof (unlink_dseg _ _ _ _ _ Hn' Hd') as D2.
    assert (D3 : dseg h1 None l None).
    { apply (dseg_ext _ (unlink_heap (heap K V c) [] l)); [intros x _; apply X2|exact D2]. }
    cbn [lastp] in E1.
    match goal with |- context [with_heap K V ?c1 _] => set (c1' := c1) end.
    assert (S1 : match first l None with
               | Some _ => h <- node_upd K V (heap K V c) (first l None) (set_prev K V None) ;;
                           Ok (with_heap K V c1' h)
               | None => Ok (with_endp K V c1' (first l None))
               end = Ok (mkCache K V (idx K V c) h1 (fresh K V c) (first l None)
                           (lastp l None) (size_cur K V c) (size_max K V c) (time_max K V c))).
    { destruct l as [|[b eb] l]; cbn [first] in E1 |- *.
      - injection E1 as <-. reflexivity.
      - rewrite E1. cbn [bind]. unfold with_heap, c1'. cbn. rewrite He. reflexivity. }
    rewrite S1. cbn [bind]. unfold node_at at 1. cbn [heap]. rewrite A1, Ha. cbn [bind].
    unfold data_erase, with_size. cbn [heap idx fresh begp endp size_cur size_max time_max].
    unfold node_at at 1. rewrite A1, Ha. cbn [bind].
    change (n_key K V (mk e None (first l None))) with (e_key K V e).
    change (n_size K V (mk e None (first l None))) with (e_size K V e).
    assert (Sz : szt (size_cur K V c - e_size K V e) = total K V (map snd l)).
    { rewrite Hs. cbn [map snd] in *. inversion Hp; subst. pose proof (total_nonneg _ H2).
      assert (Et : total K V (e :: map snd l) = e_size K V e + total K V (map snd l)) by reflexivity.
      rewrite szt_small; lia. }
    pose proof (rep_remove c [] a e l h1 (first l None) (lastp l None)
                  (szt (size_cur K V c - e_size K V e)) R D3 Hx eq_refl eq_refl Sz) as R1.
    cbn [app] in R1. eexists. split; [reflexivity|]. split; [exact R1|]. split; reflexivity.
  Qed.

  Lemma drop_loop_ok : forall l c fuel, rep c l -> 0 <= size_max K V c -> (length l <= fuel)%nat ->
    exists c' n, drop_loop K V eqb fuel c = Ok c' /\ rep c' (skipn n l) /\
      size_max K V c' = size_max K V c /\ time_max K V c' = time_max K V c /\
      total K V (map snd (skipn n l)) <= size_max K V c /\
      (forall m, (m < n)%nat -> total K V (map snd (skipn m l)) > size_max K V c).
  Proof.
    induction l as [|[a e] l IH]; intros c fuel R Hm Hf;
      pose proof R as R'; destruct R' as [Hd [Hb [He [Hn [_ [_ [_ [_ [Hs [Ht [Hp _]]]]]]]]]]].
    - exists c, O. cbn [skipn map] in *. change (total K V []) with 0 in *.
      destruct fuel; cbn [drop_loop]; rewrite Hs; destruct (Z.ltb_spec (size_max K V c) 0); try lia;
        cbn [negb]; (split; [reflexivity|]; split; [exact R|]; split; [reflexivity|]; split; [reflexivity|];
          split; [lia|]; intros m Hlt; lia).
    - destruct fuel as [|fuel]; [cbn in Hf; lia|]. cbn [drop_loop].
      destruct (Z.ltb_spec (size_max K V c) (size_cur K V c)) as [Hgt|Hle]; cbn [negb].
      2:{ exists c, O. cbn [skipn]. split; [reflexivity|]. split; [exact R|]. split; [reflexivity|].
          split; [reflexivity|]. split; [lia|]. intros m Hlt. lia. }
      destruct (drop_one_ok l c a e R) as [c1 [E1 [R1 [N1 N2]]]]. rewrite E1. cbn [bind].
      destruct (IH c1 fuel R1 ltac:(lia) ltac:(cbn in Hf; lia))
        as [c' [n [E [R2 [M1 [M2 [M3 M4]]]]]]].
      exists c', (S n). cbn [skipn]. split; [exact E|]. split; [exact R2|]. split; [congruence|].
      split; [congruence|]. split; [lia|].
      intros [|m] Hlt; [cbn [skipn]; lia|]. rewrite <- N1. apply M4. lia.
  Qed.

  Lemma drop_ok : forall l c, rep c l -> 0 <= size_max K V c ->
    exists c' l', drop_last_unused K V eqb c = Ok c' /\ rep c' l' /\
      size_max K V c' = size_max K V c /\ time_max K V c' = time_max K V c /\
      evict K V (size_max K V c) (map snd l) (map snd l').
  Proof.
    intros l c R Hm. unfold drop_last_unused.
    assert (G : forall fuel, (length l <= fuel)%nat ->
      exists c' l', drop_loop K V eqb fuel c = Ok c' /\ rep c' l' /\
      size_max K V c' = size_max K V c /\ time_max K V c' = time_max K V c /\
      evict K V (size_max K V c) (map snd l) (map snd l')).
    { intros fuel Hf. destruct (drop_loop_ok l c fuel R Hm Hf) as [c' [n [E [R2 [M1 [M2 [M3 M4]]]]]]].
      exists c', (skipn n l). split; [exact E|]. split; [exact R2|]. split; [exact M1|].
      split; [exact M2|]. exists n.
      assert (Es : forall m, skipn m (map snd l) = map snd (skipn m l)).
      { intros m. clear. revert m. induction l as [|x l IH]; intros [|m]; try reflexivity. apply IH. }
      rewrite Es. split; [reflexivity|]. split; [exact M3|]. intros m Hlt. rewrite Es. apply M4. exact Hlt. }
    destruct (begp K V c) eqn:Eb.
    - apply G. pose proof R as R'. destruct R' as [_ [_ [_ [_ [_ [_ [_ [_ [_ [_ [_ [Hlen _]]]]]]]]]]]]. lia.
    - pose proof R as R'. destruct R' as [_ [Hb _]]. rewrite Eb in Hb.
      destruct l as [|[x e] l]; [|discriminate].
      exists c, []. split; [reflexivity|]. split; [exact R|]. split; [reflexivity|]. split; [reflexivity|].
      exists O. split; [reflexivity|]. split; [exact Hm|].
      intros m Hlt. lia.
  Qed.

  (** ** Storing *)

  Lemma rep_bounds : forall c l, rep c l -> 0 <= size_cur K V c < 2 ^ 64.
  Proof.
    intros c l R. destruct R as [_ [_ [_ [_ [_ [_ [_ [_ [Hs [Ht [Hp _]]]]]]]]]]].
    rewrite Hs. split; [apply total_nonneg; exact Hp|exact Ht].
  Qed.

  (** the value, size and time of the last node are replaced *)
  Lemma refill_ok : forall c pre a e v sz upd now, rep c (pre ++ [(a, e)]) -> 0 <= sz ->
    total K V (map snd pre) + sz < 2 ^ 64 ->
    exists c', refill K V c a v sz now upd = Ok c' /\
      rep c' (pre ++ [(a, mkEntry K V (e_key K V e) v sz (if upd : bool then now else e_time K V e))]) /\
      size_max K V c' = size_max K V c /\ time_max K V c' = time_max K V c.
  Proof.
    intros c pre a e v sz upd now R H0 Hlim.
    pose proof R as R'. destruct R' as [Hd [Hb [He [Hn [Hk [Hf [Hl [Hfr [Hs [Ht [Hp [Hlen Hi]]]]]]]]]]]].
    apply dseg_app in Hd. destruct Hd as [Hd [Ha _]]. cbn [first] in Hd, Ha.
    set (e2 := mkEntry K V (e_key K V e) v sz (if upd then now else e_time K V e)).
    rewrite map_app in Hs, Ht, Hp. cbn [map snd] in Hs, Ht, Hp. rewrite total_app in Hs, Ht.
    change (total K V [e]) with (e_size K V e + 0) in Hs, Ht.
    apply Forall_app in Hp. destruct Hp as [Hp1 Hp2]. inversion Hp2 as [|? ? Hpe _]; subst.
    pose proof (total_nonneg _ Hp1) as T0.
    assert (Hna : ~ In a (addrs pre)).
    { rewrite addrs_app in Hn. apply nodup_mid in Hn. tauto. }
    assert (G : forall h, (forall x, x <> a -> h x = heap K V c x) ->
      h a = Some (mk e2 (lastp pre None) None) ->
      rep (mkCache K V (idx K V c) h (fresh K V c) (begp K V c) (endp K V c)
             (total K V (map snd pre) + sz) (size_max K V c) (time_max K V c)) (pre ++ [(a, e2)])).
    { intros h Ho Hh. unfold rep. cbn [heap begp endp idx fresh size_cur].
      split.
      { apply dseg_app. split.
        - apply (dseg_ext _ (heap K V c)); [|exact Hd]. intros x Hx. apply Ho. intros ->. contradiction.
        - cbn [dseg first]. split; [exact Hh|exact I]. }
      split; [rewrite Hb, !first_app; reflexivity|]. split; [rewrite He, !lastp_app; reflexivity|].
      rewrite !addrs_app in *. split; [exact Hn|].
      split; [rewrite map_app in *; exact Hk|].
      split.
      { intros k x. rewrite Hf. split; intros [e1 [Hin Hke]]; apply in_app_or in Hin.
        - destruct Hin as [Hin|[Hin|[]]].
          + exists e1. split; [apply in_or_app; left; exact Hin|exact Hke].
          + injection Hin as <- <-. exists e2. split; [apply in_or_app; right; left; reflexivity|exact Hke].
        - destruct Hin as [Hin|[Hin|[]]].
          + exists e1. split; [apply in_or_app; left; exact Hin|exact Hke].
          + injection Hin as <- <-. exists e. split; [apply in_or_app; right; left; reflexivity|exact Hke]. }
      split.
      { intros x Hx. apply (Hl x). destruct (Nat.eq_dec x a) as [->|Nx]; [rewrite Ha; discriminate|].
        rewrite <- Ho by exact Nx. exact Hx. }
      split; [exact Hfr|]. rewrite map_app. cbn [map snd]. rewrite total_app.
      change (total K V [e2]) with (sz + 0).
      split; [lia|]. split; [lia|]. split; [apply Forall_app; split; [exact Hp1|constructor; [exact H0|constructor]]|].
      split; [rewrite Hlen, !app_length; reflexivity|exact Hi]. }
    unfold refill. unfold node_at at 1. rewrite Ha. cbn [bind].
    change (n_size K V (mk e (lastp pre None) None)) with (e_size K V e).
    unfold with_size at 1 2. cbn [heap]. rewrite (node_upd_ok _ _ _ _ Ha). cbn [bind].
    rewrite (node_upd_ok _ a _ _ (hset_same _ _ _)). cbn [bind].
    unfold with_heap at 1 2. cbn [heap]. unfold node_at at 1. rewrite hset_same. cbn [bind].
    unfold with_size, with_heap.
    cbn [heap idx fresh begp endp size_cur size_max time_max mk set_size set_elem n_size n_key n_elem n_prev n_next n_time].
    assert (Sz : szt (szt (size_cur K V c - e_size K V e) + sz) = total K V (map snd pre) + sz).
    { rewrite Hs. rewrite (szt_small (_ - _)) by lia. rewrite szt_small; lia. }
    rewrite Sz. destruct upd.
    - rewrite (node_upd_ok _ a _ _ (hset_same _ _ _)). cbn [bind]. eexists. split; [reflexivity|].
      split; [|split; reflexivity]. apply G.
      + intros x Nx. rewrite !hset_other by exact Nx. reflexivity.
      + rewrite hset_same. reflexivity.
    - eexists. split; [reflexivity|]. split; [|split; reflexivity]. apply G.
      + intros x Nx. rewrite !hset_other by exact Nx. reflexivity.
      + rewrite hset_same. reflexivity.
  Qed.

  (** the links are rearranged, the entries stay *)
  Lemma rep_move : forall c pre a e post h b' e',
    rep c (pre ++ (a, e) :: post) ->
    dseg h None ((pre ++ post) ++ [(a, e)]) None ->
    (forall x, h x <> None -> heap K V c x <> None) ->
    b' = first ((pre ++ post) ++ [(a, e)]) None -> e' = Some a ->
    rep (mkCache K V (idx K V c) h (fresh K V c) b' e' (size_cur K V c) (size_max K V c)
           (time_max K V c)) ((pre ++ post) ++ [(a, e)]).
  Proof.
    intros c pre a e post h b' e' R D Hh -> ->.
    destruct R as [_ [_ [_ [Hn [Hk [Hf [Hl [Hfr [Hs [Ht [Hp [Hlen Hi]]]]]]]]]]]].
    assert (P : forall x, In x ((pre ++ post) ++ [(a, e)]) <-> In x (pre ++ (a, e) :: post)).
    { intros x. rewrite !in_app_iff. cbn. tauto. }
    assert (Pa : forall x, In x (addrs ((pre ++ post) ++ [(a, e)])) <-> In x (addrs (pre ++ (a, e) :: post))).
    { intros x. rewrite !addrs_app, !in_app_iff. cbn. tauto. }
    unfold rep. cbn [heap begp endp idx fresh size_cur].
    split; [exact D|]. split; [reflexivity|]. split; [rewrite lastp_app; reflexivity|].
    split.
    { rewrite !addrs_app in *. cbn [addrs map fst] in *. rewrite <- app_assoc.
      apply (Permutation_NoDup (l := map fst pre ++ a :: map fst post)); [|exact Hn].
      apply Permutation_app_head. apply Permutation_cons_append. }
    split.
    { rewrite !map_app in *. cbn [map] in *. rewrite <- app_assoc.
      eapply Permutation_NoDup; [|exact Hk].
      apply Permutation_app_head. apply Permutation_cons_append. }
    split.
    { intros k x. rewrite Hf. split; intros [e1 [Hin Hke]]; exists e1; (split; [apply P; exact Hin|exact Hke]). }
    split; [intros x Hx; apply Pa; apply Hl; apply Hh; exact Hx|].
    split; [intros x Hx; apply Hfr; apply Pa; exact Hx|].
    assert (Et : total K V (map snd ((pre ++ post) ++ [(a, e)])) = total K V (map snd (pre ++ (a, e) :: post))).
    { rewrite !map_app. cbn [map snd]. rewrite !total_app.
      change (total K V [e]) with (e_size K V e + 0).
      change (total K V (e :: map snd post)) with (e_size K V e + total K V (map snd post)). lia. }
    split; [congruence|]. split; [lia|].
    split.
    { rewrite Forall_forall in *. intros x Hx. apply Hp. apply in_map_iff in Hx.
      destruct Hx as [y [<- Hy]]. apply in_map. apply P. exact Hy. }
    split; [|exact Hi]. rewrite Hlen, !app_length. cbn [length]. lia.
  Qed.

  Definition rest_total (c : cache) (l : list ent) (k : K) : Z :=
    total K V (filter (fun e => negb (eqb (e_key K V e) k)) (map snd l)).

  Lemma move_back_ok : forall c pre a e post, rep c (pre ++ (a, e) :: post) ->
    exists c', move_back K V c a = Ok c' /\ rep c' ((pre ++ post) ++ [(a, e)]) /\
      size_max K V c' = size_max K V c /\ time_max K V c' = time_max K V c /\ size_cur K V c' = size_cur K V c.
  Proof.
    intros c pre a e post R.
    assert (Ha : heap K V c a = Some (mk e (lastp pre None) (first post None))).
    { destruct R as [Hd _]. apply dseg_app in Hd. destruct Hd as [_ [Hd _]]. exact Hd. }
    unfold move_back. unfold node_at at 1. rewrite Ha. cbn [bind].
    change (n_next K V (mk e (lastp pre None) (first post None))) with (first post None).
    change (n_prev K V (mk e (lastp pre None) (first post None))) with (lastp pre None).
    destruct (first post None) as [b|] eqn:Efst.
    2:{ destruct post as [|[b eb] post]; [|discriminate]. rewrite app_nil_r. eauto 6. }
        pose proof R as R'. destruct R' as [Hd [Hb [He [Hn _]]]].
        destruct (unlink_exec _ _ _ _ _ Hn Hd) as [h1 [h2 [E1 [A1 [E2 [A2 [X2 Hx]]]]]]].
        rewrite Efst in E1, E2. rewrite E1. cbn [bind].
        unfold with_heap at 1 2. cbn [heap]. unfold node_at at 1. rewrite A1, Ha. cbn [bind].
        change (n_next K V (mk e (lastp pre None) (Some b))) with (Some b).
        change (n_prev K V (mk e (lastp pre None) (Some b))) with (lastp pre None).
        pose proof (unlink_dseg _ _ _ _ _ Hn Hd) as D2.
        assert (D3 : dseg h2 None (pre ++ post) None).
        { apply (dseg_ext _ (unlink_heap (heap K V c) pre post)); [intros x _; apply X2|exact D2]. }
        match goal with |- context [with_begp K V ?c1 _] => set (c1' := c1) end.
        assert (S2 : match lastp pre None with
                 | Some _ => h <- node_upd K V h1 (lastp pre None) (set_next K V (Some b)) ;;
                             Ok (with_heap K V c1' h)
                 | None => Ok (with_begp K V c1' (Some b))
                 end = Ok (mkCache K V (idx K V c) h2 (fresh K V c) (first (pre ++ post) None)
                             (lastp (pre ++ post) None) (size_cur K V c) (size_max K V c) (time_max K V c))).
        { assert (Hlast : lastp (pre ++ (a, e) :: post) None = lastp (pre ++ post) None).
          { rewrite !lastp_app. destruct post as [|[y ey] post]; [discriminate|reflexivity]. }
          destruct (lastp pre None) as [z|] eqn:El.
          - rewrite E2. cbn [bind]. unfold c1', with_heap. cbn. rewrite Hb, He, Hlast.
            destruct pre as [|[y ey] pre]; [discriminate|reflexivity].
          - injection E2 as <-. destruct (last_case pre) as [->|[pre' [z [ez ->]]]].
            + unfold c1', with_begp. cbn. rewrite He. cbn in Hlast. cbn. rewrite Hlast, Efst. reflexivity.
            + rewrite lastp_app in El. discriminate. }
        rewrite S2. cbn [bind heap]. rewrite Ha in A2.
        rewrite (node_upd_ok _ _ _ _ A2). cbn [bind endp].
        rewrite (node_upd_ok _ a _ _ (hset_same _ _ _)). cbn [bind].
        destruct (last_case (pre ++ post)) as [El|[l' [z [ez El]]]].
        { destruct pre; [|discriminate]. cbn in El. subst post. discriminate. }
        assert (Hnz : z <> a /\ NoDup (addrs (l' ++ [(z, ez)])) /\ ~ In a (addrs (l' ++ [(z, ez)]))).
        { pose proof Hn as Hn2. rewrite addrs_app in Hn2. apply nodup_mid in Hn2.
          rewrite <- El. rewrite addrs_app. split; [|split; [tauto|]].
          - intros ->. assert (F : In a (addrs (pre ++ post))).
            { rewrite El, addrs_app. apply in_or_app. right. left. reflexivity. }
            rewrite addrs_app in F. apply in_app_or in F. tauto.
          - intros F. apply in_app_or in F. tauto. }
        destruct Hnz as [Hza [Hnz Hna]].
        assert (Hlz : lastp (pre ++ post) None = Some z) by (rewrite El, lastp_app; reflexivity).
        rewrite Hlz. rewrite El in D3.
        assert (Hh2z : h2 z = Some (mk ez (lastp l' None) None)).
        { apply dseg_app in D3. destruct D3 as [_ [D3 _]]. exact D3. }
        match goal with |- context [node_upd K V ?h (Some z) _] =>
          assert (Hz4 : h z = Some (mk ez (lastp l' None) None))
            by (rewrite !hset_other by exact Hza; exact Hh2z) end.
        rewrite (node_upd_ok _ _ _ _ Hz4). cbn [bind].
        unfold with_heap, with_endp. cbn [heap idx fresh begp endp size_cur size_max time_max].
        match goal with |- context [mkCache K V _ ?h _ _ (Some a) _ _ _] => set (h5 := h) end.
        assert (R5 : rep (mkCache K V (idx K V c) h5 (fresh K V c) (first (pre ++ post) None) (Some a)
                       (size_cur K V c) (size_max K V c) (time_max K V c)) ((pre ++ post) ++ [(a, e)])).
        { apply rep_move; try reflexivity; [exact R| | |].
          - rewrite El. apply dseg_app. split.
            + cbn [first]. unfold h5.
              apply (dseg_ext _ (hset K V h2 z (Some (set_next K V (Some a) (mk ez (lastp l' None) None))))).
              * intros x Hin. unfold hset. destruct (Nat.eqb_spec x z); [reflexivity|].
                destruct (Nat.eqb_spec x a) as [->|_]; [contradiction|reflexivity].
              * apply relink_last; assumption.
            + cbn [dseg first]. split; [|exact I]. unfold h5.
              rewrite hset_other by congruence. rewrite hset_same. cbn.
              rewrite <- El, Hlz. reflexivity.
          - intros x Hxx. unfold h5 in Hxx. unfold hset in Hxx.
            destruct (Nat.eqb_spec x z) as [E|_]; [apply Hx; rewrite E, Hh2z; discriminate|].
            destruct (Nat.eqb_spec x a) as [E|_]; [rewrite E, Ha; discriminate|apply Hx; exact Hxx].
          - rewrite (first_app (pre ++ post)). rewrite El.
            destruct l' as [|[y ey] l']; reflexivity. }
        eexists. split; [reflexivity|]. split; [exact R5|]. split; [reflexivity|]. split; reflexivity.
  Qed.

  Lemma new_ok : forall c l k v sz now, rep c l -> find K eqb k (idx K V c) = None -> 0 <= sz ->
    total K V (map snd l) + sz < 2 ^ 64 ->
    exists c1 c', link_new K V c k now = Ok c1 /\ fill_new K V c1 (fresh K V c) v sz = Ok c' /\
      rep c' (l ++ [(fresh K V c, mkEntry K V k v sz now)]) /\
      size_max K V c' = size_max K V c /\ time_max K V c' = time_max K V c.
  Proof.
      intros c l k v sz now R Ef H0 Hlim. unfold link_new.
      pose proof (rep_absent _ _ _ R Ef) as Habs.
      pose proof R as R'. destruct R' as [Hd [Hb [He [Hn [Hk [Hf [Hl [Hfr [Hs [Ht [Hp [Hlen Hi]]]]]]]]]]]].
      set (a := fresh K V c). cbn [heap endp begp idx fresh size_cur size_max time_max].
      assert (Hna : ~ In a (addrs l)) by (intros F; apply Hfr in F; unfold a in F; lia).
      rewrite (node_upd_ok _ a _ _ (hset_same _ _ _)). cbn [bind].
      set (e := mkEntry K V k v sz now).
      match goal with |- context [node_upd K V ?h (endp K V c) _] => set (h1 := h) end.
      assert (H1a : h1 a = Some (mkNode K V k None (endp K V c) None 0 now)).
      { unfold h1. rewrite hset_same. reflexivity. }
      assert (D1 : dseg h1 None l None).
      { unfold h1. apply dseg_frame; [exact Hna|]. apply dseg_frame; [exact Hna|exact Hd]. }
      assert (S1 : exists h2, match endp K V c with
                   | Some _ => node_upd K V h1 (endp K V c) (set_next K V (Some a))
                   | None => Ok h1
                   end = Ok h2 /\ h2 a = h1 a /\ dseg h2 None l (Some a) /\
                   (forall x, h2 x <> None -> h1 x <> None)).
      { rewrite He. destruct (last_case l) as [->|[l' [z [ez ->]]]].
        - cbn [lastp]. exists h1. repeat split; auto.
        - rewrite lastp_app. cbn [lastp]. pose proof D1 as D1'. apply dseg_app in D1'.
          destruct D1' as [_ [D1' _]]. cbn [first] in D1'.
          rewrite (node_upd_ok _ _ _ _ D1'). eexists. split; [reflexivity|].
          split.
          { apply hset_other. intros ->. apply Hna. rewrite addrs_app. apply in_or_app. right. left. reflexivity. }
          split; [apply relink_last; assumption|].
          intros x Hx Hc. apply Hx. unfold hset. destruct (Nat.eqb_spec x z) as [->|_]; [congruence|exact Hc]. }
      destruct S1 as [h2 [S1 [H2a [D2 Hx2]]]]. rewrite S1. cbn [bind]. rewrite H1a in H2a.
      unfold with_endp, with_heap. cbn [heap endp begp idx fresh size_cur size_max time_max].
      match goal with |- context [match begp K V c with Some _ => ?x | None => ?y end] =>
        assert (S2 : match begp K V c with Some _ => x | None => y end =
          mkCache K V ((k, a) :: idx K V c) h2 (S a) (first l (Some a)) (Some a) (size_cur K V c)
            (size_max K V c) (time_max K V c)) end.
      { rewrite Hb. destruct l as [|[y ey] l]; reflexivity. }
      rewrite S2. clear S2. eexists. enough (G : exists c', fill_new K V (mkCache K V ((k, a) :: idx K V c) h2 (S a) (first l (Some a)) (Some a) (size_cur K V c)
            (size_max K V c) (time_max K V c)) a v sz = Ok c' /\ rep c' (l ++ [(a, e)]) /\
          size_max K V c' = size_max K V c /\ time_max K V c' = time_max K V c).
      { destruct G as [c' G]. exists c'. split; [reflexivity|exact G]. }
      unfold fill_new. cbn [heap]. rewrite (node_upd_ok _ _ _ _ H2a). cbn [bind].
      rewrite (node_upd_ok _ a _ _ (hset_same _ _ _)). cbn [bind].
      unfold with_heap. cbn [heap endp begp idx fresh size_cur size_max time_max].
      unfold node_at. rewrite hset_same. cbn [bind]. unfold with_size.
      cbn [heap endp begp idx fresh size_cur size_max time_max set_size set_elem n_size n_key n_elem n_prev n_next n_time].
      match goal with |- context [mkCache K V _ ?h _ _ _ (szt _) _ _] => set (h3 := h) end.
      assert (R3 : rep (mkCache K V ((k, a) :: idx K V c) h3 (S a) (first l (Some a)) (Some a)
                     (szt (size_cur K V c + sz)) (size_max K V c) (time_max K V c)) (l ++ [(a, e)])).
      { unfold rep. cbn [heap begp endp idx fresh size_cur].
        split.
        { apply dseg_app. cbn [first]. split.
          - unfold h3. apply dseg_frame; [exact Hna|]. apply dseg_frame; [exact Hna|exact D2].
          - cbn [dseg first]. split; [|exact I]. unfold h3. rewrite hset_same, He. reflexivity. }
        split; [rewrite first_app; reflexivity|]. split; [rewrite lastp_app; reflexivity|].
        split.
        { rewrite addrs_app. cbn [addrs map fst].
          apply (Permutation_NoDup (l := a :: addrs l)); [apply Permutation_cons_append|].
          constructor; assumption. }
        split.
        { rewrite map_app. cbn [map snd e_key e].
          apply (Permutation_NoDup (l := k :: map (fun x => e_key K V (snd x)) l));
            [apply Permutation_cons_append|].
          constructor; [|exact Hk]. intros F. apply in_map_iff in F. destruct F as [y [Ey Hy]].
          apply (Habs (snd y)); [apply in_map; exact Hy|exact Ey]. }
        split.
        { intros k' x. cbn [find]. destruct (eqb k' k) eqn:Ek.
          - apply eqb_spec in Ek. subst k'. split.
            + intros E. injection E as <-. exists e. split; [apply in_or_app; right; left; reflexivity|reflexivity].
            + intros [e1 [Hin He1]]. apply in_app_or in Hin. destruct Hin as [Hin|[Hin|[]]].
              * destruct (Habs e1); [|exact He1]. exact (in_map snd _ _ Hin).
              * injection Hin as <- _. reflexivity.
          - rewrite Hf. split; intros [e1 [Hin He1]].
            + exists e1. split; [apply in_or_app; left; exact Hin|exact He1].
            + apply in_app_or in Hin. destruct Hin as [Hin|[Hin|[]]]; [eauto|].
              injection Hin as _ <-. cbn in He1. subst k'. rewrite eqb_refl in Ek. discriminate. }
        split.
        { intros x Hx. rewrite addrs_app. apply in_or_app.
          destruct (Nat.eq_dec x a) as [->|Nx]; [right; left; reflexivity|left].
          unfold h3 in Hx. rewrite !hset_other in Hx by exact Nx. apply Hx2 in Hx.
          unfold h1 in Hx. rewrite !hset_other in Hx by exact Nx. apply Hl. exact Hx. }
        split.
        { intros x Hx. rewrite addrs_app in Hx. apply in_app_or in Hx. destruct Hx as [Hx|[<-|[]]].
          - apply Hfr in Hx. unfold a. lia.
          - cbn [fst]. lia. }
        rewrite map_app. cbn [map snd]. rewrite total_app. change (total K V [e]) with (sz + 0).
        pose proof (total_nonneg _ Hp).
        split; [rewrite Hs, szt_small; lia|]. split; [lia|].
        split; [apply Forall_app; split; [exact Hp|constructor; [exact H0|constructor]]|].
        split; [rewrite app_length; cbn [length]; lia|].
        cbn [map fst]. constructor; [|exact Hi].
        intros F. clear -F Ef eqb_spec.
        induction (idx K V c) as [|[k2 a2] i IH]; [destruct F|]. cbn in *.
        destruct (eqb k k2) eqn:E; [discriminate|]. destruct F as [->|F]; [|auto].
        assert (eqb k k = true) by (apply eqb_spec; reflexivity). congruence. }
      eexists. split; [reflexivity|]. split; [exact R3|]. split; reflexivity.
  Qed.

  Lemma set_ok : forall c l k v sz upd now, rep c l -> 0 <= size_max K V c -> 0 <= sz ->
    total K V (map snd l) + sz < 2 ^ 64 ->
    exists c' l', set K V eqb c k v sz upd now = Ok c' /\ rep c' l' /\
      size_max K V c' = size_max K V c /\ time_max K V c' = time_max K V c /\
      sset K V (size_max K V c) (map snd l) k v sz upd now (map snd l').
  Proof.
    intros c l k v sz upd now R Hm H0 Hlim. unfold set.
    destruct (find K eqb k (idx K V c)) as [a|] eqn:Ef.
    - (* the key is present *)
      destruct (rep_find _ _ _ _ R Ef) as [pre [e [post [-> [Hke Ha]]]]].
      assert (T : total K V (map snd (pre ++ post)) + sz < 2 ^ 64).
      { pose proof R as R'. destruct R' as [_ [_ [_ [_ [_ [_ [_ [_ [_ [_ [Hp _]]]]]]]]]]].
        rewrite !map_app in *. cbn [map snd] in *. rewrite !total_app in *.
        change (total K V (e :: map snd post)) with (e_size K V e + total K V (map snd post)) in Hlim.
        apply Forall_app in Hp. destruct Hp as [_ Hp]. inversion Hp; subst. lia. }
      subst k.
      destruct (move_back_ok _ _ _ _ _ R) as [c1 [E1 [R5 [N1 [N2 _]]]]]. rewrite E1. cbn [bind].
      destruct (refill_ok _ (pre ++ post) a e v sz upd now R5 H0 T) as [c' [E [R6 [M1 M2]]]].
      exists c'. eexists. split; [exact E|]. split; [exact R6|].
      split; [congruence|]. split; [congruence|].
      rewrite !map_app, <- app_assoc. cbn [map snd]. apply sset_again.
    - (* a new key *)
      pose proof (rep_absent _ _ _ R Ef) as Habs.
      destruct (new_ok c l k v sz now R Ef H0 Hlim) as [c1 [c2 [E1 [E2 [R3 [N1 N2]]]]]].
      rewrite E1. cbn [bind]. rewrite E2. cbn [bind].
      destruct (drop_ok _ _ R3 ltac:(lia)) as [c' [l' [E [R4 [M1 [M2 M3]]]]]].
      exists c', l'. split; [exact E|]. split; [exact R4|]. split; [congruence|]. split; [congruence|].
      rewrite N1 in M3. apply sset_new; [exact Habs|]. rewrite map_app in M3. exact M3.
  Qed.

  (** ** Looking up and erasing *)

  Lemma erase_ok : forall c l k, rep c l ->
    exists b c' l', erase K V eqb c k = Ok (b, c') /\ rep c' l' /\
      size_max K V c' = size_max K V c /\ time_max K V c' = time_max K V c /\
      serase K V (map snd l) k b (map snd l').
  Proof.
    intros c l k R. unfold erase. destruct (find K eqb k (idx K V c)) as [a|] eqn:Ef.
    - destruct (rep_find _ _ _ _ R Ef) as [pre [e [post [-> [<- _]]]]].
      destruct (erase_it_ok _ _ _ _ _ R) as [c' [E [R' [M1 M2]]]].
      exists true, c', (pre ++ post). split; [exact E|]. split; [exact R'|]. split; [exact M1|].
      split; [exact M2|]. rewrite !map_app. cbn [map snd]. apply serase_yes.
    - exists false, c, l. split; [reflexivity|]. split; [exact R|]. split; [reflexivity|].
      split; [reflexivity|]. apply serase_no. apply (rep_absent c l k R Ef).
  Qed.

  Lemma get_ok : forall c l k now, rep c l ->
    0 <= now < 2 ^ 64 -> 0 <= time_max K V c ->
    Forall (fun e => 0 <= e_time K V e /\ e_time K V e + time_max K V c < 2 ^ 64) (map snd l) ->
    exists r c' l', get K V eqb c k now = Ok (r, c') /\ rep c' l' /\
      size_max K V c' = size_max K V c /\ time_max K V c' = time_max K V c /\
      sget K V (time_max K V c) (map snd l) k now r (map snd l').
  Proof.
    intros c l k now R Hnow Htm Htimes. unfold get. destruct (find K eqb k (idx K V c)) as [a|] eqn:Ef.
    - destruct (rep_find _ _ _ _ R Ef) as [pre [e [post [-> [<- Ha]]]]].
      unfold node_at. rewrite Ha. cbn [bind].
      rewrite map_app in Htimes. apply Forall_app in Htimes. destruct Htimes as [_ Htimes].
      cbn [map snd] in Htimes. inversion Htimes as [|? ? [T1 T2] _]; subst.
      change (n_time K V (mk e (lastp pre None) (first post None))) with (e_time K V e).
      change (n_elem K V (mk e (lastp pre None) (first post None))) with (Some (e_val K V e)).
      rewrite !szt_small by lia.
      destruct (negb (time_max K V c =? 0) && (e_time K V e + time_max K V c <? now)) eqn:Eexp.
      + apply andb_true_iff in Eexp. destruct Eexp as [X1 X2]. apply negb_true_iff in X1.
        apply Z.eqb_neq in X1. apply Z.ltb_lt in X2.
        destruct (erase_it_ok _ _ _ _ _ R) as [c' [E [R' [M1 M2]]]]. rewrite E. cbn [bind].
        exists None, c', (pre ++ post). split; [reflexivity|]. split; [exact R'|]. split; [exact M1|].
        split; [exact M2|]. rewrite !map_app. cbn [map snd]. apply sget_old. split; assumption.
      + exists (Some (e_val K V e)), c. eexists. split; [reflexivity|]. split; [exact R|].
        split; [reflexivity|]. split; [reflexivity|]. rewrite map_app. cbn [map snd].
        apply sget_some. intros [X1 X2]. apply Z.eqb_neq in X1. apply Z.ltb_lt in X2.
        rewrite X1, X2 in Eexp. discriminate.
    - exists None, c, l. split; [reflexivity|]. split; [exact R|]. split; [reflexivity|].
      split; [reflexivity|]. apply sget_none. apply (rep_absent c l k R Ef).
  Qed.

  Lemma get_into_get : forall c k v now r c', get K V eqb c k now = Ok (r, c') ->
    get_into K V eqb c k v now = Ok (match r with Some x => x | None => v end, c').
  Proof.
    intros c k v now r c' H. unfold get, get_into in *.
    destruct (find K eqb k (idx K V c)) as [a|]; [|injection H as <- <-; reflexivity].
    destruct (node_at K V (heap K V c) (Some a)) as [n|u|]; cbn [bind] in *; try discriminate.
    destruct (negb (time_max K V c =? 0) && (szt (n_time K V n + time_max K V c) <? szt now)).
    - destruct (erase_it K V eqb c (Some a)) as [[b c1]|u|]; cbn [bind] in *; try discriminate.
      injection H as <- <-. reflexivity.
    - destruct (n_elem K V n); [injection H as <- <-; reflexivity|discriminate].
  Qed.

  (** ** Listing *)

  Lemma walk_ok : forall l h p fuel, dseg h p l None -> (length l <= fuel)%nat ->
    exists ns, walk K V fuel h (first l None) = Ok ns /\
      map (fun n => (n_key K V n, n_elem K V n, n_size K V n, n_time K V n)) ns =
      map (fun x => (e_key K V (snd x), Some (e_val K V (snd x)), e_size K V (snd x), e_time K V (snd x))) l.
  Proof.
    induction l as [|[a e] l IH]; intros h p fuel D Hf.
    - exists []. destruct fuel; split; reflexivity.
    - destruct fuel as [|fuel]; [cbn in Hf; lia|]. destruct D as [Ha D].
      destruct (IH h (Some a) fuel D ltac:(cbn in Hf; lia)) as [ns [E M]].
      exists (mk e p (first l None) :: ns). cbn [first walk]. unfold node_at. rewrite Ha. cbn [bind].
      change (n_next K V (mk e p (first l None))) with (first l None). rewrite E. cbn [bind].
      split; [reflexivity|]. cbn [map]. rewrite M. reflexivity.
  Qed.
End Cache.
