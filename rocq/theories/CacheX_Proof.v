(** Lemmas about the cache with exceptions. *)

From Coq Require Import ZArith List Bool Lia Arith.
From Verif Require Import Base Cache_Model Cache_Spec Cache_Proof Cache_Props CacheX_Model CacheX_Spec.
Import ListNotations.
Local Open Scope Z_scope.

Section Proofs.
  Variables K V : Type.
  Variable eqb : K -> K -> bool.
  Hypothesis eqb_spec : forall a b, eqb a b = true <-> a = b.
  Notation cache := (cache K V).
  Notation entry := (entry K V).
  Notation rep := (rep K V eqb).
  Notation total := (total K V).

  (** the cache with a counter that is [d] smaller *)
  Definition shift (d : Z) (c : cache) : cache := with_size K V c (size_cur K V c - d).
  Definition rshift {A} (d : Z) (r : res (A * cache)) : res (A * cache) :=
    match r with Ok (x, c) => Ok (x, shift d c) | Ub u => Ub u | Fuel => Fuel end.
  Definition cshift (d : Z) (r : res cache) : res cache :=
    match r with Ok c => Ok (shift d c) | Ub u => Ub u | Fuel => Fuel end.

  Lemma szt_szt_sub : forall x d, szt (szt x - d) = szt (x - d).
  Proof. intros. unfold szt. rewrite Zminus_mod_idemp_l. reflexivity. Qed.
  Lemma szt_szt_add : forall x d, szt (szt x + d) = szt (x + d).
  Proof. intros. unfold szt. rewrite Zplus_mod_idemp_l. reflexivity. Qed.

  Lemma szt_szt_add_sub : forall x n d, szt (szt x + n - d) = szt (x + n - d).
  Proof. intros. rewrite <- (szt_szt_sub (szt x + n)), szt_szt_add, szt_szt_sub. reflexivity. Qed.
  Ltac sz := repeat (rewrite szt_szt_add_sub || rewrite szt_szt_sub || rewrite szt_szt_add); repeat (f_equal; try lia).
  Ltac un := unfold rshift, cshift, shift, with_size, with_heap, with_begp, with_endp, data_erase in *;
    cbn [idx heap fresh begp endp size_cur size_max time_max bind] in *.
  Ltac go := repeat (un; match goal with
    | |- context [bind (match ?x with _ => _ end) _] => destruct x
    | |- context [bind (node_upd K V ?h ?p ?f) _] => destruct (node_upd K V h p f)
    | |- context [bind (node_at K V ?h ?p) _] => destruct (node_at K V h p)
    | |- context [match node_upd K V ?h ?p ?f with _ => _ end] => destruct (node_upd K V h p f)
    | |- context [match node_at K V ?h ?p with _ => _ end] => destruct (node_at K V h p)
    | |- context [match n_next K V ?x with _ => _ end] => destruct (n_next K V x)
    | |- context [match n_prev K V ?x with _ => _ end] => destruct (n_prev K V x)
    | |- context [match endp K V ?x with _ => _ end] => destruct (endp K V x)
    | |- context [match begp K V ?x with _ => _ end] => destruct (begp K V x)
    end; try reflexivity).

  Lemma erase_it_shift : forall d c it, erase_it K V eqb (shift d c) it = rshift d (erase_it K V eqb c it).
  Proof.
    intros d c [a|]; [|reflexivity]. unfold erase_it. go; un; sz.
  Qed.
  Lemma get_shift : forall d c k now, get K V eqb (shift d c) k now = rshift d (get K V eqb c k now).
  Proof.
    intros d c k now. unfold get. change (idx K V (shift d c)) with (idx K V c).
    destruct (find K eqb k (idx K V c)) as [a|]; [|reflexivity].
    change (heap K V (shift d c)) with (heap K V c). change (time_max K V (shift d c)) with (time_max K V c).
    destruct (node_at K V (heap K V c) (Some a)) as [n|u|]; [|reflexivity..]. cbn [bind].
    destruct (negb _ && _).
    - rewrite erase_it_shift. destruct (erase_it K V eqb c (Some a)) as [[b c']|u|]; reflexivity.
    - destruct (n_elem K V n); reflexivity.
  Qed.
  Lemma erase_shift : forall d c k, erase K V eqb (shift d c) k = rshift d (erase K V eqb c k).
  Proof. intros. unfold erase. rewrite erase_it_shift. reflexivity. Qed.
  Lemma move_back_shift : forall d c a, move_back K V (shift d c) a = cshift d (move_back K V c a).
  Proof. intros. unfold move_back. go; un; sz. Qed.
  Lemma refill_shift : forall d c a v sz now upd,
    refill K V (shift d c) a v sz now upd = cshift d (refill K V c a v sz now upd).
  Proof. intros. unfold refill. destruct upd; go; un; sz. Qed.
  Lemma link_new_shift : forall d c k now, link_new K V (shift d c) k now = cshift d (link_new K V c k now).
  Proof. intros. unfold link_new. go; un; sz. Qed.
  Lemma fill_new_shift : forall d c a v sz, fill_new K V (shift d c) a v sz = cshift d (fill_new K V c a v sz).
  Proof. intros. unfold fill_new. go; un; sz. Qed.
  Lemma drop_one_shift : forall d c, drop_one K V eqb (shift d c) = cshift d (drop_one K V eqb c).
  Proof. intros. unfold drop_one. go; un; sz. Qed.

  Lemma set_old_shift : forall d c k v sz upd now a, find K eqb k (idx K V c) = Some a ->
    set K V eqb (shift d c) k v sz upd now = cshift d (set K V eqb c k v sz upd now).
  Proof.
    intros d c k v sz upd now a E. unfold set. change (idx K V (shift d c)) with (idx K V c). rewrite E.
    rewrite move_back_shift. destruct (move_back K V c a) as [c1|u|]; [|reflexivity..]. cbn [cshift bind].
    apply refill_shift.
  Qed.

  (** ** The loop that removes entries *)

  Lemma rep_total : forall c l, rep c l -> size_cur K V c = total (map snd l).
  Proof. intros c l R. destruct R as [_ [_ [_ [_ [_ [_ [_ [_ [Hs _]]]]]]]]]. exact Hs. Qed.
  Lemma rep_begp : forall c l, rep c l -> begp K V c = first K V l None.
  Proof. intros c l R. destruct R as [_ [Hb _]]. exact Hb. Qed.
  Lemma rep_length : forall c l, rep c l -> length (idx K V c) = length l.
  Proof. intros c l R. destruct R as [_ [_ [_ [_ [_ [_ [_ [_ [_ [_ [_ [H _]]]]]]]]]]]]. exact H. Qed.

  Lemma drop_loop_debt : forall d l c fuel, rep c l -> (length l < fuel)%nat ->
    match sdrop K V d (size_max K V c) (map snd l) with
    | Some s' => exists c' l', drop_loop K V eqb fuel (shift d c) = Ok (shift d c') /\ rep c' l' /\ map snd l' = s' /\
        size_max K V c' = size_max K V c /\ time_max K V c' = time_max K V c
    | None => drop_loop K V eqb fuel (shift d c) = Ub NullDeref
    end.
  Proof.
    intros d. induction l as [|[a e] l IH]; intros c fuel R Hf; (destruct fuel as [|fuel]; [lia|]); cbn [drop_loop];
      change (size_max K V (shift d c)) with (size_max K V c);
      change (size_cur K V (shift d c)) with (szt (size_cur K V c - d)); rewrite (rep_total _ _ R);
      unfold szt; cbn [sdrop map snd];
      rewrite Z.leb_antisym.
    - destruct (_ <? _) eqn:E; cbn [negb].
      + rewrite drop_one_shift. unfold drop_one. rewrite (rep_begp _ _ R). reflexivity.
      + exists c, []. auto.
    - destruct (size_max K V c <? (total (e :: map snd l) - d) mod 2 ^ 64) eqn:E; cbn [negb].
      + destruct (drop_one_ok K V eqb eqb_spec l c a e R) as (c1 & E1 & R1 & N1 & N2).
        rewrite drop_one_shift, E1. cbn [cshift bind]. specialize (IH c1 fuel R1 ltac:(cbn in Hf; lia)). rewrite N1, N2 in IH. exact IH.
      + exists c, ((a, e) :: l). auto.
  Qed.

  Lemma rep_ext : forall c l h sz, rep c l -> (forall x, h x = heap K V c x) -> sz = size_cur K V c ->
    forall c', c' = mkCache K V (idx K V c) h (fresh K V c) (begp K V c) (endp K V c) sz (size_max K V c) (time_max K V c) ->
    rep c' l.
  Proof.
    intros c l h sz R Hh -> c' ->. unfold Cache_Proof.rep in *. cbn [heap begp endp idx fresh size_cur].
    destruct R as [Hd [Hb [He [Hn [Hk [Hf [Hl R]]]]]]].
    split; [eapply (dseg_ext K V eqb eqb_spec); [intros a _; apply Hh|exact Hd]|].
    split; [exact Hb|]. split; [exact He|]. split; [exact Hn|]. split; [exact Hk|]. split; [exact Hf|].
    split; [intros a; rewrite Hh; apply Hl|exact R].
  Qed.

  (** ** An assignment that throws *)

  Lemma set_throw_old_ok : forall c l k v' now a, rep c l -> find K eqb k (idx K V c) = Some a ->
    exists pre e post c' l', map snd l = pre ++ e :: post /\ e_key K V e = k /\
      set_throw K V eqb c k v' now = Ok (shift (e_size K V e) c') /\ rep c' l' /\
      map snd l' = pre ++ post ++ [mkEntry K V k v' (e_size K V e) (e_time K V e)] /\
      size_max K V c' = size_max K V c /\ time_max K V c' = time_max K V c.
  Proof.
    intros c l k v' now a R Ef.
    destruct (rep_find K V eqb eqb_spec _ _ _ _ R Ef) as (pre & e & post & -> & Hk & Ha).
    assert (Bnd : 0 <= e_size K V e /\ total (map snd (pre ++ post)) + e_size K V e < 2 ^ 64).
    { pose proof R as R'. destruct R' as [_ [_ [_ [_ [_ [_ [_ [_ [_ [Ht [Hp _]]]]]]]]]]].
      rewrite !map_app in *. cbn [map snd] in *. rewrite !(total_app K V eqb eqb_spec) in *.
      change (total (e :: map snd post)) with (e_size K V e + total (map snd post)) in Ht.
      apply Forall_app in Hp. destruct Hp as [_ Hp]. inversion Hp; subst. lia. }
    destruct Bnd as [B1 B2].
    destruct (move_back_ok K V eqb eqb_spec _ _ _ _ _ R) as (c1 & E1 & R1 & N1 & N2 & N3).
    destruct (refill_ok K V eqb eqb_spec c1 (pre ++ post) a e v' (e_size K V e) false now R1 B1 B2) as (c2 & E2 & R2 & M1 & M2).
    exists (map snd pre), e, (map snd post).
    unfold set_throw. rewrite Ef, E1. cbn [bind].
    assert (Ha1 : heap K V c1 a = Some (mk K V e (lastp K V (pre ++ post) None) None)).
    { destruct R1 as [Hd _]. apply (dseg_app K V eqb eqb_spec) in Hd. destruct Hd as [_ [Hd _]]. exact Hd. }
    pose proof (rep_bounds K V eqb eqb_spec c1 _ R1) as Hb1.
    unfold refill in E2. unfold node_at in E2 at 1. rewrite Ha1 in E2. cbn [bind] in E2.
    unfold with_size at 1 2 in E2. cbn [heap] in E2.
    rewrite (node_upd_ok K V eqb eqb_spec _ _ _ _ Ha1) in E2. cbn [bind] in E2.
    rewrite (node_upd_ok K V eqb eqb_spec _ a _ _ (hset_same K V eqb eqb_spec _ _ _)) in E2. cbn [bind] in E2.
    unfold with_heap at 1 2 in E2. cbn [heap] in E2. unfold node_at in E2. rewrite (hset_same K V eqb eqb_spec) in E2. cbn [bind] in E2.
    injection E2 as E2. unfold with_size, with_heap in E2. cbn in E2.
    assert (Sz : size_cur K V c2 = size_cur K V c1).
    { rewrite <- E2. cbn [size_cur]. rewrite szt_szt_add. rewrite (szt_small K V eqb eqb_spec) by lia. lia. }
    exists (mkCache K V (idx K V c1) (hset K V (heap K V c1) a (Some (set_elem K V v' (mk K V e (lastp K V (pre ++ post) None) None))))
              (fresh K V c1) (begp K V c1) (endp K V c1) (size_cur K V c1) (size_max K V c1) (time_max K V c1)).
    exists ((pre ++ post) ++ [(a, mkEntry K V (e_key K V e) v' (e_size K V e) (e_time K V e))]).
    split; [rewrite map_app; reflexivity|]. split; [exact Hk|].
    split.
    { unfold node_at. rewrite Ha1. cbn [bind]. unfold with_size. cbn [heap].
      rewrite (node_upd_ok K V eqb eqb_spec _ _ _ _ Ha1). cbn [bind]. reflexivity. }
    split.
    { eapply (rep_ext c2); [exact R2| | |].
      2:{ symmetry. exact Sz. }
      2:{ rewrite <- E2. cbn [idx fresh begp endp size_max time_max]. reflexivity. }
      intros x. rewrite <- E2. cbn [heap]. unfold hset. destruct (Nat.eqb_spec x a); [|reflexivity]. cbn. reflexivity. }
    split; [rewrite !map_app, <- app_assoc; cbn [map snd]; rewrite Hk; reflexivity|].
    cbn [size_max time_max]. auto.
  Qed.

  Lemma set_throw_new_ok : forall c l k v' now, rep c l -> find K eqb k (idx K V c) = None ->
    exists c' a, set_throw K V eqb c k v' now = Ok c' /\ rep c' (l ++ [(a, mkEntry K V k v' 0 now)]) /\
      size_max K V c' = size_max K V c /\ time_max K V c' = time_max K V c.
  Proof.
    intros c l k v' now R Ef.
    assert (Ht : total (map snd l) + 0 < 2 ^ 64).
    { pose proof R as R'. destruct R' as [_ [_ [_ [_ [_ [_ [_ [_ [_ [Ht _]]]]]]]]]]. lia. }
    destruct (new_ok K V eqb eqb_spec c l k v' 0 now R Ef ltac:(lia) Ht) as (c1 & c2 & E1 & E2 & R2 & M1 & M2).
    unfold set_throw. rewrite Ef, E1. cbn [bind].
    pose proof (rep_bounds K V eqb eqb_spec c _ R) as Hb.
    unfold fill_new in E2. unfold node_upd in E2 at 1.
    destruct (node_at K V (heap K V c1) (Some (fresh K V c))) as [n| |] eqn:En; cbn [bind] in E2; try discriminate.
    assert (Hn : n_size K V n = 0 /\ size_cur K V c1 = size_cur K V c).
    { revert E1 En. unfold link_new. cbn [heap endp begp idx fresh size_cur size_max time_max].
      rewrite (node_upd_ok K V eqb eqb_spec _ _ _ _ (hset_same K V eqb eqb_spec _ _ _)). cbn [bind].
      pose proof R as R'. destruct R' as [Hd [_ [He [Hn [_ [_ [_ [Hfr _]]]]]]]].
      assert (Hna : ~ In (fresh K V c) (addrs K V l)) by (intros F; apply Hfr in F; lia).
      rewrite He. destruct (last_case K V eqb eqb_spec l) as [->|(l' & z & ez & ->)].
      - cbn [lastp bind]. intros E1 En. injection E1 as <-. unfold with_endp, with_heap, with_begp in En |- *. cbn [begp endp heap] in En |- *.
        destruct (begp K V c); cbn [heap size_cur] in En |- *; unfold node_at in En; rewrite (hset_same K V eqb eqb_spec) in En; injection En as <-; split; reflexivity.
      - rewrite (lastp_app K V eqb eqb_spec). cbn [lastp].
        assert (Nz : z <> fresh K V c).
        { intros ->. apply Hna. rewrite (addrs_app K V eqb eqb_spec). apply in_or_app. right. left. reflexivity. }
        apply (dseg_app K V eqb eqb_spec) in Hd. destruct Hd as [_ [Hz _]].
        match goal with |- context [node_upd K V ?h (Some z) _] => assert (Hz' : h z = Some (mk K V ez (lastp K V l' None) None)) end.
        { rewrite !(hset_other K V eqb eqb_spec) by exact Nz. exact Hz. }
        rewrite (node_upd_ok K V eqb eqb_spec _ _ _ _ Hz'). cbn [bind]. intros E1 En. injection E1 as <-.
        unfold with_endp, with_heap, with_begp in En |- *. cbn [begp endp heap] in En |- *.
        destruct (begp K V c); cbn [heap size_cur] in En |- *; unfold node_at in En;
          rewrite (hset_other K V eqb eqb_spec) in En by congruence; rewrite (hset_same K V eqb eqb_spec) in En; injection En as <-; split; reflexivity. }
    destruct Hn as [Hn1 Hn2].
    assert (Hnode : heap K V c1 (fresh K V c) = Some n).
    { unfold node_at in En. destruct (heap K V c1 (fresh K V c)); congruence. }
    rewrite (node_upd_ok K V eqb eqb_spec _ _ _ _ (hset_same K V eqb eqb_spec _ _ _)) in E2. cbn [bind] in E2.
    unfold with_heap in E2 at 1. cbn [heap] in E2. unfold node_at in E2. rewrite (hset_same K V eqb eqb_spec) in E2. cbn [bind] in E2.
    injection E2 as E2. unfold with_size, with_heap in E2. cbn in E2.
    rewrite (node_upd_ok K V eqb eqb_spec _ _ _ _ Hnode). cbn [bind]. unfold with_heap.
    eexists _, (fresh K V c). split; [reflexivity|].
    assert (Mx : size_max K V c1 = size_max K V c /\ time_max K V c1 = time_max K V c).
    { rewrite <- E2 in M1, M2. cbn in M1, M2. auto. }
    split; [|cbn [size_max time_max]; exact Mx].
    eapply (rep_ext c2); [exact R2| | |].
    3:{ rewrite <- E2. cbn [idx fresh begp endp size_max time_max]. reflexivity. }
    - intros x. rewrite <- E2. cbn [heap]. unfold hset. destruct (Nat.eqb_spec x (fresh K V c)); [|reflexivity].
      cbn. unfold set_size. cbn. unfold set_elem. rewrite Hn1. reflexivity.
    - rewrite <- E2. cbn [size_cur]. rewrite (szt_small K V eqb eqb_spec); lia.
  Qed.
End Proofs.
