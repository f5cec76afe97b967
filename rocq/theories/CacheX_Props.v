(** Theorems about cache calls that throw (property C120). *)

From Coq Require Import ZArith List Bool Lia Arith.
From Verif Require Import Base Cache_Model Cache_Spec Cache_Proof Cache_Props CacheX_Model CacheX_Spec CacheX_Proof.
Import ListNotations.
Local Open Scope Z_scope.

Section Props.
  Variables K V : Type.
  Variable eqb : K -> K -> bool.
  Hypothesis eqb_spec : forall a b, eqb a b = true <-> a = b.
  Notation rep := (rep K V eqb).
  Notation total := (total K V).
  Notation shift := (shift K V).
  Notation times_ok := (times_ok K V).
  Notation xsstep := (xsstep K V).
  Notation xsrun := (xsrun K V).

  Lemma shift_shift : forall d e c, shift d (shift e c) = shift (d + e) c.
  Proof.
    intros. unfold CacheX_Proof.shift, with_size. cbn [idx heap fresh begp endp size_cur size_max time_max].
    rewrite szt_szt_sub. do 2 f_equal. lia.
  Qed.
  Lemma set_throw_shift : forall d c k v' now,
    set_throw K V eqb (shift d c) k v' now = cshift K V d (set_throw K V eqb c k v' now).
  Proof.
    intros. unfold set_throw. change (idx K V (shift d c)) with (idx K V c).
    destruct (find K eqb k (idx K V c)) as [a|].
    - rewrite move_back_shift. destruct (move_back K V c a) as [c1|u|]; [|reflexivity..]. cbn [cshift bind].
      change (heap K V (shift d c1)) with (heap K V c1).
      destruct (node_at K V (heap K V c1) (Some a)) as [n|u|]; [|reflexivity..]. cbn [bind].
      unfold with_size. cbn [heap]. change (heap K V (shift d c1)) with (heap K V c1). destruct (node_upd K V (heap K V c1) (Some a) (set_elem K V v')) as [h|u|]; [|reflexivity..].
      cbn [bind cshift]. unfold CacheX_Proof.shift, with_size, with_heap. cbn [idx heap fresh begp endp size_cur size_max time_max].
      rewrite !szt_szt_sub. do 3 f_equal. lia.
    - rewrite link_new_shift. destruct (link_new K V c k now) as [c1|u|]; [|reflexivity..]. cbn [cshift bind].
      change (heap K V (shift d c1)) with (heap K V c1). change (fresh K V (shift d c)) with (fresh K V c).
      destruct (node_upd K V (heap K V c1) (Some (fresh K V c)) (set_elem K V v')) as [h|u|]; reflexivity.
  Qed.

  Lemma xcall_ok : forall d c l o, rep c l -> xop_ok K V o -> times_ok (map snd l) ->
    0 <= size_max K V c -> 0 <= time_max K V c <= 2 ^ 63 ->
    (forall k v sz upd now, o = XOp K V (OSet K V k v sz upd now) -> total (map snd l) + sz < 2 ^ 64) ->
    exists out, xsstep (size_max K V c) (time_max K V c) (map snd l) d o out /\
      match out with
      | Some (r, s', d') => exists c' l', xcall K V eqb (shift d c) o = Ok (r, shift d' c') /\ rep c' l' /\ map snd l' = s' /\
          size_max K V c' = size_max K V c /\ time_max K V c' = time_max K V c
      | None => xcall K V eqb (shift d c) o = Ub NullDeref
      end.
  Proof.
    intros d c l o R Ho T Hm Ht Hf.
    assert (T' : Forall (fun e => 0 <= e_time K V e /\ e_time K V e + time_max K V c < 2 ^ 64) (map snd l)).
    { eapply Forall_impl; [|exact T]. intros e He. cbn in He. lia. }
    destruct o as [o|k|k v' now|k now]; cbn [xop_ok] in Ho.
    - destruct o as [k now|k v sz upd now|k]; cbn [xcall step op_ok] in *.
      + destruct (get_ok K V eqb eqb_spec c l k now R ltac:(lia) ltac:(lia) T') as (r & c' & l' & E & R' & M1 & M2 & M3).
        eexists. split; [apply xs_get; exact M3|]. exists c', l'. rewrite get_shift, E. cbn [rshift bind]. auto.
      + destruct (find K eqb k (idx K V c)) as [a|] eqn:Ef.
        * destruct (rep_find K V eqb eqb_spec _ _ _ _ R Ef) as (pre & e & post & El & Hk & _). subst l k.
          rewrite (set_old_shift K V eqb d c _ v sz upd now a Ef). unfold set. rewrite Ef.
          destruct (move_back_ok K V eqb eqb_spec _ _ _ _ _ R) as (c1 & E1 & R5 & N1 & N2 & _). rewrite E1. cbn [bind].
          assert (B : total (map snd (pre ++ post)) + sz < 2 ^ 64).
          { specialize (Hf _ _ _ _ _ eq_refl). pose proof R as R'. destruct R' as [_ [_ [_ [_ [_ [_ [_ [_ [_ [_ [Hp _]]]]]]]]]]].
            rewrite !map_app in *. cbn [map snd] in *. rewrite !(total_app K V eqb eqb_spec) in *.
            change (total (e :: map snd post)) with (e_size K V e + total (map snd post)) in Hf.
            apply Forall_app in Hp. destruct Hp as [_ Hp]. inversion Hp; subst. lia. }
          destruct (refill_ok K V eqb eqb_spec _ (pre ++ post) a e v sz upd now R5 (proj1 Ho) B) as (c' & E & R6 & M1 & M2).
          rewrite map_app. cbn [map snd]. eexists. split; [apply xs_set_again|]. cbv beta iota.
          exists c'. eexists. rewrite E. cbn [cshift bind]. split; [reflexivity|]. split; [exact R6|].
          split; [rewrite !map_app, <- app_assoc; reflexivity|]. split; congruence.
        * pose proof (rep_absent K V eqb eqb_spec _ _ _ R Ef) as Ab.
          eexists. split; [apply xs_set_new; exact Ab|].
          destruct (new_ok K V eqb eqb_spec c l k v sz now R Ef (proj1 Ho) (Hf _ _ _ _ _ eq_refl)) as (c1 & c2 & E1 & E2 & R3 & N1 & N2).
          unfold set. change (idx K V (shift d c)) with (idx K V c). rewrite Ef, link_new_shift, E1. cbn [cshift bind].
          change (fresh K V (shift d c)) with (fresh K V c). rewrite fill_new_shift, E2. cbn [cshift bind].
          unfold drop_last_unused. change (begp K V (shift d c2)) with (begp K V c2).
          rewrite (rep_begp K V eqb _ _ R3). rewrite (first_app K V eqb eqb_spec). cbn [first].
          change (idx K V (shift d c2)) with (idx K V c2). rewrite (rep_length K V eqb _ _ R3).
          pose proof (drop_loop_debt K V eqb eqb_spec d _ c2 (S (length (l ++ [(fresh K V c, mkEntry K V k v sz now)]))) R3 (Nat.lt_succ_diag_r _)) as D.
          rewrite map_app, N1 in D. cbn [map snd] in D.
          assert (F : exists y, first K V l (Some (fresh K V c)) = Some y) by (destruct l as [|[y ey] l]; eexists; reflexivity).
          destruct F as [y ->].
          destruct (sdrop K V d (size_max K V c) (map snd l ++ [mkEntry K V k v sz now])) as [s'|].
          -- destruct D as (c' & l' & E & R4 & M & N3 & N4). exists c', l'. rewrite E. cbn [bind].
             split; [reflexivity|]. split; [exact R4|]. split; [exact M|]. split; congruence.
          -- rewrite D. reflexivity.
      + destruct (erase_ok K V eqb eqb_spec c l k R) as (b & c' & l' & E & R' & M1 & M2 & M3).
        eexists. split; [apply xs_erase; exact M3|]. exists c', l'. rewrite erase_shift, E. cbn [rshift bind]. auto.
    - eexists. split; [apply xs_nomem|]. exists c, l. cbn [xcall]. auto.
    - cbn [xcall]. rewrite set_throw_shift. destruct (find K eqb k (idx K V c)) as [a|] eqn:Ef.
      + destruct (set_throw_old_ok K V eqb eqb_spec c l k v' now a R Ef) as (pre & e & post & c' & l' & El & <- & E & R' & El' & M1 & M2).
        rewrite El. eexists. split; [apply xs_throw_again|]. cbv beta iota. exists c', l'.
        rewrite E. cbn [cshift bind]. rewrite shift_shift. split; [reflexivity|]. auto.
      + destruct (set_throw_new_ok K V eqb eqb_spec c l k v' now R Ef) as (c' & a & E & R' & M1 & M2).
        eexists. split; [apply xs_throw_new; apply (rep_absent K V eqb eqb_spec _ _ _ R Ef)|]. cbv beta iota.
        exists c'. eexists. rewrite E. cbn [cshift bind]. split; [reflexivity|]. split; [exact R'|].
        split; [rewrite map_app; reflexivity|]. auto.
    - destruct (get_ok K V eqb eqb_spec c l k now R ltac:(lia) ltac:(lia) T') as (r & c' & l' & E & R' & M1 & M2 & M3).
      eexists. split; [apply xs_get_throw; exact M3|]. cbv beta iota. exists c', l'. cbn [xcall]. rewrite get_shift, E. cbn [rshift bind].
      split; [destruct r; reflexivity|]. auto.
  Qed.

  (** what the entries keep: times in range, sizes not negative, a bounded sum *)
  Definition good (s : list (entry K V)) : Prop := times_ok s /\ Forall (fun e => 0 <= e_size K V e) s.
  Lemma good_in : forall s s', good s -> (forall x, In x s' -> In x s) -> good s'.
  Proof. 
    intros s s' [A B] I. split; (apply Forall_forall; intros x Hx; apply I in Hx).
    - exact (proj1 (Forall_forall _ _) A x Hx).
    - exact (proj1 (Forall_forall _ _) B x Hx).
  Qed.
  Lemma good_snoc : forall s e, good s -> 0 <= e_time K V e < 2 ^ 63 -> 0 <= e_size K V e -> good (s ++ [e]).
  Proof. intros s e [A B] H1 H2. split; (apply Forall_app; split; [assumption|constructor; [assumption|constructor]]). Qed.
  Lemma total_mid : forall a e b, total (a ++ e :: b) = total (a ++ b) + e_size K V e.
  Proof.
    intros. rewrite !(total_app K V eqb eqb_spec).
    change (total (e :: b)) with (e_size K V e + total b). lia.
  Qed.
  Lemma total_snoc : forall s e, total (s ++ [e]) = total s + e_size K V e.
  Proof. intros. rewrite total_mid, app_nil_r. reflexivity. Qed.
  Lemma sdrop_suffix : forall d smax s s', sdrop K V d smax s = Some s' -> exists n, s' = skipn n s.
  Proof.
    intros d smax. induction s as [|e s IH]; intros s' H; cbn [sdrop] in H.
    - destruct (_ <=? _); [|discriminate]. injection H as <-. exists O. reflexivity.
    - destruct (_ <=? _); [injection H as <-; exists O; reflexivity|]. destruct (IH _ H) as [n ->]. exists (S n). reflexivity.
  Qed.
  Lemma total_skipn : forall n s, Forall (fun e => 0 <= e_size K V e) s -> total (skipn n s) <= total s.
  Proof.
    induction n as [|n IH]; intros s H; [apply Z.le_refl|]. destruct s as [|e s]; [apply Z.le_refl|]. inversion H; subst.
    cbn [skipn]. specialize (IH s H3). change (total (e :: s)) with (e_size K V e + total s). lia.
  Qed.

  Lemma xs_good : forall smax tmax s d o r s' d', xsstep smax tmax s d o (Some (r, s', d')) -> xop_ok K V o -> good s ->
    good s' /\ total s' <= total s + xsizes K V [o].
  Proof.
    intros smax tmax s d o r s' d' H Ho G. inversion H; subst; cbn [xop_ok op_ok xsizes] in *.
    - match goal with H : sget _ _ _ _ _ _ _ _ |- _ => inversion H; subst end; try (split; [exact G|lia]).
      split; [eapply good_in; [exact G|]; intros x I; apply in_mid; exact I|].
      rewrite total_mid. destruct G as [_ G]. apply Forall_app in G. destruct G as [_ G]. inversion G; subst. lia.
    - match goal with H : serase _ _ _ _ _ _ |- _ => inversion H; subst end; try (split; [exact G|lia]).
      split; [eapply good_in; [exact G|]; intros x I; apply in_mid; exact I|].
      rewrite total_mid. destruct G as [_ G]. apply Forall_app in G. destruct G as [_ G]. inversion G; subst. lia.
    - rewrite app_assoc, total_snoc, total_mid. cbn [e_size].
      assert (In e (a ++ e :: b)) by (apply in_elt). destruct G as [G1 G2]. pose proof G1 as G1'. pose proof G2 as G2'.
      unfold Cache_Props.times_ok in G1'. rewrite Forall_forall in G1', G2'. specialize (G1' _ H0). specialize (G2' _ H0).
      split; [|lia]. apply good_snoc; [|cbn; destruct upd; lia|cbn; lia].
      apply (good_in (a ++ e :: b)); [split; assumption|]. intros x I. apply in_mid. exact I.
    - destruct (sdrop K V d smax (s ++ [mkEntry K V k v sz now])) as [s1|] eqn:E; [|discriminate].
      match goal with H : Some _ = Some _ |- _ => injection H as <- <- <- end. destruct (sdrop_suffix _ _ _ _ E) as [n ->].
      assert (G' : good (s ++ [mkEntry K V k v sz now])) by (apply good_snoc; cbn; [exact G|lia|lia]).
      split; [eapply good_in; [exact G'|]; intros x I; eapply skipn_incl; exact I|].
      pose proof (total_skipn n _ (proj2 G')) as L. rewrite total_snoc in L. cbn [e_size] in L. lia.
    - split; [exact G|lia].
    - rewrite app_assoc, total_snoc, total_mid. cbn [e_size].
      assert (In e (a ++ e :: b)) by (apply in_elt). destruct G as [G1 G2]. pose proof G1 as G1'. pose proof G2 as G2'.
      unfold Cache_Props.times_ok in G1'. rewrite Forall_forall in G1', G2'. specialize (G1' _ H0). specialize (G2' _ H0).
      split; [|lia]. apply good_snoc; [|cbn; lia|cbn; lia].
      apply (good_in (a ++ e :: b)); [split; assumption|]. intros x I. apply in_mid. exact I.
    - rewrite total_snoc. cbn [e_size]. split; [|lia]. apply good_snoc; cbn; [exact G|lia|lia].
    - match goal with H : sget _ _ _ _ _ _ _ _ |- _ => inversion H; subst end; try (split; [exact G|lia]).
      split; [eapply good_in; [exact G|]; intros x I; apply in_mid; exact I|].
      rewrite total_mid. destruct G as [_ G]. apply Forall_app in G. destruct G as [_ G]. inversion G; subst. lia.
  Qed.
  Lemma xsizes_cons : forall o os, xsizes K V (o :: os) = xsizes K V [o] + xsizes K V os.
  Proof. intros [[| |]| | |] os; cbn [xsizes]; lia. Qed.
  Lemma xsizes_nonneg : forall os, Forall (xop_ok K V) os -> 0 <= xsizes K V os.
  Proof. induction 1 as [|o os Ho _ IH]; [cbn; lia|]. rewrite xsizes_cons. destruct o as [[| |]| | |]; cbn in *; lia. Qed.

  Lemma xcalls_ok : forall os d c l, rep c l -> Forall (xop_ok K V) os -> good (map snd l) ->
    0 <= size_max K V c -> 0 <= time_max K V c <= 2 ^ 63 -> total (map snd l) + xsizes K V os < 2 ^ 64 ->
    (exists rs d' c' l', xcalls K V eqb (shift d c) os = Ok (rs, shift d' c') /\ rep c' l' /\
       xsrun (size_max K V c) (time_max K V c) (map snd l) d os rs (map snd l') d') \/
    (exists os1 o os2 rs s d', os = os1 ++ o :: os2 /\ xsrun (size_max K V c) (time_max K V c) (map snd l) d os1 rs s d' /\
       xsstep (size_max K V c) (time_max K V c) s d' o None /\ xcalls K V eqb (shift d c) os = Ub NullDeref).
  Proof.
    induction os as [|o os IH]; intros d c l R Ho G Hm Ht Hs.
    - left. exists [], d, c, l. split; [reflexivity|]. split; [exact R|]. constructor.
    - inversion Ho as [|? ? Ho1 Ho2]; subst. rewrite xsizes_cons in Hs. pose proof (xsizes_nonneg _ Ho2) as Z2.
      destruct (xcall_ok d c l o R Ho1 (proj1 G) Hm Ht) as (out & S1 & O1).
      { intros k v sz upd now ->. cbn [xsizes] in Hs. lia. }
      destruct out as [[[r s1] d1]|].
      + destruct O1 as (c1 & l1 & E1 & R1 & <- & M1 & M2).
        destruct (xs_good _ _ _ _ _ _ _ _ S1 Ho1 G) as [G1 L1].
        destruct (IH d1 c1 l1 R1 Ho2 G1 ltac:(lia) ltac:(lia) ltac:(lia)) as [(rs & d2 & c2 & l2 & E2 & R2 & S2)|(os1 & o2 & os2 & rs & s2 & d2 & -> & S2 & C2 & E2)].
        * left. exists (r :: rs), d2, c2, l2. cbn [xcalls]. rewrite E1. cbn [bind]. rewrite E2. cbn [bind].
          split; [reflexivity|]. split; [exact R2|]. rewrite M1, M2 in S2. econstructor; eassumption.
        * right. exists (o :: os1), o2, os2, (r :: rs), s2, d2. split; [reflexivity|]. rewrite M1, M2 in S2, C2.
          split; [econstructor; eassumption|]. split; [exact C2|]. cbn [xcalls]. rewrite E1. cbn [bind]. rewrite E2. reflexivity.
      + right. exists [], o, os, [], (map snd l), d. split; [reflexivity|]. split; [constructor|]. split; [exact S1|].
        cbn [xcalls]. rewrite O1. reflexivity.
  Qed.

  (** ** C120: every history with exceptions, exactly

      Either all calls behave as in the specification, the counter is the sum of the sizes
      less the debt, modulo 2^64, and the list holds exactly the entries; or the history
      contains a [set] of a new key for which the specification removes all entries and
      still does not get below the limit, and there a null pointer is followed. *)
  Theorem C120_exact : forall smax tmax os,
    0 <= smax < 2 ^ 64 -> 0 <= tmax <= 2 ^ 63 -> Forall (xop_ok K V) os -> xsizes K V os < 2 ^ 64 ->
    (exists rs s d c ns, xcalls K V eqb (create K V smax tmax) os = Ok (rs, c) /\ xsrun smax tmax [] 0 os rs s d /\
       size_cur K V c = (total s - d) mod 2 ^ 64 /\
       dbg K V c = Ok ns /\
       map (fun n => (n_key K V n, n_elem K V n, n_size K V n, n_time K V n)) ns =
       map (fun e => (e_key K V e, Some (e_val K V e), e_size K V e, e_time K V e)) s /\
       NoDup (map (e_key K V) s)) \/
    (exists os1 o os2 rs s d, os = os1 ++ o :: os2 /\ xsrun smax tmax [] 0 os1 rs s d /\
       xsstep smax tmax s d o None /\ xcalls K V eqb (create K V smax tmax) os = Ub NullDeref).
  Proof.
    intros smax tmax os Hm Ht Ho Hs.
    assert (E0 : create K V smax tmax = shift 0 (create K V smax tmax)) by reflexivity.
    rewrite E0.
    destruct (xcalls_ok os 0 (create K V smax tmax) [] (create_rep K V eqb smax tmax) Ho ltac:(split; constructor) ltac:(cbn; lia) ltac:(cbn; lia) ltac:(cbn; lia))
      as [(rs & d & c & l & E & R & S1)|(os1 & o & os2 & rs & s & d & -> & S1 & C & E)].
    - left. exists rs, (map snd l), d, (shift d c).
      pose proof R as R'. destruct R' as [Hd [Hb [_ [_ [Hk [_ [_ [_ [Hs' [_ [_ [Hlen _]]]]]]]]]]]].
      destruct (walk_ok K V eqb eqb_spec l (heap K V c) None (length (idx K V c)) Hd ltac:(lia)) as (ns & W & M).
      exists ns. split; [exact E|]. split; [exact S1|].
      split; [unfold CacheX_Proof.shift, with_size; cbn [size_cur]; rewrite Hs'; reflexivity|].
      split; [unfold dbg; change (idx K V (shift d c)) with (idx K V c); change (heap K V (shift d c)) with (heap K V c);
        change (begp K V (shift d c)) with (begp K V c); rewrite Hb; exact W|].
      split; [rewrite M, map_map; reflexivity|]. rewrite map_map. exact Hk.
    - right. exists os1, o, os2, rs, s, d. auto.
  Qed.

  (** ** What does hold: exceptions elsewhere do no harm *)

  Lemma sdrop_0 : forall smax s, 0 <= smax -> Forall (fun e => 0 <= e_size K V e) s -> sdrop K V 0 smax s <> None.
  Proof.
    intros smax s Hm. induction s as [|e s IH]; intros G; cbn [sdrop].
    - change (total []) with 0. change ((0 - 0) mod 2 ^ 64) with 0. destruct (Z.leb_spec 0 smax); [discriminate|lia].
    - destruct (_ <=? _); [discriminate|]. inversion G; subst. auto.
  Qed.

  (** If no assignment throws for a key that is present, every call works: the counter is the
      sum of the sizes and nothing is lost.  Missing: the other histories, see below. *)
  Theorem C120_new_keys_partial : forall smax tmax os,
    0 <= smax < 2 ^ 64 -> 0 <= tmax <= 2 ^ 63 -> Forall (xop_ok K V) os -> xsizes K V os < 2 ^ 64 ->
    (forall os1 k v now os2 rs s d, os = os1 ++ XSetThrow K V k v now :: os2 -> xsrun smax tmax [] 0 os1 rs s d -> absent K V k s) ->
    exists rs s c, xcalls K V eqb (create K V smax tmax) os = Ok (rs, c) /\ xsrun smax tmax [] 0 os rs s 0 /\ size_cur K V c = total s.
  Proof.
    intros smax tmax os Hm Ht Ho Hs Hn.
    assert (D0 : forall os1 s0 d0 rs s d, xsrun smax tmax s0 d0 os1 rs s d ->
      (forall osa k v now osb rsa sa da, os1 = osa ++ XSetThrow K V k v now :: osb -> xsrun smax tmax s0 d0 osa rsa sa da -> absent K V k sa) ->
      Forall (xop_ok K V) os1 -> good s0 -> d = d0 /\ good s /\ total s <= total s0 + xsizes K V os1).
    { clear - eqb_spec. intros os1 s0 d0 rs s d H. induction H as [s d|s d o r s1 d1 os rs s2 d2 S R IH]; intros Hn Ho G.
      - split; [reflexivity|]. split; [exact G|]. cbn. lia.
      - inversion Ho; subst. destruct (xs_good _ _ _ _ _ _ _ _ S H1 G) as [G1 L1].
        assert (d1 = d).
        { inversion S; subst; try reflexivity.
          - destruct (sdrop K V d smax (s ++ [mkEntry K V k v sz now])); [|discriminate]. congruence.
          - exfalso. apply (Hn [] (e_key K V e) v' now os [] (a ++ e :: b) d eq_refl (xsrun_nil K V _ _ _ _) e); [apply in_elt|reflexivity]. }
        subst d1. destruct (IH) as (-> & G2 & L2); [|exact H2|exact G1|].
        + intros osa k v now osb rsa sa da -> Hr. eapply (Hn (o :: osa)); [reflexivity|econstructor; eassumption].
        + split; [reflexivity|]. split; [exact G2|]. rewrite xsizes_cons. lia. }
    destruct (C120_exact smax tmax os Hm Ht Ho Hs) as [(rs & s & d & c & ns & E & S1 & Sz & _)|(os1 & o & os2 & rs & s & d & -> & S1 & C & _)].
    - destruct (D0 _ _ _ _ _ _ S1 Hn Ho ltac:(split; constructor)) as (-> & G & L). exists rs, s, c. split; [exact E|]. split; [exact S1|].
      rewrite Sz, Z.sub_0_r. apply Z.mod_small. pose proof (total_nonneg K V eqb eqb_spec _ (proj2 G)). change (total []) with 0 in L. lia.
    - exfalso. apply Forall_app in Ho. destruct Ho as [Ho1 Ho2]. inversion Ho2; subst.
      destruct (D0 _ _ _ _ _ _ S1) as (-> & G & _); [|exact Ho1|split; constructor|].
      + intros osa k v now osb rsa sa da -> Hr. eapply (Hn osa k v now); [rewrite <- app_assoc; reflexivity|exact Hr].
      + inversion C; subst.
        destruct (sdrop K V 0 smax (s ++ [mkEntry K V k v sz now])) eqn:E; [discriminate|]. apply sdrop_0 in E; [contradiction|lia|].
        apply Forall_app. split; [exact (proj2 G)|]. constructor; [cbn; cbn in H1; lia|constructor].
  Qed.

  (** an exception while a value is copied to the caller changes nothing *)
  Theorem C120_get : forall c k now c', xcall K V eqb c (XGetThrow K V k now) = Ok (XThrown V, c') -> c' = c.
  Proof.
    intros c k now c' H. cbn [xcall] in H. unfold get in H. destruct (find K eqb k (idx K V c)) as [a|]; [|discriminate].
    destruct (node_at K V (heap K V c) (Some a)) as [n| |]; cbn [bind] in H; try discriminate.
    destruct (negb _ && _).
    - destruct (erase_it K V eqb c (Some a)) as [[b c1]| |]; cbn [bind] in H; discriminate.
    - destruct (n_elem K V n); [|discriminate]. cbn [bind] in H. injection H as <-. reflexivity.
  Qed.
End Props.
Print Assumptions C120_exact.
Print Assumptions C120_new_keys_partial.
Print Assumptions C120_get.

(** ** The claim is false *)

Notation zcalls := (xcalls Z Z Z.eqb).
Notation zset := (fun k v sz => XOp Z Z (OSet Z Z k v sz true 5)).

(** A cache for 100 bytes: key 1 with 60 bytes is set; setting it again throws; it is
    erased, which subtracts its size a second time; the next [set] follows a null pointer. *)
Theorem C120_usable_refuted : exists os,
  zcalls (create Z Z 100 0) os = Ub NullDeref /\ Forall (xop_ok Z Z) os /\
  zcalls (create Z Z 100 0) (filter (fun o => match o with XSetThrow _ _ _ _ _ => false | _ => true end) os) <> Ub NullDeref.
Proof.
  exists [zset 1 11 60; XSetThrow Z Z 1 11 5; XOp Z Z (OErase Z Z 1); zset 2 22 30].
  split; [vm_compute; reflexivity|]. split; [repeat constructor; cbn; lia|]. vm_compute. discriminate.
Qed.
Print Assumptions C120_usable_refuted.

(** After a failed [set] of a new key the key is present, with a value nobody stored *)
Theorem C120_phantom_refuted : exists os c,
  zcalls (create Z Z 100 0) os = Ok ([XThrown Z; XRet Z (RGet Z (Some 0))], c).
Proof. exists [XSetThrow Z Z 1 0 5; XOp Z Z (OGet Z Z 1 6)]. eexists. vm_compute. reflexivity. Qed.
Print Assumptions C120_phantom_refuted.

(** After failed updates the cache holds more than its limit: 150 bytes with a limit of 100 *)
Theorem C120_limit_refuted : exists os c rs s d,
  zcalls (create Z Z 100 0) os = Ok (rs, c) /\ size_cur Z Z c = 90 /\ d = 60 /\
  xsrun Z Z 100 0 [] 0 os rs s d /\ total Z Z s = 150.
Proof.
  exists [zset 1 11 60; XSetThrow Z Z 1 11 5; zset 2 22 90].
  eexists _, _, _, _. split; [vm_compute; reflexivity|]. split; [vm_compute; reflexivity|]. split; [reflexivity|].
  split.
  - eapply xsrun_cons.
    { pose proof (xs_set_new Z Z 100 0 [] 0 1 11 60 true 5) as H. vm_compute sdrop in H. apply H. intros e []. }
    eapply xsrun_cons; [apply (xs_throw_again Z Z 100 0 [] (mkEntry Z Z 1 11 60 5) [])|].
    eapply xsrun_cons; [|apply xsrun_nil].
    cbn [app e_key e_size e_time].
    pose proof (xs_set_new Z Z 100 0 [mkEntry Z Z 1 11 60 5] (0 + 60) 2 22 90 true 5) as H. vm_compute sdrop in H. apply H.
    intros e [<-|[]]. cbn. discriminate.
  - reflexivity.
Qed.
Print Assumptions C120_limit_refuted.

(** the hypotheses of C120_new_keys_partial hold of a history with two exceptions *)
Example C120_hyp_ex : exists rs s c,
  zcalls (create Z Z 100 0) [zset 1 11 60; XSetNoMem Z Z 1; XSetThrow Z Z 2 0 5] = Ok (rs, c) /\
  xsrun Z Z 100 0 [] 0 [zset 1 11 60; XSetNoMem Z Z 1; XSetThrow Z Z 2 0 5] rs s 0 /\ size_cur Z Z c = total Z Z s.
Proof.
  apply (C120_new_keys_partial Z Z Z.eqb Z.eqb_eq); try lia; [repeat constructor; cbn; lia|cbn; lia|].
  intros os1 k v now os2 rs s d E R.
  destruct os1 as [|o1 [|o2 [|o3 os1]]]; try discriminate; [|exfalso; injection E; intros; destruct os1; discriminate].
  injection E as <- <- <- <- <- <-. 
  inversion R as [|? ? ? r1 s1 d1 ? ? ? ? S1 R1]; subst. inversion R1 as [|? ? ? r2 s2 d2 ? ? ? ? S2 R2]; subst.
  inversion R2; subst. inversion S2; subst. inversion S1; subst; [destruct a; discriminate|].
  intros e [<-|[]]. cbn. discriminate.
Qed.
Example C120_ex :
  exists c, zcalls (create Z Z 100 0) [zset 1 11 60; XSetNoMem Z Z 1; XSetThrow Z Z 2 0 5; XOp Z Z (OGet Z Z 1 6)] =
    Ok ([XRet Z (RSet Z); XThrown Z; XThrown Z; XRet Z (RGet Z (Some 11))], c) /\ size_cur Z Z c = 60.
Proof. eexists. split; vm_compute; reflexivity. Qed.
