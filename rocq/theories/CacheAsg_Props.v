(** Theorems about assigning one cache to another (C126). *)

From Coq Require Import ZArith List Bool Lia Arith.
From Verif Require Import Base Cache_Model Cache_Spec Cache_Proof Cache_Props CacheUse_Model CacheUse_Props.
Import ListNotations.
Local Open Scope Z_scope.

Section Assign.
  Variables K V : Type.
  Variable eqb : K -> K -> bool.
  Hypothesis eqb_spec : forall a b, eqb a b = true <-> a = b.
  Notation rep := (rep K V eqb).

  (** Specification: [c1] is another cache; the memory it knows also holds the nodes of [c], and
      these are not its own. *)
  Definition beside (c1 c : cache K V) : Prop :=
    (forall a, In a (map snd (idx K V c)) -> heap K V c1 a = heap K V c a) /\
    (fresh K V c <= fresh K V c1)%nat /\
    (forall a, In a (map snd (idx K V c1)) -> ~ In a (map snd (idx K V c))).

  (** freeing the nodes of [c1] leaves those of [c] *)
  Lemma other_nodes : forall c1 c a, beside c1 c -> In a (map snd (idx K V c)) ->
    heap K V (destroy K V c1) a = heap K V c a.
  Proof.
    intros c1 c a (B1 & _ & B3) I. unfold destroy. cbn [heap]. rewrite free_all.
    destruct (in_dec Nat.eq_dec a (map snd (idx K V c1))) as [J|_]; [|apply B1; exact I].
    exfalso. exact (B3 a J I).
  Qed.

  Lemma assign_nodes : forall c1 c l, beside c1 c -> rep c l ->
    exists i' h', copy_nodes K V (idx K V c) (heap K V (destroy K V c1)) (fresh K V c1)
        = Ok (i', h', (fresh K V c1 + length (idx K V c))%nat) /\ map fst i' = map fst (idx K V c) /\
      (forall a, (a < fresh K V c1)%nat -> h' a = heap K V (destroy K V c1) a) /\
      map (fun x => h' (snd x)) i' = map (fun x => heap K V c (snd x)) (idx K V c).
  Proof.
    intros c1 c l B R.
    destruct (copy_nodes_ok K V (idx K V c) (heap K V (destroy K V c1)) (fresh K V c1)) as (i' & h' & E & H1 & H2 & _ & _ & H3).
    { intros k a I. destruct (rep_live K V eqb eqb_spec c l R k a I) as (X & Y).
      rewrite (other_nodes c1 c a B (in_map snd _ _ I)). split; [exact X|].
      destruct B as (_ & B2 & _). lia. }
    exists i', h'. split; [exact E|]. split; [exact H1|]. split; [exact H2|]. rewrite H3.
    apply map_ext_in. intros [k a] I. cbn [snd]. exact (other_nodes c1 c a B (in_map snd _ _ I)).
  Qed.

  (** C126: whatever [c1] held, after c1 = c it answers look-ups of unexpired entries as [c] does. *)
  Theorem C126_assign_look_up_partial : forall smax tmax os rs c c1,
    0 <= smax < 2 ^ 64 -> 0 <= tmax <= 2 ^ 63 -> Forall (op_ok K V) os -> fits K V smax tmax [] os ->
    run K V eqb (create K V smax tmax) os = Ok (rs, c) -> beside c1 c ->
    exists c', assign K V c1 c = Ok c' /\
      forall k now v, get K V eqb c k now = Ok (Some v, c) <-> get K V eqb c' k now = Ok (Some v, c').
  Proof.
    intros smax tmax os rs c c1 Hm Ht Ho Hf E B.
    destruct (reach K V eqb eqb_spec smax tmax os rs c Hm Ht Ho Hf E) as (l & R & S & M1 & M2).
    destruct (assign_nodes c1 c l B R) as (i' & h' & Ec & Hk & _ & Hm').
    unfold assign, copy. cbn [share idx heap fresh begp endp size_cur size_max time_max].
    change (fresh K V (destroy K V c1)) with (fresh K V c1). rewrite Ec. cbn [bind].
    eexists. split; [reflexivity|]. intros k now v. unfold get. cbn [idx heap time_max].
    pose proof (find_parallel K V eqb k (idx K V c) i' (heap K V c) h' Hk Hm') as P.
    destruct (find K eqb k (idx K V c)) as [a|]; destruct (find K eqb k i') as [a'|]; try contradiction;
      [|split; discriminate].
    unfold node_at. rewrite P. destruct (heap K V c a) as [n|]; [|split; discriminate]. cbn [bind].
    destruct (negb (time_max K V c =? 0) && (szt (n_time K V n + time_max K V c) <? szt now)).
    - split; intros H; exfalso; apply bind_inv in H; destruct H as ((b & x) & _ & X); discriminate X.
    - destruct (n_elem K V n) as [u|]; [|split; discriminate]. split; intros H; injection H as ->; reflexivity.
  Qed.

  (** C126: an empty cache can be assigned: all that [c1] held is freed, and it is like a new cache
      with the limits of the other. *)
  Theorem C126_assign_empty_partial : forall smax tmax os rs c c1,
    0 <= smax < 2 ^ 64 -> 0 <= tmax <= 2 ^ 63 -> Forall (op_ok K V) os -> fits K V smax tmax [] os ->
    run K V eqb (create K V smax tmax) os = Ok (rs, c) -> srun K V smax tmax [] os rs [] -> beside c1 c ->
    exists c', assign K V c1 c = Ok c' /\ begp K V c' = None /\ endp K V c' = None /\ size_cur K V c' = 0 /\
      idx K V c' = [] /\ size_max K V c' = smax /\ time_max K V c' = tmax /\
      (forall a, In a (map snd (idx K V c1)) -> heap K V c' a = None).
  Proof.
    intros smax tmax os rs c c1 Hm Ht Ho Hf E S0 B.
    destruct (C126_copy_of_an_empty_cache K V eqb eqb_spec smax tmax os rs c Hm Ht Ho Hf E S0)
      as (_ & Q1 & Q2 & Q3 & Q4 & Q5 & Q6 & _).
    unfold assign, copy. cbn [share idx heap fresh begp endp size_cur size_max time_max]. rewrite Q4.
    cbn [copy_nodes bind]. eexists. split; [reflexivity|].
    cbn [idx heap fresh begp endp size_cur size_max time_max]. repeat (split; [assumption || reflexivity|]).
    intros a I. unfold destroy. cbn [heap]. rewrite free_all.
    destruct (in_dec Nat.eq_dec a (map snd (idx K V c1))) as [_|J]; [reflexivity|contradiction].
  Qed.

  (** C126 is false of every other assignment: [c1] keeps the list of [c].  When [c] has been
      destroyed, storing a new key in [c1] writes through a dangling pointer. *)
  Theorem C126_assign_refuted : forall smax tmax os rs c s c1 k v sz upd now,
    0 <= smax < 2 ^ 64 -> 0 <= tmax <= 2 ^ 63 -> Forall (op_ok K V) os -> fits K V smax tmax [] os ->
    run K V eqb (create K V smax tmax) os = Ok (rs, c) -> srun K V smax tmax [] os rs s -> s <> [] ->
    absent K V k s -> beside c1 c ->
    exists c', assign K V c1 c = Ok c' /\
      set K V eqb (share K V c' (destroy K V (share K V c c'))) k v sz upd now = Ub UseAfterFree.
  Proof.
    intros smax tmax os rs c s c1 k v sz upd now Hm Ht Ho Hf E S0 Hne Hab B.
    destruct (reach K V eqb eqb_spec smax tmax os rs c Hm Ht Ho Hf E) as (l & R & S & M1 & M2).
    destruct (srun_det K V _ _ _ _ _ _ _ S0 S) as (_ & ->).
    destruct (assign_nodes c1 c l B R) as (i' & h' & Ec & Hk & Hb & Hm').
    unfold assign, copy. cbn [share idx heap fresh begp endp size_cur size_max time_max].
    change (fresh K V (destroy K V c1)) with (fresh K V c1). rewrite Ec. cbn [bind].
    eexists. split; [reflexivity|].
    pose proof (find_parallel K V eqb k (idx K V c) i' (heap K V c) h' Hk Hm') as P.
    rewrite (rep_gone K V eqb c l k R Hab) in P. unfold set. cbn [share idx].
    destruct (find K eqb k i') as [a'|]; [contradiction|].
    pose proof R as R'. destruct R' as (D & _ & En & _ & _ & Hfd & _ & Hfr & _).
    destruct (lastp K V l None) as [z|] eqn:Ez.
    2:{ destruct (last_case K V eqb eqb_spec l) as [->|(l' & z & e & ->)]; [cbn in Hne; contradiction|].
        rewrite (lastp_app K V eqb eqb_spec) in Ez. discriminate. }
    assert (Iz : In z (addrs K V l)).
    { apply (lastp_in K V eqb eqb_spec l None z Ez). intros ->. apply Hne. reflexivity. }
    pose proof (Hfr z Iz) as Lz.
    assert (Jz : In z (map snd (idx K V c))).
    { unfold addrs in Iz. apply in_map_iff in Iz. destruct Iz as ((z' & e) & X & I). cbn in X. subst z'.
      apply (find_snd K eqb (e_key K V e)). apply Hfd. eauto. }
    destruct B as (_ & B2 & _).
    unfold link_new. cbv zeta. cbn [share destroy heap fresh endp begp idx]. rewrite En.
    unfold node_upd at 1, node_at at 1. rewrite (hset_same K V eqb eqb_spec). cbn [bind].
    unfold node_upd, node_at. rewrite !(hset_other K V eqb eqb_spec) by lia.
    rewrite free_all. destruct (in_dec Nat.eq_dec z (map snd (idx K V c))); [reflexivity|contradiction].
  Qed.
End Assign.
Print Assumptions C126_assign_look_up_partial.
Print Assumptions C126_assign_empty_partial.
Print Assumptions C126_assign_refuted.

(** the hypotheses are met: two caches in one memory, each with an entry *)
Definition one : list (op nat nat) := [OSet nat nat 1%nat 7%nat 5 true 100].
Example C126_assign_ex : exists c c1 c',
  run nat nat Nat.eqb (create nat nat 10 0) one = Ok ([RSet nat], c) /\
  Forall (op_ok nat nat) one /\ fits nat nat 10 0 [] one /\
  set nat nat Nat.eqb (share nat nat (create nat nat 20 0) c) 2%nat 9%nat 5 true 100 = Ok c1 /\
  beside nat nat c1 c /\ assign nat nat c1 c = Ok c' /\
  get nat nat Nat.eqb c' 1%nat 101 = Ok (Some 7%nat, c') /\
  set nat nat Nat.eqb (share nat nat c' (destroy nat nat (share nat nat c c'))) 2%nat 9%nat 5 true 102 = Ub UseAfterFree.
Proof.
  eexists _, _, _. split; [cbn; reflexivity|].
  assert (Ho : Forall (op_ok nat nat) one) by (repeat constructor; cbn; lia).
  split; [exact Ho|]. split; [apply (sizes_fit nat nat Nat.eqb Nat.eqb_eq); [exact Ho|cbn; lia]|].
  split; [cbn; reflexivity|]. split.
  { split; [|split].
    - intros a [<-|[]]. reflexivity.
    - cbn. lia.
    - intros a [<-|[]] [X|[]]. discriminate. }
  split; [cbn; reflexivity|]. split; reflexivity.
Qed.
