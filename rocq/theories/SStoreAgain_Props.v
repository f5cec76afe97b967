(** Theorems about the string storage that hold for all sets of keys. *)

From Coq Require Import ZArith List Bool Lia Permutation.
From Verif Require Import Base SStore_Model SStore_Spec SStore_Proof SStoreTree_Proof SStoreEnum_Proof SStoreAgain_Proof SStore_Props.
Import ListNotations.
Local Open Scope nat_scope.

(** the operation stores user data *)
Definition is_write (o : op) : Prop := match o with OWrite _ _ => True | OAdd _ => False end.

(** What was added last is found, whatever was added before and whatever is stored as user
    data in between; adding it again gives the same slot and changes nothing. *)
Theorem C128_just_added : forall uds ops k ws,
  Forall key (keys_of ops) -> Forall (fun k => length k + 1 + uds <> 4096) (keys_of ops) ->
  key k -> length k + 2 + uds <= 4096 -> Forall is_write ws ->
  writes_fit uds (ops ++ OAdd k :: ws) ->
  exists ss lg p, play uds (ops ++ OAdd k :: ws) = Ok (ss, lg ++ [(k, Some p)]) /\
    find ss (cstr k) = Ok (Some p) /\ add ss (cstr k) = Ok (ss, Some p).
Proof.
  intros uds ops k ws H1 H2 Hk Hl Hws HW.
  assert (Eb : block_size = 4096) by (vm_compute; reflexivity).
  destruct (play_again uds ops) as (sb & r & lg & L & E & H).
  { split; [auto|]. split; [rewrite Eb; auto|]. intros i d Hi. apply (HW i d). apply in_or_app. auto. }
  destruct (gadd uds sb r lg L k H Hk) as (sb' & r' & v & L' & E' & H' & _ & G); [lia|].
  assert (HW2 : forall i d, In (OWrite i d) ws -> length d <= uds).
  { intros i d Hi. apply (HW i d). apply in_or_app. right. right. auto. }
  clear HW. revert Hws HW2. unfold play in *.
  assert (A : forall ws sb1, ginv uds sb1 r' (lg ++ [(k, Some (padd v 1))]) L' -> Forall is_write ws ->
    (forall i d, In (OWrite i d) ws -> length d <= uds) ->
    exists sb2, exec ((sb1, r'), lg ++ [(k, Some (padd v 1))]) ws =
      Ok ((sb2, r'), lg ++ [(k, Some (padd v 1))]) /\ ginv uds sb2 r' (lg ++ [(k, Some (padd v 1))]) L').
  { clear - ws. induction ws0 as [|o ws0 IH]; intros sb1 H1 Hws HW2.
    - exists sb1. auto.
    - inversion Hws as [|? ? Ho Hws']; subst. destruct o as [|i d]; [contradiction|].
      destruct (gwrite uds sb1 r' _ L' i d H1) as (sb2 & E2 & H2).
      { apply (HW2 i d). left. auto. }
      destruct (IH sb2 H2 Hws') as (sb3 & E3 & H3).
      { intros j e Hj. apply (HW2 j e). right. auto. }
      exists sb3. split; [|exact H3]. cbn [exec].
      exact (eq_trans (f_equal (fun z => bind z (fun st => exec st ws0)) E2) E3). }
  intros Hws HW2. destruct (A ws sb' H' Hws HW2) as (sb2 & E2 & Hg2).
  exists (sb2, r'), lg, (padd v 1). rewrite exec_app, E. cbn [bind exec exec_op]. rewrite E'. cbn [bind].
  split; [exact E2|]. apply G; apply Hg2.
Qed.
Print Assumptions C128_just_added.

(** An addition gives the slot that a look-up before would have given, and then changes
    nothing; or the look-up finds nothing, and the slot is new. *)
Theorem C128_known_or_new : forall uds ops k,
  Forall key (keys_of ops) -> Forall (fun k => length k + 1 + uds <> 4096) (keys_of ops) ->
  key k -> length k + 2 + uds <= 4096 -> writes_fit uds ops ->
  exists ss lg ss' p, play uds ops = Ok (ss, lg) /\ add ss (cstr k) = Ok (ss', Some p) /\
    ((find ss (cstr k) = Ok (Some p) /\ ss' = ss /\ exists k', In (k', Some p) lg) \/
     (find ss (cstr k) = Ok None /\ forall k', ~ In (k', Some p) lg)).
Proof.
  intros uds ops k H1 H2 Hk Hl HW.
  assert (Eb : block_size = 4096) by (vm_compute; reflexivity).
  destruct (play_again uds ops) as (sb & r & lg & L & E & H).
  { split; [auto|]. split; [rewrite Eb; auto|]. auto. }
  destruct (gadd uds sb r lg L k H Hk) as (sb' & r' & v & L' & E' & H' & D & G); [lia|].
  exists (sb, r), lg, (sb', r'), (padd v 1). split; [exact E|]. split; [exact E'|].
  destruct D as [(-> & -> & D & Hv) | (D & Hv)].
  - left. split; [exact D|]. split; [reflexivity|]. apply (g_out _ _ _ _ _ H). exact Hv.
  - right. split; [exact D|]. intros k' Hk'.
    destruct (g_log _ _ _ _ _ H _ _ Hk') as (u & Eu & Hu). apply padd_inj in Eu. subst. contradiction.
Qed.
Print Assumptions C128_known_or_new.

(** The enumeration reports every slot that was ever returned, once, and no other. *)
Theorem C128_every_slot_is_reported : forall uds ops,
  Forall key (keys_of ops) -> Forall (fun k => length k + 1 + uds <> 4096) (keys_of ops) ->
  writes_fit uds ops ->
  exists ss lg l, play uds ops = Ok (ss, lg) /\ enumerate ss = Ok l /\ NoDup (map snd l) /\
    forall p, In p (map snd l) <-> exists k, In (k, Some p) lg.
Proof.
  intros uds ops H1 H2 HW.
  destruct (C86_enumeration_is_defined uds ops H1 H2 HW) as (ss & lg & l & E & El).
  assert (Eb : block_size = 4096) by (vm_compute; reflexivity).
  destruct (play_again uds ops) as (sb & r & lg' & L & E' & H).
  { split; [auto|]. split; [rewrite Eb; auto|]. auto. }
  rewrite E in E'. injection E' as -> ->. exists (sb, r), lg', l.
  split; [exact E|]. split; [exact El|]. apply enum_vals in El. cbn [snd] in El. rewrite El. split.
  - pose proof (ginv_nodup _ _ _ _ _ H) as N. clear - N.
    induction N as [|v t Hv N IH]; cbn; constructor; auto.
    intros Hi. apply in_map_iff in Hi. destruct Hi as (u & Eu & Hu). apply padd_inj in Eu. subst. contradiction.
  - intros p. rewrite in_map_iff. split.
    + intros (v & <- & Hv). apply (g_out _ _ _ _ _ H).
      eapply Permutation_in; [apply (g_perm _ _ _ _ _ H) | exact Hv].
    + intros (k & Hk). destruct (g_log _ _ _ _ _ H _ _ Hk) as (v & -> & Hv). exists v. split; auto.
      eapply Permutation_in; [symmetry; apply (g_perm _ _ _ _ _ H) | exact Hv].
Qed.
Print Assumptions C128_every_slot_is_reported.

(** The keys of C63_key_is_lost_refuted: the third key is lost when the fourth is added.  Just
    after its addition it is found, and all four slots are reported. *)
Definition deep_ops : list op := map OAdd
  [rep 30 97; rep 20 97 ++ rep 19 98 ++ [109%Z]; rep 10 97 ++ rep 19 98 ++ [122%Z]].
Example C128_ex_hypotheses :
  Forall key (keys_of deep_ops) /\ Forall (fun k => length k + 1 + 4 <> 4096) (keys_of deep_ops) /\
  key (rep 15 97 ++ [99%Z]) /\ length (rep 15 97 ++ [99%Z]) + 2 + 4 <= 4096 /\
  Forall is_write [OWrite 3 [1%Z; 2%Z]] /\
  writes_fit 4 (deep_ops ++ OAdd (rep 15 97 ++ [99%Z]) :: [OWrite 3 [1%Z; 2%Z]]).
Proof.
  assert (K : forall n c, (0 < c < 256)%Z -> key (rep n c)).
  { intros n c H. apply Forall_forall. intros x Hx. apply repeat_spec in Hx. subst. exact H. }
  split; [|split; [|split; [|split; [|split]]]].
  - repeat constructor; cbn; try lia.
  - repeat constructor; vm_compute; discriminate.
  - apply Forall_app. split; [apply K; lia | repeat constructor; lia].
  - rewrite app_length. unfold rep. rewrite repeat_length. cbn [length]. apply Nat.leb_le. reflexivity.
  - repeat constructor.
  - intros i d Hi. cbn in Hi. destruct Hi as [Hi | [Hi | [Hi | [Hi | [Hi | []]]]]]; try discriminate.
    injection Hi as <- <-. cbn. lia.
Qed.
Example C128_ex_run :
  match play 4 (deep_ops ++ [OAdd (rep 15 97 ++ [99%Z]); OWrite 3 [1%Z; 2%Z]]) with
  | Ok (ss, lg) =>
      (map snd lg, find ss (cstr (rep 15 97 ++ [99%Z])),
       find ss (cstr (rep 10 97 ++ rep 19 98 ++ [122%Z])),
       match enumerate ss with Ok l => map snd l | _ => [] end)
      = ([Some (0, 1); Some (0, 37); Some (0, 63); Some (0, 70)], Ok (Some (0, 70)), Ok None,
         [(0, 1); (0, 37); (0, 63); (0, 70)])
  | _ => False
  end.
Proof. vm_compute. reflexivity. Qed.
