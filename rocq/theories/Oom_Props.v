(** Theorems about string.cpp and url.cpp when memory runs out. *)

From Coq Require Import ZArith List Bool Lia.
From Verif Require Import Base Str_Model Str_Spec Str_Proof StrCpp_Model StrCpp_Spec StrCpp_Proof StrCpp_Props
  Url_Model Url_Spec Url_Proof Url_Props Oom_Model Oom_Spec.
Import ListNotations.
Local Open Scope Z_scope.

(** *** C130: what an exception leaves *)

(** If append or insert throws, the string is what it was; otherwise the call does what it
    always does. *)
Theorem C130_strings : forall thr out txt num pos a,
  (strappend_x thr out txt = Ok a \/ strnappend_x thr out num txt = Ok a \/ strnprintf_x thr out pos num txt = Ok a) ->
  a_how a = Throws_ -> a_obj a = out.
Proof.
  assert (N : forall thr out num txt put a, nput_x thr out num txt put = Ok a -> a_how a = Throws_ -> a_obj a = out).
  { intros thr out num txt put a H T. unfold nput_x in H. destruct (num <? BUFSZ).
    - destruct (nformat num txt) as [[b buf]| |]; cbn [bind] in H; try discriminate.
      destruct ((b <? 0) || thr 0%nat); [injection H as <-; reflexivity|].
      destruct (get_bytes buf (Z.to_nat b)) as [t| |]; cbn [bind] in H; try discriminate. injection H as <-. discriminate.
    - destruct (thr 0%nat); [injection H as <-; reflexivity|].
      destruct (nformat num txt) as [[b buf]| |]; cbn [bind] in H; try discriminate.
      destruct ((b <? 0) || thr 1%nat); [injection H as <-; reflexivity|].
      destruct (get_bytes buf (Z.to_nat b)) as [t| |]; cbn [bind] in H; try discriminate. injection H as <-. discriminate. }
  intros thr out txt num pos a [H|[H|H]] T.
  - unfold strappend_x in H. destruct (two_pass txt) as [[b buf]| |]; cbn [bind] in H; try discriminate.
    destruct ((b <? 0) || thr 0%nat); [injection H as <-; reflexivity|].
    destruct (get_bytes buf (Z.to_nat b)) as [t| |]; cbn [bind] in H; try discriminate. injection H as <-. discriminate.
  - eapply N; eauto.
  - unfold strnprintf_x in H. destruct (length out <? pos)%nat; [injection H as <-; discriminate|]. eapply N; eauto.
Qed.
Print Assumptions C130_strings.

(** When nothing throws, the results are those of the functions without exceptions. *)
Theorem C130_same : forall thr out txt num pos b out', (forall i, thr i = false) ->
  (strappend out txt = Ok (b, out') -> strappend_x thr out txt = Ok (mkAfter (Returns b) out' 0)) /\
  (strnappend out num txt = Ok (b, out') -> strnappend_x thr out num txt = Ok (mkAfter (Returns b) out' 0)) /\
  (strnprintf out pos num txt = Ok (b, out') -> strnprintf_x thr out pos num txt = Ok (mkAfter (Returns b) out' 0)).
Proof.
  intros thr out txt num pos b out' T. split; [|split]; intros H.
  - unfold strappend, strappend_x, append_bytes in *. destruct (two_pass txt) as [[n buf]| |]; cbn [bind] in *; try discriminate.
    destruct (n <? 0); cbn [bind] in H; [discriminate|]. rewrite T. cbn [orb].
    destruct (get_bytes buf (Z.to_nat n)); cbn [bind] in *; try discriminate. injection H as <- <-. reflexivity.
  - unfold strnappend, strnappend_x, nput_x, append_bytes in *. rewrite !T.
    destruct (nformat num txt) as [[n buf]| |]; cbn [bind] in *; try discriminate.
    rewrite orb_false_r. destruct (n <? 0); cbn [bind] in H; [discriminate|].
    destruct (get_bytes buf (Z.to_nat n)); cbn [bind] in *; try discriminate. injection H as <- <-.
    destruct (num <? BUFSZ); reflexivity.
  - unfold strnprintf, strnprintf_x, nput_x, insert_bytes in *. destruct (length out <? pos)%nat.
    { injection H as <- <-. reflexivity. }
    rewrite !T. destruct (nformat num txt) as [[n buf]| |]; cbn [bind] in *; try discriminate.
    rewrite orb_false_r. destruct (n <? 0); cbn [bind] in H; [discriminate|].
    destruct (get_bytes buf (Z.to_nat n)); cbn [bind] in *; try discriminate. injection H as <- <-.
    destruct (num <? BUFSZ); reflexivity.
Qed.
Print Assumptions C130_same.

(** Refuted: nothing stays allocated when a call throws.  For every limit of 32768 and more,
    if the string cannot be enlarged, and also if the text cannot be formatted (which needs
    no shortage of memory), the buffer is never deleted. *)
Theorem C130_leak_refuted : forall out num txt thr a, BUFSZ <= num < 2 ^ 31 -> thr 0%nat = false ->
  (thr 1%nat = true \/ txt = None) ->
  (strnappend_x thr out num txt = Ok a -> a = mkAfter Throws_ out 1) /\
  (forall pos, (pos <= length out)%nat -> strnprintf_x thr out pos num txt = Ok a -> a = mkAfter Throws_ out 1).
Proof.
  assert (N : forall out num txt thr put a, BUFSZ <= num < 2 ^ 31 -> thr 0%nat = false -> (thr 1%nat = true \/ txt = None) ->
    nput_x thr out num txt put = Ok a -> a = mkAfter Throws_ out 1).
  { intros out num txt thr put a L T0 D H. unfold nput_x in H. rewrite (proj2 (Z.ltb_ge num BUFSZ)), T0 in H by lia.
    destruct (nformat num txt) as [[n buf]| |] eqn:E; cbn [bind] in H; try discriminate.
    assert (X : (n <? 0) || thr 1%nat = true).
    { destruct D as [D| ->]; [rewrite D; apply orb_true_r|]. unfold nformat in E.
      rewrite (proj2 (Z.ltb_ge num BUFSZ)) in E by lia. cbn [vsnprintf bind] in E.
      assert (I : int32 num = num).
      { unfold int32. rewrite Z.mod_small by (unfold BUFSZ in L; lia). rewrite (proj2 (Z.ltb_lt num (2 ^ 31))) by lia. reflexivity. }
      rewrite I in E. destruct (Z.ltb_spec num (-1)) as [B|B]; [unfold BUFSZ in L; lia|]. injection E as <- _. reflexivity. }
    rewrite X in H. injection H as <-. reflexivity. }
  intros out num txt thr a L T0 D. split.
  - intros H. eapply N; eauto.
  - intros pos P H. unfold strnprintf_x in H. rewrite (proj2 (Nat.ltb_ge _ _) P) in H. eapply N; eauto.
Qed.
Print Assumptions C130_leak_refuted.
(** In all other cases nothing stays allocated. *)
Theorem C130_no_other_leak : forall thr out txt num pos a,
  (strappend_x thr out txt = Ok a \/ strnappend_x thr out num txt = Ok a \/ strnprintf_x thr out pos num txt = Ok a) ->
  a_left a = 0%nat \/ (a_left a = 1%nat /\ a_how a = Throws_ /\ BUFSZ <= num).
Proof.
  assert (N : forall thr out num txt put a, nput_x thr out num txt put = Ok a ->
    a_left a = 0%nat \/ (a_left a = 1%nat /\ a_how a = Throws_ /\ BUFSZ <= num)).
  { intros thr out num txt put a H. unfold nput_x in H. destruct (Z.ltb_spec num BUFSZ) as [L|L].
    - destruct (nformat num txt) as [[b buf]| |]; cbn [bind] in H; try discriminate.
      destruct ((b <? 0) || thr 0%nat); [injection H as <-; auto|].
      destruct (get_bytes buf (Z.to_nat b)) as [t| |]; cbn [bind] in H; try discriminate. injection H as <-. auto.
    - destruct (thr 0%nat); [injection H as <-; auto|].
      destruct (nformat num txt) as [[b buf]| |]; cbn [bind] in H; try discriminate.
      destruct ((b <? 0) || thr 1%nat); [injection H as <-; auto|].
      destruct (get_bytes buf (Z.to_nat b)) as [t| |]; cbn [bind] in H; try discriminate. injection H as <-. auto. }
  intros thr out txt num pos a [H|[H|H]].
  - unfold strappend_x in H. destruct (two_pass txt) as [[b buf]| |]; cbn [bind] in H; try discriminate.
    destruct ((b <? 0) || thr 0%nat); [injection H as <-; auto|].
    destruct (get_bytes buf (Z.to_nat b)) as [t| |]; cbn [bind] in H; try discriminate. injection H as <-. auto.
  - eapply N; eauto.
  - unfold strnprintf_x in H. destruct (length out <? pos)%nat; [injection H as <-; auto|]. eapply N; eauto.
Qed.
Print Assumptions C130_no_other_leak.
(** A concrete case: the second operation, insert, throws. *)
Example C130_ex_leak : strnprintf_x (fun i => (i =? 1)%nat) (zs "abc") 1 32768 (Some (zs "xy")) = Ok (mkAfter Throws_ (zs "abc") 1).
Proof. vm_compute. reflexivity. Qed.

(** *** sets *)

(** The set holds what it held and the first pieces; all of them when the call returns. *)
Theorem C130_stringset : forall thr s junk init ps, nonul s -> s <> [] -> splits (fun c => c = 44) s ps ->
  exists a, get_stringset_x thr (Some (s ++ 0 :: junk)) init = Ok a /\ a_left a = 0%nat /\
    ((a_how a = Returns 0 /\ forall x, In x (a_obj a) <-> In x init \/ In x ps) \/
     (a_how a = Throws_ /\ first_of ps (fun x => In x init) (fun x => In x (a_obj a)))).
Proof.
  assert (L : forall thr s ps, splits (fun c => c = 44) s ps -> nonul s ->
    forall n fuel junk init, (length ps <= fuel)%nat ->
    exists a, stringset_loop_x thr n fuel (s ++ 0 :: junk) init = Ok a /\ a_left a = 0%nat /\
      ((a_how a = Returns 0 /\ forall x, In x (a_obj a) <-> In x init \/ In x ps) \/
       (a_how a = Throws_ /\ first_of ps (fun x => In x init) (fun x => In x (a_obj a))))).
  { intros thr. induction 1 as [s Hs|a d s ps Ha Hd Hs IH]; intros Hn n fuel junk init Hf;
      (destruct fuel as [|fuel]; [cbn [length] in Hf; lia|]); cbn [stringset_loop_x].
    - rewrite strchr_none; [|exact Hn|apply not_in_forall; exact Hs|discriminate].
      cbn [bind]. rewrite cstr_ok by exact Hn. cbn [bind]. destruct (thr n || thr (n + 1)%nat).
      + eexists. split; [reflexivity|]. split; [reflexivity|]. right. split; [reflexivity|].
        exists [], [s]. split; [reflexivity|]. split; [discriminate|]. intros x. cbn. tauto.
      + eexists. split; [reflexivity|]. split; [reflexivity|]. left. split; [reflexivity|]. cbn [a_obj].
        intros x. rewrite set_insert_in by exact list_eqb_spec. cbn [In]. intuition congruence.
    - subst d. apply nonul_app in Hn. destruct Hn as [Hna Hns]. inversion Hns as [|? ? _ Hns']; subst.
      rewrite <- app_assoc. cbn [app].
      rewrite strchr_first; [|exact Hna|apply not_in_forall; exact Ha|discriminate].
      cbn [bind]. rewrite skipn_cut, firstn_cut. cbn [length] in Hf. destruct (thr n || thr (n + 1)%nat).
      + eexists. split; [reflexivity|]. split; [reflexivity|]. right. split; [reflexivity|].
        exists [], (a :: ps). split; [reflexivity|]. split; [discriminate|]. intros x. cbn. tauto.
      + destruct (IH Hns' (n + 2)%nat fuel junk (set_insert list_eqb a init) ltac:(lia)) as (r & E & Z0 & [[R Hr]|[R (pre & post & -> & P & Hr)]]);
          exists r; (split; [exact E|]); (split; [exact Z0|]).
        * left. split; [exact R|]. intros x. rewrite Hr, set_insert_in by exact list_eqb_spec. cbn [In]. intuition congruence.
        * right. split; [exact R|]. exists (a :: pre), post. split; [reflexivity|]. split; [exact P|].
          intros x. rewrite Hr, set_insert_in by exact list_eqb_spec. cbn [In]. intuition congruence. }
  intros thr s junk init ps Hs Hne H. unfold get_stringset_x. destruct s as [|c s]; [congruence|].
  inversion Hs as [|? ? Hc Hs']; subst. cbn [app rd nth_error bind]. rewrite (proj2 (Z.eqb_neq c 0) Hc).
  apply (L thr (c :: s) ps H Hs). apply splits_length in H. cbn [length] in *. rewrite app_length. cbn [length]. lia.
Qed.
Print Assumptions C130_stringset.

(** The numbers of the fields, in their order. *)
Theorem C130_uint64set : forall thr s junk init ps vs, nonul s -> splits (fun c => c = 44) s ps ->
  Forall2 reads_number ps vs ->
  exists a, get_uint64set_x thr (Some (s ++ 0 :: junk)) init = Ok a /\ a_left a = 0%nat /\
    ((a_how a = Returns 0 /\ forall x, In x (a_obj a) <-> In x init \/ In x vs) \/
     (a_how a = Throws_ /\ first_of vs (fun x => In x init) (fun x => In x (a_obj a)))).
Proof.
  assert (L : forall thr s ps, splits (fun c => c = 44) s ps -> nonul s -> forall vs, Forall2 reads_number ps vs ->
    forall n fuel junk init, (length ps <= fuel)%nat ->
    exists a, uint64set_loop_x thr n fuel (s ++ 0 :: junk) init = Ok a /\ a_left a = 0%nat /\
      ((a_how a = Returns 0 /\ forall x, In x (a_obj a) <-> In x init \/ In x vs) \/
       (a_how a = Throws_ /\ first_of vs (fun x => In x init) (fun x => In x (a_obj a))))).
  { intros thr. induction 1 as [s Hs|a d s ps Ha Hd Hs IH]; intros Hn vs Hv n fuel junk init Hf;
      (destruct fuel as [|fuel]; [cbn [length] in Hf; lia|]); cbn [uint64set_loop_x].
    - inversion Hv as [|? v ? vs' H1 H2]; subst. inversion H2; subst.
      rewrite (sscanf_reads s v H1 0 junk (or_intror eq_refl)). cbn [bind]. cbv zeta. destruct (thr n).
      + eexists. split; [reflexivity|]. split; [reflexivity|]. right. split; [reflexivity|].
        exists [], [v]. split; [reflexivity|]. split; [discriminate|]. intros x. cbn. tauto.
      + rewrite strchr_none; [|exact Hn|apply not_in_forall; exact Hs|discriminate]. cbn [bind].
        eexists. split; [reflexivity|]. split; [reflexivity|]. left. split; [reflexivity|]. cbn [a_obj].
        intros x. rewrite set_insert_in by exact Z.eqb_spec. cbn [In]. intuition congruence.
    - subst d. apply nonul_app in Hn. destruct Hn as [Hna Hns]. inversion Hns as [|? ? _ Hns']; subst.
      inversion Hv as [|? v ? vs' H1 H2]; subst. rewrite <- app_assoc. cbn [app].
      rewrite (sscanf_reads a v H1 44 _ (or_introl eq_refl)). cbn [bind]. cbv zeta. destruct (thr n).
      + eexists. split; [reflexivity|]. split; [reflexivity|]. right. split; [reflexivity|].
        exists [], (v :: vs'). split; [reflexivity|]. split; [discriminate|]. intros x. cbn. tauto.
      + rewrite strchr_first; [|exact Hna|apply not_in_forall; exact Ha|discriminate].
        cbn [bind]. rewrite skipn_cut. cbn [length] in Hf.
        destruct (IH Hns' vs' H2 (n + 1)%nat fuel junk (set_insert Z.eqb v init) ltac:(lia)) as (r & E & Z0 & [[R Hr]|[R (pre & post & -> & P & Hr)]]);
          exists r; (split; [exact E|]); (split; [exact Z0|]).
        * left. split; [exact R|]. intros x. rewrite Hr, set_insert_in by exact Z.eqb_spec. cbn [In]. intuition congruence.
        * right. split; [exact R|]. exists (v :: pre), post. split; [reflexivity|]. split; [exact P|].
          intros x. rewrite Hr, set_insert_in by exact Z.eqb_spec. cbn [In]. intuition congruence. }
  intros thr s junk init ps vs Hs H Hv. unfold get_uint64set_x. apply (L thr s ps H Hs vs Hv).
  apply splits_length in H. rewrite app_length. cbn [length]. lia.
Qed.
Print Assumptions C130_uint64set.

(** *** maps *)

Lemma put_cases : forall thr n k v m t m', put_x thr n k v m = (t, m') ->
  (t = false /\ m' = map_set k v m) \/
  (t = true /\ ((forall x, lookup x m' = lookup x m) \/
    (lookup k m = None /\ lookup k m' = Some [] /\ forall x, x <> k -> lookup x m' = lookup x m))).
Proof.
  intros thr n k v m t m' H. unfold put_x in H. destruct (thr n); [injection H as <- <-; auto|].
  destruct (lookup k m) as [u|] eqn:E.
  - destruct (thr (n + 2)%nat); injection H as <- <-; auto.
  - destruct (thr (n + 1)%nat); [injection H as <- <-; auto|].
    destruct (thr (n + 2)%nat); injection H as <- <-; auto.
    right. split; [reflexivity|]. right. split; [reflexivity|]. split; [apply lookup_set_same|].
    intros x Hx. now apply lookup_set_other.
Qed.

(** one segment: nothing to store, or a field *)
Lemma seg_case : forall d seg rest, exists q, strnchr (seg ++ rest) d (length (seg ++ rest)) = Ok q /\
  forall thr n m,
    ((forall k v, ~ field d seg k v) /\
     match q with
     | Some equ => if (equ <? length seg)%nat
                   then put_x thr n (firstn equ (seg ++ rest)) (firstn (length seg - equ - 1) (skipn (equ + 1) (seg ++ rest))) m
                   else (false, m)
     | None => (false, m)
     end = (false, m)) \/
    exists k v, field d seg k v /\
     match q with
     | Some equ => if (equ <? length seg)%nat
                   then put_x thr n (firstn equ (seg ++ rest)) (firstn (length seg - equ - 1) (skipn (equ + 1) (seg ++ rest))) m
                   else (false, m)
     | None => (false, m)
     end = put_x thr n k v m.
Proof.
  intros d seg rest. destruct (field_dec d seg) as [[k [v [-> Hk]]]|Hn].
  - exists (Some (length k)). split.
    + rewrite <- app_assoc. cbn [app]. apply strnchr_first. exact Hk.
    + intros thr n m. right. exists k, v. split; [split; [reflexivity|exact Hk]|].
      rewrite app_length. cbn [length].
      destruct (Nat.ltb_spec (length k) (length k + S (length v))); [|lia].
      rewrite <- app_assoc. cbn [app]. rewrite firstn_cut.
      replace (length k + 1)%nat with (S (length k)) by lia. rewrite skipn_cut.
      replace (length k + S (length v) - length k - 1)%nat with (length v) by lia.
      rewrite firstn_cut. reflexivity.
  - assert (Hf : forall k v, ~ field d seg k v) by (intros k v F; apply Hn; exact (field_in _ _ _ _ F)).
    destruct (field_dec d rest) as [[k [v [-> Hk]]]|Hn'].
    + exists (Some (length (seg ++ k))). split.
      * rewrite app_assoc. apply strnchr_first. intros H. apply in_app_or in H. tauto.
      * intros thr n m. left. split; [exact Hf|]. rewrite app_length.
        destruct (Nat.ltb_spec (length seg + length k) (length seg)); [lia|reflexivity].
    + exists None. split.
      * apply strnchr_none. intros H. apply in_app_or in H. tauto.
      * intros thr n m. left. split; [exact Hf|reflexivity].
Qed.

(** how the call ends for the segments [ps] *)
Definition ends_for (d : Z) (ps : list (list Z)) (m : smap) (a : after smap) : Prop :=
  a_left a = 0%nat /\
  ((a_how a = Returns 0 /\ forall k, value_after d ps (lookup k m) k (lookup k (a_obj a))) \/
   (a_how a = Throws_ /\ stopped_at d ps (fun x => lookup x m) (fun x => lookup x (a_obj a)))).

Lemma ends_nil : forall d m, ends_for d [] m (mkAfter (Returns 0) m 0).
Proof. intros d m. split; [reflexivity|]. left. split; [reflexivity|]. intros k. right. split; [intros seg v []|reflexivity]. Qed.
Lemma value_nil : forall d (o : option (list Z)) k, value_after d [] o k o.
Proof. intros d o k. right. split; [intros seg v []|reflexivity]. Qed.

(** one segment and then the others *)
Lemma ends_cons : forall d seg ps m r thr n, 
  ((forall k v, ~ field d seg k v) /\ r = (false, m)) \/ (exists k v, field d seg k v /\ r = put_x thr n k v m) ->
  (fst r = true -> ends_for d (seg :: ps) m (mkAfter Throws_ (snd r) 0)) /\
  (fst r = false -> forall a, ends_for d ps (snd r) a -> ends_for d (seg :: ps) m a).
Proof.
  intros d seg ps m r thr n H.
  assert (C : (fst r = false /\ set_field d seg m (snd r)) \/
    (fst r = true /\ exists k v, field d seg k v /\ ((forall x, lookup x (snd r) = lookup x m) \/
      (lookup k m = None /\ lookup k (snd r) = Some [] /\ forall x, x <> k -> lookup x (snd r) = lookup x m)))).
  { destruct H as [[Hf ->]|(k & v & Hf & E)].
    - left. split; [reflexivity|]. right. split; [|reflexivity]. destruct (field_dec d seg) as [(k & v & F)|N]; [|exact N].
      exfalso. eapply Hf, F.
    - destruct r as [t m']. symmetry in E. destruct (put_cases _ _ _ _ _ _ _ E) as [[-> ->]|[-> D]].
      + left. split; [reflexivity|]. left. eauto.
      + right. split; [reflexivity|]. exists k, v. auto. }
  destruct C as [[T S1]|[T (k & v & Hf & D)]]; rewrite T; split; intros X; try discriminate.
  - intros a [L [[R V]|[R (pre & sg & post & k & v & mid & -> & Hf & V & D)]]]; split; auto.
    + left. split; [exact R|]. intros x. eapply value_after_cons; [exact S1|apply V].
    + right. split; [exact R|]. exists (seg :: pre), sg, post, k, v, mid. split; [reflexivity|]. split; [exact Hf|].
      split; [|exact D]. intros x. eapply value_after_cons; [exact S1|apply V].
  - split; [reflexivity|]. right. split; [reflexivity|]. exists [], seg, ps, k, v, (fun x => lookup x m). split; [reflexivity|].
    split; [exact Hf|]. split; [intros x; apply value_nil|exact D].
Qed.

Lemma params_loop_x_ok : forall thr s ps, splits (fun c => c = 38) s ps -> forall i fuel m, (length s < fuel)%nat ->
  exists a, params_loop_x thr i fuel m s (length s) = Ok a /\ ends_for 61 ps m a.
Proof.
  intros thr. induction 1 as [s Hs|a d s ps Ha Hd Hs IH]; intros i fuel m Hf;
    (destruct fuel as [|fuel]; [lia|]); cbn [params_loop_x].
  - destruct s as [|c s].
    + cbn [length Nat.eqb]. eexists. split; [reflexivity|]. split; [reflexivity|]. left. split; [reflexivity|]. intros k. right.
      split; [|reflexivity]. intros seg v [<-|[]] [E _]. destruct k; discriminate.
    + destruct (Nat.eqb_spec (length (c :: s)) 0) as [E|_]; [discriminate|].
      rewrite strnchr_none by (apply not_in_forall; exact Hs). cbn [bind]. cbv zeta.
      destruct (seg_case 61 (c :: s) []) as (q & Eq & C). rewrite app_nil_r in *. rewrite Eq. cbn [bind].
      specialize (C thr i m).
      match goal with |- context [let '(t, params) := ?r in _] => set (rr := r) in * end.
      assert (Cc := C).
      destruct (ends_cons 61 (c :: s) [] m rr thr i) as [K1 K2].
      { destruct C as [[C1 C2]|(k & v & C1 & C2)]; [left; auto|right; exists k, v; auto]. }
      destruct rr as [t m1]. destruct t.
      * eexists. split; [reflexivity|]. apply K1. reflexivity.
      * replace (length (c :: s) - (length (c :: s) + 1))%nat with 0%nat by lia.
        destruct fuel as [|fuel]; [cbn in Hf; lia|]. cbn [params_loop_x Nat.eqb].
        eexists. split; [reflexivity|]. apply K2; [reflexivity|]. apply ends_nil.
  - subst d. destruct (Nat.eqb_spec (length (a ++ 38 :: s)) 0) as [E|_]; [rewrite app_length in E; cbn in E; lia|].
    rewrite strnchr_first by (apply not_in_forall; exact Ha). cbn [bind]. cbv zeta.
    destruct (seg_case 61 a (38 :: s)) as (q & Eq & C). rewrite Eq. cbn [bind]. specialize (C thr i m).
    match goal with |- context [let '(t, params) := ?r in _] => set (rr := r) in * end.
    destruct (ends_cons 61 a ps m rr thr i) as [K1 K2].
    { destruct C as [[C1 C2]|(k & v & C1 & C2)]; [left; auto|right; exists k, v; auto]. }
    destruct rr as [t m1]. destruct t.
    + eexists. split; [reflexivity|]. apply K1. reflexivity.
    + replace (length a + 1)%nat with (S (length a)) by lia. rewrite skipn_cut.
      replace (length (a ++ 38%Z :: s) - S (length a))%nat with (length s) by (rewrite app_length; cbn [length]; lia).
      destruct (IH (i + 3)%nat fuel m1) as (r & Er & Hr); [rewrite app_length in Hf; cbn [length] in Hf; lia|].
      exists r. split; [exact Er|]. apply K2; [reflexivity|exact Hr].
Qed.

(** Either the call returns and every field is stored, or it throws: the fields before some
    field are stored, and this one may have left its key with an empty value, if the key was
    new. *)
Theorem C130_params : forall thr m s ps, splits (fun c => c = 38) s ps ->
  exists a, get_params_buf_x thr m (Some s) (length s) = Ok a /\ ends_for 61 ps m a.
Proof. intros thr m s ps H. apply params_loop_x_ok; [exact H|lia]. Qed.
Print Assumptions C130_params.

Lemma header_loop_x_ok : forall thr s ls, header_lines s ls -> Forall (fun l => hd 0 l <> 0) ls ->
  forall i fuel m, (length s < fuel)%nat ->
  exists a, header_loop_x thr i fuel m s (length s) = Ok a /\ ends_for 58 ls m a.
Proof.
  intros thr. induction 1 as [|s|s Hne Hno|a s ls Hne Hfirst Hs IH]; intros Hl i fuel m Hf;
    (destruct fuel as [|fuel]; [lia|]).
  - cbn. eexists. split; [reflexivity|]. apply ends_nil.
  - eexists. split; [|apply ends_nil].
    cbn [header_loop_x]. destruct (Nat.eqb_spec (length (13 :: 10 :: s)) 0) as [E|_]; [discriminate|].
    pose proof (strnstr_crlf (13 :: 10 :: s) ltac:(discriminate)) as H.
    assert (H0 : first_occurrence eq crlf (13 :: 10 :: s) 0).
    { split; [|intros j Hj; lia]. exists [], crlf, s. split; [reflexivity|]. split; [reflexivity|]. repeat constructor. }
    destruct (strnstr (Some (13 :: 10 :: s)) (Some crlf_lit) (length (13 :: 10 :: s))) as [[j|]| |]; try contradiction.
    + rewrite (first_occ_unique _ _ _ H H0). reflexivity.
    + destruct (H 0%nat). apply H0.
  - inversion Hl as [|? ? Hh _]; subst. cbn [header_loop_x].
    destruct (Nat.eqb_spec (length s) 0) as [E|_]; [destruct s; [congruence|discriminate]|].
    pose proof (strnstr_crlf s Hh) as H.
    destruct (strnstr (Some s) (Some crlf_lit) (length s)) as [[j|]| |]; try contradiction.
    { destruct (Hno j). apply H. }
    cbn [bind]. cbv zeta.
    destruct (Nat.eqb_spec (length s) 0) as [E|_]; [destruct s; [congruence|discriminate]|].
    destruct (seg_case 58 s []) as (q & Eq & C). rewrite app_nil_r in *. rewrite Eq. cbn [bind]. specialize (C thr i m).
    match goal with |- context [let '(t, header) := ?r in _] => set (rr := r) in * end.
    destruct (ends_cons 58 s [] m rr thr i) as [K1 K2].
    { destruct C as [[C1 C2]|(k & v & C1 & C2)]; [left; auto|right; exists k, v; auto]. }
    destruct rr as [t m1]. destruct t.
    + eexists. split; [reflexivity|]. apply K1. reflexivity.
    + replace (length s - (length s + 2))%nat with 0%nat by lia.
      destruct fuel as [|fuel]; [destruct s; [congruence|cbn in Hf; lia]|]. cbn [header_loop_x Nat.eqb].
      eexists. split; [reflexivity|]. apply K2; [reflexivity|]. apply ends_nil.
  - inversion Hl as [|? ? Hh Hl']; subst. cbn [header_loop_x].
    destruct (Nat.eqb_spec (length (a ++ crlf ++ s)) 0) as [E|_]; [rewrite !app_length in E; cbn in E; lia|].
    pose proof (strnstr_crlf (a ++ crlf ++ s)) as H.
    assert (Hh' : hd 0 (a ++ crlf ++ s) <> 0) by (destruct a; [congruence|exact Hh]).
    specialize (H Hh').
    destruct (strnstr (Some (a ++ crlf ++ s)) (Some crlf_lit) (length (a ++ crlf ++ s)))
      as [[j|]| |]; try contradiction; [|destruct (H (length a)); apply Hfirst].
    rewrite (first_occ_unique _ _ _ H Hfirst). cbn [bind]. cbv zeta.
    destruct (Nat.eqb_spec (length a) 0) as [E|_]; [destruct a; [congruence|discriminate]|].
    destruct (seg_case 58 a (crlf ++ s)) as (q & Eq & C). rewrite Eq. cbn [bind]. specialize (C thr i m).
    match goal with |- context [let '(t, header) := ?r in _] => set (rr := r) in * end.
    destruct (ends_cons 58 a ls m rr thr i) as [K1 K2].
    { destruct C as [[C1 C2]|(k & v & C1 & C2)]; [left; auto|right; exists k, v; auto]. }
    destruct rr as [t m1]. destruct t.
    + eexists. split; [reflexivity|]. apply K1. reflexivity.
    + assert (E2 : skipn (length a + 2) (a ++ crlf ++ s) = s).
      { rewrite skipn_app_ge by lia. replace (length a + 2 - length a)%nat with 2%nat by lia. reflexivity. }
      rewrite E2. replace (length (a ++ crlf ++ s) - (length a + 2))%nat with (length s)
        by (rewrite !app_length; cbn [length crlf]; lia).
      destruct (IH Hl' (i + 3)%nat fuel m1) as (r & Er & Hr).
      { rewrite !app_length in Hf. cbn [length crlf] in Hf. lia. }
      exists r. split; [exact Er|]. apply K2; [reflexivity|exact Hr].
Qed.

(** The same for header lines (none of which begins with NUL, as in C31). *)
Theorem C130_header : forall thr m s ls, header_lines s ls -> Forall (fun l => hd 0 l <> 0) ls ->
  exists a, get_header_buf_x thr m (Some s) (length s) = Ok a /\ ends_for 58 ls m a.
Proof. intros thr m s ls H Hl. apply header_loop_x_ok; [exact H|exact Hl|lia]. Qed.
Print Assumptions C130_header.

(** When nothing throws, the results are those without exceptions. *)
Theorem C130_same_maps : forall thr m s len r m', (forall i, thr i = false) ->
  (get_params_buf m s len = Ok (r, m') -> get_params_buf_x thr m s len = Ok (mkAfter (Returns r) m' 0)) /\
  (get_header_buf m s len = Ok (r, m') -> get_header_buf_x thr m s len = Ok (mkAfter (Returns r) m' 0)).
Proof.
  intros thr m s len r m' T.
  assert (P : forall n k v m0, put_x thr n k v m0 = (false, map_set k v m0)).
  { intros n k v m0. unfold put_x. rewrite !T. destruct (lookup k m0); reflexivity. }
  split; intros H; destruct s as [s|]; try (injection H as <- <-; reflexivity).
  - unfold get_params_buf in H. unfold get_params_buf_x. destruct (params_loop (S len) m s len) as [m1| |] eqn:E; try discriminate.
    injection H as <- <-. revert E.
    cut (forall fuel i m s len, params_loop fuel m s len = Ok m1 -> params_loop_x thr i fuel m s len = Ok (mkAfter (Returns 0) m1 0)); [auto|].
    clear m s len. intros fuel i m s len. revert i m s len.
    induction fuel as [|fuel IH]; intros i m s len E; [discriminate|]. cbn [params_loop params_loop_x] in *.
    destruct (len =? 0)%nat; [injection E as <-; reflexivity|].
    destruct (strnchr s 38 len) as [a| |]; cbn [bind] in *; try discriminate. cbv zeta in *.
    destruct (strnchr s 61 len) as [q| |]; cbn [bind] in *; try discriminate.
    destruct q as [equ|]; [|apply IH; exact E].
    destruct (equ <? match a with Some k => k | None => len end)%nat; [rewrite P|]; apply IH; exact E.
  - unfold get_header_buf in H. unfold get_header_buf_x. destruct (header_loop (S len) m s len) as [m1| |] eqn:E; try discriminate.
    injection H as <- <-. revert E.
    cut (forall fuel i m s len, header_loop fuel m s len = Ok m1 -> header_loop_x thr i fuel m s len = Ok (mkAfter (Returns 0) m1 0)); [auto|].
    clear m s len. intros fuel i m s len. revert i m s len.
    induction fuel as [|fuel IH]; intros i m s len E; [discriminate|]. cbn [header_loop header_loop_x] in *.
    destruct (len =? 0)%nat; [injection E as <-; reflexivity|].
    destruct (strnstr (Some s) (Some crlf_lit) len) as [a| |]; cbn [bind] in *; try discriminate. cbv zeta in *.
    destruct (match a with Some k => k | None => len end =? 0)%nat; [injection E as <-; reflexivity|].
    destruct (strnchr s 58 len) as [q| |]; cbn [bind] in *; try discriminate.
    destruct q as [dodo|]; [|apply IH; exact E].
    destruct (dodo <? match a with Some k => k | None => len end)%nat; [rewrite P|]; apply IH; exact E.
Qed.
Print Assumptions C130_same_maps.

(** ... and in the sets *)
Theorem C130_same_sets : forall thr s init init' r r', (forall i, thr i = false) ->
  (get_stringset s init = Ok r -> get_stringset_x thr s init = Ok (mkAfter (Returns 0) r 0)) /\
  (get_uint64set s init' = Ok r' -> get_uint64set_x thr s init' = Ok (mkAfter (Returns 0) r' 0)).
Proof.
  intros thr s init init' r r' T. split; intros H; destruct s as [s|]; try (injection H as <-; reflexivity).
  - unfold get_stringset in H. unfold get_stringset_x. unfold deref, rd in *. destruct s as [|c s]; [discriminate|].
    cbn [nth_error bind] in *. destruct (c =? 0); [injection H as <-; reflexivity|].
    revert H.
    cut (forall fuel i n init, stringset_loop fuel i init = Ok r -> stringset_loop_x thr n fuel i init = Ok (mkAfter (Returns 0) r 0)); [auto|].
    clear init. intros fuel i n init. revert i n init.
    induction fuel as [|fuel IH]; intros i n init H; [discriminate|]. cbn [stringset_loop stringset_loop_x] in *.
    destruct (strchr i 44) as [k| |]; cbn [bind] in *; try discriminate. rewrite !T. cbn [orb].
    destruct k as [k|]; [apply IH; exact H|].
    destruct (cstr i) as [t| |]; cbn [bind] in *; try discriminate. injection H as <-. reflexivity.
  - unfold get_uint64set in H. unfold get_uint64set_x.
    revert H.
    cut (forall fuel i n init, uint64set_loop fuel i init = Ok r' -> uint64set_loop_x thr n fuel i init = Ok (mkAfter (Returns 0) r' 0)); [auto|].
    clear init'. intros fuel i n init'. revert i n init'.
    induction fuel as [|fuel IH]; intros i n init' H; [discriminate|]. cbn [uint64set_loop uint64set_loop_x] in *.
    destruct (sscanf_lu i) as [[v|]| |]; cbn [bind] in *; try discriminate. rewrite !T.
    destruct (strchr i 44) as [k| |]; cbn [bind] in *; try discriminate.
    destruct k as [k|]; [apply IH; exact H|]. injection H as <-. reflexivity.
Qed.
Print Assumptions C130_same_sets.

(** Refuted: a call that throws leaves the map as it was, or at least only with fields of the
    text.  Here the key b is left with an empty value. *)
Theorem C130_phantom_refuted : exists thr s ps a, splits (fun c => c = 38) s ps /\
  get_params_buf_x thr [] (Some s) (length s) = Ok a /\ a_how a = Throws_ /\
  exists k, lookup k (a_obj a) = Some [] /\ forall seg, In seg ps -> ~ field 61 seg k [].
Proof.
  exists (fun i => (i =? 5)%nat), (zs "a=1&b=2"), [zs "a=1"; zs "b=2"].
  exists (mkAfter Throws_ [(zs "a", zs "1"); (zs "b", [])] 0). split.
  - change (zs "a=1&b=2") with ([97; 61; 49] ++ 38 :: [98; 61; 50]). change [zs "a=1"; zs "b=2"] with [[97; 61; 49]; [98; 61; 50]]. apply splits_more; [|reflexivity|apply splits_last].
    + repeat (apply Forall_cons; [lia|]). apply Forall_nil.
    + repeat (apply Forall_cons; [lia|]). apply Forall_nil.
  - split; [vm_compute; reflexivity|]. split; [reflexivity|]. exists (zs "b"). split; [reflexivity|].
    intros seg [<-|[<-|[]]] [E _]; discriminate.
Qed.
Print Assumptions C130_phantom_refuted.

(** The hypotheses of the theorems above hold of these, and an exception in the middle leaves
    the first pieces. *)
Example C130_ex_sets : splits (fun c => c = 44) (zs "a,b") [zs "a"; zs "b"] /\
  get_stringset_x (fun i => (i =? 2)%nat) (Some (zs "a,b" ++ [0])) [] = Ok (mkAfter Throws_ [zs "a"] 0) /\
  get_stringset_x (fun _ => false) (Some (zs "a,b" ++ [0])) [] = Ok (mkAfter (Returns 0) [zs "b"; zs "a"] 0).
Proof.
  split; [|vm_compute; auto]. change (zs "a,b") with ([97] ++ 44 :: [98]). change [zs "a"; zs "b"] with [[97]; [98]].
  apply splits_more; [|reflexivity|apply splits_last]; repeat (apply Forall_cons; [lia|]); apply Forall_nil.
Qed.
