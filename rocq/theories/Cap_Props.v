(** Properties of estimate_capacity. *)

From Coq Require Import ZArith List Lia.
From Verif Require Import Cap_Model Cap_Spec.
Import ListNotations.
Local Open Scope Z_scope.

(** *** C115: estimate_capacity *)

(** The answer is exact for numbers, for pointers and for vectors of these, *)
Theorem C115_exact : forall v, sane v ->
  flat v \/ (exists cap s elems, v = Vec cap s elems /\ Forall flat elems) -> estimate v = held v.
Proof.
  intros v S [F|(cap & s & elems & -> & F)].
  - destruct v; cbn in *; try contradiction; unfold held; cbn; lia.
  - unfold held. cbn [estimate size_of owned]. destruct S as (S1 & S2 & S3 & _).
    assert (O : fold_right Z.add 0 (map owned elems) = 0).
    { clear - F. induction F as [|x l H _ IH]; [reflexivity|]. cbn. rewrite IH. destruct x; cbn in *; try contradiction; lia. }
    rewrite O, Z.mod_small; [lia|]. nia.
Qed.
Print Assumptions C115_exact.

(** and for strings it is right to within the inner buffer: never more than 16 bytes too much,
    and never more than one character too little. *)
Theorem C115_strings : forall cap s, sane (Str cap s) ->
  held (Str cap s) - s <= estimate (Str cap s) < held (Str cap s) + 16.
Proof.
  intros cap s (S1 & S0 & S2). unfold held. cbn [estimate size_of owned].
  assert (E : (cap + 1) * s = cap * s + s) by lia. assert (P : 0 <= cap * s) by nia. rewrite E in *.
  generalize dependent (cap * s). intros q E P S2. rewrite Z.mod_small by lia.
  destruct (Z.leb_spec (q + s) 16); lia.
Qed.
Print Assumptions C115_strings.

(** It is never more than a constant above what is held, whatever the elements, *)
Theorem C115_no_overestimate : forall cap s elems, sane (Vec cap s elems) ->
  (forall e, In e elems -> 0 <= owned e) -> estimate (Vec cap s elems) <= held (Vec cap s elems).
Proof.
  intros cap s elems (S1 & S2 & S3 & _) H. unfold held. cbn [estimate size_of owned].
  assert (O : 0 <= fold_right Z.add 0 (map owned elems)).
  { clear - H. induction elems as [|x l IH]; [cbn; lia|]. cbn. specialize (IH (fun e X => H e (or_intror X))).
    specialize (H x (or_introl eq_refl)). lia. }
  rewrite Z.mod_small; [lia|]. nia.
Qed.
Print Assumptions C115_no_overestimate.

(** but for a vector of strings or of vectors it leaves out what the elements hold, without
    bound. *)
Theorem C115_nested_refuted : forall n, 0 <= n < 2 ^ 62 -> exists v, sane v /\ held v - estimate v > n.
Proof.
  intros n Hn. exists (Vec 1 32 [Str (n + 16) 1]). split.
  - cbn [sane length map fold_right]. split; [lia|]. split; [cbn; lia|]. split; [lia|]. split; [lia|].
    constructor; [reflexivity|constructor].
  - unfold held. cbn [estimate size_of owned map fold_right]. destruct (Z.leb_spec ((n + 16 + 1) * 1) 16); [lia|].
    change ((24 + 1 * 32) mod 2 ^ 64) with 56. lia.
Qed.
Print Assumptions C115_nested_refuted.

Example C115_ex : sane (Vec 8 4 [Num 4; Num 4]) /\ estimate (Vec 8 4 [Num 4; Num 4]) = 56 /\ sane (Str 15 1) /\ sane (Str 100 4).
Proof. cbn. repeat split; try lia. repeat constructor. Qed.
