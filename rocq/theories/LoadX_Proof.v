(** Lemmas about loading XML with exceptions. *)

From Coq Require Import ZArith List Bool Lia.
From Verif Require Import Base Txml_Model Txml_Spec Txml_Proof Txml_Props Load_Model Load_Spec Load_Props LoadX_Model LoadX_Spec.
Import ListNotations.
Local Open Scope Z_scope.

Section Thr.
Variable thr : nat -> bool.

Fixpoint members_x (k : nat) (cv : list Z) (ms : list (list Z * ty)) (vs : list val) (lv : levels) (n : nat) : res (list val * levels * nat * bool) :=
  match ms, vs with
  | [], [] => Ok ([], lv, n, false)
  | (key, t1) :: ms, v1 :: vs =>
      if thr n then Ok (v1 :: vs, lv, S n, true)
      else
      '(v1, lv, n, e) <-
        (if (k =? length lv)%nat then
           if negb (key_eqb key []) then Ok (v1, lv, S n, false) else set_value_x thr t1 v1 lv k cv (S n)
         else
           '(lk, _) <- rd lv k ;;
           if key_eqb key lk then set_value_x thr t1 v1 lv (S k) cv (S n) else Ok (v1, lv, S n, false)) ;;
      if e : bool then Ok (v1 :: vs, lv, n, true)
      else
      '(vs, lv, n, e) <- members_x k cv ms vs lv n ;;
      Ok (v1 :: vs, lv, n, e)
  | _, _ => Ub BadLib
  end.
Lemma set_value_x_obj : forall ms vs lv k cv n,
  set_value_x thr (TObj ms) (VObj vs) lv k cv n = ('(vs, lv, n, e) <- members_x k cv ms vs lv n ;; Ok (VObj vs, lv, n, e)).
Proof.
  intros ms vs lv k cv n. cbn [set_value_x].
  match goal with |- bind (?F ms vs lv n) _ = _ => enough (E : forall ms vs lv n, F ms vs lv n = members_x k cv ms vs lv n) by (rewrite E; reflexivity) end.
  clear. induction ms as [|[key t1] ms IH]; intros vs lv n; [reflexivity|]. destruct vs as [|v1 vs]; [reflexivity|].
  cbn [members_x]. destruct (thr n); [reflexivity|].
  match goal with |- bind ?A _ = bind ?B _ => change A with B; destruct B as [[[[v2 lv2] n2] [|]]| |]; cbn [bind]; try reflexivity end.
  rewrite IH. reflexivity.
Qed.

(** members on their way *)
Inductive mids : list (list Z * ty) -> list val -> list val -> list val -> Prop :=
| mids_new : forall ms vs us, length us = length vs -> mids ms vs us us
| mids_old : forall ms vs us, length us = length vs -> mids ms vs vs us
| mids_here : forall key t ms v w u vs us, mid t v w u -> length us = length vs -> mids ((key, t) :: ms) (v :: vs) (w :: vs) (u :: us)
| mids_more : forall m ms v u vs ws us, mids ms vs ws us -> mids (m :: ms) (v :: vs) (u :: ws) (u :: us).
Lemma mids_mid : forall ms vs ws us, mids ms vs ws us -> forall ms0 vs0 us0, length vs0 = length ms0 -> length us0 = length ms0 ->
  length ms = length vs ->
  mid (TObj (ms0 ++ ms)) (VObj (vs0 ++ vs)) (VObj (us0 ++ ws)) (VObj (us0 ++ us)).
Proof.
  intros ms vs ws us H. induction H as [ms vs us L | ms vs us L | key t ms v w u vs us M L | m ms v u vs ws us M IH]; intros ms0 vs0 us0 L1 L2 L3.
  - apply mid_new.
  - destruct ms as [|[key t] ms].
    + destruct vs; [|discriminate]. destruct us; [|discriminate]. apply mid_new.
    + destruct vs as [|v vs]; [discriminate|]. destruct us as [|u us]; [discriminate|]. apply mid_member; auto using mid_old.
  - apply mid_member; auto.
  - replace (ms0 ++ m :: ms) with ((ms0 ++ [m]) ++ ms) by (rewrite <- app_assoc; reflexivity).
    replace (vs0 ++ v :: vs) with ((vs0 ++ [v]) ++ vs) by (rewrite <- app_assoc; reflexivity).
    replace (us0 ++ u :: ws) with ((us0 ++ [u]) ++ ws) by (rewrite <- app_assoc; reflexivity).
    replace (us0 ++ u :: us) with ((us0 ++ [u]) ++ us) by (rewrite <- app_assoc; reflexivity).
    apply IH; [rewrite !app_length; cbn; lia.. | cbn in L3; lia].
Qed.

Definition follows (t : ty) (v : val) (v1 : val) (lv1 : levels) (r : res (val * levels * nat * bool)) : Prop :=
  exists w lv' n' e, r = Ok (w, lv', n', e) /\ (e = false -> w = v1 /\ lv' = lv1) /\ mid t v w v1 /\ (e = true -> exists j, thr j = true).

Lemma set_x : forall t v lv k cv v1 lv1 n, set_value t v lv k cv = Ok (v1, lv1) -> follows t v v1 lv1 (set_value_x thr t v lv k cv n).
Proof.
  induction t as [kd | t d IH | ms IH] using ty_ind2; intros v lv k cv v1 lv1 n H.
  - destruct v; try discriminate. cbn [set_value] in H. injection H as <- <-. unfold follows.
    destruct kd; cbn [set_value_x]; (eexists _, _, _, _; split; [reflexivity|]); try (split; [auto|]; split; [apply mid_new | discriminate]).
    destruct (thr n) eqn:E; (split; [first [discriminate | auto] |]); (split; [first [apply mid_new | apply mid_old]|]); eauto.
  - destruct v as [|l|]; try discriminate. cbn [set_value] in H. destruct k as [|k1]; [discriminate|].
    destruct (rd lv k1) as [[key pushed]| |] eqn:R; try discriminate. cbn [bind] in H.
    unfold follows. cbn [set_value_x]. rewrite R. cbn [bind].
    destruct pushed; cbn [negb andb].
    + destruct (rev l) as [|x r] eqn:Rl; [discriminate|].
      destruct (set_value t x lv (S k1) cv) as [[x' lv2]| |] eqn:S1; try discriminate. cbn in H. injection H as <- <-.
      destruct (IH _ _ _ _ _ _ n S1) as (w & lv' & n' & e & E & A & M & J). rewrite E. cbn [bind].
      eexists _, _, _, _. split; [reflexivity|]. split; [intros Q; destruct (A Q) as (-> & ->); auto|]. split; [|exact J].
      assert (El : l = rev r ++ [x]) by (rewrite <- (rev_involutive l), Rl; reflexivity). rewrite El. apply mid_last. exact M.
    + destruct (thr n) eqn:E0.
      * eexists _, _, _, _. split; [reflexivity|]. split; [discriminate|]. split; [apply mid_old | eauto].
      * rewrite rev_app_distr in *. cbn [rev app] in *. 
        destruct (set_value t d _ (S k1) cv) as [[x' lv2]| |] eqn:S1; try discriminate. cbn in H. injection H as <- <-.
        destruct (IH _ _ _ _ _ _ (S n) S1) as (w & lv' & n' & e & E & A & M & J). rewrite E. cbn [bind].
        eexists _, _, _, _. split; [reflexivity|]. split; [intros Q; destruct (A Q) as (-> & ->); auto|]. split; [|exact J].
        rewrite rev_involutive. apply mid_item. exact M.
  - destruct v as [| |vs]; try discriminate. rewrite set_value_obj in H. unfold follows. rewrite set_value_x_obj.
    destruct (members k cv ms vs lv) as [[vs' lv2]| |] eqn:M; try discriminate. cbn in H. injection H as <- <-.
    enough (W : exists ws lv' n' e, members_x k cv ms vs lv n = Ok (ws, lv', n', e) /\ (e = false -> ws = vs' /\ lv' = lv2) /\
              mids ms vs ws vs' /\ length ms = length vs /\ length vs' = length vs /\ (e = true -> exists j, thr j = true)).
    { destruct W as (ws & lv' & n' & e & E & A & B & L & _ & J). rewrite E. cbn [bind]. eexists _, _, _, _. split; [reflexivity|].
      split; [intros Q; destruct (A Q) as (-> & ->); auto|]. split; [|exact J].
      exact (mids_mid _ _ _ _ B [] [] [] eq_refl eq_refl L). }
    revert vs lv vs' lv2 n M. induction IH as [|[key t1] ms H1 _ IHms]; intros vs lv vs' lv2 n M.
    + destruct vs; [|discriminate]. injection M as <- <-. cbn [members_x]. eexists _, _, _, _. split; [reflexivity|].
      split; [auto|]. split; [apply mids_new; reflexivity|]. split; [reflexivity|]. split; [reflexivity | discriminate].
    + destruct vs as [|v1 vs]; [discriminate|]. cbn [members] in M. cbn [members_x]. cbn [snd] in H1.
      destruct (if (k =? length lv)%nat then _ else _) as [[v2 lv3]| |] eqn:S1; try discriminate. cbn [bind] in M.
      destruct (members k cv ms vs lv3) as [[vs2 lv4]| |] eqn:M2; try discriminate. cbn in M. injection M as <- <-.
      assert (F : follows t1 v1 v2 lv3 (if (k =? length lv)%nat then
             if negb (key_eqb key []) then Ok (v1, lv, S n, false) else set_value_x thr t1 v1 lv k cv (S n)
           else '(lk, _) <- rd lv k ;;
             if key_eqb key lk then set_value_x thr t1 v1 lv (S k) cv (S n) else Ok (v1, lv, S n, false))).
      { assert (Same : forall m, follows t1 v1 v1 lv (Ok (v1, lv, m, false))).
        { intros m. eexists _, _, _, _. split; [reflexivity|]. split; [auto|]. split; [apply mid_new | discriminate]. }
        destruct (k =? length lv)%nat; [destruct (negb _)|].
        - injection S1 as <- <-. apply Same.
        - auto.
        - destruct (rd lv k) as [[lk g]| |]; try discriminate. cbn [bind] in *. destruct (key_eqb key lk); [auto|]. injection S1 as <- <-. apply Same. }
      destruct (IHms _ _ _ _ 0%nat M2) as (_ & _ & _ & _ & _ & _ & _ & L1 & L2 & _).
      destruct (thr n) eqn:E0.
      { eexists _, _, _, _. split; [reflexivity|]. split; [discriminate|]. split; [apply mids_old; cbn; lia|]. split; [cbn; lia|]. split; [cbn; lia | eauto]. }
      destruct F as (w & lv' & n' & e & E & A & B & J). rewrite E. cbn [bind]. destruct e.
      * eexists _, _, _, _. split; [reflexivity|]. split; [discriminate|]. split; [apply mids_here; auto|]. split; [cbn; lia|]. split; [cbn; lia | auto].
      * destruct (A eq_refl) as (-> & ->).
        destruct (IHms _ _ _ _ n' M2) as (ws & lv5 & n5 & e & E5 & A5 & B5 & _ & _ & J5). rewrite E5. cbn [bind].
        eexists _, _, _, _. split; [reflexivity|]. split; [intros Q; destruct (A5 Q) as (-> & ->); auto|].
        split; [apply mids_more; exact B5|]. split; [cbn; lia|]. split; [cbn; lia | exact J5].
Qed.

Lemma determine_x_spec : forall t s s1 n, determine t s = Ok s1 ->
  exists w n' e, determine_x thr t s n = Ok (w, n', e) /\ (e = false -> w = s1) /\ mid t (root s) (root w) (root s1) /\ (e = true -> exists j, thr j = true).
Proof.
  intros t s s1 n H. unfold determine in H. destruct (set_value _ _ _ _ _) as [[v lv]| |] eqn:E; try discriminate. cbn in H. injection H as <-.
  destruct (set_x _ _ _ _ _ _ _ n E) as (w & lv' & n' & e & E' & A & M & J). unfold determine_x. rewrite E'. cbn [bind].
  eexists _, _, _. split; [reflexivity|]. split; [intros Q; destruct (A Q) as (-> & ->); reflexivity|]. split; [exact M | exact J].
Qed.

Lemma attributes_x_spec : forall t attrs s s1 n, attributes t attrs s = Ok s1 ->
  exists w n' e, attributes_x thr t attrs s n = Ok (w, n', e) /\ (e = false -> w = s1) /\
    (e = true -> (exists j, thr j = true) /\ exists a1 k a a2 s2 m1, attrs = a1 ++ (k, a) :: a2 /\ attributes t a1 s = Ok s2 /\
      determine t (mkSt (lvs (push s2 k)) a (root s2)) = Ok m1 /\ mid t (root s2) (root w) (root m1)).
Proof.
  intros t. induction attrs as [|[k a] attrs IH]; intros s s1 n H.
  - cbn [attributes] in H. injection H as <-. eexists _, _, _. split; [reflexivity|]. split; [auto | discriminate].
  - cbn [attributes] in H. destruct (determine t _) as [m1| |] eqn:D; try discriminate. cbn [bind] in H.
    destruct (pop m1) as [s2| |] eqn:P; try discriminate. cbn [bind] in H. cbn [attributes_x].
    assert (First : forall w, mid t (root s) w (root m1) -> exists a1 k0 a0 a2 s2 m1, (k, a) :: attrs = a1 ++ (k0, a0) :: a2 /\ attributes t a1 s = Ok s2 /\
      determine t (mkSt (lvs (push s2 k0)) a0 (root s2)) = Ok m1 /\ mid t (root s2) w (root m1)).
    { intros w M. exists [], k, a, attrs, s, m1. split; [reflexivity|]. split; [reflexivity|]. split; [exact D | exact M]. }
    destruct (thr n) eqn:E1.
    { eexists _, _, _. split; [reflexivity|]. split; [discriminate|]. intros _. split; [eauto|]. apply First, mid_old. }
    destruct (thr (S n)) eqn:E2.
    { eexists _, _, _. split; [reflexivity|]. split; [discriminate|]. intros _. split; [eauto|]. apply First, mid_old. }
    destruct (determine_x_spec _ _ _ (S (S n)) D) as (w & n' & e & E & A & M & J). rewrite E. cbn [bind]. cbn [root push] in M. destruct e.
    { eexists _, _, _. split; [reflexivity|]. split; [discriminate|]. intros _. split; [auto|]. apply First, M. }
    rewrite (A eq_refl), P. cbn [bind]. destruct (IH _ _ n' H) as (w2 & n2 & e & E3 & A3 & B3). rewrite E3.
    eexists _, _, _. split; [reflexivity|]. split; [exact A3|]. intros Q. destruct (B3 Q) as (J3 & a1 & k1 & x1 & a2 & s3 & m3 & -> & X1 & X2 & X3).
    split; [exact J3|]. exists ((k, a) :: a1), k1, x1, a2, s3, m3. split; [reflexivity|]. split; [|split; auto].
    cbn [attributes]. rewrite D. cbn [bind]. rewrite P. cbn [bind]. exact X1.
Qed.

Definition cut (t : ty) (evs : list event) (s w : st) : Prop := (exists j, thr j = true) /\ cut_off t evs s (root w).

Lemma beg_x_spec : forall t nm a s s1 n rest, begelement t nm a s = Ok s1 ->
  exists w n' e, begelement_x thr t nm a s n = Ok (w, n', e) /\ (e = false -> w = s1) /\ (e = true -> cut t (Beg nm a :: rest) s w).
Proof.
  intros t nm a s s1 n rest H. unfold begelement in H. destruct (attributes t a (push s nm)) as [s2| |] eqn:A; try discriminate. cbn [bind] in H.
  destruct (determine t _) as [m1| |] eqn:D; try discriminate. cbn [bind] in H. unfold begelement_x.
  destruct (thr n) eqn:E1.
  { eexists _, _, _. split; [reflexivity|]. split; [discriminate|]. intros _. split; [eauto|]. left. exists [], (Beg nm a :: rest), s. auto. }
  destruct (attributes_x_spec t a _ _ (S n) A) as (w & n' & e & E & Q & C). rewrite E. cbn [bind]. destruct e.
  { eexists _, _, _. split; [reflexivity|]. split; [discriminate|]. intros _. destruct (C eq_refl) as (J & a1 & k & x & a2 & s3 & m3 & -> & X1 & X2 & X3).
    split; [exact J|]. right. exists (mkSt (lvs (push s3 k)) x (root s3)), m3. split; [|split; auto].
    apply (mo_attr t _ _ [] nm a1 k x a2 rest s s3); auto. }
  rewrite (Q eq_refl).
  assert (B : moment t (Beg nm a :: rest) s (mkSt (lvs (push s2 [])) [] (root s2))) by (apply (mo_begin t _ _ [] nm a rest s s2); auto).
  destruct (thr n') eqn:E2.
  { eexists _, _, _. split; [reflexivity|]. split; [discriminate|]. intros _. split; [eauto|]. right. eexists _, m1. split; [exact B|]. split; [exact D | apply mid_old]. }
  destruct (determine_x_spec _ _ _ (S n') D) as (w2 & n2 & e & E3 & Q3 & M3 & J3). rewrite E3. cbn [bind]. destruct e.
  { eexists _, _, _. split; [reflexivity|]. split; [discriminate|]. intros _. split; [auto|]. right. eexists _, m1. split; [exact B|]. split; [exact D | exact M3]. }
  rewrite (Q3 eq_refl), H. cbn [bind]. eexists _, _, _. split; [reflexivity|]. split; [auto | discriminate].
Qed.
Lemma end_x_spec : forall t s s1 n rest, endelement t s = Ok s1 ->
  exists w n' e, endelement_x thr t s n = Ok (w, n', e) /\ (e = false -> w = s1) /\ (e = true -> cut t (End :: rest) s w).
Proof.
  intros t s s1 n rest H. unfold endelement in H. destruct (determine t s) as [m1| |] eqn:D; try discriminate. cbn [bind] in H. unfold endelement_x.
  destruct (determine_x_spec _ _ _ n D) as (w2 & n2 & e & E3 & Q3 & M3 & J3). rewrite E3. cbn [bind]. destruct e.
  { eexists _, _, _. split; [reflexivity|]. split; [discriminate|]. intros _. split; [auto|]. right. exists s, m1.
    split; [apply (mo_end t _ _ [] rest s); auto|]. split; [exact D | exact M3]. }
  rewrite (Q3 eq_refl), H. cbn [bind]. eexists _, _, _. split; [reflexivity|]. split; [auto | discriminate].
Qed.

Lemma cut_before : forall t pre evs s s1 w, handle t pre s = Ok s1 -> cut_off t evs s1 w -> cut_off t (pre ++ evs) s w.
Proof.
  intros t pre evs s s1 w H [(e1 & rest & s2 & -> & X1 & X2) | (m & m1 & X1 & X2 & X3)].
  - left. exists (pre ++ e1), rest, s2. split; [rewrite app_assoc; reflexivity|]. split; [rewrite handle_app, H; exact X1 | exact X2].
  - right. exists m, m1. split; [|auto]. destruct X1 as [e1 nm a1 k a a2 rest s2 s3 -> Y1 Y2 | e1 nm a rest s2 s3 -> Y1 Y2 | e1 rest s2 -> Y1].
    + apply (mo_attr t _ _ (pre ++ e1) nm a1 k a a2 rest s2 s3); [rewrite app_assoc; reflexivity | rewrite handle_app, H; exact Y1 | exact Y2].
    + apply (mo_begin t _ _ (pre ++ e1) nm a rest s2 s3); [rewrite app_assoc; reflexivity | rewrite handle_app, H; exact Y1 | exact Y2].
    + apply (mo_end t _ _ (pre ++ e1) rest s2); [rewrite app_assoc; reflexivity | rewrite handle_app, H; exact Y1].
Qed.
Lemma cut_after : forall t evs more s w, cut_off t evs s w -> cut_off t (evs ++ more) s w.
Proof.
  intros t evs more s w [(e1 & rest & s2 & -> & X1 & X2) | (m & m1 & X1 & X2 & X3)].
  - left. exists e1, (rest ++ more), s2. split; [rewrite app_assoc; reflexivity|]. auto.
  - right. exists m, m1. split; [|auto]. destruct X1 as [e1 nm a1 k a a2 rest s2 s3 -> Y1 Y2 | e1 nm a rest s2 s3 -> Y1 Y2 | e1 rest s2 -> Y1].
    + apply (mo_attr t _ _ e1 nm a1 k a a2 (rest ++ more) s2 s3); auto. rewrite <- app_assoc. reflexivity.
    + apply (mo_begin t _ _ e1 nm a (rest ++ more) s2 s3); auto. rewrite <- app_assoc. reflexivity.
    + apply (mo_end t _ _ e1 (rest ++ more) _); auto. rewrite <- app_assoc. reflexivity.
Qed.

Lemma handle_x_spec : forall t evs s s1 n, handle t evs s = Ok s1 ->
  exists w n' e, handle_x thr t evs s n = Ok (w, n', e) /\ (e = false -> w = s1) /\ (e = true -> cut t evs s w).
Proof.
  intros t. induction evs as [|[nm a|c|] evs IH]; intros s s1 n H; cbn [handle] in H.
  - injection H as <-. eexists _, _, _. split; [reflexivity|]. split; [auto | discriminate].
  - destruct (begelement t nm a s) as [s2| |] eqn:B; try discriminate. cbn [bind] in H. cbn [handle_x].
    destruct (beg_x_spec t nm a s s2 n evs B) as (w & n' & e & E & A & C). rewrite E. cbn [bind]. destruct e.
    { eexists _, _, _. split; [reflexivity|]. split; [discriminate | exact C]. }
    rewrite (A eq_refl). destruct (IH _ _ n' H) as (w2 & n2 & e & E2 & A2 & C2). eexists _, _, _. split; [exact E2|]. split; [exact A2|].
    intros Q. destruct (C2 Q) as (J & C3). split; [exact J|]. apply (cut_before t [Beg nm a] evs s s2); [|exact C3]. cbn [handle]. rewrite B. reflexivity.
  - cbn [handle_x]. destruct (thr n) eqn:E1.
    { eexists _, _, _. split; [reflexivity|]. split; [discriminate|]. intros _. split; [eauto|]. left. exists [], (Chars c :: evs), s. auto. }
    destruct (IH _ _ (S n) H) as (w2 & n2 & e & E2 & A2 & C2). eexists _, _, _. split; [exact E2|]. split; [exact A2|].
    intros Q. destruct (C2 Q) as (J & C3). split; [exact J|]. apply (cut_before t [Chars c] evs s (characters s c)); [reflexivity | exact C3].
  - destruct (endelement t s) as [s2| |] eqn:B; try discriminate. cbn [bind] in H. cbn [handle_x].
    destruct (end_x_spec t s s2 n evs B) as (w & n' & e & E & A & C). rewrite E. cbn [bind]. destruct e.
    { eexists _, _, _. split; [reflexivity|]. split; [discriminate | exact C]. }
    rewrite (A eq_refl). destruct (IH _ _ n' H) as (w2 & n2 & e & E2 & A2 & C2). eexists _, _, _. split; [exact E2|]. split; [exact A2|].
    intros Q. destruct (C2 Q) as (J & C3). split; [exact J|]. apply (cut_before t [End] evs s s2); [|exact C3]. cbn [handle]. rewrite B. reflexivity.
Qed.

Lemma parse_x_small : forall X t (l : ld X) d fin n, (length d <= BUFSZ)%nat ->
  parse_x thr t l d (Z.of_nat (length d)) fin n =
  let '(p, evs, ok) := x_parse X (l_x l) d fin in
  '(s, n, e) <- handle_x thr t evs (l_st l) n ;; Ok (mkL p s (l_log l ++ [Feed d fin]), n, ok && negb e).
Proof.
  intros. unfold parse_x. assert (B : Z.of_nat BUFSZ = 4096) by (vm_compute; reflexivity).
  rewrite Z.mod_small by lia. destruct (Z.leb_spec (2 ^ 31) (Z.of_nat (length d))); [lia|].
  rewrite Nat2Z.id, firstn_all. reflexivity.
Qed.

Lemma loop_x_spec : forall X t bad fuel c i (l : ld X) n, (length c < fuel)%nat ->
  let ps := fst (chunks fuel bad i c) in let fin := snd (chunks fuel bad i c) in
  forall s', handle t (fst (feed X (l_x l) fin ps)) (l_st l) = Ok s' ->
  exists l' o fl, read_loop_x thr fuel bad t i (mkF c false) l n = Ok (l', o) /\ l_log l' = l_log l ++ feeds fl /\
    (read_loop fuel bad t i (mkF c false) l = Ok (l', o) \/
     (o = Thrown /\ cut t (fst (feed X (l_x l) fin ps)) (l_st l) (l_st l'))).
Proof.
  intros X t bad. pose proof BUFSZ_pos as B.
  induction fuel as [|fuel IH]; intros c i l n Hl; [lia|].
  cbn [read_loop read_loop_x f_eof chunks]. unfold fread. cbn [f_rest]. cbn zeta. destruct (bad i) eqn:Bi.
  { intros s' H. exists l, Thrown, []. split; [reflexivity|]. split; [rewrite app_nil_r; reflexivity | left; reflexivity]. }
  destruct (Nat.ltb_spec (length c) BUFSZ) as [Hc|Hc].
  - cbn [fst snd]. intros s' H. rewrite parse_x_small, parse_small by lia. cbn [feed f_eof] in *.
    destruct (x_parse X (l_x l) c true) as [[p evs] ok].
    assert (H' : handle t evs (l_st l) = Ok s') by (destruct ok; cbn [fst] in H; [rewrite app_nil_r in H|]; exact H).
    destruct (handle_x_spec t evs _ _ n H') as (w & n' & e & E & A & C). rewrite E, H'. cbn [bind]. destruct e.
    + rewrite andb_false_r. eexists _, _, [(c, true)]. split; [reflexivity|]. split; [reflexivity|]. right. split; [reflexivity|].
      cbn [l_st]. destruct ok; cbn [fst]; [rewrite app_nil_r|]; apply C; reflexivity.
    + rewrite (A eq_refl). destruct ok; cbn [andb negb].
      * destruct fuel; cbn [read_loop read_loop_x f_eof]; (eexists _, _, [(c, true)]; split; [reflexivity|]; split; [reflexivity|]; left; reflexivity).
      * eexists _, _, [(c, true)]; split; [reflexivity|]; split; [reflexivity|]; left; reflexivity.
  - assert (Hs : (length (skipn BUFSZ c) < fuel)%nat) by (rewrite skipn_length; lia).
    specialize (IH (skipn BUFSZ c) (S i)).
    pose proof (chunks_spec bad fuel (skipn BUFSZ c) (S i) Hs) as K. cbn zeta in IH, K.
    destruct (chunks fuel bad (S i) (skipn BUFSZ c)) as [ps fin]. cbn [fst snd] in *.
    assert (Hn : ps = [] -> fin = false).
    { intros ->. destruct fin; [|reflexivity]. destruct K as (_ & K & _). destruct (K eq_refl) as (_ & N). congruence. }
    intros s' H. rewrite parse_x_small, parse_small by (rewrite firstn_length; lia). cbn [f_eof].
    assert (F : match ps with [] => fin | _ :: _ => false end = false) by (destruct ps; auto).
    cbn [feed] in *. rewrite F in *. clear F.
    destruct (x_parse X (l_x l) (firstn BUFSZ c) false) as [[p evs] ok].
    destruct ok.
    + destruct (feed X p fin ps) as [evs' ok'] eqn:Ef. cbn [fst snd] in *.
      rewrite handle_app in H. destruct (handle t evs (l_st l)) as [s1| |] eqn:Hh; try discriminate H.
      cbn [bind] in H |- *. destruct (handle_x_spec t evs _ _ n Hh) as (w & n' & e & E & A & C). rewrite E. cbn [bind]. destruct e; cbn [andb negb].
      * eexists _, _, [(_, _)]. split; [reflexivity|]. split; [reflexivity|]. right. split; [reflexivity|]. destruct (C eq_refl) as (J & C1).
        split; [exact J|]. apply cut_after. exact C1.
      * rewrite (A eq_refl).
        destruct (IH (mkL p s1 (l_log l ++ [Feed (firstn BUFSZ c) false])) n' Hs s') as (l' & o & fl & A1 & A2 & A3).
        { cbn [l_x l_st]. rewrite Ef. exact H. }
        cbn [l_x l_st l_log] in *. rewrite Ef in A3. cbn [fst snd] in A3.
        exists l', o, ((firstn BUFSZ c, false) :: fl). split; [exact A1|]. split; [rewrite A2, <- app_assoc; reflexivity|].
        destruct A3 as [A3 | (A3 & J & C1)]; [left; exact A3|]. right. split; [exact A3|]. split; [exact J|]. apply cut_before with (s1 := s1); auto.
    + cbn [fst snd] in *. rewrite H. cbn [bind]. destruct (handle_x_spec t evs _ _ n H) as (w & n' & e & E & A & C). rewrite E. cbn [bind andb].
      eexists _, _, [(_, _)]. split; [reflexivity|]. split; [reflexivity|]. destruct e; [right | left].
      * split; [reflexivity|]. apply C. reflexivity.
      * rewrite (A eq_refl). reflexivity.
Qed.
End Thr.

(** *** the object is well formed *)

Lemma Forall2_3 : forall A B (R : A -> B -> Prop) xs1 x xs2 ys1 y ys2, length xs1 = length ys1 ->
  Forall2 R (xs1 ++ x :: xs2) (ys1 ++ y :: ys2) <-> Forall2 R xs1 ys1 /\ R x y /\ Forall2 R xs2 ys2.
Proof.
  intros A B R. induction xs1 as [|a xs1 IH]; intros x xs2 [|b ys1] y ys2 L; try discriminate; cbn [app].
  - split; [intros H; inversion H; auto | intros (_ & H1 & H2); auto].
  - cbn in L. split.
    + intros H. inversion H as [|? ? ? ? H1 H2]; subst. apply IH in H2; [|lia]. destruct H2 as (X1 & X2 & X3). auto.
    + intros (H1 & H2 & H3). inversion H1; subst. constructor; auto. apply IH; auto.
Qed.
Lemma mid_ty : forall t v w v1, mid t v w v1 -> good t -> has_ty v t -> has_ty v1 t -> has_ty w t.
Proof.
  intros t v w v1 H. induction H as [t v v1 | t v v1 | ms1 key t ms2 vs1 ws1 v w v1 vs2 ws2 M IH L1 L2 L3 | t d l v w v1 M IH | t d l w v1 M IH];
    intros G T T1; auto.
  - destruct (good_mid _ _ _ _ G) as (G1 & _). inversion T as [| |? ? F]; subst. inversion T1 as [| |? ? F1]; subst.
    apply Forall2_3 in F; [|auto]. apply Forall2_3 in F1; [|auto]. constructor. apply Forall2_3; [auto|].
    destruct F as (_ & F2 & F3). destruct F1 as (F4 & F5 & _). cbn [snd] in *. auto.
  - destruct (good_item _ _ G) as (G1 & _ & _). inversion T as [|? ? ? F|]; subst. inversion T1 as [|? ? ? F1|]; subst.
    apply Forall_app in F. apply Forall_app in F1. destruct F as (F & Fv). destruct F1 as (_ & F1). inversion Fv; subst. inversion F1; subst.
    constructor. apply Forall_app. auto.
  - destruct (good_item _ _ G) as (G1 & _ & Gd). inversion T as [|? ? ? F|]; subst. inversion T1 as [|? ? ? F1|]; subst.
    apply Forall_app in F1. destruct F1 as (_ & F1). inversion F1; subst. constructor. apply Forall_app. auto.
Qed.

Lemma handle_sound : forall t evs s s1 n rest, good t -> not_list t -> sound t s n -> nested n (evs ++ rest) -> handle t evs s = Ok s1 ->
  exists m, sound t s1 m /\ nested m rest.
Proof.
  intros t. induction evs as [|[nm a|c|] evs IH]; intros s s1 n rest G N Hs B H; cbn [handle nested app] in *.
  - injection H as <-. eauto.
  - destruct (sound_beg t s n nm a G N Hs) as (s2 & E & H2). rewrite E in H. cbn [bind] in H. exact (IH _ _ _ _ G N H2 B H).
  - exact (IH (characters s c) _ n _ G N Hs B H).
  - destruct n as [|n]; [contradiction|]. destruct (sound_end t s n G N Hs) as (s2 & E & H2). rewrite E in H. cbn [bind] in H. exact (IH _ _ _ _ G N H2 B H).
Qed.
Lemma cut_off_ty : forall t evs s n w, good t -> not_list t -> sound t s n -> nested n evs -> cut_off t evs s w -> has_ty w t.
Proof.
  intros t evs s n w G N Hs B [(e1 & rest & s2 & -> & X1 & ->) | (m & m1 & X1 & X2 & X3)].
  - destruct (handle_sound _ _ _ _ _ _ G N Hs B X1) as (k & (T & _) & _). exact T.
  - assert (Sm : exists k, sound t m k).
    { destruct X1 as [e1 nm a1 k a a2 rest s2 s3 -> Y1 Y2 | e1 nm a rest s2 s3 -> Y1 Y2 | e1 rest s2 -> Y1].
      - destruct (handle_sound _ _ _ _ _ _ G N Hs B Y1) as (k2 & S2 & _).
        destruct (sound_attributes a1 t _ _ G N (sound_push _ _ _ nm G N S2)) as (s4 & E & S4). rewrite Y2 in E. injection E as <-.
        destruct (sound_push _ _ _ k G N S4) as (P1 & P2 & P3). exists (S (S k2)). split; [exact P1|]. split; [exact P2 | exact P3].
      - destruct (handle_sound _ _ _ _ _ _ G N Hs B Y1) as (k2 & S2 & _).
        destruct (sound_attributes a t _ _ G N (sound_push _ _ _ nm G N S2)) as (s4 & E & S4). rewrite Y2 in E. injection E as <-.
        destruct (sound_push _ _ _ [] G N S4) as (P1 & P2 & P3). exists (S (S k2)). split; [exact P1|]. split; [exact P2 | exact P3].
      - destruct (handle_sound _ _ _ _ _ _ G N Hs B Y1) as (k2 & S2 & _). eauto. }
    destruct Sm as (k & Sm). destruct (sound_determine t m k (cval m) G N Sm) as (m2 & E & S2).
    replace (mkSt (lvs m) (cval m) (root m)) with m in E by (destruct m; reflexivity). rewrite X2 in E. injection E as <-.
    apply (mid_ty _ _ _ _ X3 G); [apply Sm | apply S2].
Qed.
