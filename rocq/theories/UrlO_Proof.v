(** Lemmas about URL objects. *)

From Coq Require Import ZArith List Bool Lia Arith.
From Verif Require Import Base UrlP_Model UrlP_Spec UrlP_Proof UrlO_Model UrlO_Spec.
Import ListNotations.
Local Open Scope Z_scope.

(** what the block of an object with the text [t] and the domain [d] begins with *)
Definition image (t d : list Z) : list Z := t ++ 0 :: d ++ [0].

Definition obj_rep (h : heap) (o : obj) (v : uval) : Prop :=
  match v with
  | None => o = o_none
  | Some (t, d) => t <> [] /\ exists id j, o = mkObj (Some id) (length t) (length d) /\
      nth_error h id = Some (Some (map Some (image t d) ++ j))
  end.
Definition owns (e : objs) (i id : nat) : Prop :=
  exists o, nth_error e i = Some (Some o) /\ o_blk o = Some id.
Definition slot_rep (h : heap) (o : option obj) (v : option uval) : Prop :=
  match o, v with
  | None, None => True
  | Some o, Some v => obj_rep h o v
  | _, _ => False
  end.
(** no two objects share a block, and every block in use belongs to an object *)
Definition orep (st : ostate) (w : world) : Prop :=
  let '(h, e) := st in
  length e = length w /\
  (forall i o v, nth_error e i = Some o -> nth_error w i = Some v -> slot_rep h o v) /\
  (forall i j id, owns e i id -> owns e j id -> i = j) /\
  (forall id l, nth_error h id = Some (Some l) -> exists i, owns e i id).

(** an operation and its value *)
Definition op_val (o : oop) (v : vop) : Prop :=
  match o, v with
  | ONew, VNew => True
  | OCopy a, VCopy b => a = b
  | OAssign a b, VAssign c d => a = c /\ b = d
  | ODestroy a, VDestroy b => a = b
  | OCreate a None, VCreate b None => a = b
  | OCreate a (Some x), VCreate b (Some (t, d)) => a = b /\ t <> [] /\
      exists j, x = mkUrl (image t d ++ j) (length t) (length t + 1) (length d)
  | _, _ => False
  end.
(** assignment of a non-empty object to itself *)
Definition self_assign (w : world) (o : oop) : Prop :=
  match o with OAssign a b => a = b /\ exists v, nth_error w a = Some (Some (Some v)) | _ => False end.

Lemma nth_error_lt : forall A (l : list A) i x, nth_error l i = Some x -> (i < length l)%nat.
Proof. intros. apply nth_error_Some. congruence. Qed.

Lemma nth_snoc : forall A (l : list A) x i y, nth_error (l ++ [x]) i = Some y ->
  nth_error l i = Some y \/ (i = length l /\ y = x).
Proof.
  intros A l x i y H. destruct (Nat.lt_ge_cases i (length l)) as [L|L].
  - left. rewrite nth_error_app1 in H by exact L. exact H.
  - right. rewrite nth_error_app2 in H by exact L. destruct (i - length l)%nat as [|k] eqn:E.
    + cbn in H. injection H as <-. split; [lia|reflexivity].
    + cbn in H. destruct k; discriminate.
Qed.
Lemma nth_snoc_l : forall A (l : list A) x i y, nth_error l i = Some y -> nth_error (l ++ [x]) i = Some y.
Proof. intros. rewrite nth_error_app1; [assumption|eapply nth_error_lt; eassumption]. Qed.
Lemma nth_snoc_r : forall A (l : list A) x, nth_error (l ++ [x]) (length l) = Some x.
Proof. intros. rewrite nth_error_app2 by lia. rewrite Nat.sub_diag. reflexivity. Qed.
Lemma nth_upd : forall A (l : list A) i v j y, nth_error (upd l i v) j = Some y ->
  (j = i /\ y = v) \/ (j <> i /\ nth_error l j = Some y).
Proof.
  intros A l i v j y H. destruct (Nat.eq_dec j i) as [E|E].
  - left. split; [exact E|]. subst j. assert (L : (i < length l)%nat).
    { apply nth_error_lt in H. rewrite upd_length in H. exact H. }
    rewrite nth_error_upd_same in H by exact L. congruence.
  - right. split; [exact E|]. rewrite nth_error_upd_other in H by congruence. exact H.
Qed.
Lemma upd_snoc : forall A (l : list A) x v, upd (l ++ [x]) (length l) v = l ++ [v].
Proof. intros. apply upd_app. Qed.

Lemma o_get_ok : forall e i o, nth_error e i = Some (Some o) -> o_get e i = Ok o.
Proof. intros e i o H. unfold o_get. rewrite (rd_some _ _ _ _ H). reflexivity. Qed.

(** ** The two changes of a represented state *)

(** releasing the block of the object [i], which is then [o'] without a block *)
Lemma release_ok : forall h e w i o v, orep (h, e) w -> nth_error e i = Some (Some o) ->
  nth_error w i = Some (Some v) ->
  exists h', o_release h o = Ok h' /\ length h' = length h /\
    orep (h', upd e i (Some o_none)) (upd w i (Some None)) /\
    orep (h', upd e i None) (upd w i None) /\
    (forall j id, j <> i -> owns e j id -> nth_error h' id = nth_error h id).
Proof.
  intros h e w i o v [Hlen [Hrep [Hinj Hown]]] He Hw.
  pose proof (Hrep i _ _ He Hw) as Ho. cbn in Ho.
  assert (Li : (i < length e)%nat) by (eapply nth_error_lt; eassumption).
  assert (Own' : forall x j id, owns (upd e i x) j id -> (forall o', x = Some o' -> o_blk o' = None) -> j <> i /\ owns e j id).
  { intros x j id [o' [A B]] Hx. destruct (nth_upd _ _ _ _ _ _ A) as [[-> E]|[N A']].
    - exfalso. symmetry in E. rewrite (Hx o' E) in B. discriminate.
    - split; [exact N|exists o'; auto]. }
  assert (Own2 : forall x j id, j <> i -> owns e j id -> owns (upd e i x) j id).
  { intros x j id N [o' [A B]]. exists o'. split; [|exact B]. rewrite nth_error_upd_other by congruence. exact A. }
  (* a heap that differs at most in the block of [i] *)
  assert (Mk : forall h' x y, (forall j id, j <> i -> owns e j id -> nth_error h' id = nth_error h id) ->
     (forall id l, nth_error h' id = Some (Some l) -> exists j, j <> i /\ owns e j id) ->
     slot_rep h' x y -> (forall o', x = Some o' -> o_blk o' = None) -> orep (h', upd e i x) (upd w i y)).
  { intros h' x y Hsame Halive Hxy Hx. unfold orep. split; [rewrite !upd_length; exact Hlen|]. split; [|split].
    - intros j o' v' A B. destruct (nth_upd _ _ _ _ _ _ A) as [[-> ->]|[N A']].
      + rewrite nth_error_upd_same in B by lia. injection B as <-. exact Hxy.
      + rewrite nth_error_upd_other in B by congruence. pose proof (Hrep j _ _ A' B) as R.
        destruct o' as [o'|], v' as [v'|]; try exact R. cbn in *. unfold obj_rep in *.
        destruct v' as [[t d]|]; [|exact R]. destruct R as [Ht [id [jk [Eo En]]]]. split; [exact Ht|]. exists id, jk.
        split; [exact Eo|]. rewrite (Hsame j id); [exact En|exact N|]. exists o'. split; [exact A'|]. rewrite Eo. reflexivity.
    - intros a b id HA HB. destruct (Own' _ _ _ HA Hx) as [_ A]. destruct (Own' _ _ _ HB Hx) as [_ B].
      exact (Hinj a b id A B).
    - intros id l E. destruct (Halive id l E) as [j [N O]]. exists j. apply Own2; assumption. }
  unfold o_release. unfold obj_rep in Ho. destruct v as [[t d]|].
  - destruct Ho as [Ht [id [jk [-> En]]]]. cbn [o_blk]. unfold h_free. rewrite (rd_some _ _ _ _ En). cbn [bind].
    assert (Lid : (id < length h)%nat) by (eapply nth_error_lt; eassumption).
    rewrite wr_ok by exact Lid. exists (upd h id None). split; [reflexivity|]. split; [apply upd_length|].
    assert (Hi : owns e i id) by (eexists; split; [exact He|reflexivity]).
    assert (Hsame : forall j id', j <> i -> owns e j id' -> nth_error (upd h id None) id' = nth_error h id').
    { intros j id' N O. apply nth_error_upd_other. intros E. subst id'. apply N. exact (Hinj _ _ _ O Hi). }
    assert (Halive : forall id' l, nth_error (upd h id None) id' = Some (Some l) -> exists j, j <> i /\ owns e j id').
    { intros id' l E. destruct (nth_upd _ _ _ _ _ _ E) as [[_ F]|[N E']]; [discriminate|].
      destruct (Hown _ _ E') as [j O]. exists j. split; [|exact O]. intros ->. apply N.
      destruct O as [o1 [A B]]. destruct Hi as [o2 [A2 B2]]. congruence. }
    split; [apply Mk; try assumption; [reflexivity|intros o' E; injection E as <-; reflexivity]|].
    split; [apply Mk; try assumption; [exact I|discriminate]|exact Hsame].
  - subst o. cbn [o_blk o_none]. exists h. split; [reflexivity|]. split; [reflexivity|].
    assert (Halive : forall id' l, nth_error h id' = Some (Some l) -> exists j, j <> i /\ owns e j id').
    { intros id' l E. destruct (Hown _ _ E) as [j O]. exists j. split; [|exact O]. intros ->.
      destruct O as [o1 [A B]]. rewrite He in A. injection A as <-. discriminate. }
    split; [apply Mk; try assumption; [reflexivity|reflexivity|intros o' E; injection E as <-; reflexivity]|].
    split; [apply Mk; try assumption; [reflexivity|exact I|discriminate]|reflexivity].
Qed.

(** a new block for the empty object [i] *)
Lemma fill_ok : forall h e w i t d j, orep (h, e) w -> nth_error e i = Some (Some o_none) -> t <> [] ->
  orep (h ++ [Some (map Some (image t d) ++ j)], upd e i (Some (mkObj (Some (length h)) (length t) (length d))))
       (upd w i (Some (Some (t, d)))).
Proof.
  intros h e w i t d j [Hlen [Hrep [Hinj Hown]]] He Ht.
  assert (Li : (i < length e)%nat) by (eapply nth_error_lt; eassumption).
  set (o := mkObj (Some (length h)) (length t) (length d)).
  assert (Old : forall k id, owns e k id -> exists l, nth_error h id = Some (Some l)).
  { intros k id [o' [A B]]. assert (Lk : (k < length w)%nat) by (apply nth_error_lt in A; lia).
    destruct (nth_error w k) as [v|] eqn:E; [|apply nth_error_None in E; lia].
    pose proof (Hrep k _ _ A E) as R. destruct v as [v|]; [|destruct R]. cbn in R. unfold obj_rep in R.
    destruct v as [[t' d']|]; [|subst o'; discriminate]. destruct R as [_ [id' [jk [-> En]]]].
    cbn in B. injection B as <-. eauto. }
  assert (OwnU : forall k id, owns (upd e i (Some o)) k id -> (k = i /\ id = length h) \/ (k <> i /\ owns e k id)).
  { intros k id [o' [A B]]. destruct (nth_upd _ _ _ _ _ _ A) as [[-> E]|[N A']].
    - left. injection E as ->. cbn in B. injection B as <-. auto.
    - right. split; [exact N|]. exists o'. auto. }
  unfold orep. split; [rewrite !upd_length; exact Hlen|]. split; [|split].
  - intros k o' v' A B. destruct (nth_upd _ _ _ _ _ _ A) as [[-> ->]|[N A']].
    + rewrite nth_error_upd_same in B by lia. injection B as <-. cbn. split; [exact Ht|].
      exists (length h), j. split; [reflexivity|apply nth_snoc_r].
    + rewrite nth_error_upd_other in B by congruence. pose proof (Hrep k _ _ A' B) as R.
      destruct o' as [o'|], v' as [v'|]; try exact R. cbn in *. unfold obj_rep in *.
      destruct v' as [[t' d']|]; [|exact R]. destruct R as [Ht' [id [jk [Eo En]]]]. split; [exact Ht'|].
      exists id, jk. split; [exact Eo|]. apply nth_snoc_l. exact En.
  - intros a b id HA HB. destruct (OwnU _ _ HA) as [[-> E1]|[N1 O1]], (OwnU _ _ HB) as [[-> E2]|[N2 O2]].
    + reflexivity.
    + destruct (Old _ _ O2) as [l El]. apply nth_error_lt in El. lia.
    + destruct (Old _ _ O1) as [l El]. apply nth_error_lt in El. lia.
    + exact (Hinj _ _ _ O1 O2).
  - intros id l E. destruct (nth_snoc _ _ _ _ _ E) as [E'|[-> _]].
    + destruct (Hown _ _ E') as [k O]. exists k. destruct O as [o' [A B]].
      assert (N : k <> i) by (intros ->; rewrite He in A; injection A as <-; discriminate).
      exists o'. split; [rewrite nth_error_upd_other by congruence; exact A|exact B].
    + exists i, o. split; [apply nth_error_upd_same; exact Li|reflexivity].
Qed.

(** a new empty object *)
Lemma new_ok : forall h e w, orep (h, e) w -> orep (h, e ++ [Some o_none]) (w ++ [Some None]).
Proof.
  intros h e w [Hlen [Hrep [Hinj Hown]]].
  assert (OwnU : forall k id, owns (e ++ [Some o_none]) k id -> owns e k id).
  { intros k id [o' [A B]]. destruct (nth_snoc _ _ _ _ _ A) as [A'|[_ E]]; [exists o'; auto|].
    injection E as ->. discriminate. }
  unfold orep. split; [rewrite !app_length; cbn; lia|]. split; [|split].
  - intros k o' v' A B. destruct (nth_snoc _ _ _ _ _ A) as [A'|[-> ->]].
    + destruct (nth_snoc _ _ _ _ _ B) as [B'|[-> _]]; [exact (Hrep _ _ _ A' B')|].
      apply nth_error_lt in A'. lia.
    + rewrite Hlen, nth_snoc_r in B. injection B as <-. reflexivity.
  - intros a b id HA HB. exact (Hinj _ _ _ (OwnU _ _ HA) (OwnU _ _ HB)).
  - intros id l E. destruct (Hown _ _ E) as [k [o' [A B]]]. exists k, o'. split; [apply nth_snoc_l; exact A|exact B].
Qed.

Lemma upd_none_same : forall A (w : list A) i v, nth_error w i = Some v -> upd w i v = w.
Proof. induction w as [|x w IH]; intros [|i] v H; cbn in *; try congruence; try discriminate. f_equal. apply IH. exact H. Qed.

Lemma firstn_image : forall t d j n, n = (length t + length d + 2)%nat ->
  firstn n (map Some (image t d) ++ j) = map Some (image t d).
Proof.
  intros t d j n ->. replace (length t + length d + 2)%nat with (length (map (@Some Z) (image t d))).
  - apply firstn_len_app.
  - rewrite map_length. unfold image. rewrite app_length. cbn [length]. rewrite app_length. cbn. lia.
Qed.

Lemma o_step_ok : forall st w o v w', orep st w -> op_val o v -> ~ self_assign w o -> vstep w v w' ->
  exists st', o_step st o = Ok st' /\ orep st' w'.
Proof.
  intros [h e] w o v w' R Hv Hs Hstep. pose proof R as [Hlen [Hrep [Hinj Hown]]].
  assert (Live : forall i x, nth_error w i = Some (Some x) -> exists o, nth_error e i = Some (Some o) /\ obj_rep h o x).
  { intros i x H. destruct (nth_error e i) as [o'|] eqn:E.
    - pose proof (Hrep _ _ _ E H) as S. destruct o' as [o'|]; [|destruct S]. exists o'. auto.
    - apply nth_error_None in E. apply nth_error_lt in H. lia. }
  destruct Hstep as [w|w src x Hsrc|w dst src old x Hdst Hsrc|w i x Hi|w i r Hi|w i r x Hi];
    destruct o as [|a|a b|a|a y]; cbn [op_val] in Hv; try contradiction; try (destruct y; contradiction).
  - eexists. split; [reflexivity|]. apply new_ok. exact R.
  - (* copy *)
    subst a. destruct (Live _ _ Hsrc) as [u [Hu Ru]]. cbn [o_step o_copy]. rewrite (o_get_ok _ _ _ Hu). cbn [bind].
    unfold obj_rep in Ru. destruct x as [[t d]|].
    + destruct Ru as [Ht [id [j [-> En]]]]. cbn [o_len o_dlen o_blk].
      destruct (Nat.eqb_spec (length t) 0) as [E|_]; [destruct t; [congruence|discriminate]|].
      cbn [h_malloc h_read]. rewrite (rd_some _ _ _ _ (nth_snoc_l _ _ _ _ _ En)). cbn [bind].
      rewrite firstn_image by reflexivity.
      destruct (Nat.leb_spec (length t + length d + 2) (length (map Some (image t d) ++ j))) as [_|L].
      2:{ exfalso. rewrite app_length, map_length in L. unfold image in L. rewrite app_length in L. cbn [length] in L.
          rewrite app_length in L. cbn in L. lia. }
      cbn [bind]. unfold h_store. rewrite wr_ok by (rewrite app_length; cbn; lia). cbn [bind]. rewrite upd_snoc.
      eexists. split; [reflexivity|].
      pose proof (fill_ok h (e ++ [Some o_none]) (w ++ [Some None]) (length e) t d [] (new_ok _ _ _ R) (nth_snoc_r _ _ _) Ht) as F.
      rewrite app_nil_r, upd_snoc in F. rewrite Hlen, upd_snoc in F. exact F.
    + subst u. cbn [o_len o_none Nat.eqb]. eexists. split; [reflexivity|]. apply new_ok. exact R.
  - (* assign *)
    destruct Hv as [-> ->]. destruct (Live _ _ Hdst) as [o [Ho Ro]]. destruct (Live _ _ Hsrc) as [u [Hu Ru]].
    cbn [o_step o_assign]. rewrite (o_get_ok _ _ _ Ho). cbn [bind].
    destruct (release_ok h e w dst o old R Ho Hdst) as [h' [Er [Lh [R1 [_ Hsame]]]]]. rewrite Er. cbn [bind].
    rewrite (o_get_ok _ _ _ Hu). cbn [bind].
    assert (Ld : (dst < length e)%nat) by (eapply nth_error_lt; eassumption).
    unfold obj_rep in Ru. destruct x as [[t d]|].
    + destruct Ru as [Ht [id [j [-> En]]]]. cbn [o_len o_dlen o_blk].
      destruct (Nat.eqb_spec (length t) 0) as [E|_]; [destruct t; [congruence|discriminate]|].
      assert (N : src <> dst).
      { intros ->. apply Hs. cbn. split; [reflexivity|]. eauto. }
      cbn [h_malloc]. rewrite wr_ok by exact Ld. cbn [bind].
      rewrite (o_get_ok (upd e dst _) src (mkObj (Some id) (length t) (length d)))
        by (rewrite nth_error_upd_other by congruence; exact Hu).
      cbn [bind o_blk h_read].
      assert (En' : nth_error h' id = Some (Some (map Some (image t d) ++ j))).
      { rewrite (Hsame src id N); [exact En|]. eexists. split; [exact Hu|reflexivity]. }
      rewrite (rd_some _ _ _ _ (nth_snoc_l _ _ _ _ _ En')). cbn [bind].
      rewrite firstn_image by reflexivity.
      destruct (Nat.leb_spec (length t + length d + 2) (length (map Some (image t d) ++ j))) as [_|L].
      2:{ exfalso. rewrite app_length, map_length in L. unfold image in L. rewrite app_length in L. cbn [length] in L.
          rewrite app_length in L. cbn in L. lia. }
      cbn [bind]. unfold h_store. rewrite wr_ok by (rewrite app_length; cbn; lia). cbn [bind]. rewrite upd_snoc.
      eexists. split; [reflexivity|].
      pose proof (fill_ok h' (upd e dst (Some o_none)) _ dst t d [] R1 (nth_error_upd_same _ _ _ _ Ld) Ht) as F.
      rewrite app_nil_r in F.
      assert (UU : forall A (l : list A) i p q, upd (upd l i p) i q = upd l i q).
      { clear. induction l as [|z l IH]; intros [|i] p q; cbn; try reflexivity. f_equal. apply IH. }
      rewrite !UU in F. exact F.
    + subst u. cbn [o_len o_none Nat.eqb]. rewrite wr_ok by exact Ld. cbn [bind].
      eexists. split; [reflexivity|]. exact R1.
  - (* destroy *)
    subst a. destruct (Live _ _ Hi) as [o [Ho Ro]]. cbn [o_step o_destroy]. rewrite (o_get_ok _ _ _ Ho). cbn [bind].
    destruct (release_ok h e w i o x R Ho Hi) as [h' [Er [Lh [_ [R2 _]]]]]. rewrite Er. cbn [bind].
    rewrite wr_ok by (eapply nth_error_lt; eassumption). cbn [bind]. eexists. split; [reflexivity|exact R2].
  - (* create on an empty object *)
    destruct (Live _ _ Hi) as [o [Ho Ro]]. cbn in Ro. subst o.
    destruct y as [xu|], r as [[t d]|]; try contradiction.
    + destruct Hv as [-> [Ht [j ->]]]. cbn [o_step o_create]. rewrite (o_get_ok _ _ _ Ho). cbn [bind o_len o_none Nat.eqb u_mem u_len u_dlen].
      cbn [h_malloc]. unfold h_store. rewrite wr_ok by (rewrite app_length; cbn; lia). cbn [bind]. rewrite upd_snoc.
      rewrite wr_ok by (eapply nth_error_lt; eassumption). cbn [bind]. eexists. split; [reflexivity|].
      rewrite map_app. apply fill_ok; assumption.
    + subst a. cbn [o_step o_create]. rewrite (o_get_ok _ _ _ Ho). cbn [bind].
      destruct (release_ok h e w i _ _ R Ho Hi) as [h' [Er [Lh [R1 _]]]]. rewrite Er. cbn [bind].
      rewrite wr_ok by (eapply nth_error_lt; eassumption). cbn [bind]. eexists. split; [reflexivity|exact R1].
  - (* create on a URL *)
    destruct (Live _ _ Hi) as [o [Ho Ro]]. destruct x as [t d].
    destruct (release_ok h e w i _ _ R Ho Hi) as [h' [Er [Lh [R1 _]]]].
    destruct Ro as [Ht [id [j [Eo En]]]].
    assert (L0 : (o_len o =? 0)%nat = false).
    { rewrite Eo. cbn [o_len]. destruct t; [congruence|reflexivity]. }
    assert (Ea : a = i) by (destruct y, r as [[? ?]|]; try contradiction; [destruct Hv; assumption|exact Hv]). subst a.
    cbn [o_step o_create]. rewrite (o_get_ok _ _ _ Ho). cbn [bind].
    destruct y as [xu|]; rewrite ?L0, Er; cbn [bind]; rewrite wr_ok by (eapply nth_error_lt; eassumption); cbn [bind];
      (eexists; split; [reflexivity|exact R1]).
Qed.
