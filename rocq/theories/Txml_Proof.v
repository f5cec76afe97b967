(** Lemmas about the txml handlers. *)

From Coq Require Import ZArith List Bool Lia.
From Verif Require Import Base Txml_Model Txml_Spec.
Import ListNotations.
Local Open Scope Z_scope.

Lemma key_eqb_spec : forall a b, reflect (a = b) (key_eqb a b).
Proof.
  induction a as [|x a IH]; intros [|y b]; cbn; try (constructor; congruence).
  destruct (Z.eqb_spec x y); cbn; [|constructor; congruence]. destruct (IH b); constructor; congruence.
Qed.

Section TyInd.
  Variable P : ty -> Prop.
  Hypothesis Hs : forall k, P (TScal k).
  Hypothesis Hl : forall t d, P t -> P (TList t d).
  Hypothesis Ho : forall ms, Forall (fun m => P (snd m)) ms -> P (TObj ms).
  Fixpoint ty_ind2 (t : ty) : P t :=
    match t with
    | TScal k => Hs k
    | TList t d => Hl t d (ty_ind2 t)
    | TObj ms => Ho ms ((fix all (ms : list (list Z * ty)) : Forall (fun m => P (snd m)) ms :=
                          match ms with [] => Forall_nil _ | m :: ms => Forall_cons m (ty_ind2 (snd m)) (all ms) end) ms)
    end.
End TyInd.

(** *** determineMember over the members of an object *)

Fixpoint members (k : nat) (cv : list Z) (ms : list (list Z * ty)) (vs : list val) (lv : levels) : res (list val * levels) :=
  match ms, vs with
  | [], [] => Ok ([], lv)
  | (key, t1) :: ms, v1 :: vs =>
      '(v1, lv) <-
        (if (k =? length lv)%nat then
           if negb (key_eqb key []) then Ok (v1, lv) else set_value t1 v1 lv k cv
         else
           '(lk, _) <- rd lv k ;;
           if key_eqb key lk then set_value t1 v1 lv (S k) cv else Ok (v1, lv)) ;;
      '(vs, lv) <- members k cv ms vs lv ;;
      Ok (v1 :: vs, lv)
  | _, _ => Ub BadLib
  end.
Lemma set_value_obj : forall ms vs lv k cv,
  set_value (TObj ms) (VObj vs) lv k cv = ('(vs, lv) <- members k cv ms vs lv ;; Ok (VObj vs, lv)).
Proof.
  intros ms vs lv k cv. cbn [set_value].
  match goal with |- bind (?F ms vs lv) _ = _ => enough (E : forall ms vs lv, F ms vs lv = members k cv ms vs lv) by (rewrite E; reflexivity) end.
  clear. induction ms as [|[key t1] ms IH]; intros vs lv; [reflexivity|]. destruct vs as [|v1 vs]; [reflexivity|].
  cbn [members].
  match goal with |- bind ?A _ = bind ?B _ => change A with B; destruct B as [[v2 lv2]| |]; cbn [bind]; try reflexivity end.
  rewrite IH. reflexivity.
Qed.

(** the keys of the levels never change *)
Lemma map_upd_same : forall (lv : levels) k key f g, nth_error lv k = Some (key, f) -> map fst (upd lv k (key, g)) = map fst lv.
Proof.
  induction lv as [|x lv IH]; intros [|k] key f g H; cbn in *; try discriminate.
  - injection H as ->. reflexivity.
  - f_equal. eapply IH. exact H.
Qed.
Lemma keys_kept : forall t v lv k cv v' lv', set_value t v lv k cv = Ok (v', lv') -> map fst lv' = map fst lv.
Proof.
  induction t as [kd | t d IH | ms IH] using ty_ind2; intros v lv k cv v' lv' H.
  - destruct v; try discriminate. injection H as _ <-. reflexivity.
  - destruct v as [|l|]; try discriminate. cbn [set_value] in H. destruct k as [|k1]; [discriminate|].
    destruct (rd lv k1) as [[key pushed]| |] eqn:R; try discriminate. cbn [bind] in H.
    unfold rd in R. destruct (nth_error lv k1) as [y|] eqn:E; inversion R; subst y.
    destruct pushed.
    + destruct (rev l) as [|x r]; [discriminate|].
      destruct (set_value t x lv (S k1) cv) as [[x' lv1]| |] eqn:S1; try discriminate. cbn in H. injection H as _ <-. eauto.
    + destruct (rev (l ++ [d])) as [|x r]; [discriminate|].
      destruct (set_value t x _ (S k1) cv) as [[x' lv1]| |] eqn:S1; try discriminate. cbn in H. injection H as _ <-.
      rewrite (IH _ _ _ _ _ _ S1). eapply map_upd_same. exact E.
  - destruct v as [| |vs]; try discriminate. rewrite set_value_obj in H.
    destruct (members k cv ms vs lv) as [[vs' lv1]| |] eqn:M; try discriminate. cbn in H. injection H as _ <-.
    revert vs lv vs' lv1 M. induction IH as [|[key t1] ms H1 _ IHms]; intros vs lv vs' lv1 M.
    + destruct vs; inversion M. reflexivity.
    + destruct vs as [|v1 vs]; [discriminate|]. cbn [members] in M.
      destruct (if (k =? length lv)%nat then _ else _) as [[v2 lv2]| |] eqn:S1; try discriminate. cbn [bind] in M.
      destruct (members k cv ms vs lv2) as [[vs2 lv3]| |] eqn:M2; try discriminate. cbn in M. injection M as _ <-.
      apply IHms in M2. rewrite M2. clear M2. cbn [snd] in H1.
      destruct (k =? length lv)%nat; [destruct (negb _)|].
      * inversion S1. reflexivity.
      * eauto.
      * destruct (rd lv k) as [[lk g]| |]; try discriminate. cbn [bind] in S1. destruct (key_eqb key lk); [eauto | inversion S1; reflexivity].
Qed.

Lemma rd_some_inv : forall A (l : list A) k x, rd l k = Ok x -> nth_error l k = Some x.
Proof. unfold rd. intros A l k x H. destruct (nth_error l k); congruence. Qed.
Lemma rd_of_nth : forall A (l : list A) k x, nth_error l k = Some x -> rd l k = Ok x.
Proof. unfold rd. intros A l k x ->. reflexivity. Qed.
Lemma nth_key : forall (lv lv' : levels) k key f, map fst lv' = map fst lv -> nth_error lv k = Some (key, f) ->
  exists g, nth_error lv' k = Some (key, g).
Proof.
  intros lv lv' k key f E H. assert (X : nth_error (map fst lv') k = Some key) by (rewrite E; rewrite nth_error_map, H; reflexivity).
  rewrite nth_error_map in X. destruct (nth_error lv' k) as [[k2 g]|]; [|discriminate]. cbn in X. injection X as ->. eauto.
Qed.

(** no member has the name of the level *)
Lemma loop_miss : forall ms vs lv k cv key f, nth_error lv k = Some (key, f) -> ~ In key (map fst ms) -> length vs = length ms ->
  members k cv ms vs lv = Ok (vs, lv).
Proof.
  induction ms as [|[k1 t1] ms IH]; intros vs lv k cv key f R N L; destruct vs as [|v1 vs]; try discriminate L; [reflexivity|].
  cbn [members]. assert (k < length lv)%nat by (apply nth_error_Some; congruence).
  destruct (Nat.eqb_spec k (length lv)); [lia|]. rewrite (rd_of_nth _ _ _ _ R). cbn [bind].
  destruct (key_eqb_spec k1 key); [exfalso; apply N; left; exact e|]. cbn [bind].
  rewrite (IH vs lv k cv key f) by (auto; intros I; apply N; right; exact I). reflexivity.
Qed.
(** the path ends at this object *)
Lemma loop_end : forall ms vs lv k cv, k = length lv -> ~ In [] (map fst ms) -> length vs = length ms ->
  members k cv ms vs lv = Ok (vs, lv).
Proof.
  induction ms as [|[k1 t1] ms IH]; intros vs lv k cv E N L; destruct vs as [|v1 vs]; try discriminate L; [reflexivity|].
  cbn [members]. destruct (Nat.eqb_spec k (length lv)); [|congruence].
  destruct (key_eqb_spec k1 []); [exfalso; apply N; left; exact e0|]. cbn [negb bind].
  rewrite IH by (auto; intros I; apply N; right; exact I). reflexivity.
Qed.
(** one member has the name of the level *)
Lemma loop_hit : forall ms1 key t1 ms2 vs1 v1 vs2 lv k cv f,
  nth_error lv k = Some (key, f) -> NoDup (map fst (ms1 ++ (key, t1) :: ms2)) -> length vs1 = length ms1 -> length vs2 = length ms2 ->
  members k cv (ms1 ++ (key, t1) :: ms2) (vs1 ++ v1 :: vs2) lv =
  ('(x, lv) <- set_value t1 v1 lv (S k) cv ;; Ok (vs1 ++ x :: vs2, lv)).
Proof.
  induction ms1 as [|[k1 t'] ms1 IH]; intros key t1 ms2 vs1 v1 vs2 lv k cv f R N L1 L2.
  - destruct vs1; [|discriminate]. cbn [app members].
    assert (k < length lv)%nat by (apply nth_error_Some; congruence).
    destruct (Nat.eqb_spec k (length lv)); [lia|]. rewrite (rd_of_nth _ _ _ _ R). cbn [bind].
    destruct (key_eqb_spec key key); [|congruence].
    destruct (set_value t1 v1 lv (S k) cv) as [[x lv']| |] eqn:S1; cbn [bind]; try reflexivity.
    destruct (nth_key _ lv' _ _ _ (keys_kept _ _ _ _ _ _ _ S1) R) as [g Rg].
    cbn in N. inversion N as [|? ? N1 N2]; subst.
    rewrite (loop_miss ms2 vs2 lv' k cv key g) by auto. reflexivity.
  - destruct vs1 as [|v' vs1]; [discriminate|]. cbn [app members].
    assert (k < length lv)%nat by (apply nth_error_Some; congruence).
    destruct (Nat.eqb_spec k (length lv)); [lia|]. rewrite (rd_of_nth _ _ _ _ R). cbn [bind].
    cbn in N. inversion N as [|? ? N1 N2]; subst.
    destruct (key_eqb_spec k1 key) as [->|].
    { exfalso. apply N1. rewrite map_app. apply in_or_app. right. left. reflexivity. }
    cbn [bind]. rewrite (IH key t1 ms2 vs1 v1 vs2 lv k cv f R N2) by (auto; cbn in L1; lia).
    destruct (set_value t1 v1 lv (S k) cv) as [[x lv']| |]; reflexivity.
Qed.

(** *** the part of an object that a path of levels leads to *)

Definition not_list (t : ty) : Prop := forall t1 d, t <> TList t1 d.

Inductive focus (t : ty) (v : val) : levels -> ty -> val -> (val -> val) -> Prop :=
| f_root : focus t v [] t v (fun x => x)
| f_member : forall pre ms1 key t1 ms2 vs1 v1 vs2 plug f,
    focus t v pre (TObj (ms1 ++ (key, t1) :: ms2)) (VObj (vs1 ++ v1 :: vs2)) plug -> length vs1 = length ms1 -> not_list t1 ->
    focus t v (pre ++ [(key, f)]) t1 v1 (fun x => plug (VObj (vs1 ++ x :: vs2)))
| f_item : forall pre ms1 key t2 d ms2 vs1 l x vs2 plug,
    focus t v pre (TObj (ms1 ++ (key, TList t2 d) :: ms2)) (VObj (vs1 ++ VList (l ++ [x]) :: vs2)) plug -> length vs1 = length ms1 ->
    focus t v (pre ++ [(key, true)]) t2 x (fun y => plug (VObj (vs1 ++ VList (l ++ [y]) :: vs2))).

Lemma focus_same : forall t v pre t' v' plug, focus t v pre t' v' plug -> plug v' = v.
Proof. intros t v pre t' v' plug H. induction H; auto. Qed.
Lemma focus_put : forall t v pre t' v' plug, focus t v pre t' v' plug -> forall w, focus t (plug w) pre t' w plug.
Proof.
  intros t v pre t' v' plug H. induction H as [|pre ms1 key t1 ms2 vs1 v1 vs2 plug f H IH L N | pre ms1 key t2 d ms2 vs1 l x vs2 plug H IH L]; intros w.
  - constructor.
  - apply (f_member t _ pre ms1 key t1 ms2 vs1 w vs2 plug f); auto.
  - apply (f_item t _ pre ms1 key t2 d ms2 vs1 l w vs2 plug); auto.
Qed.

Lemma Forall2_mid : forall A B (R : A -> B -> Prop) xs1 x xs2 ys1 y ys2, length xs1 = length ys1 ->
  Forall2 R (xs1 ++ x :: xs2) (ys1 ++ y :: ys2) -> Forall2 R xs1 ys1 /\ R x y /\ Forall2 R xs2 ys2.
Proof.
  induction xs1 as [|a xs1 IH]; intros x xs2 [|b ys1] y ys2 L H; try discriminate L; inversion H; subst.
  - auto.
  - destruct (IH x xs2 ys1 y ys2) as (Q1 & Q2 & Q3); [cbn in L; lia | auto | auto].
Qed.
Lemma Forall2_len : forall A B (R : A -> B -> Prop) xs ys, Forall2 R xs ys -> length xs = length ys.
Proof. intros A B R xs ys H. induction H; cbn; lia. Qed.
Lemma has_ty_mid : forall vs1 v1 vs2 ms1 key t1 ms2, length vs1 = length ms1 ->
  has_ty (VObj (vs1 ++ v1 :: vs2)) (TObj (ms1 ++ (key, t1) :: ms2)) ->
  has_ty v1 t1 /\ length vs2 = length ms2 /\ forall w, has_ty w t1 -> has_ty (VObj (vs1 ++ w :: vs2)) (TObj (ms1 ++ (key, t1) :: ms2)).
Proof.
  intros vs1 v1 vs2 ms1 key t1 ms2 L H. inversion H as [| |? ? F]; subst.
  destruct (Forall2_mid _ _ _ _ _ _ _ _ _ L F) as (F1 & F2 & F3). cbn [snd] in F2. split; [auto|]. split; [eapply Forall2_len; eauto|].
  intros w Hw. constructor. apply Forall2_app; [auto|]. constructor; auto.
Qed.

Lemma focus_ty : forall t v pre t' v' plug, focus t v pre t' v' plug -> has_ty v t -> has_ty v' t' /\
  forall w, has_ty w t' -> has_ty (plug w) t.
Proof.
  intros t v pre t' v' plug H. induction H as [|pre ms1 key t1 ms2 vs1 v1 vs2 plug f H IH L N | pre ms1 key t2 d ms2 vs1 l x vs2 plug H IH L]; intros Ht.
  - auto.
  - destruct (IH Ht) as [I1 I2]. destruct (has_ty_mid _ _ _ _ _ _ _ L I1) as (M1 & _ & M2). auto.
  - destruct (IH Ht) as [I1 I2]. destruct (has_ty_mid _ _ _ _ _ _ _ L I1) as (M1 & _ & M2).
    inversion M1 as [|? ? ? F|]; subst. apply Forall_app in F. destruct F as [F1 F2]. inversion F2; subst. split; [auto|].
    intros w Hw. apply I2, M2. constructor. apply Forall_app. split; [auto|]. constructor; auto.
Qed.
Lemma good_mid : forall ms1 key t1 ms2, good (TObj (ms1 ++ (key, t1) :: ms2)) -> good t1 /\ NoDup (map fst (ms1 ++ (key, t1) :: ms2)) /\ key <> [].
Proof.
  intros ms1 key t1 ms2 H. inversion H as [| |? N E F]; subst. split; [|split; [auto|]].
  - rewrite Forall_forall in F. apply (F (key, t1)). apply in_or_app. right. left. reflexivity.
  - intros ->. apply E. rewrite map_app. apply in_or_app. right. left. reflexivity.
Qed.
Lemma focus_good : forall t v pre t' v' plug, focus t v pre t' v' plug -> good t -> good t'.
Proof.
  intros t v pre t' v' plug H G. induction H; auto; apply good_mid in IHfocus; destruct IHfocus as [I _]; auto.
  inversion I; auto.
Qed.

Lemma nth_mid : forall A (pre : list A) x t, nth_error (pre ++ x :: t) (length pre) = Some x.
Proof. intros. rewrite nth_error_app2, Nat.sub_diag by lia. reflexivity. Qed.

Lemma descend : forall t v pre t' v' plug, focus t v pre t' v' plug -> good t -> has_ty v t -> forall rest cv,
  set_value t v (pre ++ rest) 0 cv = ('(x, lv) <- set_value t' v' (pre ++ rest) (length pre) cv ;; Ok (plug x, lv)).
Proof.
  intros t v pre t' v' plug H G Ht. induction H as [|pre ms1 key t1 ms2 vs1 v1 vs2 plug f H IH L N | pre ms1 key t2 d ms2 vs1 l x vs2 plug H IH L]; intros rest cv.
  - cbn [app length]. destruct (set_value t v rest 0 cv) as [[x lv]| |]; reflexivity.
  - rewrite <- app_assoc. cbn [app]. rewrite IH. pose proof (focus_good _ _ _ _ _ _ H G) as G'.
    destruct (focus_ty _ _ _ _ _ _ H Ht) as [T' _]. destruct (has_ty_mid _ _ _ _ _ _ _ L T') as (_ & L2 & _).
    apply good_mid in G'. destruct G' as (_ & ND & _).
    rewrite set_value_obj, (loop_hit ms1 key t1 ms2 vs1 v1 vs2 _ (length pre) cv f) by (auto; apply nth_mid).
    rewrite app_length. cbn [length]. rewrite Nat.add_1_r.
    destruct (set_value t1 v1 _ (S (length pre)) cv) as [[y lv]| |]; reflexivity.
  - rewrite <- app_assoc. cbn [app]. rewrite IH. pose proof (focus_good _ _ _ _ _ _ H G) as G'.
    destruct (focus_ty _ _ _ _ _ _ H Ht) as [T' _]. destruct (has_ty_mid _ _ _ _ _ _ _ L T') as (_ & L2 & _).
    apply good_mid in G'. destruct G' as (_ & ND & _).
    rewrite set_value_obj, (loop_hit ms1 key (TList t2 d) ms2 vs1 _ vs2 _ (length pre) cv true) by (auto; apply nth_mid).
    cbn [set_value]. rewrite (rd_of_nth _ _ _ _ (nth_mid _ pre (key, true) rest)). cbn [bind].
    rewrite rev_app_distr. cbn [rev app]. rewrite rev_involutive, app_length. cbn [length]. rewrite Nat.add_1_r.
    destruct (set_value t2 x _ (S (length pre)) cv) as [[y lv]| |]; reflexivity.
Qed.

(** a new item of a list: as if it had been there, with its level marked *)
Lemma push_item : forall t v pre ms1 key t2 d ms2 vs1 l vs2 plug,
  focus t v pre (TObj (ms1 ++ (key, TList t2 d) :: ms2)) (VObj (vs1 ++ VList l :: vs2)) plug -> length vs1 = length ms1 ->
  good t -> has_ty v t ->
  has_ty (plug (VObj (vs1 ++ VList (l ++ [d]) :: vs2))) t /\
  forall rest cv, set_value t v (pre ++ (key, false) :: rest) 0 cv =
    set_value t (plug (VObj (vs1 ++ VList (l ++ [d]) :: vs2))) (pre ++ (key, true) :: rest) 0 cv.
Proof.
  intros t v pre ms1 key t2 d ms2 vs1 l vs2 plug H L G Ht.
  pose proof (focus_good _ _ _ _ _ _ H G) as G'. destruct (focus_ty _ _ _ _ _ _ H Ht) as [T' P'].
  destruct (has_ty_mid _ _ _ _ _ _ _ L T') as (Tl & L2 & M2). apply good_mid in G'. destruct G' as (Gl & ND & _).
  assert (Td : has_ty (VList (l ++ [d])) (TList t2 d)).
  { inversion Tl; subst. inversion Gl; subst. constructor. apply Forall_app. split; [auto|]. constructor; auto. }
  assert (T2 : has_ty (plug (VObj (vs1 ++ VList (l ++ [d]) :: vs2))) t) by (apply P', M2, Td).
  split; [exact T2|]. intros rest cv.
  rewrite (descend _ _ _ _ _ _ H G Ht), (descend _ _ _ _ _ _ (focus_put _ _ _ _ _ _ H _) G T2), !set_value_obj.
  rewrite (loop_hit ms1 key (TList t2 d) ms2 vs1 (VList l) vs2 _ (length pre) cv false) by (auto; apply nth_mid).
  rewrite (loop_hit ms1 key (TList t2 d) ms2 vs1 (VList (l ++ [d])) vs2 _ (length pre) cv true) by (auto; apply nth_mid).
  cbn [set_value]. rewrite (rd_of_nth _ _ _ _ (nth_mid _ pre (key, true) rest)), (rd_of_nth _ _ _ _ (nth_mid _ pre (key, false) rest)). cbn [bind].
  assert (U : upd (pre ++ (key, false) :: rest) (length pre) (key, true) = pre ++ (key, true) :: rest).
  { clear. induction pre as [|y pre IH]; cbn; [reflexivity|]. f_equal. exact IH. }
  rewrite U. reflexivity.
Qed.

(** *** elements without a member *)

Definition dead (t : ty) (v : val) (lv : levels) : Prop := forall rest cv, set_value t v (lv ++ rest) 0 cv = Ok (v, lv ++ rest).

Lemma dead_more : forall t v lv rest, dead t v lv -> dead t v (lv ++ rest).
Proof. intros t v lv rest D r cv. rewrite <- app_assoc. apply D. Qed.
Lemma pop_snoc : forall lv x cv v, pop (mkSt (lv ++ [x]) cv v) = Ok (mkSt lv cv v).
Proof. intros. unfold pop. cbn [lvs]. rewrite rev_app_distr. cbn. rewrite rev_involutive. reflexivity. Qed.

Definition beg_rest (t : ty) (attrs : list (list Z * list Z)) (s : st) : res st :=
  s <- attributes t attrs s ;;
  let s := push s [] in
  s <- determine t (mkSt (lvs s) [] (root s)) ;;
  pop s.

Lemma dead_beg : forall t v attrs lv cv, dead t v lv -> beg_rest t attrs (mkSt lv cv v) = Ok (mkSt lv [] v).
Proof.
  intros t v attrs lv cv D. unfold beg_rest.
  assert (A : forall cv, exists cv', attributes t attrs (mkSt lv cv v) = Ok (mkSt lv cv' v)).
  { clear cv. induction attrs as [|[k a] attrs IH]; intros cv; cbn [attributes]; [eauto|].
    unfold push, determine. cbn [lvs cval root]. rewrite D. cbn [bind]. rewrite pop_snoc. cbn [bind]. apply IH. }
  destruct (A cv) as [cv' ->]. cbn [bind]. unfold push, determine. cbn [lvs cval root]. rewrite D. cbn [bind]. apply pop_snoc.
Qed.

Lemma handle_app : forall t a b s, handle t (a ++ b) s = (s <- handle t a s ;; handle t b s).
Proof.
  intros t a. induction a as [|e a IH]; intros b s; [reflexivity|]. cbn [app handle]. destruct e.
  - destruct (begelement t name attrs s); cbn [bind]; auto.
  - apply IH.
  - destruct (endelement t s); cbn [bind]; auto.
Qed.
Lemma handle_chars : forall t chunks s, handle t (map Chars chunks) s = Ok (mkSt (lvs s) (cval s ++ concat chunks) (root s)).
Proof.
  intros t chunks. induction chunks as [|c chunks IH]; intros [lv cv v]; cbn [map handle concat].
  - rewrite app_nil_r. reflexivity.
  - rewrite IH. unfold characters. cbn [lvs cval root]. rewrite app_assoc. reflexivity.
Qed.

Scheme events_ind2 := Induction for events Sort Prop
  with all_events_ind2 := Induction for all_events Sort Prop.
Combined Scheme events_mut from events_ind2, all_events_ind2.

Lemma dead_run :
  (forall n evs, events n evs -> forall t v lv cv, dead t v lv -> exists cv', handle t evs (mkSt lv cv v) = Ok (mkSt lv cv' v)) /\
  (forall c evs, all_events c evs -> forall t v lv cv, dead t v lv -> exists cv', handle t evs (mkSt lv cv v) = Ok (mkSt lv cv' v)).
Proof.
  apply events_mut.
  - intros chunks t v lv cv D. rewrite handle_chars. eauto.
  - intros n a c evs H IH t v lv cv D. cbn [handle]. change (begelement t n a) with (fun s => beg_rest t a (push s n)). cbv beta.
    unfold push. cbn [lvs cval root]. rewrite dead_beg by (apply dead_more; auto). cbn [bind]. rewrite handle_app.
    destruct (IH t v (lv ++ [(n, false)]) [] (dead_more _ _ _ _ D)) as [cv' ->]. cbn [bind handle]. unfold endelement, determine. cbn [lvs cval root].
    rewrite <- (app_nil_r (lv ++ [(n, false)])), (dead_more _ _ _ _ D). cbn [bind lvs cval root]. rewrite app_nil_r, pop_snoc. cbn [bind]. eauto.
  - intros t v lv cv D. exists cv. reflexivity.
  - intros x c e evs H1 IH1 H2 IH2 t v lv cv D. rewrite handle_app.
    destruct (IH1 t v lv cv D) as [cv1 ->]. cbn [bind]. apply IH2. exact D.
Qed.

(** *** typing of what is loaded *)

Lemma member_ty : forall ms vs name f, Forall2 (fun v m => has_ty v (snd m)) vs ms ->
  (forall t v, In (name, t) ms -> has_ty v t -> has_ty (f t v) t) -> Forall2 (fun v m => has_ty v (snd m)) (member ms vs name f) ms.
Proof.
  induction ms as [|[key t] ms IH]; intros vs name f F H; inversion F as [|v m vs' ms' Hv F']; subst; cbn [member]; [constructor|].
  constructor.
  - cbn [snd] in *. destruct (key_eqb_spec key name); [|auto]. subst. apply H; [left; reflexivity | auto].
  - apply IH; [auto|]. intros t1 v1 I. apply H. right. exact I.
Qed.
Lemma enter_ty : forall f t v, good t -> has_ty v t -> (forall t v, good t -> has_ty v t -> has_ty (f t v) t) -> has_ty (enter f t v) t.
Proof.
  intros f t v G H Hf. destruct t; cbn [enter]; auto. inversion H as [|l ? ? F|]; subst. inversion G; subst.
  constructor. apply Forall_app. split; [auto|]. constructor; auto.
Qed.
Lemma attr_ty : forall a t v, has_ty v t -> has_ty (attr_value a t v) t.
Proof. intros a t v H. destruct t; cbn; auto. constructor. Qed.
Lemma load_attrs_ty : forall attrs ms vs, Forall (fun m => good (snd m)) ms -> Forall2 (fun v m => has_ty v (snd m)) vs ms ->
  Forall2 (fun v m => has_ty v (snd m)) (load_attrs ms vs attrs) ms.
Proof.
  unfold load_attrs. induction attrs as [|[k a] attrs IH]; intros ms vs G F; cbn [fold_left]; [auto|].
  apply IH; [auto|]. apply member_ty; [auto|]. intros t v I H. rewrite Forall_forall in G.
  apply enter_ty; [apply (G _ I) | auto |]. intros; apply attr_ty; auto.
Qed.

(** *** an attribute *)

Lemma member_split : forall ms1 key t1 ms2 vs1 v1 vs2 f, length vs1 = length ms1 -> NoDup (map fst (ms1 ++ (key, t1) :: ms2)) ->
  member (ms1 ++ (key, t1) :: ms2) (vs1 ++ v1 :: vs2) key f = vs1 ++ f t1 v1 :: vs2.
Proof.
  induction ms1 as [|[k1 t'] ms1 IH]; intros key t1 ms2 vs1 v1 vs2 f L N.
  - destruct vs1; [|discriminate]. cbn [app member]. destruct (key_eqb_spec key key); [|congruence]. f_equal.
    cbn in N. inversion N as [|? ? N1 N2]; subst. clear - N1. revert vs2. induction ms2 as [|[k2 t2] ms2 IH]; intros vs2; [reflexivity|].
    destruct vs2 as [|v2 vs2]; [reflexivity|]. cbn [member]. destruct (key_eqb_spec k2 key).
    + exfalso. apply N1. left. auto.
    + f_equal. apply IH. intros I. apply N1. right. exact I.
  - destruct vs1 as [|v' vs1]; [discriminate|]. cbn [app member]. cbn in N. inversion N as [|? ? N1 N2]; subst.
    destruct (key_eqb_spec k1 key) as [->|].
    { exfalso. apply N1. rewrite map_app. apply in_or_app. right. left. reflexivity. }
    f_equal. apply IH; [cbn in L; lia | auto].
Qed.
Lemma member_none : forall ms vs key f, ~ In key (map fst ms) -> member ms vs key f = vs.
Proof.
  induction ms as [|[k t] ms IH]; intros vs key f N; [reflexivity|]. destruct vs as [|v vs]; [reflexivity|]. cbn [member].
  destruct (key_eqb_spec k key); [exfalso; apply N; left; auto|]. f_equal. apply IH. intros I. apply N. right. exact I.
Qed.
Lemma member_case : forall (ms : list (list Z * ty)) (vs : list val) (key : list Z), length vs = length ms ->
  ~ In key (map fst ms) \/ exists ms1 t1 ms2 vs1 v1 vs2, ms = ms1 ++ (key, t1) :: ms2 /\ vs = vs1 ++ v1 :: vs2 /\ length vs1 = length ms1.
Proof.
  intros ms vs key L. destruct (in_dec (list_eq_dec Z.eq_dec) key (map fst ms)) as [I|N]; [right|left; auto].
  apply in_map_iff in I. destruct I as ([k t] & E & I). cbn in E. subst k. apply in_split in I. destruct I as (ms1 & ms2 & ->).
  assert (X : exists vs1 v1 vs2, vs = vs1 ++ v1 :: vs2 /\ length vs1 = length ms1).
  { exists (firstn (length ms1) vs). rewrite app_length in L. cbn in L.
    destruct (skipn (length ms1) vs) as [|v1 vs2] eqn:E.
    - exfalso. apply (f_equal (@length val)) in E. rewrite skipn_length in E. cbn in E. lia.
    - exists v1, vs2. rewrite <- E, firstn_skipn. split; [reflexivity|]. rewrite firstn_length. lia. }
  destruct X as (vs1 & v1 & vs2 & -> & L1). exists ms1, t, ms2, vs1, v1, vs2. auto.
Qed.

Lemma members_len : forall vs ms, has_ty (VObj vs) (TObj ms) -> length vs = length ms.
Proof. intros vs ms H. inversion H; subst. eapply Forall2_len; eauto. Qed.

(** setValue at the end of the path: a scalar takes the value, an object ignores it *)
Lemma set_at_end : forall t v lv cv, good t -> not_list t -> has_ty v t ->
  set_value t v lv (length lv) cv = Ok (attr_value cv t v, lv).
Proof.
  intros t v lv cv G N H. destruct t as [k|t1 d|ms].
  - inversion H. reflexivity.
  - exfalso. exact (N t1 d eq_refl).
  - inversion H as [| |vs ms' F]; subst. rewrite set_value_obj. inversion G; subst.
    rewrite loop_end; auto. eapply Forall2_len; eauto.
Qed.
Lemma good_item : forall t d, good (TList t d) -> good t /\ not_list t /\ has_ty d t.
Proof. intros t d G. inversion G; subst. unfold not_list. auto. Qed.

Lemma attr_step : forall t v pre ms vs plug k a, focus t v pre (TObj ms) (VObj vs) plug -> good t -> has_ty v t ->
  exists f, set_value t v (pre ++ [(k, false)]) 0 a = Ok (plug (VObj (member ms vs k (enter (attr_value a)))), pre ++ [(k, f)]).
Proof.
  intros t v pre ms vs plug k a H G Ht. rewrite (descend _ _ _ _ _ _ H G Ht).
  pose proof (focus_good _ _ _ _ _ _ H G) as G'. destruct (focus_ty _ _ _ _ _ _ H Ht) as [T' _].
  pose proof (members_len _ _ T') as Len.
  rewrite set_value_obj. destruct (member_case ms vs k Len) as [N | (ms1 & t1 & ms2 & vs1 & v1 & vs2 & -> & -> & L)].
  - rewrite (loop_miss ms vs _ _ _ k false) by (auto; apply nth_mid). cbn [bind]. rewrite member_none by auto. eauto.
  - destruct (has_ty_mid _ _ _ _ _ _ _ L T') as (T1 & L2 & _). apply good_mid in G'. destruct G' as (G1 & ND & _).
    rewrite (loop_hit ms1 k t1 ms2 vs1 v1 vs2 _ _ _ false) by (auto; apply nth_mid). rewrite member_split by auto.
    assert (E : exists f, set_value t1 v1 (pre ++ [(k, false)]) (S (length pre)) a = Ok (enter (attr_value a) t1 v1, pre ++ [(k, f)])).
    { assert (Ls : forall f, S (length pre) = length (pre ++ [(k, f) : list Z * bool])) by (intros; rewrite app_length; cbn; lia).
      destruct t1 as [kd|t2 d|ms'].
      - exists false. rewrite (Ls false). rewrite set_at_end; auto; discriminate.
      - destruct (good_item _ _ G1) as (G2 & N2 & Td). inversion T1 as [|l ? ? F|]; subst. exists true. cbn [set_value].
        rewrite (rd_of_nth _ _ _ _ (nth_mid _ pre (k, false) [])). cbn [bind].
        assert (U : upd (pre ++ [(k, false)]) (length pre) (k, true) = pre ++ [(k, true)]).
        { clear. induction pre as [|y pre IH]; cbn; [reflexivity|]. f_equal. exact IH. }
        rewrite U, rev_app_distr. cbn [rev app]. rewrite (Ls true), set_at_end by auto. cbn [bind enter]. rewrite rev_involutive. reflexivity.
      - exists false. rewrite (Ls false). rewrite set_at_end; auto; discriminate. }
    destruct E as [f ->]. exists f. reflexivity.
Qed.

Lemma attrs_run : forall attrs t v pre ms vs plug cv, focus t v pre (TObj ms) (VObj vs) plug -> good t -> has_ty v t ->
  exists cv', attributes t attrs (mkSt pre cv v) = Ok (mkSt pre cv' (plug (VObj (load_attrs ms vs attrs)))).
Proof.
  induction attrs as [|[k a] attrs IH]; intros t v pre ms vs plug cv H G Ht; cbn [attributes].
  - exists cv. unfold load_attrs. cbn [fold_left]. rewrite (focus_same _ _ _ _ _ _ H). reflexivity.
  - unfold push, determine. cbn [lvs cval root]. destruct (attr_step _ _ _ _ _ _ k a H G Ht) as [f ->]. cbn [bind]. rewrite pop_snoc. cbn [bind].
    destruct (focus_ty _ _ _ _ _ _ H Ht) as [T' P']. pose proof (focus_good _ _ _ _ _ _ H G) as G'.
    inversion T' as [| |? ? F]; subst. inversion G' as [| |? N E Fg]; subst.
    apply (IH t _ pre ms (member ms vs k (enter (attr_value a))) plug); auto.
    + apply (focus_put _ _ _ _ _ _ H).
    + apply P'. constructor. apply member_ty; [auto|]. intros t1 v1 I Hv. rewrite Forall_forall in Fg.
      apply enter_ty; [apply (Fg _ I) | auto |]. intros; apply attr_ty; auto.
Qed.

(** *** begelement *)

Lemma beg_obj : forall attrs t v pre ms vs plug cv, focus t v pre (TObj ms) (VObj vs) plug -> good t -> has_ty v t ->
  beg_rest t attrs (mkSt pre cv v) = Ok (mkSt pre [] (plug (VObj (load_attrs ms vs attrs)))).
Proof.
  intros attrs t v pre ms vs plug cv H G Ht. unfold beg_rest.
  destruct (attrs_run attrs _ _ _ _ _ _ cv H G Ht) as [cv' ->]. cbn [bind]. unfold push, determine. cbn [lvs cval root].
  destruct (focus_ty _ _ _ _ _ _ H Ht) as [T' P']. pose proof (focus_good _ _ _ _ _ _ H G) as G'.
  inversion T' as [| |? ? F]; subst. inversion G' as [| |? N E Fg]; subst.
  assert (F2 : Forall2 (fun v m => has_ty v (snd m)) (load_attrs ms vs attrs) ms) by (apply load_attrs_ty; auto).
  rewrite (descend _ _ _ _ _ _ (focus_put _ _ _ _ _ _ H _) G) by (apply P'; constructor; auto).
  rewrite set_value_obj, (loop_miss ms _ _ _ _ [] false) by (first [apply nth_mid | eapply Forall2_len; eauto | auto]). cbn [bind]. apply pop_snoc.
Qed.
Lemma beg_scal : forall attrs t v pre k s plug cv, focus t v pre (TScal k) (VScal s) plug -> good t -> has_ty v t ->
  beg_rest t attrs (mkSt pre cv v) = Ok (mkSt pre [] (plug (VScal (conv k [])))).
Proof.
  intros attrs t v pre k s plug cv H G Ht. unfold beg_rest.
  assert (A : forall v s cv, focus t v pre (TScal k) (VScal s) plug -> has_ty v t ->
    exists cv' s', attributes t attrs (mkSt pre cv v) = Ok (mkSt pre cv' (plug (VScal s')))).
  { clear v s cv H Ht. induction attrs as [|[key a] attrs IH]; intros v s cv H Ht; cbn [attributes].
    - exists cv, s. rewrite (focus_same _ _ _ _ _ _ H). reflexivity.
    - unfold push, determine. cbn [lvs cval root]. rewrite (descend _ _ _ _ _ _ H G Ht). cbn [set_value bind]. rewrite pop_snoc. cbn [bind].
      eapply IH; [apply (focus_put _ _ _ _ _ _ H)|]. apply (focus_ty _ _ _ _ _ _ H Ht). constructor. }
  destruct (A v s cv H Ht) as (cv' & s' & ->). cbn [bind]. unfold push, determine. cbn [lvs cval root].
  rewrite (descend _ _ _ _ _ _ (focus_put _ _ _ _ _ _ H _) G) by (apply (focus_ty _ _ _ _ _ _ H Ht); constructor).
  cbn [set_value bind]. apply pop_snoc.
Qed.
(** the first determine of an element for a list adds the item *)
Lemma beg_item : forall attrs t v pre ms1 key t2 d ms2 vs1 l vs2 plug cv,
  focus t v pre (TObj (ms1 ++ (key, TList t2 d) :: ms2)) (VObj (vs1 ++ VList l :: vs2)) plug -> length vs1 = length ms1 ->
  good t -> has_ty v t ->
  beg_rest t attrs (mkSt (pre ++ [(key, false)]) cv v) =
  beg_rest t attrs (mkSt (pre ++ [(key, true)]) cv (plug (VObj (vs1 ++ VList (l ++ [d]) :: vs2)))).
Proof.
  intros attrs t v pre ms1 key t2 d ms2 vs1 l vs2 plug cv H L G Ht.
  destruct (push_item _ _ _ _ _ _ _ _ _ _ _ _ H L G Ht) as [_ P]. unfold beg_rest.
  destruct attrs as [|[k a] attrs]; cbn [attributes bind]; unfold push, determine; cbn [lvs cval root]; rewrite <- !app_assoc; cbn [app]; rewrite P; reflexivity.
Qed.

(** *** the text of a scalar *)

Lemma texts_run : forall c evs, all_events c evs -> Forall (fun n => exists s, n = Text s) c -> forall t s,
  handle t evs s = Ok (mkSt (lvs s) (cval s ++ text c) (root s)).
Proof.
  intros c evs H. induction H as [|x c e evs H1 H IH]; intros F t s.
  - cbn. rewrite app_nil_r. destruct s; reflexivity.
  - inversion F as [|? ? [s0 E] F']; subst. inversion H1; subst. rewrite handle_app, handle_chars. cbn [bind]. rewrite IH by auto.
    cbn [lvs cval root text flat_map]. rewrite app_assoc. reflexivity.
Qed.

Lemma load_ty : forall n ms vs, Forall (fun m => good (snd m)) ms -> Forall2 (fun v m => has_ty v (snd m)) vs ms ->
  Forall2 (fun v m => has_ty v (snd m)) (load n ms vs) ms.
Proof.
  fix IH 1. intros [s|name attrs content] ms vs G F; cbn [load]; [auto|].
  apply member_ty; [auto|]. intros t v I H. rewrite Forall_forall in G. apply enter_ty; [apply (G _ I) | auto |].
  intros t1 v1 G1 H1. destruct t1 as [k|t2 d|ms1]; [constructor | auto |]. inversion H1 as [| |vs1 ? F1]; subst. constructor.
  inversion G1 as [| |? _ _ Fg]; subst.
  pose proof (load_attrs_ty attrs _ _ Fg F1) as F2. revert F2. generalize (load_attrs ms1 vs1 attrs). clear - IH Fg.
  induction content as [|n content IHc]; intros ws F2; cbn [fold_left]; [auto|]. apply IHc. apply IH; auto.
Qed.

(** *** documents *)

Definition body (content : list node) (attrs : list (list Z * list Z)) (t : ty) (v : val) : val :=
  match t, v with
  | TScal k, _ => VScal (conv k (text content))
  | TObj ms1, VObj vs1 => VObj (fold_left (fun vs n => load n ms1 vs) content (load_attrs ms1 vs1 attrs))
  | _, _ => v
  end.

Lemma fits_all : forall c ms, (fix all (c : list node) : Prop := match c with [] => True | n :: c => fits n ms /\ all c end) c <-> Forall (fun n => fits n ms) c.
Proof.
  intros c ms. induction c as [|n c IH]; [split; [constructor | exact (fun _ => I)]|]. split.
  - intros [H1 H2]. constructor; [auto | apply IH; auto].
  - intros H. inversion H; subst. split; [auto | apply IH; auto].
Qed.

(** from the beginning of an element whose member is not a list (or whose item has been
    added) to its end *)
Lemma elem_run : forall t v pre key f t1 v1 plug attrs content evs cv,
  (forall t v pre ms vs plug cv, good t -> has_ty v t -> focus t v pre (TObj ms) (VObj vs) plug -> Forall (fun n => fits n ms) content ->
     exists cv', handle t evs (mkSt pre cv v) = Ok (mkSt pre cv' (plug (VObj (fold_left (fun vs n => load n ms vs) content vs))))) ->
  all_events content evs ->
  focus t v (pre ++ [(key, f)]) t1 v1 plug -> not_list t1 -> good t -> has_ty v t ->
  (match t1 with
   | TObj ms1 => Forall (fun n => fits n ms1) content
   | _ => Forall (fun n => exists s, n = Text s) content
   end) ->
  (s <- beg_rest t attrs (mkSt (pre ++ [(key, f)]) cv v) ;; handle t (evs ++ [End]) s) = Ok (mkSt pre [] (plug (body content attrs t1 v1))).
Proof.
  intros t v pre key f t1 v1 plug attrs content evs cv Hall Hev H NL G Ht Fit.
  destruct (focus_ty _ _ _ _ _ _ H Ht) as [T' P']. pose proof (focus_good _ _ _ _ _ _ H G) as G'.
  destruct t1 as [k|t2 d|ms1]; [|exfalso; exact (NL t2 d eq_refl)|].
  - inversion T'; subst. rewrite (beg_scal attrs _ _ _ _ _ _ cv H G Ht). cbn [bind]. rewrite handle_app, (texts_run _ _ Hev Fit). cbn [bind handle lvs cval root app].
    unfold endelement, determine. cbn [lvs cval root].
    rewrite <- (app_nil_r (pre ++ [(key, f)])).
    rewrite (descend _ _ _ _ _ _ (focus_put _ _ _ _ _ _ H _) G) by (apply P'; constructor). cbn [set_value bind lvs cval root].
    rewrite app_nil_r, pop_snoc. reflexivity.
  - inversion T' as [| |vs1 ? F1]; subst. inversion G' as [| |? N E Fg]; subst.
    rewrite (beg_obj attrs _ _ _ _ _ _ cv H G Ht). cbn [bind]. rewrite handle_app.
    assert (F2 : Forall2 (fun v m => has_ty v (snd m)) (load_attrs ms1 vs1 attrs) ms1) by (apply load_attrs_ty; auto).
    destruct (Hall t _ _ ms1 (load_attrs ms1 vs1 attrs) plug [] G (P' _ (h_obj _ _ F2)) (focus_put _ _ _ _ _ _ H _) Fit) as [cv' ->].
    cbn [bind handle]. unfold endelement, determine. cbn [lvs cval root].
    assert (F3 : Forall2 (fun v m => has_ty v (snd m)) (fold_left (fun vs n => load n ms1 vs) content (load_attrs ms1 vs1 attrs)) ms1).
    { clear - F2 Fg. revert F2. generalize (load_attrs ms1 vs1 attrs). induction content as [|n content IH]; intros ws F2; cbn [fold_left]; [auto|].
      apply IH. apply load_ty; auto. }
    rewrite <- (app_nil_r (pre ++ [(key, f)])).
    rewrite (descend _ _ _ _ _ _ (focus_put _ _ _ _ _ _ H _) G) by (apply P'; constructor; auto).
    rewrite app_nil_r, set_value_obj, loop_end by (auto; eapply Forall2_len; eauto). cbn [bind lvs cval root]. rewrite pop_snoc. reflexivity.
Qed.

Lemma load_run :
  (forall n evs, events n evs -> forall t v pre ms vs plug cv, good t -> has_ty v t -> focus t v pre (TObj ms) (VObj vs) plug -> fits n ms ->
     exists cv', handle t evs (mkSt pre cv v) = Ok (mkSt pre cv' (plug (VObj (load n ms vs))))) /\
  (forall c evs, all_events c evs -> forall t v pre ms vs plug cv, good t -> has_ty v t -> focus t v pre (TObj ms) (VObj vs) plug -> Forall (fun n => fits n ms) c ->
     exists cv', handle t evs (mkSt pre cv v) = Ok (mkSt pre cv' (plug (VObj (fold_left (fun vs n => load n ms vs) c vs))))).
Proof.
  apply events_mut.
  - intros chunks t v pre ms vs plug cv G Ht H _. rewrite handle_chars. cbn [lvs cval root load]. rewrite (focus_same _ _ _ _ _ _ H). eauto.
  - intros name attrs content evs Hev IH t v pre ms vs plug cv G Ht H Fit. exists [].
    cbn [handle]. change (begelement t name attrs) with (fun s => beg_rest t attrs (push s name)). cbv beta. unfold push. cbn [lvs cval root].
    destruct (focus_ty _ _ _ _ _ _ H Ht) as [T' P']. pose proof (focus_good _ _ _ _ _ _ H G) as G'. pose proof (members_len _ _ T') as Len.
    destruct (member_case ms vs name Len) as [N | (ms1 & t1 & ms2 & vs1 & v1 & vs2 & -> & -> & L)].
    + (* no member *)
      assert (D : dead t v (pre ++ [(name, false)])).
      { intros rest cv1. rewrite <- app_assoc. cbn [app]. rewrite (descend _ _ _ _ _ _ H G Ht), set_value_obj.
        rewrite (loop_miss ms vs _ _ _ name false) by (auto; apply nth_mid). cbn [bind]. rewrite (focus_same _ _ _ _ _ _ H). reflexivity. }
      rewrite dead_beg by auto. cbn [bind]. rewrite handle_app. destruct (proj2 dead_run _ _ Hev t v _ [] D) as [cv' ->]. cbn [bind handle].
      unfold endelement, determine. cbn [lvs cval root]. rewrite <- (app_nil_r (pre ++ [(name, false)])), D. cbn [bind lvs cval root].
      rewrite app_nil_r, pop_snoc. cbn [bind load]. rewrite member_none by auto. rewrite (focus_same _ _ _ _ _ _ H). reflexivity.
    + destruct (has_ty_mid _ _ _ _ _ _ _ L T') as (T1 & L2 & M2). pose proof (good_mid _ _ _ _ G') as (G1 & ND & _).
      cbn [load]. rewrite member_split by auto. fold (body content attrs).
      cbn [fits] in Fit. specialize (Fit t1 ltac:(apply in_or_app; right; left; reflexivity)).
      assert (NLd : not_list t1 \/ exists t2 d, t1 = TList t2 d) by (destruct t1; [left; discriminate | right; eauto | left; discriminate]).
      destruct NLd as [NL | (t2 & d & ->)].
      * rewrite (elem_run t v pre name false t1 v1 (fun x => plug (VObj (vs1 ++ x :: vs2))) attrs content evs); auto.
        -- f_equal. f_equal. f_equal. f_equal. f_equal. destruct t1; try reflexivity. exfalso. exact (NL t1 d eq_refl).
        -- eapply f_member; eauto.
        -- destruct t1 as [|t3 d3|]; cbn [item] in Fit; [auto | exfalso; exact (NL t3 d3 eq_refl) | apply fits_all; exact Fit].
      * inversion T1 as [|l ? ? Fl|]; subst. rewrite (beg_item attrs t v pre ms1 name t2 d ms2 vs1 l vs2 plug cv) by auto.
        destruct (push_item _ _ _ _ _ _ _ _ _ _ _ _ H L G Ht) as [T2 _]. destruct (good_item _ _ G1) as (G2 & N2 & Td).
        rewrite (elem_run t _ pre name true t2 d (fun y => plug (VObj (vs1 ++ VList (l ++ [y]) :: vs2))) attrs content evs); auto.
        -- apply (f_item t _ pre ms1 name t2 d ms2 vs1 l d vs2 plug); [apply (focus_put _ _ _ _ _ _ H) | auto].
        -- destruct t2 as [|t3 d3|]; cbn [item] in Fit; [auto | exfalso; exact (N2 t3 d3 eq_refl) | apply fits_all; exact Fit].
  - intros t v pre ms vs plug cv G Ht H _. exists cv. cbn [handle fold_left]. rewrite (focus_same _ _ _ _ _ _ H). reflexivity.
  - intros x c e evs H1 IH1 H2 IH2 t v pre ms vs plug cv G Ht H F. inversion F; subst. rewrite handle_app.
    destruct (IH1 t v pre ms vs plug cv G Ht H) as [cv1 ->]; [auto|]. cbn [bind fold_left].
    destruct (focus_ty _ _ _ _ _ _ H Ht) as [T' P']. pose proof (focus_good _ _ _ _ _ _ H G) as G'.
    inversion T' as [| |? ? F1]; subst. inversion G' as [| |? N E Fg]; subst.
    apply (IH2 t _ pre ms (load x ms vs) plug); auto.
    + apply P'. constructor. apply load_ty; auto.
    + apply (focus_put _ _ _ _ _ _ H).
Qed.

(** *** every document *)

Inductive ok_at : ty -> val -> levels -> Prop :=
| ok_scal : forall k v rest, ok_at (TScal k) v rest
| ok_end : forall ms v, ok_at (TObj ms) v []
| ok_miss : forall ms v key f rest, ~ In key (map fst ms) -> ok_at (TObj ms) v ((key, f) :: rest)
| ok_member : forall ms1 key t1 ms2 vs1 v1 vs2 f rest, length vs1 = length ms1 -> not_list t1 -> ok_at t1 v1 rest ->
    ok_at (TObj (ms1 ++ (key, t1) :: ms2)) (VObj (vs1 ++ v1 :: vs2)) ((key, f) :: rest)
| ok_item : forall ms1 key t2 d ms2 vs1 l x vs2 rest, length vs1 = length ms1 -> ok_at t2 x rest ->
    ok_at (TObj (ms1 ++ (key, TList t2 d) :: ms2)) (VObj (vs1 ++ VList (l ++ [x]) :: vs2)) ((key, true) :: rest)
| ok_new : forall ms1 key t2 d ms2 vs1 l vs2 rest, length vs1 = length ms1 -> Forall (fun e => snd e = false) rest ->
    ok_at (TObj (ms1 ++ (key, TList t2 d) :: ms2)) (VObj (vs1 ++ VList l :: vs2)) ((key, false) :: rest).

Lemma list_or_not : forall t, not_list t \/ exists t2 d, t = TList t2 d.
Proof. intros [k|t d|ms]; [left; discriminate | right; eauto | left; discriminate]. Qed.

Lemma ok_fresh : forall rest t v, good t -> not_list t -> has_ty v t -> Forall (fun e => snd e = false) rest -> ok_at t v rest.
Proof.
  induction rest as [|[key f] rest IH]; intros t v G N H F; (destruct t as [k|t1 d|ms]; [constructor | exfalso; exact (N _ _ eq_refl) |]); [constructor|].
  inversion F as [|? ? E F']; subst. cbn in E. subst f. inversion H as [| |vs ? Hv]; subst.
  destruct (member_case ms vs key (members_len _ _ H)) as [M | (ms1 & t1 & ms2 & vs1 & v1 & vs2 & -> & -> & L)].
  - constructor. exact M.
  - destruct (has_ty_mid _ _ _ _ _ _ _ L H) as (T1 & _ & _). destruct (good_mid _ _ _ _ G) as (G1 & _ & _).
    destruct (list_or_not t1) as [N1 | (t2 & d & ->)].
    + apply ok_member; auto.
    + inversion T1; subst. apply ok_new; auto.
Qed.

Lemma ok_push : forall t v rest key, ok_at t v rest -> good t -> not_list t -> has_ty v t -> ok_at t v (rest ++ [(key, false)]).
Proof.
  intros t v rest key H. induction H as [k v rest | ms v | ms v key1 f rest M | ms1 key1 t1 ms2 vs1 v1 vs2 f rest L N H IH
    | ms1 key1 t2 d ms2 vs1 l x vs2 rest L H IH | ms1 key1 t2 d ms2 vs1 l vs2 rest L F]; intros G NL T; cbn [app].
  - constructor.
  - apply ok_fresh; auto.
  - constructor; auto.
  - destruct (has_ty_mid _ _ _ _ _ _ _ L T) as (T1 & _ & _). destruct (good_mid _ _ _ _ G) as (G1 & _ & _). apply ok_member; auto.
  - destruct (has_ty_mid _ _ _ _ _ _ _ L T) as (T1 & _ & _). destruct (good_mid _ _ _ _ G) as (G1 & _ & _).
    destruct (good_item _ _ G1) as (G2 & N2 & _). inversion T1 as [|? ? ? Fl|]; subst. apply Forall_app in Fl. destruct Fl as [_ Fx]. inversion Fx; subst.
    apply ok_item; auto.
  - apply ok_new; auto. apply Forall_app. auto.
Qed.
Lemma ok_pop : forall t v r, ok_at t v r -> forall rest x, r = rest ++ [x] -> good t -> not_list t -> ok_at t v rest.
Proof.
  intros t v r H. induction H as [k v rest | ms v | ms v key1 f rest M | ms1 key1 t1 ms2 vs1 v1 vs2 f rest L N H IH
    | ms1 key1 t2 d ms2 vs1 l y vs2 rest L H IH | ms1 key1 t2 d ms2 vs1 l vs2 rest L F]; intros r x E G NL.
  - constructor.
  - destruct r; discriminate.
  - destruct r; injection E as <- E; [constructor|]. constructor. auto.
  - destruct r as [|z r]; injection E as <- E; [constructor|]. destruct (good_mid _ _ _ _ G) as (G1 & _ & _). apply ok_member; eauto.
  - destruct r as [|z r]; injection E as <- E; [constructor|]. destruct (good_mid _ _ _ _ G) as (G1 & _ & _).
    destruct (good_item _ _ G1) as (G2 & N2 & _). apply ok_item; eauto.
  - destruct r as [|z r]; injection E as <- E; [constructor|]. subst rest. apply Forall_app in F. destruct F. apply ok_new; auto.
Qed.

Lemma set_ok : forall rest t v, good t -> not_list t -> has_ty v t -> ok_at t v rest -> forall pre cv,
  exists v' rest', set_value t v (pre ++ rest) (length pre) cv = Ok (v', pre ++ rest') /\ has_ty v' t /\ ok_at t v' rest' /\ length rest' = length rest.
Proof.
  induction rest as [|[key f] rest IH]; intros t v G N T H pre cv.
  - destruct t as [k|t1 d|ms]; [|exfalso; exact (N _ _ eq_refl)|].
    + rewrite app_nil_r, set_at_end by auto. exists (VScal (conv k cv)), []. rewrite app_nil_r. repeat split; constructor.
    + rewrite app_nil_r, set_at_end by auto. exists v, []. rewrite app_nil_r. auto.
  - inversion H as [k v0 rest0 | | ms v0 key1 f1 rest0 M | ms1 key1 t1 ms2 vs1 v1 vs2 f1 rest0 L N1 H1
      | ms1 key1 t2 d ms2 vs1 l x vs2 rest0 L H1 | ms1 key1 t2 d ms2 vs1 l vs2 rest0 L F]; subst.
    + inversion T; subst. exists (VScal (conv k cv)), ((key, f) :: rest). repeat split; constructor.
    + inversion T as [| |vs ? Fv]; subst. rewrite set_value_obj, (loop_miss ms vs _ _ _ key f) by (first [apply nth_mid | eapply Forall2_len; eauto | auto]).
      exists (VObj vs), ((key, f) :: rest). auto.
    + destruct (has_ty_mid _ _ _ _ _ _ _ L T) as (T1 & L2 & M2). destruct (good_mid _ _ _ _ G) as (G1 & ND & _).
      rewrite set_value_obj, (loop_hit ms1 key t1 ms2 vs1 v1 vs2 _ _ _ f) by (auto; apply nth_mid).
      destruct (IH t1 v1 G1 N1 T1 H1 (pre ++ [(key, f)]) cv) as (v' & rest' & E & T' & O' & L').
      rewrite <- !app_assoc in E. cbn [app] in E. rewrite app_length in E. cbn [length] in E. rewrite Nat.add_1_r in E. rewrite E. cbn [bind].
      exists (VObj (vs1 ++ v' :: vs2)), ((key, f) :: rest'). split; [reflexivity|]. split; [auto|]. split; [apply ok_member; auto | cbn; lia].
    + destruct (has_ty_mid _ _ _ _ _ _ _ L T) as (T1 & L2 & M2). destruct (good_mid _ _ _ _ G) as (G1 & ND & _).
      destruct (good_item _ _ G1) as (G2 & N2 & _). inversion T1 as [|? ? ? Fl|]; subst. apply Forall_app in Fl. destruct Fl as [Fl Fx]. inversion Fx as [|? ? Tx _]; subst.
      rewrite set_value_obj, (loop_hit ms1 key (TList t2 d) ms2 vs1 _ vs2 _ _ _ true) by (auto; apply nth_mid).
      cbn [set_value]. rewrite (rd_of_nth _ _ _ _ (nth_mid _ pre (key, true) rest)). cbn [bind]. rewrite rev_app_distr. cbn [rev app].
      destruct (IH t2 x G2 N2 Tx H1 (pre ++ [(key, true)]) cv) as (v' & rest' & E & T' & O' & L').
      rewrite <- !app_assoc in E. cbn [app] in E. rewrite app_length in E. cbn [length] in E. rewrite Nat.add_1_r in E. rewrite E. cbn [bind].
      rewrite rev_involutive. exists (VObj (vs1 ++ VList (l ++ [v']) :: vs2)), ((key, true) :: rest'). split; [reflexivity|].
      split; [apply M2; constructor; apply Forall_app; auto|]. split; [apply ok_item; auto | cbn; lia].
    + destruct (has_ty_mid _ _ _ _ _ _ _ L T) as (T1 & L2 & M2). destruct (good_mid _ _ _ _ G) as (G1 & ND & _).
      destruct (good_item _ _ G1) as (G2 & N2 & Td). inversion T1 as [|? ? ? Fl|]; subst.
      rewrite set_value_obj, (loop_hit ms1 key (TList t2 d) ms2 vs1 _ vs2 _ _ _ false) by (auto; apply nth_mid).
      cbn [set_value]. rewrite (rd_of_nth _ _ _ _ (nth_mid _ pre (key, false) rest)). cbn [bind].
      assert (U : upd (pre ++ (key, false) :: rest) (length pre) (key, true) = pre ++ (key, true) :: rest).
      { clear. induction pre as [|y pre IH]; cbn; [reflexivity|]. f_equal. exact IH. }
      rewrite U, rev_app_distr. cbn [rev app].
      destruct (IH t2 d G2 N2 Td (ok_fresh _ _ _ G2 N2 Td F) (pre ++ [(key, true)]) cv) as (v' & rest' & E & T' & O' & L').
      rewrite <- !app_assoc in E. cbn [app] in E. rewrite app_length in E. cbn [length] in E. rewrite Nat.add_1_r in E. rewrite E. cbn [bind].
      rewrite rev_involutive. exists (VObj (vs1 ++ VList (l ++ [v']) :: vs2)), ((key, true) :: rest'). split; [reflexivity|].
      split; [apply M2; constructor; apply Forall_app; auto|]. split; [apply ok_item; auto | cbn; lia].
Qed.

Definition sound (t : ty) (s : st) (n : nat) : Prop := has_ty (root s) t /\ ok_at t (root s) (lvs s) /\ length (lvs s) = n.
Lemma sound_determine : forall t s n cv, good t -> not_list t -> sound t s n ->
  exists s', determine t (mkSt (lvs s) cv (root s)) = Ok s' /\ sound t s' n.
Proof.
  intros t [lv c v] n cv G N (T & O & L). cbn [lvs root] in *. unfold determine. cbn [lvs cval root].
  destruct (set_ok lv t v G N T O [] cv) as (v' & lv' & E & T' & O' & L'). cbn [app length] in E. rewrite E. cbn [bind].
  exists (mkSt lv' cv v'). split; [reflexivity|]. split; [auto|]. split; [auto|]. cbn. lia.
Qed.
Lemma sound_push : forall t s n key, good t -> not_list t -> sound t s n -> sound t (push s key) (S n).
Proof.
  intros t [lv c v] n key G N (T & O & L). unfold sound, push. cbn [lvs root cval] in *. split; [auto|]. split; [apply ok_push; auto|].
  rewrite app_length. cbn. lia.
Qed.
Lemma sound_pop : forall t s n, good t -> not_list t -> sound t s (S n) -> exists s', pop s = Ok s' /\ sound t s' n.
Proof.
  intros t [lv c v] n G N (T & O & L). cbn [lvs root cval] in *. destruct (rev lv) as [|x r] eqn:R.
  - apply (f_equal (@length _)) in R. rewrite rev_length in R. cbn in R. lia.
  - assert (E : lv = rev r ++ [x]) by (rewrite <- (rev_involutive lv), R; reflexivity).
    subst lv. rewrite pop_snoc. eexists. split; [reflexivity|]. split; [auto|]. split; [eapply ok_pop; eauto|].
    cbn [lvs]. rewrite app_length in L. cbn in L. lia.
Qed.
Lemma sound_attributes : forall attrs t s n, good t -> not_list t -> sound t s n -> exists s', attributes t attrs s = Ok s' /\ sound t s' n.
Proof.
  induction attrs as [|[k a] attrs IH]; intros t s n G N H; cbn [attributes]; [eauto|].
  destruct (sound_determine t _ _ a G N (sound_push _ _ _ k G N H)) as (s1 & -> & H1). cbn [bind].
  destruct (sound_pop _ _ _ G N H1) as (s2 & -> & H2). cbn [bind]. auto.
Qed.
Lemma sound_beg : forall t s n name attrs, good t -> not_list t -> sound t s n -> exists s', begelement t name attrs s = Ok s' /\ sound t s' (S n).
Proof.
  intros t s n name attrs G N H. unfold begelement.
  destruct (sound_attributes attrs t _ _ G N (sound_push _ _ _ name G N H)) as (s1 & -> & H1). cbn [bind].
  destruct (sound_determine t _ _ [] G N (sound_push _ _ _ [] G N H1)) as (s2 & -> & H2). cbn [bind]. apply sound_pop; auto.
Qed.
Lemma sound_end : forall t s n, good t -> not_list t -> sound t s (S n) -> exists s', endelement t s = Ok s' /\ sound t s' n.
Proof.
  intros t s n G N H. unfold endelement. destruct (sound_determine t _ _ (cval s) G N H) as (s1 & E & H1).
  replace (mkSt (lvs s) (cval s) (root s)) with s in E by (destruct s; reflexivity). rewrite E. cbn [bind].
  apply sound_pop; auto.
Qed.
Lemma sound_handle : forall evs t s n, good t -> not_list t -> sound t s n -> nested n evs -> exists s', handle t evs s = Ok s' /\ has_ty (root s') t.
Proof.
  induction evs as [|[name attrs|c|] evs IH]; intros t s n G N H B; cbn [handle nested] in *.
  - exists s. split; [reflexivity | apply H].
  - destruct (sound_beg t s n name attrs G N H) as (s1 & -> & H1). cbn [bind]. eauto.
  - eapply IH; eauto.
  - destruct n as [|n]; [contradiction|]. destruct (sound_end t s n G N H) as (s1 & -> & H1). cbn [bind]. eauto.
Qed.

(** *** conversions *)

Lemma digits_all : forall ds acc, Forall digit ds -> digits acc ds = fold_left (fun n d => n * 10 + (d - 48)) ds acc.
Proof.
  induction ds as [|d ds IH]; intros acc F; [reflexivity|]. inversion F as [|? ? D F']; subst. unfold digit in D. cbn [digits fold_left].
  unfold is_digit. destruct (Z.leb_spec 48 d); [|lia]. destruct (Z.leb_spec d 57); [|lia]. cbn [andb]. auto.
Qed.
Lemma decimal_nonneg : forall ds, Forall digit ds -> 0 <= decimal ds.
Proof.
  unfold decimal. intros ds F. assert (G : forall acc, 0 <= acc -> 0 <= fold_left (fun n d => n * 10 + (d - 48)) ds acc); [|apply G; lia].
  induction F as [|d ds D F IH]; intros acc A; cbn [fold_left]; [lia|]. apply IH. unfold digit in D. lia.
Qed.
Lemma number_integer : forall s n, integer s n -> exists neg a, number s = (neg, a) /\ n = (if neg then - a else a) /\ 0 <= a.
Proof.
  intros s n H. destruct H as [ds NE F | ds NE F].
  - exists false, (decimal ds). unfold number. destruct ds as [|d ds]; [congruence|]. inversion F as [|? ? D F']; subst. unfold digit in D.
    assert (S1 : skip_space (d :: ds) = d :: ds).
    { cbn [skip_space]. unfold is_space. destruct (Z.eqb_spec d 32); [lia|]. destruct (Z.leb_spec d 13); [lia|]. rewrite andb_false_r. reflexivity. }
    rewrite S1. pose proof (decimal_nonneg _ F).
    assert (E : digits 0 (d :: ds) = decimal (d :: ds)) by (apply digits_all; auto).
    assert (Hd : d = 48 \/ d = 49 \/ d = 50 \/ d = 51 \/ d = 52 \/ d = 53 \/ d = 54 \/ d = 55 \/ d = 56 \/ d = 57) by lia.
    split; [|auto]. rewrite <- E. decompose [or] Hd; subst; reflexivity.
  - exists true, (decimal ds). assert (E : number (45 :: ds) = (true, digits 0 ds)) by reflexivity.
    rewrite E, digits_all by auto. split; [reflexivity|]. split; [reflexivity | apply decimal_nonneg; auto].
Qed.
Lemma strtol_integer : forall s n, integer s n -> strtol s = Z.max (- 2 ^ 63) (Z.min (2 ^ 63 - 1) n).
Proof. intros s n H. destruct (number_integer s n H) as (neg & a & E & -> & A). unfold strtol. rewrite E. destruct neg; lia. Qed.
Lemma strtoul_integer : forall s n, integer s n -> 0 <= n -> strtoul s = Z.min (2 ^ 64 - 1) n.
Proof.
  intros s n H P. destruct (number_integer s n H) as (neg & a & E & -> & A). unfold strtoul. rewrite E.
  destruct (Z.ltb_spec (2 ^ 64 - 1) a); [destruct neg; lia|]. destruct neg; [|lia]. assert (a = 0) by lia. subst. reflexivity.
Qed.

Lemma tolower_low : forall c, tolower c = low c. Proof. reflexivity. Qed.
Lemma nocase_spec : forall s w, nocase s w = true <-> exists rest, same_word (s ++ rest) w.
Proof.
  unfold same_word. induction s as [|c s IH]; intros w; cbn [nocase].
  - split; [intros _; exists w; reflexivity | reflexivity].
  - destruct w as [|d w].
    + split; [discriminate|]. intros [rest H]. discriminate.
    + rewrite andb_true_iff, Z.eqb_eq, IH, !tolower_low. split.
      * intros [E [rest H]]. exists rest. cbn [app map]. rewrite E, H. reflexivity.
      * intros [rest H]. cbn in H. injection H as H1 H2. split; [auto | exists rest; auto].
Qed.
