(** Lemmas about string.cpp / easy_parsing.cpp. *)

From Coq Require Import ZArith List Bool Lia Arith.
From Verif Require Import Base Str_Model Str_Spec Str_Proof StrCpp_Model StrCpp_Spec.
Import ListNotations.
Local Open Scope Z_scope.

(** ** Formatted output *)

Lemma uninit_len : forall n, length (uninit n) = Z.to_nat n.
Proof. intros n. apply repeat_length. Qed.

Lemma get_bytes_some : forall t rest, get_bytes (map Some t ++ rest) (length t) = Ok t.
Proof.
  induction t as [|c t IH]; intros rest; [reflexivity|].
  cbn [map app length get_bytes]. rewrite IH. reflexivity.
Qed.
Lemma get_bytes_firstn : forall t k rest,
  get_bytes (map Some (firstn k t) ++ rest) (Nat.min k (length t)) = Ok (firstn k t).
Proof.
  intros t k rest. rewrite <- firstn_length. apply get_bytes_some.
Qed.
Lemma get_cstr_some : forall t rest, nonul t -> get_cstr (map Some t ++ Some 0 :: rest) = Ok t.
Proof.
  induction t as [|c t IH]; intros rest Ht; [reflexivity|].
  inversion Ht as [|? ? Hc Ht']; subst. cbn [map app get_cstr].
  destruct (Z.eqb_spec c 0) as [E|_]; [contradiction|]. rewrite IH by exact Ht'. reflexivity.
Qed.

Lemma vsnprintf_ok : forall buf size t, 0 < size -> Z.of_nat (length t) < 2 ^ 31 ->
  (Z.to_nat size <= length buf)%nat ->
  exists rest, vsnprintf buf size (Some t)
    = Ok (Z.of_nat (length t), map Some (firstn (Z.to_nat (size - 1)) t) ++ Some 0 :: rest).
Proof.
  intros buf size t Hs Ht Hb. unfold vsnprintf.
  destruct (Z.leb_spec (2 ^ 31) (Z.of_nat (length t))); [lia|].
  destruct (Z.leb_spec size 0); [lia|]. cbv zeta.
  destruct (Nat.leb_spec (S (Nat.min (Z.to_nat (size - 1)) (length t))) (length buf)) as [_|H1];
    [|lia].
  eexists. apply ok2; [reflexivity|]. f_equal. f_equal.
  destruct (Nat.le_ge_cases (Z.to_nat (size - 1)) (length t)) as [H1|H1].
  - rewrite Nat.min_l by exact H1. reflexivity.
  - rewrite Nat.min_r by exact H1. rewrite firstn_all. symmetry. apply firstn_all2. exact H1.
Qed.

Lemma two_pass_ok : forall t, Z.of_nat (length t) < 2 ^ 31 - 1 ->
  exists rest, two_pass (Some t) = Ok (Z.of_nat (length t), map Some t ++ Some 0 :: rest).
Proof.
  intros t Ht. unfold two_pass.
  destruct (vsnprintf_ok (uninit BUFSZ) BUFSZ t) as [rest E];
    [reflexivity|lia|rewrite uninit_len; apply le_n|].
  rewrite E. cbn [bind]. clear E.
  destruct (Z.leb_spec BUFSZ (Z.of_nat (length t))) as [H|H].
  - destruct (Z.eqb_spec (Z.of_nat (length t) + 1) (2 ^ 31)) as [E|_]; [lia|].
    destruct (vsnprintf_ok (uninit (Z.of_nat (length t) + 1)) (Z.of_nat (length t) + 1) t)
      as [rest' E]; [lia|lia|rewrite uninit_len; apply le_n|].
    rewrite E. cbn [bind]. exists rest'. apply ok2; [reflexivity|].
    rewrite firstn_all2 by lia. reflexivity.
  - exists rest. rewrite firstn_all2 by lia. reflexivity.
Qed.

Lemma strappend_ok : forall out t, Z.of_nat (length t) < 2 ^ 31 - 1 ->
  strappend out (Some t) = Ok (Z.of_nat (length t), out ++ t).
Proof.
  intros out t Ht. unfold strappend. destruct (two_pass_ok t Ht) as [rest E].
  rewrite E. cbn [bind]. unfold append_bytes.
  destruct (Z.ltb_spec (Z.of_nat (length t)) 0); [lia|].
  rewrite Nat2Z.id, get_bytes_some. reflexivity.
Qed.
Lemma strprintf_ok : forall t, Z.of_nat (length t) < 2 ^ 31 - 1 -> nonul t ->
  strprintf (Some t) = Ok t.
Proof.
  intros t Ht Hn. unfold strprintf. destruct (two_pass_ok t Ht) as [rest E].
  rewrite E. cbn [bind]. apply get_cstr_some. exact Hn.
Qed.

Lemma int32_small : forall v, 0 <= v < 2 ^ 31 -> int32 v = v.
Proof.
  intros v H. unfold int32. rewrite Z.mod_small by lia.
  destruct (Z.ltb_spec v (2 ^ 31)); [reflexivity|lia].
Qed.

Lemma nformat_ok : forall num t, 0 <= num < 2 ^ 31 -> Z.of_nat (length t) < 2 ^ 31 ->
  exists rest, nformat num (Some t)
    = Ok (Z.min num (Z.of_nat (length t)), map Some (firstn (Z.to_nat num) t) ++ rest).
Proof.
  intros num t Hn Ht. unfold nformat.
  assert (H : exists rest,
    (if num <? BUFSZ then vsnprintf (uninit BUFSZ) (num + 1) (Some t)
     else vsnprintf (uninit (num + 1)) (num + 1) (Some t))
    = Ok (Z.of_nat (length t), map Some (firstn (Z.to_nat num) t) ++ rest)).
  { destruct (Z.ltb_spec num BUFSZ) as [H|H].
    - destruct (vsnprintf_ok (uninit BUFSZ) (num + 1) t) as [rest E];
        [lia|lia|rewrite uninit_len; unfold BUFSZ in *; lia|].
      rewrite E. eexists. apply ok2; [reflexivity|].
      replace (num + 1 - 1) with num by lia. reflexivity.
    - destruct (vsnprintf_ok (uninit (num + 1)) (num + 1) t) as [rest E];
        [lia|lia|rewrite uninit_len; lia|].
      rewrite E. eexists. apply ok2; [reflexivity|].
      replace (num + 1 - 1) with num by lia. reflexivity. }
  destruct H as [rest E]. rewrite E. cbn [bind]. exists rest.
  rewrite int32_small by lia. apply ok2; [|reflexivity].
  destruct (Z.ltb_spec num (Z.of_nat (length t))); lia.
Qed.

Lemma min_to_nat : forall num n, 0 <= num ->
  Z.to_nat (Z.min num (Z.of_nat n)) = Nat.min (Z.to_nat num) n.
Proof. intros. lia. Qed.

Lemma strnappend_ok : forall out num t, 0 <= num < 2 ^ 31 -> Z.of_nat (length t) < 2 ^ 31 ->
  strnappend out num (Some t)
  = Ok (Z.min num (Z.of_nat (length t)), out ++ firstn (Z.to_nat num) t).
Proof.
  intros out num t Hn Ht. unfold strnappend. destruct (nformat_ok num t Hn Ht) as [rest E].
  rewrite E. cbn [bind]. unfold append_bytes.
  destruct (Z.ltb_spec (Z.min num (Z.of_nat (length t))) 0); [lia|].
  rewrite min_to_nat by lia. rewrite get_bytes_firstn. reflexivity.
Qed.

Lemma strnprintf_ok : forall out pos num t, 0 <= num < 2 ^ 31 -> Z.of_nat (length t) < 2 ^ 31 ->
  (pos <= length out)%nat ->
  strnprintf out pos num (Some t)
  = Ok (Z.min num (Z.of_nat (length t)),
        firstn pos out ++ firstn (Z.to_nat num) t ++ skipn pos out).
Proof.
  intros out pos num t Hn Ht Hp. unfold strnprintf.
  destruct (Nat.ltb_spec (length out) pos); [lia|].
  destruct (nformat_ok num t Hn Ht) as [rest E].
  rewrite E. cbn [bind]. unfold insert_bytes.
  destruct (Z.ltb_spec (Z.min num (Z.of_nat (length t))) 0); [lia|].
  rewrite min_to_nat by lia. rewrite get_bytes_firstn. reflexivity.
Qed.

(** a num of 2^31 .. 2^32-1 is a negative int: the exception *)
Lemma strnappend_huge : forall out num t, 2 ^ 31 <= num < 2 ^ 32 -> Z.of_nat (length t) < 2 ^ 31 ->
  strnappend out num (Some t) = Ub Throws.
Proof.
  intros out num t Hn Ht. unfold strnappend, nformat.
  assert (Hb : num <? BUFSZ = false) by (apply Z.ltb_ge; unfold BUFSZ; lia).
  rewrite Hb.
  destruct (vsnprintf_ok (uninit (num + 1)) (num + 1) t) as [rest E];
    [lia|lia|rewrite uninit_len; lia|].
  rewrite E. cbn [bind].
  assert (Hi : int32 num = num - 2 ^ 32).
  { unfold int32. rewrite Z.mod_small by lia.
    destruct (Z.ltb_spec num (2 ^ 31)); [lia|reflexivity]. }
  rewrite Hi. destruct (Z.ltb_spec (num - 2 ^ 32) (Z.of_nat (length t))); [|lia].
  unfold append_bytes. destruct (Z.ltb_spec (num - 2 ^ 32) 0); [reflexivity|lia].
Qed.

(** ** Splitting *)

Lemma strchr_ok : forall d junk c, nonul d ->
  match strchr (d ++ 0 :: junk) c with
  | Ok (Some k) => In c d \/ c = 0
  | Ok None => ~ In c d /\ c <> 0
  | _ => False
  end.
Proof.
  induction d as [|x d IH]; intros junk c Hd; cbn [app strchr].
  - destruct (Z.eqb_spec 0 c) as [<-|H]; [right; reflexivity|].
    rewrite Z.eqb_refl. split; [intros []|congruence].
  - inversion Hd as [|? ? Hx Hd']; subst. destruct (Z.eqb_spec x c) as [->|H].
    + left. left. reflexivity.
    + destruct (Z.eqb_spec x 0) as [E|_]; [contradiction|].
      specialize (IH junk c Hd'). destruct (strchr (d ++ 0 :: junk) c) as [[k|]| |]; cbn; try exact IH.
      * destruct IH as [H1|H1]; [left; right; exact H1|right; exact H1].
      * destruct IH as [H1 H2]. split; [|exact H2]. intros [H3|H3]; [congruence|contradiction].
Qed.

Lemma strchr_none : forall d junk c, nonul d -> ~ In c d -> c <> 0 ->
  strchr (d ++ 0 :: junk) c = Ok None.
Proof.
  intros d junk c Hd Hn H0. pose proof (strchr_ok d junk c Hd) as H.
  destruct (strchr (d ++ 0 :: junk) c) as [[k|]| |]; try contradiction; [|reflexivity].
  destruct H as [H|H]; contradiction.
Qed.
Lemma strchr_first : forall a c rest, nonul a -> ~ In c a -> c <> 0 ->
  strchr (a ++ c :: rest) c = Ok (Some (length a)).
Proof.
  induction a as [|x a IH]; intros c rest Ha Hn H0; cbn [app strchr length].
  - rewrite Z.eqb_refl. reflexivity.
  - inversion Ha as [|? ? Hx Ha']; subst. destruct (Z.eqb_spec x c) as [->|H].
    + destruct Hn. left. reflexivity.
    + destruct (Z.eqb_spec x 0) as [E|_]; [contradiction|].
      rewrite IH; [reflexivity|exact Ha'|intros H1; apply Hn; right; exact H1|exact H0].
Qed.

Lemma cstr_ok : forall s junk, nonul s -> cstr (s ++ 0 :: junk) = Ok s.
Proof.
  induction s as [|x s IH]; intros junk Hs; cbn [app cstr]; [reflexivity|].
  inversion Hs as [|? ? Hx Hs']; subst.
  destruct (Z.eqb_spec x 0) as [E|_]; [contradiction|]. rewrite IH by exact Hs'. reflexivity.
Qed.

Lemma list_eqb_spec : forall a b, reflect (a = b) (list_eqb a b).
Proof.
  induction a as [|x a IH]; intros [|y b]; cbn [list_eqb];
    try (constructor; congruence).
  destruct (Z.eqb_spec x y) as [->|H]; cbn [andb]; [|constructor; congruence].
  destruct (IH b) as [->|H]; constructor; congruence.
Qed.

Lemma set_insert_in : forall (A : Type) (eqb : A -> A -> bool) (x : A) l,
  (forall a b, reflect (a = b) (eqb a b)) ->
  forall y, In y (set_insert eqb x l) <-> y = x \/ In y l.
Proof.
  intros A eqb x l Heq y. unfold set_insert. destruct (existsb (eqb x) l) eqn:E.
  - apply existsb_exists in E. destruct E as [z [Hz E]].
    destruct (Heq x z) as [->|]; [|discriminate]. split; [tauto|].
    intros [->|H]; assumption.
  - split; [intros [->|H]; tauto|intros [->|H]; [left; reflexivity|right; exact H]].
Qed.

Lemma splits_length : forall D s ps, splits D s ps -> (length ps <= S (length s))%nat.
Proof.
  induction 1 as [s H|a d s ps Ha Hd Hs IH]; cbn [length]; [lia|].
  rewrite app_length. cbn [length]. lia.
Qed.

(** every list has its split *)
Lemma splits_exists : forall (D : Z -> Prop) (Ddec : forall c, {D c} + {~ D c}) s,
  exists ps, splits D s ps.
Proof.
  intros D Ddec s. induction s as [|c s [ps H]].
  - exists [[]]. constructor. constructor.
  - destruct (Ddec c) as [Hc|Hc].
    + exists ([] :: ps). apply (splits_more D [] c s ps); [constructor|exact Hc|exact H].
    + inversion H as [s' Hs|a d s' ps' Ha Hd Hs]; subst.
      * exists [c :: s]. constructor. constructor; assumption.
      * exists ((c :: a) :: ps'). apply (splits_more D (c :: a) d s' ps');
          [constructor; assumption|exact Hd|exact Hs].
Qed.

Lemma splits_unique : forall D s ps, splits D s ps -> forall ps', splits D s ps' -> ps = ps'.
Proof.
  assert (Hcut : forall (D : Z -> Prop) a d s a' d' s',
    Forall (fun c => ~ D c) a -> D d -> Forall (fun c => ~ D c) a' -> D d' ->
    a ++ d :: s = a' ++ d' :: s' -> a = a' /\ s = s').
  { intros D. induction a as [|x a IH]; intros d s [|x' a'] d' s' Ha Hd Ha' Hd' E; cbn in E.
    - injection E as -> ->. split; reflexivity.
    - injection E as -> ->. inversion Ha'; contradiction.
    - injection E as -> <-. inversion Ha; contradiction.
    - injection E as -> E. inversion Ha; inversion Ha'; subst.
      destruct (IH d s a' d' s') as [-> ->]; try assumption. split; reflexivity. }
  induction 1 as [s Hs|a d s ps Ha Hd Hs IH]; intros ps' H'.
  - inversion H' as [s' Hs'|a' d' s' ps'' Ha' Hd' Hs']; subst; [reflexivity|].
    apply Forall_app in Hs. destruct Hs as [_ Hs]. inversion Hs; contradiction.
  - inversion H' as [s' Hs'|a' d' s' ps'' Ha' Hd' Hs' E]; subst.
    + apply Forall_app in Hs'. destruct Hs' as [_ Hs']. inversion Hs'; contradiction.
    + destruct (Hcut D a' d' s' a d s Ha' Hd' Ha Hd E) as [-> ->].
      f_equal. apply IH. exact Hs'.
Qed.

Lemma nonul_app : forall a b, nonul (a ++ b) <-> nonul a /\ nonul b.
Proof. intros a b. apply Forall_app. Qed.

Lemma not_in_forall : forall (a : list Z) c, Forall (fun x => ~ x = c) a -> ~ In c a.
Proof. intros a c H Hin. rewrite Forall_forall in H. exact (H c Hin eq_refl). Qed.

Lemma skipn_cut : forall (A : Type) (a : list A) x b, skipn (S (length a)) (a ++ x :: b) = b.
Proof.
  intros A a x b. rewrite skipn_app_ge by lia.
  replace (S (length a) - length a)%nat with 1%nat by lia. reflexivity.
Qed.
Lemma firstn_cut : forall (A : Type) (a b : list A), firstn (length a) (a ++ b) = a.
Proof. intros A a b. rewrite firstn_app_le by lia. apply firstn_all. Qed.

Lemma stringset_loop_ok : forall s ps, splits (fun c => c = 44) s ps -> nonul s ->
  forall fuel junk init, (length ps <= fuel)%nat ->
  exists r, stringset_loop fuel (s ++ 0 :: junk) init = Ok r /\
    forall x, In x r <-> In x init \/ In x ps.
Proof.
  induction 1 as [s Hs|a d s ps Ha Hd Hs IH]; intros Hn fuel junk init Hf;
    (destruct fuel as [|fuel]; [cbn [length] in Hf; lia|]); cbn [stringset_loop].
  - rewrite strchr_none; [|exact Hn|apply not_in_forall; exact Hs|discriminate].
    cbn [bind]. rewrite cstr_ok by exact Hn. cbn [bind].
    eexists. split; [reflexivity|]. intros x. rewrite set_insert_in by exact list_eqb_spec.
    cbn [In]. intuition congruence.
  - subst d. apply nonul_app in Hn. destruct Hn as [Hna Hns].
    inversion Hns as [|? ? _ Hns']; subst.
    rewrite <- app_assoc. cbn [app].
    rewrite strchr_first; [|exact Hna|apply not_in_forall; exact Ha|discriminate].
    cbn [bind]. rewrite skipn_cut, firstn_cut.
    cbn [length] in Hf.
    destruct (IH Hns' fuel junk (set_insert list_eqb a init) ltac:(lia)) as [r [E Hr]].
    exists r. split; [exact E|]. intros x. rewrite Hr, set_insert_in by exact list_eqb_spec.
    cbn [In]. intuition congruence.
Qed.

(** *** scanf *)

Lemma isspace_iff : forall c, isspace c = true <-> space c.
Proof.
  intros c. unfold isspace, space. rewrite orb_true_iff, andb_true_iff, Z.eqb_eq, !Z.leb_le. tauto.
Qed.
Lemma isdigit_iff : forall c, isdigit c = true <-> digit c.
Proof. intros c. unfold isdigit, digit. rewrite andb_true_iff, !Z.leb_le. tauto. Qed.

Lemma skip_space_ok : forall ws c t, Forall space ws -> ~ space c ->
  skip_space (ws ++ c :: t) = Ok (c :: t).
Proof.
  induction ws as [|x ws IH]; intros c t Hw Hc; cbn [app skip_space].
  - destruct (isspace c) eqn:E; [apply isspace_iff in E; contradiction|reflexivity].
  - inversion Hw as [|? ? Hx Hw']; subst. apply isspace_iff in Hx. rewrite Hx. apply IH; assumption.
Qed.

Lemma scan_digits_ok : forall ds c t acc any, Forall digit ds -> ~ digit c ->
  scan_digits (ds ++ c :: t) acc any
  = Ok (if any || negb (match ds with [] => true | _ => false end)
        then Some (acc * 10 ^ Z.of_nat (length ds) + decimal ds) else None).
Proof.
  induction ds as [|x ds IH]; intros c t acc any Hd Hc; cbn [app scan_digits].
  - destruct (isdigit c) eqn:E; [apply isdigit_iff in E; contradiction|].
    cbn [length decimal]. change (10 ^ Z.of_nat 0) with 1. rewrite orb_false_r.
    destruct any; [|reflexivity]. do 2 f_equal. lia.
  - inversion Hd as [|? ? Hx Hd']; subst. apply isdigit_iff in Hx. rewrite Hx.
    rewrite IH by assumption. cbn [orb]. rewrite orb_true_r. f_equal. f_equal.
    cbn [decimal length]. rewrite Nat2Z.inj_succ, Z.pow_succ_r by lia. ring.
Qed.

(** cut a list at the first element not satisfying a decidable property *)
Lemma cut_while : forall (P : Z -> Prop) (Pdec : forall c, {P c} + {~ P c}) s,
  exists a b, s = a ++ b /\ Forall P a /\ (forall c t, b = c :: t -> ~ P c).
Proof.
  intros P Pdec s. induction s as [|c s [a [b [E [Ha Hb]]]]].
  - exists [], []. split; [reflexivity|]. split; [constructor|intros; discriminate].
  - destruct (Pdec c) as [Hc|Hc].
    + exists (c :: a), b. split; [cbn; congruence|]. split; [constructor; assumption|exact Hb].
    + exists [], (c :: s). split; [reflexivity|]. split; [constructor|].
      intros c' t' E'. injection E' as <- <-. exact Hc.
Qed.

Lemma space_dec : forall c, {space c} + {~ space c}.
Proof.
  intros c. destruct (isspace c) eqn:E; [left|right]; rewrite <- isspace_iff; congruence.
Qed.
Lemma digit_dec : forall c, {digit c} + {~ digit c}.
Proof.
  intros c. destruct (isdigit c) eqn:E; [left|right]; rewrite <- isdigit_iff; congruence.
Qed.

(** a byte that ends a field *)
Definition stop (c : Z) : Prop := c = 44 \/ c = 0.

Lemma sscanf_reads : forall f v, reads_number f v -> forall c t, stop c ->
  sscanf_lu (f ++ c :: t) = Ok (Some v).
Proof.
  intros f v H c t Hstop. inversion H as [ws sign ds rest Hws Hsign Hne Hds Hrest]; subst.
  assert (Hx : exists x y, rest ++ c :: t = x :: y /\ ~ digit x).
  { destruct rest as [|x rest].
    - exists c, t. split; [reflexivity|]. unfold digit. destruct Hstop; lia.
    - exists x, (rest ++ c :: t). split; [reflexivity|]. apply (Hrest x rest eq_refl). }
  destruct Hx as [x [y [Ey Hx]]].
  destruct ds as [|d0 ds]; [congruence|].
  inversion Hds as [|? ? Hd0 Hds']; subst.
  unfold sscanf_lu. rewrite <- !app_assoc. rewrite Ey.
  destruct Hsign as [->|[->| ->]].
  - cbn [app]. rewrite skip_space_ok; [|exact Hws|unfold space, digit in *; lia].
    cbn [bind deref].
    destruct (Z.eqb_spec d0 43) as [E|_]; [unfold digit in Hd0; lia|].
    destruct (Z.eqb_spec d0 45) as [E|_]; [unfold digit in Hd0; lia|]. cbn [orb].
    pose proof (scan_digits_ok (d0 :: ds) x y 0 false Hds Hx) as Hs. cbn [app] in Hs.
    rewrite Hs. cbn [bind orb negb option_map]. rewrite Z.mul_0_l, Z.add_0_l. reflexivity.
  - cbn [app]. rewrite skip_space_ok; [|exact Hws|unfold space; lia]. cbn [bind deref].
    change (43 =? 43) with true. change (43 =? 45) with false. cbn [orb tl].
    pose proof (scan_digits_ok (d0 :: ds) x y 0 false Hds Hx) as Hs. cbn [app] in Hs.
    rewrite Hs. cbn [bind orb negb option_map]. rewrite Z.mul_0_l, Z.add_0_l. reflexivity.
  - cbn [app]. rewrite skip_space_ok; [|exact Hws|unfold space; lia]. cbn [bind deref].
    change (45 =? 43) with false. change (45 =? 45) with true. cbn [orb tl].
    pose proof (scan_digits_ok (d0 :: ds) x y 0 false Hds Hx) as Hs. cbn [app] in Hs.
    rewrite Hs. cbn [bind orb negb option_map]. rewrite Z.mul_0_l, Z.add_0_l. reflexivity.
Qed.

Lemma sscanf_total : forall f c t, stop c ->
  (exists v, reads_number f v) \/ sscanf_lu (f ++ c :: t) = Ok None.
Proof.
  intros f c t Hstop.
  destruct (cut_while space space_dec f) as [ws [f1 [-> [Hws Hf1]]]].
  assert (Hsign : exists sign f2, f1 = sign ++ f2 /\
            ((sign = [] /\ forall x y, f2 = x :: y -> x <> 43 /\ x <> 45) \/
             sign = [43] \/ sign = [45])).
  { destruct f1 as [|x f1].
    - exists [], []. split; [reflexivity|]. left. split; [reflexivity|intros; discriminate].
    - destruct (Z.eq_dec x 43) as [->|H1];
        [exists [43], f1; split; [reflexivity|right; left; reflexivity]|].
      destruct (Z.eq_dec x 45) as [->|H2];
        [exists [45], f1; split; [reflexivity|right; right; reflexivity]|].
      exists [], (x :: f1). split; [reflexivity|]. left. split; [reflexivity|].
      intros x' y' E. injection E as <- <-. split; assumption. }
  destruct Hsign as [sign [f2 [-> Hsign]]].
  destruct (cut_while digit digit_dec f2) as [ds [rest [-> [Hds Hrest]]]].
  destruct ds as [|d0 ds].
  - right. cbn [app] in *. unfold sscanf_lu. rewrite <- !app_assoc.
    assert (Hx : exists x y, rest ++ c :: t = x :: y /\ ~ digit x).
    { destruct rest as [|x rest].
      - exists c, t. split; [reflexivity|]. unfold digit. destruct Hstop; lia.
      - exists x, (rest ++ c :: t). split; [reflexivity|]. apply (Hrest x rest eq_refl). }
    destruct Hx as [x [y [Ey Hx]]]. rewrite Ey.
    pose proof (scan_digits_ok [] x y 0 false ltac:(constructor) Hx) as Hs. cbn [app] in Hs.
    destruct Hsign as [[-> Hns]|[->| ->]]; cbn [app] in *.
    + assert (Hxs : ~ space x /\ x <> 43 /\ x <> 45).
      { destruct rest as [|r rest]; cbn [app] in Ey; injection Ey as <- <-.
        - unfold space. destruct Hstop; lia.
        - split; [apply (Hf1 r rest eq_refl)|apply (Hns r rest eq_refl)]. }
      rewrite skip_space_ok; [|exact Hws|tauto]. cbn [bind deref].
      destruct (Z.eqb_spec x 43) as [E|_]; [tauto|]. destruct (Z.eqb_spec x 45) as [E|_]; [tauto|].
      cbn [orb]. rewrite Hs. reflexivity.
    + rewrite skip_space_ok; [|exact Hws|unfold space; lia]. cbn [bind deref].
      change (43 =? 43) with true. cbn [orb tl]. rewrite Hs. reflexivity.
    + rewrite skip_space_ok; [|exact Hws|unfold space; lia]. cbn [bind deref].
      change (45 =? 43) with false. change (45 =? 45) with true. cbn [orb tl].
      rewrite Hs. reflexivity.
  - left. eexists. apply reads; try eassumption; [|discriminate].
    tauto.
Qed.

Lemma reads_fun : forall f v v', reads_number f v -> reads_number f v' -> v = v'.
Proof.
  intros f v v' H H'.
  pose proof (sscanf_reads f v H 0 [] (or_intror eq_refl)) as E.
  pose proof (sscanf_reads f v' H' 0 [] (or_intror eq_refl)) as E'. congruence.
Qed.

Lemma uint64set_loop_ok : forall s ps, splits (fun c => c = 44) s ps -> nonul s ->
  (forall f, In f ps -> exists v, reads_number f v) ->
  forall fuel junk init, (length ps <= fuel)%nat ->
  exists r, uint64set_loop fuel (s ++ 0 :: junk) init = Ok r /\
    forall x, In x r <-> In x init \/ exists f, In f ps /\ reads_number f x.
Proof.
  induction 1 as [s Hs|a d s ps Ha Hd Hs IH]; intros Hn Hp fuel junk init Hf;
    (destruct fuel as [|fuel]; [cbn [length] in Hf; lia|]); cbn [uint64set_loop].
  - destruct (Hp s (or_introl eq_refl)) as [v Hv].
    rewrite (sscanf_reads s v Hv 0 junk (or_intror eq_refl)). cbn [bind]. cbv zeta.
    rewrite strchr_none; [|exact Hn|apply not_in_forall; exact Hs|discriminate].
    cbn [bind]. eexists. split; [reflexivity|]. intros x.
    rewrite set_insert_in by exact Z.eqb_spec. split.
    + intros [->|H]; [right; exists s; split; [left; reflexivity|exact Hv]|left; exact H].
    + intros [H|[f [[<-|[]] Hx]]]; [right; exact H|left; exact (reads_fun _ _ _ Hx Hv)].
  - subst d. apply nonul_app in Hn. destruct Hn as [Hna Hns].
    inversion Hns as [|? ? _ Hns']; subst.
    rewrite <- app_assoc. cbn [app].
    destruct (Hp a (or_introl eq_refl)) as [v Hv].
    rewrite (sscanf_reads a v Hv 44 _ (or_introl eq_refl)). cbn [bind]. cbv zeta.
    rewrite strchr_first; [|exact Hna|apply not_in_forall; exact Ha|discriminate].
    cbn [bind]. rewrite skipn_cut.
    cbn [length] in Hf.
    destruct (IH Hns' ltac:(intros f Hin; apply Hp; right; exact Hin) fuel junk
                 (set_insert Z.eqb v init) ltac:(lia)) as [r [E Hr]].
    exists r. split; [exact E|]. intros x. rewrite Hr, set_insert_in by exact Z.eqb_spec. split.
    + intros [[->|H]|[f [Hin Hx]]].
      * right. exists a. split; [left; reflexivity|exact Hv].
      * left. exact H.
      * right. exists f. split; [right; exact Hin|exact Hx].
    + intros [H|[f [[<-|Hin] Hx]]].
      * left. right. exact H.
      * left. left. exact (reads_fun _ _ _ Hx Hv).
      * right. exists f. split; assumption.
Qed.

Lemma uint64set_loop_bad : forall s ps, splits (fun c => c = 44) s ps -> nonul s ->
  (exists f, In f ps /\ forall v, ~ reads_number f v) ->
  forall fuel junk init, (length ps <= fuel)%nat ->
  uint64set_loop fuel (s ++ 0 :: junk) init = Ub Uninit.
Proof.
  induction 1 as [s Hs|a d s ps Ha Hd Hs IH]; intros Hn [f [Hin Hf0]] fuel junk init Hf;
    (destruct fuel as [|fuel]; [cbn [length] in Hf; lia|]); cbn [uint64set_loop].
  - destruct Hin as [<-|[]].
    destruct (sscanf_total s 0 junk (or_intror eq_refl)) as [[v Hv]|E]; [destruct (Hf0 v Hv)|].
    rewrite E. reflexivity.
  - subst d. apply nonul_app in Hn. destruct Hn as [Hna Hns].
    inversion Hns as [|? ? _ Hns']; subst.
    rewrite <- app_assoc. cbn [app].
    destruct (sscanf_total a 44 (s ++ 0 :: junk) (or_introl eq_refl)) as [[v Hv]|E].
    + rewrite (sscanf_reads a v Hv 44 _ (or_introl eq_refl)). cbn [bind]. cbv zeta.
      rewrite strchr_first; [|exact Hna|apply not_in_forall; exact Ha|discriminate].
      cbn [bind]. rewrite skipn_cut. cbn [length] in Hf.
      destruct Hin as [<-|Hin]; [destruct (Hf0 v Hv)|].
      apply IH; [exact Hns'|exists f; split; assumption|lia].
    + rewrite E. reflexivity.
Qed.

(** *** split_string *)

Definition keep (ign : bool) (ps : list (list Z)) : list (list Z) :=
  if ign then filter nonempty ps else ps.

Lemma push_piece_ok : forall pre a rest ign result,
  push_piece (pre ++ a ++ rest) (length pre) (length pre + length a) ign result
  = result ++ keep ign [a].
Proof.
  intros pre a rest ign result. unfold push_piece, substr.
  replace (length pre + length a - length pre)%nat with (length a) by lia.
  rewrite skipn_app_ge by lia. rewrite Nat.sub_diag. cbn [skipn]. rewrite firstn_cut.
  destruct a as [|x a].
  - cbn [length]. rewrite Nat.add_0_r.
    destruct (Nat.ltb_spec (length pre) (length pre)); [lia|].
    destruct ign; cbn [orb negb keep filter nonempty]; [rewrite app_nil_r|]; reflexivity.
  - destruct (Nat.ltb_spec (length pre) (length pre + length (x :: a))) as [_|H];
      [|cbn [length] in H; lia].
    cbn [orb]. destruct ign; reflexivity.
Qed.

Lemma keep_cons : forall ign a ps, keep ign (a :: ps) = keep ign [a] ++ keep ign ps.
Proof. intros [|] a ps; cbn [keep filter]; [destruct (nonempty a)|]; reflexivity. Qed.

(** scanning a piece without delimiters *)
Lemma split_loop_ok : forall d dj s ps, splits (fun c => In c d) s ps -> nonul d -> nonul s ->
  forall pre junk ign result,
  split_loop (pre ++ s ++ 0 :: junk) (s ++ 0 :: junk) (length pre) (length pre)
     (d ++ 0 :: dj) ign result = Ok (result ++ keep ign ps).
Proof.
  intros d dj.
  assert (Hskip : forall b a pre rest ign result, Forall (fun c => ~ In c d) b -> nonul d -> nonul b ->
    split_loop (pre ++ a ++ b ++ rest) (b ++ rest) (length pre + length a) (length pre)
      (d ++ 0 :: dj) ign result
    = split_loop (pre ++ a ++ b ++ rest) rest (length pre + length (a ++ b)) (length pre)
      (d ++ 0 :: dj) ign result).
  { induction b as [|c b IH]; intros a pre rest ign result Hb Hd Hnb.
    - rewrite app_nil_r. reflexivity.
    - inversion Hb as [|? ? Hc Hb']; subst. inversion Hnb as [|? ? Hc0 Hnb']; subst.
      cbn [app split_loop]. destruct (Z.eqb_spec c 0) as [E|_]; [contradiction|].
      rewrite strchr_none by assumption. cbn [bind].
      specialize (IH (a ++ [c]) pre rest ign result Hb' Hd Hnb').
      rewrite <- !app_assoc in IH. cbn [app] in IH.
      rewrite (app_length a [c]) in IH. cbn [length] in IH.
      replace (length pre + (length a + 1))%nat with (S (length pre + length a)) in IH by lia.
      exact IH. }
  induction 1 as [s Hs|a x s ps Ha Hx Hs IH]; intros Hd Hn pre junk ign result.
  - pose proof (Hskip s [] pre (0 :: junk) ign result Hs Hd Hn) as E.
    cbn [app length] in E. rewrite Nat.add_0_r in E. rewrite E. cbn [split_loop Z.eqb].
    rewrite push_piece_ok. reflexivity.
  - apply nonul_app in Hn. destruct Hn as [Hna Hns].
    inversion Hns as [|? ? Hx0 Hns']; subst.
    rewrite <- app_assoc. cbn [app].
    pose proof (Hskip a [] pre (x :: s ++ 0 :: junk) ign result Ha Hd Hna) as E.
    cbn [app length] in E. rewrite Nat.add_0_r in E. rewrite E. cbn [split_loop].
    destruct (Z.eqb_spec x 0) as [E0|_]; [contradiction|].
    pose proof (strchr_ok d dj x Hd) as Hc.
    destruct (strchr (d ++ 0 :: dj) x) as [[k|]| |]; try contradiction; [|destruct Hc; contradiction].
    cbn [bind]. rewrite push_piece_ok.
    specialize (IH Hd Hns' (pre ++ a ++ [x]) junk ign (result ++ keep ign [a])).
    rewrite !app_length in IH. cbn [length] in IH.
    replace (length pre + (length a + 1))%nat with (S (length pre + length a)) in IH by lia.
    rewrite <- !app_assoc in IH. cbn [app] in IH. rewrite IH.
    rewrite (keep_cons ign a ps). reflexivity.
Qed.

Lemma splitn_loop_ok : forall d dj s ps, splits (fun c => In c d \/ c = 0) s ps -> nonul d ->
  forall pre ign result,
  splitn_loop (pre ++ s) (length s) (length pre) (length pre) (d ++ 0 :: dj) ign result
  = Ok (result ++ keep ign ps).
Proof.
  intros d dj.
  assert (Hskip : forall b a pre rest n ign result, Forall (fun c => ~ (In c d \/ c = 0)) b -> nonul d ->
    splitn_loop (pre ++ a ++ b ++ rest) (length b + n) (length pre + length a) (length pre)
      (d ++ 0 :: dj) ign result
    = splitn_loop (pre ++ a ++ b ++ rest) n (length pre + length (a ++ b)) (length pre)
      (d ++ 0 :: dj) ign result).
  { induction b as [|c b IH]; intros a pre rest n ign result Hb Hd.
    - rewrite app_nil_r. reflexivity.
    - inversion Hb as [|? ? Hc Hb']; subst.
      cbn [app length Nat.add splitn_loop].
      rewrite (app_assoc pre a), (rd_app _ (pre ++ a)) by (rewrite app_length; reflexivity).
      rewrite <- (app_assoc pre a). cbn [bind].
      rewrite strchr_none by tauto. cbn [bind].
      specialize (IH (a ++ [c]) pre rest n ign result Hb' Hd).
      rewrite <- !app_assoc in IH. cbn [app] in IH.
      rewrite (app_length a [c]) in IH. cbn [length] in IH.
      replace (length pre + (length a + 1))%nat with (S (length pre + length a)) in IH by lia.
      exact IH. }
  induction 1 as [s Hs|a x s ps Ha Hx Hs IH]; intros Hd pre ign result.
  - pose proof (Hskip s [] pre [] 0%nat ign result Hs Hd) as E.
    cbn [app length] in E. rewrite !Nat.add_0_r, app_nil_r in E. rewrite E. cbn [splitn_loop].
    pose proof (push_piece_ok pre s [] ign result) as Hp. rewrite app_nil_r in Hp.
    rewrite Hp. reflexivity.
  - pose proof (Hskip a [] pre (x :: s) (S (length s)) ign result Ha Hd) as E.
    cbn [app length] in E. rewrite Nat.add_0_r in E.
    rewrite app_length. cbn [length]. rewrite E. cbn [splitn_loop].
    rewrite (app_assoc pre a), (rd_app _ (pre ++ a)) by (rewrite app_length; reflexivity).
    rewrite <- (app_assoc pre a). cbn [bind].
    pose proof (strchr_ok d dj x Hd) as Hc.
    destruct (strchr (d ++ 0 :: dj) x) as [[k|]| |]; try contradiction; [|tauto].
    cbn [bind]. rewrite push_piece_ok.
    specialize (IH Hd (pre ++ a ++ [x]) ign (result ++ keep ign [a])).
    rewrite !app_length in IH. cbn [length] in IH.
    replace (length pre + (length a + 1))%nat with (S (length pre + length a)) in IH by lia.
    rewrite <- !app_assoc in IH. cbn [app] in IH. rewrite IH.
    rewrite (keep_cons ign a ps). reflexivity.
Qed.

(** ** Random strings *)

Lemma random_loop_ok : forall alphabet rng, alphabet <> [] ->
  (forall i, 0 <= rng i < 2 ^ 31) ->
  forall size i result, exists t,
  random_loop size alphabet (Z.of_nat (length alphabet)) rng i result = Ok (result ++ t) /\
  length t = size /\ Forall (fun c => In c alphabet) t.
Proof.
  intros alphabet rng Hne Hr. induction size as [|size IH]; intros i result; cbn [random_loop].
  - exists []. rewrite app_nil_r. split; [reflexivity|]. split; [reflexivity|constructor].
  - destruct alphabet as [|a0 al]; [congruence|]. set (alphabet := a0 :: al) in *.
    assert (Hpos : 0 < Z.of_nat (length alphabet)) by (unfold alphabet; cbn [length]; lia).
    destruct (Z.eqb_spec (Z.of_nat (length alphabet)) 0) as [E|_]; [lia|]. cbv zeta.
    pose proof (Z.mod_pos_bound (rng i) _ Hpos) as Hb.
    assert (Hle : rng i mod Z.of_nat (length alphabet) <= rng i)
      by (apply Z.mod_le; [apply Hr|exact Hpos]).
    specialize (Hr i) as Hri.
    rewrite (Z.mod_small _ (2 ^ 32)) by lia.
    destruct (rd_ex _ alphabet (Z.to_nat (rng i mod Z.of_nat (length alphabet)))) as [c [E1 E2]];
      [lia|].
    rewrite E1. cbn [bind]. destruct (IH (S i) (result ++ [c])) as [t [E [Hl Hf]]].
    exists (c :: t). rewrite E, <- app_assoc. split; [reflexivity|].
    split; [cbn [length]; congruence|]. constructor; [|exact Hf].
    eapply nth_error_In. exact E2.
Qed.

(** ** Words *)

Lemma blank_iff : forall c, blank c = true <-> is_blank c.
Proof.
  intros c. unfold blank, is_blank. rewrite !orb_true_iff, !Z.eqb_eq. tauto.
Qed.
Lemma is_blank_dec : forall c, {is_blank c} + {~ is_blank c}.
Proof. intros c. destruct (blank c) eqn:E; [left|right]; rewrite <- blank_iff; congruence. Qed.

Lemma skip_blanks_ok : forall bs c t k, Forall is_blank bs -> ~ is_blank c ->
  skip_blanks (bs ++ c :: t) k = Ok ((k + length bs)%nat, c :: t).
Proof.
  induction bs as [|b bs IH]; intros c t k Hb Hc; cbn [app skip_blanks length].
  - destruct (blank c) eqn:E; [apply blank_iff in E; contradiction|].
    rewrite Nat.add_0_r. reflexivity.
  - inversion Hb as [|? ? Hb0 Hb']; subst. apply blank_iff in Hb0. rewrite Hb0.
    rewrite IH by assumption. apply ok2; [lia|reflexivity].
Qed.
Lemma word_end_ok : forall w c t k, Forall (fun c => ~ is_blank c) w -> nonul w ->
  is_blank c \/ c = 0 -> word_end (w ++ c :: t) k = Ok (k + length w)%nat.
Proof.
  induction w as [|x w IH]; intros c t k Hw Hn Hc; cbn [app word_end length].
  - rewrite Nat.add_0_r. destruct (Z.eqb_spec c 0); [reflexivity|].
    destruct Hc as [Hc|Hc]; [|contradiction]. apply blank_iff in Hc. rewrite Hc. reflexivity.
  - inversion Hw as [|? ? Hx Hw']; subst. inversion Hn as [|? ? Hx0 Hn']; subst.
    destruct (Z.eqb_spec x 0); [contradiction|].
    destruct (blank x) eqn:E; [apply blank_iff in E; contradiction|].
    rewrite IH by assumption. f_equal. lia.
Qed.

Lemma all_words_ok : forall s ws, words s ws -> nonul s ->
  forall pre junk fuel, (length s < fuel)%nat ->
  all_words fuel (pre ++ s ++ 0 :: junk) (length pre) = Ok ws.
Proof.
  induction 1 as [s Hs|bs w rest ws Hbs Hne Hw Hrest Hws IH]; intros Hn pre junk fuel Hf;
    (destruct fuel as [|fuel]; [lia|]); cbn [all_words]; unfold get_next_word;
    rewrite skipn_app_ge, Nat.sub_diag by lia; cbn [skipn].
  - rewrite skip_blanks_ok; [|exact Hs|unfold is_blank; lia]. cbn [bind word_end Z.eqb]. cbv zeta.
    rewrite Nat.add_0_r. rewrite Nat.ltb_irrefl. reflexivity.
  - apply nonul_app in Hn. destruct Hn as [_ Hn]. apply nonul_app in Hn. destruct Hn as [Hnw Hnr].
    rewrite <- !app_assoc.
    assert (Hx : exists c t, rest ++ 0 :: junk = c :: t /\ (is_blank c \/ c = 0)).
    { destruct Hrest as [->|[c [t [-> Hc]]]]; eexists; eexists;
        (split; [reflexivity|]); [right; reflexivity|left; exact Hc]. }
    destruct Hx as [c [t [Ec Hc]]].
    destruct w as [|w0 w]; [congruence|].
    assert (Hb : skip_blanks (bs ++ (w0 :: w) ++ rest ++ 0 :: junk) 0
                 = Ok ((0 + length bs)%nat, (w0 :: w) ++ rest ++ 0 :: junk)).
    { cbn [app]. apply skip_blanks_ok; [exact Hbs|]. inversion Hw; assumption. }
    rewrite Hb. cbn [bind]. clear Hb.
    rewrite Ec, word_end_ok by assumption. rewrite <- Ec. cbn [bind]. cbv zeta.
    destruct (Nat.ltb_spec (length pre + (0 + length bs))
                (length pre + (0 + length bs) + (0 + length (w0 :: w)))) as [_|H];
      [|cbn [length] in H; lia].
    cbn [Z.eqb].
    replace (length pre + (0 + length bs) + (0 + length (w0 :: w)))%nat
      with (length (pre ++ bs ++ w0 :: w)) by (rewrite !app_length; lia).
    specialize (IH Hnr (pre ++ bs ++ w0 :: w) junk fuel).
    rewrite <- !app_assoc in IH. rewrite IH by (rewrite !app_length in Hf; cbn [length] in Hf; lia).
    cbn [bind]. f_equal. f_equal. unfold substr.
    replace (length (pre ++ bs ++ w0 :: w) - (length pre + (0 + length bs)))%nat
      with (length (w0 :: w)) by (rewrite !app_length; lia).
    rewrite app_assoc, skipn_app_ge by (rewrite app_length; lia).
    replace (length pre + (0 + length bs) - length (pre ++ bs))%nat with 0%nat
      by (rewrite app_length; lia).
    cbn [skipn]. apply firstn_cut.
Qed.

Lemma words_exists : forall s, exists ws, words s ws.
Proof.
  intros s. remember (length s) as n eqn:En. assert (Hn : (length s <= n)%nat) by lia.
  clear En. revert s Hn. induction n as [|n IH]; intros s Hn.
  - destruct s; [|cbn in Hn; lia]. exists []. constructor. constructor.
  - destruct (cut_while is_blank is_blank_dec s) as [bs [r [-> [Hbs Hr]]]].
    destruct r as [|c r].
    + exists []. rewrite app_nil_r. constructor. exact Hbs.
    + assert (Hdec : forall c, {~ is_blank c} + {~ ~ is_blank c}).
      { intros x. destruct (is_blank_dec x); [right|left]; tauto. }
      destruct (cut_while (fun c => ~ is_blank c) Hdec (c :: r)) as [w [rest [E [Hw Hrest]]]].
      destruct w as [|w0 w].
      { cbn [app] in E. destruct (Hrest c r (eq_sym E)). apply (Hr c r eq_refl). }
      destruct (IH rest) as [ws Hws].
      { rewrite E in Hn. rewrite !app_length in Hn. cbn [length] in Hn. lia. }
      exists ((w0 :: w) :: ws). rewrite E. apply words_one; try assumption; [discriminate|].
      destruct rest as [|x rest]; [left; reflexivity|right].
      exists x, rest. split; [reflexivity|]. specialize (Hrest x rest eq_refl).
      destruct (is_blank_dec x); tauto.
Qed.
