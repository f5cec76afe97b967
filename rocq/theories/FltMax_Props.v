(** More theorems about floating-point members (property C116): numerals followed by any
    bytes, the words for infinities, and the three types. *)

From Coq Require Import ZArith List Bool Lia.
From Verif Require Import Base Flt_Model Flt_Spec Flt_Proof Flt_Props.
Import ListNotations.
Local Open Scope Z_scope.

(** ** Specification *)

(** [s] is the longest beginning of [s ++ rest] that is a numeral *)
Definition longest (dp : Z) (s rest : list Z) : Prop :=
  forall r1 r2 neg v b e, rest = r1 ++ r2 -> numeral dp (s ++ r1) neg v b e -> r1 = [].
(** a letter, in any case *)
Definition same_letter (c l : Z) : Prop := c = l \/ c = l - 32.
(** [s] begins with the word [w], in any letter case *)
Definition begins (w s : list Z) : Prop := exists a r, s = a ++ r /\ Forall2 same_letter a w.
(** a binary format of IEEE 754 with [p] bits of precision and [w] bits for the exponent:
    the largest exponent is E = 2^(w-1) - 1, the smallest 1 - E *)
Definition ieee (p w : Z) (f : fmt) : Prop :=
  let E := 2 ^ (w - 1) - 1 in
  prec f = p /\
  (* the least positive value is 2^(1 - E - (p - 1)) *)
  - scale f = 1 - E - (p - 1) /\
  (* the greatest is (2^p - 1) * 2^(E - (p - 1)) *)
  top f - scale f = E - (p - 1).

(** ** Lemmas: what the functions of libc found was there *)

Lemma digit_value_inv : forall hex c v, digit_value hex c = Some v -> digit_of hex c v.
Proof.
  intros hex c v H. unfold digit_value in H. unfold digit_of.
  destruct (Z.leb_spec 48 c), (Z.leb_spec c 57), (Z.leb_spec 97 c), (Z.leb_spec c 102), (Z.leb_spec 65 c), (Z.leb_spec c 70);
    destruct hex; cbn [andb] in H; try discriminate; injection H as <-; try lia; (left; lia) || (right; split; [reflexivity|lia]).
Qed.
Lemma digits_inv : forall hex s acc n v m r, digits hex acc n s = (v, m, r) ->
  exists a vs, s = a ++ r /\ written hex a vs /\ v = fold_left (fun n v => n * (if hex then 16 else 10) + v) vs acc /\
    m = (n + length vs)%nat.
Proof.
  intros hex s. induction s as [|c s IH]; intros acc n v m r H; cbn [digits] in H.
  - injection H as <- <- <-. exists [], []. split; [reflexivity|]. split; [constructor|]. split; [reflexivity|cbn; lia].
  - destruct (digit_value hex c) as [x|] eqn:E.
    + destruct (IH _ _ _ _ _ H) as (a & vs & -> & W & -> & ->). exists (c :: a), (x :: vs). split; [reflexivity|].
      split; [constructor; [apply digit_value_inv, E|exact W]|]. split; [reflexivity|cbn; lia].
    + injection H as <- <- <-. exists [], []. split; [reflexivity|]. split; [constructor|]. split; [reflexivity|cbn; lia].
Qed.
Lemma mantissa_inv : forall hex dp s v n k r, mantissa hex dp s = (v, S n, k, r) ->
  exists a, s = a ++ r /\ mantissa_text hex dp a v (Z.of_nat k).
Proof.
  intros hex dp s v n k r H. unfold mantissa in H. destruct (digits hex 0 0 s) as [[v1 n1] r1] eqn:E1.
  destruct (digits_inv _ _ _ _ _ _ _ E1) as (a & vs & Es & W & V & N).
  assert (Whole : r1 = r -> (v1, n1, 0%nat) = (v, S n, k) -> exists a0, s = a0 ++ r /\ mantissa_text hex dp a0 v (Z.of_nat k)).
  { intros <- X. injection X as <- X <-. exists a. split; [exact Es|]. rewrite V. change (Z.of_nat 0) with 0.
    apply whole; [exact W|]. intros ->. cbn in N. lia. }
  destruct r1 as [|c r1]; [apply Whole; congruence|].
  destruct (Z.eqb_spec c dp) as [->|_]; [|apply Whole; congruence].
  destruct (digits hex v1 0 r1) as [[v2 k2] r2] eqn:E2. injection H as <- N2 <- <-.
  destruct (digits_inv _ _ _ _ _ _ _ E2) as (a2 & vs2 & Es2 & W2 & V2 & K2). cbn [Nat.add] in K2.
  exists (a ++ dp :: a2). split; [rewrite <- app_assoc; cbn [app]; congruence|].
  rewrite K2. rewrite V2, V, <- fold_left_app. apply fraction; [exact W|exact W2|].
  intros X. apply app_eq_nil in X. destruct X as [-> ->]. cbn in N, K2. lia.
Qed.
Lemma sign_inv : forall s neg r, sign s = (neg, r) -> exists sg, s = sg ++ r /\ sign_text sg neg.
Proof.
  intros s neg r H. unfold sign in H. destruct s as [|c t].
  - injection H as <- <-. exists []. split; [reflexivity|constructor].
  - destruct (Z.eqb_spec c 45) as [->|]; [injection H as <- <-; exists [45]; split; [reflexivity|constructor]|].
    destruct (Z.eqb_spec c 43) as [->|]; [injection H as <- <-; exists [43]; split; [reflexivity|constructor]|].
    injection H as <- <-. exists []. split; [reflexivity|constructor].
Qed.
Lemma written_snoc : forall hex s vs c v, written hex s vs -> digit_of hex c v -> written hex (s ++ [c]) (vs ++ [v]).
Proof. intros. apply Forall2_app; [assumption|]. constructor; [assumption|constructor]. Qed.

(** ** Lemmas: a text that cannot be made longer *)

Lemma mantissa_run_max : forall hex dp s v k rest, good_point dp -> mantissa_text hex dp s v k ->
  (forall c r v k, rest = c :: r -> ~ mantissa_text hex dp (s ++ [c]) v k) ->
  exists n kn, mantissa hex dp (s ++ rest) = (v, S n, kn, rest) /\ k = Z.of_nat kn /\ 0 <= v.
Proof.
  intros hex dp s v k rest Hdp H Hs. unfold mantissa. destruct H as [s vs Hw Hne|s vs s' vs' Hw Hw' Hne].
  - assert (D : match rest with c :: _ => digit_value hex c = None | [] => True end).
    { destruct rest as [|c r]; [exact I|]. destruct (digit_value hex c) as [x|] eqn:E; [|reflexivity]. exfalso.
      apply (Hs c r (positional (if hex then 16 else 10) (vs ++ [x])) 0 eq_refl).
      apply whole; [apply written_snoc; [exact Hw|apply digit_value_inv, E]|destruct vs; discriminate]. }
    rewrite (digits_run hex s vs 0 0 rest Hw D).
    cbn zeta beta. destruct vs as [|x vs]; [congruence|]. exists (length vs), 0%nat.
    split; [|split; [reflexivity|apply (written_nonneg hex s); [exact Hw|destruct hex; lia|lia]]].
    destruct rest as [|c rest]; [reflexivity|]. destruct (Z.eqb_spec c dp) as [->|]; [|reflexivity]. exfalso.
    eapply (Hs dp rest _ _ eq_refl). apply (fraction hex dp s (x :: vs) [] []); [exact Hw|constructor|discriminate].
  - rewrite <- app_assoc. cbn [app].
    rewrite (digits_run hex s vs 0 0 (dp :: s' ++ rest) Hw) by (apply point_no_digit; exact Hdp).
    rewrite Z.eqb_refl.
    assert (D : match rest with c :: _ => digit_value hex c = None | [] => True end).
    { destruct rest as [|c r]; [exact I|]. destruct (digit_value hex c) as [x|] eqn:E; [|reflexivity]. exfalso.
      eapply (Hs c r _ _ eq_refl). rewrite <- app_assoc. cbn [app].
      apply (fraction hex dp s vs (s' ++ [c]) (vs' ++ [x])); [exact Hw|apply written_snoc; [exact Hw'|apply digit_value_inv, E]|].
      destruct vs, vs'; discriminate. }
    rewrite (digits_run hex s' vs' _ 0 rest Hw' D).
    exists (length vs + length vs' - 1)%nat, (length vs'). unfold positional. rewrite fold_left_app.
    split; [|split; [reflexivity|]].
    + repeat (apply f_equal2 || apply f_equal); try reflexivity.
      destruct vs; [|cbn [length]; lia]. destruct vs'; [destruct Hne; reflexivity|]. cbn [length]. lia.
    + apply (written_nonneg hex s'); [exact Hw'|destruct hex; lia|]. apply (written_nonneg hex s); [exact Hw|destruct hex; lia|lia].
Qed.

Lemma exponent_run_max : forall x s e rest, exponent_text x s e ->
  (forall r1 r2 e', rest = r1 ++ r2 -> exponent_text x (s ++ r1) e' -> r1 = []) -> exponent x (s ++ rest) = e.
Proof.
  intros x s e rest H Hm. destruct H as [|c sg neg s vs Hc Hsg Hw Hne].
  - cbn [app] in *. destruct rest as [|c rest]; [reflexivity|]. cbn [exponent].
    destruct ((c =? x) || (c =? x - 32)) eqn:E; [|reflexivity].
    assert (Hc : c = x \/ c = x - 32). { apply orb_true_iff in E. destruct E as [E|E]; apply Z.eqb_eq in E; auto. }
    destruct (sign rest) as [neg t] eqn:Es. destruct (digits false 0 0 t) as [[v m] r] eqn:Ed.
    destruct (sign_inv _ _ _ Es) as (sg & -> & Sg). destruct (digits_inv _ _ _ _ _ _ _ Ed) as (a & vs & -> & W & -> & _).
    destruct vs as [|y vs]; [destruct neg; reflexivity|]. exfalso.
    assert (X : c :: sg ++ a = []); [|discriminate].
    eapply (Hm (c :: sg ++ a) r); [cbn [app]; rewrite <- app_assoc; reflexivity|].
    apply (an_exponent x c sg neg a (y :: vs)); [exact Hc|exact Sg|exact W|discriminate].
  - cbn [app exponent].
    assert (E : (c =? x) || (c =? x - 32) = true) by (destruct Hc as [-> | ->]; rewrite Z.eqb_refl, ?orb_true_r; reflexivity).
    assert (S1 : match s ++ rest with c :: _ => c <> 43 /\ c <> 45 | [] => True end).
    { destruct Hw as [|c1 v1 s1 vs1 H1 H2]; [congruence|]. exact (digit_not_sign _ _ H1). }
    rewrite E, <- app_assoc, (sign_run sg neg (s ++ rest) Hsg S1).
    assert (D : match rest with c :: _ => digit_value false c = None | [] => True end).
    { destruct rest as [|d r]; [exact I|]. destruct (digit_value false d) as [y|] eqn:Ed; [|reflexivity]. exfalso.
      assert (X : [d] = []); [|discriminate]. eapply (Hm [d] r); [reflexivity|].
      cbn [app]. rewrite <- app_assoc.
      apply (an_exponent x c sg neg (s ++ [d]) (vs ++ [y])); [exact Hc|exact Hsg|apply written_snoc; [exact Hw|apply digit_value_inv, Ed]|].
      destruct vs; discriminate. }
    rewrite (digits_run false s vs 0 0 rest Hw D). reflexivity.
Qed.

(** the mantissa cannot be continued into the exponent or the rest *)
Lemma mantissa_max : forall hex dp x ms es e rest, good_point dp -> (x = 101 /\ hex = false) \/ x = 112 ->
  exponent_text x es e ->
  (forall c r v k, es = [] -> rest = c :: r -> ~ mantissa_text hex dp (ms ++ [c]) v k) ->
  forall c r v k, es ++ rest = c :: r -> ~ mantissa_text hex dp (ms ++ [c]) v k.
Proof.
  intros hex dp x ms es e rest Hdp Hx He H c r v k E M. destruct He as [|c0 sg ng s vs Hc0].
  - exact (H c r v k eq_refl E M).
  - cbn [app] in E. injection E as <- _. clear H.
    assert (G : (exists y, digit_of hex c0 y) \/ c0 = dp).
    { inversion M as [s1 vs1 W1 N1 Es|s1 vs1 s2 vs2 W1 W2 N1 Es]; subst.
      - apply Forall2_app_inv_l in W1. destruct W1 as (a & b & _ & W1 & _). inversion W1; subst. left. eauto.
      - destruct s2 as [|z s2 _] using rev_ind.
        + apply app_inj_tail in Es. right. symmetry. apply Es.
        + rewrite app_comm_cons, app_assoc in Es. apply app_inj_tail in Es. destruct Es as [_ ->].
          apply Forall2_app_inv_l in W2. destruct W2 as (a & b & _ & W2 & _). inversion W2; subst. left. eauto. }
    destruct Hdp as [_ [_ [_ [_ [D4 D5]]]]].
    destruct G as [[y G]|G]; [|lia]. unfold digit_of in G. destruct Hx as [[-> ->]| ->]; [|destruct hex]; lia.
Qed.

Lemma strtox_longest : forall f dp w s neg v b e rest, good_point dp -> Forall blank w -> numeral dp s neg v b e ->
  longest dp s rest ->
  strtox f dp (w ++ s ++ rest) = round_ratio f neg (numerator v b e) (denominator b e) /\ 0 <= v /\ 0 < b.
Proof.
  intros f dp w s neg v b e rest Hdp Hw H Hr. rewrite <- round_pow_ratio. unfold strtox.
  pose proof Hdp as [D0 [D1 [D2 [D3 [D4 D5]]]]].
  destruct H as [sg neg ms v k es e Hsg Hm He|sg neg x ms v k es e Hsg Hx Hm He].
  - destruct (mantissa_first _ _ _ _ _ (es ++ rest) Hm) as [c [t [Et Hc]]].
    assert (C : ~ blank c /\ c <> 43 /\ c <> 45 /\ ~ (65 <= c <= 90) /\ ~ (97 <= c <= 122)).
    { destruct Hc as [->|[y Hy]]; [repeat split; assumption|]. destruct Hy as [[Hy _]|[F _]]; [|discriminate].
      unfold blank. repeat split; lia. }
    destruct C as [C1 [C2 [C3 [C4 C5]]]].
    replace ((sg ++ ms ++ es) ++ rest) with (sg ++ ms ++ es ++ rest) by (rewrite <- !app_assoc; reflexivity).
    rewrite skip_space_run; [|exact Hw|rewrite Et; destruct Hsg; cbn [app]; unfold blank in *; lia].
    rewrite (sign_run sg neg) by (try exact Hsg; rewrite Et; auto).
    rewrite Et. change (zs "inf") with [105; 110; 102]. change (zs "nan") with [110; 97; 110].
    rewrite !word_no by (try assumption; lia).
    assert (Nx : (match c :: t with
           | c :: x :: t => if (c =? 48) && ((x =? 120) || (x =? 88)) then hex_number f dp neg t else None
           | _ => None
           end) = None).
    { destruct t as [|x t]; [reflexivity|]. destruct (Z.eqb_spec c 48) as [->|]; [|reflexivity]. cbn [andb].
      destruct ((x =? 120) || (x =? 88)) eqn:Ex; [|reflexivity].
      assert (Hx : x = 120 \/ x = 88). { apply orb_true_iff in Ex. destruct Ex as [E|E]; apply Z.eqb_eq in E; auto. }
      destruct (hex_number f dp neg t) as [u|] eqn:Eh; [|reflexivity]. exfalso.
      unfold hex_number in Eh. destruct (mantissa true dp t) as [[[m n] kk] r] eqn:Em. destruct n as [|n]; [discriminate|].
      destruct (mantissa_inv _ _ _ _ _ _ _ Em) as (a & -> & Ma).
      (* the mantissa is "0" and the x is in the rest *)
      assert (K : ms = [48] /\ es = [] /\ rest = x :: a ++ r).
      { destruct Hm as [s vs W Hne|s vs s' vs' W W' Hne].
        - destruct W as [|c1 v1 s vs H1 W]; [congruence|]. cbn [app] in Et. injection Et as -> Et.
          destruct W as [|c2 v2 s vs H2 W].
          + cbn [app] in Et. destruct He as [|c0 sg0 ng s0 vs0 Hc0]; [auto|].
            cbn [app] in Et. injection Et as -> _. lia.
          + cbn [app] in Et. injection Et as -> _. destruct H2 as [[H2 _]|[F _]]; [lia|discriminate].
        - destruct W as [|c1 v1 s vs H1 W]; [cbn [app] in Et; injection Et as E _; lia|].
          cbn [app] in Et. injection Et as _ Et. destruct W as [|c2 v2 s vs H2 W].
          + cbn [app] in Et. injection Et as -> _. lia.
          + cbn [app] in Et. injection Et as -> _. destruct H2 as [[H2 _]|[F _]]; [lia|discriminate]. }
      destruct K as (-> & -> & ->).
      assert (X : x :: a = []); [|discriminate].
      apply (Hr (x :: a) r neg m 2 (0 - 4 * Z.of_nat kk)); [reflexivity|].
      replace ((sg ++ [48] ++ []) ++ x :: a) with (sg ++ 48 :: x :: a ++ []) by (rewrite app_nil_r, <- app_assoc; reflexivity).
      apply hex_numeral; [exact Hsg|exact Hx|exact Ma|constructor]. }
    rewrite Nx. rewrite <- Et. unfold decimal_number.
    destruct (mantissa_run_max false dp ms v k (es ++ rest) Hdp Hm) as [n [kn [-> [-> V]]]].
    { apply (mantissa_max false dp 101 ms es e rest Hdp); [auto|exact He|].
      intros c0 r v0 k0 -> -> M. assert (X : [c0] = []); [|discriminate].
      apply (Hr [c0] r neg v0 10 (0 - k0)); [reflexivity|].
      replace ((sg ++ ms ++ []) ++ [c0]) with (sg ++ (ms ++ [c0]) ++ []) by (rewrite !app_nil_r, <- !app_assoc; reflexivity).
      apply decimal_numeral; [exact Hsg|exact M|constructor]. }
    rewrite (exponent_run_max 101 es e rest He).
    { split; [reflexivity|]. split; [exact V|lia]. }
    intros r1 r2 e' -> E'. apply (Hr r1 r2 neg v 10 (e' - Z.of_nat kn)); [reflexivity|].
    replace ((sg ++ ms ++ es) ++ r1) with (sg ++ ms ++ es ++ r1) by (rewrite <- !app_assoc; reflexivity).
    apply decimal_numeral; assumption.
  - replace ((sg ++ 48 :: x :: ms ++ es) ++ rest) with (sg ++ 48 :: x :: ms ++ es ++ rest)
      by (rewrite <- !app_assoc; cbn [app]; rewrite <- !app_assoc; reflexivity).
    rewrite skip_space_run; [|exact Hw|destruct Hsg; cbn [app]; unfold blank; lia].
    rewrite (sign_run sg neg) by (try exact Hsg; lia).
    change (zs "inf") with [105; 110; 102]. change (zs "nan") with [110; 97; 110].
    rewrite !word_no by lia.
    assert (E : (48 =? 48) && ((x =? 120) || (x =? 88)) = true) by (destruct Hx as [-> | ->]; reflexivity).
    rewrite E. unfold hex_number.
    destruct (mantissa_run_max true dp ms v k (es ++ rest) Hdp Hm) as [n [kn [-> [-> V]]]].
    { apply (mantissa_max true dp 112 ms es e rest Hdp); [auto|exact He|].
      intros c0 r v0 k0 -> -> M. assert (X : [c0] = []); [|discriminate].
      apply (Hr [c0] r neg v0 2 (0 - 4 * k0)); [reflexivity|].
      replace ((sg ++ 48 :: x :: ms ++ []) ++ [c0]) with (sg ++ 48 :: x :: (ms ++ [c0]) ++ [])
        by (rewrite !app_nil_r, <- !app_assoc; reflexivity).
      apply hex_numeral; [exact Hsg|exact Hx|exact M|constructor]. }
    rewrite (exponent_run_max 112 es e rest He).
    { split; [reflexivity|]. split; [exact V|lia]. }
    intros r1 r2 e' -> E'. apply (Hr r1 r2 neg v 2 (e' - 4 * Z.of_nat kn)); [reflexivity|].
    replace ((sg ++ 48 :: x :: ms ++ es) ++ r1) with (sg ++ 48 :: x :: ms ++ es ++ r1)
      by (rewrite <- !app_assoc; cbn [app]; rewrite <- !app_assoc; reflexivity).
    apply hex_numeral; assumption.
Qed.

(** ** Theorems *)

(** C116: whatever follows, the member gets the value nearest to the longest numeral at the
    beginning of the text: "1e5" is 100000, "1e" and "1ex" are 1, "0x1G" is 1. *)
Theorem C116_longest_numeral : forall f dp w s neg v b e rest,
  good_fmt f -> good_point dp -> Forall blank w -> numeral dp s neg v b e -> longest dp s rest ->
  nearest f neg (numerator v b e) (denominator b e) (strtox f dp (w ++ s ++ rest)).
Proof.
  intros f dp w s neg v b e rest Hf Hdp Hw Hs Hr.
  destruct (strtox_longest f dp w s neg v b e rest Hdp Hw Hs Hr) as [-> [Hv Hb]].
  destruct (fraction_ok v b e Hv Hb). apply round_nearest; assumption.
Qed.
Print Assumptions C116_longest_numeral.

Lemma word_begins : forall w s, word w s = true <-> begins w s.
Proof.
  intros w. induction w as [|x w IH]; intros s.
  - split; [intros _; exists [], s; split; [reflexivity|constructor]|reflexivity].
  - destruct s as [|c s]; cbn [word].
    + split; [discriminate|]. intros (a & r & E & F). inversion F; subst. discriminate.
    + rewrite andb_true_iff, orb_true_iff, !Z.eqb_eq, IH. split.
      * intros (C & a & r & -> & F). exists (c :: a), r. split; [reflexivity|]. constructor; [exact C|exact F].
      * intros (a & r & E & F). inversion F as [|y ? a' ? C F']; subst. injection E as -> ->. split; [exact C|].
        exists a', r. auto.
Qed.

(** C116: "inf" and "nan" in any letter case, behind a sign or none, and whatever follows,
    give the infinity of that sign and a not-a-number. *)
Theorem C116_words_any_case : forall f dp w sg neg s, Forall blank w -> sign_text sg neg ->
  (begins (zs "inf") s -> strtox f dp (w ++ sg ++ s) = FInf neg) /\
  (begins (zs "nan") s -> strtox f dp (w ++ sg ++ s) = FNan).
Proof.
  intros f dp w sg neg s Hw Hsg. destruct (C116_words f dp w sg neg s Hw Hsg) as [A B].
  split; intros H; apply word_begins in H; auto.
Qed.
Print Assumptions C116_words_any_case.

(** C116: a text that begins with no numeral and no such word is loaded as 0, and every text
    is of one of these kinds: there is nothing else that libc reads. *)
Theorem C116_no_numeral : forall f dp w t, good_point dp -> Forall blank w ->
  (match t with c :: _ => ~ blank c | [] => True end) ->
  (forall s rest neg v b e, t = s ++ rest -> ~ numeral dp s neg v b e) ->
  (forall sg neg s, t = sg ++ s -> sign_text sg neg -> ~ begins (zs "inf") s /\ ~ begins (zs "nan") s) ->
  strtox f dp (w ++ t) = FNum false 0 0.
Proof.
  intros f dp w t Hdp Hw Ht Hn Hwd. unfold strtox. rewrite (skip_space_run w t Hw Ht).
  destruct (sign t) as [neg s] eqn:Es. destruct (sign_inv _ _ _ Es) as (sg & -> & Sg).
  destruct (Hwd sg neg s eq_refl Sg) as [Ni Nn].
  destruct (word (zs "inf") s) eqn:Wi; [apply word_begins in Wi; contradiction|].
  destruct (word (zs "nan") s) eqn:Wn; [apply word_begins in Wn; contradiction|]. clear Wi Wn Ni Nn Hwd.
  assert (Dec : decimal_number f dp neg s = FNum false 0 0).
  { unfold decimal_number. destruct (mantissa false dp s) as [[[v n] k] r] eqn:Em. destruct n as [|n]; [reflexivity|]. exfalso.
    destruct (mantissa_inv _ _ _ _ _ _ _ Em) as (a & -> & Ma).
    apply (Hn (sg ++ a ++ []) r neg v 10 (0 - Z.of_nat k)); [rewrite app_nil_r, <- app_assoc; reflexivity|].
    apply decimal_numeral; [exact Sg|exact Ma|constructor]. }
  destruct s as [|c [|x t]]; try exact Dec.
  destruct (Z.eqb_spec c 48) as [->|]; [|exact Dec]. cbn [andb].
  destruct ((x =? 120) || (x =? 88)) eqn:Ex; [|exact Dec].
  destruct (hex_number f dp neg t) as [u|] eqn:Eh; [|exact Dec]. exfalso.
  unfold hex_number in Eh. destruct (mantissa true dp t) as [[[v n] k] r] eqn:Em. destruct n as [|n]; [discriminate|].
  destruct (mantissa_inv _ _ _ _ _ _ _ Em) as (a & -> & Ma).
  apply (Hn (sg ++ 48 :: x :: a ++ []) r neg v 2 (0 - 4 * Z.of_nat k)).
  { rewrite app_nil_r, <- app_assoc. reflexivity. }
  apply hex_numeral; [exact Sg| |exact Ma|constructor].
  apply orb_true_iff in Ex. destruct Ex as [E|E]; apply Z.eqb_eq in E; auto.
Qed.
Print Assumptions C116_no_numeral.

(** C116: the three types are binary32, binary64 and the 80-bit format of x86, of IEEE 754. *)
Theorem C116_types : ieee 24 8 f32 /\ ieee 53 11 f64 /\ ieee 64 15 f80.
Proof. unfold ieee. cbn. lia. Qed.
Print Assumptions C116_types.

(** the hypotheses are met: "1e" followed by a letter, and "0x1" followed by G *)
Example C116_ex_longest : longest 46 (zs "1") (zs "ex") /\ numeral 46 (zs "1") false 1 10 0 /\
  strtox f64 46 (zs " 1ex") = strtox f64 46 (zs "1") /\ strtox f64 46 (zs "0x1G") = strtox f64 46 (zs "1") /\
  strtox f64 46 (zs "0xg") = strtox f64 46 (zs "0").
Proof.
  assert (D : forall n, digit_of false 101 n -> False) by (intros n [[H _]|[F _]]; [lia|discriminate]).
  assert (One : written false [49] [1]) by (constructor; [left; lia|constructor]).
  split; [|split; [|repeat split; vm_compute; reflexivity]].
  - intros r1 r2 neg v b e E N. cbn in E.
    destruct r1 as [|c r1]; [reflexivity|]. exfalso. cbn in E. injection E as <- E.
    assert (G : forall sg neg0 ms v0 k es e0, sign_text sg neg0 -> mantissa_text false 46 ms v0 k -> exponent_text 101 es e0 ->
              zs "1" ++ 101 :: r1 = sg ++ ms ++ es -> False).
    { intros sg neg0 ms v0 k es e0 Sg M X Eq. cbn in Eq.
      assert (sg = []) as -> by (destruct Sg; cbn in Eq; congruence). cbn [app] in Eq.
      assert (Es : es = 101 :: r1).
      { destruct M as [s vs W Ne|s vs s' vs' W W' Ne].
        - destruct W as [|c1 v1 s vs H1 W]; [congruence|]. cbn [app] in Eq. injection Eq as _ Eq.
          destruct W as [|c2 v2 s vs H2 W]; [symmetry; exact Eq|]. cbn [app] in Eq. injection Eq as <- _. destruct (D _ H2).
        - destruct W as [|c1 v1 s vs H1 W]; [cbn in Eq; congruence|]. cbn [app] in Eq. injection Eq as _ Eq.
          destruct W as [|c2 v2 s vs H2 W]; [cbn in Eq; congruence|]. cbn [app] in Eq. injection Eq as <- _. destruct (D _ H2). }
      subst es. inversion X as [|c0 sg0 ng0 s0 vs0 Hc Hsg W Ne Ec]. subst.
      destruct Hsg; cbn in E; try congruence.
      destruct W as [|c2 v2 s2 vs2 H2 W]; [congruence|]. cbn in E. injection E as <- _.
      destruct H2 as [[H2 _]|[F _]]; [lia|discriminate]. }
    remember (zs "1" ++ 101 :: r1) as txt eqn:Et. destruct N as [sg ng ms v0 k es e0 Sg M X|sg ng x ms v0 k es e0 Sg Hx M X].
    + exact (G _ _ _ _ _ _ _ Sg M X eq_refl).
    + cbn in Et. destruct Sg; cbn in Et; congruence.
  - change (zs "1") with ([] ++ [49] ++ []). change 0 with (0 - 0). apply decimal_numeral; [constructor| |constructor].
    apply (whole false 46 [49] [1] One). discriminate.
Qed.
