(** Theorems about URL objects with their 32-bit lengths and a malloc that may fail
    (properties C123, C124). *)

From Coq Require Import ZArith List Bool Lia Arith.
From Verif Require Import Base Str_Model Str_Spec UrlP_Model UrlP_Spec UrlP_Proof UrlO_Model UrlO_Spec UrlO_Proof UrlP_Props Url32_Model.
Import ListNotations.
Local Open Scope Z_scope.

Lemma w32_small : forall n, Z.of_nat n < 2 ^ 32 -> w32 n = n.
Proof. intros n H. unfold w32. rewrite Z.mod_small by lia. apply Nat2Z.id. Qed.
Lemma bind_ext : forall A B (r : res A) (k k' : A -> res B), (forall x, r = Ok x -> k x = k' x) -> bind r k = bind r k'.
Proof. intros A B [x|u|] k k' H; cbn [bind]; auto. Qed.

Lemma dist_ok : forall a b n, dist a b = Ok n -> (b <= a)%nat /\ n = (a - b)%nat.
Proof. intros a b n H. unfold dist in H. destruct (Nat.ltb_spec a b); [discriminate|]. injection H as <-. lia. Qed.
Lemma lower_loop_range : forall k b p b' p', lower_loop k b p = Ok (b', p') -> (p <= p' <= p + k)%nat.
Proof.
  induction k as [|k IH]; intros b p b' p' H; cbn [lower_loop] in H; [injection H as <- <-; lia|].
  apply bind_inv in H. destruct H as [c [_ H]]. apply bind_inv in H. destruct H as [b1 [_ H]].
  apply bind_inv in H. destruct H as [c' [_ H]]. destruct (negb (domain_symbol c')); [injection H as <- <-; lia|].
  apply IH in H. lia.
Qed.
Lemma refers_loop_le : forall fuel b eofp beg p prev b' e' pr', refers_loop fuel b eofp beg p prev = Ok (b', e', pr') -> (e' <= eofp)%nat.
Proof.
  induction fuel as [|fuel IH]; intros b eofp beg p prev b' e' pr' H; cbn [refers_loop] in H;
    destruct (negb (p <? eofp)%nat); try (injection H as <- <- <-; lia); try discriminate.
  apply bind_inv in H. destruct H as [c [_ H]]. destruct (negb (c =? 47)); [apply IH in H; lia|].
  apply bind_inv in H. destruct H as [t [_ H]]. destruct t.
  - apply bind_inv in H. destruct H as [m [_ H]]. apply bind_inv in H. destruct H as [b1 [_ H]].
    apply bind_inv in H. destruct H as [r [_ H]]. apply IH in H. lia.
  - apply bind_inv in H. destruct H as [t [_ H]]. destruct t.
    + apply bind_inv in H. destruct H as [m [_ H]]. apply bind_inv in H. destruct H as [b1 [_ H]]. apply IH in H. lia.
    + apply bind_inv in H. destruct H as [t [_ H]]. destruct t.
      * apply bind_inv in H. destruct H as [m [_ H]]. apply bind_inv in H. destruct H as [b1 [_ H]]. apply IH in H. lia.
      * apply IH in H. lia.
Qed.
Lemma refers_end_le : forall b eofp beg prev flags e, refers_end b eofp beg prev flags = Ok e -> (e <= eofp)%nat.
Proof.
  intros b eofp beg prev flags e H. unfold refers_end in H. apply bind_inv in H. destruct H as [t [_ H]]. destruct t.
  - destruct (beg <? prev)%nat; [|injection H as <-; lia]. apply bind_inv in H. destruct H as [r [_ H]].
    destruct r as [pp|]; [|injection H as <-; lia]. destruct ((beg <? pp)%nat && negb (fetchable flags)); injection H as <-; lia.
  - apply bind_inv in H. destruct H as [t [_ H]]. destruct t.
    + destruct ((beg <? prev)%nat && negb (fetchable flags)); injection H as <-; lia.
    + apply bind_inv in H. destruct H as [t [_ H]]. destruct t; [|injection H as <-; lia].
      destruct ((beg <? prev)%nat && negb (fetchable flags)); injection H as <-; lia.
Qed.

Lemma assign_refers_agree : forall b vlen dom dlen beg flags, Z.of_nat vlen < 2 ^ 32 -> Z.of_nat dlen < 2 ^ 32 ->
  assign_refers32 b vlen dom dlen beg flags = assign_refers b vlen dom dlen beg flags.
Proof.
  intros b vlen dom dlen beg flags Hv Hd. unfold assign_refers32, assign_refers.
  apply bind_ext. intros r Hr.
  assert (L : (match r with Some i => i | None => vlen end <= vlen)%nat) by (destruct r; [apply strnchr_bound in Hr; lia|lia]).
  set (e0 := match r with Some i => i | None => vlen end) in *. clearbody e0. cbv zeta.
  apply bind_ext. intros [[b1 e1] pr] H1. apply refers_loop_le in H1.
  apply bind_ext. intros e2 H2. apply refers_end_le in H2.
  apply bind_ext. intros [b3 e3] H3.
  assert (L3 : (e3 <= vlen)%nat).
  { destruct (negb (vlen - e0 =? 0)%nat); [|injection H3 as <- <-; lia].
    apply bind_inv in H3. destruct H3 as [b4 [_ H3]]. injection H3 as <- <-. lia. }
  rewrite (w32_small e3), (w32_small dlen) by lia. reflexivity.
Qed.

Lemma assign_anchor_agree : forall b vlen beg flags, Z.of_nat vlen + 1 < 2 ^ 32 ->
  assign_anchor32 b vlen beg flags = assign_anchor b vlen beg flags.
Proof.
  intros b vlen beg flags Hv. unfold assign_anchor32, assign_anchor.
  apply bind_ext. intros r Hr.
  assert (E : match r with Some e => w32 e | None => vlen end = match r with Some e => e | None => vlen end).
  { destruct r; [|reflexivity]. apply strnchr_bound in Hr. apply w32_small. lia. }
  rewrite E. assert (L : (match r with Some i => i | None => vlen end <= vlen)%nat) by (destruct r; [apply strnchr_bound in Hr; lia|lia]).
  set (v0 := match r with Some i => i | None => vlen end) in *. clearbody v0. clear r Hr E. cbv zeta.
  apply bind_ext. intros n Hn. apply dist_ok in Hn. destruct Hn as [Ln ->].
  apply bind_ext. intros r Hr.
  assert (Le : (match r with Some i => beg + i | None => v0 end <= v0)%nat) by (destruct r; [apply strnchr_bound in Hr; lia|lia]).
  set (e0 := match r with Some i => (beg + i)%nat | None => v0 end) in *. clearbody e0. clear r Hr.
  apply bind_ext. intros [b1 p1] H1. apply lower_loop_range in H1.
  match goal with |- bind ?x _ = bind ?y _ => assert (E : x = y) end.
  { destruct (e0 =? p1)%nat.
    - destruct (v0 =? e0)%nat; [|reflexivity]. apply bind_ext. intros. rewrite w32_small by lia. reflexivity.
    - apply bind_ext. intros n _. apply bind_ext. intros b2 _. apply bind_ext. intros b3 _. rewrite w32_small by lia. reflexivity. }
  rewrite E. apply bind_ext. intros [[b2 v2] e2] H2.
  assert (L2 : (v2 <= vlen + 1 /\ e2 <= vlen + 1)%nat).
  { destruct (Nat.eqb_spec e0 p1).
    - destruct (v0 =? e0)%nat; [|injection H2 as <- <- <-; lia]. apply bind_inv in H2. destruct H2 as [b3 [_ H2]]. injection H2 as <- <- <-. lia.
    - apply bind_inv in H2. destruct H2 as [n0 [_ H2]]. apply bind_inv in H2. destruct H2 as [b3 [_ H2]].
      apply bind_inv in H2. destruct H2 as [b4 [_ H2]]. injection H2 as <- <- <-. lia. }
  clear E H2 H1. apply bind_ext. intros n _. apply bind_ext. intros k _.
  match goal with |- bind ?x _ = bind ?y _ => assert (E : x = y) end.
  { destruct (beg =? beg + k)%nat; [reflexivity|].
    apply bind_ext. intros n1 _. apply bind_ext. intros b3 _. rewrite w32_small by lia. reflexivity. }
  rewrite E. apply bind_ext. intros [[b3 v3] e3] H3.
  assert (L3 : (v3 <= vlen + 1 /\ e3 <= vlen + 1)%nat).
  { destruct (beg =? beg + k)%nat; [injection H3 as <- <- <-; lia|].
    apply bind_inv in H3. destruct H3 as [n0 [_ H3]]. apply bind_inv in H3. destruct H3 as [b4 [_ H3]]. injection H3 as <- <- <-. lia. }
  clear E H3. apply bind_ext. intros n2 _. apply bind_ext. intros k2 _.
  match goal with |- bind ?x _ = bind ?y _ => assert (E : x = y) end.
  { destruct (e3 =? e3 - k2)%nat; [reflexivity|].
    apply bind_ext. intros n1 _. apply bind_ext. intros b4 _. rewrite w32_small by lia. reflexivity. }
  rewrite E. apply bind_ext. intros [[b4 v4] e4] H4.
  assert (L4 : (v4 <= vlen + 1 /\ e4 <= vlen + 1)%nat).
  { destruct (e3 =? e3 - k2)%nat; [injection H4 as <- <- <-; lia|].
    apply bind_inv in H4. destruct H4 as [n0 [_ H4]]. apply bind_inv in H4. destruct H4 as [b5 [_ H4]]. injection H4 as <- <- <-. lia. }
  clear E H4. apply bind_ext. intros r1 _. apply bind_ext. intros r2 _.
  apply bind_ext. intros n3 Hn3. apply dist_ok in Hn3. destruct Hn3 as [_ Hn3].
  rewrite w32_small by lia. apply assign_refers_agree; lia.
Qed.

Lemma create_scheme_agree : forall mem0 u sz flags, Z.of_nat sz + 8 < 2 ^ 32 ->
  create_scheme32 (Some mem0) u sz flags = create_scheme mem0 u sz flags.
Proof.
  intros mem0 u sz flags H. unfold create_scheme32, create_scheme. cbn [to_block bind].
  apply bind_ext. intros t1 _. destruct t1.
  - apply bind_ext. intros s _. apply bind_ext. intros b _. rewrite w32_small by lia. apply assign_anchor_agree. lia.
  - apply bind_ext. intros t2 _. destruct t2.
    + apply bind_ext. intros s _. apply bind_ext. intros b _. rewrite w32_small by lia. apply assign_anchor_agree. lia.
    + apply bind_ext. intros b _. apply bind_ext. intros s _. apply bind_ext. intros b1 _. rewrite w32_small by lia. apply assign_anchor_agree. lia.
Qed.

(** ** C123: below 4 GB the lengths do not wrap

    For texts of less than 2^32 - 8 bytes the 32-bit object is the one of [UrlP_Model], of
    which C35-C40 speak. *)
Theorem C123_absolute_partial : forall mem0 u t flags parts,
  Z.of_nat (length t) + 8 < 2 ^ 32 ->
  readable u t 8 -> t <> [] -> length mem0 = abs_size (length t) -> absolute t parts ->
  exists x, create_absolute32 (Some mem0) None (Some u) (length t) flags = Ok (0, Some x) /\
    url_text x = p_scheme parts ++ p_host parts ++ normal_path (fetchable flags) (p_segs parts) ++ p_args parts /\
    domain_of (p_host parts) (url_domain x) /\ is_url x (norm (fetchable flags) parts).
Proof.
  intros mem0 u t flags parts Hl Hr Ht Hm Ha. unfold create_absolute32.
  destruct (length t) as [|k] eqn:E; [destruct t; [congruence|discriminate]|]. rewrite <- E in *.
  rewrite create_scheme_agree by exact Hl.
  destruct (create_scheme_url mem0 u t (length t) flags parts Hr eq_refl ltac:(left; lia) Ha) as [x [Ex Hx]].
  rewrite Ex. cbn [bind]. exists x. split; [reflexivity|]. split; [rewrite (is_url_text _ _ Hx), norm_text; reflexivity|].
  split; [exact (is_url_domain _ _ Hx)|exact Hx].
Qed.
Print Assumptions C123_absolute_partial.

Lemma revnchr_bound : forall s c n e, revnchr s c n = Ok (Some e) -> (e < n)%nat.
Proof.
  intros s c n e. unfold revnchr. induction n as [|n IH]; intros H; cbn [revchr_loop] in H; [discriminate|].
  apply bind_inv in H. destruct H as [x [_ H]]. destruct (c =? same x); [injection H as <-; lia|apply IH in H; lia].
Qed.
Lemma strnchp_bound : forall s c n e, strnchp s c n = Ok e -> (e <= n)%nat.
Proof.
  intros s c n e. unfold strnchp.
  assert (G : forall todo p len, (p + todo <= len)%nat -> chp_loop same c s p todo len = Ok e -> (e <= len)%nat).
  { induction todo as [|k IH]; intros p len L H; cbn [chp_loop] in H; [injection H as <-; lia|].
    apply bind_inv in H. destruct H as [x [_ H]]. destruct (c =? same x); [injection H as <-; lia|apply IH in H; lia]. }
  apply G. lia.
Qed.
Lemma create_suburl_agree : forall mem0 u sz flags parent,
  Z.of_nat (u_len parent) + Z.of_nat sz < 2 ^ 32 -> Z.of_nat (u_dlen parent) < 2 ^ 32 ->
  create_suburl32 (Some mem0) u sz flags parent = create_suburl mem0 u sz flags parent.
Proof.
  intros mem0 u sz flags parent H Hd. unfold create_suburl32, create_suburl.
  apply bind_ext. intros [|] _; [reflexivity|]. apply bind_ext. intros [|] _; [reflexivity|].
  apply bind_ext. intros c _. destruct (c =? 35); [reflexivity|].
  apply bind_ext. intros c4 _. cbv zeta. set (sd := if negb (c4 =? 115) then 7%nat else 8%nat). clearbody sd.
  apply bind_ext. intros n Hn. apply dist_ok in Hn. destruct Hn as [Ln ->].
  apply bind_ext. intros r Hr. apply bind_ext. intros sdom Hsd.
  assert (L1 : (sdom < u_len parent)%nat).
  { destruct r; [|discriminate]. injection Hsd as <-. apply strnchr_bound in Hr. lia. }
  apply bind_ext. intros r2 Hr2.
  assert (L2 : (match r2 with Some p => p | None => sz end <= sz)%nat) by (destruct r2; [apply strnchr_bound in Hr2; lia|lia]).
  set (sz' := match r2 with Some p => p | None => sz end) in *. clearbody sz'.
  apply bind_ext. intros c' _. apply bind_ext. intros pub Hpub.
  assert (L3 : (pub <= u_len parent)%nat).
  { destruct (c' =? 47); [injection Hpub as <-; lia|]. apply bind_inv in Hpub. destruct Hpub as [q [Hq Hpub]].
    apply strnchp_bound in Hq. apply bind_inv in Hpub. destruct Hpub as [r3 [Hr3 Hpub]]. destruct r3; [|discriminate].
    apply revnchr_bound in Hr3. injection Hpub as <-. lia. }
  cbn [to_block bind]. apply bind_ext. intros s _. apply bind_ext. intros b _. apply bind_ext. intros s' _. apply bind_ext. intros b' _.
  rewrite w32_small by lia. rewrite assign_refers_agree by lia. reflexivity.
Qed.

Theorem C123_relative_partial : forall mem0 u t flags parent P,
  Z.of_nat (u_len parent) + Z.of_nat (length t) + 8 < 2 ^ 32 -> Z.of_nat (u_dlen parent) < 2 ^ 32 ->
  readable u t 11 -> t <> [] -> length mem0 = rel_size (length t) parent ->
  is_url parent P -> plain_scheme P ->
  exists r, create_relative32 (Some mem0) None (Some u) (length t) flags (Some parent) = Ok r /\
    rel_outcome flags u t parent P r.
Proof.
  intros mem0 u t flags parent P Hl Hd Hr Ht Hm HP Hpl.
  destruct (C40_outcomes_partial mem0 u t flags parent P Hr Ht Hm HP Hpl) as [r [Er Ho]].
  exists r. split; [|exact Ho]. rewrite <- Er. unfold create_relative32, create_relative.
  destruct (length t) as [|k] eqn:E; [reflexivity|]. rewrite <- E in *.
  apply bind_ext. intros t1 _. apply bind_ext. intros t2 _. destruct t2.
  - rewrite create_scheme_agree by lia. reflexivity.
  - rewrite create_suburl_agree by lia. reflexivity.
Qed.
Print Assumptions C123_relative_partial.

(** the calls that do nothing but empty the object, whatever the sizes *)
Theorem C123_errors : forall blk this u sz flags parent,
  (this <> None \/ sz = 0%nat \/ u = None -> create_absolute32 blk this u sz flags = Ok (-1, None)) /\
  (this <> None \/ sz = 0%nat \/ u = None \/ parent = None -> create_relative32 blk this u sz flags parent = Ok (-1, None)).
Proof.
  intros blk [x|] [u|] [|sz] flags [p|]; split; intros H; try reflexivity; exfalso; intuition congruence.
Qed.
Print Assumptions C123_errors.

(** ** Beyond: the text counts modulo 2^32

    Of a text of [sz >= 2^32] bytes the object holds what its first [sz mod 2^32] bytes
    mean. *)
Lemma blit_again : forall A s C k, (k <= length s)%nat -> blit (A ++ s ++ C) (length A) (firstn k s) = Ok (A ++ s ++ C).
Proof.
  intros A s C k Hk.
  assert (E : s ++ C = firstn k s ++ skipn k s ++ C) by (rewrite app_assoc, firstn_skipn; reflexivity).
  rewrite E. apply (blit_ok A (firstn k s) (skipn k s ++ C) (firstn k s) (length A)); reflexivity.
Qed.
Lemma w32_mod : forall n k, (Z.of_nat n) mod 2 ^ 32 = Z.of_nat k -> w32 n = k.
Proof. intros n k H. unfold w32. rewrite H. apply Nat2Z.id. Qed.

Lemma create_scheme_long : forall mem0 u sz k flags, (sz <= length u)%nat -> (sz + 7 <= length mem0)%nat ->
  Z.of_nat sz mod 2 ^ 32 = Z.of_nat k -> Z.of_nat k + 8 < 2 ^ 32 ->
  exists b, length b = length mem0 /\ create_scheme32 (Some mem0) u sz flags = create_scheme b u k flags.
Proof.
  intros mem0 u sz k flags Hu Hm Hk Hk8. unfold create_scheme32. cbn [to_block bind].
  assert (Lk : (k <= sz)%nat).
  { pose proof (Z.mod_le (Z.of_nat sz) (2 ^ 32) ltac:(lia) ltac:(lia)). lia. }
  assert (Sl : forall n, (n <= length u)%nat -> slice u 0 n = Ok (firstn n u)).
  { intros n Hn. unfold slice. destruct (Nat.leb_spec (0 + n) (length u)); [reflexivity|lia]. }
  assert (Fk : firstn k u = firstn k (firstn sz u)) by (rewrite firstn_firstn, Nat.min_l by lia; reflexivity).
  assert (Ls : length (firstn sz u) = sz) by (rewrite firstn_length; lia).
  set (b1 := firstn sz u ++ skipn sz mem0).
  set (b2 := zs "http://" ++ firstn sz u ++ skipn (7 + sz) mem0).
  assert (B1 : blit mem0 0 (firstn sz u) = Ok b1).
  { rewrite blit_front by lia. rewrite Ls. reflexivity. }
  assert (B1' : blit b1 0 (firstn k u) = Ok b1) by (rewrite Fk; apply (blit_again [] (firstn sz u) (skipn sz mem0)); lia).
  assert (L1 : length b1 = length mem0) by (unfold b1; rewrite app_length, skipn_length; lia).
  assert (L2 : length b2 = length mem0).
  { unfold b2. rewrite !app_length, skipn_length, Ls. change (length (zs "http://")) with 7%nat. lia. }
  destruct (starts u (zs "https://") 8) as [t8|e|] eqn:E8; cbn [bind].
  2,3: exists mem0; split; [reflexivity|]; unfold create_scheme; rewrite E8; reflexivity.
  destruct t8.
  { exists b1. split; [exact L1|]. unfold create_scheme. rewrite E8. cbn [bind]. rewrite !Sl by lia. cbn [bind].
    rewrite B1, B1'. cbn [bind]. rewrite (w32_mod sz k Hk). apply assign_anchor_agree. lia. }
  destruct (starts u (zs "http://") 7) as [t7|e|] eqn:E7; cbn [bind].
  2,3: exists mem0; split; [reflexivity|]; unfold create_scheme; rewrite E8; cbn [bind]; rewrite E7; reflexivity.
  destruct t7.
  { exists b1. split; [exact L1|]. unfold create_scheme. rewrite E8. cbn [bind]. rewrite E7. cbn [bind]. rewrite !Sl by lia. cbn [bind].
    rewrite B1, B1'. cbn [bind]. rewrite (w32_mod sz k Hk). apply assign_anchor_agree. lia. }
  exists b2. split; [exact L2|]. unfold create_scheme. rewrite E8. cbn [bind]. rewrite E7. cbn [bind].
  rewrite blit_front by (change (length (zs "http://")) with 7%nat; lia). change (length (zs "http://")) with 7%nat. cbn [bind].
  rewrite !Sl by lia. cbn [bind].
  assert (B2 : blit (zs "http://" ++ skipn 7 mem0) 7 (firstn sz u) = Ok b2).
  { unfold b2. rewrite <- (firstn_skipn sz (skipn 7 mem0)), skipn_skipn. rewrite (Nat.add_comm sz 7).
    apply (blit_ok (zs "http://") (firstn sz (skipn 7 mem0)) (skipn (7 + sz) mem0) (firstn sz u) 7 eq_refl).
    rewrite firstn_length, skipn_length. lia. }
  rewrite B2. cbn [bind].
  assert (B3 : blit b2 0 (zs "http://") = Ok b2).
  { apply (blit_again [] (zs "http://") (firstn sz u ++ skipn (7 + sz) mem0) 7). cbn. lia. }
  rewrite B3. cbn [bind].
  assert (B4 : blit b2 7 (firstn k u) = Ok b2).
  { rewrite Fk. apply (blit_again (zs "http://") (firstn sz u) (skipn (7 + sz) mem0) k). lia. }
  rewrite B4. cbn [bind].
  rewrite (w32_mod (sz + 7) (k + 7)).
  - apply assign_anchor_agree. lia.
  - rewrite !Nat2Z.inj_add. rewrite Z.add_mod by lia. rewrite Hk. rewrite (Z.mod_small (Z.of_nat 7)) by lia. apply Z.mod_small. lia.
Qed.

Theorem C123_absolute_long : forall mem0 u sz k flags parts,
  (sz <= length u)%nat -> length mem0 = abs_size sz ->
  Z.of_nat sz mod 2 ^ 32 = Z.of_nat k -> Z.of_nat k + 8 < 2 ^ 32 ->
  readable u (firstn k u) 8 -> (0 < k)%nat -> absolute (firstn k u) parts ->
  exists x, create_absolute32 (Some mem0) None (Some u) sz flags = Ok (0, Some x) /\
    url_text x = p_scheme parts ++ p_host parts ++ normal_path (fetchable flags) (p_segs parts) ++ p_args parts.
Proof.
  intros mem0 u sz k flags parts Hu Hm Hk Hk8 Hr Hk0 Ha.
  assert (Lk : (k <= sz)%nat) by (pose proof (Z.mod_le (Z.of_nat sz) (2 ^ 32) ltac:(lia) ltac:(lia)); lia).
  unfold abs_size in Hm.
  destruct (create_scheme_long mem0 u sz k flags Hu ltac:(lia) Hk Hk8) as [b [Lb E]].
  assert (Lf : k = length (firstn k u)) by (rewrite firstn_length; lia).
  destruct (create_scheme_url b u (firstn k u) k flags parts Hr Lf ltac:(left; unfold abs_size; lia) Ha) as [x [Ex Hx]].
  unfold create_absolute32. destruct sz as [|sz]; [lia|]. rewrite E, Ex. cbn [bind]. exists x. split; [reflexivity|].
  rewrite (is_url_text _ _ Hx), norm_text. reflexivity.
Qed.
Print Assumptions C123_absolute_long.

Lemma in_repeat : forall (x y : Z) n, In x (repeat y n) -> x = y.
Proof. intros x y n H. exact (repeat_spec n y x H). Qed.
Lemma abs_a : forall r, ~ In 35 r -> slash_free r -> no_query r ->
  absolute (zs "http://a/" ++ r) (mkParts (zs "http://") [97] [r] []).
Proof.
  intros r H35 H47 H63.
  apply (absolute_intro _ (zs "http://") (zs "a/" ++ r) (zs "a/" ++ r) [] [97] [] (47 :: r) [r] []).
  - left. split; [reflexivity|]. generalize (zs "http://"). intros l. induction l; [constructor|constructor; [left; reflexivity|assumption]].
  - exists []. rewrite app_nil_r. split; [reflexivity|]. split; [|left; reflexivity].
    intros [F|[F|F]]; [discriminate|discriminate|contradiction].
  - reflexivity.
  - constructor.
  - constructor.
  - split; discriminate.
  - repeat constructor; unfold host_char; lia.
  - reflexivity.
  - intros c E. cbn in E. injection E as <-. unfold host_char. lia.
  - cbn [add_slash]. split; [unfold render; cbn [map concat app]; now rewrite !app_nil_r|].
    split; [discriminate|]. split; [constructor; [exact H47|constructor]|]. split; [constructor; [exact H63|constructor]|left; reflexivity].
Qed.

(** 4 GB and nine bytes: the object holds the first nine *)
Lemma long_text_refuted_N : forall N, Z.of_nat N = 2 ^ 32 -> exists t parts, absolute t parts /\ readable t t 8 /\
  forall mem0 flags, length mem0 = abs_size (length t) ->
  exists x, create_absolute32 (Some mem0) None (Some t) (length t) flags = Ok (0, Some x) /\
    url_text x = zs "http://a/" /\ normal (fetchable flags) parts <> zs "http://a/".
Proof.
  intros N HN.
  set (t := zs "http://a/" ++ repeat 120 N).
  assert (Lt : length t = (9 + N)%nat) by (unfold t; rewrite app_length, repeat_length; reflexivity).
  assert (Hx : forall c, c <> 120 -> ~ In c (repeat 120 N)) by (intros c Hc F; apply in_repeat in F; contradiction).
  exists t, (mkParts (zs "http://") [97] [repeat 120 N] []). split; [apply abs_a; apply Hx; discriminate|].
  split.
  { split; [exists []; now rewrite app_nil_r|]. split; [left; lia|]. split; intros; lia. }
  intros mem0 flags Hm.
  assert (F9 : firstn 9 t = zs "http://a/").
  { unfold t. change 9%nat with (length (zs "http://a/")). rewrite firstn_app, Nat.sub_diag, firstn_O, app_nil_r. reflexivity. }
  destruct (C123_absolute_long mem0 t (length t) 9 flags (mkParts (zs "http://") [97] [[]] [])) as [x [Ex Hxt]].
  - lia.
  - exact Hm.
  - rewrite Lt, Nat2Z.inj_add, HN. change (Z.of_nat 9 + 2 ^ 32) with (9 + 1 * 2 ^ 32). rewrite Z.mod_add by lia. reflexivity.
  - lia.
  - rewrite F9. split; [exists (repeat 120 N); reflexivity|]. split; [left; lia|]. split; intros; cbn; lia.
  - lia.
  - rewrite F9. exact (abs_a [] (fun F => F) (fun F => F) (fun F => F)).
  - exists x. split; [exact Ex|]. split; [rewrite Hxt; destruct (fetchable flags); reflexivity|].
    unfold normal. cbn [p_scheme p_host p_segs p_args]. intros F. apply (f_equal (@length Z)) in F.
    assert (G : (N <= length (normal_path (fetchable flags) [repeat 120%Z N]))%nat).
    { unfold normal_path, walk_segs. cbn [fold_left].
      assert (W : walk_seg [] (repeat 120 N) = [repeat 120 N]).
      { destruct N as [|n]; [cbn in HN; lia|]. cbn [repeat]. unfold walk_seg. reflexivity. }
      rewrite W. rewrite app_length. unfold render. cbn [map concat]. rewrite app_nil_r. cbn [length]. rewrite repeat_length. lia. }
    rewrite !app_length in F. cbn [length] in F. change (length (zs "http://a/")) with 9%nat in F.
    change (length (zs "http://")) with 7%nat in F. lia.
Qed.
Theorem C123_long_text_refuted : exists t parts, absolute t parts /\ readable t t 8 /\
  forall mem0 flags, length mem0 = abs_size (length t) ->
  exists x, create_absolute32 (Some mem0) None (Some t) (length t) flags = Ok (0, Some x) /\
    url_text x = zs "http://a/" /\ normal (fetchable flags) parts <> zs "http://a/".
Proof. exact (long_text_refuted_N (Z.to_nat (2 ^ 32)) (Z2Nat.id (2 ^ 32) ltac:(lia))). Qed.
Print Assumptions C123_long_text_refuted.

(** ** Copies: the sum of the lengths wraps *)

Definition obj_small (o : obj) : Prop := Z.of_nat (o_len o) + Z.of_nat (o_dlen o) + 2 < 2 ^ 32.
Definition op_small (o : oop) : Prop :=
  match o with OCreate _ (Some x) => Z.of_nat (u_len x) + Z.of_nat (u_dlen x) + 2 < 2 ^ 32 | _ => True end.
Definition all_small (e : objs) : Prop := forall i o, nth_error e i = Some (Some o) -> obj_small o.

Lemma all_small_app : forall e o, all_small e -> obj_small o -> all_small (e ++ [Some o]).
Proof.
  intros e o He Ho i o' H. destruct (Nat.lt_ge_cases i (length e)) as [L|L].
  - rewrite nth_error_app1 in H by exact L. exact (He i o' H).
  - rewrite nth_error_app2 in H by exact L. destruct (i - length e)%nat as [|[|k]]; cbn in H; try discriminate. injection H as <-. exact Ho.
Qed.
Lemma all_small_wr : forall e e' i x, all_small e -> wr e i x = Ok e' -> (forall o, x = Some o -> obj_small o) -> all_small e'.
Proof.
  intros e e' i x He Hw Hx j o H. apply wr_inv in Hw. destruct Hw as [Li ->].
  destruct (Nat.eq_dec j i) as [->|N].
  - rewrite nth_error_upd_same in H by exact Li. injection H as ->. auto.
  - rewrite nth_error_upd_other in H by congruence. exact (He j o H).
Qed.
Lemma o_get_nth : forall e i o, o_get e i = Ok o -> nth_error e i = Some (Some o).
Proof.
  intros e i o H. unfold o_get in H. apply bind_inv in H. destruct H as [x [E H]]. apply rd_inv in E.
  destruct x; [injection H as <-; exact E|discriminate].
Qed.
Lemma none_small : obj_small o_none.
Proof. unfold obj_small. cbn [o_none o_len o_dlen]. lia. Qed.

Lemma step_agree : forall st o, all_small (snd st) -> o_step32 true st o = o_step st o.
Proof.
  intros [h e] o He. destruct o; cbn [o_step32 o_step]; try reflexivity.
  - unfold o_copy32, o_copy. apply bind_ext. intros u Hu. apply o_get_nth in Hu. specialize (He _ _ Hu). unfold obj_small in He.
    rewrite w32_small by lia. reflexivity.
  - unfold o_assign32, o_assign. apply bind_ext. intros this _. apply bind_ext. intros h' _. apply bind_ext. intros u Hu.
    apply o_get_nth in Hu. specialize (He _ _ Hu). unfold obj_small in He. rewrite w32_small by lia. reflexivity.
Qed.
Lemma step_small : forall st o st', all_small (snd st) -> op_small o -> o_step st o = Ok st' -> all_small (snd st').
Proof.
  intros [h e] o st' He Ho H. destruct o; cbn [o_step] in H.
  - injection H as <-. apply all_small_app; [exact He|exact none_small].
  - unfold o_copy in H. apply bind_inv in H. destruct H as [u [Hu H]]. apply o_get_nth in Hu. specialize (He _ _ Hu) as Hs.
    destruct (o_len u =? 0)%nat; [injection H as <-; apply all_small_app; [exact He|exact none_small]|].
    cbn [h_malloc] in H. apply bind_inv in H. destruct H as [s [_ H]]. apply bind_inv in H. destruct H as [h' [_ H]].
    injection H as <-. apply all_small_app; [exact He|exact Hs].
  - unfold o_assign in H. apply bind_inv in H. destruct H as [this [_ H]]. apply bind_inv in H. destruct H as [h1 [_ H]].
    apply bind_inv in H. destruct H as [u [Hu H]]. apply o_get_nth in Hu. specialize (He _ _ Hu) as Hs.
    destruct (o_len u =? 0)%nat.
    + apply bind_inv in H. destruct H as [e' [He' H]]. injection H as <-.
      apply (all_small_wr _ _ _ _ He He'). intros o E. injection E as <-. exact none_small.
    + cbn [h_malloc] in H. apply bind_inv in H. destruct H as [e' [He' H]]. apply bind_inv in H. destruct H as [u' [_ H]].
      apply bind_inv in H. destruct H as [s [_ H]]. apply bind_inv in H. destruct H as [h2 [_ H]]. injection H as <-.
      apply (all_small_wr _ _ _ _ He He'). intros o E. injection E as <-. exact Hs.
  - unfold o_destroy in H. apply bind_inv in H. destruct H as [this [_ H]]. apply bind_inv in H. destruct H as [h1 [_ H]].
    apply bind_inv in H. destruct H as [e' [He' H]]. injection H as <-. apply (all_small_wr _ _ _ _ He He'). intros o E. discriminate.
  - unfold o_create in H. apply bind_inv in H. destruct H as [this [_ H]].
    assert (Rel : (h' <- o_release h this ;; e' <- wr e i (Some o_none) ;; Ok (h', e')) = Ok st' -> all_small (snd st')).
    { clear H. intros H. apply bind_inv in H. destruct H as [h1 [_ H]]. apply bind_inv in H. destruct H as [e' [He' H]].
      injection H as <-. apply (all_small_wr _ _ _ _ He He'). intros o E. injection E as <-. exact none_small. }
    destruct r as [x|]; [|exact (Rel H)]. destruct (o_len this =? 0)%nat; [|exact (Rel H)].
    cbn [h_malloc] in H. apply bind_inv in H. destruct H as [h1 [_ H]]. apply bind_inv in H. destruct H as [e' [He' H]].
    injection H as <-. apply (all_small_wr _ _ _ _ He He'). intros o E. injection E as <-. exact Ho.
Qed.
Lemma run_agree : forall ops st, all_small (snd st) -> Forall op_small ops -> o_run32 st ops = o_run st ops.
Proof.
  induction ops as [|o ops IH]; intros st He Ho; [reflexivity|]. inversion Ho; subst. cbn [o_run32 o_run].
  rewrite step_agree by exact He. apply bind_ext. intros st' Hst. apply IH; [|assumption].
  exact (step_small _ _ _ He H1 Hst).
Qed.

(** C41 for the 32-bit object: copies are values as long as every text and its domain take
    less than 2^32 - 2 bytes together *)
Theorem C123_copies_partial : forall ops vals w,
  Forall2 op_val ops vals -> Forall no_self_assign ops -> vrun [] vals w ->
  Forall (fun v => match v with VCreate _ (Some (t, d)) => Z.of_nat (length t) + Z.of_nat (length d) + 2 < 2 ^ 32 | _ => True end) vals ->
  exists st, o_run32 ([], []) ops = Ok st /\
    (forall i t d, nth_error w i = Some (Some (Some (t, d))) ->
       o_url st i = Ok (map Some (t ++ [0])) /\ o_dom st i = Ok (map Some (d ++ [0]))) /\
    (forall i, nth_error w i = Some (Some None) -> o_url st i = Ok [Some 0] /\ o_dom st i = Ok [Some 0]).
Proof.
  intros ops vals w Hv Hn Hw Hs. destruct (C41_value_semantics_partial ops vals w Hv Hn Hw) as [st [E [A [B _]]]].
  exists st. split; [|split; assumption]. rewrite run_agree; [exact E|intros i o F; destruct i; discriminate|].
  clear - Hv Hs. induction Hv as [|o v ops vals H _ IH]; [constructor|]. inversion Hs; subst. constructor; [|apply IH; assumption].
  destruct o as [| | | |i [x|]]; cbn [op_small]; try exact I. destruct v as [| | | |j [[t d]|]]; cbn [op_val] in H; try contradiction.
  destruct H as [_ [_ [j' ->]]]. cbn [u_len u_dlen]. assumption.
Qed.
Print Assumptions C123_copies_partial.

(** a host of 2 GB: the copy gets a block of a few bytes, and reading its text leaves it *)
Lemma abs_host : forall n, (0 < n)%nat -> absolute (zs "http://" ++ repeat 97 n) (mkParts (zs "http://") (repeat 97 n) [[]] []).
Proof.
  intros n Hn.
  assert (Lo : map lower (repeat 97 n) = repeat 97 n) by (clear Hn; induction n as [|n IH]; [reflexivity|cbn [repeat map]; rewrite IH; reflexivity]).
  rewrite <- Lo at 2.
  apply (absolute_intro _ (zs "http://") (repeat 97 n) (repeat 97 n) [] (repeat 97 n) [] [] [[]] []).
  - left. split; [reflexivity|]. generalize (zs "http://"). intros l. induction l; [constructor|constructor; [left; reflexivity|assumption]].
  - exists []. rewrite app_nil_r. split; [reflexivity|]. split; [intros F; apply in_repeat in F; discriminate|left; reflexivity].
  - cbn [app]. now rewrite app_nil_r.
  - constructor.
  - constructor.
  - split.
    + destruct n as [|n]; [lia|]. cbn. discriminate.
    + destruct n as [|n]; [lia|]. replace (repeat 97 (S n)) with (repeat 97 n ++ [97]).
      * rewrite last_last. discriminate.
      * clear. induction n as [|n IH]; [reflexivity|]. cbn [repeat app]. f_equal. exact IH.
  - apply Forall_forall. intros c F. apply in_repeat in F. subst c. unfold host_char. lia.
  - intros F. reflexivity.
  - intros c F. discriminate.
  - cbn [add_slash]. split; [reflexivity|]. split; [discriminate|].
    split; [constructor; [intros []|constructor]|]. split; [constructor; [intros []|constructor]|left; reflexivity].
Qed.
Lemma domain_plain : forall h d, ~ In 46 h -> domain_of h d -> d = h.
Proof. intros h d Hn Hd. exact (C38_domain_determined h d h Hd (dom_none h Hn)). Qed.

Lemma copy_wraps : forall h e src u l, o_get e src = Ok u -> o_blk u = Some l ->
  (forall id, (exists b, nth_error h id = Some (Some b) /\ (o_len u + o_dlen u + 2 <= length b)%nat) -> id = l ->
   (o_len u <> 0)%nat -> 2 ^ 32 <= Z.of_nat (o_len u) + Z.of_nat (o_dlen u) + 2 < 2 * 2 ^ 32 -> Z.of_nat (o_dlen u) + 1 < 2 ^ 32 ->
   exists st, o_copy32 true (h, e) src = Ok st /\ o_url st (length e) = Ub OobRead).
Proof.
  intros h e src u l Hu Hb id [b [Hid Hlen]] -> Hne Hw Hd. unfold o_copy32. rewrite Hu. cbn [bind].
  destruct (Nat.eqb_spec (o_len u) 0) as [F0|_]; [contradiction|]. set (n := w32 (o_len u + o_dlen u + 2)).
  assert (Hn : Z.of_nat n = Z.of_nat (o_len u) + Z.of_nat (o_dlen u) + 2 - 2 ^ 32).
  { unfold n, w32. rewrite Z2Nat.id by (apply Z.mod_pos_bound; lia). rewrite !Nat2Z.inj_add.
    symmetry. apply Z.mod_unique with (q := 1); [left; lia|change (Z.of_nat 2) with 2; lia]. }
  cbn [h_malloc]. rewrite Hb.
  assert (Hl : (l < length h)%nat) by (apply nth_error_Some; congruence).
  unfold h_read at 1. rewrite (rd_some _ _ l (Some b)) by (rewrite nth_error_app1 by exact Hl; exact Hid). cbn [bind].
  destruct (Nat.leb_spec n (length b)); [|lia]. cbn [bind]. unfold h_store.
  rewrite wr_ok by (rewrite app_length; cbn; lia). cbn [bind].
  eexists. split; [reflexivity|]. unfold o_url, o_get. rewrite rd_app by reflexivity. cbn [bind o_len o_blk].
  destruct (Nat.eqb_spec (o_len u) 0); [contradiction|]. unfold h_read.
  rewrite upd_snoc. rewrite rd_app by reflexivity. cbn [bind].
  destruct (Nat.leb_spec (o_len u + 1) (length (firstn n b))) as [F|F]; [|reflexivity].
  rewrite firstn_length in F. lia.
Qed.

Lemma copy_refuted_N : forall N, Z.of_nat N = 2 ^ 31 -> exists t parts, absolute t parts /\ readable t t 8 /\ Z.of_nat (length t) + 8 < 2 ^ 32 /\
  forall mem0 flags, length mem0 = abs_size (length t) ->
  exists x, create_absolute32 (Some mem0) None (Some t) (length t) flags = Ok (0, Some x) /\
    url_text x = normal (fetchable flags) parts /\
    exists st, o_run32 ([], []) [ONew; OCreate 0 (Some x); OCopy 0] = Ok st /\ o_url st 1 = Ub OobRead.
Proof.
  intros N HN.
  set (t := zs "http://" ++ repeat 97 N).
  assert (Lt : length t = (7 + N)%nat) by (unfold t; rewrite app_length, repeat_length; reflexivity).
  set (parts := mkParts (zs "http://") (repeat 97 N) [[]] []).
  assert (Ha : absolute t parts) by (apply abs_host; lia).
  assert (Hr : readable t t 8).
  { split; [exists []; now rewrite app_nil_r|]. split; [left; lia|]. split; intros; lia. }
  exists t, parts. split; [exact Ha|]. split; [exact Hr|]. split; [lia|]. intros mem0 flags Hm.
  destruct (C123_absolute_partial mem0 t t flags parts ltac:(lia) Hr ltac:(intros F; rewrite F in Lt; cbn in Lt; lia) Hm Ha)
    as [x [Ex [Tx [Dx Hx]]]].
  exists x. split; [exact Ex|]. split; [exact Tx|].
  apply domain_plain in Dx; [|cbn [parts p_host]; intros F; apply in_repeat in F; discriminate]. cbn [parts p_host] in Dx.
  destruct Hx as [_ [d [j [_ Hx]]]]. rewrite norm_text in Hx.
  assert (Ln : length (normal (fetchable flags) parts) = (8 + N)%nat).
  { unfold normal, parts. cbn [p_scheme p_host p_segs p_args]. change (normal_path (fetchable flags) [[]]) with [47].
    rewrite !app_length, repeat_length. cbn [length]. change (length (zs "http://")) with 7%nat. lia. }
  assert (Ld : length d = N).
  { apply (f_equal (@length Z)) in Dx. rewrite Hx in Dx. unfold url_domain in Dx. cbn [u_dlen u_dom u_mem] in Dx.
    rewrite repeat_length in Dx. rewrite firstn_length, skipn_length, app_length in Dx. cbn [length] in Dx. rewrite app_length in Dx. cbn [length] in Dx. lia. }
  clear Tx Ex. set (nt := normal (fetchable flags) parts) in *. clearbody nt.
  cbn [o_run32 o_step32 o_new bind app o_create o_get rd nth_error o_none o_len].
  cbn [o_create]. unfold o_create. cbn [o_get rd nth_error bind o_none o_len Nat.eqb h_malloc app length].
  unfold h_store. cbn [wr length Nat.ltb Nat.leb upd bind].
  rewrite Hx. cbn [u_mem u_len u_dlen].
  set (h := [Some (map Some (nt ++ 0 :: d ++ 0 :: j))]).
  set (o := mkObj (Some 0%nat) (length nt) (length d)).
  destruct (copy_wraps h [Some o] 0 o 0 eq_refl eq_refl 0) as [st [E1 E2]].
  - eexists. split; [reflexivity|]. cbn [o o_len o_dlen]. rewrite map_length, app_length. cbn [length]. rewrite app_length. cbn [length]. lia.
  - reflexivity.
  - cbn [o o_len]. lia.
  - cbn [o o_len o_dlen]. lia.
  - cbn [o o_dlen]. lia.
  - exists st. split; [|exact E2]. exact (eq_trans (f_equal (fun r => bind r (fun s => o_run32 s [])) E1) eq_refl).
Qed.
Theorem C123_copy_refuted : exists t parts, absolute t parts /\ readable t t 8 /\ Z.of_nat (length t) + 8 < 2 ^ 32 /\
  forall mem0 flags, length mem0 = abs_size (length t) ->
  exists x, create_absolute32 (Some mem0) None (Some t) (length t) flags = Ok (0, Some x) /\
    url_text x = normal (fetchable flags) parts /\
    exists st, o_run32 ([], []) [ONew; OCreate 0 (Some x); OCopy 0] = Ok st /\ o_url st 1 = Ub OobRead.
Proof. exact (copy_refuted_N (Z.to_nat (2 ^ 31)) (Z2Nat.id (2 ^ 31) ltac:(lia))). Qed.
Print Assumptions C123_copy_refuted.

(** ** C124: no memory

    A failing malloc is not noticed: a call that needs the block writes through the null
    pointer.  Only calls that need none, and references that are refused, return. *)
Lemma scheme_no_memory : forall u sz flags, enough u 8 -> create_scheme32 None u sz flags = Ub NullDeref.
Proof.
  intros u sz flags Hu. unfold create_scheme32.
  destruct (starts_dec u (zs "https://") 8 ltac:(discriminate) https_nonul eq_refl Hu) as [[E _]|[E _]]; rewrite E; cbn [bind]; [reflexivity|].
  destruct (starts_dec u (zs "http://") 7 ltac:(discriminate) http_nonul eq_refl (enough_le u 7 8 Hu ltac:(lia))) as [[E2 _]|[E2 _]];
    rewrite E2; reflexivity.
Qed.
Theorem C124_absolute_refuted : forall u sz flags, (0 < sz)%nat -> enough u 8 ->
  create_absolute32 None None (Some u) sz flags = Ub NullDeref.
Proof.
  intros u sz flags Hsz Hu. unfold create_absolute32. destruct sz as [|k]; [lia|]. rewrite scheme_no_memory by exact Hu. reflexivity.
Qed.
Print Assumptions C124_absolute_refuted.

Lemma suburl_no_memory : forall b u sz flags parent x, create_suburl b u sz flags parent = Ok (Some x) ->
  create_suburl32 None u sz flags parent = Ub NullDeref.
Proof.
  intros b u sz flags parent x H. unfold create_suburl in H. unfold create_suburl32.
  apply bind_inv in H. destruct H as [t1 [-> H]]. cbn [bind]. destruct t1; [discriminate|].
  apply bind_inv in H. destruct H as [t2 [-> H]]. cbn [bind]. destruct t2; [discriminate|].
  apply bind_inv in H. destruct H as [c [-> H]]. cbn [bind]. destruct (c =? 35); [discriminate|].
  apply bind_inv in H. destruct H as [c4 [-> H]]. cbn [bind]. cbv zeta in *.
  apply bind_inv in H. destruct H as [n [-> H]]. cbn [bind].
  apply bind_inv in H. destruct H as [r [-> H]]. cbn [bind].
  apply bind_inv in H. destruct H as [sd [-> H]]. cbn [bind].
  apply bind_inv in H. destruct H as [r2 [-> H]]. cbn [bind].
  cbn [bind] in H. apply bind_inv in H. destruct H as [pub [-> _]]. reflexivity.
Qed.
Theorem C124_relative_exact : forall u sz flags parent P, (0 < sz)%nat -> enough u 11 -> (sz <= length u)%nat ->
  is_url parent P -> plain_scheme P ->
  create_relative32 None None (Some u) sz flags (Some parent) = Ok (-1, None) /\ ~ has_any_scheme u /\ refused u \/
  create_relative32 None None (Some u) sz flags (Some parent) = Ub NullDeref /\ (has_any_scheme u \/ ~ refused u).
Proof.
  intros u sz flags parent P Hsz Hu Hlen HP Hpl. unfold create_relative32. destruct sz as [|k]; [lia|]. set (sz := S k) in *.
  destruct (http_prefix u (enough_le u 8 11 Hu ltac:(lia))) as [t1 [E1 [[E2 Hs]|[E2 Hns]]]].
  - right. split; [|left; exact Hs]. rewrite E1. cbn [bind]. rewrite E2. cbn [bind].
    rewrite scheme_no_memory by exact (enough_le u 8 11 Hu ltac:(lia)). reflexivity.
  - rewrite E1. cbn [bind]. rewrite E2. cbn [bind].
    assert (D : refused u \/ ~ refused u).
    { unfold refused.
      destruct (starts_dec u (zs "mailto:") 7 ltac:(discriminate) ltac:(repeat constructor; discriminate) eq_refl (enough_le u 7 11 Hu ltac:(lia)))
        as [[_ F]|[_ F]]; [left; left; exact F|].
      destruct (starts_dec u (zs "javascript:") 11 ltac:(discriminate) ltac:(repeat constructor; discriminate) eq_refl Hu)
        as [[_ G]|[_ G]]; [left; right; left; exact G|].
      destruct (Z.eq_dec (hd 0 u) 35) as [K|K]; [left; right; right; exact K|right; tauto]. }
    destruct D as [Hr|Hr].
    + left. split; [|split; [exact Hns|exact Hr]].
      enough (E : create_suburl32 None u sz flags parent = Ok None) by (rewrite E; reflexivity).
      unfold create_suburl32.
      destruct (starts_dec u (zs "mailto:") 7 ltac:(discriminate) ltac:(repeat constructor; discriminate) eq_refl (enough_le u 7 11 Hu ltac:(lia)))
        as [[E _]|[E N1]]; rewrite E; cbn [bind]; [reflexivity|].
      destruct (starts_dec u (zs "javascript:") 11 ltac:(discriminate) ltac:(repeat constructor; discriminate) eq_refl Hu)
        as [[E3 _]|[E3 N2]]; rewrite E3; cbn [bind]; [reflexivity|].
      destruct Hr as [F|[F|F]]; [contradiction|contradiction|].
      destruct u as [|c u]; [discriminate|]. cbn in F. subst c. reflexivity.
    + right. split; [|right; exact Hr].
      set (t := firstn sz u).
      assert (Lt : sz = length t) by (unfold t; rewrite firstn_length; lia).
      assert (Rt : readable u t 11).
      { split; [exists (skipn sz u); symmetry; apply firstn_skipn|]. split; [exact Hu|].
        unfold has_any_scheme in Hns. split; intros s r Hs; exfalso; apply Hns; eauto. }
      destruct (relative_ex P t ltac:(lia)) as [parts Hrel].
      destruct (create_suburl_ok (mem (rel_size sz parent)) u t sz flags parent P parts Rt Lt ltac:(lia) HP Hpl Hr Hrel) as [x [Ex _]].
      { unfold mem. rewrite repeat_length. lia. }
      rewrite (suburl_no_memory _ _ _ _ _ _ Ex). reflexivity.
Qed.
Print Assumptions C124_relative_exact.

(** a copy of a URL; the copy of an empty object needs no memory *)
Theorem C124_copy_exact : forall h e src u, o_get e src = Ok u ->
  o_copy32 false (h, e) src = if (o_len u =? 0)%nat then Ok (h, e ++ [Some o_none]) else Ub NullDeref.
Proof. intros h e src u H. unfold o_copy32. rewrite H. cbn [bind]. destruct (o_len u =? 0)%nat; reflexivity. Qed.
Theorem C124_assign_exact : forall h e dst src this u, o_get e dst = Ok this -> o_get e src = Ok u ->
  (forall id, o_blk this = Some id -> exists l, nth_error h id = Some (Some l)) ->
  o_len u <> 0%nat -> o_assign32 false (h, e) dst src = Ub NullDeref.
Proof.
  intros h e dst src this u Hd Hs Hb Hn. unfold o_assign32. rewrite Hd. cbn [bind]. unfold o_release.
  destruct (o_blk this) as [id|].
  - destruct (Hb id eq_refl) as [l Hl]. unfold h_free. rewrite (rd_some _ _ _ _ Hl). cbn [bind].
    rewrite wr_ok by (apply nth_error_Some; congruence). cbn [bind]. rewrite Hs. cbn [bind].
    destruct (Nat.eqb_spec (o_len u) 0); [contradiction|reflexivity].
  - cbn [bind]. rewrite Hs. cbn [bind]. destruct (Nat.eqb_spec (o_len u) 0); [contradiction|reflexivity].
Qed.
Print Assumptions C124_copy_exact.
Print Assumptions C124_assign_exact.
(** a parent and a reference that meet the hypotheses *)
Example C124_ex :
  create_absolute32 None None (Some (zs "host.org/dir" ++ [0])) 12 0 = Ub NullDeref /\
  create_absolute32 (Some (mem (abs_size 12))) None (Some (zs "host.org/dir" ++ [0])) 12 0
    = create_absolute (mem (abs_size 12)) None (Some (zs "host.org/dir" ++ [0])) 12 0.
Proof. split; vm_compute; reflexivity. Qed.
(** a concrete case of C123: parse, copy, and read the copy *)
Example C123_ex :
  shown (create_absolute32 (Some (mem (abs_size 13))) None (Some (zs "WWW.a.org/./b" ++ [0])) 13 0)
    = Ok (0, Some (zs "http://www.a.org/b", zs "a.org")) /\
  (st <- o_run32 ([], []) [ONew; OCreate 0 ex_url; OCopy 0; ODestroy 0] ;; o_url st 1)
    = Ok (map Some (zs "http://www.host.org/a" ++ [0])).
Proof. split; vm_compute; reflexivity. Qed.
