(** Lemmas about the string storage: memory (slots, blocks), search, insertion. *)

From Coq Require Import ZArith List Bool Lia.
From Verif Require Import Base SStore_Model SStore_Spec.
Import ListNotations.
Local Open Scope nat_scope.
Local Opaque block_size.

(** *** byte order of strings *)

Fixpoint scmp (s t : list Z) : Z :=
  match s, t with
  | [], [] => 0
  | [], d :: _ => 0 - d
  | c :: _, [] => c
  | c :: s, d :: t => if (c =? d)%Z then scmp s t else (c - d)%Z
  end.

Lemma key_inv : forall c k, key (c :: k) -> (0 < c < 256)%Z /\ key k.
Proof. intros c k H. inversion H; auto. Qed.

Ltac ki := repeat match goal with H : key (_ :: _) |- _ => apply key_inv in H; destruct H end.

Lemma scmp_refl : forall s, scmp s s = 0%Z.
Proof. induction s as [|c s IH]; simpl; auto. now rewrite Z.eqb_refl. Qed.

Lemma scmp_0 : forall s t, key s -> key t -> scmp s t = 0%Z -> s = t.
Proof.
  induction s as [|c s IH]; intros [|d t] Hs Ht H; simpl in *; ki; auto; try lia.
  destruct (Z.eqb_spec c d); [|lia]. subst. f_equal. auto.
Qed.

Lemma scmp_sym : forall s t, scmp t s = (- scmp s t)%Z.
Proof.
  induction s as [|c s IH]; intros [|d t]; simpl; auto; try lia.
  rewrite Z.eqb_sym. destruct (Z.eqb_spec c d); [auto | lia].
Qed.

Lemma scmp_trans : forall a b c, key a -> key b -> key c ->
  (scmp a b < 0)%Z -> (scmp b c < 0)%Z -> (scmp a c < 0)%Z.
Proof.
  induction a as [|x a IH]; intros [|y b] [|z c] Ha Hb Hc H1 H2; simpl in *; ki; try lia.
  destruct (Z.eqb_spec x y), (Z.eqb_spec y z), (Z.eqb_spec x z); subst; try lia; eauto.
Qed.

Lemma lcp_sym : forall a b, lcp a b = lcp b a.
Proof.
  induction a as [|x a IH]; intros [|y b]; simpl; auto. rewrite Z.eqb_sym.
  destruct (y =? x)%Z; auto.
Qed.
Lemma lcp_le_l : forall a b, lcp a b <= length a.
Proof.
  induction a as [|x a IH]; intros [|y b]; simpl; try lia.
  destruct (x =? y)%Z; [|lia]. specialize (IH b). lia.
Qed.
Lemma lcp_le_r : forall a b, lcp a b <= length b.
Proof. intros. rewrite lcp_sym. apply lcp_le_l. Qed.

Lemma lcp_firstn : forall a b n, n <= lcp a b -> firstn n a = firstn n b.
Proof.
  induction a as [|x a IH]; intros [|y b] n H; simpl in H; try (replace n with 0 by lia; reflexivity).
  destruct (Z.eqb_spec x y); [|replace n with 0 by lia; reflexivity].
  destruct n as [|n]; [reflexivity|]. simpl. subst. f_equal. apply IH. lia.
Qed.

(** a string between two others shares with the first what they share *)
Lemma lcp_between : forall a b c, key a -> key b -> key c ->
  (scmp a b < 0)%Z -> (scmp b c < 0)%Z -> lcp a c <= lcp a b.
Proof.
  induction a as [|x a IH]; intros [|y b] [|z c] Ha Hb Hc H1 H2; simpl in *; ki; try lia.
  destruct (Z.eqb_spec x y), (Z.eqb_spec y z), (Z.eqb_spec x z); subst; try lia.
  apply le_n_S. eauto.
Qed.

(** what shares more with a smaller string is smaller *)
Lemma lcp_less : forall a b c, key a -> key b -> key c ->
  (scmp a b < 0)%Z -> (scmp a c < 0)%Z -> lcp a c < lcp a b -> (scmp b c < 0)%Z.
Proof.
  intros a b c Ha Hb Hc H1 H2 H.
  destruct (Z.lt_trichotomy (scmp b c) 0) as [K | [K | K]]; auto.
  - apply scmp_0 in K; auto. subst. lia.
  - rewrite scmp_sym in K. assert (K' : (scmp c b < 0)%Z) by lia.
    pose proof (lcp_between a c b Ha Hc Hb H2 K'). lia.
Qed.

Lemma key_firstn : forall k n, key k -> key (firstn n k).
Proof. unfold key. intros k n H. rewrite <- (firstn_skipn n k) in H. apply Forall_app in H. tauto. Qed.
Lemma key_skipn : forall k n, key k -> key (skipn n k).
Proof. unfold key. intros k n H. rewrite <- (firstn_skipn n k) in H. apply Forall_app in H. tauto. Qed.

Lemma skipn_cstr : forall k n, n <= length k -> skipn n (cstr k) = cstr (skipn n k).
Proof.
  intros k n H. unfold cstr. rewrite skipn_app. replace (n - length k) with 0 by lia. reflexivity.
Qed.
Lemma cstr_length : forall k, length (cstr k) = S (length k).
Proof. intros. unfold cstr. rewrite app_length. simpl. lia. Qed.

(** *** slots in memory *)

Record slot := mkSl { sl_v : ptr; sl_p : nat; sl_s : list Z }.
Definition sl_len (uds : nat) (x : slot) : nat := uds + 2 + length (sl_s x).
Definition sl_b (x : slot) : nat := fst (sl_v x).
Definition sl_o (x : slot) : nat := snd (sl_v x).

Definition slot_in (sb : sblocks) (x : slot) : Prop :=
  exists b, nth_error (s_blocks sb) (sl_b x) = Some b /\
    sl_o x + sl_len (s_uds sb) x <= block_size /\
    nth_error b (sl_o x) = Some (Z.of_nat (sl_p x)) /\
    (forall i c, nth_error (cstr (sl_s x)) i = Some c ->
       nth_error b (sl_o x + (s_uds sb + 1) + i) = Some c) /\
    sl_p x < 256 /\ key (sl_s x).

Definition apart (uds : nat) (x y : slot) : Prop :=
  sl_b x <> sl_b y \/ sl_o x + sl_len uds x <= sl_o y \/ sl_o y + sl_len uds y <= sl_o x.

Definition capinv (cap cnt : nat) : Prop :=
  (cnt = 0 /\ cap = 0) \/ (1 <= cnt <= 2 /\ cap = 2) \/
  (3 <= cnt /\ cnt <= cap /\ cap <= cnt + 15 /\ exists k, cap = 16 * k).

Record inv (sb : sblocks) (L : list slot) : Prop := {
  i_len : Forall (fun b => length b = block_size) (s_blocks sb);
  i_cur : match s_cur sb with
          | None => s_blocks sb = [] /\ L = []
          | Some c => S c = length (s_blocks sb) /\
                      (forall b j, nth_error (s_blocks sb) c = Some b ->
                         s_used sb <= j -> j < block_size -> nth_error b j = Some 0%Z)
          end;
  i_used : s_used sb <= block_size;
  i_cap : capinv (s_bcap sb) (length (s_blocks sb));
  i_in : forall x, In x L -> slot_in sb x;
  i_low : forall x, In x L -> S (sl_b x) = length (s_blocks sb) ->
            sl_o x + sl_len (s_uds sb) x <= s_used sb;
  i_apart : ForallOrdPairs (apart (s_uds sb)) L }.

Lemma apart_in : forall u L x y, ForallOrdPairs (apart u) L -> In x L -> In y L ->
  x = y \/ apart u x y.
Proof.
  intros u L x y H Hx Hy. destruct (ForallOrdPairs_In H x y Hx Hy) as [K | [K | K]]; auto.
  right. unfold apart in *. lia.
Qed.

Lemma slots_same : forall u L x y, ForallOrdPairs (apart u) L -> In x L -> In y L ->
  sl_v x = sl_v y -> x = y.
Proof.
  intros u L x y H Hx Hy E. destruct (apart_in u L x y H Hx Hy) as [|K]; auto.
  exfalso. unfold apart, sl_b, sl_o, sl_len in K. rewrite E in K. lia.
Qed.

Definition peqb (p q : ptr) : bool := (fst p =? fst q) && (snd p =? snd q).
Lemma peqb_spec : forall p q, reflect (p = q) (peqb p q).
Proof.
  intros [a b] [c d]. unfold peqb. simpl.
  destruct (Nat.eqb_spec a c), (Nat.eqb_spec b d); simpl; constructor; congruence.
Qed.

Definition lab (L : list slot) (v : ptr) : nat * list Z :=
  match List.find (fun x => peqb (sl_v x) v) L with
  | Some x => (sl_p x, sl_s x)
  | None => (0, [])
  end.

Lemma lab_in : forall sb L x, inv sb L -> In x L -> lab L (sl_v x) = (sl_p x, sl_s x).
Proof.
  intros sb L x I H. unfold lab.
  destruct (List.find (fun y => peqb (sl_v y) (sl_v x)) L) as [y|] eqn:E.
  - apply find_some in E. destruct E as [Hy E]. destruct (peqb_spec (sl_v y) (sl_v x)); [|discriminate].
    assert (y = x) by (eapply slots_same; eauto; apply (i_apart _ _ I)). now subst.
  - exfalso. apply (find_none _ _ E) in H. destruct (peqb_spec (sl_v x) (sl_v x)); congruence.
Qed.

Lemma lab_cons : forall x L v, v <> sl_v x -> lab (x :: L) v = lab L v.
Proof.
  intros x L v H. unfold lab. simpl. destruct (peqb_spec (sl_v x) v); [congruence | reflexivity].
Qed.
Lemma lab_head : forall x L, lab (x :: L) (sl_v x) = (sl_p x, sl_s x).
Proof. intros. unfold lab. simpl. destruct (peqb_spec (sl_v x) (sl_v x)); [reflexivity | congruence]. Qed.

(** *** reads *)

Lemma strcmp_spec : forall sb s t b i v, key s -> key t ->
  nth_error (s_blocks sb) (fst v) = Some b -> snd v = i ->
  (forall j c, nth_error (cstr t) j = Some c -> nth_error b (i + j) = Some c) ->
  strcmp sb (cstr s) v = Ok (scmp s t).
Proof.
  intros sb. induction s as [|c s IH]; intros t b i v Hs Ht Hb Hi H.
  - cbn. unfold rdp. rewrite Hb. unfold rd. rewrite Hi.
    destruct t as [|d t]; cbn in *; ki.
    + rewrite <- (Nat.add_0_r i), (H 0 0%Z) by reflexivity. reflexivity.
    + rewrite <- (Nat.add_0_r i), (H 0 d) by reflexivity. destruct d; [lia| |lia]. reflexivity.
  - cbn [cstr app strcmp]. unfold rdp. rewrite Hb. unfold rd. rewrite Hi.
    destruct t as [|d t]; cbn [scmp]; ki.
    + rewrite <- (Nat.add_0_r i), (H 0 0%Z) by reflexivity. cbn [bind].
      destruct (Z.eqb_spec c 0); [lia|]. cbn [negb]. now rewrite Z.sub_0_r.
    + rewrite <- (Nat.add_0_r i), (H 0 d) by reflexivity. cbn [bind].
      destruct (Z.eqb_spec c d); cbn [negb]; [|reflexivity].
      destruct (Z.eqb_spec c 0); [lia|].
      apply IH with b (i + 1); auto.
      * cbn [padd snd]. lia.
      * intros j x Hj. replace (i + 1 + j) with (i + S j) by lia. apply H. exact Hj.
Qed.

Lemma common_spec : forall sb s t b i v, key s -> key t ->
  nth_error (s_blocks sb) (fst v) = Some b -> snd v = i ->
  (forall j c, nth_error (cstr t) j = Some c -> nth_error b (i + j) = Some c) ->
  common_prefix sb (cstr s) v = Ok (lcp t s).
Proof.
  intros sb. induction s as [|c s IH]; intros t b i v Hs Ht Hb Hi H.
  - cbn. now destruct t.
  - cbn [cstr app common_prefix]. ki. destruct (Z.eqb_spec c 0); [lia|].
    unfold rdp. rewrite Hb. unfold rd. rewrite Hi.
    destruct t as [|d t]; cbn [lcp]; ki.
    + rewrite <- (Nat.add_0_r i), (H 0 0%Z) by reflexivity. cbn [bind].
      destruct (Z.eqb_spec c 0); [lia|]. reflexivity.
    + rewrite <- (Nat.add_0_r i), (H 0 d) by reflexivity. cbn [bind].
      rewrite (Z.eqb_sym d c). destruct (Z.eqb_spec c d); [|reflexivity].
      rewrite (IH t b (i + 1)); auto.
      * cbn [padd snd]. lia.
      * intros j x Hj. replace (i + 1 + j) with (i + S j) by lia. apply H. exact Hj.
Qed.

Lemma slot_strcmp : forall sb x s, slot_in sb x -> key s ->
  strcmp sb (cstr s) (padd (sl_v x) (s_uds sb + 1)) = Ok (scmp s (sl_s x)).
Proof.
  intros sb x s (b & Hb & Hl & Hp & Hs & _ & Hk) K.
  eapply strcmp_spec with (b := b); eauto.
Qed.
Lemma slot_common : forall sb x s, slot_in sb x -> key s ->
  common_prefix sb (cstr s) (padd (sl_v x) (s_uds sb + 1)) = Ok (lcp (sl_s x) s).
Proof.
  intros sb x s (b & Hb & Hl & Hp & Hs & _ & Hk) K.
  eapply common_spec with (b := b); eauto.
Qed.
Lemma slot_prev : forall sb x, slot_in sb x -> rdp sb (sl_v x) = Ok (Z.of_nat (sl_p x)).
Proof.
  intros sb x (b & Hb & Hl & Hp & _). unfold rdp. unfold sl_b, sl_o in *. rewrite Hb. unfold rd.
  now rewrite Hp.
Qed.

(** *** the search *)

Definition known (L : list slot) (x : node) : Prop := In (n_val x) (map sl_v L).

Lemma known_slot : forall L x, known L x -> exists sl, In sl L /\ sl_v sl = n_val x.
Proof. intros L x H. apply in_map_iff in H. destruct H as (sl & E & H). eauto. Qed.

(** where the string [s] with [prev] belongs relative to the node: 0 is here *)
Definition side (L : list slot) (prev : nat) (s : list Z) (x : node) : Z :=
  let (p, t) := lab L (n_val x) in
  if p =? prev then scmp s t else (Z.of_nat p - Z.of_nat prev)%Z.

Definition left_of (L : list slot) prev s kids (i : nat) : Prop :=
  i = 0 \/ exists x, nth_error kids (i - 1) = Some x /\ (side L prev s x > 0)%Z.
Definition right_of (L : list slot) prev s kids (i : nat) : Prop :=
  i = length kids \/ exists x, nth_error kids i = Some x /\ (side L prev s x < 0)%Z.

Definition search_post (L : list slot) prev s (kids : list node) (o : nat + nat) : Prop :=
  match o with
  | inl m => exists x, nth_error kids m = Some x /\ side L prev s x = 0%Z
  | inr g => g <= length kids /\ left_of L prev s kids g /\ right_of L prev s kids g
  end.

Lemma search_spec : forall sb L kids prev s, inv sb L -> key s -> Forall (known L) kids ->
  forall fuel b e, b <= e <= length kids -> e - b < fuel ->
  left_of L prev s kids b -> right_of L prev s kids e ->
  exists o, search fuel sb kids prev (cstr s) b e = Ok o /\ search_post L prev s kids o.
Proof.
  intros sb L kids prev s I K F. induction fuel as [|fuel IH]; intros b e Hbe Hf HL HR; [lia|].
  cbn [search]. destruct (Nat.ltb_spec b e).
  2: { assert (b = e) by lia. subst. exists (inr e). split; [reflexivity|]. simpl. split; [lia|auto]. }
  set (mid := (b + e) / 2).
  assert (Hm : b <= mid < e).
  { unfold mid. split; [apply Nat.div_le_lower_bound; lia | apply Nat.div_lt_upper_bound; lia]. }
  destruct (nth_error kids mid) as [x|] eqn:Ex.
  2: { apply nth_error_None in Ex. lia. }
  unfold rd. rewrite Ex. cbn [bind].
  assert (Kx : known L x) by (rewrite Forall_forall in F; apply F; eapply nth_error_In; eauto).
  destruct (known_slot _ _ Kx) as (sl & Hsl & Esl).
  pose proof (i_in _ _ I _ Hsl) as Hin. rewrite <- Esl.
  rewrite slot_strcmp by auto. cbn [bind]. rewrite slot_prev by auto. cbn [bind].
  assert (Hside : side L prev s x = if sl_p sl =? prev then scmp s (sl_s sl)
                                   else (Z.of_nat (sl_p sl) - Z.of_nat prev)%Z).
  { unfold side. rewrite <- Esl, (lab_in _ _ _ I Hsl). reflexivity. }
  destruct (Nat.eqb_spec (sl_p sl) prev) as [Ep | Ep].
  - rewrite Ep, Z.eqb_refl, andb_true_r.
    destruct (Z.eqb_spec (scmp s (sl_s sl)) 0).
    + exists (inl mid). split; [reflexivity|]. exists x. split; auto. lia.
    + destruct (Z.ltb_spec (scmp s (sl_s sl)) 0).
      * apply IH; auto; try lia. right. exists x. split; auto. lia.
      * apply IH; auto; try lia. right. exists x.
        replace (mid + 1 - 1) with mid by lia. split; auto. lia.
  - destruct (Z.eqb_spec (Z.of_nat (sl_p sl)) (Z.of_nat prev)); [lia|].
    rewrite andb_false_r.
    destruct (Z.ltb_spec (Z.of_nat (sl_p sl)) (Z.of_nat prev)).
    + apply IH; auto; try lia. right. exists x. split; auto. lia.
    + apply IH; auto; try lia. right. exists x.
      replace (mid + 1 - 1) with mid by lia. split; auto. lia.
Qed.

Lemma search_ok : forall sb L kids prev s, inv sb L -> key s -> Forall (known L) kids ->
  exists o, search (S (length kids)) sb kids prev (cstr s) 0 (length kids) = Ok o /\
            search_post L prev s kids o.
Proof.
  intros. eapply search_spec; eauto; try lia; [left | left]; reflexivity.
Qed.

(** *** writes *)

Lemma wrbs_ok : forall l b i, i + length l <= length b ->
  exists b', wrbs b i l = Ok b' /\ length b' = length b /\
    forall j, nth_error b' j =
      if (i <=? j) && (j <? i + length l) then nth_error l (j - i) else nth_error b j.
Proof.
  induction l as [|x l IH]; intros b i H; cbn [wrbs length] in *.
  - exists b. split; [reflexivity|]. split; [reflexivity|]. intros j.
    destruct (Nat.leb_spec i j), (Nat.ltb_spec j (i + 0)); simpl; auto; lia.
  - rewrite wr_ok by lia. cbn [bind].
    destruct (IH (upd b i x) (S i)) as (b' & E & El & Hn); [rewrite upd_length; lia|].
    exists b'. split; [exact E|]. split; [now rewrite El, upd_length|].
    intros j. rewrite Hn.
    destruct (Nat.eq_dec j i) as [-> | Hji].
    + destruct (Nat.leb_spec (S i) i); [lia|]. cbn [andb].
      rewrite nth_error_upd_same by lia.
      destruct (Nat.leb_spec i i), (Nat.ltb_spec i (i + S (length l))); try lia. cbn.
      now rewrite Nat.sub_diag.
    + rewrite nth_error_upd_other by lia.
      destruct (Nat.leb_spec (S i) j), (Nat.leb_spec i j), (Nat.ltb_spec j (S i + length l)),
        (Nat.ltb_spec j (i + S (length l))); cbn [andb]; try lia; auto.
      replace (j - i) with (S (j - S i)) by lia. reflexivity.
Qed.

Definition set_blocks (sb : sblocks) bs : sblocks :=
  mkSb (s_uds sb) (s_used sb) (s_cur sb) bs (s_bcap sb).

Lemma wrp_ok : forall sb v b l, nth_error (s_blocks sb) (fst v) = Some b ->
  snd v + length l <= length b ->
  exists b', wrp sb v l = Ok (set_blocks sb (upd (s_blocks sb) (fst v) b')) /\
    length b' = length b /\
    forall j, nth_error b' j =
      if (snd v <=? j) && (j <? snd v + length l) then nth_error l (j - snd v) else nth_error b j.
Proof.
  intros sb v b l Hb Hl. destruct (wrbs_ok l b (snd v) Hl) as (b' & E & El & Hn).
  exists b'. unfold wrp. rewrite Hb, E. cbn [bind]. split; [reflexivity|]. split; auto.
Qed.

Lemma grow_room : forall cap cnt, capinv cap cnt ->
  cnt < grow cap cnt /\ capinv (grow cap cnt) (S cnt).
Proof.
  intros cap cnt H. unfold grow, capinv in *.
  destruct (Nat.eqb_spec cnt 0); [subst; split; [lia | right; left; lia]|].
  destruct (Nat.eqb_spec cnt 2).
  { subst. split; [lia|]. right. right. repeat split; try lia. exists 1. reflexivity. }
  assert (Hland : Nat.land cnt 15 = cnt mod 16) by (apply (Nat.land_ones cnt 4)).
  rewrite Hland. pose proof (Nat.div_mod cnt 16 ltac:(lia)) as D.
  pose proof (Nat.mod_upper_bound cnt 16 ltac:(lia)) as D2.
  destruct (Nat.eqb_spec (cnt mod 16) 0).
  - split; [lia|]. right. right. repeat split; try lia. exists (cnt / 16 + 1). lia.
  - destruct H as [[H _] | [[H H1] | (H & H1 & H2 & k & Hk)]]; try lia.
    assert (cnt <> cap) by (intros ->; subst cap; rewrite Nat.mul_comm, Nat.mod_mul in n1; lia).
    split; [lia|]. right. right. repeat split; try lia. exists k. exact Hk.
Qed.

(** the user data of a slot *)
Definition udata (sb : sblocks) (v : ptr) (d : list Z) : Prop :=
  exists b, nth_error (s_blocks sb) (fst v) = Some b /\ length d = s_uds sb /\
    forall j, j < s_uds sb -> nth_error b (snd v + 1 + j) = nth_error d j.

Definition frame (sb sb' : sblocks) (L : list slot) : Prop :=
  s_uds sb' = s_uds sb /\ forall x d, In x L -> udata sb (sl_v x) d -> udata sb' (sl_v x) d.

Lemma frame_refl : forall sb L, frame sb sb L.
Proof. split; auto. Qed.

Lemma new_block_ok : forall sb L n, inv sb L -> 1 + n + s_uds sb <= block_size ->
  exists sb' c, new_block sb n = Ok sb' /\ inv sb' L /\ frame sb sb' L /\
    s_cur sb' = Some c /\ s_used sb' + 1 + n + s_uds sb <= block_size.
Proof.
  intros sb L n I Hn. unfold new_block.
  destruct (_ || _) eqn:E.
  - destruct (grow_room _ _ (i_cap _ _ I)) as [Hr Hc].
    destruct (Nat.ltb_spec (length (s_blocks sb)) (grow (s_bcap sb) (length (s_blocks sb)))); [|lia].
    eexists _, _. split; [reflexivity|]. cbn [s_cur s_used s_uds].
    assert (Hold : forall i b, nth_error (s_blocks sb) i = Some b ->
      nth_error (s_blocks sb ++ [repeat 0%Z block_size]) i = Some b).
    { intros i b Hi. rewrite nth_error_app1; auto. apply nth_error_Some. congruence. }
    split; [|split; [|split; [reflexivity|lia]]].
    + constructor; cbn [s_cur s_used s_uds s_blocks s_bcap].
      * apply Forall_app. split; [apply (i_len _ _ I)|]. constructor; [apply repeat_length | constructor].
      * split; [rewrite app_length; simpl; lia|]. intros b j Hb _ Hj.
        rewrite nth_error_app2, Nat.sub_diag in Hb by lia. cbn [nth_error] in Hb.
        assert (b = repeat 0%Z block_size) by congruence. subst b.
        apply nth_error_repeat; auto.
      * lia.
      * rewrite app_length. simpl. rewrite Nat.add_1_r. exact Hc.
      * intros x Hx. destruct (i_in _ _ I x Hx) as (b & Hb & R). exists b. split; auto.
      * intros x Hx K. destruct (i_in _ _ I x Hx) as (b & Hb & _).
        assert (sl_b x < length (s_blocks sb)) by (apply nth_error_Some; congruence).
        rewrite app_length in K. simpl in K. lia.
      * apply (i_apart _ _ I).
    + split; [reflexivity|]. intros x d Hx (b & Hb & R). exists b. split; auto.
  - apply orb_false_elim in E. destruct E as [E1 E2].
    apply Nat.ltb_ge in E2. destruct (s_cur sb) as [c|] eqn:Ec; [|discriminate].
    exists sb, c. repeat split; auto; try lia; apply I.
Qed.

Lemma inv_write : forall sb L bs, inv sb L ->
  forall c b b', nth_error (s_blocks sb) c = Some b -> bs = upd (s_blocks sb) c b' ->
  length b' = length b -> 
  (forall x j, In x L -> sl_b x = c ->
     (j = sl_o x \/ sl_o x + s_uds sb + 1 <= j < sl_o x + sl_len (s_uds sb) x) ->
     nth_error b' j = nth_error b j) ->
  (S c = length (s_blocks sb) -> forall j, s_used sb <= j -> nth_error b' j = nth_error b j) ->
  inv (set_blocks sb bs) L.
Proof.
  intros sb L bs I c b b' Hb -> El Hsame Htop.
  assert (Hc : c < length (s_blocks sb)) by (apply nth_error_Some; congruence).
  assert (Hlb : length b = block_size).
  { pose proof (i_len _ _ I) as F. rewrite Forall_forall in F. apply F. eapply nth_error_In; eauto. }
  constructor; cbn [set_blocks s_cur s_used s_uds s_blocks s_bcap].
  - apply Forall_forall. intros y Hy. apply In_nth_error in Hy. destruct Hy as [i Hi].
    destruct (Nat.eq_dec c i) as [<- | N].
    + rewrite nth_error_upd_same in Hi by auto. injection Hi as <-. congruence.
    + rewrite nth_error_upd_other in Hi by auto. pose proof (i_len _ _ I) as F.
      rewrite Forall_forall in F. apply F. eapply nth_error_In; eauto.
  - pose proof (i_cur _ _ I) as C. destruct (s_cur sb) as [c0|].
    + rewrite upd_length. destruct C as [C1 C2]. split; auto.
      intros y j Hy Hu Hj. destruct (Nat.eq_dec c c0) as [-> | N].
      * rewrite nth_error_upd_same in Hy by auto. injection Hy as <-.
        rewrite Htop by auto. eapply C2; eauto.
      * rewrite nth_error_upd_other in Hy by auto. eapply C2; eauto.
    + destruct C as [C1 C2]. rewrite C1 in Hc. simpl in Hc. lia.
  - apply (i_used _ _ I).
  - rewrite upd_length. apply (i_cap _ _ I).
  - intros x Hx. destruct (i_in _ _ I x Hx) as (y & Hy & Hl & Hp & Hs & R).
    destruct (Nat.eq_dec c (sl_b x)) as [E | N].
    + subst c. exists b'. rewrite Hb in Hy. injection Hy as <-.
      cbn [set_blocks s_cur s_used s_uds s_blocks s_bcap].
      rewrite nth_error_upd_same by auto. split; [reflexivity|]. split; auto.
      split; [rewrite (Hsame x) by auto; auto|]. split; auto.
      intros i ch Hi. assert (i < length (cstr (sl_s x))) by (apply nth_error_Some; congruence).
      rewrite cstr_length in *. rewrite (Hsame x); auto. right. unfold sl_len. lia.
    + exists y. cbn [set_blocks s_cur s_used s_uds s_blocks s_bcap].
      rewrite nth_error_upd_other by auto. auto.
  - intros x Hx. rewrite upd_length. apply (i_low _ _ I); auto.
  - apply (i_apart _ _ I).
Qed.

Lemma frame_write : forall sb L bs c b b', nth_error (s_blocks sb) c = Some b ->
  bs = upd (s_blocks sb) c b' ->
  (forall x j, In x L -> sl_b x = c -> j < s_uds sb ->
     nth_error b' (sl_o x + 1 + j) = nth_error b (sl_o x + 1 + j)) ->
  frame sb (set_blocks sb bs) L.
Proof.
  intros sb L bs c b b' Hb -> H. split; [reflexivity|].
  intros x d Hx (y & Hy & Hd & R).
  destruct (Nat.eq_dec c (fst (sl_v x))) as [E | N].
  - subst c. exists b'. cbn [set_blocks s_uds s_blocks].
    rewrite nth_error_upd_same by (apply nth_error_Some; congruence).
    split; auto. split; auto. intros j Hj.
    assert (y = b) by congruence. subst y. rewrite <- R by auto. apply (H x); auto.
  - exists y. cbn [set_blocks s_uds s_blocks]. rewrite nth_error_upd_other by auto. auto.
Qed.

Lemma frame_trans : forall a b c L, frame a b L -> frame b c L -> frame a c L.
Proof. intros a b c L [H1 H2] [H3 H4]. split; [congruence|]. eauto. Qed.

Definition zeros (n : nat) : list Z := repeat 0%Z n.

Lemma new_slot_ok : forall sb L prev s, inv sb L -> key s -> prev < 256 ->
  length s + 2 + s_uds sb <= block_size ->
  exists sb' v, new_slot sb prev (cstr s) = Ok (sb', v) /\
    inv sb' (mkSl v prev s :: L) /\ frame sb sb' L /\ ~ In v (map sl_v L) /\
    udata sb' v (zeros (s_uds sb)).
Proof.
  intros sb L prev s I K Hp Hl. unfold new_slot. rewrite cstr_length.
  destruct (new_block_ok sb L (S (length s)) I) as (sb1 & c & E & I1 & F1 & Ec & Hr); [lia|].
  rewrite E. cbn [bind]. rewrite Ec.
  assert (Eu : s_uds sb1 = s_uds sb) by apply F1. rewrite <- Eu in *.
  pose proof (i_cur _ _ I1) as C. rewrite Ec in C. destruct C as [C1 C2].
  destruct (nth_error (s_blocks sb1) c) as [b|] eqn:Hb; [|apply nth_error_None in Hb; lia].
  assert (Hlb : length b = block_size).
  { pose proof (i_len _ _ I1) as F. rewrite Forall_forall in F. apply F. eapply nth_error_In; eauto. }
  specialize (C2 b).
  destruct (wrp_ok sb1 (c, s_used sb1) b [Z.of_nat prev] Hb) as (b1 & E1 & El1 & H1);
    [simpl; lia|].
  rewrite E1. cbn [bind].
  set (sb2 := set_blocks sb1 _).
  assert (Hb1 : nth_error (s_blocks sb2) c = Some b1).
  { unfold sb2. cbn. apply nth_error_upd_same. lia. }
  change (s_uds sb2) with (s_uds sb1).
  destruct (wrp_ok sb2 (padd (c, s_used sb1) (s_uds sb1 + 1)) b1 (cstr s) Hb1) as (b2 & E2 & El2 & H2);
    [rewrite cstr_length; cbn [padd snd]; lia|].
  rewrite E2. cbn [bind]. rewrite cstr_length in H2.
  cbn [padd fst snd length] in H1, H2. cbn [padd fst].
  change (s_blocks sb2) with (upd (s_blocks sb1) c b1).
  assert (Hupd : forall (l : list (list Z)) i x y, upd (upd l i x) i y = upd l i y).
  { induction l as [|h l IHl]; intros [|i] x y; simpl; auto. now rewrite IHl. }
  rewrite Hupd. cbn [set_blocks s_uds s_used s_cur s_blocks s_bcap].
  change (s_uds sb2) with (s_uds sb1). change (s_used sb2) with (s_used sb1).
  change (s_cur sb2) with (s_cur sb1). change (s_bcap sb2) with (s_bcap sb1).
  assert (Hb2 : forall j, nth_error b2 j =
    if (s_used sb1 + (s_uds sb1 + 1) <=? j) && (j <? s_used sb1 + (s_uds sb1 + 1) + S (length s))
    then nth_error (cstr s) (j - (s_used sb1 + (s_uds sb1 + 1)))
    else if j =? s_used sb1 then Some (Z.of_nat prev) else nth_error b j).
  { intros j. rewrite H2. destruct (_ && _); [reflexivity|]. rewrite H1.
    destruct (Nat.leb_spec (s_used sb1) j), (Nat.ltb_spec j (s_used sb1 + 1)),
      (Nat.eqb_spec j (s_used sb1)); cbn [andb]; try lia; auto.
    subst j. now rewrite Nat.sub_diag. }
  clear H1 H2.
  assert (Hkeep : forall x j, In x L -> sl_b x = c -> j < sl_o x + sl_len (s_uds sb1) x ->
    nth_error b2 j = nth_error b j).
  { intros x j Hx Hxc Hj. pose proof (i_low _ _ I1 x Hx ltac:(lia)) as Hlow.
    rewrite Hb2. destruct (Nat.leb_spec (s_used sb1 + (s_uds sb1 + 1)) j); [lia|]. cbn [andb].
    destruct (Nat.eqb_spec j (s_used sb1)); [lia|]. reflexivity. }
  eexists _, _. split; [reflexivity|].
  set (used' := s_used sb1 + (s_uds sb1 + 1 + S (length s))).
  set (x0 := mkSl (c, s_used sb1) prev s).
  assert (Hx0 : sl_len (s_uds sb1) x0 = s_uds sb1 + 1 + S (length s))
    by (unfold sl_len, x0; cbn; lia).
  assert (Hc : c < length (s_blocks sb1)) by lia.
  assert (Hlow' : forall x, In x L -> sl_b x = c -> sl_o x + sl_len (s_uds sb1) x <= s_used sb1).
  { intros x Hx Hxc. apply (i_low _ _ I1); auto. lia. }
  split; [|split; [|split]].
  - constructor; cbn [s_uds s_used s_cur s_blocks s_bcap].
    + apply Forall_forall. intros y Hy. apply In_nth_error in Hy. destruct Hy as [i Hi].
      destruct (Nat.eq_dec c i) as [<- | N].
      * rewrite nth_error_upd_same in Hi by auto. injection Hi as <-. congruence.
      * rewrite nth_error_upd_other in Hi by auto. pose proof (i_len _ _ I1) as F.
        rewrite Forall_forall in F. apply F. eapply nth_error_In; eauto.
    + rewrite Ec, upd_length. split; auto.
      intros y j Hy Hu Hj. rewrite nth_error_upd_same in Hy by auto. injection Hy as <-.
      rewrite Hb2. destruct (Nat.ltb_spec j (s_used sb1 + (s_uds sb1 + 1) + S (length s))); [lia|].
      rewrite andb_false_r. destruct (Nat.eqb_spec j (s_used sb1)); [lia|].
      apply C2; auto. lia.
    + lia.
    + rewrite upd_length. apply (i_cap _ _ I1).
    + intros x [<- | Hx].
      * exists b2. cbn [x0 sl_v sl_b sl_o sl_p sl_s s_blocks s_uds].
        change (sl_b x0) with c. change (sl_o x0) with (s_used sb1).
        rewrite nth_error_upd_same by auto. split; [reflexivity|].
        split; [rewrite Hx0; lia|]. split; [|split; [|split; auto]].
        -- rewrite Hb2. destruct (Nat.leb_spec (s_used sb1 + (s_uds sb1 + 1)) (s_used sb1)); [lia|].
           cbn [andb]. now rewrite Nat.eqb_refl.
        -- intros i ch Hi. assert (i < length (cstr s)) by (apply nth_error_Some; unfold x0 in Hi; cbn in Hi; congruence).
           rewrite cstr_length in *. rewrite Hb2.
           destruct (Nat.leb_spec (s_used sb1 + (s_uds sb1 + 1)) (s_used sb1 + (s_uds sb1 + 1) + i)),
            (Nat.ltb_spec (s_used sb1 + (s_uds sb1 + 1) + i) (s_used sb1 + (s_uds sb1 + 1) + S (length s)));
            cbn [andb]; try lia.
           replace (s_used sb1 + (s_uds sb1 + 1) + i - (s_used sb1 + (s_uds sb1 + 1))) with i by lia.
           exact Hi.
      * destruct (i_in _ _ I1 x Hx) as (y & Hy & Hly & Hpy & Hsy & R).
        destruct (Nat.eq_dec c (sl_b x)) as [Ex | N].
        -- subst c. exists b2. rewrite Hb in Hy. injection Hy as <-. cbn [s_blocks s_uds].
           rewrite nth_error_upd_same by auto. split; [reflexivity|]. split; auto.
           split; [rewrite (Hkeep x); auto; unfold sl_len; lia|]. split; auto.
           intros i ch Hi. assert (i < length (cstr (sl_s x))) by (apply nth_error_Some; congruence).
           rewrite cstr_length in *. rewrite (Hkeep x); auto. unfold sl_len. lia.
        -- exists y. cbn [s_blocks s_uds]. rewrite nth_error_upd_other by auto. auto.
    + intros x [<- | Hx] Hxc; rewrite upd_length in Hxc.
      * rewrite Hx0. cbn. lia.
      * specialize (Hlow' x Hx ltac:(lia)). lia.
    + constructor; [|apply (i_apart _ _ I1)]. apply Forall_forall. intros x Hx.
      unfold apart. rewrite Hx0. change (sl_b x0) with c. change (sl_o x0) with (s_used sb1).
      destruct (Nat.eq_dec c (sl_b x)) as [Ex|]; auto.
  - eapply frame_trans; [exact F1|].
    split; [reflexivity|]. intros x d Hx (y & Hy & Hd & R).
    destruct (Nat.eq_dec c (fst (sl_v x))) as [Ex | N].
    + exists b2. cbn [s_blocks s_uds].
      rewrite <- Ex, nth_error_upd_same by auto. split; auto. split; auto. intros j Hj.
      assert (y = b) by congruence. subst y. rewrite <- R by auto. apply (Hkeep x); auto.
      unfold sl_len, sl_o. lia.
    + exists y. cbn [s_uds s_blocks]. rewrite nth_error_upd_other by auto. auto.
  - intros Hin. apply in_map_iff in Hin. destruct Hin as (x & Ex & Hx).
    specialize (Hlow' x Hx). unfold sl_b, sl_o, sl_len in Hlow'. rewrite Ex in Hlow'. cbn in Hlow'. lia.
  - exists b2. cbn [s_blocks s_uds fst snd]. rewrite nth_error_upd_same by auto.
    split; [reflexivity|]. unfold zeros. rewrite repeat_length. split; auto.
    intros j Hj. rewrite nth_error_repeat by lia. rewrite Hb2.
    destruct (Nat.leb_spec (s_used sb1 + (s_uds sb1 + 1)) (s_used sb1 + 1 + j)); [lia|]. cbn [andb].
    destruct (Nat.eqb_spec (s_used sb1 + 1 + j) (s_used sb1)); [lia|]. apply C2; auto; lia.
Qed.

(** the user's write *)
Lemma user_write_ok : forall sb L r x d d0, inv sb L -> In x L -> length d <= s_uds sb ->
  udata sb (sl_v x) d0 ->
  exists sb', user_write (sb, r) (padd (sl_v x) 1) d = Ok (sb', r) /\ inv sb' L /\
    s_uds sb' = s_uds sb /\
    udata sb' (sl_v x) (d ++ skipn (length d) d0) /\
    (forall y dy, In y L -> y <> x -> udata sb (sl_v y) dy -> udata sb' (sl_v y) dy).
Proof.
  intros sb L r x d d0 I Hx Hd Hu.
  destruct (i_in _ _ I x Hx) as (b & Hb & Hl & _).
  assert (Hlb : length b = block_size).
  { pose proof (i_len _ _ I) as F. rewrite Forall_forall in F. apply F. eapply nth_error_In; eauto. }
  unfold sl_len, sl_b, sl_o in *.
  destruct (wrp_ok sb (padd (sl_v x) 1) b d Hb) as (b' & E & El & Hn); [cbn [padd snd]; lia|].
  cbn [padd fst snd] in *. 
  exists (set_blocks sb (upd (s_blocks sb) (fst (sl_v x)) b')).
  unfold user_write. rewrite E. cbn [bind]. split; [reflexivity|].
  assert (Hout : forall j, j < snd (sl_v x) + 1 \/ snd (sl_v x) + 1 + s_uds sb <= j ->
    nth_error b' j = nth_error b j).
  { intros j Hj. rewrite Hn.
    destruct (Nat.leb_spec (snd (sl_v x) + 1) j), (Nat.ltb_spec j (snd (sl_v x) + 1 + length d));
      cbn [andb]; auto; lia. }
  split; [|split; [reflexivity|split]].
  - eapply inv_write; eauto.
    + intros y j Hy Hyc Hj. apply Hout. unfold sl_b, sl_o in *.
      destruct (apart_in _ _ x y (i_apart _ _ I) Hx Hy) as [<- | [A | A]].
      * lia.
      * unfold sl_b in A. congruence.
      * unfold sl_o, sl_len in *. lia.
    + intros Hc j Hj. apply Hout. right. pose proof (i_low _ _ I x Hx Hc) as Hlow.
      unfold sl_o, sl_len in Hlow. lia.
  - destruct Hu as (y & Hy & Hd0 & R). assert (y = b) by congruence. subst y.
    exists b'. cbn [set_blocks s_uds s_blocks].
    rewrite nth_error_upd_same by (apply nth_error_Some; congruence).
    split; [reflexivity|]. split; [rewrite app_length, skipn_length; lia|].
    intros j Hj. rewrite Hn.
    destruct (Nat.leb_spec (snd (sl_v x) + 1) (snd (sl_v x) + 1 + j)); [|lia]. cbn [andb].
    destruct (Nat.ltb_spec (snd (sl_v x) + 1 + j) (snd (sl_v x) + 1 + length d)).
    + rewrite nth_error_app1 by lia. f_equal. lia.
    + rewrite nth_error_app2 by lia. rewrite R by auto.
      rewrite <- (firstn_skipn (length d) d0) at 1.
      rewrite nth_error_app2 by (rewrite firstn_length; lia). f_equal. rewrite firstn_length. lia.
  - intros y dy Hy Hne Huy.
    destruct Huy as (c & Hc & Hdy & R).
    destruct (Nat.eq_dec (fst (sl_v x)) (fst (sl_v y))) as [Exy | N].
    + exists b'. cbn [set_blocks s_uds s_blocks]. rewrite <- Exy.
      rewrite nth_error_upd_same by (apply nth_error_Some; congruence).
      split; auto. split; auto. intros j Hj. assert (c = b) by congruence. subst c.
      rewrite <- R by auto. apply Hout.
      destruct (apart_in _ _ x y (i_apart _ _ I) Hx Hy) as [-> | [A | A]]; [congruence| |].
      * unfold sl_b in A. congruence.
      * unfold sl_o, sl_len in *. lia.
    + exists c. cbn [set_blocks s_uds s_blocks]. rewrite nth_error_upd_other by auto. auto.
Qed.
