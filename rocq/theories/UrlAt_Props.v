(** Theorems about URL-encoding and decoding text where it stands (property C122). *)

From Coq Require Import ZArith List Bool Lia Arith.
From Verif Require Import Base Str_Spec Url_Model Url_Spec Url_Proof Url_Props UrlAt_Model.
Import ListNotations.
Local Open Scope Z_scope.

(** Not in the code: writing behind [pre] drops one byte of what lies there. *)
Lemma wr_next : forall (pre r : list Z) b, (0 < length r)%nat -> wr (pre ++ r) (length pre) b = Ok ((pre ++ [b]) ++ tl r).
Proof. intros pre [|x r] b H; [cbn in H; lia|]. apply wr_push. reflexivity. Qed.
Lemma tl_app_l : forall (a b : list Z), (0 < length a)%nat -> tl (a ++ b) = tl a ++ b.
Proof. intros [|x a] b H; [cbn in H; lia|reflexivity]. Qed.
Lemma length_tl : forall (a : list Z), length (tl a) = (length a - 1)%nat.
Proof. intros [|x a]; cbn; lia. Qed.
Lemma skipn_S_tl : forall n (a : list Z), skipn n (tl a) = skipn (S n) a.
Proof. intros n [|x a]; [now rewrite !skipn_nil|reflexivity]. Qed.
Lemma split_at : forall (m : list Z) p q n, (p <= q)%nat -> (q + n <= length m)%nat ->
  m = firstn p m ++ firstn (q - p) (skipn p m) ++ firstn n (skipn q m) ++ skipn (q + n) m.
Proof.
  intros m p q n Hp Hq. rewrite <- (firstn_skipn p m) at 1. f_equal.
  rewrite <- (firstn_skipn (q - p) (skipn p m)) at 1. f_equal.
  rewrite skipn_skipn. replace (q - p + p)%nat with q by lia.
  rewrite <- (firstn_skipn n (skipn q m)) at 1. f_equal.
  rewrite skipn_skipn. f_equal. lia.
Qed.

(** the state in the middle: [pre] is written, [mid] is read, [s] is to be read *)
Lemma urldec_at_step : forall s t, 
  (forall pre mid post, (length t < length mid + length s + length post)%nat ->
     urldec_at_loop (pre ++ mid ++ s ++ post) (length pre) (length pre + length mid) (length s) =
     Ok ((length pre + length t)%nat, pre ++ t ++ 0 :: skipn (S (length t)) (mid ++ s ++ post))) ->
  forall pre mid post b used, (0 < length used)%nat ->
    (length (b :: t) < length mid + length (used ++ s) + length post)%nat ->
    (m <- wr (pre ++ mid ++ (used ++ s) ++ post) (length pre) b ;;
     urldec_at_loop m (length pre + 1) (length pre + length mid + length used) (length s)) =
    Ok ((length pre + length (b :: t))%nat, pre ++ (b :: t) ++ 0 :: skipn (S (length (b :: t))) (mid ++ (used ++ s) ++ post)).
Proof.
  intros s t IH pre mid post b used Hu Hl. rewrite app_length in Hl. cbn [length] in Hl.
  rewrite wr_next by (rewrite !app_length; lia). cbn [bind].
  replace (mid ++ (used ++ s) ++ post) with ((mid ++ used) ++ s ++ post) by (rewrite <- !app_assoc; reflexivity).
  rewrite tl_app_l by (rewrite app_length; lia).
  replace (length pre + 1)%nat with (length (pre ++ [b])) by (rewrite app_length; reflexivity).
  replace (length pre + length mid + length used)%nat with (length (pre ++ [b]) + length (tl (mid ++ used)))%nat
    by (rewrite length_tl, !app_length; cbn [length]; lia).
  rewrite IH by (rewrite length_tl, app_length; lia).
  apply ok2; [rewrite app_length; cbn [length]; lia|]. rewrite <- !app_assoc. cbn [app length]. do 4 f_equal.
  rewrite <- tl_app_l by (rewrite app_length; lia). rewrite skipn_S_tl. now rewrite <- app_assoc.
Qed.
Lemma rd_src : forall (pre mid : list Z) c s post i, i = (length pre + length mid)%nat ->
  rd (pre ++ mid ++ (c :: s) ++ post) i = Ok c.
Proof. intros. subst i. rewrite app_assoc. apply rd_app. rewrite app_length. reflexivity. Qed.

Lemma urldec_at_ok : forall s t, url_decodes s t -> bytes s -> forall pre mid post,
  (length t < length mid + length s + length post)%nat ->
  urldec_at_loop (pre ++ mid ++ s ++ post) (length pre) (length pre + length mid) (length s) =
  Ok ((length pre + length t)%nat, pre ++ t ++ 0 :: skipn (S (length t)) (mid ++ s ++ post)).
Proof.
  induction 1 as [|a b s t H IH|s t H IH|c s t H43 H37 H IH]; intros Hs pre mid post Hl.
  - cbn [length urldec_at_loop] in *. rewrite wr_next by (rewrite !app_length; cbn; lia). cbn [bind].
    apply ok2; [lia|]. rewrite <- !app_assoc. cbn [app length]. do 2 f_equal; now destruct (mid ++ post).
  - rewrite !bytes_cons in Hs. destruct Hs as [_ [Ha [Hb Hs]]].
    cbn [length urldec_at_loop]. rewrite rd_src by reflexivity. cbn [bind Z.eqb Pos.eqb].
    replace (pre ++ mid ++ (37 :: a :: b :: s) ++ post) with (pre ++ (mid ++ [37]) ++ (a :: b :: s) ++ post) at 1
      by (rewrite <- !app_assoc; reflexivity).
    rewrite rd_src by (rewrite app_length; cbn; lia). cbn [bind].
    replace (pre ++ mid ++ (37 :: a :: b :: s) ++ post) with (pre ++ (mid ++ [37; a]) ++ (b :: s) ++ post) at 1
      by (rewrite <- !app_assoc; reflexivity).
    rewrite rd_src by (rewrite app_length; cbn; lia). cbn [bind].
    rewrite dec_byte_ok by assumption. cbn [bind].
    exact (urldec_at_step s t (IH Hs) pre mid post (hexval a * 16 + hexval b) [37; a; b] ltac:(cbn; lia) Hl).
  - apply bytes_cons in Hs. destruct Hs as [_ Hs].
    cbn [length urldec_at_loop]. rewrite rd_src by reflexivity. cbn [bind Z.eqb Pos.eqb].
    exact (urldec_at_step s t (IH Hs) pre mid post 32 [43] ltac:(cbn; lia) Hl).
  - apply bytes_cons in Hs. destruct Hs as [Hc Hs].
    pose proof (urldec_at_step s t (IH Hs) pre mid post c [c] ltac:(cbn; lia) Hl) as Hrec. cbn [app] in Hrec.
    cbn [length urldec_at_loop]. rewrite rd_src by reflexivity. cbn [bind].
    destruct (Z.eqb_spec c 43) as [E|_]; [contradiction|].
    destruct (Z.eqb_spec c 37) as [->|_].
    + specialize (H37 eq_refl). destruct s as [|x [|y s]]; cbn [length] in *; [exact Hrec|exact Hrec|lia].
    + exact Hrec.
Qed.

(** the same when there is no room for the terminator *)
Lemma urldec_at_over : forall s t, url_decodes s t -> bytes s -> forall pre mid post,
  length t = (length mid + length s + length post)%nat ->
  urldec_at_loop (pre ++ mid ++ s ++ post) (length pre) (length pre + length mid) (length s) = Ub OobWrite.
Proof.
  assert (Len : forall s t, url_decodes s t -> (length t <= length s)%nat) by (induction 1; cbn [length]; lia).
  assert (Step : forall (s t : list Z), length t = length s ->
    (forall pre mid post, length t = (length mid + length s + length post)%nat ->
       urldec_at_loop (pre ++ mid ++ s ++ post) (length pre) (length pre + length mid) (length s) = Ub OobWrite) ->
    forall (pre : list Z) b c, (m <- wr (pre ++ [] ++ (c :: s) ++ []) (length pre) b ;;
       urldec_at_loop m (length pre + 1) (length pre + 0 + 1) (length s)) = Ub OobWrite).
  { intros s t Hl IH pre b c. cbn [app]. rewrite wr_push by reflexivity. cbn [bind].
    specialize (IH (pre ++ [b]) [] [] ltac:(cbn [length]; lia)). rewrite app_length in IH. cbn [length app] in IH.
    replace (length pre + 0 + 1)%nat with (length pre + 1 + 0)%nat by lia. exact IH. }
  induction 1 as [|a b s t H IH|s t H IH|c s t H43 H37 H IH]; intros Hs pre mid post Hl;
    try (pose proof (Len _ _ H)); cbn [length] in Hl.
  - destruct mid, post; cbn [length] in Hl; try lia. cbn [app length urldec_at_loop].
    unfold wr. rewrite app_nil_r, Nat.ltb_irrefl. reflexivity.
  - lia.
  - apply bytes_cons in Hs. destruct Hs as [_ Hs]. destruct mid, post; cbn [length] in Hl; try lia.
    cbn [length urldec_at_loop]. rewrite rd_src by reflexivity. cbn [bind Z.eqb Pos.eqb].
    apply (Step s t); [lia|exact (IH Hs)].
  - apply bytes_cons in Hs. destruct Hs as [_ Hs]. destruct mid, post; cbn [length] in Hl; try lia.
    cbn [length urldec_at_loop]. rewrite rd_src by reflexivity. cbn [bind].
    assert (E : length t = length s) by lia.
    pose proof (Step s t E (IH Hs) pre c c) as Hrec.
    destruct (Z.eqb_spec c 43) as [E'|_]; [contradiction|].
    destruct (Z.eqb_spec c 37) as [->|_]; [|exact Hrec].
    specialize (H37 eq_refl). destruct s as [|x [|y s]]; cbn [length] in *; [exact Hrec|exact Hrec|lia].
Qed.

(** ** C122: URL text can be decoded where it stands

    [t] is the meaning of the [sz] bytes at [q]; the result stands at [p <= q] ([p = q]: in
    place), ends in a NUL, and nothing else changes.  One byte of room for the NUL is needed. *)
Theorem C122_urldec_in_place : forall m p q sz, bytes m -> (p <= q)%nat -> (q + sz <= length m)%nat ->
  exists t, url_decodes (firstn sz (skipn q m)) t /\ (length t <= sz)%nat /\
    urldec_at m p q sz =
      if (p + length t <? length m)%nat then Ok (length t, firstn p m ++ t ++ 0 :: skipn (p + length t + 1) m)
      else Ub OobWrite.
Proof.
  intros m p q sz Hm Hp Hq. set (s := firstn sz (skipn q m)).
  assert (Hs : bytes s) by (apply Forall_firstn, Forall_skipn; exact Hm).
  assert (Hl : length s = sz) by (unfold s; rewrite firstn_length, skipn_length; lia).
  destruct (url_decodes_exists s) as [t [Ht Hlen]]. exists t. split; [exact Ht|]. split; [lia|].
  pose proof (split_at m p q sz Hp Hq) as E. fold s in E.
  assert (Lp : length (firstn p m) = p) by (rewrite firstn_length; lia).
  assert (Lm : length (firstn (q - p) (skipn p m)) = (q - p)%nat) by (rewrite firstn_length, skipn_length; lia).
  assert (E' : skipn p m = firstn (q - p) (skipn p m) ++ s ++ skipn (q + sz) m).
  { pose proof E as E2. rewrite <- (firstn_skipn p m) in E2 at 1. apply app_inv_head in E2. exact E2. }
  unfold urldec_at. destruct (Nat.ltb_spec (p + length t) (length m)) as [Hr|Hr].
  - pose proof (urldec_at_ok s t Ht Hs (firstn p m) (firstn (q - p) (skipn p m)) (skipn (q + sz) m)) as K.
    rewrite <- E, <- E', Lp, Lm, Hl in K. replace (p + (q - p))%nat with q in K by lia.
    rewrite K by (rewrite skipn_length; lia). cbn [bind]. apply ok2; [lia|]. do 3 f_equal.
    rewrite skipn_skipn. f_equal. lia.
  - pose proof (urldec_at_over s t Ht Hs (firstn p m) (firstn (q - p) (skipn p m)) (skipn (q + sz) m)) as K.
    rewrite <- E, Lp, Lm, Hl in K. replace (p + (q - p))%nat with q in K by lia.
    rewrite K by (rewrite skipn_length; lia). reflexivity.
Qed.
(** "a%3Db+c" in place *)
Example C122_urldec_ex :
  urldec_at (zs "..a%3Db+c..") 2 2 7 = Ok (5%nat, zs "..a=b c" ++ 0 :: zs "c..").
Proof. reflexivity. Qed.
Print Assumptions C122_urldec_in_place.

(** ** Encoding

    Encoding grows the text, so the result may stand in the same memory only if it does not
    end behind the text. *)
Lemma urlenc_at_ok : forall s, bytes s -> forall pre mid post,
  (length (url_encode true s) <= length mid + length s)%nat ->
  (length (url_encode true s) < length mid + length s + length post)%nat ->
  urlenc_at_loop (pre ++ mid ++ s ++ post) (length pre) (length pre + length mid) (length s) =
  Ok ((length pre + length (url_encode true s))%nat,
      pre ++ url_encode true s ++ 0 :: skipn (S (length (url_encode true s))) (mid ++ s ++ post)).
Proof.
  assert (Ge : forall s, (length s <= length (url_encode true s))%nat) by (intros; apply url_encode_len).
  induction s as [|c s IH]; intros Hs pre mid post Hl Hr.
  - cbn [url_encode flat_map length urlenc_at_loop app] in *. rewrite wr_next by (rewrite app_length; lia). cbn [bind].
    apply ok2; [lia|]. rewrite <- !app_assoc. cbn [app]. do 2 f_equal; now destruct (mid ++ post).
  - apply bytes_cons in Hs. destruct Hs as [Hc Hs]. specialize (Ge s).
    cbn [length urlenc_at_loop]. rewrite rd_src by reflexivity. cbn [bind]. rewrite must_escape_ok by exact Hc. cbn [bind].
    change (url_encode true (c :: s)) with (enc1 true c ++ url_encode true s) in *. set (e := url_encode true s) in *.
    assert (One : forall b, enc1 true c = [b] ->
      (m <- wr (pre ++ mid ++ (c :: s) ++ post) (length pre) b ;;
       urlenc_at_loop m (length pre + 1) (length pre + length mid + 1) (length s)) =
      Ok ((length pre + length (enc1 true c ++ e))%nat,
          pre ++ (enc1 true c ++ e) ++ 0 :: skipn (S (length (enc1 true c ++ e))) (mid ++ (c :: s) ++ post))).
    { intros b Eb. rewrite Eb in *. cbn [app length] in *.
      rewrite wr_next by (rewrite !app_length; cbn; lia). cbn [bind].
      replace (mid ++ c :: s ++ post) with ((mid ++ [c]) ++ s ++ post) by (rewrite <- !app_assoc; reflexivity).
      rewrite tl_app_l by (rewrite app_length; cbn; lia).
      replace (length pre + 1)%nat with (length (pre ++ [b])) by (rewrite app_length; reflexivity).
      replace (length pre + length mid + 1)%nat with (length (pre ++ [b]) + length (tl (mid ++ [c])))%nat
        by (rewrite length_tl, !app_length; cbn [length]; lia).
      rewrite IH by (try exact Hs; rewrite length_tl, app_length; cbn [length]; lia).
      apply ok2; [rewrite app_length; cbn [length]; lia|]. rewrite <- app_assoc. cbn [app]. do 4 f_equal.
      rewrite <- tl_app_l by (rewrite app_length; cbn; lia). rewrite skipn_S_tl. reflexivity. }
    unfold enc1 in *. destruct (unreservedb c) eqn:Eu; cbn [orb negb andb] in *.
    + destruct (Z.eqb_spec c 32) as [->|Hn]; [discriminate Eu|]. exact (One c eq_refl).
    + destruct (Z.eqb_spec c 32) as [->|Hn]; cbn [negb] in *; [exact (One 43 eq_refl)|].
      unfold pct in *. cbn [app length] in Hl, Hr.
      destruct mid as [|x [|y mid]]; cbn [length] in Hl, Hr; try lia.
      cbn [app length]. rewrite wr_app by reflexivity. cbn [bind].
      replace (pre ++ 37 :: y :: mid ++ c :: s ++ post) with (pre ++ (37 :: y :: mid) ++ (c :: s) ++ post) by reflexivity.
      rewrite rd_src by reflexivity. cbn [bind]. rewrite hex_hi_ok by exact Hc. cbn [bind app].
      set (h := hexdigit (c / 16)). set (l := hexdigit (c mod 16)).
      replace (pre ++ 37 :: y :: mid ++ c :: s ++ post) with ((pre ++ [37]) ++ y :: mid ++ c :: s ++ post)
        by (rewrite <- app_assoc; reflexivity).
      rewrite wr_push by (rewrite app_length; reflexivity). cbn [bind].
      replace (((pre ++ [37]) ++ [h]) ++ mid ++ c :: s ++ post) with ((pre ++ [37; h]) ++ mid ++ (c :: s) ++ post)
        by (rewrite <- !app_assoc; reflexivity).
      rewrite rd_src by (rewrite app_length; cbn [length]; lia). cbn [bind]. rewrite hex_lo_ok by exact Hc. cbn [bind].
      fold l. replace (length pre + 2)%nat with (length (pre ++ [37; h])) by (rewrite app_length; reflexivity).
      rewrite wr_next by (rewrite !app_length; cbn; lia). cbn [bind].
      replace (mid ++ (c :: s) ++ post) with ((mid ++ [c]) ++ s ++ post) by (rewrite <- !app_assoc; reflexivity).
      rewrite tl_app_l by (rewrite app_length; cbn; lia).
      replace (length pre + 3)%nat with (length ((pre ++ [37; h]) ++ [l])) by (rewrite !app_length; cbn [length]; lia).
      replace (length pre + S (S (length mid)) + 1)%nat with (length ((pre ++ [37%Z; h]) ++ [l]) + length (tl (mid ++ [c])))%nat
        by (rewrite length_tl, !app_length; cbn [length]; lia).
      rewrite IH by (try exact Hs; rewrite length_tl, app_length; cbn [length]; fold e; lia).
      fold e. apply ok2; [rewrite !app_length; cbn [length]; lia|]. rewrite <- !app_assoc. cbn [app length]. do 6 f_equal.
      change (skipn (S (length e)) (tl (mid ++ [c]) ++ s ++ post) = skipn (S (S (length e))) (mid ++ c :: s ++ post)).
      rewrite <- tl_app_l by (rewrite app_length; cbn; lia). rewrite skipn_S_tl. now rewrite <- app_assoc.
Qed.

Theorem C122_urlenc_overlap : forall m p q sz, bytes m -> (q + sz <= length m)%nat ->
  (p + length (url_encode true (firstn sz (skipn q m))) <= q + sz)%nat ->
  (p + length (url_encode true (firstn sz (skipn q m))) < length m)%nat ->
  urlenc_at m p q sz =
    (let e := url_encode true (firstn sz (skipn q m)) in
     Ok (length e, firstn p m ++ e ++ 0 :: skipn (p + length e + 1) m)).
Proof.
  intros m p q sz Hm Hq. cbv zeta. set (s := firstn sz (skipn q m)). intros He Hr.
  assert (Hs : bytes s) by (apply Forall_firstn, Forall_skipn; exact Hm).
  assert (Hl : length s = sz) by (unfold s; rewrite firstn_length, skipn_length; lia).
  pose proof (url_encode_len true s) as Ge.
  assert (Hp : (p <= q)%nat) by lia.
  pose proof (split_at m p q sz Hp Hq) as E. fold s in E.
  assert (Lp : length (firstn p m) = p) by (rewrite firstn_length; lia).
  assert (Lm : length (firstn (q - p) (skipn p m)) = (q - p)%nat) by (rewrite firstn_length, skipn_length; lia).
  assert (E' : skipn p m = firstn (q - p) (skipn p m) ++ s ++ skipn (q + sz) m).
  { pose proof E as E2. rewrite <- (firstn_skipn p m) in E2 at 1. apply app_inv_head in E2. exact E2. }
  pose proof (urlenc_at_ok s Hs (firstn p m) (firstn (q - p) (skipn p m)) (skipn (q + sz) m)) as K.
  rewrite <- E, <- E', Lp, Lm, Hl in K. replace (p + (q - p))%nat with q in K by lia.
  unfold urlenc_at. rewrite K by (rewrite ?skipn_length; lia). cbn [bind]. apply ok2; [lia|]. do 3 f_equal.
  rewrite skipn_skipn. f_equal. lia.
Qed.
Example C122_urlenc_ex :
  urlenc_at (zs "....a=b c.") 0 4 5 = Ok (7%nat, zs "a%3Db+c" ++ 0 :: zs "c.").
Proof. reflexivity. Qed.
Print Assumptions C122_urlenc_overlap.

(** in place the encoder destroys what it has yet to read: "=" becomes "%25" *)
Theorem C122_urlenc_in_place_refuted : exists m sz, bytes m /\ (3 * sz + 1 <= length m)%nat /\
  exists m', urlenc_at m 0 0 sz = Ok (3%nat, m') /\ firstn 3 m' = zs "%25" /\
    url_encode true (firstn sz m) = zs "%3D".
Proof.
  exists (zs "=..."), 1%nat. split; [repeat constructor; unfold byte; cbn; lia|]. split; [cbn; lia|].
  eexists. split; [reflexivity|]. split; reflexivity.
Qed.
Print Assumptions C122_urlenc_in_place_refuted.
