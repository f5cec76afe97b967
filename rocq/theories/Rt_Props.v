(** Theorems about texts that are put together and read back (property C135). *)

From Coq Require Import ZArith List Bool Lia Arith.
From Verif Require Import Base Str_Model Str_Spec Str_Proof StrCpp_Model StrCpp_Spec StrCpp_Proof StrCpp_Props
  Url_Model Url_Spec Url_Proof Url_Props Rt_Spec.
Import ListNotations.
Local Open Scope Z_scope.

Lemma join_splits : forall (D : Z -> Prop) d ps, D d -> ps <> [] ->
  Forall (Forall (fun c => ~ D c)) ps -> splits D (join [d] ps) ps.
Proof.
  intros D d ps Hd. induction ps as [|p ps IH]; intros Hne F; [congruence|]. inversion F; subst.
  destruct ps as [|q ps]; [constructor; assumption|].
  change (join [d] (p :: q :: ps)) with (p ++ [d] ++ join [d] (q :: ps)).
  apply splits_more; [assumption|exact Hd|]. apply IH; [discriminate|assumption].
Qed.

(** the characters of encoded text *)
Definition url_char (c : Z) : Prop := unreserved c \/ c = 43 \/ c = 37.
Lemma url_encode_chars : forall plus s, bytes s -> Forall url_char (url_encode plus s).
Proof.
  intros plus s Hs. induction Hs as [|c s Hc Hs IH]; [constructor|].
  cbn [url_encode flat_map]. apply Forall_app. split; [|exact IH]. unfold enc1.
  destruct (unreservedb c) eqn:E.
  - constructor; [|constructor]. left. apply unreservedb_iff. exact E.
  - destruct (plus && (c =? 32)); [repeat constructor; right; left; reflexivity|].
    unfold pct. unfold byte in Hc.
    assert (0 <= c / 16 < 16) by (split; [apply Z.div_pos|apply Z.div_lt_upper_bound]; lia).
    assert (0 <= c mod 16 < 16) by (apply Z.mod_pos_bound; lia).
    assert (G : forall v, 0 <= v < 16 -> url_char (hexdigit v)).
    { intros v Hv. left. unfold hexdigit, unreserved. destruct (Z.ltb_spec v 10); lia. }
    constructor; [right; right; reflexivity|]. constructor; [apply G; assumption|]. constructor; [apply G; assumption|constructor].
Qed.

Lemma enc_ok : forall plus s, bytes s -> enc plus s = Ok (url_encode plus s).
Proof. intros plus s H. destruct (C27_urlenc_exact s H) as [E1 E2]. destruct plus; assumption. Qed.
Lemma dec_ok : forall plus s, bytes s -> urldec_str (url_encode plus s) = Ok s.
Proof.
  intros plus s H. destruct (C26_urlenc_urldec s H) as [E1 E2]. destruct (C27_urlenc_exact s H) as [F1 F2].
  rewrite F1 in E1. rewrite F2 in E2. destruct plus; assumption.
Qed.
Lemma enc_inj : forall plus s t, bytes s -> bytes t -> url_encode plus s = url_encode plus t -> s = t.
Proof. intros plus s t Hs Ht E. pose proof (dec_ok plus s Hs) as A. rewrite E, dec_ok in A by exact Ht. now inversion A. Qed.

Definition pair_text (plus : bool) (kv : list Z * list Z) : list Z :=
  url_encode plus (fst kv) ++ 61 :: url_encode plus (snd kv).
Lemma write_pairs_ok : forall plus kvs, Forall (fun kv => bytes (fst kv) /\ bytes (snd kv)) kvs ->
  write_pairs plus kvs = Ok (map (pair_text plus) kvs).
Proof.
  intros plus kvs H. induction H as [|[k v] kvs [Hk Hv] H IH]; [reflexivity|]. cbn [fst snd] in *.
  cbn [write_pairs]. unfold write_pair. cbn [fst snd]. rewrite !enc_ok by assumption. cbn [bind]. rewrite IH. reflexivity.
Qed.

Lemma field_pair : forall d seg k v x w, seg = x ++ d :: w -> ~ In d x -> field d seg k v -> k = x /\ v = w.
Proof.
  intros d seg k v x w -> Hx [E Hk]. revert k E Hk. induction x as [|c x IH]; intros [|e k] E Hk; cbn [app] in E.
  - injection E as E. auto.
  - injection E as -> E. exfalso. apply Hk. left. reflexivity.
  - injection E as -> E. exfalso. apply Hx. left. reflexivity.
  - injection E as -> E. destruct (IH ltac:(intros X; apply Hx; right; exact X) k E ltac:(intros X; apply Hk; right; exact X)) as [-> ->].
    auto.
Qed.

Lemma last_value_in : forall k w kvs, In (k, w) kvs -> last_value k kvs <> None.
Proof.
  intros k w kvs. induction kvs as [|[x v] kvs IH]; intros H; [destruct H|]. cbn [last_value].
  destruct H as [E|H].
  - injection E as -> ->. destruct (last_value k kvs); [discriminate|]. destruct (list_eq_dec Z.eq_dec k k); [discriminate|congruence].
  - specialize (IH H). destruct (last_value k kvs); [discriminate|congruence].
Qed.
Lemma last_value_from : forall k v kvs, last_value k kvs = Some v -> In (k, v) kvs.
Proof.
  intros k v kvs. induction kvs as [|[x w] kvs IH]; intros H; [discriminate|]. cbn [last_value] in H.
  destruct (last_value k kvs) as [u|]; [injection H as ->; right; apply IH; reflexivity|].
  destruct (list_eq_dec Z.eq_dec x k) as [->|]; [|discriminate]. injection H as ->. left. reflexivity.
Qed.

(** what the segments [f k ++ d :: g v] of pairs give to the key [f k] *)
Lemma value_last : forall d (f g : list Z -> list Z) kvs old k new,
  (forall kv, In kv kvs -> ~ In d (f (fst kv))) ->
  (forall kv, In kv kvs -> f (fst kv) = f k -> fst kv = k) ->
  value_after d (map (fun kv => f (fst kv) ++ d :: g (snd kv)) kvs) old (f k) new ->
  new = match last_value k kvs with Some v => Some (g v) | None => old end.
Proof.
  intros d f g kvs old k new Hd Hi H.
  assert (G : forall kvs, (forall kv, In kv kvs -> ~ In d (f (fst kv))) ->
    (forall kv, In kv kvs -> f (fst kv) = f k -> fst kv = k) ->
    (forall seg v, In seg (map (fun kv => f (fst kv) ++ d :: g (snd kv)) kvs) -> ~ field d seg (f k) v) ->
    last_value k kvs = None).
  { clear. induction kvs as [|[x w] kvs IH]; intros Hd Hi H; [reflexivity|]. cbn [last_value].
    rewrite IH.
    - destruct (list_eq_dec Z.eq_dec x k) as [->|N]; [|reflexivity]. exfalso.
      apply (H (f k ++ d :: g w) (g w)); [left; reflexivity|]. split; [reflexivity|].
      apply (Hd (k, w)). left. reflexivity.
    - intros kv X. apply Hd. right. exact X.
    - intros kv X. apply Hi. right. exact X.
    - intros seg v X. apply H. right. exact X. }
  destruct H as [(pre & seg & post & v & E & F & N & ->)|[N ->]]; [|rewrite (G kvs Hd Hi N); reflexivity].
  revert kvs Hd Hi E. induction pre as [|p pre IH]; intros kvs Hd Hi E.
  - destruct kvs as [|[x w] kvs]; [discriminate|]. cbn [map app fst snd] in E. injection E as E1 E2.
    cbn [last_value].
    assert (L : last_value k kvs = None).
    { apply G.
      - intros kv X. apply Hd. right. exact X.
      - intros kv X. apply Hi. right. exact X.
      - rewrite E2. exact N. }
    rewrite L. destruct (field_pair d seg (f k) v (f x) (g w)) as [K ->]; [congruence| |exact F|].
    + apply (Hd (x, w)). left. reflexivity.
    + pose proof (Hi (x, w) (or_introl eq_refl)) as Y. cbn [fst] in Y. rewrite Y by congruence.
      destruct (list_eq_dec Z.eq_dec k k); [reflexivity|congruence].
  - destruct kvs as [|[x w] kvs]; [discriminate|]. cbn [map app] in E. injection E as _ E2.
    cbn [last_value].
    specialize (IH kvs ltac:(intros kv X; apply Hd; right; exact X) ltac:(intros kv X; apply Hi; right; exact X) E2).
    destruct (last_value k kvs) eqn:L; [exact IH|]. exfalso.
    (* the segment is one of the pairs *)
    assert (In seg (map (fun kv => f (fst kv) ++ d :: g (snd kv)) kvs)) by (rewrite E2; apply in_or_app; right; left; reflexivity).
    apply in_map_iff in H. destruct H as ([x' w'] & E3 & I3). cbn [fst snd] in E3.
    destruct (field_pair d seg (f k) v (f x') (g w')) as [K V]; [congruence| |exact F|].
    { apply (Hd (x', w')). right. exact I3. }
    assert (x' = k) by (apply (Hi (x', w')); [right; exact I3|cbn [fst]; congruence]). subst x'.
    exact (last_value_in k w' kvs I3 L).
Qed.

(** ** C135: what is put together is read back

    A query is put together from any keys and values, each encoded with one of the two
    encoders, and parsed into a map that may hold other entries.  The entry under the
    encoded form of any text [k] is then the encoded form of the last value given for [k],
    which decodes to that value; if there is none it is what it was. *)
Theorem C135_query : forall plus kvs m junk, Forall (fun kv => bytes (fst kv) /\ bytes (snd kv)) kvs ->
  exists q m', write_query plus kvs = Ok q /\ get_params m (Some (q ++ 0 :: junk)) = Ok (0, m') /\
  (forall k, bytes k -> exists ek, enc plus k = Ok ek /\
    match last_value k kvs with
    | Some v => exists ev, lookup ek m' = Some ev /\ urldec_str ev = Ok v
    | None => lookup ek m' = lookup ek m
    end) /\
  (forall x, (forall k v, In (k, v) kvs -> enc plus k <> Ok x) -> lookup x m' = lookup x m).
Proof.
  intros plus kvs m junk H.
  assert (Hp : Forall (Forall url_char) (map (fun kv => url_encode plus (fst kv)) kvs) /\
               Forall (Forall url_char) (map (fun kv => url_encode plus (snd kv)) kvs)).
  { split; apply Forall_map; (eapply Forall_impl; [|exact H]); intros [k v] [Hk Hv]; apply url_encode_chars; assumption. }
  set (q := join [38] (map (pair_text plus) kvs)).
  assert (C : forall kv, In kv kvs -> Forall (fun c => url_char c \/ c = 61) (pair_text plus kv)).
  { intros kv I. rewrite Forall_forall in H. destruct (H kv I) as [Hk Hv]. unfold pair_text. apply Forall_app. split.
    - eapply Forall_impl; [|apply url_encode_chars; exact Hk]. auto.
    - constructor; [auto|]. eapply Forall_impl; [|apply url_encode_chars; exact Hv]. auto. }
  assert (Hd : forall kv, In kv kvs -> ~ In 61 (url_encode plus (fst kv))).
  { intros kv I X. rewrite Forall_forall in H. destruct (H kv I) as [Hk _].
    pose proof (url_encode_chars plus _ Hk) as F. rewrite Forall_forall in F. specialize (F 61 X).
    unfold url_char, unreserved in F. lia. }
  assert (Hi : forall k, bytes k -> forall kv, In kv kvs -> url_encode plus (fst kv) = url_encode plus k -> fst kv = k).
  { intros k Bk kv I E. rewrite Forall_forall in H. destruct (H kv I) as [Hk _]. exact (enc_inj plus _ _ Hk Bk E). }
  assert (Hq : nonul q).
  { unfold q. assert (D : Forall (Forall (fun c => c <> 0)) (map (pair_text plus) kvs)).
    { apply Forall_forall. intros t It. apply in_map_iff in It. destruct It as (kv & <- & I).
      eapply Forall_impl; [|exact (C kv I)]. cbv beta. unfold url_char, unreserved. lia. }
    clear - D. induction D as [|t ts Ht D IH]; [constructor|]. destruct ts as [|u ts]; [exact Ht|].
    change (join [38] (t :: u :: ts)) with (t ++ [38] ++ join [38] (u :: ts)).
    apply Forall_app. split; [exact Ht|]. apply Forall_app. split; [repeat constructor; discriminate|exact IH]. }
  assert (W : write_query plus kvs = Ok q) by (unfold write_query; rewrite write_pairs_ok by exact H; reflexivity).
  assert (P : exists m', get_params m (Some (q ++ 0 :: junk)) = Ok (0, m') /\
    forall x, value_after 61 (map (pair_text plus) kvs) (lookup x m) x (lookup x m')).
  { destruct kvs as [|kv kvs].
    - destruct (C30_get_params_cstring m [] junk [[]]) as (m' & E & V); [constructor|constructor; constructor|].
      exists m'. split; [exact E|]. intros x. right. split; [intros seg v []|].
      destruct (V x) as [(pre & seg & post & v & E1 & [E2 _] & _)|[_ E1]]; [|exact E1].
      destruct pre as [|p pre]; [|destruct pre; discriminate]. injection E1 as <- _. destruct x; discriminate.
    - apply (C30_get_params_cstring m q junk (map (pair_text plus) (kv :: kvs)) Hq).
      apply (join_splits (fun c => c = 38)); [reflexivity|discriminate|].
      apply Forall_forall. intros t It. apply in_map_iff in It. destruct It as (kv' & <- & I).
      eapply Forall_impl; [|exact (C kv' I)]. cbv beta. unfold url_char, unreserved. lia. }
  destruct P as (m' & E & V). exists q, m'. split; [exact W|]. split; [exact E|]. split.
  - intros k Bk. exists (url_encode plus k). split; [apply enc_ok; exact Bk|].
    pose proof (value_last 61 (url_encode plus) (url_encode plus) kvs _ k _ Hd (Hi k Bk) (V (url_encode plus k))) as L.
    destruct (last_value k kvs) as [v|] eqn:Lv; [|exact L].
    exists (url_encode plus v). split; [exact L|]. apply dec_ok.
    apply last_value_from in Lv. rewrite Forall_forall in H. exact (proj2 (H _ Lv)).
  - intros x N. destruct (V x) as [(pre & seg & post & v & E1 & F & _)|[_ E1]]; [|exact E1]. exfalso.
    assert (I : In seg (map (pair_text plus) kvs)) by (rewrite E1; apply in_or_app; right; left; reflexivity).
    apply in_map_iff in I. destruct I as ([k w] & E2 & I).
    destruct (field_pair 61 seg x v (url_encode plus k) (url_encode plus w)) as [-> _]; [symmetry; exact E2|exact (Hd _ I)|exact F|].
    apply (N k w I). apply enc_ok. rewrite Forall_forall in H. exact (proj1 (H _ I)).
Qed.
Print Assumptions C135_query.

Example C135_query_ex :
  write_query true [(zs "a b", zs "x&y=z"); (zs "a b", zs "100%"); ([], zs "q")] = Ok (zs "a+b=x%26y%3Dz&a+b=100%25&=q") /\
  get_params [] (Some (zs "a+b=x%26y%3Dz&a+b=100%25&=q" ++ [0])) = Ok (0, [(zs "a+b", zs "100%25"); ([], zs "q")]).
Proof. split; reflexivity. Qed.

(** Header lines: a key without colon, and no CR LF in the key or the value.  The entry of
    each key is the last value given for it. *)
Lemma crlf_occ : forall l j, occurs_at eq crlf l j <-> exists pre post, l = pre ++ crlf ++ post /\ length pre = j.
Proof.
  intros l j. split.
  - intros (pre & mid & post & E & L & F). exists pre, post. split; [|exact L].
    inversion F as [|? ? ? ? <- F1]; subst. inversion F1 as [|? ? ? ? <- F2]; subst. inversion F2; subst. reflexivity.
  - intros (pre & post & E & L). exists pre, crlf, post. split; [exact E|]. split; [exact L|]. repeat constructor.
Qed.

Lemma first_crlf : forall a s, no_occurrence eq crlf a -> first_occurrence eq crlf (a ++ crlf ++ s) (length a).
Proof.
  intros a s N. split; [apply crlf_occ; eauto|]. intros j Hj X. apply crlf_occ in X. destruct X as (pre & post & E & L).
  (* CR at j, LF at j+1; j + 1 <= length a; if j + 1 = length a the LF would be CR *)
  assert (Ej : nth_error (a ++ crlf ++ s) j = Some 13).
  { rewrite E, nth_error_app2 by lia. replace (j - length pre)%nat with 0%nat by lia. reflexivity. }
  assert (Ek : nth_error (a ++ crlf ++ s) (S j) = Some 10).
  { rewrite E, nth_error_app2 by lia. replace (S j - length pre)%nat with 1%nat by lia. reflexivity. }
  rewrite nth_error_app1 in Ej by lia.
  destruct (Nat.eq_dec (S j) (length a)) as [Ea|Ea].
  - rewrite nth_error_app2 in Ek by lia. replace (S j - length a)%nat with 0%nat in Ek by lia. discriminate.
  - rewrite nth_error_app1 in Ek by lia. apply (N j). apply crlf_occ.
    apply nth_error_split in Ej. destruct Ej as (l1 & l2 & E1 & L1). subst a.
    rewrite nth_error_app2 in Ek by lia. replace (S j - length l1)%nat with 1%nat in Ek by lia.
    destruct l2 as [|c l2]; [discriminate|]. cbn in Ek. injection Ek as ->. exists l1, l2. split; [reflexivity|exact L1].
Qed.

Theorem C135_header : forall kvs m junk,
  Forall (fun kv => ~ In 58 (fst kv) /\ nonul (fst kv ++ snd kv) /\ no_occurrence eq crlf (fst kv ++ 58 :: snd kv)) kvs ->
  exists m', get_header m (Some (write_header kvs ++ 0 :: junk)) = Ok (0, m') /\
  forall k, lookup k m' = match last_value k kvs with Some v => Some v | None => lookup k m end.
Proof.
  intros kvs m junk H.
  assert (L : header_lines (write_header kvs) (map (fun kv => fst kv ++ 58 :: snd kv) kvs)).
  { induction H as [|[k v] kvs (H1 & H2 & H3) H IH]; [constructor|]. cbn [fst snd] in *.
    cbn [write_header flat_map map fst snd].
    replace ((k ++ 58 :: v ++ crlf) ++ flat_map (fun kv => fst kv ++ 58 :: snd kv ++ crlf) kvs)
      with ((k ++ 58 :: v) ++ crlf ++ write_header kvs) by (rewrite <- !app_assoc; cbn [app]; rewrite <- app_assoc; reflexivity).
    apply hl_more; [destruct k; discriminate|apply first_crlf; exact H3|exact IH]. }
  assert (Hn : nonul (write_header kvs)).
  { clear L. induction H as [|[k v] kvs (H1 & H2 & H3) H IH]; [constructor|]. cbn [fst snd] in *.
    cbn [write_header flat_map fst snd]. apply nonul_app in H2. destruct H2 as [A B].
    apply nonul_app. split; [|exact IH]. apply nonul_app. split; [exact A|]. constructor; [discriminate|].
    apply nonul_app. split; [exact B|]. repeat constructor; discriminate. }
  destruct (C31_get_header_cstring m _ junk _ Hn L) as (m' & E & V). exists m'. split; [exact E|]. intros k.
  pose proof (value_last 58 (fun x => x) (fun x => x) kvs (lookup k m) k (lookup k m')) as X.
  apply X; [|auto|exact (V k)]. intros kv I. rewrite Forall_forall in H. exact (proj1 (H kv I)).
Qed.
Print Assumptions C135_header.
Example C135_header_ex :
  write_header [(zs "Host", zs " x"); (zs "A", []); (zs "Host", zs " y:1")] = zs "Host: x" ++ crlf ++ zs "A:" ++ crlf ++ zs "Host: y:1" ++ crlf /\
  get_header [] (Some (write_header [(zs "Host", zs " x"); (zs "A", []); (zs "Host", zs " y:1")] ++ [0])) =
    Ok (0, [(zs "Host", zs " y:1"); (zs "A", [])]).
Proof. split; reflexivity. Qed.

(** Lists with commas: any texts without comma, except the list of one empty text, which
    looks like the empty list. *)
Lemma join_nonul : forall d ps, d <> 0 -> Forall nonul ps -> nonul (join [d] ps).
Proof.
  intros d ps Hd D. induction D as [|t ts Ht D IH]; [constructor|]. destruct ts as [|u ts]; [exact Ht|].
  change (join [d] (t :: u :: ts)) with (t ++ [d] ++ join [d] (u :: ts)).
  apply nonul_app. split; [exact Ht|]. apply nonul_app. split; [repeat constructor; exact Hd|exact IH].
Qed.
Theorem C135_stringset : forall ps junk init, Forall nonul ps -> Forall (fun p => ~ In 44 p) ps -> ps <> [[]] ->
  exists r, get_stringset (Some (join [44] ps ++ 0 :: junk)) init = Ok r /\
    forall x, In x r <-> In x init \/ In x ps.
Proof.
  intros ps junk init Hn Hc Hp. destruct ps as [|p ps].
  { exists init. split; [exact (proj1 (C20_stringset_empty junk init))|]. intros x. cbn. tauto. }
  apply C20_stringset.
  - apply join_nonul; [discriminate|exact Hn].
  - destruct ps as [|q ps]; [cbn; congruence|]. destruct p; discriminate.
  - apply (join_splits (fun c => c = 44)); [reflexivity|discriminate|].
    eapply Forall_impl; [|exact Hc]. cbv beta. intros t Ht. apply Forall_forall. intros c Ic ->. exact (Ht Ic).
Qed.
Print Assumptions C135_stringset.
Theorem C135_stringset_refuted : exists r, get_stringset (Some (join [44] [[]] ++ [0])) [] = Ok r /\ ~ In [] r.
Proof. exists []. split; [reflexivity|]. intros X. exact X. Qed.
Print Assumptions C135_stringset_refuted.
Example C135_stringset_ex : get_stringset (Some (join [44] [zs "b"; []; zs "a c"] ++ [0])) [] = Ok [zs "a c"; []; zs "b"].
Proof. reflexivity. Qed.

(** Numbers in decimal with commas; there must be one. *)
Theorem C135_uint64set : forall ns junk init, ns <> [] ->
  Forall (fun d => d <> [] /\ Forall digit d /\ decimal d < 2 ^ 64) ns ->
  exists r, get_uint64set (Some (join [44] ns ++ 0 :: junk)) init = Ok r /\
    forall x, In x r <-> In x init \/ In x (map decimal ns).
Proof.
  intros ns junk init Hne H.
  assert (R : forall d, In d ns -> forall x, reads_number d x <-> x = decimal d).
  { intros d I x. rewrite Forall_forall in H. destruct (H d I) as (H1 & H2 & H3).
    assert (Hd : forall c, In c d -> 48 <= c <= 57).
    { intros c Ic. rewrite Forall_forall in H2. exact (H2 c Ic). }
    split.
    - intros X. inversion X as [ws sign ds rest W S0 N D F Ed Ex]; subst d.
      assert (ws = []) as ->.
      { destruct ws as [|c ws]; [reflexivity|]. inversion W as [|? ? Wc _]; subst.
        specialize (Hd c ltac:(left; reflexivity)). unfold space in Wc. lia. }
      assert (sign = []) as ->.
      { destruct S0 as [->|[->| ->]]; [reflexivity| |].
        - specialize (Hd 43 ltac:(left; reflexivity)). lia.
        - specialize (Hd 45 ltac:(left; reflexivity)). lia. }
      cbn [app] in *.
      assert (rest = []) as ->.
      { destruct rest as [|c t]; [reflexivity|]. exfalso. apply (F c t eq_refl). unfold digit.
        apply Hd. apply in_or_app. right. left. reflexivity. }
      rewrite app_nil_r in *. destruct (Z.leb_spec (2 ^ 64) (decimal ds)); [lia|reflexivity].
    - intros ->.
      assert (G : reads_number ([] ++ [] ++ d ++ []) (if 2 ^ 64 <=? decimal d then 2 ^ 64 - 1 else decimal d)).
      { apply (reads [] [] d []); auto. intros c t X. discriminate. }
      cbn [app] in G. rewrite app_nil_r in G. destruct (Z.leb_spec (2 ^ 64) (decimal d)); [lia|exact G]. }
  destruct (C21_uint64set_partial (join [44] ns) junk init ns) as (r & E & V).
  - apply join_nonul; [discriminate|]. eapply Forall_impl; [|exact H]. cbv beta. intros d (_ & D & _).
    eapply Forall_impl; [|exact D]. unfold digit. intros c Hc. lia.
  - apply (join_splits (fun c => c = 44)); [reflexivity|exact Hne|].
    eapply Forall_impl; [|exact H]. cbv beta. intros d (_ & D & _).
    eapply Forall_impl; [|exact D]. unfold digit. intros c Hc. lia.
  - intros d I. exists (decimal d). apply (R d I). reflexivity.
  - exists r. split; [exact E|]. intros x. rewrite V, in_map_iff. split; (intros [X|(d & X)]; [left; exact X|right]).
    + exists d. destruct X as [I X]. apply (R d I) in X. auto.
    + exists d. destruct X as [X I]. split; [exact I|]. apply (R d I). auto.
Qed.
Print Assumptions C135_uint64set.
Theorem C135_uint64set_refuted : get_uint64set (Some (join [44] [] ++ [0])) [] = Ub Uninit.
Proof. reflexivity. Qed.
Print Assumptions C135_uint64set_refuted.
Example C135_uint64set_ex : get_uint64set (Some (join [44] [zs "18446744073709551615"; zs "7"; zs "007"] ++ [0])) [] = Ok [7; 18446744073709551615].
Proof. reflexivity. Qed.

(** Splitting at single characters, and at several. *)
Theorem C135_split : forall d ps junk dj del, nonul d -> In del d -> ps <> [] ->
  Forall (fun p => nonul p /\ forall c, In c p -> ~ In c d) ps ->
  split_string (join [del] ps ++ 0 :: junk) (d ++ 0 :: dj) false = Ok ps.
Proof.
  intros d ps junk dj del Hd Hdel Hne H.
  apply C19_split_string; [|exact Hd|].
  - apply join_nonul.
    + intros ->. unfold nonul in Hd. rewrite Forall_forall in Hd. exact (Hd 0 Hdel eq_refl).
    + eapply Forall_impl; [|exact H]. cbv beta. intros p [X _]. exact X.
  - apply join_splits; [exact Hdel|exact Hne|]. eapply Forall_impl; [|exact H]. cbv beta. intros p [_ X].
    apply Forall_forall. exact X.
Qed.
Print Assumptions C135_split.
Example C135_split_ex : split_string (join [59] [zs "a"; []; zs "b"] ++ [0]) (zs ",;" ++ [0]) false = Ok [zs "a"; []; zs "b"].
Proof. reflexivity. Qed.
