(** Theorems about url.cpp. *)

From Coq Require Import ZArith List Bool Lia Arith.
From Verif Require Import Base Base64_Model Base64_Spec Base64_Props
  Str_Model Str_Spec Str_Proof StrCpp_Model StrCpp_Spec StrCpp_Proof
  Url_Model Url_Spec Url_Proof.
Import ListNotations.
Local Open Scope Z_scope.

(** ** C26: encode/decode round trip *)

Theorem C26_urlenc_urldec : forall s, bytes s ->
  (e <- urlenc_str s ;; urldec_str e) = Ok s /\
  (e <- urlenc_noplus_str s ;; urldec_str e) = Ok s.
Proof.
  assert (H : forall plus s, bytes s -> bytes (url_encode plus s)).
  { intros plus s Hs. induction Hs as [|c s Hc Hs IH]; cbn [url_encode flat_map]; [constructor|].
    apply bytes_app. split; [|exact IH]. unfold enc1. destruct (unreservedb c).
    - repeat constructor; unfold byte in *; lia.
    - destruct (plus && (c =? 32)); [repeat constructor; lia|].
      assert (Hd : 0 <= c / 16 < 16)
        by (unfold byte in Hc; split; [apply Z.div_pos|apply Z.div_lt_upper_bound]; lia).
      pose proof (Z.mod_pos_bound c 16 ltac:(lia)) as Hm.
      pose proof (hexdigit_hexd _ Hd). pose proof (hexdigit_hexd _ Hm). unfold hexd in *.
      unfold pct. repeat constructor; unfold byte; lia. }
  intros s Hs. unfold urlenc_str, urlenc, urlenc_noplus_str, urlenc_noplus, urldec_str, urldec. split.
  - rewrite urlenc_loop_ok by exact Hs. cbn [bind app].
    exact (urldec_loop_ok _ _ (url_decodes_encode true s Hs) (H true s Hs) []).
  - rewrite urlenc_noplus_loop_ok by exact Hs. cbn [bind app].
    exact (urldec_loop_ok _ _ (url_decodes_encode false s Hs) (H false s Hs) []).
Qed.
Example C26_ex : bytes [0; 37; 43; 32; 255; 65] /\
  urlenc_str [0; 37; 43; 32; 255; 65] = Ok (zs "%00%25%2B+%FFA") /\
  urldec_str (zs "%00%25%2B+%FFA") = Ok [0; 37; 43; 32; 255; 65].
Proof. split; [repeat constructor; cbv; intuition discriminate|]. split; reflexivity. Qed.
Print Assumptions C26_urlenc_urldec.

(** ** C27: what the encoder writes *)

Theorem C27_urlenc_exact : forall s, bytes s ->
  urlenc_str s = Ok (url_encode true s) /\ urlenc_noplus_str s = Ok (url_encode false s).
Proof.
  intros s Hs. split; [exact (urlenc_loop_ok s [] Hs)|exact (urlenc_noplus_loop_ok s [] Hs)].
Qed.

(** the specification function in words: one piece per byte, the byte itself exactly for
    the unreserved characters, '+' for a blank, three characters otherwise *)
Theorem C27_encode_pieces : forall plus s, bytes s ->
  exists pieces, url_encode plus s = concat pieces /\
    Forall2 (fun c p =>
      (unreserved c /\ p = [c]) \/
      (~ unreserved c /\ c = 32 /\ plus = true /\ p = [43]) \/
      (~ unreserved c /\ (c = 32 -> plus = false) /\
       exists h l, p = [37; h; l] /\ c = hexval h * 16 + hexval l /\
         (48 <= h <= 57 \/ 65 <= h <= 70) /\ (48 <= l <= 57 \/ 65 <= l <= 70))) s pieces
    /\ (length (url_encode plus s) <= 3 * length s)%nat.
Proof.
  intros plus s Hs. exists (map (enc1 plus) s). split; [apply flat_map_concat_map|].
  split; [|apply url_encode_len].
  induction Hs as [|c s Hc Hs IH]; cbn [map]; constructor; [|exact IH].
  unfold enc1. destruct (unreservedb c) eqn:Eu; [left; split; [apply unreservedb_iff; exact Eu|reflexivity]|].
  assert (Hu : ~ unreserved c) by (intros H; apply unreservedb_iff in H; congruence).
  destruct (plus && (c =? 32)) eqn:Ep.
  - apply andb_true_iff in Ep. destruct Ep as [-> Ep]. apply Z.eqb_eq in Ep.
    right. left. split; [exact Hu|]. split; [exact Ep|]. split; reflexivity.
  - right. right. split; [exact Hu|]. split.
    + intros ->. destruct plus; [discriminate|reflexivity].
    + assert (Hd : 0 <= c / 16 < 16)
        by (unfold byte in Hc; split; [apply Z.div_pos|apply Z.div_lt_upper_bound]; lia).
      pose proof (Z.mod_pos_bound c 16 ltac:(lia)) as Hm.
      exists (hexdigit (c / 16)), (hexdigit (c mod 16)). split; [reflexivity|]. split.
      * rewrite !hexval_hexdigit by assumption. rewrite Z.mul_comm. apply Z.div_mod. lia.
      * unfold hexdigit. destruct (Z.ltb_spec (c / 16) 10), (Z.ltb_spec (c mod 16) 10); lia.
Qed.
Example C27_ex : urlenc_str (zs "a b/~") = Ok (zs "a+b%2F~") /\
  urlenc_noplus_str (zs "a b/~") = Ok (zs "a%20b%2F~").
Proof. split; reflexivity. Qed.
Print Assumptions C27_urlenc_exact.
Print Assumptions C27_encode_pieces.

(** ** C28: the buffer variants *)

Theorem C28_urlenc_buf : forall s dst, bytes s -> (3 * length s + 1 <= length dst)%nat ->
  exists e, urlenc_str s = Ok e /\
    urlenc_buf dst s (length s) = Ok (length e, e ++ 0 :: skipn (length e + 1) dst).
Proof.
  intros s dst Hs Hl. exists (url_encode true s). split; [apply C27_urlenc_exact; exact Hs|].
  pose proof (url_encode_len true s).
  rewrite Nat.add_1_r. exact (urlenc_buf_loop_ok s [] dst Hs ltac:(lia)).
Qed.
Theorem C28_urldec_buf : forall s dst, bytes s -> (length s + 1 <= length dst)%nat ->
  exists t, urldec_str s = Ok t /\
    urldec_buf dst s (length s) = Ok (length t, t ++ 0 :: skipn (length t + 1) dst).
Proof.
  intros s dst Hs Hl. destruct (url_decodes_exists s) as [t [Ht Hlen]]. exists t.
  split; [exact (urldec_loop_ok s t Ht Hs [])|].
  rewrite Nat.add_1_r. exact (urldec_buf_loop_ok s t Ht Hs [] dst ltac:(lia)).
Qed.
(** the sizes are needed: one byte less and the terminator is written past the end *)
Theorem C28_sizes_needed :
  urlenc_buf [0; 0; 0] [255] 1 = Ub OobWrite /\ urldec_buf [0] (zs "x") 1 = Ub OobWrite.
Proof. split; reflexivity. Qed.
Example C28_ex : urlenc_buf (repeat 7 9) (zs "a b") 3 = Ok (3%nat, zs "a+b" ++ 0 :: repeat 7 5) /\
  urldec_buf (repeat 7 6) (zs "%4a+b") 5 = Ok (3%nat, zs "J b" ++ 0 :: repeat 7 2).
Proof. split; reflexivity. Qed.
Print Assumptions C28_urlenc_buf.
Print Assumptions C28_urldec_buf.

(** ** C29: the decoder is total *)

Theorem C29_urldec_total : forall s, bytes s ->
  exists t, urldec_str s = Ok t /\ url_decodes s t /\ bytes t /\ (length t <= length s)%nat.
Proof.
  intros s Hs. destruct (url_decodes_exists s) as [t [Ht Hlen]]. exists t.
  split; [exact (urldec_loop_ok s t Ht Hs [])|]. split; [exact Ht|]. split; [|exact Hlen].
  clear Hlen. induction Ht as [|a b s t H IH|s t H IH|c s t H43 H37 H IH].
  - constructor.
  - rewrite !bytes_cons in Hs. apply bytes_cons. split; [|apply IH; tauto].
    pose proof (hexval_range a). pose proof (hexval_range b). unfold byte. lia.
  - apply bytes_cons in Hs. apply bytes_cons. split; [unfold byte; lia|apply IH; tauto].
  - apply bytes_cons in Hs. apply bytes_cons. split; [tauto|apply IH; tauto].
Qed.
(** the relation determines the result *)
Theorem C29_decodes_unique : forall s t t', bytes s -> url_decodes s t -> url_decodes s t' -> t = t'.
Proof.
  intros s t t' Hs H H'. pose proof (urldec_loop_ok s t H Hs []) as E.
  rewrite (urldec_loop_ok s t' H' Hs []) in E. cbn [app] in E. congruence.
Qed.
Example C29_ex : urldec_str (zs "a%4") = Ok (zs "a%4") /\ urldec_str (zs "%zzx") = Ok [0; 120] /\
  urldec_str (zs "%%41") = Ok [4; 49].
Proof. repeat split; reflexivity. Qed.
Print Assumptions C29_urldec_total.
Print Assumptions C29_decodes_unique.

(** ** C07, second half: web64 text passes through the URL codec unchanged *)

Theorem C07_web64_survives_urlcodec : forall x out outlen, bytes x -> (outlen <= length out)%nat ->
  exists text rest, web64_encode x (length x) out outlen = Ok (text ++ rest) /\
    length text = Nat.min outlen (rfc_length (length x)) /\
    urlenc_str text = Ok text /\ urlenc_noplus_str text = Ok text /\ urldec_str text = Ok text.
Proof.
  intros x out outlen Hx Ho. destruct (C07_web64_alphabet x out outlen Hx Ho) as [text [rest [E [L F]]]].
  exists text, rest. split; [exact E|]. split; [exact L|].
  assert (Hb : bytes text) by (eapply Forall_impl; [|exact F]; cbv beta; unfold byte; intros; lia).
  assert (Hu : Forall (fun c => unreservedb c = true) text).
  { eapply Forall_impl; [|exact F]. cbv beta. intros c Hc. apply unreservedb_iff. unfold unreserved. lia. }
  assert (He : forall plus, url_encode plus text = text).
  { intros plus. clear -Hu. induction Hu as [|c t Hc Ht IH]; [reflexivity|].
    cbn [url_encode flat_map]. unfold enc1 at 1. rewrite Hc. cbn [app]. f_equal. exact IH. }
  destruct (C27_urlenc_exact text Hb) as [E1 E2]. rewrite !He in *.
  split; [exact E1|]. split; [exact E2|].
  pose proof (url_decodes_encode true text Hb) as D. rewrite He in D.
  exact (urldec_loop_ok text text D Hb []).
Qed.
Example C07_ex : exists rest, web64_encode [251; 255; 0] 3 (repeat 0 4) 4 = Ok (zs "-_8A" ++ rest) /\
  urlenc_str (zs "-_8A") = Ok (zs "-_8A").
Proof. eexists. split; [vm_compute; reflexivity|reflexivity]. Qed.
Print Assumptions C07_web64_survives_urlcodec.

(** ** C30: query parameters *)

Theorem C30_get_params : forall m s ps, splits (fun c => c = 38) s ps ->
  exists m', get_params_buf m (Some s) (length s) = Ok (0, m') /\
    forall k, value_after 61 ps (lookup k m) k (lookup k m').
Proof.
  intros m s ps H. destruct (params_loop_ok s ps H (S (length s)) m (le_n _)) as [r [E Hr]].
  exists r. split; [|exact Hr]. cbn [get_params_buf]. rewrite E. reflexivity.
Qed.
(** the NUL-terminated variant; the pieces exist and are unique (C19_split_determined) *)
Theorem C30_get_params_cstring : forall m s junk ps, nonul s -> splits (fun c => c = 38) s ps ->
  exists m', get_params m (Some (s ++ 0 :: junk)) = Ok (0, m') /\
    forall k, value_after 61 ps (lookup k m) k (lookup k m').
Proof.
  intros m s junk ps Hn H. destruct (C30_get_params m s ps H) as [m' [E Hv]]. exists m'.
  split; [|exact Hv]. cbn [get_params]. rewrite (strlen_ok same eq same_eq same_idem) by exact Hn. cbn [bind].
  cbn [get_params_buf] in *. rewrite params_loop_prefix. exact E.
Qed.
Theorem C30_null : forall m n, get_params_buf m None n = Ok (-1, m) /\ get_params m None = Ok (-1, m).
Proof. split; reflexivity. Qed.
Example C30_ex : get_params_buf [(zs "z", zs "0")] (Some (zs "a=1&b&=x&a=2=3&c=")) 17
  = Ok (0, [(zs "z", zs "0"); (zs "a", zs "2=3"); ([], zs "x"); (zs "c", [])]).
Proof. reflexivity. Qed.
Print Assumptions C30_get_params.
Print Assumptions C30_get_params_cstring.

(** ** C31: headers *)

Theorem C31_header_lines_exist : forall s, exists ls, header_lines s ls.
Proof.
  intros s. remember (length s) as n eqn:En. assert (Hn : (length s <= n)%nat) by lia. clear En.
  revert s Hn. induction n as [|n IH]; intros s Hn.
  - destruct s; [|cbn in Hn; lia]. exists []. constructor.
  - destruct s as [|c s]; [exists []; constructor|].
    assert (D : (exists i, first_occurrence eq crlf (c :: s) i) \/ no_occurrence eq crlf (c :: s)).
    { clear. induction (c :: s) as [|x l IH].
      - right. intros j [pre [mid [post [E [_ F]]]]]. apply Forall2_len in F.
        destruct pre, mid; cbn in *; try discriminate.
      - destruct (list_eq_dec Z.eq_dec (firstn 2 (x :: l)) crlf) as [E|N].
        + left. exists 0%nat. split; [|intros j Hj; lia]. exists [], crlf, (skipn 2 (x :: l)).
          split; [rewrite <- E; cbn [app]; symmetry; apply firstn_skipn|]. split; [reflexivity|].
          repeat constructor.
        + assert (N0 : ~ occurs_at eq crlf (x :: l) 0).
          { intros [pre [mid [post [E [L F]]]]]. destruct pre; [|discriminate]. apply N.
            inversion F as [|? ? ? ? <- F1]; subst. inversion F1 as [|? ? ? ? <- F2]; subst.
            inversion F2; subst. cbn [app] in E. rewrite E. reflexivity. }
          assert (Sh : forall j, occurs_at eq crlf (x :: l) (S j) <-> occurs_at eq crlf l j).
          { intros j. split.
            - intros [pre [mid [post [E [L F]]]]]. destruct pre as [|p pre]; [discriminate|].
              injection E as _ E. exists pre, mid, post. split; [exact E|]. split; [|exact F].
              injection L as L. exact L.
            - intros [pre [mid [post [E [L F]]]]]. exists (x :: pre), mid, post.
              split; [rewrite E; reflexivity|]. split; [cbn; congruence|exact F]. }
          destruct IH as [[i [H1 H2]]|H].
          * left. exists (S i). split; [apply Sh; exact H1|].
            intros [|j] Hj; [exact N0|]. intros H. apply Sh in H. apply (H2 j); [lia|exact H].
          * right. intros [|j]; [exact N0|]. intros H'. apply Sh in H'. exact (H j H'). }
    destruct D as [[i Hi]|Hno]; [|exists [c :: s]; constructor; [discriminate|exact Hno]].
    pose proof Hi as [[pre [mid [post [E [L F]]]]] _].
    assert (mid = crlf).
    { inversion F as [|? ? ? ? <- F1]; subst. inversion F1 as [|? ? ? ? <- F2]; subst.
      inversion F2; subst. reflexivity. }
    subst mid. destruct pre as [|p pre].
    + exists []. rewrite E. constructor.
    + destruct (IH post) as [ls Hls].
      { rewrite E in Hn. rewrite !app_length in Hn. cbn [length crlf] in Hn. lia. }
      exists ((p :: pre) :: ls). rewrite E in *. constructor; [discriminate| |exact Hls].
      rewrite L. exact Hi.
Qed.

(** Full statement: the same without the hypothesis on NUL.  Missing: a line whose first
    character is NUL hides the following CRLF (the substring search returns "not
    found" when the text starts with NUL); see [C31_get_header_refuted]. *)
Theorem C31_get_header_partial : forall m s ls, header_lines s ls ->
  Forall (fun l => hd 0 l <> 0) ls ->
  exists m', get_header_buf m (Some s) (length s) = Ok (0, m') /\
    forall k, value_after 58 ls (lookup k m) k (lookup k m').
Proof.
  intros m s ls H Hl. destruct (header_loop_ok s ls H Hl (S (length s)) m (le_n _)) as [r [E Hr]].
  exists r. split; [|exact Hr]. cbn [get_header_buf]. rewrite E. reflexivity.
Qed.
Theorem C31_get_header_cstring : forall m s junk ls, nonul s -> header_lines s ls ->
  exists m', get_header m (Some (s ++ 0 :: junk)) = Ok (0, m') /\
    forall k, value_after 58 ls (lookup k m) k (lookup k m').
Proof.
  intros m s junk ls Hn H.
  assert (Hl : Forall (fun l => hd 0 l <> 0) ls).
  { assert (G : forall l : list Z, l <> [] -> nonul l -> hd 0 l <> 0).
    { intros [|c l] H1 H2; [congruence|]. inversion H2; assumption. }
    induction H as [|s|s Hne Hno|a s ls Hne Hf Hs IH]; [constructor|constructor| |].
    - constructor; [apply G; assumption|constructor].
    - apply nonul_app in Hn. destruct Hn as [Ha Hn]. apply nonul_app in Hn. destruct Hn as [_ Hn].
      constructor; [apply G; assumption|apply IH; exact Hn]. }
  destruct (C31_get_header_partial m s ls H Hl) as [m' [E Hv]]. exists m'.
  split; [|exact Hv]. cbn [get_header]. rewrite (strlen_ok same eq same_eq same_idem) by exact Hn. cbn [bind].
  cbn [get_header_buf] in *. rewrite header_loop_prefix. exact E.
Qed.
Theorem C31_get_header_refuted : exists m s ls m',
  header_lines s ls /\ get_header_buf m (Some s) (length s) = Ok (0, m') /\
  exists k, ~ value_after 58 ls (lookup k m) k (lookup k m').
Proof.
  set (s := [0; 58; 98] ++ crlf ++ zs "c:d").
  exists [], s, [[0; 58; 98]; zs "c:d"], [([0], [98; 13; 10; 99; 58; 100])].
  split; [|split; [reflexivity|]].
  - apply (hl_more [0; 58; 98] (zs "c:d")); [discriminate| |].
    + pose proof (strnstr_crlf (1 :: 58 :: 98 :: crlf ++ zs "c:d") ltac:(discriminate)) as H.
      split.
      * exists [0; 58; 98], crlf, (zs "c:d"). repeat split. repeat constructor.
      * intros j Hj [pre [mid [post [E [L F]]]]].
        inversion F as [|? ? ? ? <- F1]; subst. inversion F1 as [|? ? ? ? <- F2]; subst.
        inversion F2; subst. destruct pre as [|? [|? [|? pre]]]; cbn [length] in Hj; try lia;
        discriminate.
    + apply hl_last; [discriminate|]. intros j [pre [mid [post [E [L F]]]]].
      inversion F as [|? ? ? ? <- F1]; subst. inversion F1 as [|? ? ? ? <- F2]; subst.
      inversion F2; subst. destruct pre as [|? [|? [|? [|? pre]]]]; discriminate.
  - exists (zs "c"). intros [[pre [seg [post [v [E [[Ef _] [_ H]]]]]]]|[H _]]; [discriminate|].
    apply (H (zs "c:d") (zs "d")); [right; left; reflexivity|]. split; [reflexivity|].
    cbv. intuition discriminate.
Qed.
Theorem C31_null : forall m n, get_header_buf m None n = Ok (-1, m) /\ get_header m None = Ok (-1, m).
Proof. split; reflexivity. Qed.
Example C31_ex : get_header_buf [] (Some (zs "A: 1" ++ crlf ++ zs "bad" ++ crlf ++ zs "B:2:3" ++ crlf ++ crlf ++ zs "C:4")) 25
  = Ok (0, [(zs "A", zs " 1"); (zs "B", zs "2:3")]).
Proof. reflexivity. Qed.
Print Assumptions C31_header_lines_exist.
Print Assumptions C31_get_header_partial.
Print Assumptions C31_get_header_cstring.
Print Assumptions C31_get_header_refuted.

(** ** C32: url_escape *)

(** Full statement: for every NUL-terminated string.  Missing: strings with bytes >= 128,
    for which the function reads outside its table ([C32_url_escape_high_refuted]). *)
Theorem C32_url_escape_partial : forall s junk dest,
  Forall (fun c => 1 <= c <= 127) s -> (3 <= length dest)%nat -> Z.of_nat (length dest) < 2 ^ 64 ->
  exists k e, urlenc_str s = Ok e /\
    url_escape (s ++ 0 :: junk) dest (Z.of_nat (length dest))
    = Ok (firstn k e ++ repeat 0 (length dest - k)) /\
    (k <= length e)%nat /\ (k < length dest)%nat /\
    ((length e + 4 <= length dest)%nat -> k = length e).
Proof.
  intros s junk dest Hs Hd Hmax.
  assert (Hb : bytes s) by (eapply Forall_impl; [|exact Hs]; cbv beta; unfold byte; intros; lia).
  unfold url_escape. rewrite memset0_ok by lia. cbn [bind]. rewrite Z.mod_small by lia.
  destruct (escape_loop_ok s [] (length dest) (Z.of_nat (length dest) - 3) junk Hs) as [k [E [H1 [H2 H3]]]];
    [lia|cbn [length]; lia|lia|].
  exists k, (url_encode true s). split; [apply C27_urlenc_exact; exact Hb|]. split; [exact E|].
  split; [exact H1|]. split; [exact H2|]. intros H. apply H3. cbn [length]. lia.
Qed.
Theorem C32_url_escape_high_refuted : exists s, nonul s /\ bytes s /\
  url_escape (s ++ [0]) (repeat 0 100) 100 = Ub OobRead.
Proof.
  exists (zs "a" ++ [208]). split; [repeat constructor; discriminate|].
  split; [repeat constructor; cbv; intuition discriminate|vm_compute; reflexivity].
Qed.
(** every string whose first byte is >= 128 does so, in every buffer *)
Theorem C32_url_escape_high : forall c s dest, 128 <= c <= 255 -> (4 <= length dest)%nat ->
  Z.of_nat (length dest) < 2 ^ 64 ->
  url_escape (c :: s) dest (Z.of_nat (length dest)) = Ub OobRead.
Proof.
  intros c s dest Hc Hd Hmax. unfold url_escape. rewrite memset0_ok by lia. cbn [bind].
  rewrite Z.mod_small by lia. cbn [escape_loop]. destruct (Z.eqb_spec c 0); [lia|].
  destruct (Z.ltb_spec (Z.of_nat 0) (Z.of_nat (length dest) - 3)); [|lia]. cbn [orb negb].
  unfold schar. destruct (Z.ltb_spec c 128); [lia|]. destruct (Z.ltb_spec (c - 256) 0); [reflexivity|lia].
Qed.
(** a buffer of fewer than three bytes is overrun: sz - 3 wraps around *)
Theorem C32_url_escape_small_refuted : exists s, Forall (fun c => 1 <= c <= 127) s /\
  url_escape (s ++ [0]) [0; 0] 2 = Ub OobWrite.
Proof. exists (zs "aaa"). split; [apply Forall_forall; intros c Hc; cbv in Hc; lia|vm_compute; reflexivity]. Qed.
Example C32_ex : url_escape (zs "a/b c" ++ [0]) (repeat 9 12) 12 = Ok (zs "a%2Fb+c" ++ repeat 0 5) /\
  url_escape (zs "a/b c" ++ [0]) (repeat 9 7) 7 = Ok (zs "a%2" ++ repeat 0 4).
Proof. split; vm_compute; reflexivity. Qed.
Print Assumptions C32_url_escape_partial.
Print Assumptions C32_url_escape_high.

(** ** C33: url_unescape *)

Theorem C33_url_unescape_safe : forall s junk dest,
  nonul s -> (2 <= length dest)%nat -> Z.of_nat (length dest) < 2 ^ 64 ->
  exists dest', url_unescape (s ++ 0 :: junk) dest (Z.of_nat (length dest)) = Ok dest' /\
    length dest' = length dest /\ In 0 dest'.
Proof.
  intros s junk dest Hs Hd Hmax. unfold url_unescape. rewrite memset0_ok by lia. cbn [bind].
  destruct (unescape_safe (length (s ++ 0 :: junk)) (repeat 0 (length dest)) 0 s junk
    (Z.of_nat (length dest))) as [d [E [L I]]]; try assumption; try lia.
  - rewrite app_length. cbn [length]. lia.
  - rewrite repeat_length. lia.
  - exists d. split; [exact E|]. rewrite repeat_length in L. auto.
Qed.
Theorem C33_url_unescape_urlenc : forall s junk dest,
  bytes s -> (length s + 2 <= length dest)%nat -> Z.of_nat (length dest) < 2 ^ 64 ->
  exists e e', urlenc_str s = Ok e /\ urlenc_noplus_str s = Ok e' /\
    url_unescape (e ++ 0 :: junk) dest (Z.of_nat (length dest))
    = Ok (s ++ repeat 0 (length dest - length s)) /\
    url_unescape (e' ++ 0 :: junk) dest (Z.of_nat (length dest))
    = Ok (s ++ repeat 0 (length dest - length s)).
Proof.
  intros s junk dest Hs Hd Hmax. exists (url_encode true s), (url_encode false s).
  destruct (C27_urlenc_exact s Hs) as [E1 E2]. split; [exact E1|]. split; [exact E2|].
  assert (G : forall plus, url_unescape (url_encode plus s ++ 0 :: junk) dest (Z.of_nat (length dest))
    = Ok (s ++ repeat 0 (length dest - length s))).
  { intros plus. unfold url_unescape. rewrite memset0_ok by lia. cbn [bind].
    apply (unescape_exact _ _ (unescapes_encode plus s Hs) (url_encode_nonul plus s Hs) _ [] (length dest));
      cbn [length]; try lia.
    rewrite app_length. cbn [length]. lia. }
  split; apply G.
Qed.
(** a one-byte buffer is overrun: sz - 2 wraps around *)
Theorem C33_url_unescape_small_refuted : exists s, nonul s /\
  url_unescape (s ++ [0]) [0] 1 = Ub OobWrite.
Proof. exists (zs "ab"). split; [repeat constructor; discriminate|vm_compute; reflexivity]. Qed.
Example C33_ex : url_unescape (zs "a%2Fb+c%" ++ [0]) (repeat 9 12) 12 = Ok (zs "a/b c%" ++ repeat 0 6) /\
  url_unescape (zs "a%2Fb+c%" ++ [0]) (repeat 9 5) 5 = Ok (zs "a/b" ++ repeat 0 2).
Proof. split; vm_compute; reflexivity. Qed.
Print Assumptions C33_url_unescape_safe.
Print Assumptions C33_url_unescape_urlenc.

(** ** C34: url_preunescape *)

Theorem C34_preunescape_refuted : exists s dest sz, nonul s /\ Z.of_nat (length dest) = sz /\
  url_preunescape (s ++ [0]) dest sz = Ub OobWrite.
Proof.
  exists (zs "abcd"), [0; 0; 0; 0], 4. split; [repeat constructor; discriminate|].
  split; vm_compute; reflexivity.
Qed.
(** Full statement: a destination of sz bytes.  Missing: that is false; the function
    needs min(sz + 8, strlen(s) + 1) bytes. *)
Theorem C34_preunescape_partial : forall s junk dest sz,
  nonul s -> 0 <= sz -> sz + 5 < 2 ^ 64 ->
  (sz + 8 <= Z.of_nat (length dest) \/ (length s < length dest)%nat) ->
  exists dest', url_preunescape (s ++ 0 :: junk) dest sz = Ok dest' /\
    length dest' = length dest /\
    exists i, (i <= length s)%nat /\ nth_error dest' i = Some 0.
Proof.
  intros s junk dest sz Hs H0 Hmax Hd. unfold url_preunescape.
  destruct (preunescape_safe (length (s ++ 0 :: junk)) dest 0 s junk sz) as [d [E [L [i [I1 [I2 I3]]]]]];
    try assumption; try lia.
  - rewrite app_length. cbn [length]. lia.
  - exists d. split; [exact E|]. split; [exact L|]. exists i. split; [lia|exact I3].
Qed.
(** the bound sz + 8 is attained *)
Theorem C34_bound_tight : 
  url_preunescape (zs "aaaaaaaa%41x" ++ [0]) (repeat 0 11) 4 = Ub OobWrite /\
  exists d, url_preunescape (zs "aaaaaaaa%41x" ++ [0]) (repeat 0 12) 4 = Ok d.
Proof. split; [vm_compute; reflexivity|]. eexists. vm_compute. reflexivity. Qed.
Print Assumptions C34_preunescape_partial.

(** ** C79: url_unescape decodes every escape form *)

Theorem C79_url_unescape_exact : forall s t junk dest,
  unescapes s t -> nonul s -> (length t + 2 <= length dest)%nat -> Z.of_nat (length dest) < 2 ^ 64 ->
  url_unescape (s ++ 0 :: junk) dest (Z.of_nat (length dest))
  = Ok (t ++ repeat 0 (length dest - length t)).
Proof.
  intros s t junk dest H Hn Hd Hmax. unfold url_unescape. rewrite memset0_ok by lia. cbn [bind].
  apply (unescape_exact s t H Hn _ [] (length dest)); cbn [length]; try lia.
  rewrite app_length. cbn [length]. lia.
Qed.
Example C79_ex : unescapes (zs "%u0416\x41%%4a+\x") [208; 150; 65; 37; 74; 32; 92; 120].
Proof.
  assert (hx : forall c, isxdigit c = true -> hexd c) by (intros c; apply isxdigit_iff).
  apply (une_uni 48 52 49 54 _ [65; 37; 74; 32; 92; 120]); try (apply hx; reflexivity).
  { cbn. unfold hexd. lia. }
  apply une_bsx; try (apply hx; reflexivity).
  apply une_copy; [lia|cbn; unfold hexd; lia|lia|].
  apply une_pct; try (apply hx; reflexivity). apply une_plus.
  apply une_copy; [lia|lia|cbn; lia|]. apply une_copy; [lia|lia|lia|]. constructor.
Qed.
Print Assumptions C79_url_unescape_exact.

(** ** C80: url_preunescape decodes the escapes of bytes >= 128 and keeps the rest *)

(** Full statement: for every string.  Missing: strings with \xXX below 128
    ([C80_preunescape_refuted]: the text of such an escape is overwritten). *)
Theorem C80_preunescape_exact_partial : forall s t junk dest sz,
  preunescapes s t -> nonul s -> sz + 5 < 2 ^ 64 ->
  Z.of_nat (length t) + 2 <= sz -> (length t < length dest)%nat ->
  url_preunescape (s ++ 0 :: junk) dest sz = Ok (t ++ 0 :: skipn (S (length t)) dest).
Proof.
  intros s t junk dest sz H Hn Hsz Hl Hd. unfold url_preunescape.
  apply (preunescape_exact s t H Hn _ [] dest); cbn [length]; try lia.
  rewrite app_length. cbn [length]. lia.
Qed.
Theorem C80_preunescape_refuted : exists s,
  nonul s /\ ~ In 37 s /\ (* only a \x escape of an ASCII character, to be kept *)
  url_preunescape (s ++ [0]) (repeat 7 40) 40 <> Ok (s ++ 0 :: skipn (S (length s)) (repeat 7 40)).
Proof.
  exists (zs "\x41b"). split; [repeat constructor; discriminate|]. split; [cbv; intuition discriminate|].
  vm_compute. discriminate.
Qed.
Example C80_ex : preunescapes (zs "%d0%96%41\x%") [208; 150; 37; 52; 49; 92; 120; 37] /\
  url_preunescape (zs "%d0%96%41\x%" ++ [0]) (repeat 7 12) 12
  = Ok ([208; 150; 37; 52; 49; 92; 120; 37; 0] ++ repeat 7 3).
Proof.
  assert (hx : forall c, isxdigit c = true -> hexd c) by (intros c; apply isxdigit_iff).
  split; [|vm_compute; reflexivity].
  apply (pre_pct_hi 100 48); try (apply hx; reflexivity); [cbv; discriminate|].
  apply (pre_pct_hi 57 54); try (apply hx; reflexivity); [cbv; discriminate|].
  apply pre_pct_lo; try (apply hx; reflexivity); [reflexivity|].
  apply pre_copy; [lia|cbn; unfold hexd; lia|]. apply pre_copy; [lia|lia|].
  apply pre_copy; [cbn; lia|lia|]. constructor.
Qed.
Print Assumptions C80_preunescape_exact_partial.
