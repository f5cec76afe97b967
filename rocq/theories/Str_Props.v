(** Property theorems C14-C18: coda/string.c and the inline functions of string.h.

    [s] is always the complete block the function may read (exactly [len] bytes
    for the bounded functions, a NUL-terminated string otherwise); [n ++ 0 :: junk]
    is a block holding the C string [n]. *)

From Coq Require Import ZArith List Bool Lia Arith.
From Verif Require Import Base Str_Model Str_Spec Str_Proof.
Import ListNotations.
Local Open Scope Z_scope.

(** ** C14 *)

Theorem C14_strnchr_first : forall s c,
  match strnchr s c (length s) with
  | Ok (Some i) => first_at (fun x => c = x) s i
  | Ok None => nowhere (fun x => c = x) s
  | _ => False
  end.
Proof.
  intros s c. pose proof (chr_loop_ok same eq same_eq same_idem s c 0) as H.
  unfold strnchr. change (same c) with c in H.
  destruct (chr_loop same c s 0 (length s)) as [[i|]| |]; try exact H.
  destruct H as [_ H]. rewrite Nat.sub_0_r in H. exact H.
Qed.

(** The x variants compare the folded character, a signed char, with the results of
    tolower, which are not negative for the bytes 128 .. 254: these bytes are never found.
    The full claim has no restriction on [c]. *)
Lemma chr_loop_same : forall f g k k' s pos, (forall x, In x s -> (k =? f x) = (k' =? g x)) ->
  chr_loop f k s pos (length s) = chr_loop g k' s pos (length s).
Proof.
  intros f g k k'. induction s as [|x s IH]; intros pos H; [reflexivity|]. cbn [length chr_loop].
  rewrite (H x (or_introl eq_refl)), (IH (S pos)); [reflexivity|]. intros y Hy. apply H. right. exact Hy.
Qed.
Lemma revchr_loop_same : forall f g k k' s n, (forall x, In x s -> (k =? f x) = (k' =? g x)) ->
  revchr_loop f k s n = revchr_loop g k' s n.
Proof.
  intros f g k k' s n H. induction n as [|n IH]; [reflexivity|]. cbn [revchr_loop].
  destruct (rd s n) as [x| |] eqn:E; cbn [bind]; [|reflexivity..]. rewrite (H x (rd_In _ _ _ _ E)), IH. reflexivity.
Qed.
Lemma chp_loop_same : forall f g k k' s todo p len, (forall x, In x s -> (k =? f x) = (k' =? g x)) ->
  chp_loop f k s p todo len = chp_loop g k' s p todo len.
Proof.
  intros f g k k' s todo. induction todo as [|n IH]; intros p len H; [reflexivity|]. cbn [chp_loop].
  destruct (rd s p) as [x| |] eqn:E; cbn [bind]; [|reflexivity..]. rewrite (H x (rd_In _ _ _ _ E)), IH by exact H. reflexivity.
Qed.
Lemma low_test : forall s c, bytes s -> 0 <= c < 128 \/ c = 255 ->
  forall x, In x s -> (char_of (tolower_int c) =? tolower_int x) = (tolower c =? tolower x).
Proof.
  intros s c B Hc x Hx. unfold bytes in B. rewrite Forall_forall in B. specialize (B x Hx). unfold byte in B.
  assert (E : char_of (tolower_int c) = if c =? 255 then -1 else tolower c).
  { unfold tolower_int. destruct Hc as [Hc| ->]; [|reflexivity]. destruct (Z.eqb_spec c 255); [lia|].
    unfold char_of, tolower. destruct (Z.leb_spec 65 c); destruct (Z.leb_spec c 90); cbn [andb]; rewrite Z.mod_small by lia; lia. }
  rewrite E. unfold tolower_int. destruct (Z.eqb_spec c 255) as [->|Hn]; destruct (Z.eqb_spec x 255) as [->|Hx'].
  - reflexivity.
  - change (tolower 255) with 255. unfold tolower. destruct (Z.leb_spec 65 x); destruct (Z.leb_spec x 90); cbn [andb];
      match goal with |- (?a =? ?b) = (?c =? ?d) => destruct (Z.eqb_spec a b); destruct (Z.eqb_spec c d); lia end.
  - change (tolower 255) with 255. unfold tolower. destruct (Z.leb_spec 65 c); destruct (Z.leb_spec c 90); cbn [andb];
      match goal with |- (?a =? ?b) = (?c =? ?d) => destruct (Z.eqb_spec a b); destruct (Z.eqb_spec c d); lia end.
  - reflexivity.
Qed.
Lemma high_test : forall s c, bytes s -> 128 <= c <= 254 ->
  forall x, In x s -> (char_of (tolower_int c) =? tolower_int x) = (-1 =? same x).
Proof.
  intros s c B Hc x Hx. unfold bytes in B. rewrite Forall_forall in B. specialize (B x Hx). unfold byte in B.
  assert (E : char_of (tolower_int c) = c - 256).
  { unfold tolower_int, tolower, char_of. destruct (Z.eqb_spec c 255); [lia|].
    destruct (Z.leb_spec 65 c); destruct (Z.leb_spec c 90); cbn [andb]; try lia.
    replace (c + 128) with (c - 128 + 1 * 256) by lia. rewrite Z.mod_add, Z.mod_small by lia. lia. }
  rewrite E. unfold tolower_int, tolower, same.
  destruct (Z.eqb_spec x 255); destruct (Z.leb_spec 65 x); destruct (Z.leb_spec x 90); cbn [andb];
    match goal with |- (?a =? ?b) = (?c =? ?d) => destruct (Z.eqb_spec a b); destruct (Z.eqb_spec c d); lia end.
Qed.
Lemma no_minus_1 : forall s, bytes s -> forall x, In x s -> -1 <> x.
Proof. intros s B x Hx. unfold bytes in B. rewrite Forall_forall in B. specialize (B x Hx). unfold byte in B. lia. Qed.

Theorem C14_strxchr_first_partial : forall s c, bytes s -> 0 <= c < 128 \/ c = 255 ->
  match strxchr s c (length s) with
  | Ok (Some i) => first_at (fun x => eq_case c x) s i
  | Ok None => nowhere (fun x => eq_case c x) s
  | _ => False
  end.
Proof.
  intros s c B Hc. pose proof (chr_loop_ok tolower eq_case tolower_eq tolower_idem s c 0) as H.
  unfold strxchr. rewrite (chr_loop_same _ _ _ _ s 0 (low_test s c B Hc)).
  destruct (chr_loop tolower (tolower c) s 0 (length s)) as [[i|]| |]; try exact H.
  destruct H as [_ H]. rewrite Nat.sub_0_r in H. exact H.
Qed.
Theorem C14_strxchr_high_bytes : forall s c, bytes s -> 128 <= c <= 254 -> strxchr s c (length s) = Ok None.
Proof.
  intros s c B Hc. pose proof (C14_strnchr_first s (-1)) as H. unfold strnchr in H.
  unfold strxchr. rewrite (chr_loop_same _ _ _ _ s 0 (high_test s c B Hc)).
  destruct (chr_loop same (-1) s 0 (length s)) as [[i|]| |]; try contradiction; [|reflexivity].
  destruct H as [(x & Hx & <-) _]. exfalso. exact (no_minus_1 s B _ (nth_error_In _ _ Hx) eq_refl).
Qed.

Theorem C14_revnchr_last : forall s c,
  match revnchr s c (length s) with
  | Ok (Some i) => last_at (fun x => c = x) s i
  | Ok None => nowhere (fun x => c = x) s
  | _ => False
  end.
Proof.
  intros s c. pose proof (revchr_loop_ok same eq same_eq same_idem c s (length s) (le_n _)) as H.
  rewrite firstn_all in H. exact H.
Qed.

Theorem C14_revxchr_last_partial : forall s c, bytes s -> 0 <= c < 128 \/ c = 255 ->
  match revxchr s c (length s) with
  | Ok (Some i) => last_at (fun x => eq_case c x) s i
  | Ok None => nowhere (fun x => eq_case c x) s
  | _ => False
  end.
Proof.
  intros s c B Hc.
  pose proof (revchr_loop_ok tolower eq_case tolower_eq tolower_idem c s (length s) (le_n _)) as H.
  rewrite firstn_all in H. unfold revxchr. rewrite (revchr_loop_same _ _ _ _ s _ (low_test s c B Hc)). exact H.
Qed.
Theorem C14_revxchr_high_bytes : forall s c, bytes s -> 128 <= c <= 254 -> revxchr s c (length s) = Ok None.
Proof.
  intros s c B Hc. pose proof (C14_revnchr_last s (-1)) as H. unfold revnchr in H.
  unfold revxchr. rewrite (revchr_loop_same _ _ _ _ s _ (high_test s c B Hc)).
  destruct (revchr_loop same (-1) s (length s)) as [[i|]| |]; try contradiction; [|reflexivity].
  destruct H as [(x & Hx & <-) _]. exfalso. exact (no_minus_1 s B _ (nth_error_In _ _ Hx) eq_refl).
Qed.

Theorem C14_strnchp_first : forall s c,
  exists i, strnchp s c (length s) = Ok i /\
    (first_at (fun x => c = x) s i \/ (i = length s /\ nowhere (fun x => c = x) s)).
Proof.
  intros s c. pose proof (chp_loop_ok same eq same_eq same_idem s [] c (length s)) as H.
  cbn [app] in H. change (length (@nil Z)) with 0%nat in H. change (same c) with c in H.
  unfold strnchp. destruct (chp_loop same c s 0 (length s) (length s)) as [i| |]; try contradiction.
  exists i. split; [reflexivity|]. destruct H as [[k [-> H]]|H]; [left; exact H|right; exact H].
Qed.

Theorem C14_strxchp_first_partial : forall s c, bytes s -> 0 <= c < 128 \/ c = 255 ->
  exists i, strxchp s c (length s) = Ok i /\
    (first_at (fun x => eq_case c x) s i \/ (i = length s /\ nowhere (fun x => eq_case c x) s)).
Proof.
  intros s c B Hc.
  pose proof (chp_loop_ok tolower eq_case tolower_eq tolower_idem s [] c (length s)) as H.
  cbn [app] in H. change (length (@nil Z)) with 0%nat in H.
  unfold strxchp. rewrite (chp_loop_same _ _ _ _ s _ _ _ (low_test s c B Hc)).
  destruct (chp_loop tolower (tolower c) s 0 (length s) (length s)) as [i| |]; try contradiction.
  exists i. split; [reflexivity|]. destruct H as [[k [-> H]]|H]; [left; exact H|right; exact H].
Qed.
Theorem C14_strxchp_high_bytes : forall s c, bytes s -> 128 <= c <= 254 -> strxchp s c (length s) = Ok (length s).
Proof.
  intros s c B Hc. destruct (C14_strnchp_first s (-1)) as (i & E & H). unfold strnchp in E.
  unfold strxchp. rewrite (chp_loop_same _ _ _ _ s _ _ _ (high_test s c B Hc)), E.
  destruct H as [[(x & Hx & <-) _]|[-> _]]; [|reflexivity].
  exfalso. exact (no_minus_1 s B _ (nth_error_In _ _ Hx) eq_refl).
Qed.

(** the full claim is false: a byte that is there, and the same character, is not found *)
Theorem C14_x_variants_refuted : exists s c, bytes s /\ In c s /\
  strxchr s c (length s) = Ok None /\ revxchr s c (length s) = Ok None /\ strxchp s c (length s) = Ok (length s) /\
  strnchr s c (length s) = Ok (Some 1%nat).
Proof.
  exists [97; 192; 98], 192. split; [repeat constructor; unfold byte; lia|]. split; [cbn; tauto|].
  repeat split; reflexivity.
Qed.

Example C14_ex_hyp : bytes (zs "abCabc") /\ (0 <= 67 < 128 \/ 67 = 255). Proof. split; [repeat constructor; unfold byte; cbn; lia|lia]. Qed.
Example C14_ex1 : strnchr (zs "abcabc") 99 6 = Ok (Some 2%nat). Proof. reflexivity. Qed.
Example C14_ex2 : revnchr (zs "abcabc") 99 6 = Ok (Some 5%nat). Proof. reflexivity. Qed.
Example C14_ex3 : strxchr (zs "abCabc") 67 6 = Ok (Some 2%nat). Proof. reflexivity. Qed.
Example C14_ex4 : revxchr (zs "abCab") 99 5 = Ok (Some 2%nat). Proof. reflexivity. Qed.
Example C14_ex5 : strnchp (zs "abc") 122 3 = Ok 3%nat. Proof. reflexivity. Qed.
Example C14_ex6 : strxchp (zs "aBc") 98 3 = Ok 1%nat. Proof. reflexivity. Qed.
Print Assumptions C14_strnchr_first.
Print Assumptions C14_strxchr_first_partial.
Print Assumptions C14_strxchr_high_bytes.
Print Assumptions C14_revnchr_last.
Print Assumptions C14_revxchr_last_partial.
Print Assumptions C14_revxchr_high_bytes.
Print Assumptions C14_strnchp_first.
Print Assumptions C14_strxchp_first_partial.
Print Assumptions C14_strxchp_high_bytes.
Print Assumptions C14_x_variants_refuted.

(** ** C15

    Full statement: for every haystack block [s] of [len] bytes and every non-empty
    needle, the result is the first occurrence.  It is false when [s] is empty (the
    function dereferences [s]) and when [s] starts with a NUL byte; it is proved for
    all other haystacks.  [coda_stristr] has the full property. *)

Theorem C15_strnstr_first_partial : forall s n junk, n <> [] -> nonul n -> hd 0 s <> 0 ->
  match strnstr (Some s) (Some (n ++ 0 :: junk)) (length s) with
  | Ok (Some i) => first_occurrence eq n s i
  | Ok None => no_occurrence eq n s
  | _ => False
  end.
Proof.
  intros [|c s] n junk Hne Hn Hc; [destruct Hc; reflexivity|].
  exact (str_gen_ok same eq same_eq same_idem c s n junk Hne Hn Hc).
Qed.

Theorem C15_strxstr_first_partial : forall s n junk, n <> [] -> nonul n -> hd 0 s <> 0 ->
  match strxstr (Some s) (Some (n ++ 0 :: junk)) (length s) with
  | Ok (Some i) => first_occurrence eq_case n s i
  | Ok None => no_occurrence eq_case n s
  | _ => False
  end.
Proof.
  intros [|c s] n junk Hne Hn Hc; [destruct Hc; reflexivity|].
  exact (str_gen_ok tolower eq_case tolower_eq tolower_idem c s n junk Hne Hn Hc).
Qed.

Theorem C15_stristr_first : forall s sj n junk, n <> [] -> nonul n -> nonul s ->
  match stristr (Some (s ++ 0 :: sj)) (Some (n ++ 0 :: junk)) with
  | Ok (Some i) => first_occurrence eq_case n s i
  | Ok None => no_occurrence eq_case n s
  | _ => False
  end.
Proof. exact stristr_ok. Qed.

(** The complete behaviour on the excluded haystacks: an empty block is read out of
    bounds, and a leading NUL hides everything behind it. *)
Theorem C15_strnstr_empty_reads_out_of_bounds : forall n,
  strnstr (Some []) n 0 = Ub OobRead /\ strxstr (Some []) n 0 = Ub OobRead.
Proof. intros n. split; reflexivity. Qed.

Theorem C15_strnstr_leading_nul : forall s n,
  strnstr (Some (0 :: s)) n (length (0 :: s)) = Ok None /\
  strxstr (Some (0 :: s)) n (length (0 :: s)) = Ok None.
Proof. intros s n. split; reflexivity. Qed.

Theorem C15_strnstr_first_refuted : exists s n,
  n <> [] /\ nonul n /\ first_occurrence eq n s 1 /\
  strnstr (Some s) (Some (n ++ [0])) (length s) = Ok None.
Proof.
  exists [0; 97], [97]. split; [discriminate|]. split; [constructor; [discriminate|constructor]|].
  split; [|reflexivity]. split.
  - exists [0], [97], []. split; [reflexivity|]. split; [reflexivity|].
    constructor; [reflexivity|constructor].
  - intros [|j] Hj; [|lia]. intros [[|? ?] [mid [post [E [El F]]]]]; [|discriminate].
    inversion F as [|? ? ? ? Hx Hl]; subst. inversion Hl; subst. discriminate.
Qed.

Example C15_ex1 : strnstr (Some (zs "aaab")) (Some (zs "aab" ++ [0])) 4 = Ok (Some 1%nat).
Proof. reflexivity. Qed.
Example C15_ex2 : strxstr (Some (zs "xAAb")) (Some (zs "aAB" ++ [0])) 4 = Ok (Some 1%nat).
Proof. reflexivity. Qed.
Example C15_ex3 : stristr (Some (zs "xAAby" ++ [0])) (Some (zs "aAB" ++ [0])) = Ok (Some 1%nat).
Proof. reflexivity. Qed.
Example C15_ex4 : strnstr (Some (zs "abcd")) (Some (zs "cde" ++ [0])) 4 = Ok None.
Proof. reflexivity. Qed.
Print Assumptions C15_strnstr_first_partial.
Print Assumptions C15_strxstr_first_partial.
Print Assumptions C15_stristr_first.
Print Assumptions C15_strnstr_first_refuted.

(** ** C16 *)

Theorem C16_strnspn_prefix : forall s n junk, nonul n ->
  exists k, strnspn s (n ++ 0 :: junk) (length s) = Ok k /\
    longest_prefix (fun c => exists x, In x n /\ c = x) s k.
Proof. intros s n junk Hn. exact (nspn_loop_ok same eq same_eq same_idem n junk s 0 Hn). Qed.

Theorem C16_strxspn_prefix : forall s n junk, nonul n ->
  exists k, strxspn s (n ++ 0 :: junk) (length s) = Ok k /\
    longest_prefix (fun c => exists x, In x n /\ eq_case c x) s k.
Proof.
  intros s n junk Hn. exact (nspn_loop_ok tolower eq_case tolower_eq tolower_idem n junk s 0 Hn).
Qed.

Theorem C16_strispn_prefix : forall s sj n junk, nonul n -> nonul s ->
  exists k, strispn (s ++ 0 :: sj) (n ++ 0 :: junk) = Ok k /\
    longest_prefix (fun c => exists x, In x n /\ eq_case c x) s k.
Proof. intros s sj n junk Hn Hs. exact (ispn_loop_ok n junk s sj 0 Hn Hs). Qed.

Theorem C16_strnspc_prefix : forall s n junk, nonul n ->
  exists k, strnspc s (n ++ 0 :: junk) (length s) = Ok k /\
    longest_prefix (fun c => ~ exists x, In x n /\ c = x) s k.
Proof. intros s n junk Hn. exact (nspc_loop_ok same eq same_eq same_idem n junk s 0 Hn). Qed.

Theorem C16_strxspc_prefix : forall s n junk, nonul n ->
  exists k, strxspc s (n ++ 0 :: junk) (length s) = Ok k /\
    longest_prefix (fun c => ~ exists x, In x n /\ eq_case c x) s k.
Proof.
  intros s n junk Hn. exact (nspc_loop_ok tolower eq_case tolower_eq tolower_idem n junk s 0 Hn).
Qed.

Theorem C16_strispc_prefix : forall s sj n junk, nonul n -> nonul s ->
  exists k, strispc (s ++ 0 :: sj) (n ++ 0 :: junk) = Ok k /\
    longest_prefix (fun c => ~ exists x, In x n /\ eq_case c x) s k.
Proof. intros s sj n junk Hn Hs. exact (ispc_loop_ok n junk s sj 0 Hn Hs). Qed.

Example C16_ex1 : strnspn (zs "0a1b-xyz") (zs "0123456789abcdef" ++ [0]) 8 = Ok 4%nat.
Proof. reflexivity. Qed.
Example C16_ex2 : strxspn (zs "0A1b-xyz") (zs "0123456789abcdef" ++ [0]) 8 = Ok 4%nat.
Proof. reflexivity. Qed.
Example C16_ex3 : strispn (zs "aAbx" ++ [0]) (zs "AB" ++ [0]) = Ok 3%nat. Proof. reflexivity. Qed.
Example C16_ex4 : strnspc (zs "xyz, b") (zs " ," ++ [0]) 6 = Ok 3%nat. Proof. reflexivity. Qed.
Example C16_ex5 : strxspc (zs "xyZA") (zs "az" ++ [0]) 4 = Ok 2%nat. Proof. reflexivity. Qed.
Example C16_ex6 : strispc (zs "xyZA" ++ [0]) (zs "a" ++ [0]) = Ok 3%nat. Proof. reflexivity. Qed.
Print Assumptions C16_strnspn_prefix.
Print Assumptions C16_strxspn_prefix.
Print Assumptions C16_strispn_prefix.
Print Assumptions C16_strnspc_prefix.
Print Assumptions C16_strxspc_prefix.
Print Assumptions C16_strispc_prefix.

(** ** C17

    [coda_revnspc]/[coda_revxspc] have the property.  [coda_revnspn]/[coda_revxspn]
    do not: with a non-empty alphabet they return one more than the length of the
    suffix unless the suffix is the whole string.  The theorems give their exact
    result for every input. *)

Theorem C17_revnspc_suffix : forall s n junk, nonul n ->
  exists k, revnspc s (n ++ 0 :: junk) (length s) = Ok k /\
    longest_suffix (fun c => ~ exists x, In x n /\ c = x) s k.
Proof.
  intros s n junk Hn.
  destruct (rspc_loop_ok same eq same_eq same_idem n junk s (length s) Hn (le_n _))
    as [m [E [Hle Hm]]].
  rewrite firstn_all in Hm. exists m. unfold revnspc. rewrite E. cbn [bind].
  split; [apply f_equal; lia|exact Hm].
Qed.

Theorem C17_revxspc_suffix : forall s n junk, nonul n ->
  exists k, revxspc s (n ++ 0 :: junk) (length s) = Ok k /\
    longest_suffix (fun c => ~ exists x, In x n /\ eq_case c x) s k.
Proof.
  intros s n junk Hn.
  destruct (rspc_loop_ok tolower eq_case tolower_eq tolower_idem n junk s (length s) Hn (le_n _))
    as [m [E [Hle Hm]]].
  rewrite firstn_all in Hm. exists m. unfold revxspc. rewrite E. cbn [bind].
  split; [apply f_equal; lia|exact Hm].
Qed.

Theorem C17_revnspn_off_by_one_partial : forall s n junk, nonul n -> n <> [] ->
  exists m, longest_suffix (fun c => exists x, In x n /\ c = x) s m /\
    revnspn s (n ++ 0 :: junk) (length s) = Ok (Nat.min (length s) (m + 1)).
Proof.
  intros s n junk Hn Hne. destruct n as [|a n]; [congruence|].
  destruct (rspn_loop_ok same eq same_eq same_idem (a :: n) junk s (length s) a (n ++ 0 :: junk) Hn
              (le_n _)) as [m [Hm [Hle E]]]; [inversion Hn; assumption|].
  rewrite firstn_all in Hm. exists m. split; [exact Hm|].
  unfold revnspn. cbn [app] in *. rewrite E. cbn [bind]. apply f_equal. lia.
Qed.

Theorem C17_revxspn_off_by_one_partial : forall s n junk, nonul n -> n <> [] ->
  exists m, longest_suffix (fun c => exists x, In x n /\ eq_case c x) s m /\
    revxspn s (n ++ 0 :: junk) (length s) = Ok (Nat.min (length s) (m + 1)).
Proof.
  intros s n junk Hn Hne. destruct n as [|a n]; [congruence|].
  destruct (rspn_loop_ok tolower eq_case tolower_eq tolower_idem (a :: n) junk s (length s)
              a (n ++ 0 :: junk) Hn (le_n _)) as [m [Hm [Hle E]]]; [inversion Hn; assumption|].
  rewrite firstn_all in Hm. exists m. split; [exact Hm|].
  unfold revxspn. cbn [app] in *. rewrite E. cbn [bind]. apply f_equal. lia.
Qed.

Theorem C17_rev_empty_alphabet : forall s junk,
  revnspn s (0 :: junk) (length s) = Ok 0%nat /\ revxspn s (0 :: junk) (length s) = Ok 0%nat.
Proof.
  intros s junk. unfold revnspn, revxspn.
  destruct (length s) as [|k]; cbn [rspn_loop deref bind Z.eqb]; split; try reflexivity;
    apply f_equal; lia.
Qed.

Theorem C17_revnspn_suffix_refuted : exists s n,
  nonul n /\ longest_suffix (fun c => exists x, In x n /\ c = x) s 1 /\
  revnspn s (n ++ [0]) (length s) = Ok 2%nat /\ revxspn s (n ++ [0]) (length s) = Ok 2%nat.
Proof.
  exists (zs "xya"), (zs "a"). split; [constructor; [discriminate|constructor]|].
  split; [|split; reflexivity]. split; [cbn; lia|]. split.
  - constructor; [exists 97; split; [left|]; reflexivity|constructor].
  - intros x E [y [[<-|[]] ->]]. discriminate.
Qed.

Example C17_ex1 : revnspc (zs "a,bcd") (zs "," ++ [0]) 5 = Ok 3%nat. Proof. reflexivity. Qed.
Example C17_ex2 : revxspc (zs "aXbcd") (zs "x" ++ [0]) 5 = Ok 3%nat. Proof. reflexivity. Qed.
Example C17_ex3 : revnspn (zs "abab") (zs "ab" ++ [0]) 4 = Ok 4%nat. Proof. reflexivity. Qed.
Print Assumptions C17_revnspc_suffix.
Print Assumptions C17_revxspc_suffix.
Print Assumptions C17_revnspn_off_by_one_partial.
Print Assumptions C17_revxspn_off_by_one_partial.
Print Assumptions C17_rev_empty_alphabet.
Print Assumptions C17_revnspn_suffix_refuted.

(** ** C18 *)

Theorem C18_atou_decimal : forall s, Forall digit s ->
  atou s (length s) = Ok (decimal s mod 2 ^ 64).
Proof.
  intros s Hs. pose proof (atou_digits s 0 Hs) as H.
  change (0 mod 2 ^ 64) with 0 in H. rewrite Z.mul_0_l, Z.add_0_l in H. exact H.
Qed.

Theorem C18_atou_malformed : forall s, ~ Forall digit s -> atou s (length s) = Ok 0.
Proof. intros s. exact (atou_bad s 0). Qed.

Theorem C18_atoi_exact : forall s, Forall digit s ->
  (decimal s < 2 ^ 63 -> atoi s (length s) = Ok (decimal s)) /\
  (decimal s <= 2 ^ 63 -> atoi (45 :: s) (length (45 :: s)) = Ok (- decimal s)).
Proof.
  intros s Hs. pose proof (decimal_nonneg s Hs) as Hnn.
  change (2 ^ 63) with 9223372036854775808. split; intros Hlt.
  - assert (E : atoi s (length s) = (v <- atou s (length s) ;; Ok (int64 v))).
    { destruct s as [|c s]; [reflexivity|]. unfold atoi. cbn [length deref bind].
      destruct (Z.eqb_spec c 45) as [->|_]; [|reflexivity].
      inversion Hs as [|? ? Hd _]; subst. unfold digit in Hd. lia. }
    rewrite E, C18_atou_decimal by exact Hs. cbn [bind].
    change (2 ^ 64) with 18446744073709551616. rewrite Z.mod_small by lia.
    unfold int64. change (2 ^ 63) with 9223372036854775808.
    destruct (Z.ltb_spec (decimal s) 9223372036854775808); [reflexivity|lia].
  - unfold atoi. cbn [length deref bind tl]. rewrite Z.eqb_refl.
    rewrite C18_atou_decimal by exact Hs. cbn [bind].
    change (2 ^ 64) with 18446744073709551616.
    rewrite (Z.mod_small (decimal s)) by lia. apply f_equal. unfold int64.
    change (2 ^ 63) with 9223372036854775808. change (2 ^ 64) with 18446744073709551616.
    destruct (Z.eq_dec (decimal s) 0) as [E|E].
    + rewrite E. reflexivity.
    + rewrite Z_mod_nz_opp_full; rewrite Z.mod_small by lia; [|lia].
      destruct (Z.ltb_spec (18446744073709551616 - decimal s) 9223372036854775808); lia.
Qed.

(** Every input: the two's complement value of the wrapped magnitude. *)
Theorem C18_atoi_total : forall s,
  (forall t, s = 45 :: t -> Forall digit t ->
     exists v, atoi s (length s) = Ok v /\ - 2 ^ 63 <= v < 2 ^ 63 /\ v mod 2 ^ 64 = (- decimal t) mod 2 ^ 64) /\
  (Forall digit s ->
     exists v, atoi s (length s) = Ok v /\ - 2 ^ 63 <= v < 2 ^ 63 /\ v mod 2 ^ 64 = decimal s mod 2 ^ 64) /\
  (~ Forall digit s -> (forall t, s = 45 :: t -> ~ Forall digit t) -> atoi s (length s) = Ok 0).
Proof.
  assert (Hi : forall w, - 2 ^ 63 <= int64 (w mod 2 ^ 64) < 2 ^ 63 /\
                         int64 (w mod 2 ^ 64) mod 2 ^ 64 = w mod 2 ^ 64).
  { intros w. unfold int64.
    change (2 ^ 63) with 9223372036854775808. change (2 ^ 64) with 18446744073709551616.
    pose proof (Z.mod_pos_bound w 18446744073709551616 ltac:(reflexivity)) as Hb.
    destruct (Z.ltb_spec (w mod 18446744073709551616) 9223372036854775808).
    - split; [lia|]. apply Z.mod_mod. discriminate.
    - split; [lia|]. rewrite <- (Z.mod_mod w) at 2 by discriminate.
      rewrite <- (Z_mod_plus_full (w mod 18446744073709551616 - 18446744073709551616) 1).
      f_equal. lia. }
  intros s. split; [|split].
  - intros t -> Ht. unfold atoi. cbn [length deref bind tl]. rewrite Z.eqb_refl.
    rewrite C18_atou_decimal by exact Ht. cbn [bind].
    eexists. split; [reflexivity|]. destruct (Hi (- (decimal t mod 2 ^ 64))) as [H1 H2].
    split; [exact H1|]. rewrite H2.
    rewrite <- !(Z.sub_0_l). rewrite Zminus_mod_idemp_r. reflexivity.
  - intros Hs.
    assert (E : atoi s (length s) = (v <- atou s (length s) ;; Ok (int64 v))).
    { destruct s as [|c s]; [reflexivity|]. unfold atoi. cbn [length deref bind].
      destruct (Z.eqb_spec c 45) as [->|_]; [|reflexivity].
      inversion Hs as [|? ? Hd _]; subst. unfold digit in Hd. lia. }
    rewrite E, C18_atou_decimal by exact Hs. cbn [bind].
    eexists. split; [reflexivity|]. apply Hi.
  - intros Hn Hm. destruct s as [|c s]; [destruct Hn; constructor|].
    unfold atoi. cbn [length deref bind tl].
    destruct (Z.eqb_spec c 45) as [->|_].
    + rewrite (C18_atou_malformed s) by (apply Hm; reflexivity). reflexivity.
    + change (S (length s)) with (length (c :: s)).
      rewrite (C18_atou_malformed _ Hn). reflexivity.
Qed.

Example C18_ex1 : atou (zs "18446744073709551617") 20 = Ok 1. Proof. reflexivity. Qed.
Example C18_ex2 : atou (zs "12x") 3 = Ok 0. Proof. reflexivity. Qed.
Example C18_ex3 : atoi (zs "-9223372036854775808") 20 = Ok (-9223372036854775808).
Proof. reflexivity. Qed.
Example C18_ex4 : atoi (zs "--5") 3 = Ok 0. Proof. reflexivity. Qed.
Example C18_ex5 : Forall digit (zs "4095") /\ decimal (zs "4095") = 4095.
Proof. split; [repeat constructor; discriminate|reflexivity]. Qed.
Print Assumptions C18_atou_decimal.
Print Assumptions C18_atou_malformed.
Print Assumptions C18_atoi_exact.
Print Assumptions C18_atoi_total.
