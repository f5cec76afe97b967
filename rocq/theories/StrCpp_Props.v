(** Property theorems C19-C25: coda/string.cpp and coda/easy_parsing.cpp. *)

From Coq Require Import ZArith List Bool Lia Arith.
From Verif Require Import Base Str_Model Str_Spec Str_Proof StrCpp_Model StrCpp_Spec StrCpp_Proof.
Import ListNotations.
Local Open Scope Z_scope.

(** ** C19

    Full statement: both overloads return the unique split of the source at the
    delimiters.  True for the NUL-terminated overload; the sized overload also
    splits at NUL bytes, which are in no delimiter set (witness), and has the
    property for sources without NUL bytes. *)

(** the split of [s] at [D] exists and is unique, so the theorems below determine
    the result *)
Theorem C19_split_determined : forall (D : Z -> Prop), (forall c, {D c} + {~ D c}) -> forall s,
  exists ps, splits D s ps /\ forall ps', splits D s ps' -> ps' = ps.
Proof.
  intros D Ddec s. destruct (splits_exists D Ddec s) as [ps H].
  exists ps. split; [exact H|]. intros ps' H'. symmetry. exact (splits_unique D s ps H ps' H').
Qed.

Theorem C19_split_string : forall s junk d dj ps, nonul s -> nonul d ->
  splits (fun c => In c d) s ps ->
  split_string (s ++ 0 :: junk) (d ++ 0 :: dj) false = Ok ps /\
  split_string (s ++ 0 :: junk) (d ++ 0 :: dj) true = Ok (filter nonempty ps).
Proof.
  intros s junk d dj ps Hs Hd H. unfold split_string.
  split; [exact (split_loop_ok d dj s ps H Hd Hs [] junk false [])
         |exact (split_loop_ok d dj s ps H Hd Hs [] junk true [])].
Qed.

(** the sized overload, every source: NUL acts as one more delimiter *)
Theorem C19_split_sized_partial : forall s d dj ps, nonul d ->
  splits (fun c => In c d \/ c = 0) s ps ->
  splitn_string s (length s) (d ++ 0 :: dj) false = Ok ps /\
  splitn_string s (length s) (d ++ 0 :: dj) true = Ok (filter nonempty ps).
Proof.
  intros s d dj ps Hd H. unfold splitn_string.
  split; [exact (splitn_loop_ok d dj s ps H Hd [] false [])
         |exact (splitn_loop_ok d dj s ps H Hd [] true [])].
Qed.

(** ... hence the full property for sources without NUL bytes *)
Theorem C19_split_sized_nonul : forall s d dj ps, nonul d -> nonul s ->
  splits (fun c => In c d) s ps ->
  splitn_string s (length s) (d ++ 0 :: dj) false = Ok ps /\
  splitn_string s (length s) (d ++ 0 :: dj) true = Ok (filter nonempty ps).
Proof.
  intros s d dj ps Hd Hs H. apply C19_split_sized_partial; [exact Hd|].
  induction H as [s H|a x s ps Ha Hx H IH].
  - constructor. unfold nonul in Hs. rewrite Forall_forall in *. intros c Hc [H1|H1]; [exact (H c Hc H1)|exact (Hs c Hc H1)].
  - apply nonul_app in Hs. destruct Hs as [Hsa Hss]. inversion Hss; subst.
    constructor; [|left; exact Hx|apply IH; assumption].
    unfold nonul in Hsa. rewrite Forall_forall in *.
    intros c Hc [H1|H1]; [exact (Ha c Hc H1)|exact (Hsa c Hc H1)].
Qed.

Theorem C19_split_sized_refuted : exists s d ps,
  splits (fun c => In c d) s ps /\
  splitn_string s (length s) (d ++ [0]) false <> Ok ps.
Proof.
  exists [97; 0; 98], [44], [[97; 0; 98]]. split; [|cbv; discriminate].
  constructor. repeat constructor; intros [H|[]]; discriminate.
Qed.

Example C19_ex1 : splits (fun c => In c [44; 59]) (zs "a,,b;c") [zs "a"; []; zs "b"; zs "c"].
Proof.
  apply (splits_more _ (zs "a") 44 (zs ",b;c")); [repeat constructor; cbv; intuition lia|cbv; tauto|].
  apply (splits_more _ [] 44 (zs "b;c")); [constructor|cbv; tauto|].
  apply (splits_more _ (zs "b") 59 (zs "c")); [repeat constructor; cbv; intuition lia|cbv; tauto|].
  constructor. repeat constructor; cbv; intuition lia.
Qed.
Example C19_ex2 : split_string (zs "a,,b;c" ++ [0]) (zs ",;" ++ [0]) true = Ok [zs "a"; zs "b"; zs "c"].
Proof. reflexivity. Qed.
Example C19_ex3 : splitn_string (zs "a,,b;c") 6 (zs ",;" ++ [0]) false = Ok [zs "a"; []; zs "b"; zs "c"].
Proof. reflexivity. Qed.
Print Assumptions C19_split_determined.
Print Assumptions C19_split_string.
Print Assumptions C19_split_sized_partial.
Print Assumptions C19_split_sized_nonul.
Print Assumptions C19_split_sized_refuted.

(** ** C20 *)

Theorem C20_stringset : forall s junk init ps, nonul s -> s <> [] ->
  splits (fun c => c = 44) s ps ->
  exists r, get_stringset (Some (s ++ 0 :: junk)) init = Ok r /\
    forall x, In x r <-> In x init \/ In x ps.
Proof.
  intros s junk init ps Hs Hne H. unfold get_stringset.
  destruct s as [|c s]; [congruence|]. cbn [app deref bind]. inversion Hs; subst.
  destruct (Z.eqb_spec c 0) as [E|_]; [contradiction|].
  apply (stringset_loop_ok (c :: s) ps H Hs).
  apply splits_length in H. cbn [length] in *. rewrite app_length. cbn [length]. lia.
Qed.

Theorem C20_stringset_empty : forall junk init,
  get_stringset (Some (0 :: junk)) init = Ok init /\ get_stringset None init = Ok init.
Proof. intros junk init. split; reflexivity. Qed.

Example C20_ex : exists r, get_stringset (Some (zs "b,a,,b" ++ [0])) [zs "z"] = Ok r /\
  r = [[]; zs "a"; zs "b"; zs "z"].
Proof. eexists. split; reflexivity. Qed.
Print Assumptions C20_stringset.
Print Assumptions C20_stringset_empty.

(** ** C21

    Full statement: every field that starts with a number is added, the others are
    ignored.  False: a field without a number makes the code insert an indeterminate
    value.  Proved: the exact result when all fields have numbers, and that the code
    misbehaves whenever one has not. *)

Theorem C21_uint64set_partial : forall s junk init ps, nonul s ->
  splits (fun c => c = 44) s ps ->
  (forall f, In f ps -> exists v, reads_number f v) ->
  exists r, get_uint64set (Some (s ++ 0 :: junk)) init = Ok r /\
    forall x, In x r <-> In x init \/ exists f, In f ps /\ reads_number f x.
Proof.
  intros s junk init ps Hs H Hp. apply (uint64set_loop_ok s ps H Hs Hp).
  apply splits_length in H. rewrite app_length. cbn [length]. lia.
Qed.

Theorem C21_uint64set_uninitialised : forall s junk init ps f, nonul s ->
  splits (fun c => c = 44) s ps -> In f ps -> (forall v, ~ reads_number f v) ->
  get_uint64set (Some (s ++ 0 :: junk)) init = Ub Uninit.
Proof.
  intros s junk init ps f Hs H Hin Hf.
  apply (uint64set_loop_bad s ps H Hs); [exists f; split; assumption|].
  apply splits_length in H. rewrite app_length. cbn [length]. lia.
Qed.

Theorem C21_uint64set_refuted : exists s,
  nonul s /\ get_uint64set (Some (s ++ [0])) [] = Ub Uninit.
Proof.
  exists (zs "1,,2"). split; [repeat constructor; discriminate|reflexivity].
Qed.

Example C21_ex1 : get_uint64set (Some (zs "1, 22x,+3" ++ [0])) [7] = Ok [3; 22; 1; 7].
Proof. reflexivity. Qed.
Example C21_ex2 : reads_number (zs " 22x") 22.
Proof.
  apply (reads [32] [] (zs "22") (zs "x")); [repeat constructor|tauto|discriminate| |].
  - repeat constructor; discriminate.
  - intros c t E. injection E as <- <-. cbv; intuition congruence.
Qed.
Print Assumptions C21_uint64set_partial.
Print Assumptions C21_uint64set_uninitialised.
Print Assumptions C21_uint64set_refuted.

(** ** C22

    [Some t] is the formatted text; formatted texts are shorter than 2^31 bytes
    (vsnprintf returns an int).  Proved for num < 2^31; for larger num the clamp is
    done in int and the call throws (refuted). *)

Theorem C22_strnappend_partial : forall out num t,
  0 <= num < 2 ^ 31 -> Z.of_nat (length t) < 2 ^ 31 ->
  strnappend out num (Some t)
  = Ok (Z.min num (Z.of_nat (length t)), out ++ firstn (Z.to_nat num) t).
Proof. exact strnappend_ok. Qed.

Theorem C22_strnprintf_partial : forall out pos num t,
  0 <= num < 2 ^ 31 -> Z.of_nat (length t) < 2 ^ 31 ->
  strnprintf out pos num (Some t) =
  if (pos <=? length out)%nat
  then Ok (Z.min num (Z.of_nat (length t)),
           firstn pos out ++ firstn (Z.to_nat num) t ++ skipn pos out)
  else Ok (-1, out).
Proof.
  intros out pos num t Hn Ht. destruct (Nat.leb_spec pos (length out)) as [H|H].
  - apply strnprintf_ok; assumption.
  - unfold strnprintf. destruct (Nat.ltb_spec (length out) pos); [reflexivity|lia].
Qed.

Theorem C22_huge_num_refuted : exists num, 0 <= num < 2 ^ 64 /\
  forall out t, Z.of_nat (length t) < 2 ^ 31 -> strnappend out num (Some t) = Ub Throws.
Proof.
  exists (2 ^ 31). split; [lia|]. intros out t Ht. apply strnappend_huge; [lia|exact Ht].
Qed.

(** an encoding error of the format throws, too *)
Theorem C22_format_error_refuted : forall out num, 0 <= num < 2 ^ 31 ->
  strnappend out num None = Ub Throws.
Proof.
  intros out num Hn. unfold strnappend, nformat.
  assert (E : (if num <? BUFSZ then vsnprintf (uninit BUFSZ) (num + 1) None
               else vsnprintf (uninit (num + 1)) (num + 1) None)
              = Ok (-1, if num <? BUFSZ then uninit BUFSZ else uninit (num + 1))).
  { destruct (num <? BUFSZ); reflexivity. }
  rewrite E. cbn [bind]. rewrite int32_small by exact Hn.
  destruct (Z.ltb_spec num (-1)); [lia|]. reflexivity.
Qed.

Example C22_ex1 : strnappend (zs "ab") 3 (Some (zs "12345")) = Ok (3, zs "ab123").
Proof. vm_compute. reflexivity. Qed.
Example C22_ex2 : strnprintf (zs "ab") 1 3 (Some (zs "12345")) = Ok (3, zs "a123b").
Proof. vm_compute. reflexivity. Qed.
Print Assumptions C22_strnappend_partial.
Print Assumptions C22_strnprintf_partial.
Print Assumptions C22_huge_num_refuted.
Print Assumptions C22_format_error_refuted.

(** ** C23

    Texts up to INT_MAX-1 bytes; [coda_strprintf] stops at a NUL byte inside the
    text (refuted), so its theorem is for texts without one. *)

Theorem C23_strappend : forall out t, Z.of_nat (length t) < 2 ^ 31 - 1 ->
  strappend out (Some t) = Ok (Z.of_nat (length t), out ++ t).
Proof. exact strappend_ok. Qed.

Theorem C23_strprintf_partial : forall t, Z.of_nat (length t) < 2 ^ 31 - 1 -> nonul t ->
  strprintf (Some t) = Ok t.
Proof. exact strprintf_ok. Qed.

Theorem C23_strprintf_nul_refuted : exists t,
  Z.of_nat (length t) < 2 ^ 31 - 1 /\ exists r, strprintf (Some t) = Ok r /\ r <> t.
Proof.
  exists [97; 0; 98]. split; [reflexivity|]. exists [97]. split; [vm_compute; reflexivity|discriminate].
Qed.

Theorem C23_format_error_refuted : forall out,
  strappend out None = Ub Throws /\ strprintf None = Ub Uninit.
Proof. intros out. split; vm_compute; reflexivity. Qed.

(** a text longer than the internal buffer meets the hypotheses *)
Example C23_ex1 : exists t, Z.of_nat (length t) = 100000 /\ nonul t /\ strprintf (Some t) = Ok t.
Proof.
  exists (repeat 65 (Z.to_nat 100000)).
  assert (Hl : Z.of_nat (length (repeat 65 (Z.to_nat 100000))) = 100000)
    by (rewrite repeat_length; apply Z2Nat.id; discriminate).
  assert (Hn : nonul (repeat 65 (Z.to_nat 100000))).
  { apply Forall_forall. intros x Hx. apply repeat_spec in Hx. subst x. discriminate. }
  split; [exact Hl|]. split; [exact Hn|].
  apply C23_strprintf_partial; [rewrite Hl; reflexivity|exact Hn].
Qed.
Example C23_ex2 : strappend (zs "ab") (Some (zs "cd")) = Ok (2, zs "abcd").
Proof. vm_compute. reflexivity. Qed.
Print Assumptions C23_strappend.
Print Assumptions C23_strprintf_partial.
Print Assumptions C23_strprintf_nul_refuted.
Print Assumptions C23_format_error_refuted.

(** ** C22, C23: formatted texts of 2^31 bytes and more

    vsnprintf cannot return their length, so every function behaves as after a format error. *)

Lemma long_text_is_an_error : forall buf size t, 2 ^ 31 <= Z.of_nat (length t) ->
  vsnprintf buf size (Some t) = vsnprintf buf size None.
Proof. intros buf size t H. unfold vsnprintf. destruct (Z.leb_spec (2 ^ 31) (Z.of_nat (length t))); [reflexivity|lia]. Qed.

Theorem C22_long_text_refuted : forall out num t, 0 <= num < 2 ^ 31 -> 2 ^ 31 <= Z.of_nat (length t) ->
  strnappend out num (Some t) = Ub Throws /\
  forall pos, (pos <= length out)%nat -> strnprintf out pos num (Some t) = Ub Throws.
Proof.
  intros out num t Hn Ht.
  assert (E : nformat num (Some t) = Ok (-1, if num <? BUFSZ then uninit BUFSZ else uninit (num + 1))).
  { unfold nformat. rewrite !long_text_is_an_error by exact Ht. rewrite int32_small by exact Hn.
    destruct (num <? BUFSZ); cbn [vsnprintf bind]; (destruct (Z.ltb_spec num (-1)); [lia|]); reflexivity. }
  split.
  - unfold strnappend. rewrite E. reflexivity.
  - intros pos Hp. unfold strnprintf. destruct (Nat.ltb_spec (length out) pos); [lia|]. rewrite E. reflexivity.
Qed.
Theorem C23_long_text_refuted : forall out t, 2 ^ 31 <= Z.of_nat (length t) ->
  strappend out (Some t) = Ub Throws /\ strprintf (Some t) = Ub Uninit.
Proof.
  intros out t Ht. unfold strappend, strprintf, two_pass. rewrite long_text_is_an_error by exact Ht.
  cbn [vsnprintf bind]. change (BUFSZ <=? -1) with false. cbn [bind]. split; reflexivity.
Qed.
Print Assumptions C22_long_text_refuted.
Print Assumptions C23_long_text_refuted.

(** such texts exist *)
Example C22_ex3 : exists t : list Z, 2 ^ 31 <= Z.of_nat (length t).
Proof. exists (repeat 65 (Z.to_nat (2 ^ 31))). rewrite repeat_length, Z2Nat.id; lia. Qed.

(** ** C24: [rng] is any sequence of values of random(3), i.e. 0 .. 2^31-1. *)

Theorem C24_random_string : forall size alphabet rng, alphabet <> [] ->
  (forall i, 0 <= rng i < 2 ^ 31) ->
  exists t, random_string size alphabet (Z.of_nat (length alphabet)) rng = Ok t /\
    length t = size /\ Forall (fun c => In c alphabet) t.
Proof.
  intros size alphabet rng Hne Hr. exact (random_loop_ok alphabet rng Hne Hr size 0 []).
Qed.

(** every string over the alphabet can be produced: the choice is not restricted *)
Theorem C24_every_string_possible : forall alphabet t, Z.of_nat (length alphabet) <= 2 ^ 31 ->
  Forall (fun c => In c alphabet) t ->
  exists rng, (forall i, 0 <= rng i < 2 ^ 31) /\
    random_string (length t) alphabet (Z.of_nat (length alphabet)) rng = Ok t.
Proof.
  intros alphabet t Ha Ht.
  assert (H : exists rng : nat -> Z, (forall i, 0 <= rng i < 2 ^ 31) /\
    forall i, (i < length t)%nat -> rng i < Z.of_nat (length alphabet) /\
       nth_error alphabet (Z.to_nat (rng i)) = nth_error t i).
  { clear - Ha Ht. induction Ht as [|c t Hc Ht [rng [H1 H2]]].
    - exists (fun _ => 0). split; [intros; lia|]. intros i Hi. cbn in Hi. lia.
    - apply In_nth_error in Hc. destruct Hc as [k Hk].
      assert (Hlt : (k < length alphabet)%nat) by (apply nth_error_Some; congruence).
      exists (fun i => match i with O => Z.of_nat k | S i => rng i end). split.
      + intros [|i]; [lia|apply H1].
      + intros [|i] Hi.
        * split; [lia|]. rewrite Nat2Z.id. exact Hk.
        * apply H2. cbn in Hi. lia. }
  destruct H as [rng [H1 H2]]. exists rng. split; [exact H1|].
  unfold random_string.
  assert (G : forall suf pre, t = pre ++ suf ->
    random_loop (length suf) alphabet (Z.of_nat (length alphabet)) rng (length pre) pre = Ok t).
  { induction suf as [|c suf IH]; intros pre E; cbn [length random_loop].
    - rewrite E, app_nil_r. reflexivity.
    - destruct (H2 (length pre)) as [H3 H4]; [rewrite E, app_length; cbn [length]; lia|].
      specialize (H1 (length pre)).
      destruct (Z.eqb_spec (Z.of_nat (length alphabet)) 0); [lia|]. cbv zeta.
      rewrite (Z.mod_small (rng (length pre))) by lia. rewrite Z.mod_small by lia.
      unfold rd. rewrite H4.
      assert (E2 : nth_error t (length pre) = Some c).
      { rewrite E, nth_error_app2, Nat.sub_diag by lia. reflexivity. }
      rewrite E2. cbn [bind].
      replace (S (length pre)) with (length (pre ++ [c])) by (rewrite app_length; cbn [length]; lia).
      apply IH. rewrite <- app_assoc. exact E. }
  exact (G t [] eq_refl).
Qed.

Theorem C24_empty_alphabet_refuted : forall size rng,
  random_string (S size) [] 0 rng = Ub DivByZero.
Proof. reflexivity. Qed.

Example C24_ex : random_string 4 (zs "xyz") 3 (fun i => 1000 + Z.of_nat i) = Ok (zs "yzxy").
Proof. reflexivity. Qed.
Print Assumptions C24_random_string.
Print Assumptions C24_every_string_possible.

(** ** C25 *)

Theorem C25_get_next_word : forall s junk ws, nonul s -> words s ws ->
  all_words (S (length s)) (s ++ 0 :: junk) 0 = Ok ws.
Proof.
  intros s junk ws Hs H. exact (all_words_ok s ws H Hs [] junk (S (length s)) (le_n _)).
Qed.

Theorem C25_words_exist : forall s, exists ws, words s ws.
Proof. exact words_exists. Qed.

Example C25_ex1 : all_words 20 (zs " ab  c" ++ [10; 100; 101; 0]) 0 = Ok [zs "ab"; zs "c"; zs "de"].
Proof. reflexivity. Qed.
Example C25_ex2 : words (zs " ab  c ") [zs "ab"; zs "c"].
Proof.
  apply (words_one [32] (zs "ab") (zs "  c ")); [repeat constructor|discriminate| | |].
  - repeat constructor; cbv; intuition discriminate.
  - right. eexists. eexists. split; [reflexivity|left; reflexivity].
  - apply (words_one [32; 32] (zs "c") [32]); [repeat constructor|discriminate| | |].
    + repeat constructor; cbv; intuition discriminate.
    + right. eexists. eexists. split; [reflexivity|left; reflexivity].
    + apply words_none. repeat constructor.
Qed.
Print Assumptions C25_get_next_word.
Print Assumptions C25_words_exist.

(** ** C22: num of 2^31 and more (2^64 - 1 left out, where num + 1 is 0) *)

Lemma nformat_huge : forall num t, 2 ^ 31 <= num < 2 ^ 64 - 1 -> Z.of_nat (length t) < 2 ^ 31 ->
  exists rest, nformat num (Some t) =
    Ok (if num mod 2 ^ 32 <? 2 ^ 31 then Z.min (num mod 2 ^ 32) (Z.of_nat (length t)) else num mod 2 ^ 32 - 2 ^ 32,
        map Some t ++ rest).
Proof.
  intros num t Hn Ht. unfold nformat.
  assert (Hb : num <? BUFSZ = false) by (apply Z.ltb_ge; unfold BUFSZ; lia).
  rewrite Hb.
  destruct (vsnprintf_ok (uninit (num + 1)) (num + 1) t) as [rest E];
    [lia|lia|rewrite uninit_len; lia|].
  rewrite E. cbn [bind]. exists (Some 0 :: rest). apply ok2; [|rewrite firstn_all2 by lia; reflexivity].
  unfold int32. pose proof (Z.mod_pos_bound num (2 ^ 32) ltac:(lia)).
  destruct (Z.ltb_spec (num mod 2 ^ 32) (2 ^ 31)).
  - destruct (Z.ltb_spec (num mod 2 ^ 32) (Z.of_nat (length t))); lia.
  - destruct (Z.ltb_spec (num mod 2 ^ 32 - 2 ^ 32) (Z.of_nat (length t))); lia.
Qed.
Lemma get_bytes_prefix : forall k t rest, (k <= length t)%nat ->
  get_bytes (map Some t ++ rest) k = Ok (firstn k t).
Proof.
  induction k as [|k IH]; intros [|x t] rest H; cbn in *; try lia; auto.
  rewrite IH by lia. reflexivity.
Qed.

(** What is done for every larger num: its lowest 32 bits count, as an int.  So the text may be cut although
    there is room (2^32 is taken for 0), or the call throws. *)
Theorem C22_huge_num_exact : forall out num t, 2 ^ 31 <= num < 2 ^ 64 - 1 -> Z.of_nat (length t) < 2 ^ 31 ->
  let m := num mod 2 ^ 32 in
  strnappend out num (Some t) =
    (if m <? 2 ^ 31 then Ok (Z.min m (Z.of_nat (length t)), out ++ firstn (Z.to_nat m) t) else Ub Throws) /\
  forall pos, (pos <= length out)%nat -> strnprintf out pos num (Some t) =
    (if m <? 2 ^ 31 then Ok (Z.min m (Z.of_nat (length t)), firstn pos out ++ firstn (Z.to_nat m) t ++ skipn pos out)
     else Ub Throws).
Proof.
  intros out num t Hn Ht m. destruct (nformat_huge num t Hn Ht) as [rest E]. fold m in E.
  pose proof (Z.mod_pos_bound num (2 ^ 32) ltac:(lia)) as B. fold m in B.
  assert (F : firstn (Nat.min (Z.to_nat m) (length t)) t = firstn (Z.to_nat m) t).
  { destruct (Nat.le_gt_cases (Z.to_nat m) (length t)); [f_equal; lia|].
    rewrite Nat.min_r, firstn_all, firstn_all2 by lia. reflexivity. }
  split; [unfold strnappend | intros pos Hp; unfold strnprintf; destruct (Nat.ltb_spec (length out) pos); [lia|]];
    rewrite E; cbn [bind]; unfold append_bytes, insert_bytes; destruct (Z.ltb_spec m (2 ^ 31)).
  - destruct (Z.ltb_spec (Z.min m (Z.of_nat (length t))) 0); [lia|].
    rewrite min_to_nat, get_bytes_prefix, F by lia. reflexivity.
  - destruct (Z.ltb_spec (m - 2 ^ 32) 0); [reflexivity|lia].
  - destruct (Z.ltb_spec (Z.min m (Z.of_nat (length t))) 0); [lia|].
    rewrite min_to_nat, get_bytes_prefix, F by lia. reflexivity.
  - destruct (Z.ltb_spec (m - 2 ^ 32) 0); [reflexivity|lia].
Qed.
Print Assumptions C22_huge_num_exact.
(** room for 4 GB and two bytes, and the text is cut after two *)
Example C22_huge_ex : strnappend (zs "ab") (2 ^ 32 + 2) (Some (zs "12345")) = Ok (2, zs "ab12").
Proof. destruct (C22_huge_num_exact (zs "ab") (2 ^ 32 + 2) (zs "12345")) as [E _]; [lia|reflexivity|]. rewrite E. reflexivity. Qed.
