(** Properties C23 and C31: the results for every text. *)

From Coq Require Import ZArith List Lia.
From Verif Require Import Base Str_Model Str_Spec Str_Proof StrCpp_Model StrCpp_Spec StrCpp_Proof
  Url_Model Url_Spec Url_Proof.
Import ListNotations.
Local Open Scope Z_scope.

(** C23.  For every text below INT_MAX bytes coda_strprintf returns what comes before its first
    zero byte. *)
Theorem C23_strprintf_exact : forall p q, Z.of_nat (length (p ++ q)) < 2 ^ 31 - 1 -> nonul p -> hd 0 q = 0 ->
  strprintf (Some (p ++ q)) = Ok p.
Proof.
  intros p q Ht Hn Hq. unfold strprintf. destruct (two_pass_ok (p ++ q) Ht) as [rest E].
  rewrite E. cbn [bind].
  destruct q as [|c q]; [rewrite app_nil_r; apply get_cstr_some; exact Hn|].
  cbn [hd] in Hq. subst c. rewrite map_app, <- app_assoc. cbn [map app]. apply get_cstr_some. exact Hn.
Qed.
Print Assumptions C23_strprintf_exact.

Example C23_exact_ex : strprintf (Some ([97; 98] ++ [0; 99])) = Ok [97; 98].
Proof. apply C23_strprintf_exact; [reflexivity| |reflexivity]. repeat constructor; discriminate. Qed.

(** Specification: header lines as coda_get_header_buf sees them: as [header_lines], but a line that
    begins with a zero byte goes on to the end of the buffer. *)
Inductive header_seen : list Z -> list (list Z) -> Prop :=
| hs_end : header_seen [] []
| hs_empty : forall s, header_seen (13 :: 10 :: s) []
| hs_nul : forall s, header_seen (0 :: s) [0 :: s]
| hs_last : forall s, s <> [] -> hd 0 s <> 0 -> no_occurrence eq crlf s -> header_seen s [s]
| hs_more : forall a s ls, a <> [] -> hd 0 a <> 0 -> first_occurrence eq crlf (a ++ crlf ++ s) (length a) ->
    header_seen s ls -> header_seen (a ++ crlf ++ s) (a :: ls).

Lemma header_seen_ok : forall n s, (length s <= n)%nat -> exists ls, header_seen s ls /\
  forall fuel m, (length s < fuel)%nat ->
  exists r, header_loop fuel m s (length s) = Ok r /\
    forall k, value_after 58 ls (lookup k m) k (lookup k r).
Proof.
  induction n as [|n IH]; intros s Hs.
  { destruct s; [|cbn in Hs; lia]. exists []. split; [constructor|]. intros [|fuel] m Hf; [cbn in Hf; lia|].
    cbn. exists m. split; [reflexivity|]. intros k. right. split; [intros seg v []|reflexivity]. }
  destruct s as [|c s].
  { exists []. split; [constructor|]. intros [|fuel] m Hf; [cbn in Hf; lia|].
    cbn. exists m. split; [reflexivity|]. intros k. right. split; [intros seg v []|reflexivity]. }
  assert (One : strnstr (Some (c :: s)) (Some crlf_lit) (length (c :: s)) = Ok None ->
    forall fuel m, (length (c :: s) < fuel)%nat ->
    exists r, header_loop fuel m (c :: s) (length (c :: s)) = Ok r /\
      forall k, value_after 58 [c :: s] (lookup k m) k (lookup k r)).
  { intros E [|fuel] m Hf; [lia|]. cbn [header_loop]. rewrite E. cbn [bind]. cbv zeta.
    destruct (Nat.eqb_spec (length (c :: s)) 0) as [F|_]; [discriminate|].
    destruct (equ_case 58 (c :: s) [] m) as [q [Eq Hset]]. rewrite app_nil_r in *.
    rewrite Eq. cbn [bind].
    replace (length (c :: s) - (length (c :: s) + 2))%nat with 0%nat by lia.
    destruct fuel as [|fuel]; [cbn in Hf; lia|]. cbn [header_loop Nat.eqb].
    eexists. split; [reflexivity|]. intros k. eapply value_after_cons; [exact Hset|].
    right. split; [intros seg v []|reflexivity]. }
  destruct (Z.eq_dec c 0) as [->|Hc].
  { exists [0 :: s]. split; [constructor|]. apply One. reflexivity. }
  pose proof (strnstr_crlf (c :: s) Hc) as H.
  destruct (strnstr (Some (c :: s)) (Some crlf_lit) (length (c :: s))) as [[i|]| |] eqn:E; try contradiction.
  2: { exists [c :: s]. split; [apply hs_last; [discriminate|exact Hc|exact H]|]. apply One. reflexivity. }
  clear One. pose proof H as ((pre & mid & post & Es & Li & F) & _).
  assert (mid = crlf) as ->.
  { clear - F. unfold crlf in *. inversion F as [|? ? ? ? <- F1]; subst. inversion F1 as [|? ? ? ? <- F2]; subst. inversion F2. reflexivity. }
  destruct pre as [|c' a].
  { exists []. cbn [app crlf] in Es. rewrite Es. split; [constructor|]. intros [|fuel] m Hf; [lia|].
    exists m. split; [|intros k; right; split; [intros seg v []|reflexivity]].
    cbn [length] in Li. subst i. rewrite Es in E. cbn [header_loop].
    destruct (Nat.eqb_spec (length (13 :: 10 :: post)) 0) as [G|_]; [discriminate|]. rewrite E. reflexivity. }
  assert (c' = c) as -> by (injection Es as -> _; reflexivity).
  rewrite Es in *. set (b := c :: a) in *. cbn [length] in Hs.
  assert (Lb : length (b ++ crlf ++ post) = (length b + 2 + length post)%nat) by (rewrite !app_length; cbn [crlf length]; lia).
  destruct (IH post) as (ls & Hls & R).
  { rewrite Lb in Hs. unfold b in Hs. cbn [length] in Hs. lia. }
  exists (b :: ls). subst i. split; [apply hs_more; [discriminate|exact Hc|exact H|exact Hls]|].
  intros [|fuel] m Hf; [lia|]. cbn [header_loop].
  destruct (Nat.eqb_spec (length (b ++ crlf ++ post)) 0) as [G|_]; [lia|].
  rewrite E. cbn [bind]. cbv zeta.
  destruct (Nat.eqb_spec (length b) 0) as [G|_]; [discriminate|].
  destruct (equ_case 58 b (crlf ++ post) m) as [q [Eq Hset]]. rewrite Eq. cbn [bind].
  match goal with |- context [header_loop fuel ?m' _ _] => set (m1 := m') in * end.
  assert (E2 : skipn (length b + 2) (b ++ crlf ++ post) = post).
  { rewrite skipn_app_ge by lia. replace (length b + 2 - length b)%nat with 2%nat by lia. reflexivity. }
  rewrite E2. replace (length (b ++ crlf ++ post) - (length b + 2))%nat with (length post) by lia.
  destruct (R fuel m1) as (r & Er & Hr); [lia|]. exists r. split; [exact Er|].
  intros k. eapply value_after_cons; [exact Hset|apply Hr].
Qed.

(** C31 (what holds, for every buffer).  The map is changed by exactly the lines seen. *)
Theorem C31_every_buffer_partial : forall m s, exists ls m', header_seen s ls /\
  get_header_buf m (Some s) (length s) = Ok (0, m') /\
  forall k, value_after 58 ls (lookup k m) k (lookup k m').
Proof.
  intros m s. destruct (header_seen_ok (length s) s (le_n _)) as (ls & Hls & R).
  destruct (R (S (length s)) m) as (r & Er & Hr); [lia|].
  exists ls, r. split; [exact Hls|]. split; [|exact Hr]. cbn [get_header_buf]. rewrite Er. reflexivity.
Qed.
Print Assumptions C31_every_buffer_partial.

Example C31_every_ex :
  get_header_buf [] (Some (zs "a:b" ++ crlf ++ 0 :: zs "x:y" ++ crlf ++ zs "c:d")) 14
  = Ok (0, [(zs "a", zs "b"); (0 :: zs "x", zs "y" ++ crlf ++ zs "c:d")]).
Proof. reflexivity. Qed.
