(** Properties of coda_remove_tones_utf8. *)

From Coq Require Import ZArith List Bool Lia.
From Verif Require Import Base Viet_Model Viet_Spec.
Import ListNotations.
Local Open Scope Z_scope.

(** *** the table *)

Definition zrange (a : Z) (n : nat) : list Z := map (fun i => a + Z.of_nat i) (seq 0 n).
Lemma zrange_In : forall a n c, a <= c < a + Z.of_nat n -> In c (zrange a n).
Proof.
  intros a n c H. unfold zrange. apply in_map_iff. exists (Z.to_nat (c - a)). split; [lia|]. apply in_seq. lia.
Qed.
Definition oeq (a b : option Z) : bool :=
  match a, b with Some x, Some y => x =? y | None, None => true | _, _ => false end.
Lemma oeq_eq : forall a b, oeq a b = true -> a = b.
Proof. intros [a|] [b|] H; cbn in H; try discriminate; auto. apply Z.eqb_eq in H. congruence. Qed.

Lemma sweep : forall l, forallb (fun c => oeq (letter c) (base_letter c)) l = true ->
  forall c, In c l -> letter c = base_letter c.
Proof. intros l H c I. rewrite forallb_forall in H. apply oeq_eq, H, I. Qed.

Lemma letter_outside : forall c, ~ (0xC0 <= c <= 0x1B0) -> ~ (0x1EA0 <= c <= 0x1EF9) -> letter c = None.
Proof.
  intros c H1 H2. unfold letter.
  assert (F : forallb (fun x => forallb (fun d => btw 0xC0 d 0x1B0 || btw 0x1EA0 d 0x1EF9) (fst x)) table = true) by reflexivity.
  destruct (find _ table) as [x|] eqn:E; [|reflexivity]. exfalso.
  apply find_some in E. destruct E as [I E]. apply existsb_exists in E. destruct E as (d & Id & E). apply Z.eqb_eq in E. subst d.
  rewrite forallb_forall in F. specialize (F x I). rewrite forallb_forall in F. specialize (F c Id). unfold btw in F. lia.
Qed.
Lemma odd_sub : forall c, Z.odd (c - 1) = negb (Z.odd c).
Proof. intros c. rewrite Z.sub_1_r, Z.odd_pred, Z.negb_odd. reflexivity. Qed.
Lemma base_outside : forall c, ~ (0xC0 <= c <= 0x1B0) -> ~ (0x1EA0 <= c <= 0x1EF9) -> base_letter c = None.
Proof.
  intros c H1 H2. unfold base_letter.
  assert (L1 : forall d, d < 0xC0 \/ 0xDD < d -> latin1_upper d = None).
  { intros d H. unfold latin1_upper, btw. repeat (match goal with |- context [if ?b then _ else _] => destruct b eqn:?; [lia|] end). reflexivity. }
  assert (E1 : forall d, d < 0x102 \/ 0x1AF < d -> extended_upper d = None).
  { intros d H. unfold extended_upper. repeat (match goal with |- context [if ?b then _ else _] => destruct b eqn:?; [lia|] end). reflexivity. }
  assert (A1 : forall d, d < 0x1EA0 \/ 0x1EF8 < d -> additional_upper d = None).
  { intros d H. unfold additional_upper, btw. destruct (Z.odd d); [reflexivity|].
    repeat (match goal with |- context [if ?b then _ else _] => destruct b eqn:?; [lia|] end). reflexivity. }
  rewrite !L1, !E1, !A1 by lia. reflexivity.
Qed.
Lemma letter_base : forall c, letter c = base_letter c.
Proof.
  intros c. destruct (Z_le_gt_dec 0xC0 c) as [A|A]; [destruct (Z_le_gt_dec c 0x1B0) as [B|B]|].
  - apply (sweep (zrange 0xC0 241)); [vm_compute; reflexivity | apply zrange_In; lia].
  - destruct (Z_le_gt_dec 0x1EA0 c) as [C|C]; [destruct (Z_le_gt_dec c 0x1EF9) as [D|D]|].
    + apply (sweep (zrange 0x1EA0 90)); [vm_compute; reflexivity | apply zrange_In; lia].
    + rewrite letter_outside, base_outside by lia. reflexivity.
    + rewrite letter_outside, base_outside by lia. reflexivity.
  - rewrite letter_outside, base_outside by lia. reflexivity.
Qed.

(** *** decoding *)

Lemma hi_nibble : forall c, 0 <= c < 256 -> Z.land c 0xF0 = 16 * (c / 16).
Proof.
  intros c H. assert (I : In c (zrange 0 256)) by (apply zrange_In; lia). revert c I H.
  assert (F : forallb (fun c => Z.land c 0xF0 =? 16 * (c / 16)) (zrange 0 256) = true) by (vm_compute; reflexivity).
  rewrite forallb_forall in F. intros c I _. apply Z.eqb_eq, F, I.
Qed.
Lemma land_mod : forall c n, 0 <= n -> Z.land c (2 ^ n - 1) = c mod 2 ^ n.
Proof. intros c n H. rewrite <- Z.land_ones by auto. f_equal. rewrite Z.ones_equiv. lia. Qed.
Lemma land3F : forall c, Z.land c 0x3F = c mod 64. Proof. intros c. apply (land_mod c 6). lia. Qed.
Lemma land07 : forall c, Z.land c 0x07 = c mod 8. Proof. intros c. apply (land_mod c 3). lia. Qed.
Lemma land0F : forall c, Z.land c 0x0F = c mod 16. Proof. intros c. apply (land_mod c 4). lia. Qed.
Lemma land1F : forall c, Z.land c 0x1F = c mod 32. Proof. intros c. apply (land_mod c 5). lia. Qed.

Lemma rd_at : forall (pre : list Z) x t, rd (pre ++ x :: t) (length pre) = Ok x.
Proof. intros. unfold rd. rewrite nth_error_app2, Nat.sub_diag by lia. reflexivity. Qed.
Lemma rd_at' : forall (pre l : list Z) k x, nth_error l k = Some x -> rd (pre ++ l) (length pre + k) = Ok x.
Proof. intros. unfold rd. rewrite nth_error_app2 by lia. replace (length pre + k - length pre)%nat with k by lia. rewrite H. reflexivity. Qed.

Ltac zdiv := Z.div_mod_to_equations; lia.

Lemma decode_utf8 : forall pre c rest, 0x80 <= c <= 0x10FFFF ->
  decode (pre ++ utf8 c ++ rest) (length pre) (length (pre ++ utf8 c ++ rest)) =
  Ok (c, length (utf8 c), (length pre + length (utf8 c))%nat) /\ exists x t, utf8 c = x :: t /\ 0x80 <= x < 256.
Proof.
  intros pre c rest H. unfold utf8.
  destruct (Z.ltb_spec c 0x80); [lia|]. destruct (Z.ltb_spec c 0x800); [|destruct (Z.ltb_spec c 0x10000)].
  - assert (B : 0xC2 <= 0xC0 + c / 64 < 0xE0) by zdiv. split; [|eexists; eexists; split; [reflexivity|lia]].
    unfold decode. cbn [app]. rewrite rd_at. cbn [bind]. rewrite hi_nibble by lia.
    destruct (Z.eqb_spec (16 * ((0xC0 + c / 64) / 16)) 0xF0); [exfalso; zdiv|].
    destruct (Z.eqb_spec (16 * ((0xC0 + c / 64) / 16)) 0xE0); [exfalso; zdiv|].
    destruct (Nat.ltb_spec (length pre + 1) (length (pre ++ 192 + c / 64 :: 128 + c mod 64 :: rest))); [|rewrite app_length in *; cbn in *; lia].
    rewrite (rd_at' _ _ 1 (0x80 + c mod 64)) by reflexivity. cbn [bind]. rewrite land1F, land3F, Z.shiftl_mul_pow2 by lia.
    cbn [length]. repeat f_equal. zdiv.
  - assert (B : 0xE0 <= 0xE0 + c / 4096 < 0xF0) by zdiv. split; [|eexists; eexists; split; [reflexivity|lia]].
    unfold decode. cbn [app]. rewrite rd_at. cbn [bind]. rewrite hi_nibble by lia.
    destruct (Z.eqb_spec (16 * ((0xE0 + c / 4096) / 16)) 0xF0); [exfalso; zdiv|].
    destruct (Z.eqb_spec (16 * ((0xE0 + c / 4096) / 16)) 0xE0); [|exfalso; zdiv].
    match goal with |- context [(?a <? ?b)%nat] => destruct (Nat.ltb_spec a b) end; [|rewrite app_length in *; cbn in *; lia].
    rewrite (rd_at' _ _ 1 (0x80 + (c / 64) mod 64)), (rd_at' _ _ 2 (0x80 + c mod 64)) by reflexivity. cbn [bind].
    rewrite land0F, !land3F, !Z.shiftl_mul_pow2 by lia.
    cbn [length]. repeat f_equal. zdiv.
  - assert (B : 0xF0 <= 0xF0 + c / 262144 < 0xF5) by zdiv. split; [|eexists; eexists; split; [reflexivity|lia]].
    unfold decode. cbn [app]. rewrite rd_at. cbn [bind]. rewrite hi_nibble by lia.
    destruct (Z.eqb_spec (16 * ((0xF0 + c / 262144) / 16)) 0xF0); [|exfalso; zdiv].
    match goal with |- context [(?a <? ?b)%nat] => destruct (Nat.ltb_spec a b) end; [|rewrite app_length in *; cbn in *; lia].
    rewrite (rd_at' _ _ 1 (0x80 + (c / 4096) mod 64)), (rd_at' _ _ 2 (0x80 + (c / 64) mod 64)), (rd_at' _ _ 3 (0x80 + c mod 64)) by reflexivity. cbn [bind].
    rewrite land07, !land3F, !Z.shiftl_mul_pow2 by lia.
    cbn [length]. repeat f_equal. zdiv.
Qed.

Lemma copy_app : forall l pre rest, copy (pre ++ l ++ rest) (length pre) (length l) = Ok l.
Proof.
  induction l as [|x l IH]; intros pre rest; cbn [length copy app]; [reflexivity|]. rewrite rd_at. cbn [bind].
  specialize (IH (pre ++ [x]) rest). rewrite <- app_assoc, app_length, Nat.add_1_r in IH. cbn [app] in IH. rewrite IH. reflexivity.
Qed.
Lemma utf8_length : forall c, (1 <= length (utf8 c) <= 4)%nat.
Proof. intros c. unfold utf8. repeat (match goal with |- context [if ?b then _ else _] => destruct b end); cbn; lia. Qed.

(** *** C78: letter by letter *)

Lemma encode_app : forall a b, encode (a ++ b) = encode a ++ encode b.
Proof. intros. apply flat_map_app. Qed.
Lemma encode_1 : forall c, encode [c] = utf8 c.
Proof. intros. cbn. apply app_nil_r. Qed.

Lemma loop_ok : forall cs pre out fuel, Forall code_point cs -> (length (encode cs) < fuel)%nat ->
  remove_loop fuel (pre ++ encode cs) (length (pre ++ encode cs)) (length pre) out = Ok (out ++ encode (flat_map toneless cs)).
Proof.
  induction cs as [|c cs IH]; intros pre out fuel F Hf.
  - destruct fuel; [cbn in Hf; lia|]. cbn [encode flat_map remove_loop]. rewrite !app_nil_r, Nat.ltb_irrefl. reflexivity.
  - inversion F as [|? ? Hc F']; subst. unfold code_point in Hc.
    destruct fuel as [|fuel]; [lia|]. cbn [encode flat_map] in *. fold (encode cs) in *. rewrite app_length in Hf.
    pose proof (utf8_length c) as Hl.
    assert (Next : forall o, remove_loop fuel (pre ++ utf8 c ++ encode cs) (length (pre ++ utf8 c ++ encode cs)) (length pre + length (utf8 c)) o =
      Ok (o ++ encode (flat_map toneless cs))).
    { intros o. rewrite app_assoc, <- app_length. apply IH; [auto|lia]. }
    cbn [remove_loop].
    destruct (Nat.ltb_spec (length pre) (length (pre ++ utf8 c ++ encode cs))); [|rewrite !app_length in *; lia].
    rewrite encode_app.
    unfold toneless at 1. destruct (Z_lt_ge_dec c 0x80) as [L | L].
    + assert (E : utf8 c = [c]) by (unfold utf8; destruct (Z.ltb_spec c 0x80); [reflexivity|lia]).
      rewrite <- letter_base, letter_outside by lia.
      unfold btw. destruct (Z.leb_spec 0x300 c); [lia|]. cbn [andb]. rewrite encode_1.
      assert (R : rd (pre ++ utf8 c ++ encode cs) (length pre) = Ok c) by (rewrite E; apply rd_at). rewrite R. cbn [bind].
      destruct (Z.ltb_spec c 0x80); [|lia]. specialize (Next (out ++ [c])). rewrite E in *. cbn [length] in Next.
      rewrite Nat.add_1_r in Next. rewrite Next, <- app_assoc. reflexivity.
    + destruct (decode_utf8 pre c (encode cs) ltac:(lia)) as [D (x & t & E & Hx)].
      assert (R : rd (pre ++ utf8 c ++ encode cs) (length pre) = Ok x) by (rewrite E; apply rd_at). rewrite R. cbn [bind].
      destruct (Z.ltb_spec x 0x80); [lia|]. rewrite D. cbn [bind]. unfold btw.
      destruct ((0x300 <=? c) && (c <=? 0x36F)) eqn:B; [rewrite Next; reflexivity|].
      destruct (Z.eqb_spec c 0); [lia|]. rewrite <- letter_base. destruct (letter c) as [l|] eqn:El.
      * assert (Hlow : utf8 l = [l]).
        { unfold letter in El. destruct (find _ table) as [[y z]|] eqn:Ef; [|discriminate]. cbn in El. injection El as <-.
          apply find_some in Ef. destruct Ef as [I _]. clear - I. cbn in I.
          repeat (destruct I as [I | I]; [injection I as <- <-; reflexivity|]). destruct I. }
        rewrite Next, encode_1, Hlow, <- app_assoc. reflexivity.
      * replace (length pre + length (utf8 c) - length (utf8 c))%nat with (length pre) by lia.
        rewrite copy_app. cbn [bind]. rewrite Next, encode_1, <- app_assoc. reflexivity.
Qed.

(** On UTF-8 every code point is replaced by what the specification says, whatever stands
    around it. *)
Theorem C78_letter_by_letter : forall cs, Forall code_point cs ->
  remove_tones (encode cs) (length (encode cs)) = Ok (encode (flat_map toneless cs)).
Proof. intros cs F. unfold remove_tones. apply (loop_ok cs [] []); [auto | lia]. Qed.
Print Assumptions C78_letter_by_letter.

Lemma table_ascii : forall c l, base_letter c = Some l -> 65 <= l <= 121.
Proof.
  intros c l E. rewrite <- letter_base in E. unfold letter in E. destruct (find _ table) as [[y z]|] eqn:Ef; [|discriminate].
  cbn in E. injection E as <-. apply find_some in Ef. destruct Ef as [I _]. clear - I. cbn in I.
  repeat (destruct I as [I | I]; [injection I as <- <-; lia|]). destruct I.
Qed.
Lemma toneless_twice : forall c, flat_map toneless (toneless c) = toneless c.
Proof.
  intros c. unfold toneless at 2 3. destruct (btw 0x300 c 0x36F) eqn:B; [reflexivity|].
  destruct (base_letter c) as [l|] eqn:E; cbn [flat_map]; rewrite app_nil_r.
  - pose proof (table_ascii _ _ E). unfold toneless. rewrite base_outside by lia. unfold btw. destruct (Z.leb_spec 0x300 l); [lia|]. reflexivity.
  - unfold toneless. rewrite B, E. reflexivity.
Qed.
Lemma toneless_valid : forall c, code_point c -> Forall code_point (toneless c).
Proof.
  intros c H. unfold toneless. destruct (btw 0x300 c 0x36F); [constructor|].
  destruct (base_letter c) as [l|] eqn:E; (constructor; [|constructor]); auto. apply table_ascii in E. unfold code_point. lia.
Qed.

(** A second pass changes nothing. *)
Theorem C78_idempotent : forall cs, Forall code_point cs -> exists r,
  remove_tones (encode cs) (length (encode cs)) = Ok r /\ remove_tones r (length r) = Ok r.
Proof.
  intros cs F. exists (encode (flat_map toneless cs)). split; [apply C78_letter_by_letter; auto|].
  rewrite C78_letter_by_letter.
  - f_equal. f_equal. clear F. induction cs as [|c cs IH]; [reflexivity|]. cbn [flat_map].
    rewrite flat_map_app, toneless_twice, IH. reflexivity.
  - induction F; [constructor|]. cbn [flat_map]. apply Forall_app. split; [apply toneless_valid; auto | auto].
Qed.
Print Assumptions C78_idempotent.

(** *** arbitrary bytes *)

Lemma copy_ok : forall n s p, (p + n <= length s)%nat -> exists t, copy s p n = Ok t /\ length t = n.
Proof.
  induction n as [|n IH]; intros s p H; [exists []; auto|]. cbn [copy].
  destruct (nth_error s p) as [x|] eqn:E; [|apply nth_error_None in E; lia].
  unfold rd. rewrite E. cbn [bind]. destruct (IH s (S p)) as (t & -> & L); [lia|]. cbn [bind]. exists (x :: t). cbn. auto.
Qed.
Lemma rd_some : forall (s : list Z) p, (p < length s)%nat -> exists x, rd s p = Ok x.
Proof.
  intros s p H. unfold rd. destruct (nth_error s p) as [x|] eqn:E; [eauto|]. apply nth_error_None in E. lia.
Qed.
Lemma decode_ok : forall s p sz, (p < sz)%nat -> (sz <= length s)%nat -> exists code n p',
  decode s p sz = Ok (code, n, p') /\ (p' = p + n)%nat /\ (p' <= sz)%nat /\ (n = 0%nat -> code = 0).
Proof.
  intros s p sz H1 H2. unfold decode. destruct (rd_some s p) as [c ->]; [lia|]. cbn [bind].
  destruct (Z.land c 0xF0 =? 0xF0); [|destruct (Z.land c 0xF0 =? 0xE0)].
  - destruct (Nat.ltb_spec (p + 3) sz); [|exists 0, 0%nat, p; repeat split; lia].
    destruct (rd_some s (p + 1)) as [c1 ->]; [lia|]. destruct (rd_some s (p + 2)) as [c2 ->]; [lia|].
    destruct (rd_some s (p + 3)) as [c3 ->]; [lia|]. cbn [bind]. eexists _, _, _. split; [reflexivity|]. repeat split; lia.
  - destruct (Nat.ltb_spec (p + 2) sz); [|exists 0, 0%nat, p; repeat split; lia].
    destruct (rd_some s (p + 1)) as [c1 ->]; [lia|]. destruct (rd_some s (p + 2)) as [c2 ->]; [lia|].
    cbn [bind]. eexists _, _, _. split; [reflexivity|]. repeat split; lia.
  - destruct (Nat.ltb_spec (p + 1) sz); [|exists 0, 0%nat, p; repeat split; lia].
    destruct (rd_some s (p + 1)) as [c1 ->]; [lia|].
    cbn [bind]. eexists _, _, _. split; [reflexivity|]. repeat split; lia.
Qed.
Lemma loop_safe : forall fuel s sz p out, (sz <= length s)%nat -> (p <= sz)%nat -> (sz - p < fuel)%nat ->
  exists r, remove_loop fuel s sz p out = Ok r /\ (length r <= length out + (sz - p))%nat.
Proof.
  induction fuel as [|fuel IH]; intros s sz p out H1 H2 H3; [lia|]. cbn [remove_loop].
  destruct (Nat.ltb_spec p sz); [|exists out; split; [reflexivity|lia]].
  destruct (rd_some s p) as [c E]; [lia|]. rewrite E. cbn [bind].
  destruct (c <? 0x80).
  - destruct (IH s sz (S p) (out ++ [c])) as (r & -> & L); try lia. exists r. rewrite app_length in L. cbn in L. split; [auto|lia].
  - destruct (decode_ok s p sz H H1) as (code & n & p' & -> & Ep & Lp & Z0). cbn [bind].
    destruct ((0x300 <=? code) && (code <=? 0x36F)) eqn:B.
    { assert (n <> 0)%nat by (intros X; specialize (Z0 X); subst code; discriminate).
      destruct (IH s sz p' out) as (r & -> & L); try lia. exists r. split; [auto|lia]. }
    destruct (Z.eqb_spec code 0).
    + destruct (copy_ok (sz - p') s p') as (t & -> & Lt); [lia|]. cbn [bind].
      replace (Nat.max p' sz) with sz by lia.
      destruct fuel as [|fuel]; [lia|]. cbn [remove_loop]. rewrite Nat.ltb_irrefl.
      eexists. split; [reflexivity|]. rewrite app_length. lia.
    + assert (n <> 0)%nat by (intros X; specialize (Z0 X); lia).
      destruct (letter code) as [l|].
      * destruct (IH s sz p' (out ++ [l])) as (r & -> & L); try lia. exists r. rewrite app_length in L. cbn in L. split; [auto|lia].
      * destruct (copy_ok n s (p' - n)) as (t & -> & Lt); [lia|]. cbn [bind].
        destruct (IH s sz p' (out ++ t)) as (r & -> & L); try lia. exists r. rewrite app_length in L. split; [auto|lia].
Qed.
(** For any bytes at all, well-formed or not, cut or not, the function stays inside its
    input, ends, and does not lengthen the text. *)
Theorem C78_safe : forall s sz, (sz <= length s)%nat -> exists r, remove_tones s sz = Ok r /\ (length r <= sz)%nat.
Proof.
  intros s sz H. unfold remove_tones. destruct (loop_safe (S sz) s sz 0 []) as (r & E & L); try lia.
  exists r. cbn in L. split; [auto|lia].
Qed.
Print Assumptions C78_safe.

Example C78_ex :
  (* "Việt Đồng" with U+1EC7, U+0110, U+1ED3, then e + combining acute, then a Greek letter and an emoji *)
  let cs := [86; 105; 0x1EC7; 116; 32; 0x110; 0x1ED3; 110; 103; 101; 0x301; 0x3B1; 0x1F600] in
  Forall code_point cs /\
  remove_tones (encode cs) (length (encode cs)) = Ok (zs "Viet Donge" ++ [0xCE; 0xB1; 0xF0; 0x9F; 0x98; 0x80]).
Proof. split; [repeat constructor; lia | vm_compute; reflexivity]. Qed.

(** Outside UTF-8 two stray continuation bytes are dropped and switch the function off for
    the rest of the text, so it is not idempotent there. *)
Theorem C78_malformed_refuted : exists s r, remove_tones s (length s) = Ok r /\ remove_tones r (length r) <> Ok r /\
  r = utf8 0xC0.
Proof. exists ([0x80; 0x80] ++ utf8 0xC0), (utf8 0xC0). split; [reflexivity|]. split; [discriminate | reflexivity]. Qed.
Print Assumptions C78_malformed_refuted.

(** *** texts that end in the middle of a character *)

Lemma cons_eq : forall (x y : Z) s t, x :: s = y :: t -> x = y /\ s = t.
Proof. intros x y s t E. split; congruence. Qed.
Lemma decode_cut : forall pre c t t', 0x80 <= c <= 0x10FFFF -> utf8 c = t ++ t' -> t <> [] -> t' <> [] ->
  decode (pre ++ t) (length pre) (length (pre ++ t)) = Ok (0, 0%nat, length pre) /\
  exists x u, t = x :: u /\ 0x80 <= x.
Proof.
  intros pre c t t' H E N N'. unfold utf8 in E.
  destruct t as [|x u]; [congruence|]. clear N. destruct t' as [|y t']; [congruence|]. clear N'.
  destruct (Z.ltb_spec c 0x80); [lia|]. cbn [app] in E. unfold decode. rewrite rd_at. cbn [bind].
  destruct (Z.ltb_spec c 0x800); [|destruct (Z.ltb_spec c 0x10000)].
  - assert (B : 0xC2 <= 0xC0 + c / 64 < 0xE0) by zdiv. apply cons_eq in E. destruct E as [E1 E2].
    apply (f_equal (@length Z)) in E2. rewrite app_length in E2. cbn [length] in E2.
    split; [|exists x, u; split; [reflexivity|lia]]. rewrite <- E1, hi_nibble by lia.
    destruct (Z.eqb_spec (16 * ((0xC0 + c / 64) / 16)) 0xF0); [exfalso; zdiv|].
    destruct (Z.eqb_spec (16 * ((0xC0 + c / 64) / 16)) 0xE0); [exfalso; zdiv|].
    rewrite app_length. cbn [length]. match goal with |- context [(?a <? ?b)%nat] => destruct (Nat.ltb_spec a b) end; [lia|reflexivity].
  - assert (B : 0xE0 <= 0xE0 + c / 4096 < 0xF0) by zdiv. apply cons_eq in E. destruct E as [E1 E2].
    apply (f_equal (@length Z)) in E2. rewrite app_length in E2. cbn [length] in E2.
    split; [|exists x, u; split; [reflexivity|lia]]. rewrite <- E1, hi_nibble by lia.
    destruct (Z.eqb_spec (16 * ((0xE0 + c / 4096) / 16)) 0xF0); [exfalso; zdiv|].
    destruct (Z.eqb_spec (16 * ((0xE0 + c / 4096) / 16)) 0xE0); [|exfalso; zdiv].
    rewrite app_length. cbn [length]. match goal with |- context [(?a <? ?b)%nat] => destruct (Nat.ltb_spec a b) end; [lia|reflexivity].
  - assert (B : 0xF0 <= 0xF0 + c / 262144 < 0xF5) by zdiv. apply cons_eq in E. destruct E as [E1 E2].
    apply (f_equal (@length Z)) in E2. rewrite app_length in E2. cbn [length] in E2.
    split; [|exists x, u; split; [reflexivity|lia]]. rewrite <- E1, hi_nibble by lia.
    destruct (Z.eqb_spec (16 * ((0xF0 + c / 262144) / 16)) 0xF0); [|exfalso; zdiv].
    rewrite app_length. cbn [length]. match goal with |- context [(?a <? ?b)%nat] => destruct (Nat.ltb_spec a b) end; [lia|reflexivity].
Qed.

Lemma loop_cut : forall t, (forall pre, exists x u, t = x :: u /\ 0x80 <= x /\ decode (pre ++ t) (length pre) (length (pre ++ t)) = Ok (0, 0%nat, length pre)) ->
  forall cs pre out fuel, Forall code_point cs -> (length (encode cs) + 1 < fuel)%nat ->
  remove_loop fuel (pre ++ encode cs ++ t) (length (pre ++ encode cs ++ t)) (length pre) out = Ok (out ++ encode (flat_map toneless cs) ++ t).
Proof.
  intros t Ht. induction cs as [|c cs IH]; intros pre out fuel F Hf.
  - destruct fuel as [|fuel]; [lia|]. cbn [encode flat_map app remove_loop]. destruct (Ht pre) as (x & u & E & Hx & D).
    assert (L : (length pre < length (pre ++ t))%nat) by (rewrite E, app_length; cbn [length]; lia).
    rewrite (proj2 (Nat.ltb_lt _ _) L).
    assert (R : rd (pre ++ t) (length pre) = Ok x) by (rewrite E; apply rd_at). rewrite R. cbn [bind].
    destruct (Z.ltb_spec x 0x80); [lia|]. rewrite D. cbn [bind Z.leb Z.compare andb Z.eqb].
    pose proof (copy_app t pre []) as Cp. rewrite app_nil_r in Cp.
    replace (length (pre ++ t) - length pre)%nat with (length t) by (rewrite app_length; lia). rewrite Cp. cbn [bind].
    destruct fuel as [|fuel]; [cbn in Hf; lia|]. cbn [remove_loop].
    replace (Nat.max (length pre) (length (pre ++ t))) with (length (pre ++ t)) by lia. rewrite Nat.ltb_irrefl. reflexivity.
  - inversion F as [|? ? Hc F']; subst. unfold code_point in Hc.
    destruct fuel as [|fuel]; [lia|]. cbn [encode flat_map] in *. fold (encode cs) in *. rewrite app_length in Hf.
    pose proof (utf8_length c) as Hl. rewrite <- !app_assoc.
    assert (Next : forall o, remove_loop fuel (pre ++ utf8 c ++ encode cs ++ t) (length (pre ++ utf8 c ++ encode cs ++ t)) (length pre + length (utf8 c)) o =
      Ok (o ++ encode (flat_map toneless cs) ++ t)).
    { intros o. rewrite app_assoc, <- app_length. apply IH; [auto|lia]. }
    cbn [remove_loop].
    destruct (Nat.ltb_spec (length pre) (length (pre ++ utf8 c ++ encode cs ++ t))); [|rewrite !app_length in *; lia].
    rewrite encode_app.
    unfold toneless at 1. destruct (Z_lt_ge_dec c 0x80) as [L | L].
    + assert (E : utf8 c = [c]) by (unfold utf8; destruct (Z.ltb_spec c 0x80); [reflexivity|lia]).
      rewrite <- letter_base, letter_outside by lia.
      unfold btw. destruct (Z.leb_spec 0x300 c); [lia|]. cbn [andb]. rewrite encode_1.
      assert (R : rd (pre ++ utf8 c ++ encode cs ++ t) (length pre) = Ok c) by (rewrite E; apply rd_at). rewrite R. cbn [bind].
      destruct (Z.ltb_spec c 0x80); [|lia]. specialize (Next (out ++ [c])). rewrite E in *. cbn [length] in Next.
      rewrite Nat.add_1_r in Next. rewrite Next, <- !app_assoc. reflexivity.
    + destruct (decode_utf8 pre c (encode cs ++ t) ltac:(lia)) as [D (x & u & E & Hx)].
      assert (R : rd (pre ++ utf8 c ++ encode cs ++ t) (length pre) = Ok x) by (rewrite E; apply rd_at). rewrite R. cbn [bind].
      destruct (Z.ltb_spec x 0x80); [lia|]. rewrite D. cbn [bind]. unfold btw.
      destruct ((0x300 <=? c) && (c <=? 0x36F)) eqn:B; [rewrite Next; reflexivity|].
      destruct (Z.eqb_spec c 0); [lia|]. rewrite <- letter_base. destruct (letter c) as [l|] eqn:El.
      * assert (Hlow : utf8 l = [l]).
        { unfold letter in El. destruct (find _ table) as [[y z]|] eqn:Ef; [|discriminate]. cbn in El. injection El as <-.
          apply find_some in Ef. destruct Ef as [I _]. clear - I. cbn in I.
          repeat (destruct I as [I | I]; [injection I as <- <-; reflexivity|]). destruct I. }
        rewrite Next, encode_1, Hlow, <- !app_assoc. reflexivity.
      * replace (length pre + length (utf8 c) - length (utf8 c))%nat with (length pre) by lia.
        rewrite copy_app. cbn [bind]. rewrite Next, encode_1, <- !app_assoc. reflexivity.
Qed.

(** When the text ends in the middle of a character, all characters before it are treated as
    in a text without it, and its bytes are kept. *)
Theorem C78_cut : forall cs c t t', Forall code_point cs -> 0x80 <= c <= 0x10FFFF -> utf8 c = t ++ t' -> t <> [] -> t' <> [] ->
  remove_tones (encode cs ++ t) (length (encode cs ++ t)) = Ok (encode (flat_map toneless cs) ++ t).
Proof.
  intros cs c t t' F H E N N'. unfold remove_tones. apply (loop_cut t) with (pre := []) (out := []); [|auto|].
  - intros pre. destruct (decode_cut pre c t t' H E N N') as (D & x & u & -> & B). exists x, u. auto.
  - rewrite app_length. destruct t; [congruence|]. cbn [length]. lia.
Qed.
Print Assumptions C78_cut.
Example C78_ex_cut : utf8 0x1EC7 = [0xE1; 0xBB] ++ [0x87] /\
  remove_tones (encode [0xE9; 116] ++ [0xE1; 0xBB]) 5 = Ok (zs "et" ++ [0xE1; 0xBB]).
Proof. split; vm_compute; reflexivity. Qed.
