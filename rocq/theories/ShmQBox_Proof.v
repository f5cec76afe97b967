(** Lemmas about packing items into boxes. *)

From Coq Require Import ZArith List Bool Lia.
From Verif Require Import Base Shm_Model ShmQ_Spec ShmQ_Model ShmQSys_Spec.
Import ListNotations.
Local Open Scope nat_scope.

Lemma blit_app : forall l a b c, length b = length l ->
  blit (a ++ b ++ c) (length a) l = Ok (a ++ l ++ c).
Proof.
  induction l as [|x l IH]; intros a [|y b] c H; try discriminate; cbn [blit]; auto.
  cbn [app]. rewrite wr_app by auto. cbn [bind].
  replace (a ++ x :: b ++ c) with ((a ++ [x]) ++ b ++ c) by (rewrite <- app_assoc; reflexivity).
  replace (S (length a)) with (length (a ++ [x])) by (rewrite app_length; simpl; lia).
  rewrite IH by (simpl in H; lia). now rewrite <- app_assoc.
Qed.

Section Box.
Variable T : Type.
Variable K : codec T.
Variable enc : T -> list Z.

Hypothesis OK : codec_ok T K enc.
Variable n : nat.
Notation cat c := (concat (map enc c)).

Definition brep (b : box) (c : list T) : Prop :=
  packed T enc n c (b_mem b) /\ b_pos b = length (cat c).

Lemma brep_clear : forall k, k = n -> brep (box_clear k) [].
Proof.
  intros k ->. split; cbn; auto. exists n. split; auto. apply repeat_length.
Qed.

Lemma put_fits : forall b c x, brep b c -> length (cat c) + c_size K x <= n ->
  exists b', box_put T K b x = Ok (b', true) /\ brep b' (c ++ [x]).
Proof.
  intros b c x ((z & E & L) & P) H. unfold box_put, box_fits. rewrite L, P.
  destruct (Nat.leb_spec (length (cat c) + c_size K x) n); [|lia].
  rewrite (k_ser _ _ _ OK). rewrite E.
  assert (Hz : z = length (enc x) + (z - c_size K x)).
  { rewrite (k_len _ _ _ OK). rewrite E, app_length, repeat_length in L. lia. }
  rewrite Hz, repeat_app, blit_app by apply repeat_length. cbn [bind].
  eexists. split; [reflexivity|]. split.
  - exists (z - c_size K x). cbn [b_mem]. split.
    + rewrite map_app, concat_app. cbn [map concat]. now rewrite app_nil_r, <- app_assoc.
    + rewrite E, app_length, repeat_length in L.
      rewrite !app_length, repeat_length, (k_len _ _ _ OK) in *. lia.
  - cbn [b_pos]. rewrite map_app, concat_app, app_length. cbn [map concat].
    rewrite app_nil_r, (k_len _ _ _ OK). reflexivity.
Qed.

Lemma put_full : forall b c x, brep b c -> n < length (cat c) + c_size K x ->
  box_put T K b x = Ok (b, false).
Proof.
  intros b c x ((z & E & L) & P) H. unfold box_put, box_fits. rewrite L, P.
  destruct (Nat.leb_spec (length (cat c) + c_size K x) n); [lia|reflexivity].
Qed.

Lemma q_put_spec : forall b c log x, brep b c -> c_size K x <= n ->
  exists b' log' c' cs, q_put T K b log x = Ok (b', log ++ log', true) /\ brep b' c'
    /\ c ++ [x] = concat cs ++ c' /\ Forall2 (packed T enc n) cs log'
    /\ Forall (fun c => c <> []) cs.
Proof.
  intros b c log x R H. unfold q_put.
  destruct (Nat.le_gt_cases (length (cat c) + c_size K x) n) as [F|F].
  - destruct (put_fits b c x R F) as (b' & -> & R'). cbn [bind].
    exists b', [], (c ++ [x]), []. rewrite app_nil_r. repeat split; auto; apply R'.
  - rewrite (put_full b c x R F). cbn [bind]. unfold q_flush.
    assert (L : length (b_mem b) = n) by (destruct R as ((z & _ & L) & _); auto).
    rewrite L.
    destruct (put_fits (box_clear n) [] x (brep_clear n eq_refl)) as (b' & -> & R').
    { cbn. lia. }
    cbn [bind app] in *. exists b', [b_mem b], [x], [c]. split; [reflexivity|]. split; auto. split.
    { cbn [concat]. now rewrite app_nil_r. } split.
    + constructor; [apply R|constructor].
    + constructor; [|constructor]. intros ->. cbn in F. lia.
Qed.

Lemma q_puts_spec : forall xs b c log, brep b c -> Forall (fun x => c_size K x <= n) xs ->
  exists b' log' c' cs, q_puts T K b log xs = Ok (b', log ++ log', repeat true (length xs))
    /\ brep b' c' /\ c ++ xs = concat cs ++ c' /\ Forall2 (packed T enc n) cs log'
    /\ Forall (fun c => c <> []) cs.
Proof.
  induction xs as [|x xs IH]; intros b c log R H; cbn [q_puts length repeat].
  - exists b, [], c, []. rewrite !app_nil_r. repeat split; auto; apply R.
  - inversion H as [|? ? H1 H2]; subst.
    destruct (q_put_spec b c log x R H1) as (b1 & l1 & c1 & cs1 & E & R1 & C1 & P1 & N1).
    rewrite E. cbn [bind].
    destruct (IH b1 c1 (log ++ l1) R1 H2) as (b2 & l2 & c2 & cs2 & E2 & R2 & C2 & P2 & N2).
    rewrite E2. cbn [bind]. exists b2, (l1 ++ l2), c2, (cs1 ++ cs2).
    rewrite <- app_assoc. split; [reflexivity|]. split; auto. split.
    { rewrite concat_app, <- app_assoc, <- C2, app_assoc, <- C1, <- app_assoc. reflexivity. } split.
    + apply Forall2_app; auto.
    + apply Forall_app. auto.
Qed.

Lemma q_gets_spec : forall c hs pre z,
  Forall2 (fun h x => c_size K h <= c_size K x) hs c ->
  q_gets T K (mkBox (pre ++ cat c ++ repeat 0%Z z) (length pre)) hs = c.
Proof.
  induction c as [|x c IH]; intros hs pre z H; inversion H as [|h ? hs' ? H1 H2]; subst; auto.
  cbn [q_gets]. unfold q_get, box_fits. cbn [b_mem b_pos].
  cbn [map concat] in *.
  rewrite !app_length, (k_len _ _ _ OK).
  destruct (Nat.leb_spec (length pre + c_size K h)
    (length pre + (c_size K x + length (cat c) + length (repeat 0%Z z)))); [|lia].
  unfold box_get. cbn [b_mem b_pos].
  rewrite skipn_app, Nat.sub_diag, skipn_all. cbn [app skipn].
  rewrite <- app_assoc, (k_des _ _ _ OK). f_equal.
  replace (pre ++ enc x ++ cat c ++ repeat 0%Z z) with ((pre ++ enc x) ++ cat c ++ repeat 0%Z z)
    by (rewrite <- app_assoc; reflexivity).
  rewrite <- (k_len _ _ _ OK x), <- app_length. apply IH; auto.
Qed.

Lemma packed_gets : forall c b hs, packed T enc n c b ->
  Forall2 (fun h x => c_size K h <= c_size K x) hs c -> q_gets T K (copy_from b) hs = c.
Proof.
  intros c b hs (z & E & L) H. unfold copy_from. rewrite E.
  apply (q_gets_spec c hs [] z); auto.
Qed.

End Box.
