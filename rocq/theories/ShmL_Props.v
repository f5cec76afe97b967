(** Property C148: maps of values of any size and alignment. *)

From Coq Require Import ZArith List Bool Lia Znumtheory.
From Verif Require Import Base Shm_Model ShmMap_Proof ShmL_Model.
Import ListNotations.
Local Open Scope Z_scope.

(** what a compiler gives: the size is a multiple of the alignment, a power of two *)
Definition a_type (t : vtype) : Prop := 0 < v_size t /\ 0 <= v_log t /\ (v_align t | v_size t).
(** the sizes fit in int, as in C57 *)
Definition l_fits (n h : Z) (t : vtype) : Prop :=
  0 <= n /\ 1 <= h < 2^31 /\ 4096 + 4 * n + n * l_node t < 2^31.
(** The address p is a multiple of a. *)
Definition aligned (a p : Z) : Prop := (a | p).

Lemma roundup_ge : forall x a, 0 < a -> x <= roundup x a < x + a /\ (a | roundup x a).
Proof.
  intros x a A. unfold roundup. split.
  - pose proof (Z.div_mod (x + a - 1) a ltac:(lia)). pose proof (Z.mod_pos_bound (x + a - 1) a A). nia.
  - exists ((x + a - 1) / a). ring.
Qed.
Lemma roundup_id : forall x a, 0 < a -> (a | x) -> roundup x a = x.
Proof.
  intros x a A (q & ->). unfold roundup. replace (q * a + a - 1) with (a - 1 + q * a) by ring.
  rewrite Z.div_add by lia. rewrite Z.div_small by lia. ring.
Qed.
Lemma align_cases : forall k, 0 <= k -> (2 ^ k | 8) /\ 2 ^ k <= 8 /\ k <= 3 \/ (8 | 2 ^ k) /\ 8 <= 2 ^ k /\ 3 <= k.
Proof.
  intros k K. destruct (Z_le_gt_dec k 3) as [L|G].
  - left. assert (k = 0 \/ k = 1 \/ k = 2 \/ k = 3) as [E|[E|[E|E]]] by lia; rewrite E; repeat split; try lia;
      [exists 8|exists 4|exists 2|exists 1]; reflexivity.
  - right. assert (E : 2 ^ k = 2 ^ (k - 3) * 8). { change 8 with (2 ^ 3). rewrite <- Z.pow_add_r by lia. f_equal. lia. }
    split; [exists (2 ^ (k - 3)); exact E|]. split; [|lia]. pose proof (Z.pow_pos_nonneg 2 (k - 3) ltac:(lia) ltac:(lia)). lia.
Qed.
Lemma align_pos : forall t, 0 <= v_log t -> 0 < v_align t.
Proof. intros t H. unfold v_align. apply Z.pow_pos_nonneg; lia. Qed.
Lemma val_is : forall t, 0 <= v_log t -> l_val t = l_align t.
Proof.
  intros t K. unfold l_val, l_align, v_align. destruct (align_cases _ K) as [(D & L & _)|(D & L & _)].
  - rewrite Z.max_l by lia. apply roundup_id; [apply Z.pow_pos_nonneg; lia|exact D].
  - rewrite Z.max_r by lia. unfold roundup. set (a := 2 ^ v_log t) in *.
    replace ((8 + a - 1) / a) with 1; [ring|]. apply Z.div_unique with 7; lia.
Qed.
Lemma align_facts : forall t, 0 <= v_log t -> 8 <= l_align t /\ (8 | l_align t) /\ (4 | l_align t) /\ (v_align t | l_align t).
Proof.
  intros t K. unfold l_align, v_align. destruct (align_cases _ K) as [(D & L & _)|(D & L & _)].
  - rewrite Z.max_l by lia. split; [lia|]. split; [exists 1; reflexivity|]. split; [exists 2; reflexivity|exact D].
  - rewrite Z.max_r by lia. split; [lia|]. split; [exact D|]. split; [|apply Z.divide_refl].
    apply Z.divide_trans with 8; [exists 2; reflexivity|exact D].
Qed.
Lemma node_parts : forall t, a_type t ->
  8 <= l_val t /\ l_val t + v_size t <= l_next t /\ l_next t + 4 <= l_node t /\
  (v_align t | l_val t) /\ (8 | l_node t) /\ (4 | l_next t) /\ (v_align t | l_node t) /\
  l_next t = l_pair t /\ l_node t = l_pair t + l_align t.
Proof.
  intros t (S & K & D). pose proof (align_facts t K) as (A8 & D8 & D4 & DA). pose proof (val_is t K) as V.
  destruct (roundup_ge (l_val t + v_size t) (l_align t) ltac:(lia)) as (P & PD). fold (l_pair t) in P, PD.
  assert (N : l_next t = l_pair t).
  { apply roundup_id; [lia|]. apply Z.divide_trans with (l_align t); assumption. }
  assert (E : l_node t = l_pair t + l_align t).
  { unfold l_node. rewrite N. destruct PD as (q & ->). unfold roundup. set (a := l_align t) in *.
    replace ((q * a + 4 + a - 1) / a) with (q + 1); [ring|]. apply Z.div_unique with 3; lia. }
  assert (DN : (l_align t | l_node t)).
  { rewrite E. apply Z.divide_add_r; [exact PD|apply Z.divide_refl]. }
  rewrite N. repeat split; try lia.
  - rewrite V. exact DA.
  - apply Z.divide_trans with (l_align t); assumption.
  - apply Z.divide_trans with (l_align t); assumption.
  - apply Z.divide_trans with (l_align t); assumption.
Qed.
Lemma objs_facts : forall n h t, a_type t -> l_fits n h t ->
  l_stack n = 1024 /\ 1024 + 4 * n <= l_objs n /\ (1024 | l_objs n) /\
  l_objs n + n * l_node t <= l_hash n t /\ (1024 | l_hash n t).
Proof.
  intros n h t T (N & H & B). pose proof (node_parts t T) as (P1 & P2 & P3 & _). destruct T as (S & _).
  assert (E : l_stack n = 1024) by reflexivity.
  unfold l_hash, l_objs. rewrite E.
  unfold pool_stack_size, stack_data_size, pool_data_size. change (4 * Z.of_nat 1 * n) with (4 * n).
  assert (0 <= n * l_node t) by nia.
  destruct (floor1024_bound (4 * n)) as (F1 & F2); [lia|].
  destruct (floor1024_bound (l_node t * n)) as (F3 & F4); [lia|].
  apply Z.mod_divide in F2; [|lia]. apply Z.mod_divide in F4; [|lia].
  split; [reflexivity|]. split; [lia|]. split; [apply Z.divide_add_r; [exists 1; reflexivity|exact F2]|].
  split; [lia|]. apply Z.divide_add_r; [apply Z.divide_add_r; [exists 1; reflexivity|exact F2]|exact F4].
Qed.

(** For every value type whose alignment is at most 1024, and all sizes that fit: the parts of the
    segment lie one behind the other, and in every node key, value and next lie one behind the
    other inside the node, each at a multiple of its alignment. *)
Theorem C148_any_value_type : forall n h t, a_type t -> v_log t <= 10 -> l_fits n h t ->
  24 + 12 <= l_stack n /\ l_stack n + 4 * n <= l_objs n /\
  l_objs n + n * l_node t <= l_hash n t /\ l_hash n t + 4 * h = l_space n h t /\
  aligned 4 (l_stack n) /\ aligned 4 (l_hash n t) /\
  forall i, 0 <= i < n ->
    l_objs n <= l_key_at n t i /\
    l_key_at n t i + 8 <= l_val_at n t i /\
    l_val_at n t i + v_size t <= l_next_at n t i /\
    l_next_at n t i + 4 <= l_key_at n t (i + 1) /\
    l_key_at n t (i + 1) <= l_hash n t /\
    aligned 8 (l_key_at n t i) /\ aligned (v_align t) (l_val_at n t i) /\ aligned 4 (l_next_at n t i).
Proof.
  intros n h t T K F. pose proof (objs_facts n h t T F) as (E & H1 & H2 & H3 & H4).
  pose proof (node_parts t T) as (P1 & P2 & P3 & P4 & P5 & P6 & P7 & _). destruct F as (N & H & B).
  assert (D : forall x, (1024 | x) -> (4 | x)) by (intros x; apply Z.divide_trans; exists 256; reflexivity).
  assert (D8 : forall x, (1024 | x) -> (8 | x)) by (intros x; apply Z.divide_trans; exists 128; reflexivity).
  assert (DA : forall x, (1024 | x) -> (v_align t | x)).
  { intros x. apply Z.divide_trans. unfold v_align. exists (2 ^ (10 - v_log t)). change 1024 with (2 ^ 10).
    rewrite <- Z.pow_add_r by (destruct T as (_ & T & _); lia). f_equal. lia. }
  assert (D48 : forall x, (8 | x) -> (4 | x)) by (intros x; apply Z.divide_trans; exists 2; reflexivity).
  split; [lia|]. split; [lia|]. split; [exact H3|]. split; [reflexivity|]. unfold aligned.
  split; [rewrite E; exists 256; reflexivity|]. split; [auto|].
  intros i Hi. unfold l_key_at, l_val_at, l_next_at.
  assert (0 <= l_node t) by (pose proof (proj1 T); lia).
  assert (i * l_node t + l_node t <= n * l_node t) by nia.
  assert (0 <= i * l_node t) by nia.
  split; [lia|]. split; [lia|]. split; [lia|]. split; [lia|]. split; [lia|]. split; [|split].
  - apply Z.divide_add_r; [auto|]. apply Z.divide_mul_r. exact P5.
  - apply Z.divide_add_r; [apply Z.divide_add_r; [auto|]|exact P4]. apply Z.divide_mul_r. exact P7.
  - apply Z.divide_add_r; [apply Z.divide_add_r; [auto|]|exact P6]. apply Z.divide_mul_r. apply D48, P5.
Qed.
Print Assumptions C148_any_value_type.

(** Two programs whose headers agree put every part at the same place: the comparison in attach is
    enough, although it does not see the alignment. *)
Theorem C148_header_decides : forall n h t n' h' t', a_type t -> a_type t' ->
  l_header n h t = l_header n' h' t' ->
  n = n' /\ h = h' /\ v_size t = v_size t' /\ l_node t = l_node t' /\ l_val t = l_val t' /\ l_next t = l_next t' /\
  l_space n h t = l_space n' h' t' /\
  forall i, l_key_at n t i = l_key_at n' t' i /\ l_val_at n t i = l_val_at n' t' i /\ l_next_at n t i = l_next_at n' t' i.
Proof.
  intros n h t n' h' t' T T' E. unfold l_header in E.
  assert (n = n' /\ v_size t = v_size t' /\ h = h' /\ l_node t = l_node t') as (E1 & E2 & E3 & E4) by (repeat split; congruence).
  subst n' h'. clear E.
  pose proof (node_parts t T) as (_ & _ & _ & _ & _ & _ & _ & N & M).
  pose proof (node_parts t' T') as (_ & _ & _ & _ & _ & _ & _ & N' & M').
  destruct T as (S & K & D). destruct T' as (S' & K' & D').
  assert (A : l_align t = l_align t').
  { assert (P : forall t, 0 <= v_log t -> 0 < v_size t -> (v_align t | v_size t) ->
       l_node t = 2 * l_align t + roundup (v_size t) 8 /\ (l_align t = 8 \/ (8 < l_align t /\ roundup (v_size t) 8 = v_size t))).
    { clear. intros t K S D. pose proof (align_facts t K) as (A8 & D8 & D4 & DA). pose proof (val_is t K) as V.
      assert (X : l_node t = l_pair t + l_align t) by (apply node_parts; repeat split; auto).
      assert (Y : l_align t = 8 \/ (8 < l_align t /\ l_align t = v_align t)) by (unfold l_align; lia).
      rewrite X. unfold l_pair. rewrite V. destruct Y as [Y|(Y & Z)].
      - split; [|left; exact Y]. rewrite Y. unfold roundup.
        replace (8 + v_size t + 8 - 1) with (v_size t + 8 - 1 + 1 * 8) by ring. rewrite Z.div_add by lia. ring.
      - assert (R : roundup (v_size t) 8 = v_size t).
        { apply roundup_id; [lia|]. apply Z.divide_trans with (l_align t); [exact D8|]. rewrite Z. exact D. }
        split; [|right; auto]. rewrite R, roundup_id; [ring|lia|].
        apply Z.divide_add_r; [apply Z.divide_refl|]. rewrite Z. exact D. }
    destruct (P t K S D) as (Q1 & Q2). destruct (P t' K' S' D') as (Q1' & Q2'). rewrite E2 in Q1. lia. }
  assert (V : l_val t = l_val t') by (rewrite !val_is by assumption; exact A).
  assert (X : l_next t = l_next t') by lia.
  unfold l_space, l_hash, l_key_at, l_val_at, l_next_at. rewrite E4, V, X. repeat split; auto.
Qed.
Print Assumptions C148_header_decides.

(** For arrays of 32-bit words this is the layout of Shm_Model. *)
Theorem C148_words : forall P, (1 <= words P)%nat ->
  let t := mkV (4 * Z.of_nat (words P)) 2 in
  a_type t /\ l_node t = node_size P /\ l_val t = o_val /\ l_next t = o_next P /\
  l_objs (nobj P) = a_objs P /\ l_hash (nobj P) t = a_hash P /\ l_space (nobj P) (hsize P) t = required_space P.
Proof.
  intros P W t. assert (T : a_type t).
  { unfold a_type, t, v_align. cbn [v_size v_log]. split; [lia|]. split; [lia|]. exists (Z.of_nat (words P)). ring. }
  pose proof (node_parts t T) as (_ & _ & _ & _ & _ & _ & _ & N & M).
  assert (V : l_val t = 8) by reflexivity.
  assert (Q : l_pair t = o_next P).
  { unfold l_pair. rewrite V. unfold l_align, v_align, t. cbn [v_size v_log]. change (Z.max 8 (2 ^ 2)) with 8.
    unfold roundup, o_next, wsz. f_equal. f_equal. ring. }
  assert (L : l_node t = node_size P).
  { rewrite M, Q. reflexivity. }
  split; [exact T|]. split; [exact L|]. split; [exact V|]. split; [rewrite N; exact Q|]. split; [reflexivity|].
  unfold l_space, l_hash, a_hash, required_space, data_sz. rewrite L. split; reflexivity.
Qed.
Print Assumptions C148_words.

(** Larger alignments are not kept: the nodes begin at a multiple of 1024 only. *)
Theorem C148_large_alignment_refuted : exists n h t, a_type t /\ l_fits n h t /\ v_log t = 12 /\
  ~ aligned (v_align t) (l_val_at n t 0).
Proof.
  exists 1, 1, (mkV 4096 12). split; [|split; [|split]].
  - split; [reflexivity|]. split; [discriminate|]. exists 1. reflexivity.
  - vm_compute. intuition discriminate.
  - reflexivity.
  - intros (q & E). change (l_val_at 1 (mkV 4096 12) 0) with 6144 in E. change (v_align (mkV 4096 12)) with 4096 in E. lia.
Qed.
Print Assumptions C148_large_alignment_refuted.

(** a type of 16 bytes aligned to 16, and one of 16 bytes aligned to 4: different nodes *)
Example C148_ex : a_type (mkV 16 4) /\ a_type (mkV 16 2) /\ a_type (mkV 1 0) /\ l_fits 1000 100 (mkV 16 4) /\
  l_node (mkV 16 4) = 48 /\ l_node (mkV 16 2) = 32 /\ l_header 5 5 (mkV 8 3) = l_header 5 5 (mkV 8 0) /\
  l_val_at 1000 (mkV 16 4) 3 = 1024 + 4096 + 3 * 48 + 16.
Proof.
  split; [|split; [|split]].
  - split; [reflexivity|]. split; [discriminate|]. exists 1. reflexivity.
  - split; [reflexivity|]. split; [discriminate|]. exists 4. reflexivity.
  - split; [reflexivity|]. split; [discriminate|]. exists 1. reflexivity.
  - vm_compute. intuition discriminate.
Qed.
