(** Lemmas for C141 and C142. *)
From Coq Require Import ZArith List Bool Lia Arith.
From Verif Require Import Base Rot_Model Rot_Spec.
Import ListNotations.
Local Open Scope Z_scope.

Lemma put_same : forall A (f : nat -> A) i v, put f i v i = v.
Proof. intros. unfold put. now rewrite Nat.eqb_refl. Qed.
Lemma put_other : forall A (f : nat -> A) i v j, j <> i -> put f i v j = f j.
Proof. intros. unfold put. destruct (Nat.eqb_spec j i); congruence. Qed.
Lemma putn_same : forall f q v, putn f q v q = v.
Proof. intros. unfold putn. destruct (list_eq_dec Z.eq_dec q q); congruence. Qed.
Lemma putn_other : forall f q v r, r <> q -> putn f q v r = f r.
Proof. intros. unfold putn. destruct (list_eq_dec Z.eq_dec r q); congruence. Qed.

(** the descriptor a thread has opened for itself *)
Definition held (c : pc) : option nat := match c with Dup _ td | Cls _ td => Some td | _ => None end.
Definition pcs (c : pc) : list (list Z) := match c with Fmt cs => cs | _ => [] end.
Definition is_fmt (c : pc) : bool := match c with Fmt _ => true | _ => false end.

(** the lock of the stream, the descriptors *)
Definition WInv (s : sys) : Prop :=
  fd s 2 <> None /\
  (forall i, is_fmt (thr s i) = true <-> lck s = Some i) /\
  (forall i td, held (thr s i) = Some td -> td <> 2%nat /\ fd s td <> None) /\
  (forall i j td, held (thr s i) = Some td -> held (thr s j) = Some td -> i = j).

Ltac cases S :=
  let a := fresh "a" in let F := fresh "F" in
  destruct S as [a F]; destruct a; cbn [fire] in F; unfold advance, failing, opened in F;
  repeat match type of F with match ?x with _ => _ end = Some _ =>
    let E := fresh "E" in destruct x eqn:E; try discriminate F end;
  injection F; intros; subst; clear F;
  unfold go, go_fd, go_nam, go_buf in *; cbn [fd nam dat nxt buf lev lck thr] in *.

Ltac rt := repeat match goal with H : thr _ _ = _ |- _ => rewrite H end.
Lemma winv_rest : forall s, at_rest s -> WInv s.
Proof.
  intros s (H1 & H2 & H3). split; [exact H3|]. split; [|split].
  - intros i. rewrite H1, H2. split; discriminate.
  - intros i td. rewrite H1. discriminate.
  - intros i j td. rewrite H1. discriminate.
Qed.

(** one thread moves; its descriptor does not change *)
Lemma winv_go : forall s i c d n dt nx b l, WInv s -> held c = None \/ held c = held (thr s i) ->
  is_fmt c = is_fmt (thr s i) ->
  d 2%nat <> None -> (forall td, td <> 2%nat -> fd s td <> None -> held (thr s i) <> Some td \/ held c = Some td -> d td <> None) ->
  WInv (mkS d n dt nx b l (lck s) (put (thr s) i c)).
Proof.
  intros s i c d n dt nx b l (W1 & W2 & W3 & W4) H1 H2 H3 H4. unfold WInv. cbn [fd lck thr].
  split; [exact H3|]. split; [|split].
  - intros j. destruct (Nat.eq_dec j i) as [->|N]; [rewrite put_same, H2; apply W2|rewrite put_other by auto; apply W2].
  - intros j td H. destruct (Nat.eq_dec j i) as [->|N].
    + rewrite put_same in H. destruct H1 as [H1|H1]; [congruence|]. rewrite H in H1. destruct (W3 i td) as [A B]; [congruence|].
      split; [exact A|]. apply H4; auto.
    + rewrite put_other in H by auto. destruct (W3 j td H) as [A B]. split; [exact A|]. apply H4; auto. left. intros X. apply N. eapply W4; eauto.
  - intros j k td Hj Hk. destruct (Nat.eq_dec j i) as [->|Nj], (Nat.eq_dec k i) as [->|Nk]; auto;
    rewrite ?put_same, ?put_other in * by auto; eauto.
    + destruct H1 as [H1|H1]; [congruence|]. rewrite H1 in Hj. eauto.
    + destruct H1 as [H1|H1]; [congruence|]. rewrite H1 in Hk. eauto.
Qed.

Lemma winv_step : forall s e s', WInv s -> step s e s' -> WInv s'.
Proof.
  intros s e s' W S. cases S; pose proof W as (W1 & W2 & W3 & W4); try exact W; try congruence.
  all: try (apply winv_go; [exact W|rt; cbn; auto|rt; reflexivity|exact W1|tauto]; fail).
  (* AMsg *)
  - split; [exact W1|]. assert (N : forall j, is_fmt (thr s j) = false).
    { intros j. destruct (is_fmt (thr s j)) eqn:Q; auto. apply W2 in Q. congruence. }
    cbn [fd lck thr]. split; [|split].
    + intros j. destruct (Nat.eq_dec j i) as [->|Nj]; [rewrite put_same; cbn; tauto|]. rewrite put_other, N by auto. split; congruence.
    + intros j td H. destruct (Nat.eq_dec j i) as [->|Nj]; [rewrite put_same in H; discriminate|]. rewrite put_other in H by auto. eauto.
    + intros j k td Hj Hk. destruct (Nat.eq_dec j i) as [->|Nj]; [rewrite put_same in Hj; discriminate|].
      destruct (Nat.eq_dec k i) as [->|Nk]; [rewrite put_same in Hk; discriminate|]. rewrite put_other in Hj, Hk by auto. eauto.
  (* the end of an fprintf *)
  - split; [exact W1|]. assert (L : lck s = Some i) by (apply W2; rewrite E; reflexivity).
    cbn [fd lck thr]. split; [|split].
    + intros j. destruct (Nat.eq_dec j i) as [->|Nj]; [rewrite put_same; cbn; split; discriminate|]. rewrite put_other by auto. rewrite W2. split; congruence.
    + intros j td H. destruct (Nat.eq_dec j i) as [->|Nj]; [rewrite put_same in H; discriminate|]. rewrite put_other in H by auto. eauto.
    + intros j k td Hj Hk. destruct (Nat.eq_dec j i) as [->|Nj]; [rewrite put_same in Hj; discriminate|].
      destruct (Nat.eq_dec k i) as [->|Nk]; [rewrite put_same in Hk; discriminate|]. rewrite put_other in Hj, Hk by auto. eauto.
  (* Scan *)
  - apply winv_go; auto; rt; destruct (z =? 0), (z =? 47); auto.
  (* Back *)
  - apply winv_go; auto; rt; destruct ok; auto.
  (* dup2 *)
  - destruct (W3 i td) as [A B]; [rewrite E; reflexivity|]. apply winv_go; [exact W|rt; auto|rt; reflexivity|rewrite put_same; exact B|].
    intros d N D _. rewrite put_other by auto. exact D.
  (* close *)
  - destruct (W3 i td) as [A B]; [rewrite E; reflexivity|]. apply winv_go; [exact W|rt; auto|rt; reflexivity|rewrite put_other by auto; exact W1|].
    intros d N D [K|K]; [|discriminate]. rewrite E in K. rewrite put_other by (intros ->; apply K; reflexivity). exact D.
  - destruct (W3 i td) as [A B]; [rewrite E; reflexivity|]. apply winv_go; [exact W|rt; auto|rt; reflexivity|rewrite put_other by auto; exact W1|].
    intros d N D [K|K]; [|discriminate]. rewrite E in K. rewrite put_other by (intros ->; apply K; reflexivity). exact D.
  (* open *)
  - assert (T : td <> 2%nat) by (intros ->; congruence). destruct (Nat.eqb_spec td 2); [contradiction|].
    split; [cbn; rewrite put_other by auto; exact W1|]. cbn [fd lck thr]. split; [|split].
    + intros j. destruct (Nat.eq_dec j i) as [->|Nj]; [rewrite put_same, <- W2, E; cbn; tauto|]. rewrite put_other by auto. apply W2.
    + intros j d H. destruct (Nat.eq_dec j i) as [->|Nj].
      * rewrite put_same in H. injection H as <-. rewrite put_same. split; [exact T|discriminate].
      * rewrite put_other in H by auto. destruct (W3 j d H). split; [assumption|]. unfold put. destruct (d =? td)%nat; [discriminate|assumption].
    + assert (F : forall j, held (thr s j) <> Some td) by (intros j X; destruct (W3 j td X); congruence).
      intros j k d Hj Hk. destruct (Nat.eq_dec j i) as [->|Nj], (Nat.eq_dec k i) as [->|Nk]; auto; rewrite ?put_same, ?put_other in * by auto; eauto.
      * injection Hj as <-. elim (F k Hk).
      * injection Hk as <-. elim (F j Hj).
  - assert (T : td <> 2%nat) by (intros ->; congruence). destruct (Nat.eqb_spec td 2); [contradiction|].
    split; [cbn; rewrite put_other by auto; exact W1|]. cbn [fd lck thr]. split; [|split].
    + intros j. destruct (Nat.eq_dec j i) as [->|Nj]; [rewrite put_same, <- W2, E; cbn; tauto|]. rewrite put_other by auto. apply W2.
    + intros j d H. destruct (Nat.eq_dec j i) as [->|Nj].
      * rewrite put_same in H. injection H as <-. rewrite put_same. split; [exact T|discriminate].
      * rewrite put_other in H by auto. destruct (W3 j d H). split; [assumption|]. unfold put. destruct (d =? td)%nat; [discriminate|assumption].
    + assert (F : forall j, held (thr s j) <> Some td) by (intros j X; destruct (W3 j td X); congruence).
      intros j k d Hj Hk. destruct (Nat.eq_dec j i) as [->|Nj], (Nat.eq_dec k i) as [->|Nk]; auto; rewrite ?put_same, ?put_other in * by auto; eauto.
      * injection Hj as <-. elim (F k Hk).
      * injection Hk as <-. elim (F j Hj).
Qed.
Lemma winv_runs : forall s0 tr s, WInv s0 -> runs s0 tr s -> WInv s.
Proof. intros s0 tr s W R. induction R; [exact W|eapply winv_step; eauto]. Qed.
