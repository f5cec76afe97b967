(** Shared vocabulary of the model: outcomes, bytes, bounds-checked buffers.

    A C buffer is a [list Z] of bytes; a pointer into it is an index.  Every
    access is checked against the buffer's length, and an access outside of it is
    the distinct outcome [Ub _] (undefined behaviour), so a theorem that concludes
    [Ok _] contains memory safety. *)

From Coq Require Import ZArith List Lia Bool.
From Coq Require Import Ascii.
From Coq Require String.
Export String.StringSyntax.
Import ListNotations.
Local Open Scope list_scope.
Local Open Scope Z_scope.

(** Kinds of undefined behaviour the model can report. *)
Inductive ub : Type :=
| OobRead          (* read outside a buffer *)
| OobWrite         (* write outside a buffer *)
| NullDeref        (* dereference of a null pointer *)
| UseAfterFree     (* access to a freed block *)
| DoubleFree       (* free of a freed block *)
| DivByZero        (* integer division by zero *)
| Uninit           (* use of an indeterminate value *)
| Throws           (* an exception the C++ code does not declare *)
| BadLib.          (* a library function called outside its contract *)

(** Outcome of a piece of C code.  [Fuel] means that the recursion bound of the
    model was too small; theorems show it never happens. *)
Inductive res (A : Type) : Type :=
| Ok (a : A)
| Ub (u : ub)
| Fuel.
Arguments Ok {A} a.
Arguments Ub {A} u.
Arguments Fuel {A}.

Definition bind {A B} (r : res A) (f : A -> res B) : res B :=
  match r with Ok a => f a | Ub u => Ub u | Fuel => Fuel end.

Notation "x <- e ;; k" := (bind e (fun x => k))
  (at level 61, e at next level, right associativity).
Notation "' p <- e ;; k" := (bind e (fun x => match x with p => k end))
  (at level 61, p pattern, e at next level, right associativity).

Definition byte (b : Z) : Prop := 0 <= b < 256.
Definition byteb (b : Z) : bool := (0 <=? b) && (b <? 256).
Definition bytes (l : list Z) : Prop := Forall byte l.

(** The bytes of a C string literal (without the terminating zero). *)
Definition zs (s : String.string) : list Z :=
  map (fun a => Z.of_N (N_of_ascii a)) (String.list_ascii_of_string s).
Arguments zs s%string_scope.

(** [b[i]] as an rvalue. *)
Definition rd {A} (b : list A) (i : nat) : res A :=
  match nth_error b i with Some x => Ok x | None => Ub OobRead end.

(** list update (no effect outside the list). *)
Fixpoint upd {A} (b : list A) (i : nat) (v : A) : list A :=
  match b, i with
  | [], _ => []
  | _ :: t, O => v :: t
  | x :: t, S i => x :: upd t i v
  end.

(** [b[i] = v]. *)
Definition wr {A} (b : list A) (i : nat) (v : A) : res (list A) :=
  if (i <? length b)%nat then Ok (upd b i v) else Ub OobWrite.

(** All integers 0 .. n-1, for finite sweeps. *)
Definition zrange (n : nat) : list Z := map Z.of_nat (seq 0 n).

Lemma in_zrange : forall n z, 0 <= z < Z.of_nat n -> In z (zrange n).
Proof.
  intros n z H. unfold zrange. apply in_map_iff. exists (Z.to_nat z). split.
  - apply Z2Nat.id. lia.
  - apply in_seq. lia.
Qed.

Lemma zrange_forall : forall n (P : Z -> bool),
  forallb P (zrange n) = true -> forall z, 0 <= z < Z.of_nat n -> P z = true.
Proof.
  intros n P H z Hz. rewrite forallb_forall in H. apply H. apply in_zrange; auto.
Qed.

Lemma byteb_spec : forall b, byteb b = true <-> byte b.
Proof. intros. unfold byteb, byte. rewrite andb_true_iff, Z.leb_le, Z.ltb_lt. tauto. Qed.

(** *** Lemmas about buffers *)

Lemma upd_length : forall A (b : list A) i v, length (upd b i v) = length b.
Proof. induction b as [|x t IH]; intros [|i] v; simpl; auto. Qed.

Lemma upd_app : forall A (a : list A) x c v, upd (a ++ x :: c) (length a) v = a ++ v :: c.
Proof. induction a as [|y a IH]; intros; simpl; [auto | rewrite IH; auto]. Qed.

Lemma nth_error_upd_same : forall A (b : list A) i v,
  (i < length b)%nat -> nth_error (upd b i v) i = Some v.
Proof. induction b as [|x t IH]; intros [|i] v H; simpl in *; auto; try lia. apply IH; lia. Qed.

Lemma nth_error_upd_other : forall A (b : list A) i j v,
  i <> j -> nth_error (upd b i v) j = nth_error b j.
Proof.
  induction b as [|x t IH]; intros [|i] [|j] v H; simpl; auto; try congruence.
Qed.

Lemma wr_app : forall A (a : list A) x c v i, i = length a ->
  wr (a ++ x :: c) i v = Ok (a ++ v :: c).
Proof.
  intros. subst. unfold wr. rewrite app_length; simpl.
  destruct (Nat.ltb_spec (length a) (length a + S (length c))); [|lia].
  now rewrite upd_app.
Qed.

Lemma wr_push : forall A (a : list A) x c v i, i = length a ->
  wr (a ++ x :: c) i v = Ok ((a ++ [v]) ++ c).
Proof. intros. rewrite wr_app by auto. now rewrite <- app_assoc. Qed.

Lemma wr_ok : forall A (b : list A) i v, (i < length b)%nat -> wr b i v = Ok (upd b i v).
Proof. intros. unfold wr. destruct (Nat.ltb_spec i (length b)); auto; lia. Qed.

Lemma wr_inv : forall A (b : list A) i v b', wr b i v = Ok b' ->
  (i < length b)%nat /\ b' = upd b i v.
Proof. unfold wr; intros. destruct (Nat.ltb_spec i (length b)); inversion H; auto. Qed.

Lemma rd_app : forall A (a : list A) x c i, i = length a -> rd (a ++ x :: c) i = Ok x.
Proof.
  intros. subst. unfold rd. rewrite nth_error_app2 by lia. now rewrite Nat.sub_diag.
Qed.

Lemma rd_app_r : forall A (a c : list A) i j, i = (length a + j)%nat ->
  rd (a ++ c) i = rd c j.
Proof.
  intros. subst. unfold rd. rewrite nth_error_app2 by lia.
  now replace (length a + j - length a)%nat with j by lia.
Qed.

Lemma rd_cons_S : forall A (x : A) l i, rd (x :: l) (S i) = rd l i.
Proof. reflexivity. Qed.

Lemma rd_some : forall A (b : list A) i x, nth_error b i = Some x -> rd b i = Ok x.
Proof. unfold rd; intros. now rewrite H. Qed.

Lemma rd_nth : forall A (d : A) (b : list A) i, (i < length b)%nat -> rd b i = Ok (nth i b d).
Proof. intros. apply rd_some. apply nth_error_nth'. auto. Qed.

Lemma rd_inv : forall A (b : list A) i x, rd b i = Ok x -> nth_error b i = Some x.
Proof. unfold rd; intros. destruct (nth_error b i); inversion H; auto. Qed.

Lemma rd_oob : forall A (b : list A) i, (length b <= i)%nat -> rd b i = Ub OobRead.
Proof. unfold rd; intros. destruct (nth_error b i) eqn:E; auto.
  assert (nth_error b i <> None) by congruence. apply nth_error_Some in H0. lia.
Qed.

Lemma rd_lt : forall A (b : list A) i x, rd b i = Ok x -> (i < length b)%nat.
Proof. intros. apply rd_inv in H. apply nth_error_Some. congruence. Qed.

Lemma rd_In : forall A (b : list A) i x, rd b i = Ok x -> In x b.
Proof. intros. apply rd_inv in H. eapply nth_error_In; eauto. Qed.

Lemma bytes_app : forall a b, bytes (a ++ b) <-> bytes a /\ bytes b.
Proof. intros; unfold bytes; apply Forall_app. Qed.

Lemma bytes_cons : forall a b, bytes (a :: b) <-> byte a /\ bytes b.
Proof. intros; unfold bytes; split; intro H; [inversion H; auto | constructor; tauto]. Qed.

Lemma firstn_app_le : forall A n (a b : list A), (n <= length a)%nat -> firstn n (a ++ b) = firstn n a.
Proof.
  intros. rewrite firstn_app. replace (n - length a)%nat with 0%nat by lia.
  simpl. apply app_nil_r.
Qed.

Lemma firstn_app_ge : forall A n (a b : list A), (length a <= n)%nat ->
  firstn n (a ++ b) = a ++ firstn (n - length a) b.
Proof. intros. rewrite firstn_app. rewrite firstn_all2 by lia. auto. Qed.

Lemma skipn_app_le : forall A n (a b : list A), (n <= length a)%nat ->
  skipn n (a ++ b) = skipn n a ++ b.
Proof. intros. rewrite skipn_app. replace (n - length a)%nat with 0%nat by lia. auto. Qed.

Lemma skipn_app_ge : forall A n (a b : list A), (length a <= n)%nat ->
  skipn n (a ++ b) = skipn (n - length a) b.
Proof. intros. rewrite skipn_app. rewrite skipn_all2 by lia. auto. Qed.

Lemma Forall_firstn : forall A (P : A -> Prop) n l, Forall P l -> Forall P (firstn n l).
Proof.
  induction n; intros; simpl; auto. destruct l; auto. inversion H; subst. constructor; auto.
Qed.

Lemma Forall_skipn : forall A (P : A -> Prop) n l, Forall P l -> Forall P (skipn n l).
Proof.
  induction n; intros; simpl; auto. destruct l; auto. inversion H; subst. auto.
Qed.

Lemma ok2 : forall A B (a a' : A) (b b' : B), a = a' -> b = b' -> Ok (a, b) = Ok (a', b').
Proof. congruence. Qed.
Lemma ok3 : forall A B C (a a' : A) (b b' : B) (c c' : C),
  a = a' -> b = b' -> c = c' -> Ok (a, b, c) = Ok (a', b', c').
Proof. congruence. Qed.

Lemma skipn_skipn : forall A x y (l : list A), skipn x (skipn y l) = skipn (x + y) l.
Proof.
  induction y; intros; simpl.
  - now rewrite Nat.add_0_r.
  - rewrite Nat.add_succ_r. destruct l; simpl; [now rewrite skipn_nil|auto].
Qed.

Lemma ok4 : forall A B C D (a a' : A) (b b' : B) (c c' : C) (d d' : D),
  a = a' -> b = b' -> c = c' -> d = d' -> Ok (a, b, c, d) = Ok (a', b', c', d').
Proof. congruence. Qed.
Lemma ok5 : forall A B C D E (a a' : A) (b b' : B) (c c' : C) (d d' : D) (e e' : E),
  a = a' -> b = b' -> c = c' -> d = d' -> e = e' -> Ok (a, b, c, d, e) = Ok (a', b', c', d', e').
Proof. congruence. Qed.

Lemma map_repeat : forall A B (f : A -> B) x n, map f (repeat x n) = repeat (f x) n.
Proof. induction n; cbn; congruence. Qed.

Lemma Forall2_len : forall (A B : Type) (R : A -> B -> Prop) l l',
  Forall2 R l l' -> length l = length l'.
Proof. induction 1; cbn [length]; congruence. Qed.
