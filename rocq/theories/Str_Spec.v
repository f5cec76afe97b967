(** Specifications for the string functions: first/last position with a property,
    substring occurrence, maximal prefix/suffix, decimal value. *)

From Coq Require Import ZArith List Bool.
From Verif Require Import Base.
Import ListNotations.
Local Open Scope Z_scope.

(** ASCII case folding, stated as an equivalence of characters. *)
Definition eq_case (a b : Z) : Prop :=
  a = b \/ (65 <= a <= 90 /\ b = a + 32) \/ (65 <= b <= 90 /\ a = b + 32).

(** The contents of a C string: no NUL byte inside. *)
Definition nonul (l : list Z) : Prop := Forall (fun c => c <> 0) l.

(** [i] is the first / last position of [l] satisfying [P]. *)
Definition first_at (P : Z -> Prop) (l : list Z) (i : nat) : Prop :=
  (exists x, nth_error l i = Some x /\ P x) /\
  forall j y, (j < i)%nat -> nth_error l j = Some y -> ~ P y.
Definition last_at (P : Z -> Prop) (l : list Z) (i : nat) : Prop :=
  (exists x, nth_error l i = Some x /\ P x) /\
  forall j y, (i < j)%nat -> nth_error l j = Some y -> ~ P y.
Definition nowhere (P : Z -> Prop) (l : list Z) : Prop := forall x, In x l -> ~ P x.

(** The needle [n] occurs at position [i] of [l], comparing characters with [R]. *)
Definition occurs_at (R : Z -> Z -> Prop) (n l : list Z) (i : nat) : Prop :=
  exists pre mid post, l = pre ++ mid ++ post /\ length pre = i /\ Forall2 R mid n.
Definition first_occurrence (R : Z -> Z -> Prop) (n l : list Z) (i : nat) : Prop :=
  occurs_at R n l i /\ forall j, (j < i)%nat -> ~ occurs_at R n l j.
Definition no_occurrence (R : Z -> Z -> Prop) (n l : list Z) : Prop :=
  forall j, ~ occurs_at R n l j.

(** [k] is the length of the longest prefix / suffix of [l] whose elements satisfy [P]. *)
Definition longest_prefix (P : Z -> Prop) (l : list Z) (k : nat) : Prop :=
  (k <= length l)%nat /\ Forall P (firstn k l) /\
  (forall x, nth_error l k = Some x -> ~ P x).
Definition longest_suffix (P : Z -> Prop) (l : list Z) (k : nat) : Prop :=
  longest_prefix P (rev l) k.

(** Decimal notation. *)
Definition digit (c : Z) : Prop := 48 <= c <= 57.
Fixpoint decimal (l : list Z) : Z :=
  match l with [] => 0 | c :: t => (c - 48) * 10 ^ Z.of_nat (length t) + decimal t end.
