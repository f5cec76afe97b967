(** What a user of the string storage may expect: a history of calls, and the vocabulary
    the properties of the storage are stated in.  Nothing here refers to the tree. *)

From Coq Require Import ZArith List Bool.
From Verif Require Import Base SStore_Model.
Import ListNotations.
Local Open Scope nat_scope.

(** A key is a C string: bytes other than zero; [cstr] adds the terminator. *)
Definition key (k : list Z) : Prop := Forall (fun c => 0 < c < 256)%Z k.
Definition cstr (k : list Z) : list Z := k ++ [0%Z].

(** A history: add a key, or store bytes through the pointer that the i-th add returned. *)
Inductive op := OAdd (k : list Z) | OWrite (i : nat) (d : list Z).

(** The log of the adds: the key and the pointer returned. *)
Definition log := list (list Z * option ptr).

Definition exec_op (st : storage * log) (o : op) : res (storage * log) :=
  let (ss, lg) := st in
  match o with
  | OAdd k => '(ss, p) <- add ss (cstr k) ;; Ok (ss, lg ++ [(k, p)])
  | OWrite i d =>
      match nth_error lg i with
      | Some (_, Some p) => ss <- user_write ss p d ;; Ok (ss, lg)
      | _ => Ok (ss, lg)
      end
  end.
Fixpoint exec (st : storage * log) (ops : list op) : res (storage * log) :=
  match ops with
  | [] => Ok st
  | o :: ops => st <- exec_op st o ;; exec st ops
  end.
Definition play (uds : nat) (ops : list op) : res (storage * log) := exec (init uds, []) ops.

Fixpoint keys_of (ops : list op) : list (list Z) :=
  match ops with
  | [] => []
  | OAdd k :: ops => k :: keys_of ops
  | OWrite _ _ :: ops => keys_of ops
  end.
(** user data stays inside the user data *)
Definition writes_fit (uds : nat) (ops : list op) : Prop :=
  forall i d, In (OWrite i d) ops -> length d <= uds.

(** What the user data at [p] should be after [ops]: zeros, overwritten by the writes
    through pointers equal to [p]; [n] adds happened before. *)
Fixpoint view (ops : list op) (n : nat) (lg : log) (p : ptr) (d0 : list Z) : list Z :=
  match ops with
  | [] => d0
  | OAdd _ :: ops => view ops (S n) lg p d0
  | OWrite i d :: ops =>
      match nth_error lg i with
      | Some (_, Some q) =>
          if (i <? n) && ((fst q =? fst p) && (snd q =? snd p))
          then view ops n lg p (d ++ skipn (length d) d0)
          else view ops n lg p d0
      | _ => view ops n lg p d0
      end
  end.

(** the [n] bytes at [p] *)
Definition bytes_at (ss : storage) (p : ptr) (n : nat) : option (list Z) :=
  match nth_error (s_blocks (fst ss)) (fst p) with
  | Some b => if snd p + n <=? length b then Some (firstn n (skipn (snd p) b)) else None
  | None => None
  end.

(** length of the longest common prefix *)
Fixpoint lcp (a b : list Z) : nat :=
  match a, b with
  | x :: a, y :: b => if (x =? y)%Z then S (lcp a b) else 0
  | _, _ => 0
  end.

(** A set of keys is shallow when two keys that share more than 8 bytes with a third do
    not share more than 8 bytes again after their common prefixes with the third, and no
    two share 256 bytes or more. *)
Definition shallow (S : list Z -> Prop) : Prop :=
  (forall c x, S c -> S x -> c <> x -> lcp c x < 256) /\
  (forall c x y, S c -> S x -> S y -> x <> y -> x <> c -> y <> c ->
     8 < lcp c x -> 8 < lcp c y ->
     lcp (skipn (lcp c x) x) (skipn (lcp c y) y) <= 8).

(** a key in the 256-byte buffer the enumeration callback gets: its first 255 bytes and zeros *)
Definition padded (k : list Z) : list Z := firstn 255 k ++ repeat 0%Z (256 - length (firstn 255 k)).

(** Two slots returned to the user overlap when their user data, with the byte before it
    and the terminator after it, do. *)
Definition slot_inside (uds : nat) (p : ptr) : Prop := 1 <= snd p /\ snd p + uds + 1 <= 4096.
Definition slots_apart (uds : nat) (p q : ptr) : Prop :=
  fst p <> fst q \/ snd p + uds + 2 <= snd q \/ snd q + uds + 2 <= snd p.

(** the room in an array that got [n] elements one by one *)
Fixpoint room (n : nat) : nat := match n with O => 0 | S m => grow (room m) m end.
