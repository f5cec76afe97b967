(** Loops of a user over the iterators of the shared hash map that change the map on the
    way.  coda/shm_hash_map.hpp:84-160 with coda/shm_hash_map.tcc:221-325. *)

From Coq Require Import ZArith List Bool.
From Verif Require Import Base Shm_Model Shm_Spec.
Import ListNotations.
Local Open Scope Z_scope.

Section Loops.
Variable P : tpar.
(** recursion bound of one insert or erase *)
Variable f : nat.

(** not in the code: the loop of a user over shm_hash_map.hpp:84-160 that moves the
    iterator on before it erases:
      while (it != end()) { k = it.key(); v = it.value(); ++it;
                            if (sel(k, v)) unprotected_erase(k); }
    with the list of what it saw *)
Fixpoint sweep_loop (sel : Z -> list Z -> bool) (n : nat) (it : iter) : prog fmap :=
  match n with
  | O => Spin
  | S n =>
      if it_neq it it_end then
        k <~ load 8 (a_key P (snd it)) ;;
        v <~ load_words (a_val P (snd it)) (words P) ;;
        it' <~ it_next P it ;;
        (if sel k v then erase P f k else Ret false) ;;;
        l <~ sweep_loop sel n it' ;;
        Ret ((k, v) :: l)
      else Ret []
  end.
(** not in the code: [sweep_loop] from begin(), shm_hash_map.hpp:143-155 *)
Definition sweep (sel : Z -> list Z -> bool) (n : nat) : prog fmap :=
  it <~ it_begin P ;; sweep_loop sel n it.

(** not in the code: the loop of a user over shm_hash_map.hpp:84-160 that erases the entry
    on which the iterator stands and then moves on:
      for (it = begin(); it != end(); ++it)
          if (sel(it.key(), it.value())) unprotected_erase(it.key()); *)
Fixpoint weed_loop (sel : Z -> list Z -> bool) (n : nat) (it : iter) : prog fmap :=
  match n with
  | O => Spin
  | S n =>
      if it_neq it it_end then
        k <~ load 8 (a_key P (snd it)) ;;
        v <~ load_words (a_val P (snd it)) (words P) ;;
        (if sel k v then erase P f k else Ret false) ;;;
        it' <~ it_next P it ;;
        l <~ weed_loop sel n it' ;;
        Ret ((k, v) :: l)
      else Ret []
  end.
(** not in the code: [weed_loop] from begin(), shm_hash_map.hpp:143-155 *)
Definition weed (sel : Z -> list Z -> bool) (n : nat) : prog fmap :=
  it <~ it_begin P ;; weed_loop sel n it.

(** not in the code: the loop of a user over shm_hash_map.hpp:84-160 that inserts into the
    map it walks over:
      for (it = begin(); it != end(); ++it)
          for (each (k, v) of body(it.key(), it.value())) unprotected_insert(k, v); *)
Fixpoint grow_loop (body : Z -> list Z -> fmap) (n : nat) (it : iter) : prog fmap :=
  match n with
  | O => Spin
  | S n =>
      if it_neq it it_end then
        k <~ load 8 (a_key P (snd it)) ;;
        v <~ load_words (a_val P (snd it)) (words P) ;;
        insert_many P f (body k v) ;;;
        it' <~ it_next P it ;;
        l <~ grow_loop body n it' ;;
        Ret ((k, v) :: l)
      else Ret []
  end.
(** not in the code: [grow_loop] from begin(), shm_hash_map.hpp:143-155 *)
Definition grow (body : Z -> list Z -> fmap) (n : nat) : prog fmap :=
  it <~ it_begin P ;; grow_loop body n it.

End Loops.
