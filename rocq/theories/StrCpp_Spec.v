(** Specifications for string.cpp / easy_parsing.cpp. *)

From Coq Require Import ZArith List Bool.
From Verif Require Import Base Str_Spec.
Import ListNotations.
Local Open Scope Z_scope.

(** [splits D s ps]: the pieces [ps], interleaved with single characters satisfying
    [D], give [s], and no piece contains such a character. *)
Inductive splits (D : Z -> Prop) : list Z -> list (list Z) -> Prop :=
| splits_last : forall s, Forall (fun c => ~ D c) s -> splits D s [s]
| splits_more : forall a d s ps,
    Forall (fun c => ~ D c) a -> D d -> splits D s ps -> splits D (a ++ d :: s) (a :: ps).

Definition nonempty (l : list Z) : bool := match l with [] => false | _ => true end.

(** The unsigned number at the start of a field, as scanf reads it: white space, an
    optional sign, digits.  Values are 64-bit, saturating; '-' negates modulo 2^64. *)
Definition space (c : Z) : Prop := c = 32 \/ 9 <= c <= 13.
Inductive reads_number : list Z -> Z -> Prop :=
| reads : forall ws sign ds rest,
    Forall space ws -> (sign = [] \/ sign = [43] \/ sign = [45]) ->
    ds <> [] -> Forall digit ds -> (forall c t, rest = c :: t -> ~ digit c) ->
    reads_number (ws ++ sign ++ ds ++ rest)
      (if 2 ^ 64 <=? decimal ds then 2 ^ 64 - 1
       else match sign with [45] => (- decimal ds) mod 2 ^ 64 | _ => decimal ds end).

(** Words: maximal runs of non-blank characters. *)
Definition is_blank (c : Z) : Prop := c = 32 \/ c = 9 \/ c = 10 \/ c = 13.
Inductive words : list Z -> list (list Z) -> Prop :=
| words_none : forall s, Forall is_blank s -> words s []
| words_one : forall bs w rest ws,
    Forall is_blank bs -> w <> [] -> Forall (fun c => ~ is_blank c) w ->
    (rest = [] \/ exists c t, rest = c :: t /\ is_blank c) ->
    words rest ws -> words (bs ++ w ++ rest) (w :: ws).
