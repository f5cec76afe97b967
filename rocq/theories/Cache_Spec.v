(** Specification of the cache: the entries in the order of their last [set]. *)

From Coq Require Import ZArith List Bool.
From Verif Require Import Cache_Model.
Import ListNotations.
Local Open Scope Z_scope.

Section Spec.
  Variables K V : Type.

  Record entry := mkEntry { e_key : K; e_val : V; e_size : Z; e_time : Z }.

  Definition total (s : list entry) : Z := fold_right (fun e t => e_size e + t) 0 s.
  Definition absent (k : K) (s : list entry) : Prop := forall e, In e s -> e_key e <> k.
  (** expired at [now]; a limit of 0 means never *)
  Definition expired (tmax now : Z) (e : entry) : Prop := tmax <> 0 /\ e_time e + tmax < now.

  (** remove the fewest oldest entries such that the total is at most smax *)
  Definition evict (smax : Z) (s s' : list entry) : Prop :=
    exists n, s' = skipn n s /\ total s' <= smax /\
      forall m, (m < n)%nat -> total (skipn m s) > smax.

  Inductive sget (tmax : Z) : list entry -> K -> Z -> option V -> list entry -> Prop :=
  | sget_none : forall s k now, absent k s -> sget tmax s k now None s
  | sget_some : forall a e b now, ~ expired tmax now e ->
      sget tmax (a ++ e :: b) (e_key e) now (Some (e_val e)) (a ++ e :: b)
  | sget_old : forall a e b now, expired tmax now e ->
      sget tmax (a ++ e :: b) (e_key e) now None (a ++ b).

  Inductive sset (smax : Z) : list entry -> K -> V -> Z -> bool -> Z -> list entry -> Prop :=
  | sset_new : forall s k v sz upd now s', absent k s ->
      evict smax (s ++ [mkEntry k v sz now]) s' -> sset smax s k v sz upd now s'
  | sset_again : forall a e b v sz (upd : bool) now,
      sset smax (a ++ e :: b) (e_key e) v sz upd now
           (a ++ b ++ [mkEntry (e_key e) v sz (if upd then now else e_time e)]).

  Inductive serase : list entry -> K -> bool -> list entry -> Prop :=
  | serase_no : forall s k, absent k s -> serase s k false s
  | serase_yes : forall a e b, serase (a ++ e :: b) (e_key e) true (a ++ b).

  (** one call and a sequence of calls *)
  Inductive sstep (smax tmax : Z) : list entry -> op K V -> out V -> list entry -> Prop :=
  | sstep_get : forall s k now r s', sget tmax s k now r s' ->
      sstep smax tmax s (OGet K V k now) (RGet V r) s'
  | sstep_set : forall s k v sz upd now s', sset smax s k v sz upd now s' ->
      sstep smax tmax s (OSet K V k v sz upd now) (RSet V) s'
  | sstep_erase : forall s k b s', serase s k b s' ->
      sstep smax tmax s (OErase K V k) (RErase V b) s'.
  Inductive srun (smax tmax : Z) : list entry -> list (op K V) -> list (out V) -> list entry -> Prop :=
  | srun_nil : forall s, srun smax tmax s [] [] s
  | srun_cons : forall s o r s1 os rs s2, sstep smax tmax s o r s1 -> srun smax tmax s1 os rs s2 ->
      srun smax tmax s (o :: os) (r :: rs) s2.

  (** the clock readings and sizes are in range *)
  Definition op_ok (o : op K V) : Prop :=
    match o with
    | OGet _ _ _ now => 0 <= now < 2 ^ 63
    | OSet _ _ _ _ sz _ now => 0 <= sz /\ 0 <= now < 2 ^ 63
    | OErase _ _ _ => True
    end.
  (** before every [set] of the history, the new value fits in the size counter *)
  Definition fits (smax tmax : Z) (s : list entry) (os : list (op K V)) : Prop :=
    forall os1 k v sz upd now os2 rs s', os = os1 ++ OSet K V k v sz upd now :: os2 ->
      srun smax tmax s os1 rs s' -> total s' + sz < 2 ^ 64.
  (** the sum of the sizes of all sets *)
  Fixpoint sizes (os : list (op K V)) : Z :=
    match os with
    | [] => 0
    | OSet _ _ _ _ sz _ _ :: os => sz + sizes os
    | _ :: os => sizes os
    end.
End Spec.
