(** Specification of the cache with exceptions: the entries in the order of their last
    [set], and the number of bytes that the cache has forgotten to count. *)

From Coq Require Import ZArith List Bool.
From Verif Require Import Cache_Model Cache_Spec CacheX_Model.
Import ListNotations.
Local Open Scope Z_scope.

Section Spec.
  Variables K V : Type.
  Notation entry := (entry K V).

  (** remove oldest entries while the counter, which is [debt] too small and has 64 bits, is
      above the limit; None: there is nothing left to remove *)
  Fixpoint sdrop (debt smax : Z) (s : list entry) : option (list entry) :=
    if (total K V s - debt) mod 2 ^ 64 <=? smax then Some s
    else match s with [] => None | _ :: s => sdrop debt smax s end.

  (** one call: the entries and the debt before, the call, its outcome, and the entries and
      the debt after; no outcome: the program crashes *)
  Inductive xsstep (smax tmax : Z) : list entry -> Z -> xop K V -> option (xout V * list entry * Z) -> Prop :=
  | xs_get : forall s d k now r s', sget K V tmax s k now r s' ->
      xsstep smax tmax s d (XOp K V (OGet K V k now)) (Some (XRet V (RGet V r), s', d))
  | xs_erase : forall s d k b s', serase K V s k b s' ->
      xsstep smax tmax s d (XOp K V (OErase K V k)) (Some (XRet V (RErase V b), s', d))
  | xs_set_again : forall a e b d v sz (upd : bool) now,
      xsstep smax tmax (a ++ e :: b) d (XOp K V (OSet K V (e_key K V e) v sz upd now))
        (Some (XRet V (RSet V), a ++ b ++ [mkEntry K V (e_key K V e) v sz (if upd then now else e_time K V e)], d))
  | xs_set_new : forall s d k v sz upd now, absent K V k s ->
      xsstep smax tmax s d (XOp K V (OSet K V k v sz upd now))
        (match sdrop d smax (s ++ [mkEntry K V k v sz now]) with
         | Some s' => Some (XRet V (RSet V), s', d) | None => None end)
  | xs_nomem : forall s d k, xsstep smax tmax s d (XSetNoMem K V k) (Some (XThrown V, s, d))
  | xs_throw_again : forall a e b d v' now,
      xsstep smax tmax (a ++ e :: b) d (XSetThrow K V (e_key K V e) v' now)
        (Some (XThrown V, a ++ b ++ [mkEntry K V (e_key K V e) v' (e_size K V e) (e_time K V e)], d + e_size K V e))
  | xs_throw_new : forall s d k v' now, absent K V k s ->
      xsstep smax tmax s d (XSetThrow K V k v' now) (Some (XThrown V, s ++ [mkEntry K V k v' 0 now], d))
  | xs_get_throw : forall s d k now r s', sget K V tmax s k now r s' ->
      xsstep smax tmax s d (XGetThrow K V k now)
        (Some (match r with Some _ => XThrown V | None => XRet V (RGet V None) end, s', d)).

  Inductive xsrun (smax tmax : Z) : list entry -> Z -> list (xop K V) -> list (xout V) -> list entry -> Z -> Prop :=
  | xsrun_nil : forall s d, xsrun smax tmax s d [] [] s d
  | xsrun_cons : forall s d o r s1 d1 os rs s2 d2, xsstep smax tmax s d o (Some (r, s1, d1)) ->
      xsrun smax tmax s1 d1 os rs s2 d2 -> xsrun smax tmax s d (o :: os) (r :: rs) s2 d2.

  (** the clock readings and sizes are in range *)
  Definition xop_ok (o : xop K V) : Prop :=
    match o with
    | XOp _ _ o => op_ok K V o
    | XSetNoMem _ _ _ => True
    | XSetThrow _ _ _ _ now | XGetThrow _ _ _ now => 0 <= now < 2 ^ 63
    end.
  (** the sum of the sizes of all sets that succeed *)
  Fixpoint xsizes (os : list (xop K V)) : Z :=
    match os with
    | [] => 0
    | XOp _ _ (OSet _ _ _ _ sz _ _) :: os => sz + xsizes os
    | _ :: os => xsizes os
    end.
End Spec.
