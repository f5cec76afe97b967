(** Model of coda/cache.tcc when copying a key or a value throws, or memory runs out.

    What may throw: data.insert (cache.tcc:47), which then changes nothing; the assignment
    of the value (60, 90, 116); the copy to the caller in get (37).  After an exception in
    an assignment the value is some valid value [v'], an argument here (for std::string it
    is the old value, or for a new node the empty string).  Nothing else in these functions
    throws, and nothing catches the exception. *)

From Coq Require Import ZArith List Bool.
From Verif Require Import Base Cache_Model.
Import ListNotations.
Local Open Scope Z_scope.

Section CacheX.
  Variables K V : Type.
  Variable eqb : K -> K -> bool.

  (** [set] up to the assignment that throws; cache.tcc:47-60, 71-90, 102-116 *)
  Definition set_throw (c : cache K V) (k : K) (v' : V) (now : Z) : res (cache K V) :=
    match find K eqb k (idx K V c) with
    | Some a =>
      c <- move_back K V c a ;;
      n <- node_at K V (heap K V c) (Some a) ;;
      let c := with_size K V c (size_cur K V c - n_size K V n) in         (* 59, 89 *)
      h <- node_upd K V (heap K V c) (Some a) (set_elem K V v') ;;        (* 60, 90 *)
      Ok (with_heap K V c h)
    | None =>
      c' <- link_new K V c k now ;;
      h <- node_upd K V (heap K V c') (Some (fresh K V c)) (set_elem K V v') ;;   (* 116 *)
      Ok (with_heap K V c' h)
    end.

  (** Not in the code: a call of a public function (cache.hpp:62-67) with the place where
      it throws, if it does. *)
  Inductive xop :=
  | XOp (o : op K V)                             (* does not throw *)
  | XSetNoMem (k : K)                            (* set, 47 throws *)
  | XSetThrow (k : K) (v' : V) (now : Z)         (* set, 60, 90 or 116 throws *)
  | XGetThrow (k : K) (now : Z).                 (* get(key, val), 37 throws if it is reached *)
  (** Not in the code: the outcome of a call. *)
  Inductive xout := XRet (r : out V) | XThrown.

  (** one call; cache.tcc:4-121, 155-159 *)
  Definition xcall (c : cache K V) (o : xop) : res (xout * cache K V) :=
    match o with
    | XOp o => '(r, c) <- step K V eqb c o ;; Ok (XRet r, c)
    | XSetNoMem _ => Ok (XThrown, c)
    | XSetThrow k v' now => c <- set_throw c k v' now ;; Ok (XThrown, c)
    | XGetThrow k now =>
      '(r, c) <- get K V eqb c k now ;;
      match r with Some _ => Ok (XThrown, c) | None => Ok (XRet (RGet V None), c) end
    end.
  (** Not in the code: a sequence of calls. *)
  Fixpoint xcalls (c : cache K V) (os : list xop) : res (list xout * cache K V) :=
    match os with
    | [] => Ok ([], c)
    | o :: os => '(r, c) <- xcall c o ;; '(rs, c) <- xcalls c os ;; Ok (r :: rs, c)
    end.
End CacheX.
