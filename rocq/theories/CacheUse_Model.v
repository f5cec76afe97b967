(** Model of the rest of coda/cache.hpp and coda/cache.tcc: the pointer that [get] returns,
    values that are passed to [set] by reference, the copy constructor, assignment and
    destructor that the compiler makes, and the text of [dbg]. *)

From Coq Require Import ZArith List Bool.
From Verif Require Import Base Cache_Model Log_Model.
Import ListNotations.
Local Open Scope Z_scope.

Section Use.
  Variables K V : Type.
  Variable eqb : K -> K -> bool.

  (** cache.tcc:4-22 [get(key)]: the pointer itself.  The value is a member of its node, so
      the address of the node stands for it *)
  Definition get_ptr (c : cache K V) (k : K) (now : Z) : res (option nat * cache K V) :=
    match find K eqb k (idx K V c) with                                    (* 6 *)
    | None => Ok (None, c)                                                 (* 21 *)
    | Some a =>
      n <- node_at K V (heap K V c) (Some a) ;;
      if negb (time_max K V c =? 0) && (szt (n_time K V n + time_max K V c) <? szt now) then
        '(_, c) <- erase_it K V eqb c (Some a) ;; Ok (None, c)             (* 12-13 *)
      else Ok (Some a, c)                                                  (* 17 *)
    end.
  (** the user's [*p] for a pointer that [get] (cache.tcc:17) returned *)
  Definition deref (c : cache K V) (p : nat) : res V :=
    n <- node_at K V (heap K V c) (Some p) ;;
    match n_elem K V n with Some v => Ok v | None => Ub Uninit end.

  (** cache.tcc:42-121 [set] with a value that is a reference into the cache, as in
      c.set(k, *c.get(k2), ...): it is read where it is assigned, 60, 90 or 116 *)
  Definition set_ref (c : cache K V) (k : K) (p : nat) (sz : Z) (upd : bool) (now : Z) : res (cache K V) :=
    match find K eqb k (idx K V c) with
    | Some a =>
      c <- move_back K V c a ;;                                            (* 51-87 *)
      v <- deref c p ;;                                                    (* 60, 90 *)
      refill K V c a v sz now upd                                          (* 59-67, 89-97 *)
    | None =>
      c' <- link_new K V c k now ;;                                        (* 47, 102-114 *)
      v <- deref c' p ;;                                                   (* 116 *)
      c' <- fill_new K V c' (fresh K V c) v sz ;;                          (* 116-118 *)
      drop_last_unused K V eqb c'                                          (* 120 *)
    end.

  (** the copy constructor of unordered_map: every node is copied, links included;
      cache.hpp:18-20, 22-38, 40-46 (not written out: made by the compiler) *)
  Fixpoint copy_nodes (i : list (K * nat)) (h : nat -> option (node K V)) (f : nat)
    : res (list (K * nat) * (nat -> option (node K V)) * nat) :=
    match i with
    | [] => Ok ([], h, f)
    | (k, a) :: i =>
      n <- node_at K V h (Some a) ;;
      '(i, h, f') <- copy_nodes i (hset K V h f (Some n)) (S f) ;;
      Ok ((k, f) :: i, h, f')
    end.
  (** the copy constructor of coda_cache: member by member; cache.hpp:40-46 (made by the
      compiler).  The heap of the result is that of both caches from now on *)
  Definition copy (c : cache K V) : res (cache K V) :=
    '(i, h, f) <- copy_nodes (idx K V c) (heap K V c) (fresh K V c) ;;
    Ok (mkCache K V i h f (begp K V c) (endp K V c) (size_cur K V c) (size_max K V c) (time_max K V c)).
  (** Not in the code: the cache [c] after something happened to the common heap in [c']. *)
  Definition share (c c' : cache K V) : cache K V :=
    mkCache K V (idx K V c) (heap K V c') (fresh K V c') (begp K V c) (endp K V c) (size_cur K V c)
      (size_max K V c) (time_max K V c).
  (** the destructor: the nodes of the map are freed; cache.hpp:40 (made by the compiler) *)
  Definition destroy (c : cache K V) : cache K V :=
    mkCache K V [] (fold_left (fun h x => hset K V h (snd x) None) (idx K V c) (heap K V c)) (fresh K V c)
      None None 0 (size_max K V c) (time_max K V c).
  (** assignment c1 = c2, two objects: the nodes of c1 are freed and those of c2 copied;
      cache.hpp:40-46 (made by the compiler).  Nodes are not reused in this model *)
  Definition assign (c1 c2 : cache K V) : res (cache K V) := copy (share c2 (destroy c1)).

  (** cache.tcc:185-212 [dbg].  [show] and [ptr]: what operator<< prints for a key and for a
      pointer; [out]: the text of [res] before *)
  Section Dbg.
    Variable show : K -> list Z.
    Variable ptr : option nat -> list Z.
    (** cache.tcc:202-208, a line *)
    Definition dbg_line (n : node K V) : list Z :=
      show (n_key K V n) ++ [9] ++ fmt_lu (n_size K V n) ++ [9] ++ ptr (n_prev K V n) ++ [45] ++ ptr (n_next K V n)
        ++ [9] ++ fmt_lu (n_time K V n) ++ [10].
    (** cache.tcc:190-194, the head *)
    Definition dbg_head (c : cache K V) (now : Z) : list Z :=
      zs "nelt_cur=" ++ fmt_lu (Z.of_nat (length (idx K V c))) ++ [10] ++
      zs "size_cur=" ++ fmt_lu (size_cur K V c) ++ [10] ++
      zs "size_max=" ++ fmt_lu (size_max K V c) ++ [10] ++
      zs "time_max=" ++ fmt_lu (szt (now - time_max K V c)) ++ [10] ++ [10].
    (** cache.tcc:185-212 *)
    Definition dbg_text (out : list Z) (c : cache K V) (flag now : Z) : res (list Z) :=
      let out := out ++ dbg_head c now in
      if flag =? 0 then Ok out                                             (* 196 *)
      else ns <- dbg K V c ;; Ok (out ++ concat (map dbg_line ns)).        (* 198-211 *)
  End Dbg.
End Use.
