(** Model of coda/cache.hpp and coda/cache.tcc ([coda_cache]).

    The unordered_map is an index from keys to node addresses plus a heap of nodes;
    unordered_map nodes do not move, so a node keeps its address.  Addresses are never
    reused (a dangling pointer is then always detected).  Hashing and memory
    exhaustion are not modelled; [eqb] is the key equality.  The size of a value is
    what estimate_capacity returned for the object passed to [set]; it is an argument
    here.  [now] is the result of time(NULL) during the call.  size_t values are
    numbers modulo 2^64. *)

From Coq Require Import ZArith List Bool.
From Verif Require Import Base.
Import ListNotations.
Local Open Scope Z_scope.

(** size_t arithmetic, cache.hpp:28-29, 44-46 *)
Definition szt (z : Z) : Z := z mod 2 ^ 64.

Section Cache.
  Variables K V : Type.
  Variable eqb : K -> K -> bool.

  (** cache.hpp:22-38 [elem_t], and the key of the pair *)
  Record node := mkNode {
    n_key : K; n_elem : option V;    (* None: the value of a default constructed Val *)
    n_prev : option nat; n_next : option nat; n_size : Z; n_time : Z }.

  (** cache.hpp:40-46; [fresh] is the next address the allocator returns *)
  Record cache := mkCache {
    idx : list (K * nat); heap : nat -> option node; fresh : nat;
    begp : option nat; endp : option nat; size_cur : Z; size_max : Z; time_max : Z }.

  (** cache.hpp:51-58, the constructor *)
  Definition create (smax tmax : Z) : cache :=
    mkCache [] (fun _ => None) 0 None None 0 smax tmax.

  (** unordered_map::find; None = end(); cache.tcc:6, 27, 158 *)
  Fixpoint find (k : K) (i : list (K * nat)) : option nat :=
    match i with
    | [] => None
    | (k', a) :: i => if eqb k k' then Some a else find k i
    end.
  (** unordered_map::erase on the index, cache.tcc:150, 181 *)
  Fixpoint unindex (k : K) (i : list (K * nat)) : list (K * nat) :=
    match i with
    | [] => []
    | (k', a) :: i => if eqb k k' then unindex k i else (k', a) :: unindex k i
    end.

  (** [p->...] for a possibly null pointer p; e.g. cache.tcc:86, 106, 169 *)
  Definition node_at (h : nat -> option node) (p : option nat) : res node :=
    match p with
    | None => Ub NullDeref
    | Some a => match h a with None => Ub UseAfterFree | Some n => Ok n end
    end.
  (** Not in the code: a store to the heap. *)
  Definition hset (h : nat -> option node) (a : nat) (n : option node) : nat -> option node :=
    fun b => if (b =? a)%nat then n else h b.
  (** [p->second... = ...], cache.tcc:55, 74, 86, 106, 133, 142, 173 *)
  Definition node_upd (h : nat -> option node) (p : option nat) (f : node -> node)
    : res (nat -> option node) :=
    n <- node_at h p ;;
    match p with Some a => Ok (hset h a (Some (f n))) | None => Ub NullDeref end.
  (** cache.tcc:55, 82, 102, 133, 173 *)
  Definition set_prev (q : option nat) (n : node) : node :=
    mkNode (n_key n) (n_elem n) q (n_next n) (n_size n) (n_time n).
  (** cache.tcc:74, 81, 86, 106, 142 *)
  Definition set_next (q : option nat) (n : node) : node :=
    mkNode (n_key n) (n_elem n) (n_prev n) q (n_size n) (n_time n).
  (** cache.tcc:60, 90, 116 *)
  Definition set_elem (v : V) (n : node) : node :=
    mkNode (n_key n) (Some v) (n_prev n) (n_next n) (n_size n) (n_time n).
  (** cache.tcc:61, 91, 117 *)
  Definition set_size (s : Z) (n : node) : node :=
    mkNode (n_key n) (n_elem n) (n_prev n) (n_next n) s (n_time n).
  (** cache.tcc:66, 96 *)
  Definition set_time (t : Z) (n : node) : node :=
    mkNode (n_key n) (n_elem n) (n_prev n) (n_next n) (n_size n) t.

  (** Not in the code: the cache with another heap. *)
  Definition with_heap (c : cache) (h : nat -> option node) : cache :=
    mkCache (idx c) h (fresh c) (begp c) (endp c) (size_cur c) (size_max c) (time_max c).
  (** assignments to begp, cache.tcc:78, 113, 146, 169 *)
  Definition with_begp (c : cache) (p : option nat) : cache :=
    mkCache (idx c) (heap c) (fresh c) p (endp c) (size_cur c) (size_max c) (time_max c).
  (** assignments to endp, cache.tcc:87, 109, 137, 177 *)
  Definition with_endp (c : cache) (p : option nat) : cache :=
    mkCache (idx c) (heap c) (fresh c) (begp c) p (size_cur c) (size_max c) (time_max c).
  (** assignments to size_cur (size_t), cache.tcc:59, 62, 89, 92, 118, 149, 180 *)
  Definition with_size (c : cache) (s : Z) : cache :=
    mkCache (idx c) (heap c) (fresh c) (begp c) (endp c) (szt s) (size_max c) (time_max c).

  (** data.erase of the node [a]; cache.tcc:150, 181 *)
  Definition data_erase (c : cache) (a : nat) : res cache :=
    n <- node_at (heap c) (Some a) ;;
    Ok (mkCache (unindex (n_key n) (idx c)) (hset (heap c) a None) (fresh c)
          (begp c) (endp c) (size_cur c) (size_max c) (time_max c)).

  (** cache.tcc:123-153
      [erase(iterator)]; [None] is data.end() *)
  Definition erase_it (c : cache) (it : option nat) : res (bool * cache) :=
    match it with
    | None => Ok (false, c)
    | Some a =>
      n <- node_at (heap c) it ;;
      c <- (match n_next n with
            | Some _ => h <- node_upd (heap c) (n_next n) (set_prev (n_prev n)) ;; Ok (with_heap c h)
            | None => Ok (with_endp c (n_prev n))
            end) ;;
      n <- node_at (heap c) it ;;
      c <- (match n_prev n with
            | Some _ => h <- node_upd (heap c) (n_prev n) (set_next (n_next n)) ;; Ok (with_heap c h)
            | None => Ok (with_begp c (n_next n))
            end) ;;
      n <- node_at (heap c) it ;;
      let c := with_size c (size_cur c - n_size n) in
      c <- data_erase c a ;;
      Ok (true, c)
    end.

  (** cache.tcc:155-159 [erase(const Key &)] *)
  Definition erase (c : cache) (k : K) : res (bool * cache) := erase_it c (find k (idx c)).

  (** cache.tcc:4-22 [get(key)]: the returned pointer as the value it points to *)
  Definition get (c : cache) (k : K) (now : Z) : res (option V * cache) :=
    match find k (idx c) with
    | None => Ok (None, c)
    | Some a =>
      n <- node_at (heap c) (Some a) ;;
      if negb (time_max c =? 0) && (szt (n_time n + time_max c) <? szt now) then
        '(_, c) <- erase_it c (Some a) ;; Ok (None, c)
      else match n_elem n with
           | None => Ub Uninit
           | Some v => Ok (Some v, c)
           end
    end.

  (** cache.tcc:24-40 [get(key, val)]: the value of [val] afterwards *)
  Definition get_into (c : cache) (k : K) (val : V) (now : Z) : res (V * cache) :=
    match find k (idx c) with
    | None => Ok (val, c)
    | Some a =>
      n <- node_at (heap c) (Some a) ;;
      if negb (time_max c =? 0) && (szt (n_time n + time_max c) <? szt now) then
        '(_, c) <- erase_it c (Some a) ;; Ok (val, c)
      else match n_elem n with
           | None => Ub Uninit
           | Some v => Ok (v, c)
           end
    end.

  (** cache.tcc:168-181, one round of the loop of [drop_last_unused] *)
  Definition drop_one (c : cache) : res cache :=
    let begp_old := begp c in
    n <- node_at (heap c) (begp c) ;;
    let c := with_begp c (n_next n) in
    c <- (match begp c with
          | Some _ => h <- node_upd (heap c) (begp c) (set_prev None) ;; Ok (with_heap c h)
          | None => Ok (with_endp c (begp c))
          end) ;;
    n <- node_at (heap c) begp_old ;;
    let c := with_size c (size_cur c - n_size n) in
    match begp_old with
    | Some a => data_erase c a
    | None => Ub NullDeref
    end.
  (** cache.tcc:166-182, the loop of [drop_last_unused]; fuel: one round per entry *)
  Fixpoint drop_loop (fuel : nat) (c : cache) : res cache :=
    if negb (size_max c <? size_cur c) then Ok c else
    match fuel with
    | O => Fuel
    | S fuel => c <- drop_one c ;; drop_loop fuel c
    end.
  (** cache.tcc:161-183 [drop_last_unused] *)
  Definition drop_last_unused (c : cache) : res cache :=
    match begp c with
    | None => Ok c
    | Some _ => drop_loop (S (length (idx c))) c
    end.

  (** cache.tcc:59-67 and 89-97: replace the value, the size and maybe the time *)
  Definition refill (c : cache) (a : nat) (v : V) (sz now : Z) (upd : bool) : res cache :=
    n <- node_at (heap c) (Some a) ;;
    let c := with_size c (size_cur c - n_size n) in
    h <- node_upd (heap c) (Some a) (set_elem v) ;;
    h <- node_upd h (Some a) (set_size sz) ;;
    let c := with_heap c h in
    n <- node_at (heap c) (Some a) ;;
    let c := with_size c (size_cur c + n_size n) in
    if upd then h <- node_upd (heap c) (Some a) (set_time now) ;; Ok (with_heap c h)
    else Ok c.

  (** cache.tcc:51-87: the node moves to the end of the list, unless it is there *)
  Definition move_back (c : cache) (a : nat) : res cache :=
    n <- node_at (heap c) (Some a) ;;
    match n_next n with
    | None => Ok c                                          (* 57 *)
    | Some _ =>
      h <- node_upd (heap c) (n_next n) (set_prev (n_prev n)) ;;    (* 55 *)
      let c := with_heap c h in
      n <- node_at (heap c) (Some a) ;;
      c <- (match n_prev n with
            | Some _ => h <- node_upd (heap c) (n_prev n) (set_next (n_next n)) ;;
                        Ok (with_heap c h)                  (* 74 *)
            | None => Ok (with_begp c (n_next n))           (* 78 *)
            end) ;;
      h <- node_upd (heap c) (Some a) (set_next None) ;;    (* 81 *)
      h <- node_upd h (Some a) (set_prev (endp c)) ;;       (* 82 *)
      h <- node_upd h (endp c) (set_next (Some a)) ;;       (* 86 *)
      Ok (with_endp (with_heap c h) (Some a))               (* 87 *)
    end.
  (** cache.tcc:47, 102-114: a new node at the end of the list *)
  Definition link_new (c : cache) (k : K) (now : Z) : res cache :=
    let a := fresh c in
    let c := mkCache ((k, a) :: idx c)
               (hset (heap c) a (Some (mkNode k None None None 0 now)))
               (S a) (begp c) (endp c) (size_cur c) (size_max c) (time_max c) in
    h <- node_upd (heap c) (Some a) (set_prev (endp c)) ;;          (* 102 *)
    h <- (match endp c with
          | Some _ => node_upd h (endp c) (set_next (Some a))       (* 106 *)
          | None => Ok h
          end) ;;
    let c := with_endp (with_heap c h) (Some a) in                  (* 109 *)
    Ok (match begp c with None => with_begp c (endp c) | Some _ => c end).
  (** cache.tcc:116-118: its value and size *)
  Definition fill_new (c : cache) (a : nat) (v : V) (sz : Z) : res cache :=
    h <- node_upd (heap c) (Some a) (set_elem v) ;;                 (* 116 *)
    h <- node_upd h (Some a) (set_size sz) ;;                       (* 117 *)
    let c := with_heap c h in
    n <- node_at (heap c) (Some a) ;;
    Ok (with_size c (size_cur c + n_size n)).                       (* 118 *)

  (** cache.tcc:42-121 [set] *)
  Definition set (c : cache) (k : K) (v : V) (sz : Z) (upd : bool) (now : Z) : res cache :=
    match find k (idx c) with
    | Some a =>                                             (* 49: res.second == false *)
      c <- move_back c a ;; refill c a v sz now upd         (* 51-97 *)
    | None =>
      c' <- link_new c k now ;; c' <- fill_new c' (fresh c) v sz ;; drop_last_unused c'
    end.

  (** the listing of [dbg] (cache.tcc:200-209): follow the next links from [begp];
      fuel: one step per entry *)
  Fixpoint walk (fuel : nat) (h : nat -> option node) (p : option nat) : res (list node) :=
    match p with
    | None => Ok []
    | Some _ =>
      match fuel with
      | O => Fuel
      | S fuel => n <- node_at h p ;; l <- walk fuel h (n_next n) ;; Ok (n :: l)
      end
    end.
  (** cache.tcc:185-212 [dbg], the entries only (not the header lines 190-194) *)
  Definition dbg (c : cache) : res (list node) := walk (length (idx c)) (heap c) (begp c).

  (** Not in the code: a call of a public function of cache.hpp:62-67 and its result. *)
  Inductive op :=
  | OGet (k : K) (now : Z) | OSet (k : K) (v : V) (sz : Z) (upd : bool) (now : Z)
  | OErase (k : K).
  (** Not in the code: the results of the calls. *)
  Inductive out := RGet (v : option V) | RSet | RErase (b : bool).

  (** Not in the code: run the calls one after the other. *)
  Definition step (c : cache) (o : op) : res (out * cache) :=
    match o with
    | OGet k now => '(v, c) <- get c k now ;; Ok (RGet v, c)
    | OSet k v sz upd now => c <- set c k v sz upd now ;; Ok (RSet, c)
    | OErase k => '(b, c) <- erase c k ;; Ok (RErase b, c)
    end.
  (** Not in the code: a sequence of calls. *)
  Fixpoint run (c : cache) (os : list op) : res (list out * cache) :=
    match os with
    | [] => Ok ([], c)
    | o :: os => '(r, c) <- step c o ;; '(rs, c) <- run c os ;; Ok (r :: rs, c)
    end.
End Cache.
