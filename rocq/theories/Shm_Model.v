(** Model of coda/shm_stack.tcc, coda/shm_pool.tcc and the unsynchronised part of
    coda/shm_hash_map.tcc / .hpp (the locks and connect are in ShmSys_Model).

    The code is written as programs of single loads and stores on one flat shared memory,
    so that the same program can be run alone ([run]), cut short by a crash ([psteps]) or
    interleaved with other processes (ShmSys_Model).

    The memory is the segment attached by shmat, addressed by byte offset from its start.
    [m a] is the value of the object (uint32_t or uint64_t) that starts at offset [a]; the
    code always accesses an offset with one and the same width.  Every access is checked
    for bounds and alignment (shmat returns a page aligned address).

    [_Type] is modelled as an array of [words] 32-bit words, copied word by word in order;
    sizeof(_Type) = 4 * words, alignment 4.  The object members that point into the
    segment are set by attach and are fixed afterwards, so a stack, pool or map handle is a
    record of offsets and the methods take an attached handle. *)

From Coq Require Import ZArith List Bool.
From Verif Require Import Base Shm_Spec.
Import ListNotations.
Local Open Scope Z_scope.

(** Not in the code: the segment. *)
Definition mem := Z -> Z.
(** Not in the code: a store. *)
Definition mset (m : mem) (a v : Z) : mem := fun b => if b =? a then v else m b.

(** a program: what the process does to the shared memory, and its result; not in the code *)
Inductive prog (A : Type) : Type :=
| Ret (a : A)
| Load (sz a : Z) (k : Z -> prog A)
| Store (sz a v : Z) (k : prog A)
| Stop (u : ub)
| Spin.                        (* recursion bound of the model reached *)
Arguments Ret {A} a.
Arguments Load {A} sz a k.
Arguments Store {A} sz a v k.
Arguments Stop {A} u.
Arguments Spin {A}.

(** Not in the code: sequencing. *)
Fixpoint pbind {A B} (p : prog A) (f : A -> prog B) : prog B :=
  match p with
  | Ret a => f a
  | Load sz a k => Load sz a (fun v => pbind (k v) f)
  | Store sz a v k => Store sz a v (pbind k f)
  | Stop u => Stop u
  | Spin => Spin
  end.

Declare Scope prog_scope.
Delimit Scope prog_scope with prog.
Notation "x <~ e ;; k" := (pbind e (fun x => k))
  (at level 61, e at next level, right associativity).
Notation "e ;;; k" := (pbind e (fun _ => k))
  (at level 61, right associativity).

(** Not in the code: one load of [sz] bytes. *)
Definition load (sz a : Z) : prog Z := Load sz a Ret.
(** Not in the code: one store of [sz] bytes. *)
Definition store (sz a v : Z) : prog unit := Store sz a v (Ret tt).

(** uint32_t arithmetic; e.g. shm_stack.tcc:64, 82, shm_pool.tcc:58 *)
Definition u32 (x : Z) : Z := x mod 2^32.
(** (uint32_t)(-1); shm_stack.tcc:30, shm_hash_map.tcc:62 *)
Definition nil32 : Z := u32 (-1).

(** an access of [sz] bytes at [a] in a segment of [lim] bytes; not in the code *)
Definition inb (lim sz a : Z) : bool := (0 <=? a) && (a + sz <=? lim) && (a mod sz =? 0).

(** the program alone; not in the code *)
Fixpoint run {A} (lim : Z) (p : prog A) (m : mem) : res (A * mem) :=
  match p with
  | Ret a => Ok (a, m)
  | Load sz a k => if inb lim sz a then run lim (k (m a)) m else Ub OobRead
  | Store sz a v k => if inb lim sz a then run lim k (mset m a v) else Ub OobWrite
  | Stop u => Ub u
  | Spin => Fuel
  end.

(** one load or store inside the segment; not in the code *)
Inductive pstep {A} (lim : Z) : prog A -> mem -> prog A -> mem -> Prop :=
| PLoad : forall sz a k m, inb lim sz a = true -> pstep lim (Load sz a k) m (k (m a)) m
| PStore : forall sz a v k m, inb lim sz a = true ->
    pstep lim (Store sz a v k) m k (mset m a v).

(** the program cut short at any point; not in the code *)
Inductive psteps {A} (lim : Z) : prog A -> mem -> prog A -> mem -> Prop :=
| PNil : forall p m, psteps lim p m p m
| PCons : forall p m p1 m1 p2 m2,
    psteps lim p m p1 m1 -> pstep lim p1 m1 p2 m2 -> psteps lim p m p2 m2.

(** copy of a _Type object out of / into the segment;
    copy construction of _Type, shm_stack.tcc:90, shm_hash_map.tcc:127 *)
Fixpoint load_words (a : Z) (n : nat) : prog (list Z) :=
  match n with
  | O => Ret []
  | S n => w <~ load 4 a ;; ws <~ load_words (a + 4) n ;; Ret (w :: ws)
  end.
(** assignment of _Type, shm_stack.tcc:82, shm_hash_map.tcc:233, 251 *)
Fixpoint store_words (a : Z) (ws : list Z) : prog unit :=
  match ws with
  | [] => Ret tt
  | w :: ws => store 4 a w ;;; store_words (a + 4) ws
  end.

(** ** shm::stack<_Type, _OBJECTS_NUM>, shm_stack.hpp:9-34 *)

(** shm_stack.hpp:13-17, plus the template parameters: [s_num] = _OBJECTS_NUM and
    [s_words] = sizeof(_Type) / 4 *)
Record stack := mkStack
  { s_num : Z; s_words : nat; s_res : Z; s_isz : Z; s_cur : Z; s_dat : Z }.

(** shm_stack.tcc:16-39.  The result is None when coda_error is thrown. *)
Definition stack_attach (num : Z) (words : nat) (header_begin block_begin : Z)
  : prog (option stack) :=
  let s := mkStack num words header_begin (header_begin + 4) (header_begin + 8) block_begin in
  let isz := 4 * Z.of_nat words in
  r <~ load 4 (s_res s) ;;                                    (* 25 *)
  z <~ load 4 (s_isz s) ;;                                    (* 25; loaded again in 31 *)
  if (r =? 0) && (z =? 0) then
    store 4 (s_res s) num ;;;                                 (* 28 *)
    store 4 (s_isz s) isz ;;;                                 (* 29 *)
    store 4 (s_cur s) nil32 ;;;                               (* 30 *)
    Ret (Some s)
  else if negb (r =? num) || negb (z =? isz) then Ret None    (* 32-36 *)
  else Ret (Some s).

(** shm_stack.tcc:49-53 *)
Definition stack_header_size : Z := 12.
(** shm_stack.tcc:55-59 *)
Definition stack_data_size (num : Z) (words : nat) : Z := 4 * Z.of_nat words * num.

(** shm_stack.tcc:61-65: the sum is computed in uint32_t *)
Definition stack_used (s : stack) : prog Z :=
  c <~ load 4 (s_cur s) ;; Ret (u32 (c + 1)).

(** shm_stack.tcc:67-71 *)
Definition stack_empty (s : stack) : prog bool :=
  n <~ stack_used s ;; Ret (n =? 0).

(** shm_stack.tcc:73-86 *)
Definition stack_push (s : stack) (el : list Z) : prog bool :=
  n <~ stack_used s ;;
  if s_num s <=? n then Ret false                             (* 76-79 *)
  else
    c <~ load 4 (s_cur s) ;;
    store 4 (s_cur s) (u32 (c + 1)) ;;;                       (* 82: ++( *current ) *)
    store_words (s_dat s + 4 * Z.of_nat (s_words s) * u32 (c + 1)) el ;;;
    Ret true.

(** shm_stack.tcc:87-91 *)
Definition stack_pop (s : stack) : prog (list Z) :=
  c <~ load 4 (s_cur s) ;;
  store 4 (s_cur s) (u32 (c - 1)) ;;;
  load_words (s_dat s + 4 * Z.of_nat (s_words s) * c) (s_words s).

(** shm_stack.tcc:93-97 *)
Definition stack_clear (s : stack) : prog unit := store 4 (s_cur s) nil32.

(** one call of the API on the attached stack [s]; [SAttach] attaches once more with the same
    arguments and says whether attach threw; shm_stack.hpp:20-33 *)
Definition stack_api (s : stack) (o : sop) : prog sret :=
  match o with
  | SPush el => b <~ stack_push s el ;; Ret (SBool b)
  | SPop => el <~ stack_pop s ;; Ret (SElem el)
  | SUsed => n <~ stack_used s ;; Ret (SNum n)
  | SEmpty => b <~ stack_empty s ;; Ret (SBool b)
  | SClear => stack_clear s ;;; Ret SDone
  | SAttach => h <~ stack_attach (s_num s) (s_words s) (s_res s) (s_dat s) ;;
               Ret (SBool (match h with Some _ => true | None => false end))
  end.

(** a sequence of calls and their results; not in the code *)
Fixpoint calls {O A} (lim : Z) (api : O -> prog A) (l : list O) (m : mem) : res (list A * mem) :=
  match l with
  | [] => Ok ([], m)
  | o :: l =>
      '(r, m1) <- run lim (api o) m ;;
      '(rs, m2) <- calls lim api l m1 ;;
      Ok (r :: rs, m2)
  end.

(** ** shm::pool<_Type, _OBJECTS_NUM>, shm_pool.hpp:11-36 *)

(** shm_pool.hpp:14-20; the node array itself is never accessed by the pool *)
Record pool := mkPool
  { p_num : Z; p_free : stack; p_res : Z; p_isz : Z; p_cur : Z; p_dat : Z }.

(** shm_pool.tcc:16-41; [isz] is sizeof(_Type) *)
Definition pool_attach (num isz header_begin stack_begin objects_begin : Z)
  : prog (option pool) :=
  let res := header_begin in
  let is := header_begin + 4 in
  let cur := header_begin + 8 in
  f <~ stack_attach num 1 (header_begin + 12) stack_begin ;;  (* 23 *)
  match f with
  | None => Ret None
  | Some f =>
      let p := mkPool num f res is cur objects_begin in
      r <~ load 4 res ;;                                      (* 27 *)
      z <~ load 4 is ;;
      if (r =? 0) && (z =? 0) then
        store 4 res num ;;;                                   (* 30 *)
        store 4 is isz ;;;                                    (* 31 *)
        store 4 cur 0 ;;;                                     (* 32 *)
        Ret (Some p)
      else if negb (r =? num) || negb (z =? isz) then Ret None (* 34-38 *)
      else Ret (Some p)
  end.

(** shm_pool.tcc:53-64 *)
Definition pool_allocate (p : pool) : prog Z :=
  e <~ stack_empty (p_free p) ;;                              (* 56 *)
  if (e : bool) then
    c <~ load 4 (p_cur p) ;;                                  (* 58 *)
    if p_num p <=? c then Ret nil32
    else store 4 (p_cur p) (u32 (c + 1)) ;;; Ret c
  else
    ws <~ stack_pop (p_free p) ;; Ret (hd 0 ws).              (* 62 *)

(** shm_pool.tcc:66-70 *)
Definition pool_free (p : pool) (elem : Z) : prog bool := stack_push (p_free p) [elem].

(** shm_pool.tcc:72-76 *)
Definition pool_header_size : Z := 12 + stack_header_size.
(** shm_pool.tcc:78-82 *)
Definition pool_stack_size (num : Z) : Z := stack_data_size num 1.
(** shm_pool.tcc:84-88 *)
Definition pool_data_size (num isz : Z) : Z := isz * num.

(** shm_pool.tcc:90-94: uint32_t minus size_t, in size_t *)
Definition pool_allocated (p : pool) : prog Z :=
  c <~ load 4 (p_cur p) ;;
  n <~ stack_used (p_free p) ;;
  Ret ((c - n) mod 2^64).

(** shm_pool.tcc:96-101 *)
Definition pool_clear (p : pool) : prog unit :=
  store 4 (p_cur p) 0 ;;; stack_clear (p_free p).

(** one call of the API on the attached pool [p] of objects of size [isz]; shm_pool.hpp:22-35 *)
Definition pool_api (p : pool) (isz : Z) (o : pop) : prog pret :=
  match o with
  | PAlloc => i <~ pool_allocate p ;; Ret (if i =? nil32 then PNone else PIdx i)
  | PFree i => b <~ pool_free p i ;; Ret (PBool b)
  | PCount => n <~ pool_allocated p ;; Ret (PNum n)
  | PClear => pool_clear p ;;; Ret PDone
  | PAttach => h <~ pool_attach (p_num p) isz (p_res p) (s_dat (p_free p)) (p_dat p) ;;
               Ret (PBool (match h with Some _ => true | None => false end))
  end.

(** ** shm::hash_map<_Type, _OBJECTS_NUM, _HASH_SIZE>, shm_hash_map.hpp:14-161 *)

(** the template parameters; shm_hash_map.hpp:14 *)
Record tpar := mkT { nobj : Z; hsize : Z; words : nat }.

Section Map.
Variable P : tpar.

(** sizeof(_Type) of shm_hash_map.tcc:57 *)
Definition wsz : Z := 4 * Z.of_nat (words P).       (* sizeof(_Type) *)

(** struct node, shm_hash_map.hpp:21-25 and 50-54: key at 0, value at 8, next behind the
    value and the tail padding of struct pair (aligned to 8), the whole padded to 8 *)
Definition o_val : Z := 8.
(** shm_hash_map.hpp:50-54, offset of next *)
Definition o_next : Z := (8 + wsz + 7) / 8 * 8.
(** shm_hash_map.hpp:50-54, sizeof(node) *)
Definition node_size : Z := o_next + 8.

(** shm_hash_map.tcc:6-9 *)
Definition floor1024 (param : Z) : Z := Z.land (u32 (u32 param + 1023)) (2^32 - 1024).

(** the pieces of the segment; attach, shm_hash_map.tcc:41-51 *)
Definition header_sz : Z := floor1024 (12 + pool_header_size).           (* 42, 95 *)
(** shm_hash_map.tcc:45, 96 *)
Definition stacks_sz : Z := floor1024 (pool_stack_size (nobj P)).        (* 45, 96 *)
(** shm_hash_map.tcc:50, 97 *)
Definition data_sz : Z := floor1024 (pool_data_size (nobj P) node_size). (* 50, 97 *)
(** shm_hash_map.tcc:41 *)
Definition a_pool : Z := 12.                                             (* 41 *)
(** shm_hash_map.tcc:44 *)
Definition a_stack : Z := header_sz.                                     (* 44 *)
(** shm_hash_map.tcc:47-48 *)
Definition a_objs : Z := header_sz + stacks_sz.                          (* 47-48 *)
(** shm_hash_map.tcc:51 *)
Definition a_hash : Z := header_sz + stacks_sz + data_sz.                (* 51 *)

(** shm_hash_map.tcc:92-100 *)
Definition required_space : Z := header_sz + stacks_sz + data_sz + 4 * hsize P.

(** objects[i].p.key, .p.value, .next; shm_hash_map.hpp:50-54, used in shm_hash_map.tcc:125 *)
Definition a_key (i : Z) : Z := a_objs + i * node_size.
(** shm_hash_map.hpp:50-54, used in shm_hash_map.tcc:127 *)
Definition a_val (i : Z) : Z := a_objs + i * node_size + o_val.
(** shm_hash_map.hpp:50-54, used in shm_hash_map.tcc:132 *)
Definition a_next (i : Z) : Z := a_objs + i * node_size + o_next.
(** hash[h]; shm_hash_map.tcc:51, 121 *)
Definition a_bucket (h : Z) : Z := a_hash + 4 * h.

(** for (uint32_t i = 0; i < _HASH_SIZE; i++) hash[i] = -1, lines 60-63 and 207-210;
    [n] iterations from [i] on *)
Fixpoint hash_fill (n : nat) (i : Z) : prog unit :=
  match n with
  | O => Ret tt
  | S n => store 4 (a_bucket i) nil32 ;;; hash_fill n (i + 1)
  end.

(** shm_hash_map.tcc:30-77; None when coda_error is thrown.  The attached handle consists
    of the pool handle; hash and objects are [a_hash] and [a_objs]. *)
Definition attach : prog (option pool) :=
  n <~ load 4 0 ;;                                            (* 53 *)
  z <~ load 4 4 ;;
  h <~ load 4 8 ;;
  if (n =? 0) && (z =? 0) && (h =? 0) then
    store 4 0 (nobj P) ;;;                                    (* 56 *)
    store 4 4 wsz ;;;                                         (* 57 *)
    store 4 8 (hsize P) ;;;                                   (* 58 *)
    hash_fill (Z.to_nat (hsize P)) 0 ;;;                      (* 60-63 *)
    pool_attach (nobj P) node_size a_pool a_stack a_objs      (* 71 *)
  else if negb (n =? nobj P) || negb (z =? wsz) || negb (h =? hsize P) then
    Ret None                                                  (* 65-69 *)
  else pool_attach (nobj P) node_size a_pool a_stack a_objs.

(** the pool handle every successful attach gives; shm_hash_map.tcc:71 *)
Definition the_pool : pool :=
  mkPool (nobj P)
    (mkStack (nobj P) 1 (a_pool + 12) (a_pool + 16) (a_pool + 20) a_stack)
    a_pool (a_pool + 4) (a_pool + 8) a_objs.

(** shm_hash_map.tcc:102-109, without the lock *)
Definition map_size : prog Z := pool_allocated the_pool.

(** key % _HASH_SIZE; shm_hash_map.tcc:120, 224, 282 *)
Definition hidx (key : Z) : Z := key mod hsize P.

(** the loop of unprotected_read, shm_hash_map.tcc:123-136 *)
Fixpoint read_loop (fuel : nat) (key elem : Z) : prog (option (list Z)) :=
  match fuel with
  | O => Spin
  | S fuel =>
      if elem =? nil32 then Ret None                          (* 136 *)
      else
        k <~ load 8 (a_key elem) ;;                           (* 125 *)
        if key =? k then
          v <~ load_words (a_val elem) (words P) ;; Ret (Some v) (* 127-128 *)
        else
          e <~ load 4 (a_next elem) ;; read_loop fuel key e   (* 132 *)
  end.

(** shm_hash_map.tcc:117-137; Some v: true with [v] copied to [out] *)
Definition read (fuel : nat) (key : Z) : prog (option (list Z)) :=
  if hsize P =? 0 then Stop DivByZero else
  e <~ load 4 (a_bucket (hidx key)) ;;                        (* 120-121 *)
  read_loop fuel key e.

(** a new node: shm_hash_map.tcc:250-252, 269-271 *)
Definition fill_node (i key : Z) (val : list Z) : prog unit :=
  store 8 (a_key i) key ;;;
  store_words (a_val i) val ;;;
  store 4 (a_next i) nil32.

(** the loop of unprotected_insert, shm_hash_map.tcc:229-258 *)
Fixpoint insert_loop (fuel : nat) (key : Z) (val : list Z) (el : Z) : prog bool :=
  match fuel with
  | O => Spin
  | S fuel =>
      k <~ load 8 (a_key el) ;;
      if key =? k then store_words (a_val el) val ;;; Ret true  (* 231-235 *)
      else
        nx <~ load 4 (a_next el) ;;                           (* 237 *)
        if negb (nx =? nil32) then insert_loop fuel key val nx (* 239; not loaded twice *)
        else
          nn <~ pool_allocate the_pool ;;                     (* 243 *)
          if nn =? nil32 then Ret false                       (* 245-248 *)
          else
            fill_node nn key val ;;;                          (* 250-252 *)
            store 4 (a_next el) nn ;;;                        (* 254 *)
            Ret true
  end.

(** shm_hash_map.tcc:221-277 *)
Definition insert (fuel : nat) (key : Z) (val : list Z) : prog bool :=
  if hsize P =? 0 then Stop DivByZero else
  el <~ load 4 (a_bucket (hidx key)) ;;                       (* 224-225 *)
  if negb (el =? nil32) then insert_loop fuel key val el
  else
    nn <~ pool_allocate the_pool ;;                           (* 262 *)
    if nn =? nil32 then Ret false                             (* 264-267 *)
    else
      fill_node nn key val ;;;                                (* 269-271 *)
      store 4 (a_bucket (hidx key)) nn ;;;                    (* 273 *)
      Ret true.

(** the loop of unprotected_erase, shm_hash_map.tcc:302-318 *)
Fixpoint erase_loop (fuel : nat) (key prev elem : Z) : prog bool :=
  match fuel with
  | O => Spin
  | S fuel =>
      if elem =? nil32 then Ret false                         (* 318 *)
      else
        k <~ load 8 (a_key elem) ;;
        if key =? k then
          nx <~ load 4 (a_next elem) ;;
          store 4 (a_next prev) nx ;;;                        (* 306 *)
          store 4 (a_next elem) nil32 ;;;                     (* 307 *)
          pool_free the_pool elem ;;;                         (* 309 *)
          Ret true
        else
          nx <~ load 4 (a_next elem) ;;                       (* 314-315 *)
          erase_loop fuel key elem nx
  end.

(** shm_hash_map.tcc:279-325 *)
Definition erase (fuel : nat) (key : Z) : prog bool :=
  if hsize P =? 0 then Stop DivByZero else
  elem <~ load 4 (a_bucket (hidx key)) ;;                     (* 282-283 *)
  if elem =? nil32 then Ret false                             (* 323 *)
  else
    k <~ load 8 (a_key elem) ;;                               (* 287 *)
    if key =? k then
      nx <~ load 4 (a_next elem) ;;
      store 4 (a_bucket (hidx key)) nx ;;;                    (* 289 *)
      store 4 (a_next elem) nil32 ;;;                         (* 290 *)
      pool_free the_pool elem ;;;                             (* 292 *)
      Ret true
    else
      nx <~ load 4 (a_next elem) ;;                           (* 300 *)
      erase_loop fuel key elem nx.

(** shm_hash_map.tcc:200-213, without the lock *)
Definition clear : prog unit :=
  pool_clear the_pool ;;; hash_fill (Z.to_nat (hsize P)) 0.

(** the loop of the batch insert, shm_hash_map.tcc:164-167; [acc] is res *)
Fixpoint insert_batch (fuel : nat) (l : list (Z * list Z)) (acc : Z) : prog Z :=
  match l with
  | [] => Ret acc
  | (k, v) :: l =>
      b <~ insert fuel k v ;; insert_batch fuel l (acc + if (b : bool) then 1 else 0)
  end.
(** shm_hash_map.tcc:157-172, without the lock *)
Definition insert_many (fuel : nat) (l : list (Z * list Z)) : prog bool :=
  n <~ insert_batch fuel l 0 ;; Ret (n =? Z.of_nat (length l)).

(** shm_hash_map.tcc:190-193 *)
Fixpoint erase_batch (fuel : nat) (l : list Z) (acc : Z) : prog Z :=
  match l with
  | [] => Ret acc
  | k :: l =>
      b <~ erase fuel k ;; erase_batch fuel l (acc + if (b : bool) then 1 else 0)
  end.
(** shm_hash_map.tcc:183-198, without the lock *)
Definition erase_many (fuel : nat) (l : list Z) : prog bool :=
  n <~ erase_batch fuel l 0 ;; Ret (n =? Z.of_nat (length l)).

(** *** const_iterator, shm_hash_map.hpp:84-160: position_in_hash and position_in_pool *)
Definition iter := (Z * Z)%type.

(** shm_hash_map.hpp:157-160 *)
Definition it_end : iter := (nil32, nil32).
(** shm_hash_map.hpp:99-102 *)
Definition it_neq (a b : iter) : bool :=
  negb (fst a =? fst b) || negb (snd a =? snd b).

(** the search for the next non-empty bucket: 113-121 with 122-126 in operator++, and
    145-154 in begin(); [n] buckets left from [i] on *)
Fixpoint it_scan (n : nat) (i : Z) : prog iter :=
  match n with
  | O => Ret it_end
  | S n =>
      e <~ load 4 (a_bucket i) ;;
      if negb (e =? nil32) then Ret (i, e) else it_scan n (i + 1)
  end.

(** shm_hash_map.hpp:143-155 *)
Definition it_begin : prog iter := it_scan (Z.to_nat (hsize P)) 0.

(** shm_hash_map.hpp:104-130 *)
Definition it_next (it : iter) : prog iter :=
  nx <~ load 4 (a_next (snd it)) ;;
  if negb (nx =? nil32) then Ret (fst it, nx)                 (* 106-109 *)
  else it_scan (Z.to_nat (hsize P - (fst it + 1))) (fst it + 1).

(** for (it = begin(); it != end(); ++it) visit it.key(), it.value() (132-140) *)
Fixpoint iterate (fuel : nat) (it : iter) : prog (list (Z * list Z)) :=
  match fuel with
  | O => Spin
  | S fuel =>
      if it_neq it it_end then
        k <~ load 8 (a_key (snd it)) ;;
        v <~ load_words (a_val (snd it)) (words P) ;;
        it' <~ it_next it ;;
        l <~ iterate fuel it' ;;
        Ret ((k, v) :: l)
      else Ret []
  end.
(** not in the code: a loop of the user over shm_hash_map.hpp:84-160 *)
Definition iteration (fuel : nat) : prog (list (Z * list Z)) :=
  it <~ it_begin ;; iterate fuel it.

(** one call of the API, without the lock; [MAttach] says whether attach threw;
    shm_hash_map.tcc:102-213 *)
Definition api (fuel : nat) (o : mop) : prog mret :=
  match o with
  | MRead k => r <~ read fuel k ;; Ret (MVal r)
  | MInsert k v => b <~ insert fuel k v ;; Ret (MBool b)
  | MInsertMany l => b <~ insert_many fuel l ;; Ret (MBool b)
  | MErase k => b <~ erase fuel k ;; Ret (MBool b)
  | MEraseMany l => b <~ erase_many fuel l ;; Ret (MBool b)
  | MSize => n <~ map_size ;; Ret (MNum n)
  | MClear => clear ;;; Ret MDone
  | MAttach => h <~ attach ;; Ret (MBool (match h with Some _ => true | None => false end))
  | MIterate => l <~ iteration fuel ;; Ret (MList l)
  end.

End Map.

(** ** What the callers guarantee *)

(** the stack object [s] lies inside the segment, its header apart from its data;
    not in the code *)
Record stack_ok (lim : Z) (s : stack) : Prop := mkStackOk
  { so_num : 0 <= s_num s < 2^31;
    so_isz : s_isz s = s_res s + 4;
    so_cur : s_cur s = s_res s + 8;
    so_hdr : 0 <= s_res s /\ s_res s mod 4 = 0 /\ s_res s + 12 <= lim;
    so_dat : 0 <= s_dat s /\ s_dat s mod 4 = 0
             /\ s_dat s + stack_data_size (s_num s) (s_words s) <= lim;
    so_sep : s_res s + 12 <= s_dat s
             \/ s_dat s + stack_data_size (s_num s) (s_words s) <= s_res s }.

(** the pool object [p] lies inside the segment: header, then the header of its stack; the
    stack of returned indices elsewhere; not in the code *)
Record pool_ok (lim : Z) (p : pool) : Prop := mkPoolOk
  { po_stack : stack_ok lim (p_free p);
    po_words : s_words (p_free p) = 1%nat;
    po_num : s_num (p_free p) = p_num p;
    po_fres : s_res (p_free p) = p_res p + 12;
    po_isz : p_isz p = p_res p + 4;
    po_cur : p_cur p = p_res p + 8;
    po_res : 0 <= p_res p /\ p_res p mod 4 = 0;
    po_sep : p_res p + 12 <= s_dat (p_free p)
             \/ s_dat (p_free p) + stack_data_size (p_num p) 1 <= p_res p }.

(** the cells a pool uses; not in the code *)
Definition pool_cell (p : pool) (a : Z) : Prop :=
  p_res p <= a < p_res p + 24
  \/ s_dat (p_free p) <= a < s_dat (p_free p) + 4 * p_num p.

(** template parameters whose sizes fit in int; not in the code *)
Definition fits (P : tpar) : Prop :=
  0 <= nobj P /\ 1 <= hsize P < 2^31
  /\ 4096 + 4 * nobj P + nobj P * node_size P < 2^31.

(** a segment just created by shmget: the first bytes are zero; not in the code, shmget(2) *)
Definition zeroed (m : mem) : Prop := forall a, 0 <= a < 1024 -> m a = 0.
