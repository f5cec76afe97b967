(** Where the parts of a shared map lie for a value type of any size and alignment;
    coda/shm_hash_map.hpp:21-25, 50-54 and coda/shm_hash_map.tcc:6-100.

    Shm_Model has the same for values that are arrays of 32-bit words; here the type is only its
    size and its alignment.  Members are placed as by the System V ABI: each at the next multiple
    of its alignment, the whole rounded up to the largest alignment. *)

From Coq Require Import ZArith List Bool.
From Verif Require Import Base Shm_Model.
Import ListNotations.
Local Open Scope Z_scope.

(** a value type: sizeof(_Type), and k if alignof(_Type) is 2^k; shm_hash_map.hpp:14 *)
Record vtype := mkV { v_size : Z; v_log : Z }.
(** alignof(_Type); shm_hash_map.hpp:24 *)
Definition v_align (t : vtype) : Z := 2 ^ v_log t.
(** Not in the code: the next multiple; the rule of the ABI. *)
Definition roundup (x a : Z) : Z := (x + a - 1) / a * a.

(** offset of value in struct pair; shm_hash_map.hpp:21-25 *)
Definition l_val (t : vtype) : Z := roundup 8 (v_align t).
(** alignof(struct pair), shm_hash_map.hpp:21-25; that of struct node is the same, 50-54 *)
Definition l_align (t : vtype) : Z := Z.max 8 (v_align t).
(** sizeof(struct pair); shm_hash_map.hpp:21-25 *)
Definition l_pair (t : vtype) : Z := roundup (l_val t + v_size t) (l_align t).
(** offset of next in struct node; shm_hash_map.hpp:50-54 *)
Definition l_next (t : vtype) : Z := roundup (l_pair t) 4.
(** sizeof(struct node); shm_hash_map.hpp:50-54 *)
Definition l_node (t : vtype) : Z := roundup (l_next t + 4) (l_align t).

(** map_header_size, map_stacks_size and map_data_size; shm_hash_map.tcc:42, 45, 50, 95-97; [n]
    is _OBJECTS_NUM *)
Definition l_stack (n : Z) : Z := floor1024 (12 + pool_header_size).
(** nodes_pool_p and objects; shm_hash_map.tcc:47-48 *)
Definition l_objs (n : Z) : Z := l_stack n + floor1024 (pool_stack_size n).
(** hash_p; shm_hash_map.tcc:50-51 *)
Definition l_hash (n : Z) (t : vtype) : Z := l_objs n + floor1024 (pool_data_size n (l_node t)).
(** required_space; shm_hash_map.tcc:92-100; [h] is _HASH_SIZE *)
Definition l_space (n h : Z) (t : vtype) : Z := l_hash n t + 4 * h.

(** objects[i].p.key; shm_hash_map.tcc:125 *)
Definition l_key_at (n : Z) (t : vtype) (i : Z) : Z := l_objs n + i * l_node t.
(** objects[i].p.value; shm_hash_map.tcc:127 *)
Definition l_val_at (n : Z) (t : vtype) (i : Z) : Z := l_objs n + i * l_node t + l_val t.
(** objects[i].next; shm_hash_map.tcc:132 *)
Definition l_next_at (n : Z) (t : vtype) (i : Z) : Z := l_objs n + i * l_node t + l_next t.

(** the words that attach compares: objects_num, item_size and hash_size of the map, reserved and
    item_size of the pool (its items are nodes); shm_hash_map.tcc:53-69, shm_pool.tcc:27-38 *)
Definition l_header (n h : Z) (t : vtype) : list Z := [n; v_size t; h; n; l_node t].
