(** Model of coda/stringstorage.c.

    A block is a buffer of STORAGE_BLOCK_SIZE bytes; a value pointer is a block number and
    an offset.  A struct string_struct is a node of a tree: its value, the number of
    elements its array of children has room for, and the children.  A C string argument is
    a buffer that ends with its terminating zero.  calloc and realloc do not fail. *)

From Coq Require Import ZArith List Bool.
From Verif Require Import Base.
Import ListNotations.
Local Open Scope nat_scope.

(** stringstorage.c:7 *)
Definition block_size : nat := Z.to_nat 4096.

(** Not in the code: a pointer into a block is its number and an offset. *)
Definition ptr := (nat * nat)%type.
(** pointer plus integer, e.g. stringstorage.c:83, 163 *)
Definition padd (p : ptr) (k : nat) : ptr := (fst p, snd p + k).

(** stringstorage.h:10-17; current is the block [s_cur] *)
Record sblocks := mkSb
  { s_uds : nat; s_used : nat; s_cur : option nat; s_blocks : list (list Z); s_bcap : nat }.
(** stringstorage.h:21-26; the value of the root is null and never used *)
Inductive node := Node (value : ptr) (cap : nat) (children : list node).
(** the member value of stringstorage.h:21-26 *)
Definition n_val (x : node) : ptr := let (v, _, _) := x in v.
(** Not in the code: the allocated size of the member array of stringstorage.h:21-26. *)
Definition n_cap (x : node) : nat := let (_, c, _) := x in c.
(** the members children and child_count of stringstorage.h:21-26 *)
Definition n_kids (x : node) : list node := let (_, _, l) := x in l.

(** stringstorage.c:48-63: the capacity of the array of [cnt] elements after the call *)
Definition grow (cap cnt : nat) : nat :=
  if cnt =? 0 then 2
  else if cnt =? 2 then 16
  else if Nat.land cnt 15 =? 0 then cnt + 16
  else cap.

(** *p; e.g. stringstorage.c:67, 84, 161 *)
Definition rdp (sb : sblocks) (p : ptr) : res Z :=
  match nth_error (s_blocks sb) (fst p) with
  | Some b => rd b (snd p)
  | None => Ub OobRead
  end.

(** strcmp(s, p): negative, zero or positive; strcmp(3), stringstorage.c:83 *)
Fixpoint strcmp (sb : sblocks) (s : list Z) (p : ptr) : res Z :=
  match s with
  | [] => Ub OobRead
  | c :: s => d <- rdp sb p ;;
              if negb (c =? d)%Z then Ok (c - d)%Z
              else if (c =? 0)%Z then Ok 0%Z else strcmp sb s (padd p 1)
  end.

(** get_common_prefix_size, stringstorage.c:65-70 *)
Fixpoint common_prefix (sb : sblocks) (s : list Z) (p : ptr) : res nat :=
  match s with
  | [] => Ub OobRead
  | c :: s => if (c =? 0)%Z then Ok 0
              else d <- rdp sb p ;;
                   if (c =? d)%Z then n <- common_prefix sb s (padd p 1) ;; Ok (S n)
                   else Ok 0
  end.

(** the search, stringstorage.c:80-97; inl: found at that index, inr: the final [begin] *)
Fixpoint search (fuel : nat) (sb : sblocks) (kids : list node) (prev : nat) (s : list Z)
  (begin_ end_ : nat) : res (nat + nat) :=
  match fuel with
  | O => Fuel
  | S fuel =>
    if begin_ <? end_ then
      let mid := (begin_ + end_) / 2 in
      x <- rd kids mid ;;
      res <- strcmp sb s (padd (n_val x) (s_uds sb + 1)) ;;           (* 83 *)
      sz_p1 <- rdp sb (n_val x) ;;                                    (* 84 *)
      if (res =? 0)%Z && (sz_p1 =? Z.of_nat prev)%Z then Ok (inl mid) (* 85-88 *)
      else if (sz_p1 =? Z.of_nat prev)%Z then
        if (res <? 0)%Z then search fuel sb kids prev s begin_ mid
        else search fuel sb kids prev s (mid + 1) end_                (* 91 *)
      else
        if (sz_p1 <? Z.of_nat prev)%Z then search fuel sb kids prev s begin_ mid
        else search fuel sb kids prev s (mid + 1) end_                (* 95 *)
    else Ok (inr begin_)
  end.

(** memcpy of [l] to [p]; memcpy(3), stringstorage.c:134-135 *)
Fixpoint wrbs (b : list Z) (i : nat) (l : list Z) : res (list Z) :=
  match l with [] => Ok b | x :: l => b <- wr b i x ;; wrbs b (S i) l end.
(** the stores of stringstorage.c:134-135 into a block *)
Definition wrp (sb : sblocks) (p : ptr) (l : list Z) : res sblocks :=
  match nth_error (s_blocks sb) (fst p) with
  | Some b => b <- wrbs b (snd p) l ;;
              Ok (mkSb (s_uds sb) (s_used sb) (s_cur sb) (upd (s_blocks sb) (fst p) b) (s_bcap sb))
  | None => Ub OobWrite
  end.

(** the new block, stringstorage.c:119-128; [len] includes the terminator *)
Definition new_block (sb : sblocks) (len : nat) : res sblocks :=
  if (match s_cur sb with None => true | _ => false end)
     || (block_size <? s_used sb + 1 + len + s_uds sb) then
    let cap := grow (s_bcap sb) (length (s_blocks sb)) in             (* 122 *)
    if length (s_blocks sb) <? cap then                               (* 125 *)
      Ok (mkSb (s_uds sb) 0 (Some (length (s_blocks sb)))
               (s_blocks sb ++ [repeat 0%Z block_size]) cap)
    else Ub OobWrite
  else Ok sb.

(** a new slot, stringstorage.c:118-136; [s] with its terminator *)
Definition new_slot (sb : sblocks) (prev : nat) (s : list Z) : res (sblocks * ptr) :=
  sb <- new_block sb (length s) ;;
  match s_cur sb with
  | None => Ub NullDeref
  | Some b =>
      let v := (b, s_used sb) in                                      (* 130 *)
      sb <- wrp sb v [Z.of_nat prev] ;;                               (* 134 *)
      sb <- wrp sb (padd v (s_uds sb + 1)) s ;;                       (* 135 *)
      Ok (mkSb (s_uds sb) (s_used sb + (s_uds sb + 1 + length s)) (s_cur sb)
               (s_blocks sb) (s_bcap sb), v)                          (* 136 *)
  end.

(** insertion into the array of children, stringstorage.c:110-116 and 131-133 *)
Definition insert_child (r : node) (i : nat) (v : ptr) : res node :=
  let kids := n_kids r in
  let cap := grow (n_cap r) (length kids) in                          (* 110 *)
  if (i <=? length kids) && (length kids <? cap) then
    Ok (Node (n_val r) cap (firstn i kids ++ Node v 0 [] :: skipn i kids))
  else Ub OobWrite.

(** internal_find_add, stringstorage.c:72-139.  prev_bytes and common_bytes are uint8_t.  The node is
    changed in place: the result is the new node. *)
Fixpoint find_add (fuel : nat) (sb : sblocks) (r : node) (prev : nat) (s : list Z) (doadd : bool)
  : res (sblocks * node * option ptr) :=
  match fuel with
  | O => Fuel
  | S fuel =>
    let kids := n_kids r in
    o <- search (S (length kids)) sb kids prev s 0 (length kids) ;;
    match o with
    | inl mid => x <- rd kids mid ;; Ok (sb, r, Some (padd (n_val x) 1))  (* 87 *)
    | inr begin_ =>
      cb <- (if begin_ =? 0 then Ok 0
             else x <- rd kids (begin_ - 1) ;;
                  n <- common_prefix sb s (padd (n_val x) (s_uds sb + 1)) ;;
                  Ok (n mod 256)) ;;                                  (* 76, 100 *)
      if 8 <? cb then
        x <- rd kids (begin_ - 1) ;;
        '(sb, x, p) <- find_add fuel sb x ((prev + cb) mod 256) (skipn cb s) doadd ;;
        Ok (sb, Node (n_val r) (n_cap r) (upd kids (begin_ - 1) x), p)    (* 104 *)
      else if negb doadd then Ok (sb, r, None)                        (* 107 *)
      else
        '(sb, v) <- new_slot sb prev s ;;
        r <- insert_child r begin_ v ;;
        Ok (sb, r, Some (padd v 1))                                   (* 138 *)
    end
  end.

(** stringstorage.h:28-32 *)
Definition storage := (sblocks * node)%type.
(** string_storage_init, stringstorage.c:36-46 *)
Definition init (uds : nat) : storage := (mkSb uds 0 None [] 0, Node (0, 0) 0 []).

(** string_storage_add, stringstorage.c:141-148 *)
Definition add (ss : storage) (s : list Z) : res (storage * option ptr) :=
  let (sb, r) := ss in
  if block_size <? length s + s_uds sb then Ok (ss, None)             (* 145 *)
  else
    '(sb, r, p) <- find_add (S (length s)) sb r 0 s true ;; Ok ((sb, r), p).
(** string_storage_find, stringstorage.c:150-153 *)
Definition find (ss : storage) (s : list Z) : res (option ptr) :=
  let (sb, r) := ss in
  '(_, _, p) <- find_add (S (length s)) sb r 0 s false ;; Ok p.

(** the caller stores [d] as the user data of a slot;
    not in the code: a store through the pointer of stringstorage.c:138 *)
Definition user_write (ss : storage) (p : ptr) (d : list Z) : res storage :=
  let (sb, r) := ss in
  sb <- wrp sb p d ;; Ok (sb, r).

(** strncpy(buf + prev, p, n): n bytes, padded with zeros; strncpy(3), stringstorage.c:163 *)
Fixpoint strncpy (sb : sblocks) (p : ptr) (n : nat) : res (list Z) :=
  match n with
  | O => Ok []
  | S n => c <- rdp sb p ;;
           if (c =? 0)%Z then Ok (repeat 0%Z (S n))
           else l <- strncpy sb (padd p 1) n ;; Ok (c :: l)
  end.

(** buf after 162-164; [parent] has 256 bytes, or none for the root (memcpy of 0 bytes) *)
Definition enum_key (sb : sblocks) (parent : list Z) (v : ptr) : res (list Z) :=
  prev <- rdp sb v ;;
  let prev := Z.to_nat prev in
  if length parent <? prev then Ub OobRead
  else
    l <- strncpy sb (padd v (1 + s_uds sb)) (255 - prev) ;;
    Ok (firstn prev parent ++ l ++ [0%Z]).

(** string_storage_enumerate_recursive, stringstorage.c:155-168: the calls of the callback *)
Fixpoint enum_rec (sb : sblocks) (parent : list Z) (r : node) : res (list (list Z * ptr)) :=
  match r with
  | Node _ _ kids =>
      (fix go (l : list node) : res (list (list Z * ptr)) :=
         match l with
         | [] => Ok []
         | x :: l =>
             buf <- enum_key sb parent (n_val x) ;;
             sub <- enum_rec sb buf x ;;
             rest <- go l ;;
             Ok ((buf, padd (n_val x) 1) :: sub ++ rest)
         end) kids
  end.
(** string_storage_enumerate, stringstorage.c:170-173 *)
Definition enumerate (ss : storage) : res (list (list Z * ptr)) := enum_rec (fst ss) [] (snd ss).
