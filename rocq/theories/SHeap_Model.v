(** Model of the memory that coda/stringstorage.c allocates and frees.

    The functions of SStore_Model once more, now with the heap: which blocks are
    allocated, which are freed, and what happens when calloc or realloc returns null.
    What the strings decide (which child to go to, where to insert) is taken from
    SStore_Model; realloc may move the block or not.  Liveness of the data blocks is not
    checked at each access (they are freed only by string_storage_free). *)

From Coq Require Import ZArith List Bool.
From Verif Require Import Base SStore_Model.
Import ListNotations.
Local Open Scope nat_scope.

(** Not in the code: the heap.  Blocks are numbered in the order of the requests. *)
Record heap := mkH { h_next : nat; h_live : list nat }.

(** Not in the code: malloc(3); [ok n] says whether request number [n] is granted. *)
Definition alloc (ok : nat -> bool) (h : heap) : heap * option nat :=
  if ok (h_next h) then (mkH (S (h_next h)) (h_next h :: h_live h), Some (h_next h))
  else (mkH (S (h_next h)) (h_live h), None).

(** Not in the code: is the block allocated. *)
Definition live (h : heap) (p : nat) : bool := existsb (Nat.eqb p) (h_live h).

(** Not in the code: free(3); a block is freed once. *)
Definition release (h : heap) (p : nat) : res heap :=
  if live h p then Ok (mkH (h_next h) (remove Nat.eq_dec p (h_live h))) else Ub DoubleFree.

(** allocate_reallocate_array, stringstorage.c:48-63.  [cnt] elements are in use.  When
    realloc fails the old block stays allocated; realloc(null) is malloc.  [mv n]: does
    request number [n], if it is one of realloc, move the block. *)
Definition array (mv ok : nat -> bool) (h : heap) (a : option nat) (cnt : nat)
  : res (heap * option nat) :=
  let h0 := h in
  let n := h_next h in
  if cnt =? 0 then Ok (alloc ok h)                                    (* 50-53 *)
  else if (cnt =? 2) || (Nat.land cnt 15 =? 0) then                   (* 54-61 *)
    match alloc ok h with
    | (h, None) => Ok (h, None)
    | (h, Some q) => match a with
                     | None => Ok (h, Some q)
                     | Some p => if mv n then h <- release h p ;; Ok (h, Some q)
                                 else if live h0 p then Ok (mkH (S n) (h_live h0), Some p)
                                 else Ub UseAfterFree
                     end
    end
  else Ok (h, a).

(** stringstorage.h:21-26, with the address of the array of children *)
Inductive anode := ANode (value : ptr) (arr : option nat) (cap : nat) (children : list anode).
(** the member value of stringstorage.h:21-26 *)
Definition a_val (x : anode) : ptr := let (v, _, _, _) := x in v.
(** the member children of stringstorage.h:21-26, as an address *)
Definition a_arr (x : anode) : option nat := let (_, a, _, _) := x in a.
(** Not in the code: the allocated size of the array of stringstorage.h:21-26. *)
Definition a_cap (x : anode) : nat := let (_, _, c, _) := x in c.
(** what the array of stringstorage.h:21-26 contains *)
Definition a_kids (x : anode) : list anode := let (_, _, _, l) := x in l.

(** Not in the code: forget the addresses. *)
Fixpoint erase (x : anode) : node :=
  match x with ANode v _ c l => Node v c (map erase l) end.

(** stringstorage.h:10-17: the blocks of SStore_Model, the address of the array blocks
    and what it holds ([None]: indeterminate) *)
Record ablocks := mkAb { b_sb : sblocks; b_arr : option nat; b_ids : list (option nat) }.

(** an access to an element of an array, e.g. stringstorage.c:83, 104, 125 *)
Definition deref (h : heap) (a : option nat) : res unit :=
  match a with
  | None => Ub NullDeref
  | Some p => if live h p then Ok tt else Ub UseAfterFree
  end.

(** does a string of [len] bytes need a new block; stringstorage.c:119 *)
Definition needs_block (sb : sblocks) (len : nat) : bool :=
  match s_cur sb with None => true | _ => false end
  || (block_size <? s_used sb + 1 + len + s_uds sb).

(** the memory for the new block, stringstorage.c:119-128 (what is stored in the members
    current and used_bytes is new_block of SStore_Model); false: return at line 123 *)
Definition anew_block (mv ok : nat -> bool) (h : heap) (b : ablocks) (len : nat)
  : res (heap * ablocks * bool) :=
  if needs_block (b_sb b) len then
    let (h, c) := alloc ok h in                                       (* 121 *)
    let n := length (b_ids b) in
    '(h, a) <- array mv ok h (b_arr b) n ;;                              (* 122 *)
    match a with
    | None => Ok (h, mkAb (b_sb b) None (b_ids b), false)             (* 123 *)
    | Some _ =>
        let ids := match b_arr b with
                   | None => repeat None n                (* a block malloc returned *)
                   | Some _ => b_ids b
                   end in
        match c with
        | None => Ub NullDeref                     (* current is null; stored to at 134 *)
        | Some q => Ok (h, mkAb (b_sb b) a (ids ++ [Some q]), true)   (* 125-127 *)
        end
    end
  else Ok (h, b, true).

(** what the memmove of stringstorage.c:113-114 leaves when nothing is stored afterwards:
    the element at [i] appears twice and the last one is no longer counted *)
Definition shifted (kids : list anode) (i : nat) : list anode :=
  firstn (length kids) (firstn i kids ++ firstn 1 (skipn i kids) ++ skipn i kids).

(** internal_find_add with doadd, stringstorage.c:72-139 *)
Fixpoint afind_add (mv ok : nat -> bool) (fuel : nat) (h : heap) (b : ablocks) (r : anode)
  (prev : nat) (s : list Z) : res (heap * ablocks * anode * option ptr) :=
  match fuel with
  | O => Fuel
  | S fuel =>
    let sb := b_sb b in
    let kids := a_kids r in
    _ <- (if length kids =? 0 then Ok tt else deref h (a_arr r)) ;;   (* 83, 100 *)
    o <- search (S (length kids)) sb (map erase kids) prev s 0 (length kids) ;;
    match o with
    | inl mid => x <- rd kids mid ;; Ok (h, b, r, Some (padd (a_val x) 1))  (* 87 *)
    | inr begin_ =>
      cb <- (if begin_ =? 0 then Ok 0
             else x <- rd kids (begin_ - 1) ;;
                  n <- common_prefix sb s (padd (a_val x) (s_uds sb + 1)) ;;
                  Ok (n mod 256)) ;;                                  (* 76, 100 *)
      if 8 <? cb then
        x <- rd kids (begin_ - 1) ;;
        '(h, b, x, p) <- afind_add mv ok fuel h b x ((prev + cb) mod 256) (skipn cb s) ;;
        Ok (h, b, ANode (a_val r) (a_arr r) (a_cap r) (upd kids (begin_ - 1) x), p)  (* 104 *)
      else
        '(h, a) <- array mv ok h (a_arr r) (length kids) ;;              (* 110 *)
        match a with
        | None => Ok (h, b, ANode (a_val r) None (a_cap r) kids, None)       (* 111 *)
        | Some _ =>
            let cap := grow (a_cap r) (length kids) in
            if negb ((begin_ <=? length kids) && (length kids <? cap)) then Ub OobWrite else
            '(h, b, done) <- anew_block mv ok h b (length s) ;;
            if negb (done : bool) then
              Ok (h, b, ANode (a_val r) a cap (shifted kids begin_), None)  (* 112-123 *)
            else
              '(sb, v) <- new_slot (b_sb b) prev s ;;                 (* 130-136 *)
              Ok (h, mkAb sb (b_arr b) (b_ids b),
                  ANode (a_val r) a cap
                    (firstn begin_ kids ++ ANode v None 0 [] :: skipn begin_ kids),
                  Some (padd v 1))                                    (* 131-138 *)
        end
    end
  end.

(** stringstorage.h:28-32 and the heap *)
Record astorage := mkAs { st_h : heap; st_b : ablocks; st_r : anode }.
(** string_storage_init, stringstorage.c:36-46 *)
Definition ainit (uds : nat) (h : heap) : astorage :=
  mkAs h (mkAb (fst (init uds)) None []) (ANode (0, 0) None 0 []).

(** string_storage_add, stringstorage.c:141-148 *)
Definition aadd (mv ok : nat -> bool) (st : astorage) (s : list Z) : res (astorage * option ptr) :=
  if block_size <? length s + s_uds (b_sb (st_b st)) then Ok (st, None)   (* 145 *)
  else
    '(h, b, r, p) <- afind_add mv ok (S (length s)) (st_h st) (st_b st) (st_r st) 0 s ;;
    Ok (mkAs h b r, p).

(** string_storage_free_struct, stringstorage.c:9-20 *)
Fixpoint free_struct (h : heap) (x : anode) : res heap :=
  match x with
  | ANode _ a _ kids =>
      h <- (fix go (h : heap) (l : list anode) : res heap :=
              match l with
              | [] => Ok h
              | y :: l => _ <- deref h a ;; h <- free_struct h y ;; go h l   (* 14-17 *)
              end) h kids ;;
      match a with None => Ok h | Some p => release h p end           (* 19 *)
  end.

(** the loop of string_storage_free, stringstorage.c:27-30 *)
Fixpoint free_blocks (h : heap) (a : option nat) (l : list (option nat)) : res heap :=
  match l with
  | [] => Ok h
  | q :: l =>
      _ <- deref h a ;;
      match q with
      | None => Ub Uninit
      | Some p => h <- release h p ;; free_blocks h a l
      end
  end.

(** string_storage_free, stringstorage.c:22-34 *)
Definition storage_free (st : astorage) : res heap :=
  let b := st_b st in
  h <- free_blocks (st_h st) (b_arr b) (b_ids b) ;;
  h <- match b_arr b with None => Ok h | Some p => release h p end ;;  (* 32 *)
  free_struct h (st_r st).                                            (* 33 *)
