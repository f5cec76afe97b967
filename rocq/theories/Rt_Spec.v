(** Texts put together by a user of the library, to be read back by it.  Nothing here is in
    the code. *)

From Coq Require Import ZArith List Bool.
From Verif Require Import Base Str_Spec Url_Model Url_Spec.
Import ListNotations.
Local Open Scope Z_scope.

(** the pieces with the text [d] between them *)
Fixpoint join (d : list Z) (ps : list (list Z)) : list Z :=
  match ps with
  | [] => []
  | [p] => p
  | p :: ps => p ++ d ++ join d ps
  end.

(** one of the two encoders of the library *)
Definition enc (plus : bool) (s : list Z) : res (list Z) :=
  if plus then urlenc_str s else urlenc_noplus_str s.

(** "key=value", both encoded *)
Definition write_pair (plus : bool) (kv : list Z * list Z) : res (list Z) :=
  k <- enc plus (fst kv) ;; v <- enc plus (snd kv) ;; Ok (k ++ 61 :: v).
Fixpoint write_pairs (plus : bool) (kvs : list (list Z * list Z)) : res (list (list Z)) :=
  match kvs with
  | [] => Ok []
  | kv :: kvs => p <- write_pair plus kv ;; ps <- write_pairs plus kvs ;; Ok (p :: ps)
  end.
(** "key=value&key=value..." *)
Definition write_query (plus : bool) (kvs : list (list Z * list Z)) : res (list Z) :=
  ps <- write_pairs plus kvs ;; Ok (join [38] ps).

(** "key:value", each line ended by CR LF *)
Definition write_header (kvs : list (list Z * list Z)) : list Z :=
  flat_map (fun kv => fst kv ++ 58 :: snd kv ++ crlf) kvs.

(** the value the pairs give to key [k]: the last one *)
Fixpoint last_value (k : list Z) (kvs : list (list Z * list Z)) : option (list Z) :=
  match kvs with
  | [] => None
  | (x, v) :: kvs =>
      match last_value k kvs with
      | Some w => Some w
      | None => if list_eq_dec Z.eq_dec x k then Some v else None
      end
  end.
