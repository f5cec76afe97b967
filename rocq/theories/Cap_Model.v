(** Model of coda/estimate_capacity.hpp. *)

From Coq Require Import ZArith List.
Import ListNotations.
Local Open Scope Z_scope.

(** the values the function is defined for: numbers of a type of [size] bytes (34-110), pointers
    (14-18), vectors of elements of [size] bytes (21-25), strings of characters of [size] bytes
    (28-32), and objects that have the member function themselves (7-11), where [est] is its
    answer; estimate_capacity.hpp:7-110 *)
Inductive val :=
| Num (size : Z)
| Ptr (target : option val)
| Vec (cap size : Z) (elems : list val)
| Str (cap size : Z)
| Obj (own est : Z) (parts : list val).
(** sizeof, in the layout of libstdc++ on a 64-bit machine, used in estimate_capacity.hpp:17, 24,
    31, 37-109 *)
Definition size_of (v : val) : Z :=
  match v with Num s => s | Ptr _ => 8 | Vec _ _ _ => 24 | Str _ _ => 32 | Obj own _ _ => own end.
(** estimate_capacity.hpp:7-110, in size_t *)
Definition estimate (v : val) : Z :=
  match v with
  | Num s => s                                                       (* 35-110 *)
  | Ptr _ => 8                                                       (* 17 *)
  | Vec cap s _ => (24 + cap * s) mod 2 ^ 64                         (* 24 *)
  | Str cap s => (32 + cap * s) mod 2 ^ 64                           (* 31 *)
  | Obj _ est _ => est                                               (* 10 *)
  end.
