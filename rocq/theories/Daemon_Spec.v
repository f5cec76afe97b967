(** Signals, options and level names as documented in daemon.h and logger.h. *)

From Coq Require Import ZArith List Bool.
From Verif Require Import Base.
Import ListNotations.
Local Open Scope Z_scope.

(** the levels of logger.h:18-26 *)
Definition level_names : list (list Z * Z) :=
  [(zs "access", 0); (zs "emerg", 1); (zs "alert", 2); (zs "crit", 3); (zs "error", 4);
   (zs "warn", 5); (zs "notice", 6); (zs "info", 7); (zs "debug", 8)].

(** equal up to the case of ASCII letters *)
Definition lower (c : Z) : Z := if (65 <=? c) && (c <=? 90) then c + 32 else c.
Definition same_word (a b : list Z) : Prop := map lower a = map lower b.

(** the letters a level is recognised by *)
Definition level_heads : list (list Z * Z) :=
  [(zs "ac", 0); (zs "em", 1); (zs "al", 2); (zs "c", 3); (zs "er", 4);
   (zs "w", 5); (zs "n", 6); (zs "i", 7); (zs "d", 8)].

(** the level of the first entry whose letters [s] begins with, in either case; else info *)
Fixpoint begins (s p : list Z) : bool :=
  match p, s with
  | [], _ => true
  | a :: p, b :: s => (lower b =? a) && begins s p
  | _, [] => false
  end.
Definition level_of (s : list Z) : Z :=
  match find (fun e => begins s (fst e)) level_heads with Some (_, l) => l | None => 7 end.

(** the argument of the last occurrence of an option *)
Fixpoint last_arg {A} (c : Z) (got : list (Z * A)) (d : A) : A :=
  match got with
  | [] => d
  | (x, a) :: got => last_arg c got (if x =? c then a else d)
  end.
(** which of two options comes last *)
Fixpoint last_of (on off : Z) {A} (got : list (Z * A)) (d : bool) : bool :=
  match got with
  | [] => d
  | (x, _) :: got => last_of on off got (if x =? on then true else if x =? off then false else d)
  end.
