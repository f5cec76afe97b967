(** Model of loading XML when memory runs out or [determine] throws: the functions of
    Txml_Model and Load_Model again, with the places that can throw.

    [thr n] says whether the n-th of these places throws.  What the places are is cited at
    each function.  The exception passes through expat, which is C code: as in the programs
    that use the library, expat is taken to be unwound without running any of its code, and
    its parser can be freed afterwards.  Scalars other than strings do not allocate. *)

From Coq Require Import ZArith List Bool.
From Verif Require Import Base Txml_Model Load_Model.
Import ListNotations.
Local Open Scope Z_scope.

(** setValue and determineMember, txml.hpp:61-121 and txml.cpp:136-145; places: the string
    assigned to (136), the new item (75, 91), the std::string made from the name of a member
    (txml.hpp:10, 103).  Result: the variable, the levels, the number of places passed and
    whether there was an exception. *)
Fixpoint set_value_x (thr : nat -> bool) (t : ty) (v : val) (lv : levels) (k : nat) (cv : list Z) (n : nat) {struct t}
  : res (val * levels * nat * bool) :=
  match t, v with
  | TScal KStr, VScal _ => Ok (if thr n then v else VScal (conv KStr cv), lv, S n, thr n)
  | TScal kd, VScal _ => Ok (VScal (conv kd cv), lv, n, false)
  | TList t1 d, VList l =>
      match k with
      | O => Ub OobRead
      | S k1 =>
          '(key, pushed) <- rd lv k1 ;;
          let lv := (if pushed : bool then lv else upd lv k1 (key, true)) in     (* 74 *)
          if negb pushed && thr n then Ok (VList l, lv, S n, true)               (* 75 *)
          else
          let '(l, n) := (if pushed : bool then (l, n) else (l ++ [d], S n)) in
          match rev l with
          | [] => Ub OobRead
          | x :: r => '(x, lv, n, e) <- set_value_x thr t1 x lv k cv n ;; Ok (VList (rev r ++ [x]), lv, n, e)
          end
      end
  | TObj ms, VObj vs =>
      '(vs, lv, n, e) <-
        (fix members (ms : list (list Z * ty)) (vs : list val) (lv : levels) (n : nat) : res (list val * levels * nat * bool) :=
           match ms, vs with
           | [], [] => Ok ([], lv, n, false)
           | (key, t1) :: ms, v1 :: vs =>
               if thr n then Ok (v1 :: vs, lv, S n, true)                        (* 103 *)
               else
               '(v1, lv, n, e) <-
                 (if (k =? length lv)%nat then
                    if negb (key_eqb key []) then Ok (v1, lv, S n, false) else set_value_x thr t1 v1 lv k cv (S n)
                  else
                    '(lk, _) <- rd lv k ;;
                    if key_eqb key lk then set_value_x thr t1 v1 lv (S k) cv (S n) else Ok (v1, lv, S n, false)) ;;
               if e : bool then Ok (v1 :: vs, lv, n, true)
               else
               '(vs, lv, n, e) <- members ms vs lv n ;;
               Ok (v1 :: vs, lv, n, e)
           | _, _ => Ub BadLib
           end) ms vs lv n ;;
      Ok (VObj vs, lv, n, e)
  | _, _ => Ub BadLib
  end.

(** determine, txml.cpp:113-117 *)
Definition determine_x (thr : nat -> bool) (t : ty) (s : st) (n : nat) : res (st * nat * bool) :=
  '(v, lv, n, e) <- set_value_x thr t (root s) (lvs s) 0 (cval s) n ;; Ok (mkSt lv (cval s) v, n, e).

(** begelement, txml.cpp:156-162; places: levels.push_back (158) and the assignment of the
    attribute (159) *)
Fixpoint attributes_x (thr : nat -> bool) (t : ty) (attrs : list (list Z * list Z)) (s : st) (n : nat) : res (st * nat * bool) :=
  match attrs with
  | [] => Ok (s, n, false)
  | (k, a) :: attrs =>
      if thr n then Ok (s, S n, true)
      else let s := push s k in
      if thr (S n) then Ok (s, S (S n), true)
      else
      '(s, n, e) <- determine_x thr t (mkSt (lvs s) a (root s)) (S (S n)) ;;
      if e : bool then Ok (s, n, true)
      else
      s <- pop s ;;
      attributes_x thr t attrs s n
  end.
(** begelement, txml.cpp:152-172; places: levels.push_back (154, 165) *)
Definition begelement_x (thr : nat -> bool) (t : ty) (name : list Z) (attrs : list (list Z * list Z)) (s : st) (n : nat)
  : res (st * nat * bool) :=
  if thr n then Ok (s, S n, true)
  else
  '(s, n, e) <- attributes_x thr t attrs (push s name) (S n) ;;
  if e : bool then Ok (s, n, true)
  else
  if thr n then Ok (s, S n, true)
  else let s := push s [] in
  '(s, n, e) <- determine_x thr t (mkSt (lvs s) [] (root s)) (S n) ;;
  if e : bool then Ok (s, n, true)
  else
  s <- pop s ;; Ok (s, n, false).
(** endelement, txml.cpp:174-179 *)
Definition endelement_x (thr : nat -> bool) (t : ty) (s : st) (n : nat) : res (st * nat * bool) :=
  '(s, n, e) <- determine_x thr t s n ;;
  if e : bool then Ok (s, n, true)
  else
  s <- pop (mkSt (lvs s) [] (root s)) ;; Ok (s, n, false).
(** the calls of the handlers, txml.cpp:60-73, 86-87, 99; place: append in characters (149) *)
Fixpoint handle_x (thr : nat -> bool) (t : ty) (evs : list event) (s : st) (n : nat) : res (st * nat * bool) :=
  match evs with
  | [] => Ok (s, n, false)
  | Beg nm a :: evs =>
      '(s, n, e) <- begelement_x thr t nm a s n ;;
      if e : bool then Ok (s, n, true) else handle_x thr t evs s n
  | Chars c :: evs => if thr n then Ok (s, S n, true) else handle_x thr t evs (characters s c) (S n)
  | End :: evs =>
      '(s, n, e) <- endelement_x thr t s n ;;
      if e : bool then Ok (s, n, true) else handle_x thr t evs s n
  end.

(** txml_parser::parse, txml.cpp:95-103.  [false]: an exception, of a handler or of raise. *)
Definition parse_x {X} (thr : nat -> bool) (t : ty) (l : ld X) (d : list Z) (len : Z) (fin : bool) (n : nat)
  : res (ld X * nat * bool) :=
  let m := len mod 2 ^ 32 in
  if 2 ^ 31 <=? m then Ub BadLib else
  let d := firstn (Z.to_nat m) d in
  let '(p, evs, ok) := x_parse X (l_x l) d fin in
  '(s, n, e) <- handle_x thr t evs (l_st l) n ;;
  Ok (mkL p s (l_log l ++ [Feed d fin]), n, ok && negb e).

(** load_from_string with a length, txml.cpp:54-58 *)
Definition load_from_string_n_x (thr : nat -> bool) (X : expat) (t : ty) (v : val) (s : list Z) (len : Z)
  : res (outcome * val * list act) :=
  l <- parser_new X v ;;
  '(l, _, ok) <- parse_x thr t l s len true 0 ;;
  leave l (if ok : bool then Loaded else Thrown).

(** the loop, txml.cpp:27-37 *)
Fixpoint read_loop_x {X} (thr : nat -> bool) (fuel : nat) (bad : nat -> bool) (t : ty) (i : nat) (f : stream) (l : ld X) (n : nat)
  : res (ld X * outcome) :=
  if f_eof f then Ok (l, Loaded)
  else match fuel with O => Fuel | S fuel =>
    match fread (bad i) f with
    | None => Ok (l, Thrown)
    | Some (d, f) =>
        '(l, n, ok) <- parse_x thr t l d (Z.of_nat (length d)) (f_eof f) n ;;
        if ok : bool then read_loop_x thr fuel bad t (S i) f l n else Ok (l, Thrown)
    end end.
(** load_from_file, txml.cpp:11-46; place: the assignment of the file name (14) *)
Definition load_from_file_x (thr : nat -> bool) (X : expat) (file : option (list Z)) (bad : nat -> bool) (t : ty) (v : val)
  : res (outcome * val * list act) :=
  l <- parser_new X v ;;                                             (* 13 *)
  if thr 0%nat then leave l Thrown                                   (* 14 *)
  else match file with
  | None => leave l Thrown                                           (* 18-21 *)
  | Some c =>
      let l := note l Open in
      '(l, o) <- read_loop_x thr (S (length c)) bad t 0 (mkF c false) l 1 ;;
      leave (note l Close) o                                         (* 39-45 *)
  end.
