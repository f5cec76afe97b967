(** Model of coda/txml.hpp and coda/txml.cpp without expat: the handlers called by the parser.

    [determine] is written by the user as a sequence of determineMember calls; here an object
    type is that sequence.  The kinds of scalars are those of txml.hpp:49-58. *)

From Coq Require Import ZArith List Bool.
From Verif Require Import Base Flt_Model.
Import ListNotations.
Local Open Scope Z_scope.

(** *** conversions *)

(** isspace(3), used by strtol and strtoul; called in txml.cpp:121, 138-142 *)
Definition is_space (c : Z) : bool := (c =? 32) || ((9 <=? c) && (c <=? 13)).
(** isdigit(3), used by strtol and strtoul; called in txml.cpp:121, 138-142 *)
Definition is_digit (c : Z) : bool := (48 <=? c) && (c <=? 57).
(** libc: strtol and strtoul with base 10; the end of the list is the terminator *)
Fixpoint skip_space (s : list Z) : list Z :=
  match s with c :: t => if is_space c then skip_space t else s | [] => [] end.
(** libc: the digits of strtol and strtoul *)
Fixpoint digits (acc : Z) (s : list Z) : Z :=
  match s with c :: t => if is_digit c then digits (acc * 10 + (c - 48)) t else acc | [] => acc end.
(** libc: sign and digits of strtol and strtoul *)
Definition number (s : list Z) : bool * Z :=         (* is negative, absolute value *)
  match skip_space s with
  | 45 :: t => (true, digits 0 t)
  | 43 :: t => (false, digits 0 t)
  | t => (false, digits 0 t)
  end.
(** libc: strtol with base 10, called in txml.cpp:121, 138, 140 *)
Definition strtol (s : list Z) : Z :=
  let '(neg, n) := number s in
  if neg then Z.max (- 2 ^ 63) (- n) else Z.min (2 ^ 63 - 1) n.
(** libc: strtoul with base 10, called in txml.cpp:139, 141, 142 *)
Definition strtoul (s : list Z) : Z :=
  let '(neg, n) := number s in
  if 2 ^ 64 - 1 <? n then 2 ^ 64 - 1 else if neg then (- n) mod 2 ^ 64 else n.
(** conversion to int32_t; txml.cpp:138 *)
Definition i32 (z : Z) : Z := (z + 2 ^ 31) mod 2 ^ 32 - 2 ^ 31.

(** libc: strncasecmp (s, w, size of s) = 0, where [s] has no NUL *)
Definition tolower (c : Z) : Z := if (65 <=? c) && (c <=? 90) then c + 32 else c.
(** libc: strncasecmp, called in txml.cpp:122-131 *)
Fixpoint nocase (s w : list Z) : bool :=
  match s, w with
  | [], _ => true
  | c :: s, d :: w => (tolower c =? tolower d) && nocase s w
  | _, [] => false
  end.
(** strtobool, txml.cpp:119-134 *)
Definition strtobool (s : list Z) : bool :=
  if negb (0 =? strtol s) then true
  else if nocase s (zs "0") then false
  else if nocase s (zs "true") then true
  else if nocase s (zs "false") then false
  else if nocase s (zs "on") then true
  else if nocase s (zs "off") then false
  else if nocase s (zs "yes") then true
  else if nocase s (zs "no") then false
  else false.

(** the types of txml.hpp:49-58.  [KFlt f dp]: float, double or long double, in a program
    whose locale has the decimal point [dp]. *)
Inductive kind := KStr | KBool | KI32 | KU32 | KI64 | KU64 | KU8 | KFlt (f : fmt) (dp : Z).
(** values of the types of txml.hpp:49-58 *)
Inductive scal := SStr (s : list Z) | SBool (b : bool) | SNum (n : Z) | SFlt (x : flt).
(** setValue for scalars, txml.cpp:136-145 *)
Definition conv (k : kind) (cv : list Z) : scal :=
  match k with
  | KStr => SStr cv
  | KBool => SBool (strtobool cv)
  | KI32 => SNum (i32 (strtol cv))
  | KU32 => SNum (strtoul cv mod 2 ^ 32)
  | KI64 => SNum (strtol cv)
  | KU64 => SNum (strtoul cv)
  | KU8 => SNum (strtoul cv mod 2 ^ 8)
  | KFlt f dp => SFlt (strtox f dp cv)
  end.

(** *** objects *)

(** values of user types: scalars, containers (txml.hpp:67-97) and objects (txml.hpp:61-65) *)
Inductive val := VScal (s : scal) | VList (l : list val) | VObj (l : list val).
(** [TList t d]: std::list or std::vector of [t], whose default-constructed item is [d];
    [TObj ms]: an object whose determine calls determineMember for each of [ms];
    txml.hpp:50-121. *)
Inductive ty := TScal (k : kind) | TList (t : ty) (d : val) | TObj (ms : list (list Z * ty)).

(** equality of std::string, txml.hpp:112 *)
Fixpoint key_eqb (a b : list Z) : bool :=
  match a, b with
  | [], [] => true
  | x :: a, y :: b => (x =? y) && key_eqb a b
  | _, _ => false
  end.

(** level_desc, txml.hpp:27-36 *)
Definition levels := list (list Z * bool).

(** setValue (txml.hpp:61-97) with det_iter at index [k], and inside it determineMember
    (txml.hpp:102-121) for each member.  Result: the variable and the levels.  [Ub BadLib]:
    the value is not of the type, which C++ rules out. *)
Fixpoint set_value (t : ty) (v : val) (lv : levels) (k : nat) (cv : list Z) {struct t} : res (val * levels) :=
  match t, v with
  | TScal kd, VScal _ => Ok (VScal (conv kd cv), lv)
  | TList t1 d, VList l =>
      match k with
      | O => Ub OobRead                              (* --det_iter before the beginning *)
      | S k1 =>
          '(key, pushed) <- rd lv k1 ;;
          let '(l, lv) := (if pushed : bool then (l, lv) else (l ++ [d], upd lv k1 (key, true))) in
          match rev l with
          | [] => Ub OobRead                         (* back() of an empty container *)
          | x :: r => '(x, lv) <- set_value t1 x lv k cv ;; Ok (VList (rev r ++ [x]), lv)
          end
      end
  | TObj ms, VObj vs =>
      '(vs, lv) <-
        (fix members (ms : list (list Z * ty)) (vs : list val) (lv : levels) : res (list val * levels) :=
           match ms, vs with
           | [], [] => Ok ([], lv)
           | (key, t1) :: ms, v1 :: vs =>
               '(v1, lv) <-
                 (if (k =? length lv)%nat then
                    if negb (key_eqb key []) then Ok (v1, lv) else set_value t1 v1 lv k cv
                  else
                    '(lk, _) <- rd lv k ;;
                    if key_eqb key lk then set_value t1 v1 lv (S k) cv else Ok (v1, lv)) ;;
               '(vs, lv) <- members ms vs lv ;;
               Ok (v1 :: vs, lv)
           | _, _ => Ub BadLib
           end) ms vs lv ;;
      Ok (VObj vs, lv)
  | _, _ => Ub BadLib
  end.

(** *** the handlers *)

(** txml.hpp:42-43: levels, current value, and the object being loaded *)
Record st := mkSt { lvs : levels; cval : list Z; root : val }.

(** determine, txml.cpp:113-117 *)
Definition determine (t : ty) (s : st) : res st :=
  '(v, lv) <- set_value t (root s) (lvs s) 0 (cval s) ;; Ok (mkSt lv (cval s) v).
(** levels.push_back, txml.cpp:154, 158, 165 *)
Definition push (s : st) (k : list Z) : st := mkSt (lvs s ++ [(k, false)]) (cval s) (root s).
(** levels.pop_back, txml.cpp:161, 168, 178 *)
Definition pop (s : st) : res st :=
  match rev (lvs s) with [] => Ub OobRead | _ :: r => Ok (mkSt (rev r) (cval s) (root s)) end.

(** begelement, txml.cpp:152-172: the loop over the attributes and what follows *)
Fixpoint attributes (t : ty) (attrs : list (list Z * list Z)) (s : st) : res st :=
  match attrs with
  | [] => Ok s
  | (k, a) :: attrs =>
      let s := push s k in
      s <- determine t (mkSt (lvs s) a (root s)) ;;
      s <- pop s ;;
      attributes t attrs s
  end.
(** begelement, txml.cpp:152-172 *)
Definition begelement (t : ty) (name : list Z) (attrs : list (list Z * list Z)) (s : st) : res st :=
  s <- attributes t attrs (push s name) ;;
  let s := push s [] in
  s <- determine t (mkSt (lvs s) [] (root s)) ;;
  pop s.
(** endelement, txml.cpp:174-179 *)
Definition endelement (t : ty) (s : st) : res st :=
  s <- determine t s ;; pop (mkSt (lvs s) [] (root s)).
(** characters, txml.cpp:147-150 *)
Definition characters (s : st) (c : list Z) : st := mkSt (lvs s) (cval s ++ c) (root s).

(** what expat calls, txml.cpp:86-87 *)
Inductive event := Beg (name : list Z) (attrs : list (list Z * list Z)) | Chars (c : list Z) | End.
(** the calls of the handlers, in the order of the document; txml.cpp:86-87, 99 *)
Fixpoint handle (t : ty) (evs : list event) (s : st) : res st :=
  match evs with
  | [] => Ok s
  | Beg n a :: evs => s <- begelement t n a s ;; handle t evs s
  | Chars c :: evs => handle t evs (characters s c)
  | End :: evs => s <- endelement t s ;; handle t evs s
  end.
(** loading a document into an object: the parser starts with no levels (txml.cpp:80-88) *)
Definition load_events (t : ty) (v : val) (evs : list event) : res st := handle t evs (mkSt [] [] v).
