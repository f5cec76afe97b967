(** Model of the functions of coda/string.cpp and coda/url.cpp that change an object of the
    caller, when memory runs out: every construction, append, insert and assignment of the
    C++ library may throw std::bad_alloc.

    [thr i] tells whether the [i]-th such operation throws.  An operation that throws has no
    effect: the standard guarantees it for append, insert and assign of std::string, for
    set::insert of one element and for map::operator[].  The functions that return their
    result (coda_strprintf, coda_split_string, the URL functions) change nothing of the
    caller and are left out. *)

From Coq Require Import ZArith List Bool.
From Verif Require Import Base Str_Model StrCpp_Model Url_Model.
Import ListNotations.
Local Open Scope Z_scope.

(** Not in the code: how a call ends, what it leaves in the object of the caller, and how
    many blocks of new char[] were not deleted. *)
Inductive how := Returns (v : Z) | Throws_.
(** Not in the code: how a call ends, the object and the blocks left. *)
Record after (A : Type) := mkAfter { a_how : how; a_obj : A; a_left : nat }.
Arguments mkAfter {A} _ _ _.
Arguments a_how {A} _.
Arguments a_obj {A} _.
Arguments a_left {A} _.

(** coda_strappend, string.cpp:29-49.  A negative [bytes] is a size no string can have:
    std::length_error. *)
Definition strappend_x (thr : nat -> bool) (out : list Z) (txt : option (list Z)) : res (after (list Z)) :=
  '(bytes, buf) <- two_pass txt ;;
  if (bytes <? 0) || thr 0%nat then Ok (mkAfter Throws_ out 0) else          (* 46 *)
  t <- get_bytes buf (Z.to_nat bytes) ;; Ok (mkAfter (Returns bytes) (out ++ t) 0).

(** coda_strnappend and coda_strnprintf after the check of the position, string.cpp:53-85 and
    92-124; [put] is append (67, 78) or insert (106, 117) *)
Definition nput_x (thr : nat -> bool) (out : list Z) (num : Z) (txt : option (list Z))
  (put : list Z -> list Z) : res (after (list Z)) :=
  if num <? BUFSZ then
    '(bytes, buf) <- nformat num txt ;;
    if (bytes <? 0) || thr 0%nat then Ok (mkAfter Throws_ out 0) else        (* 67, 106 *)
    t <- get_bytes buf (Z.to_nat bytes) ;; Ok (mkAfter (Returns bytes) (put t) 0)
  else if thr 0%nat then Ok (mkAfter Throws_ out 0)                          (* 71, 110: new char [num + 1] *)
  else
    '(bytes, buf) <- nformat num txt ;;
    if (bytes <? 0) || thr 1%nat then Ok (mkAfter Throws_ out 1)             (* 78, 117: delete [] is not reached *)
    else t <- get_bytes buf (Z.to_nat bytes) ;; Ok (mkAfter (Returns bytes) (put t) 0).
(** coda_strnappend, string.cpp:51-86 *)
Definition strnappend_x (thr : nat -> bool) (out : list Z) (num : Z) (txt : option (list Z)) :=
  nput_x thr out num txt (fun t => out ++ t).
(** coda_strnprintf, string.cpp:88-125 *)
Definition strnprintf_x (thr : nat -> bool) (out : list Z) (pos : nat) (num : Z) (txt : option (list Z)) :=
  if (length out <? pos)%nat then Ok (mkAfter (Returns (-1)) out 0) else
  nput_x thr out num txt (fun t => firstn pos out ++ t ++ skipn pos out).

(** coda_get_stringset, string.cpp:136-151: the string temp (141, 147) and the element of the
    set (142, 148) *)
Fixpoint stringset_loop_x (thr : nat -> bool) (n : nat) (fuel : nat) (i : list Z) (result : list (list Z))
  : res (after (list (list Z))) :=
  match fuel with
  | O => Fuel
  | S fuel =>
    r <- strchr i 44 ;;
    match r with
    | Some k =>
        if thr n || thr (n + 1)%nat then Ok (mkAfter Throws_ result 0) else
        stringset_loop_x thr (n + 2) fuel (skipn (S k) i) (set_insert list_eqb (firstn k i) result)
    | None =>
        t <- cstr i ;;
        if thr n || thr (n + 1)%nat then Ok (mkAfter Throws_ result 0) else
        Ok (mkAfter (Returns 0) (set_insert list_eqb t result) 0)
    end
  end.
(** coda_get_stringset, string.cpp:127-152 (it returns nothing: [Returns 0]) *)
Definition get_stringset_x (thr : nat -> bool) (str : option (list Z)) (result : list (list Z))
  : res (after (list (list Z))) :=
  match str with
  | None => Ok (mkAfter (Returns 0) result 0)
  | Some s => c <- rd s 0 ;;
              if c =? 0 then Ok (mkAfter (Returns 0) result 0) else stringset_loop_x thr 0 (length s) s result
  end.

(** coda_get_uint64set, string.cpp:156-167: the element of the set (161) *)
Fixpoint uint64set_loop_x (thr : nat -> bool) (n : nat) (fuel : nat) (i : list Z) (result : list Z)
  : res (after (list Z)) :=
  match fuel with
  | O => Fuel
  | S fuel =>
    temp <- sscanf_lu i ;;
    match temp with
    | None => Ub Uninit
    | Some v =>
      if thr n then Ok (mkAfter Throws_ result 0) else
      let result := set_insert Z.eqb v result in
      r <- strchr i 44 ;;
      match r with
      | Some k => uint64set_loop_x thr (n + 1) fuel (skipn (S k) i) result
      | None => Ok (mkAfter (Returns 0) result 0)
      end
    end
  end.
(** coda_get_uint64set, string.cpp:154-168 (it returns nothing: [Returns 0]) *)
Definition get_uint64set_x (thr : nat -> bool) (str : option (list Z)) (result : list Z) : res (after (list Z)) :=
  match str with
  | None => Ok (mkAfter (Returns 0) result 0)
  | Some s => uint64set_loop_x thr 0 (length s) s result
  end.

(** url.cpp:23-24 and 48-49: the string key; the entry that operator[] makes if there is
    none, with an empty value; the assignment.  [true]: one of them throws. *)
Definition put_x (thr : nat -> bool) (n : nat) (key v : list Z) (m : smap) : bool * smap :=
  if thr n then (true, m)                                             (* 23, 48 *)
  else match lookup key m with
       | None =>
           if thr (n + 1)%nat then (true, m)                          (* 24, 49: operator[] *)
           else if thr (n + 2)%nat then (true, map_set key [] m)      (* 24, 49: assign *)
           else (false, map_set key v m)
       | Some _ => if thr (n + 2)%nat then (true, m) else (false, map_set key v m)
       end.

(** coda_get_params_buf, url.cpp:15-28 *)
Fixpoint params_loop_x (thr : nat -> bool) (i fuel : nat) (params : smap) (s : list Z) (n : nat)
  : res (after smap) :=
  match fuel with
  | O => Fuel
  | S fuel =>
    if (n =? 0)%nat then Ok (mkAfter (Returns 0) params 0) else
    r <- strnchr s 38 n ;;
    let amp := match r with None => n | Some k => k end in
    q <- strnchr s 61 n ;;
    let '(t, params) :=
      match q with
      | Some equ => if (equ <? amp)%nat
                    then put_x thr i (firstn equ s) (firstn (amp - equ - 1) (skipn (equ + 1) s)) params
                    else (false, params)
      | None => (false, params)
      end in
    if t : bool then Ok (mkAfter Throws_ params 0)
    else params_loop_x thr (i + 3) fuel params (skipn (amp + 1) s) (n - (amp + 1))
  end.
(** coda_get_params_buf, url.cpp:9-31 *)
Definition get_params_buf_x (thr : nat -> bool) (params : smap) (s : option (list Z)) (len : nat) : res (after smap) :=
  match s with
  | None => Ok (mkAfter (Returns (-1)) params 0)
  | Some s => params_loop_x thr 0 (S len) params s len
  end.

(** coda_get_header_buf, url.cpp:39-53 *)
Fixpoint header_loop_x (thr : nat -> bool) (i fuel : nat) (header : smap) (s : list Z) (n : nat)
  : res (after smap) :=
  match fuel with
  | O => Fuel
  | S fuel =>
    if (n =? 0)%nat then Ok (mkAfter (Returns 0) header 0) else
    r <- strnstr (Some s) (Some crlf_lit) n ;;
    let crlf := match r with None => n | Some k => k end in
    if (crlf =? 0)%nat then Ok (mkAfter (Returns 0) header 0) else
    q <- strnchr s 58 n ;;
    let '(t, header) :=
      match q with
      | Some dodo => if (dodo <? crlf)%nat
                     then put_x thr i (firstn dodo s) (firstn (crlf - dodo - 1) (skipn (dodo + 1) s)) header
                     else (false, header)
      | None => (false, header)
      end in
    if t : bool then Ok (mkAfter Throws_ header 0)
    else header_loop_x thr (i + 3) fuel header (skipn (crlf + 2) s) (n - (crlf + 2))
  end.
(** coda_get_header_buf, url.cpp:33-56 *)
Definition get_header_buf_x (thr : nat -> bool) (header : smap) (s : option (list Z)) (len : nat) : res (after smap) :=
  match s with
  | None => Ok (mkAfter (Returns (-1)) header 0)
  | Some s => header_loop_x thr 0 (S len) header s len
  end.
