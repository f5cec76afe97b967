(** Model of the logging macros of coda/logger.h, of the thread names of coda/logger.c and of
    coda/error.h and coda/error.hpp. *)

From Coq Require Import ZArith List Bool.
From Verif Require Import Base.
Import ListNotations.
Local Open Scope Z_scope.

(** *** numbers in text *)

(** the digits of printf("%u"), most significant first, at most [fuel] of them;
    not in the code: printf, used in logger.h:49-51 *)
Fixpoint udec (fuel : nat) (n : Z) : list Z :=
  match fuel with
  | O => []
  | S fuel => if n <? 10 then [48 + n] else udec fuel (n / 10) ++ [48 + n mod 10]
  end.
(** %u of an unsigned int, %lu of an unsigned long: 10 and 20 digits suffice; logger.h:49, 69 *)
Definition fmt_u (n : Z) : list Z := udec 10 (n mod 2 ^ 32).
(** the same, logger.h:69 *)
Definition fmt_lu (n : Z) : list Z := udec 20 (n mod 2 ^ 64).
(** %d of an int, logger.h:29, error.hpp:10 *)
Definition fmt_d (n : Z) : list Z := if n <? 0 then 45 :: fmt_u (- n) else fmt_u n.
(** %0wu, logger.h:49 *)
Definition fmt_0u (w : nat) (n : Z) : list Z := let d := fmt_u n in repeat 48 (w - length d) ++ d.

(** *** one message *)

(** the members of struct tm that are used, as localtime_r fills them: tm_year counts from
    1900, tm_mon from 0; logger.h:50-51, 60 *)
Record ctm := mkCtm { c_year : Z; c_mon : Z; c_mday : Z; c_hour : Z; c_min : Z; c_sec : Z }.

(** "%04u-%02u-%02u %02u:%02u:%02u.%03u", logger.h:49-51 *)
Definition stamp (tm : ctm) (usec : Z) : list Z :=
  fmt_0u 4 (c_year tm + 1900) ++ [45] ++ fmt_0u 2 (c_mon tm + 1) ++ [45] ++ fmt_0u 2 (c_mday tm) ++ [32] ++
  fmt_0u 2 (c_hour tm) ++ [58] ++ fmt_0u 2 (c_min tm) ++ [58] ++ fmt_0u 2 (c_sec tm) ++ [46] ++
  fmt_0u 3 (usec mod 2 ^ 32 / 1000).

(** the nine levels, their number and their name, logger.h:18-26 *)
Inductive level := Laccess | Lemerg | Lalert | Lcrit | Lerror | Lwarn | Lnotice | Linfo | Ldebug.
(** logger.h:18-26 *)
Definition level_no (l : level) : Z :=
  match l with Laccess => 0 | Lemerg => 1 | Lalert => 2 | Lcrit => 3 | Lerror => 4 | Lwarn => 5
             | Lnotice => 6 | Linfo => 7 | Ldebug => 8 end.
(** #lev, logger.h:28 *)
Definition level_str (l : level) : list Z :=
  match l with Laccess => zs "access" | Lemerg => zs "emerg" | Lalert => zs "alert" | Lcrit => zs "crit"
             | Lerror => zs "error" | Lwarn => zs "warn" | Lnotice => zs "notice" | Linfo => zs "info"
             | Ldebug => zs "debug" end.

(** log_fmt, logger.h:53-75: what is printed to stderr, if anything.  [tname]: the name of the
    thread, if it has one, else its pthread_self(); [msg]: the caller's format with its
    arguments put in *)
Definition log_fmt (log_level : Z) (l : level) (tm : ctm) (usec : Z) (tname : option (list Z)) (self : Z)
  (msg : list Z) : option (list Z) :=
  if level_no l <=? log_level then                                    (* 55 *)
    Some (stamp tm usec ++ [32] ++ level_str l ++ [32] ++             (* 49 *)
          (match tname with
           | Some n => n                                              (* 65-66 *)
           | None => fmt_lu self                                      (* 70-71 *)
           end) ++ [32] ++ msg ++ [10])
  else None.

(** the text log_err, log_ret and log_die add, logger.h:29-31 *)
Definition err_suffix (err : Z) (strerr : list Z) : list Z :=
  zs " (" ++ fmt_d err ++ zs ": " ++ strerr ++ zs ")" ++ [10].
(** log_err, logger.h:29 *)
Definition log_err (log_level : Z) (tm : ctm) (usec : Z) (tname : option (list Z)) (self : Z)
  (msg : list Z) (err : Z) (strerr : list Z) : option (list Z) :=
  log_fmt log_level Lerror tm usec tname self (msg ++ err_suffix err strerr).

(** *** the macros as statements *)

(** what a statement of the program does; not in the code: statements *)
Inductive stmt := Print (l : level) | Exit.
(** the statements a macro expands to when it is followed by a semicolon; log_fmt is one
    do-while statement (53-75); logger.h:28-42 *)
Definition expand_msg (l : level) : list stmt := [Print l].
(** log_die, logger.h:31 *)
Definition expand_die : list stmt := [Print Lemerg; Exit].
(** "if (c) M;" without braces: the condition guards the first statement; not in the code: C *)
Definition under_if (c : bool) (m : list stmt) : list stmt :=
  match m with
  | [] => []
  | s :: rest => (if c then [s] else []) ++ rest
  end.

(** *** names of threads *)

(** thread-specific data of a process: the keys that exist and the value each thread has under
    each of them (0: NULL), the variable log_thread_name, and whether log_thread_name_once
    was run; logger.c:50-51 *)
Record tsd := mkTsd { k_live : list Z; k_val : Z -> nat -> Z; k_log : Z; k_once : bool }.
(** a program starts without keys; log_thread_name is a global variable and hence zero;
    logger.c:50-51 *)
Definition tsd0 : tsd := mkTsd [] (fun _ _ => 0) 0 false.
(** pthread_key_create: the new key or an error; the new key has NULL in every thread;
    not in the code: pthread_key_create(3) *)
Definition key_create (ans : option Z) (s : tsd) : tsd :=
  match ans with
  | Some k => mkTsd (k :: k_live s) (fun k' t => if k' =? k then 0 else k_val s k' t) (k_log s) (k_once s)
  | None => s
  end.
(** log_thread_name_key, logger.c:53-57: the result is not looked at *)
Definition log_thread_name_key (ans : option Z) (s : tsd) : tsd :=
  let s := key_create ans s in
  match ans with
  | Some k => mkTsd (k_live s) (k_val s) k (k_once s)
  | None => s
  end.
(** pthread_once, logger.c:61 and 68 *)
Definition once (ans : option Z) (s : tsd) : tsd :=
  if k_once s then s
  else let s := log_thread_name_key ans s in mkTsd (k_live s) (k_val s) (k_log s) true.
(** pthread_setspecific: EINVAL for a key that does not exist, ENOMEM when there is no memory
    ([mem] = false); not in the code: pthread_setspecific(3) *)
Definition setspecific (mem : bool) (k : Z) (t : nat) (v : Z) (s : tsd) : Z * tsd :=
  if existsb (Z.eqb k) (k_live s) then
    if mem then (0, mkTsd (k_live s) (fun k' t' => if (k' =? k) && Nat.eqb t' t then v else k_val s k' t') (k_log s) (k_once s))
    else (12, s)
  else (22, s).
(** pthread_getspecific: NULL for a key that does not exist; not in the code: pthread_getspecific(3) *)
Definition getspecific (k : Z) (t : nat) (s : tsd) : Z :=
  if existsb (Z.eqb k) (k_live s) then k_val s k t else 0.
(** log_thread_name_set, logger.c:59-64, called by thread [t] *)
Definition log_thread_name_set (ans : option Z) (mem : bool) (t : nat) (name : Z) (s : tsd) : Z * tsd :=
  let s := once ans s in setspecific mem (k_log s) t name s.
(** log_thread_name_get, logger.c:66-72 *)
Definition log_thread_name_get (ans : option Z) (t : nat) (s : tsd) : Z * tsd :=
  let s := once ans s in (getspecific (k_log s) t s, s).

(** *** errors *)

(** CODA_ERROR_BUFSZ, error.h:13 *)
Definition bufsz : nat := 4096.
(** vsnprintf(msg, n, ...) into the [n] bytes of a buffer: [text] = None is an error, which
    leaves the buffer as it is; not in the code: vsnprintf(3) *)
Definition vsnprintf (buf : list (option Z)) (n : nat) (text : option (list Z)) : list (option Z) :=
  match text, n with
  | Some s, S k => map Some (firstn k s) ++ [Some 0] ++ skipn (S (length (firstn k s))) buf
  | _, _ => buf
  end.
(** coda_error::coda_error, error.hpp:18-23: msg is not initialised before *)
Definition coda_error (text : option (list Z)) : list (option Z) := vsnprintf (repeat None bufsz) bufsz text.
(** coda_errno, error.hpp:10-11: the text of the error follows the message *)
Definition errno_suffix (err : Z) (strerr : list Z) : list Z := zs " (" ++ fmt_d err ++ zs ": " ++ strerr ++ zs ")".
(** coda_errno, error.hpp:10-11 *)
Definition coda_errno (text : list Z) (err : Z) (strerr : list Z) : list (option Z) :=
  coda_error (Some (text ++ errno_suffix err strerr)).
(** a caller that reads what() as a C string; not in the code: users of error.hpp:26 *)
Fixpoint c_string (buf : list (option Z)) : res (list Z) :=
  match buf with
  | [] => Ub OobRead
  | None :: _ => Ub Uninit
  | Some c :: t => if c =? 0 then Ok [] else s <- c_string t ;; Ok (c :: s)
  end.
(** coda_strerror_r, error.h:17-26, in the XSI variant: [ok] = strerror_r succeeded and put
    [text] into the buffer (at most size - 1 bytes) *)
Definition strerror_xsi (ok : bool) (text : list Z) (size : nat) : list Z :=
  if ok then firstn (size - 1) text else zs "XSI strerror_r returned error".
(** the GNU variant returns what strerror_r returns; error.h:24 *)
Definition strerror_gnu (text : list Z) : list Z := text.
