(** Model of coda/string.cpp and coda/easy_parsing.cpp.

    Forward pointers are lists as in [Str_Model]; [std::string] and [std::vector]
    are lists; [std::set] is a list without duplicates observed through [In].
    Local buffers hold [option Z]: [None] is an indeterminate byte and reading it
    is [Ub Uninit]. *)

From Coq Require Import ZArith List Bool Lia.
From Verif Require Import Base Str_Model.
Import ListNotations.
Local Open Scope Z_scope.

(** ** Formatted output *)

(** string.cpp:7 *)
Definition BUFSZ : Z := 32768.

(** a local array / alloca / new char[]: indeterminate bytes;
    string.cpp:13, 20, 33, 40, 60, 71, 99, 110 *)
Definition uninit (n : Z) : list (option Z) := repeat None (Z.to_nat n).

(** vsnprintf(3).  [txt] is the formatted text, [None] an encoding error; a text
    longer than INT_MAX is an error too.  Writes at most [size] bytes including the
    terminating zero. string.cpp:15, 22, 35, 42, 62, 73, 101, 112. *)
Definition vsnprintf (buf : list (option Z)) (size : Z) (txt : option (list Z))
  : res (Z * list (option Z)) :=
  match txt with
  | None => Ok (-1, buf)
  | Some t =>
    if 2 ^ 31 <=? Z.of_nat (length t) then Ok (-1, buf) else
    if size <=? 0 then Ok (Z.of_nat (length t), buf) else
    let k := Nat.min (Z.to_nat (size - 1)) (length t) in
    if (S k <=? length buf)%nat
    then Ok (Z.of_nat (length t), map Some (firstn k t) ++ Some 0 :: skipn (S k) buf)
    else Ub OobWrite
  end.

(** reading [n] bytes of a buffer;
    not in the code: what append and insert (string.cpp:46, 67, 78, 106, 117) read *)
Fixpoint get_bytes (buf : list (option Z)) (n : nat) {struct n} : res (list Z) :=
  match n with
  | O => Ok []
  | S n => match buf with
           | [] => Ub OobRead
           | None :: _ => Ub Uninit
           | Some c :: buf => t <- get_bytes buf n ;; Ok (c :: t)
           end
  end.

(** reading a C string; not in the code: what the std::string constructor (string.cpp:26) reads *)
Fixpoint get_cstr (buf : list (option Z)) : res (list Z) :=
  match buf with
  | [] => Ub OobRead
  | None :: _ => Ub Uninit
  | Some c :: buf => if c =? 0 then Ok [] else (t <- get_cstr buf ;; Ok (c :: t))
  end.

(** [out.append(BUF, n)] / [out.insert(pos, BUF, n)] with [int n]: a negative n is a
    huge size_t and std::length_error is thrown. string.cpp:46, 67, 78 *)
Definition append_bytes (out : list Z) (buf : list (option Z)) (n : Z) : res (list Z) :=
  if n <? 0 then Ub Throws else (t <- get_bytes buf (Z.to_nat n) ;; Ok (out ++ t)).
(** string.cpp:106, 117 *)
Definition insert_bytes (out : list Z) (pos : nat) (buf : list (option Z)) (n : Z)
  : res (list Z) :=
  if n <? 0 then Ub Throws else
  (t <- get_bytes buf (Z.to_nat n) ;; Ok (firstn pos out ++ t ++ skipn pos out)).

(** conversion to int (gcc: modulo 2^32);
    string.cpp:62, 64, 73, 75, 101, 103, 112, 114: the cast of num and the assignment to bytes *)
Definition int32 (v : Z) : Z :=
  let m := v mod 2 ^ 32 in if m <? 2 ^ 31 then m else m - 2 ^ 32.

(** string.cpp:9-27 [coda_strprintf].  The second vsnprintf formats the same
    arguments, hence the same text. [bytes + 1] overflows int at INT_MAX. *)
Definition two_pass (txt : option (list Z)) : res (Z * list (option Z)) :=
  '(bytes, buf) <- vsnprintf (uninit BUFSZ) BUFSZ txt ;;
  if BUFSZ <=? bytes then
    if bytes + 1 =? 2 ^ 31 then Ub BadLib else
    '(_, buf) <- vsnprintf (uninit (bytes + 1)) (bytes + 1) txt ;; Ok (bytes, buf)
  else Ok (bytes, buf).
(** string.cpp:9-27 [coda_strprintf] *)
Definition strprintf (txt : option (list Z)) : res (list Z) :=
  '(_, buf) <- two_pass txt ;; get_cstr buf.

(** string.cpp:29-49 [coda_strappend] *)
Definition strappend (out : list Z) (txt : option (list Z)) : res (Z * list Z) :=
  '(bytes, buf) <- two_pass txt ;;
  out <- append_bytes out buf bytes ;;
  Ok (bytes, out).

(** string.cpp:58-81 / 97-120, common part: the buffer, the call and the clamp.
    [num] is a size_t.  new char[] is assumed to succeed. *)
Definition nformat (num : Z) (txt : option (list Z)) : res (Z * list (option Z)) :=
  '(bytes, buf) <-
    (if num <? BUFSZ then vsnprintf (uninit BUFSZ) (num + 1) txt
     else vsnprintf (uninit (num + 1)) (num + 1) txt) ;;
  Ok (if int32 num <? bytes then int32 num else bytes, buf).

(** string.cpp:51-86 [coda_strnappend] *)
Definition strnappend (out : list Z) (num : Z) (txt : option (list Z)) : res (Z * list Z) :=
  '(bytes, buf) <- nformat num txt ;;
  out <- append_bytes out buf bytes ;;
  Ok (bytes, out).

(** string.cpp:88-125 [coda_strnprintf] *)
Definition strnprintf (out : list Z) (pos : nat) (num : Z) (txt : option (list Z))
  : res (Z * list Z) :=
  if (length out <? pos)%nat then Ok (-1, out) else
  '(bytes, buf) <- nformat num txt ;;
  out <- insert_bytes out pos buf bytes ;;
  Ok (bytes, out).

(** ** Splitting *)

(** strchr(3); the terminating zero is part of the string.  [Some] is the offset.
    string.cpp:138, 162, 178, 206. *)
Fixpoint strchr (s : list Z) (c : Z) : res (option nat) :=
  match s with
  | [] => Ub OobRead
  | x :: s => if x =? c then Ok (Some 0%nat)
              else if x =? 0 then Ok None
              else (r <- strchr s c ;; Ok (option_map S r))
  end.

(** std::set<T>::insert; string.cpp:142, 148, 161 *)
Definition set_insert {A} (eqb : A -> A -> bool) (x : A) (l : list A) : list A :=
  if existsb (eqb x) l then l else x :: l.

(** equality of std::string, used by std::set and std::map; string.cpp:142, 148, url.cpp:24, 49 *)
Fixpoint list_eqb (a b : list Z) : bool :=
  match a, b with
  | [], [] => true
  | x :: a, y :: b => (x =? y) && list_eqb a b
  | _, _ => false
  end.

(** the C string at a pointer, the std::string constructor; string.cpp:147 *)
Fixpoint cstr (s : list Z) : res (list Z) :=
  match s with
  | [] => Ub OobRead
  | x :: s => if x =? 0 then Ok [] else (t <- cstr s ;; Ok (x :: t))
  end.

(** string.cpp:136-151; [begin = i] at the start of every round.  Fuel: one round
    per byte suffices. *)
Fixpoint stringset_loop (fuel : nat) (i : list Z) (result : list (list Z)) : res (list (list Z)) :=
  match fuel with
  | O => Fuel
  | S fuel =>
    r <- strchr i 44 ;;
    match r with
    | Some k => stringset_loop fuel (skipn (S k) i) (set_insert list_eqb (firstn k i) result)
    | None => t <- cstr i ;; Ok (set_insert list_eqb t result)
    end
  end.

(** string.cpp:127-152 [coda_get_stringset] *)
Definition get_stringset (str : option (list Z)) (result : list (list Z)) : res (list (list Z)) :=
  match str with
  | None => Ok result
  | Some s => c <- deref s ;; if c =? 0 then Ok result else stringset_loop (length s) s result
  end.

(** isspace(3) in the C locale; used by sscanf, string.cpp:160 *)
Definition isspace (c : Z) : bool := (c =? 32) || ((9 <=? c) && (c <=? 13)).
(** isdigit(3), used by sscanf, string.cpp:160 *)
Definition isdigit (c : Z) : bool := (48 <=? c) && (c <=? 57).

(** sscanf(3), string.cpp:160: the white space it skips *)
Fixpoint skip_space (s : list Z) : res (list Z) :=
  match s with
  | [] => Ub OobRead
  | x :: t => if isspace x then skip_space t else Ok s
  end.
(** digits; the value saturates like strtoul(3); sscanf(3), string.cpp:160 *)
Fixpoint scan_digits (s : list Z) (acc : Z) (any : bool) : res (option Z) :=
  match s with
  | [] => Ub OobRead
  | x :: t => if isdigit x then scan_digits t (acc * 10 + (x - 48)) true
              else Ok (if any then Some acc else None)
  end.
(** sscanf(i, "%lu", &temp): None = nothing stored.  glibc accepts a sign; a value
    above 2^64-1 is stored as 2^64-1, a negative one is negated modulo 2^64. *)
Definition sscanf_lu (s : list Z) : res (option Z) :=
  s <- skip_space s ;;
  c <- deref s ;;
  r <- scan_digits (if (c =? 43) || (c =? 45) then tl s else s) 0 false ;;
  Ok (option_map (fun v => if 2 ^ 64 <=? v then 2 ^ 64 - 1
                           else if c =? 45 then (- v) mod 2 ^ 64 else v) r).

(** string.cpp:154-168 [coda_get_uint64set]; inserting the uninitialised [temp] is
    [Ub Uninit]. *)
Fixpoint uint64set_loop (fuel : nat) (i : list Z) (result : list Z) : res (list Z) :=
  match fuel with
  | O => Fuel
  | S fuel =>
    temp <- sscanf_lu i ;;
    match temp with
    | None => Ub Uninit
    | Some v =>
      let result := set_insert Z.eqb v result in
      r <- strchr i 44 ;;
      match r with
      | Some k => uint64set_loop fuel (skipn (S k) i) result
      | None => Ok result
      end
    end
  end.
(** string.cpp:154-168 [coda_get_uint64set] *)
Definition get_uint64set (str : option (list Z)) (result : list Z) : res (list Z) :=
  match str with
  | None => Ok result
  | Some s => uint64set_loop (length s) s result
  end.

(** [std::string(prev_ptr, p - prev_ptr)]; string.cpp:182, 191, 210, 219 *)
Definition substr (src : list Z) (prev p : nat) : list Z := firstn (p - prev) (skipn prev src).

(** string.cpp:180-183 *)
Definition push_piece (src : list Z) (prev p : nat) (ignore_empty : bool)
  (result : list (list Z)) : list (list Z) :=
  if (prev <? p)%nat || negb ignore_empty then result ++ [substr src prev p] else result.

(** string.cpp:176-195; [s] is the pointer [p] as a list, [p] its offset. *)
Fixpoint split_loop (src s : list Z) (p prev : nat) (d : list Z) (ign : bool)
  (result : list (list Z)) : res (list (list Z)) :=
  match s with
  | [] => Ub OobRead
  | c :: s =>
    if c =? 0 then Ok (push_piece src prev p ign result) else
    r <- strchr d c ;;
    match r with
    | Some _ => split_loop src s (S p) (S p) d ign (push_piece src prev p ign result)
    | None => split_loop src s (S p) prev d ign result
    end
  end.
(** string.cpp:170-195 [coda_split_string] *)
Definition split_string (src d : list Z) (ign : bool) := split_loop src src 0 0 d ign [].

(** string.cpp:204-222; [todo] is [e - p]. *)
Fixpoint splitn_loop (src : list Z) (todo p prev : nat) (d : list Z) (ign : bool)
  (result : list (list Z)) : res (list (list Z)) :=
  match todo with
  | O => Ok (push_piece src prev p ign result)
  | S todo =>
    c <- rd src p ;;
    r <- strchr d c ;;
    match r with
    | Some _ => splitn_loop src todo (S p) (S p) d ign (push_piece src prev p ign result)
    | None => splitn_loop src todo (S p) prev d ign result
    end
  end.
(** string.cpp:197-223, the overload with a size *)
Definition splitn_string (src : list Z) (size : nat) (d : list Z) (ign : bool) :=
  splitn_loop src size 0 0 d ign [].

(** ** Random strings *)

(** string.cpp:225-238 [coda_random_string]; [rng i] is the i-th value returned by
    random(3).  The result of coda_random_init is ignored by the code. *)
Fixpoint random_loop (size : nat) (alphabet : list Z) (asz : Z) (rng : nat -> Z) (i : nat)
  (result : list Z) : res (list Z) :=
  match size with
  | O => Ok result
  | S size =>
    if asz =? 0 then Ub DivByZero else
    let idx := (rng i mod asz) mod 2 ^ 32 in
    c <- rd alphabet (Z.to_nat idx) ;;
    random_loop size alphabet asz rng (S i) (result ++ [c])
  end.
(** string.cpp:225-238 [coda_random_string] *)
Definition random_string (size : nat) (alphabet : list Z) (asz : Z) (rng : nat -> Z) :=
  random_loop size alphabet asz rng 0 [].

(** ** Words *)

(** the four characters of easy_parsing.cpp:6, 8 *)
Definition blank (c : Z) : bool := (c =? 32) || (c =? 9) || (c =? 10) || (c =? 13).

(** easy_parsing.cpp:6 *)
Fixpoint skip_blanks (s : list Z) (k : nat) : res (nat * list Z) :=
  match s with
  | [] => Ub OobRead
  | c :: t => if blank c then skip_blanks t (S k) else Ok (k, s)
  end.
(** easy_parsing.cpp:8-12: strpbrk(be, " \t\n\r"), or strlen(be) if it is NULL *)
Fixpoint word_end (s : list Z) (k : nat) : res nat :=
  match s with
  | [] => Ub OobRead
  | c :: t => if c =? 0 then Ok k else if blank c then Ok k else word_end t (S k)
  end.
(** easy_parsing.cpp:4-21 [get_next_word]; [be] is an offset in the block [s];
    returns (ret, be, en). *)
Definition get_next_word (s : list Z) (be : nat) : res (Z * nat * nat) :=
  '(k, t) <- skip_blanks (skipn be s) 0 ;;
  n <- word_end t 0 ;;
  let be := (be + k)%nat in
  let en := (be + n)%nat in
  Ok (if (be <? en)%nat then 1 else 0, be, en).

(** Not in the library: the caller's loop for easy_parsing.cpp:4-21, call with be = en until 0 is returned; collect the words. *)
Fixpoint all_words (fuel : nat) (s : list Z) (be : nat) : res (list (list Z)) :=
  match fuel with
  | O => Fuel
  | S fuel =>
    '(r, b, e) <- get_next_word s be ;;
    if r =? 0 then Ok []
    else (ws <- all_words fuel s e ;; Ok (substr s b e :: ws))
  end.
