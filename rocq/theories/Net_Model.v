(** Model of coda/socket.h: address parsing, timeouts, send and recv.  The calls that
    create sockets are in Fd_Model.v.

    in_addr_t has 32 bits, uintptr_t and ssize_t 64, int 32; the host is little-endian. *)

From Coq Require Import ZArith List Bool.
From Verif Require Import Base Util_Model.
Import ListNotations.
Local Open Scope Z_scope.

(** in_addr_t arithmetic, socket.h:70, 89, 105 *)
Definition W32 (x : Z) : Z := x mod 2 ^ 32.
(** the constant of netinet/in.h, socket.h:95, 100, 109 *)
Definition INADDR_NONE : Z := 4294967295.

(** htonl on a little-endian host; [mem32 x] is the memory image of a 32-bit integer;
    used for socket.h:106. *)
Definition mem32 (x : Z) : list Z := [x mod 256; x / 256 mod 256; x / 65536 mod 256; x / 16777216 mod 256].
(** htonl(3), socket.h:106 *)
Definition htonl (x : Z) : Z :=
  x mod 256 * 16777216 + x / 256 mod 256 * 65536 + x / 65536 mod 256 * 256 + x / 16777216 mod 256.

(** coda_inet_addr, socket.h:66-110.  The loop of lines 77-96, [size] bytes
    before the end.  char may be signed: bytes above 127 fail both tests either way. *)
Fixpoint inet_loop (size : nat) (data : list Z) (p : nat) (addr octet n : Z) : res (option (Z * Z * Z)) :=
  match size with
  | O => Ok (Some (addr, octet, n))
  | S size =>
      c <- rd data p ;;
      if (48 <=? c) && (c <=? 57) then inet_loop size data (S p) addr (W64 (W64 (octet * 10) + (c - 48))) n
      else if (c =? 46) && (octet <? 256) then
        inet_loop size data (S p) (W32 (W64 (W32 (addr * 256) + octet))) 0 (W64 (n + 1))
      else Ok None
  end.
(** coda_inet_addr, socket.h:66-110 *)
Definition inet_addr (data : list Z) (size : nat) : res Z :=
  r <- inet_loop size data 0 0 0 0 ;;
  match r with
  | None => Ok INADDR_NONE                                            (* 95 *)
  | Some (addr, octet, n) =>
      if negb (n =? 3) then Ok INADDR_NONE                            (* 98-101 *)
      else if octet <? 256 then Ok (htonl (W32 (W64 (W32 (addr * 256) + octet))))  (* 103-107 *)
      else Ok INADDR_NONE
  end.

(** coda_set_socket_timeout, socket.h:30-39: the timeval given to setsockopt *)
Definition socket_timeout (timeout : Z) : Z * Z := (0, timeout).

(** coda_unix_recv, socket.h:47-64.  [answers] are the results of the successive calls of
    recv: the value returned (ssize_t) and errno after the call.  [Fuel]: the answers do not
    suffice for the function to return.  Second component: the answers left. *)
Definition EINTR : Z := 4.
Fixpoint unix_recv (answers : list (Z * Z)) : res (Z * list (Z * Z)) :=
  match answers with
  | [] => Fuel
  | (r, errno) :: answers =>
      let rc := INT r in                                              (* 54: int rc *)
      if 0 <=? rc then Ok (rc, answers)                               (* 55 *)
      else if negb (EINTR =? errno) then Ok (-1, answers)             (* 57-60 *)
      else unix_recv answers
  end.

(** coda_unix_send, socket.h:41-45, for the result of send *)
Definition unix_send (r : Z) : Z := INT r.

(** the port of coda_listen and coda_connect, socket.h:135, 190: htons(strtoul(port, 0, 10));
    [port] is the C string with its terminator *)
Definition is_space (c : Z) : bool := ((9 <=? c) && (c <=? 13)) || (c =? 32).
(** strtoul(3), the white space it skips; socket.h:135, 190 *)
Fixpoint skip_spaces (s : list Z) : res (list Z) :=
  match s with
  | [] => Ub OobRead
  | c :: t => if is_space c then skip_spaces t else Ok s
  end.
(** strtoul(3), the digits; socket.h:135, 190 *)
Fixpoint ul_digits (s : list Z) (acc : Z) : res Z :=
  match s with
  | [] => Ub OobRead
  | c :: t => if (48 <=? c) && (c <=? 57) then ul_digits t (acc * 10 + (c - 48)) else Ok acc
  end.
(** strtoul(port, 0, 10), socket.h:135, 190 *)
Definition strtoul10 (s : list Z) : res Z :=
  s <- skip_spaces s ;;
  c <- rd s 0 ;;
  let '(neg, s) := if c =? 45 then (true, tl s) else if c =? 43 then (false, tl s) else (false, s) in
  v <- ul_digits s 0 ;;
  if 2 ^ 64 <=? v then Ok (2 ^ 64 - 1)                                (* ULONG_MAX, ERANGE *)
  else Ok (if neg then W64 (- v) else v).
(** memory image of the 16-bit port in network order; socket.h:135, 190 *)
Definition sin_port (port : list Z) : res (list Z) :=
  v <- strtoul10 port ;;
  let h := v mod 65536 in Ok [h / 256; h mod 256].
