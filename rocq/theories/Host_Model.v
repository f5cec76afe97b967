(** Model of coda_listen and coda_connect with the addresses they are given, coda/socket.h
    112-150 and 173-199.  Fd_Model.v has the same functions without the addresses.

    inet_addr(3) is the one of glibc 2.29 and later (resolv/inet_addr.c); in_addr_t has 32
    bits, unsigned long 64; the host is little-endian.  Texts are C strings: lists of bytes
    that contain their terminator. *)

From Coq Require Import ZArith List Bool.
From Verif Require Import Base Fd_Model Net_Model.
Import ListNotations.
Local Open Scope Z_scope.

(** libc: isdigit; called by inet_addr, socket.h:134, 189 *)
Definition isdigit (c : Z) : bool := (48 <=? c) && (c <=? 57).
(** libc: the value of a digit of strtoul, [None] if the character is none in this base;
    called by inet_addr, socket.h:134, 189 *)
Definition digit_in (base c : Z) : option Z :=
  let v := if isdigit c then c - 48
           else if (65 <=? c) && (c <=? 90) then c - 55
           else if (97 <=? c) && (c <=? 122) then c - 87 else 36 in
  if v <? base then Some v else None.
(** libc: the digits of strtoul: the number (unbounded) and the rest of the text; called by
    inet_addr, socket.h:134, 189 *)
Fixpoint ul_base (base : Z) (s : list Z) (acc : Z) : res (Z * list Z) :=
  match s with
  | [] => Ub OobRead
  | c :: t => match digit_in base c with Some v => ul_base base t (acc * base + v) | None => Ok (acc, s) end
  end.
(** libc: strtoul(s, &end, 0) for a text that begins with a digit (inet_addr calls it for no
    other): 0x and a digit of base 16, else 0 and base 8, else base 10.  [None]: the number
    does not fit (ULONG_MAX and ERANGE).  Called by inet_addr, socket.h:134, 189 *)
Definition strtoul0 (s : list Z) : res (option Z * list Z) :=
  c <- rd s 0 ;;
  '(v, e) <- (if negb (c =? 48) then ul_base 10 s 0 else
              x <- rd s 1 ;;
              if (x =? 120) || (x =? 88) then
                d <- rd s 2 ;;
                match digit_in 16 d with
                | Some _ => ul_base 16 (skipn 2 s) 0
                | None => Ok (0, tl s)                        (* the text is 0; x is not part of it *)
                end
              else ul_base 8 s 0) ;;
  if v <? 2 ^ 64 then Ok (Some v, e) else Ok (None, e).
(** libc: inet_addr, the loop over the parts; [pp] are the bytes stored so far.  [None] for
    ret_0, otherwise the bytes, the last number and the text after it; socket.h:134, 189 *)
Fixpoint aton_loop (fuel : nat) (s : list Z) (pp : list Z) : res (option (list Z * Z * list Z)) :=
  match fuel with
  | O => Fuel
  | S fuel =>
      c <- rd s 0 ;;
      if negb (isdigit c) then Ok None else
      '(ul, e) <- strtoul0 s ;;
      match ul with
      | None => Ok None
      | Some ul =>
          if 4294967295 <? ul then Ok None else
          c <- rd e 0 ;;
          if c =? 46 then
            if (Nat.ltb 2 (length pp)) || (255 <? ul) then Ok None
            else aton_loop fuel (tl e) (pp ++ [ul])
          else Ok (Some (pp, ul, e))
      end
  end.
(** libc: the limits of the last number; inet_addr, socket.h:134, 189 *)
Definition aton_max (n : nat) : Z :=
  match n with O => 4294967295 | 1%nat => 16777215 | 2%nat => 65535 | _ => 255 end.
(** libc: inet_addr(host), socket.h:134, 189.  The four bytes of s_addr in memory order:
    [res.word | htonl (val)] on bytes *)
Definition inet_addr_libc (s : list Z) : res (list Z) :=
  r <- aton_loop (length s) s [] ;;
  match r with
  | None => Ok (mem32 INADDR_NONE)
  | Some (pp, val, e) =>
      c <- rd e 0 ;;
      if negb (c =? 0) && negb (is_space c) then Ok (mem32 INADDR_NONE)
      else if aton_max (length pp) <? val then Ok (mem32 INADDR_NONE)
      else
        let w := pp ++ repeat 0 (4 - length pp) in
        let v := mem32 (htonl val) in
        Ok (map (fun p => Z.lor (fst p) (snd p)) (combine w v))
  end.

(** the fields of struct sockaddr_in that the functions set, socket.h:133-135, 188-190; the
    rest (sin_zero) stays indeterminate and is not looked at by the kernel *)
Record sockaddr := mkSa { sin_family : Z; sin_port_bytes : list Z; sin_addr : list Z }.
(** AF_INET of sys/socket.h, socket.h:133, 188 *)
Definition AF_INET : Z := 2.

(** socket.h:133-135 and 188-190 *)
Definition fill_addr (host port : list Z) : res sockaddr :=
  a <- inet_addr_libc host ;;
  p <- sin_port port ;;
  Ok (mkSa AF_INET p a).

(** Not in the code: a call of the kernel, with its address if it takes one. *)
Definition acall : Type := call * option sockaddr.
(** Not in the code: a C function as a sequence of calls with addresses. *)
Inductive aprog (A : Type) : Type :=
| ARet (a : A)
| ACall (c : acall) (k : ans -> aprog A).
Arguments ARet {A} a.
Arguments ACall {A} c k.
(** Not in the code: run with a list of answers; the result and the calls made, in order.
    [None]: too few or too many answers. *)
Fixpoint arun {A} (p : aprog A) (l : list ans) : option (A * list acall) :=
  match p with
  | ARet a => match l with [] => Some (a, []) | _ => None end
  | ACall c k =>
      match l with
      | [] => None
      | x :: l => match arun (k x) l with Some (a, cs) => Some (a, c :: cs) | None => None end
      end
  end.

(** close and return -1, socket.h:122-123, 128-129, 139-140, 145-146, 183-184, 194-195 *)
Definition fail (sd : Z) : aprog (res Z) := ACall (KClose sd, None) (fun _ => ARet (Ok (-1))).

(** coda_listen, socket.h:112-150 *)
Definition listen_at (host port : list Z) (backlog nonblock : Z) : aprog (res Z) :=
  ACall (KSocket, None) (fun a =>                                                 (* 118 *)
  let sd := rc a in
  if sd <? 0 then ARet (Ok (-1)) else                                             (* 119 *)
  let rest :=
    ACall (KReuse sd, None) (fun a =>                                             (* 127 *)
    if rc a <? 0 then fail sd else
    match fill_addr host port with                                                (* 133-135 *)
    | Ok sa =>
        ACall (KBind sd, Some sa) (fun a =>                                       (* 137 *)
        if rc a <? 0 then fail sd else
        ACall (KListen sd backlog, None) (fun a =>                                (* 143 *)
        if rc a <? 0 then fail sd else ARet (Ok sd)))                             (* 149 *)
    | Ub u => ARet (Ub u)
    | Fuel => ARet Fuel
    end) in
  if nonblock =? 0 then rest
  else ACall (KNonblk sd nonblock, None) (fun a => if rc a <? 0 then fail sd else rest)).  (* 121 *)

(** coda_connect, socket.h:173-199 *)
Definition connect_to (host port : list Z) (nonblock : Z) : aprog (res Z) :=
  ACall (KSocket, None) (fun a =>                                                 (* 179 *)
  let sd := rc a in
  if sd <? 0 then ARet (Ok (-1)) else                                             (* 180 *)
  let rest :=
    match fill_addr host port with                                                (* 188-190 *)
    | Ok sa =>
        ACall (KConnect sd, Some sa) (fun a =>                                    (* 192 *)
        if (rc a <? 0) && negb (EINPROGRESS =? errno a) then fail sd else ARet (Ok sd))  (* 198 *)
    | Ub u => ARet (Ub u)
    | Fuel => ARet Fuel
    end in
  if nonblock =? 0 then rest
  else ACall (KNonblk sd nonblock, None) (fun a => if rc a <? 0 then fail sd else rest)).  (* 182 *)
