(** Model of the functions that talk to the kernel: coda/socket.h 112-199, coda/system.c,
    coda/random.c, coda/daemon.c 62-131 and log_create of coda/logger.c.

    A function is a program of system calls; the kernel keeps the table of descriptors of
    the process and the mappings made.  The answer to each call is arbitrary within the
    rules of [kernel].  Messages to the log (which do not change the table) are left out. *)

From Coq Require Import ZArith List Bool.
From Verif Require Import Base.
Import ListNotations.
Local Open Scope Z_scope.

(** *** the kernel *)

(** what a descriptor refers to; not in the code: part of the kernel. *)
Inductive obj := OFile (path : list Z) (writable : bool) | OSocket | OConn.

(** Not in the code: the system calls the functions of this file make. *)
Inductive call :=
| KOpen (path : list Z) (wr creat app : bool)
| KSocket
| KAccept (fd : Z)
| KClose (fd : Z)
| KDup2 (fd nd : Z)
| KNonblk (fd v : Z)        (* ioctl FIONBIO *)
| KReuse (fd : Z)           (* setsockopt SO_REUSEADDR *)
| KBind (fd : Z)
| KListen (fd backlog : Z)
| KConnect (fd : Z)
| KLock (fd : Z)            (* flock LOCK_EX|LOCK_NB *)
| KUnlock (fd : Z)          (* flock LOCK_UN *)
| KFstat (fd : Z)           (* the value is st_size *)
| KWrite (fd : Z) (data : list Z)
| KRead (fd n : Z)
| KTruncate (fd size : Z)
| KMmap (fd size : Z)       (* fd -1: anonymous *)
| KMkdir (path : list Z)
| KUnlink (path : list Z)
| KFork
| KSetsid
| KSignal (sig : Z).

(** an answer: value returned, errno after the call, further output;
    not in the code: part of the kernel. *)
Record ans := mkA { rc : Z; errno : Z; val : Z }.

(** Not in the code: the state of the kernel for this process. *)
Record os := mkOs
  { tab : Z -> option obj;          (* open descriptors *)
    maps : list Z;                  (* mappings made *)
    hist : list (call * Z) }.       (* the calls made and their results, latest first *)

(** Not in the code: an entry of the table of descriptors changes. *)
Definition fput (t : Z -> option obj) (fd : Z) (o : option obj) : Z -> option obj :=
  fun i => if i =? fd then o else t i.
(** Not in the code: is the descriptor open. *)
Definition isopen (s : os) (fd : Z) : bool := match tab s fd with Some _ => true | None => false end.
(** Not in the code: is the descriptor open for writing. *)
Definition writable (s : os) (fd : Z) : bool :=
  match tab s fd with Some (OFile _ w) => w | _ => false end.

(** Not in the code: the new table and mappings, or [None] if the kernel cannot answer so. *)
Definition effect (s : os) (c : call) (a : ans) : option ((Z -> option obj) * list Z) :=
  let same := Some (tab s, maps s) in
  let on fd := if rc a <? 0 then same else if isopen s fd then same else None in
  let new o := if rc a <? 0 then same else if isopen s (rc a) then None
               else Some (fput (tab s) (rc a) (Some o), maps s) in
  match c with
  | KOpen p w _ _ => new (OFile p w)
  | KSocket => new OSocket
  | KAccept fd => if rc a <? 0 then same else if isopen s fd then new OConn else None
  | KClose fd =>
      (* like Linux: an open descriptor is released whatever is reported *)
      if isopen s fd then Some (fput (tab s) fd None, maps s)
      else if rc a <? 0 then same else None
  | KDup2 fd nd =>
      if rc a <? 0 then same
      else match tab s fd with
           | Some o => if (rc a =? nd) then Some (fput (tab s) nd (Some o), maps s) else None
           | None => None
           end
  | KNonblk fd _ | KReuse fd | KBind fd | KListen fd _ | KConnect fd | KLock fd | KUnlock fd
  | KFstat fd | KWrite fd _ | KRead fd _ => on fd
  | KTruncate fd _ => if rc a <? 0 then same else if writable s fd then same else None
  | KMmap fd _ =>
      if rc a <? 0 then same
      else if (fd =? -1) || isopen s fd then Some (tab s, rc a :: maps s) else None
  | KMkdir _ | KUnlink _ | KFork | KSetsid | KSignal _ => same
  end.
(** Not in the code: one system call, recorded in the history. *)
Definition kernel (s : os) (c : call) (a : ans) : option os :=
  match effect s c a with
  | Some (t, m) => Some (mkOs t m ((c, rc a) :: hist s))
  | None => None
  end.

(** *** programs *)

(** Not in the code: a C function as a sequence of system calls. *)
Inductive prog (A : Type) : Type :=
| Ret (a : A)
| Call (c : call) (k : ans -> prog A).
Arguments Ret {A} a.
Arguments Call {A} c k.

(** Not in the code: sequencing. *)
Fixpoint pbind {A B} (p : prog A) (f : A -> prog B) : prog B :=
  match p with Ret a => f a | Call c k => Call c (fun a => pbind (k a) f) end.
(** Not in the code: one system call. *)
Definition sys (c : call) : prog ans := Call c Ret.
Notation "x <~ e ;; k" := (pbind e (fun x => k)) (at level 61, e at next level, right associativity).

(** run with the given answers; [None]: impossible or missing answers; not in the code. *)
Fixpoint run {A} (p : prog A) (l : list ans) (s : os) : option (A * os) :=
  match p with
  | Ret a => match l with [] => Some (a, s) | _ => None end
  | Call c k =>
      match l with
      | [] => None
      | a :: l => match kernel s c a with Some s => run (k a) l s | None => None end
      end
  end.

(** *** socket.h *)

(** coda_listen, socket.h:112-150.  The address is not modelled here (see Net_Model.v). *)
Definition coda_listen (backlog nonblock : Z) : prog Z :=
  sd <~ sys KSocket ;;
  if rc sd <? 0 then Ret (-1) else
  let sd := rc sd in
  r <~ (if nonblock =? 0 then Ret 0 else a <~ sys (KNonblk sd nonblock) ;; Ret (rc a)) ;;
  if r <? 0 then (_ <~ sys (KClose sd) ;; Ret (-1)) else
  a <~ sys (KReuse sd) ;;
  if rc a <? 0 then (_ <~ sys (KClose sd) ;; Ret (-1)) else
  a <~ sys (KBind sd) ;;
  if rc a <? 0 then (_ <~ sys (KClose sd) ;; Ret (-1)) else
  a <~ sys (KListen sd backlog) ;;
  if rc a <? 0 then (_ <~ sys (KClose sd) ;; Ret (-1)) else
  Ret sd.

(** coda_accept, socket.h:152-171; second component: the value stored in *ip, if any *)
Definition coda_accept (fd nonblock : Z) : prog (Z * option Z) :=
  sd <~ sys (KAccept fd) ;;
  if rc sd <? 0 then Ret (-1, None) else
  a <~ sys (KNonblk (rc sd) nonblock) ;;
  if rc a <? 0 then (_ <~ sys (KClose (rc sd)) ;; Ret (-1, None)) else
  Ret (rc sd, Some (val sd)).

(** coda_connect, socket.h:173-199 *)
Definition EINPROGRESS : Z := 115.
(** coda_connect, socket.h:173-199 *)
Definition coda_connect (nonblock : Z) : prog Z :=
  sd <~ sys KSocket ;;
  if rc sd <? 0 then Ret (-1) else
  let sd := rc sd in
  r <~ (if nonblock =? 0 then Ret 0 else a <~ sys (KNonblk sd nonblock) ;; Ret (rc a)) ;;
  if r <? 0 then (_ <~ sys (KClose sd) ;; Ret (-1)) else
  a <~ sys (KConnect sd) ;;
  if (rc a <? 0) && negb (EINPROGRESS =? errno a) then (_ <~ sys (KClose sd) ;; Ret (-1)) else
  Ret sd.

(** *** system.c *)

(** coda_fdmove, system.c:7-23 *)
Definition coda_fdmove (fd nd : Z) : prog Z :=
  if (nd <? 0) || (fd =? nd) then Ret fd else
  a <~ sys (KDup2 fd nd) ;;
  if rc a <? 0 then Ret (-1) else
  let nd := rc a in
  a <~ sys (KClose fd) ;;
  if rc a <? 0 then Ret (-1) else Ret nd.

(** coda_fdopen, system.c:25-33 *)
Definition coda_fdopen (fd : Z) (path : list Z) (wr creat app : bool) : prog Z :=
  td <~ sys (KOpen path wr creat app) ;;
  if rc td <? 0 then Ret (-1) else coda_fdmove (rc td) fd.

(** the C string that starts at the beginning of a buffer;
    not in the code: what the kernel reads at a [char *] argument. *)
Fixpoint cstr (b : list Z) : list Z :=
  match b with [] => [] | c :: t => if c =? 0 then [] else c :: cstr t end.

(** coda_mkpath, system.c:35-55: the loop at position [p]; result and the buffer afterwards.  mkdir
    is given the string that the buffer holds at that moment. *)
Definition EEXIST : Z := 17.
(** coda_mkpath, system.c:40-52, the loop *)
Fixpoint mkpath_loop (fuel : nat) (b : list Z) (p : nat) : prog (res (Z * list Z)) :=
  match fuel with
  | O => Ret Fuel
  | S fuel =>
      match rd b p with
      | Ok c =>
          if c =? 0 then Ret (Ok (0, b))
          else if negb (c =? 47) then mkpath_loop fuel b (S p)
          else
            match wr b p 0 with
            | Ok b =>
                a <~ sys (KMkdir (cstr b)) ;;
                match wr b p 47 with
                | Ok b =>
                    if (rc a <? 0) && negb (EEXIST =? errno a) then Ret (Ok (-1, b))
                    else mkpath_loop fuel b (S p)
                | Ub u => Ret (Ub u)
                | Fuel => Ret Fuel
                end
            | Ub u => Ret (Ub u)
            | Fuel => Ret Fuel
            end
      | Ub u => Ret (Ub u)
      | Fuel => Ret Fuel
      end
  end.
(** coda_mkpath, system.c:35-55: the loop starts at the second byte *)
Definition coda_mkpath (b : list Z) : prog (res (Z * list Z)) := mkpath_loop (S (length b)) b 1.

(** coda_mkpidf, system.c:57-116; [text] is the process number in decimal and a newline (snprintf
    with a buffer of 32 bytes does not fail for it).  The part after open (62-63), which
    Pid_Model.v repeats step by step. *)
Definition coda_mkpidf (path text : list Z) : prog Z :=
  fd <~ sys (KOpen path true true false) ;;
  if rc fd <? 0 then Ret (-1) else
  let fd := rc fd in
  a <~ sys (KLock fd) ;;
  if rc a <? 0 then (_ <~ sys (KClose fd) ;; Ret (-1)) else
  st <~ sys (KFstat fd) ;;
  if rc st <? 0 then (_ <~ sys (KUnlock fd) ;; _ <~ sys (KClose fd) ;; Ret (-1)) else
  if 0 <? val st then (_ <~ sys (KUnlock fd) ;; _ <~ sys (KClose fd) ;; Ret (-1)) else
  a <~ sys (KWrite fd text) ;;
  if rc a <? 0 then (_ <~ sys (KUnlock fd) ;; _ <~ sys (KClose fd) ;; Ret (-1)) else
  a <~ sys (KUnlock fd) ;;
  if rc a <? 0 then (_ <~ sys (KClose fd) ;; Ret (-1)) else
  a <~ sys (KClose fd) ;;
  if rc a <? 0 then Ret (-1) else Ret 0.

(** coda_mmap, system.c:128-182; [prot_w]: prot_flags has PROT_WRITE.  Result: return value, and
    area->size and area->data afterwards (the latter unless unset) *)
Definition coda_mmap (size : Z) (prot_w : bool) (filename : option (list Z)) : prog (Z * Z * option Z) :=
  match filename with
  | None =>
      a <~ sys (KMmap (-1) size) ;;
      if rc a <? 0 then Ret (-1, size, Some (rc a)) else Ret (0, size, Some (rc a))
  | Some filename =>
      fd <~ sys (KOpen filename prot_w false false) ;;
      if rc fd <? 0 then Ret (-1, size, None) else
      let fd := rc fd in
      r <~ (if negb (size =? 0) then
              a <~ sys (KTruncate fd size) ;; Ret (rc a, size)
            else
              st <~ sys (KFstat fd) ;; Ret (rc st, if rc st <? 0 then size else val st)) ;;
      let '(r, size) := r in
      if r <? 0 then (_ <~ sys (KClose fd) ;; Ret (-1, size, None)) else
      a <~ sys (KMmap fd size) ;;
      if rc a <? 0 then (_ <~ sys (KClose fd) ;; Ret (-1, size, Some (rc a))) else
      let data := rc a in
      a <~ sys (KClose fd) ;;
      if rc a <? 0 then Ret (-1, size, Some data) else Ret (0, size, Some data)
  end.

(** *** random.c *)

(** coda_random_init, random.c:10-31; [inited] is coda_random_inited.  Result: return value, the
    flag afterwards, and the seed given to srandom: [Some (Some v)] for a value read,
    [Some None] for an indeterminate one (short read) *)
Definition urandom : list Z := zs "/dev/urandom".
(** coda_random_init, random.c:10-31 *)
Definition coda_random_init (inited : bool) : prog (Z * bool * option (option Z)) :=
  if inited then Ret (0, inited, None) else
  fd <~ sys (KOpen urandom false false false) ;;
  if rc fd <? 0 then Ret (-1, inited, None) else
  a <~ sys (KRead (rc fd) 4) ;;
  if rc a <? 0 then Ret (-1, inited, None) else
  _ <~ sys (KClose (rc fd)) ;;
  Ret (0, true, Some (if rc a <? 4 then None else Some (val a))).

(** *** daemon.c *)

(** coda_daemon_fork, daemon.c:62-101; [None]: the process exits (the parent) *)
Definition devnull : list Z := zs "/dev/null".
(** coda_daemon_fork, daemon.c:62-101; umask(0), which cannot fail, is left out *)
Definition coda_daemon_fork : prog (option Z) :=
  a <~ sys KFork ;;
  if rc a <? 0 then Ret (Some (-1)) else
  if 0 <? rc a then Ret None else
  a <~ sys KSetsid ;;
  if rc a <? 0 then Ret (Some (-1)) else
  fd <~ sys (KOpen devnull true false false) ;;
  if rc fd <? 0 then Ret (Some (-1)) else
  let fd := rc fd in
  a <~ sys (KDup2 fd 0) ;;
  if rc a <? 0 then Ret (Some (-1)) else
  a <~ sys (KDup2 fd 1) ;;
  if rc a <? 0 then Ret (Some (-1)) else
  if 2 <? fd then
    a <~ sys (KClose fd) ;;
    if rc a <? 0 then Ret (Some (-1)) else Ret (Some 0)
  else Ret (Some 0).

(** coda_signal_init, daemon.c:210-214: one signal() per entry of the list (147-172); SIG_ERR is a
    negative result *)
Definition sig_list : list Z := [1; 2; 15; 10; 12; 14; 3; 13; 17; 18; 20; 21; 22; 27; 31; 5; 23; 26; 24; 25; 28].
(** coda_signal_init, daemon.c:210-214 *)
Fixpoint signal_init (l : list Z) : prog Z :=
  match l with
  | [] => Ret 0
  | sig :: l => a <~ sys (KSignal sig) ;; if rc a <? 0 then Ret (-1) else signal_init l
  end.

(** coda_daemon_load, daemon.c:103-121 *)
Record opts := mkO { o_config : option (list Z); o_pid : option (list Z); o_daemon : bool }.
(** coda_daemon_load, daemon.c:103-121 *)
Definition coda_daemon_load (o : opts) (text : list Z) : prog (option Z) :=
  r <~ signal_init sig_list ;;
  if r <? 0 then Ret (Some (-1)) else
  r <~ (if o_daemon o then coda_daemon_fork else Ret (Some 0)) ;;
  match r with
  | None => Ret None
  | Some r =>
      if r <? 0 then Ret (Some (-1)) else
      match o_pid o with
      | None => Ret (Some 0)
      | Some p => r <~ coda_mkpidf p text ;; if r <? 0 then Ret (Some (-1)) else Ret (Some 0)
      end
  end.

(** coda_daemon_stop, daemon.c:123-131 *)
Definition coda_daemon_stop (o : opts) : prog Z :=
  match o_pid o with
  | None => Ret 0
  | Some p => a <~ sys (KUnlink p) ;; if rc a <? 0 then Ret (-1) else Ret 0
  end.

(** *** logger.c *)

(** log_create, logger.c:39-46: result and log_level afterwards, [cur] before *)
Definition log_create (path : list Z) (level cur : Z) : prog (res (Z * Z)) :=
  r <~ coda_mkpath path ;;
  match r with
  | Ok (r, path) =>
      if r <? 0 then Ret (Ok (-1, cur)) else
      r <~ coda_fdopen 2 (cstr path) true true true ;;
      if r <? 0 then Ret (Ok (-1, cur)) else Ret (Ok (2, level))
  | Ub u => Ret (Ub u)
  | Fuel => Ret Fuel
  end.
