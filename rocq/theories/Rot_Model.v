(** Model of log files that are opened and rotated while any number of threads write to the log:
    log_create and log_rotate (coda/logger.c:39-46, logger.h:81-82) with coda_mkpath and
    coda_fdopen (coda/system.c:7-55), and the fprintf of log_fmt (logger.h:51-73), system call
    by system call.  All threads share the descriptors, the level and the texts of the paths.

    The file system is what is needed of it: what each name stands for, and the contents of each
    file.  Another process may rename and remove files (that is what log rotation is for).
    [Fd_Model.log_create] is the same function for one thread, with all failures. *)
From Coq Require Import ZArith List Bool Arith.
From Verif Require Import Base.
Import ListNotations.
Local Open Scope Z_scope.

(** Not in the code: what a name stands for. *)
Inductive node := Dir | File (f : nat).

(** where a thread is; lines of logger.h:51-73, logger.c:39-46 and system.c:7-55 *)
Inductive pc :=
| Out
| Fmt (cs : list (list Z))                 (* in fprintf, logger.h:63 or 68: what is still to be written *)
| Scan (b : nat) (lv : Z) (p : nat)        (* system.c:40-42; [b]: the text of the path, [lv]: the level to set *)
| Cut (b : nat) (lv : Z) (p : nat)         (* system.c:44 *)
| Mk (b : nat) (lv : Z) (p : nat)          (* system.c:45 *)
| Back (b : nat) (lv : Z) (p : nat) (ok : bool)   (* system.c:46-51 *)
| Opn (b : nat) (lv : Z)                   (* system.c:29 *)
| Dup (lv : Z) (td : nat)                  (* system.c:14 *)
| Cls (lv : Z) (td : nat)                  (* system.c:17 *)
| Lev (lv : Z)                             (* logger.c:44 *)
| Rtn (rc : Z).                            (* logger.c:41, 42, 45 *)

(** Not in the code: the process and the file system. *)
Record sys := mkS {
  fd : nat -> option nat;                  (* descriptors and the files they stand for *)
  nam : list Z -> option node;             (* names *)
  dat : nat -> list Z;                     (* contents of the files *)
  nxt : nat;                               (* first unused file *)
  buf : nat -> list Z;                     (* the texts of the paths, with their terminators *)
  lev : Z;                                 (* log_level, logger.c:9 *)
  lck : option nat;                        (* the lock of the stream stderr *)
  thr : nat -> pc }.

(** Not in the code: update of a function at one point. *)
Definition put {A} (f : nat -> A) (i : nat) (v : A) : nat -> A := fun j => if Nat.eqb j i then v else f j.
(** Not in the code: the same for names. *)
Definition putn (f : list Z -> option node) (q : list Z) (v : option node) : list Z -> option node :=
  fun r => if list_eq_dec Z.eq_dec r q then v else f r.
(** Not in the code: the text in front of the terminator. *)
Fixpoint cstr (l : list Z) : list Z :=
  match l with [] => [] | x :: l => if x =? 0 then [] else x :: cstr l end.

(** Not in the code: what can be observed. *)
Inductive ev :=
| EMsg (i : nat) (cs : list (list Z))            (* a message is given to fprintf, which will write it in these pieces *)
| EWrite (i f : nat) (c : list Z)                (* write(2, c) appends c to file f *)
| ELost (i : nat) (c : list Z)                   (* write(2, c) finds the descriptor closed *)
| EWrFail (i : nat) (c : list Z)                 (* write fails for another reason *)
| EEnd (i : nat)                                 (* the fprintf returns *)
| ECall (i b : nat) (lv : Z)                     (* log_create or log_rotate is called *)
| EMkdir (i : nat) (q : list Z)
| EOpen (i : nat) (q : list Z) (td f : nat)
| EDup (i td : nat)
| EDupFail (i td : nat)
| ERet (i : nat) (rc : Z)                        (* log_create returns *)
| EMove (q r : list Z)                           (* another process renames *)
| ERemove (q : list Z)                           (* or removes a file *)
| ETau (i : nat).

(** Not in the code: who does something, and how it turns out. *)
Inductive act :=
| AMsg (i : nat) (cs : list (list Z))
| ACreate (i b : nat) (lv : Z)
| ARotate (i b : nat)
| AGo (i : nat)                                  (* thread i does its next step *)
| AFail (i : nat)                                (* thread i's next system call fails *)
| AOpen (i td : nat)                             (* thread i's open gives the descriptor td *)
| AMove (q r : list Z)
| ARemove (q : list Z).

(** Not in the code: thread [i] moves to [c]. *)
Definition go (s : sys) (i : nat) (c : pc) : sys :=
  mkS (fd s) (nam s) (dat s) (nxt s) (buf s) (lev s) (lck s) (put (thr s) i c).
(** Not in the code: thread [i] moves to [c], the descriptors change. *)
Definition go_fd (s : sys) (i : nat) (c : pc) (d : nat -> option nat) : sys :=
  mkS d (nam s) (dat s) (nxt s) (buf s) (lev s) (lck s) (put (thr s) i c).
(** Not in the code: thread [i] moves to [c], the names change. *)
Definition go_nam (s : sys) (i : nat) (c : pc) (n : list Z -> option node) : sys :=
  mkS (fd s) n (dat s) (nxt s) (buf s) (lev s) (lck s) (put (thr s) i c).
(** Not in the code: thread [i] moves to [c], the text [b] changes. *)
Definition go_buf (s : sys) (i : nat) (c : pc) (b : nat) (t : list Z) : sys :=
  mkS (fd s) (nam s) (dat s) (nxt s) (put (buf s) b t) (lev s) (lck s) (put (thr s) i c).

(** the next step of a thread whose system calls succeed; system.c:7-55, logger.c:39-46,
    logger.h:63, 68.  fprintf holds the lock of the stream from its beginning to its end; the
    stream has no buffer, so that each piece is one write, and O_APPEND (logger.c:42) makes it
    go to the end of the file.  Simplified: names are not followed through the directories in
    front of them; an open whose directory is missing is an open that fails. *)
Definition advance (s : sys) (i : nat) : option (ev * sys) :=
  match thr s i with
  | Out => None
  | Fmt [] => Some (EEnd i, mkS (fd s) (nam s) (dat s) (nxt s) (buf s) (lev s) None (put (thr s) i Out))
  | Fmt (c :: cs) =>
    match fd s 2 with
    | Some f => Some (EWrite i f c, mkS (fd s) (nam s) (put (dat s) f (dat s f ++ c)) (nxt s) (buf s) (lev s) (lck s) (put (thr s) i (Fmt cs)))
    | None => Some (ELost i c, go s i (Fmt cs))
    end
  | Scan b lv p =>
    match nth_error (buf s b) p with
    | None => None
    | Some x => Some (ETau i, go s i (if x =? 0 then Opn b lv else if x =? 47 then Cut b lv p else Scan b lv (S p)))
    end
  | Cut b lv p => Some (ETau i, go_buf s i (Mk b lv p) b (upd (buf s b) p 0))
  | Mk b lv p =>
    let q := cstr (buf s b) in
    Some (EMkdir i q, go_nam s i (Back b lv p true)
      (match nam s q with Some _ => nam s (* EEXIST, 48 *) | None => putn (nam s) q (Some Dir) end))
  | Back b lv p ok =>
    Some (ETau i, go_buf s i (if ok : bool then Scan b lv (S p) else Rtn (-1)) b (upd (buf s b) p 47))
  | Opn _ _ => None
  | Dup lv td => Some (EDup i td, go_fd s i (Cls lv td) (put (fd s) 2 (fd s td)))
  | Cls lv td => Some (ETau i, go_fd s i (Lev lv) (put (fd s) td None))
  | Lev lv => Some (ETau i, mkS (fd s) (nam s) (dat s) (nxt s) (buf s) lv (lck s) (put (thr s) i (Rtn 2)))
  | Rtn rc => Some (ERet i rc, go s i Out)
  end.
(** a system call of a thread fails; system.c:14-15, 17-20, 30, 48-51, logger.c:41-42.  A close
    that fails has released the descriptor. *)
Definition failing (s : sys) (i : nat) : option (ev * sys) :=
  match thr s i with
  | Fmt (c :: cs) => Some (EWrFail i c, go s i (Fmt cs))
  | Mk b lv p => Some (ETau i, go s i (Back b lv p false))
  | Opn b lv => Some (ETau i, go s i (Rtn (-1)))
  | Dup lv td => Some (EDupFail i td, go s i (Rtn (-1)))
  | Cls lv td => Some (ETau i, go_fd s i (Rtn (-1)) (put (fd s) td None))
  | _ => None
  end.
(** open(path, O_CREAT|O_APPEND|O_WRONLY) succeeds with some free descriptor; system.c:29, 32 and
    the test of 9.  Simplified: any free one, POSIX says the smallest. *)
Definition opened (s : sys) (i td : nat) : option (ev * sys) :=
  match thr s i with
  | Opn b lv =>
    match fd s td with
    | Some _ => None
    | None =>
      let q := cstr (buf s b) in
      let c := if Nat.eqb td 2 then Lev lv else Dup lv td in
      match nam s q with
      | Some Dir => None                                     (* EISDIR *)
      | Some (File f) => Some (EOpen i q td f, go_fd s i c (put (fd s) td (Some f)))
      | None => Some (EOpen i q td (nxt s),
          mkS (put (fd s) td (Some (nxt s))) (putn (nam s) q (Some (File (nxt s)))) (put (dat s) (nxt s) [])
            (S (nxt s)) (buf s) (lev s) (lck s) (put (thr s) i c))
      end
    end
  | _ => None
  end.
(** Not in the code: one step of the system.  log_rotate reads the level when it is called
    (logger.h:82); coda_mkpath begins with the second character (system.c:38). *)
Definition fire (s : sys) (a : act) : option (ev * sys) :=
  match a with
  | AMsg i cs =>
    match thr s i, lck s with
    | Out, None => Some (EMsg i cs, mkS (fd s) (nam s) (dat s) (nxt s) (buf s) (lev s) (Some i) (put (thr s) i (Fmt cs)))
    | _, _ => None
    end
  | ACreate i b lv => match thr s i with Out => Some (ECall i b lv, go s i (Scan b lv 1)) | _ => None end
  | ARotate i b => match thr s i with Out => Some (ECall i b (lev s), go s i (Scan b (lev s) 1)) | _ => None end
  | AGo i => advance s i
  | AFail i => failing s i
  | AOpen i td => opened s i td
  | AMove q r => Some (EMove q r, mkS (fd s) (putn (putn (nam s) r (nam s q)) q None) (dat s) (nxt s) (buf s) (lev s) (lck s) (thr s))
  | ARemove q => Some (ERemove q, mkS (fd s) (putn (nam s) q None) (dat s) (nxt s) (buf s) (lev s) (lck s) (thr s))
  end.
(** Not in the code: steps. *)
Definition step (s : sys) (e : ev) (s' : sys) : Prop := exists a, fire s a = Some (e, s').
(** Not in the code: any number of steps. *)
Inductive runs (s0 : sys) : list ev -> sys -> Prop :=
| runs_nil : runs s0 [] s0
| runs_snoc : forall tr s e s', runs s0 tr s -> step s e s' -> runs s0 (tr ++ [e]) s'.
