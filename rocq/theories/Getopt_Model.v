(** Model of coda_getopt_parse (coda/daemon.c:40-60) on whole command lines: getopt_long of
    glibc on the array of arguments, with the option table of daemon.c:12-21. *)

From Coq Require Import ZArith List Bool.
From Verif Require Import Base Fd_Model.
Import ListNotations.
Local Open Scope Z_scope.

(** coda_getopt_opts, daemon.c:12-19: the name, whether it takes an argument, the result *)
Definition long_opts : list (list Z * bool * Z) :=
  [(zs "config", true, 99); (zs "pid", true, 112); (zs "daemon", false, 100); (zs "no-daemon", false, 68)].
(** CODA_GETOPT_OPTS, daemon.c:21 *)
Definition short_opts : list Z := zs "c:p:dD".

(** libc: what getopt_long, called at daemon.c:46-47, keeps between calls: the array of
    arguments (argc is its length), optind, the range of operands already passed, and the
    characters left of a group of one-letter options ([None] is a null pointer) *)
Record gst := mkG { g_argv : list (list Z); g_ind : nat; g_first : nat; g_last : nat; g_next : option (list Z) }.

(** libc: the first call of getopt_long, daemon.c:46-47; optind is 1 at the start *)
Definition g_start (argv : list (list Z)) : gst := mkG argv 1 1 1 None.

(** libc: an argument getopt_long (daemon.c:46-47) takes for an operand: it does not begin
    with a dash, or is a dash alone *)
Definition nonopt (a : list Z) : bool :=
  match a with
  | c :: _ :: _ => negb (c =? 45)
  | _ => true
  end.
(** libc: how many operands stand at the front; the loop in getopt_long, daemon.c:46-47 *)
Fixpoint count_nonopts (l : list (list Z)) : nat :=
  match l with
  | a :: l => if nonopt a then S (count_nonopts l) else O
  | [] => O
  end.

(** libc: exchange of getopt_long (daemon.c:46-47): the operands of the range change places
    with the options that follow them.  The swaps of single pointers are replaced by their
    outcome. *)
Definition g_exchange (st : gst) : gst :=
  let a := firstn (g_first st) (g_argv st) in
  let b := firstn (g_last st - g_first st) (skipn (g_first st) (g_argv st)) in
  let c := firstn (g_ind st - g_last st) (skipn (g_last st) (g_argv st)) in
  let d := skipn (g_ind st) (g_argv st) in
  mkG (a ++ c ++ b ++ d) (g_ind st) (g_first st + (g_ind st - g_last st))%nat (g_ind st) (g_next st).

(** libc: two strings are the same, strcmp == 0; getopt_long, daemon.c:46-47 *)
Fixpoint str_same (a b : list Z) : bool :=
  match a, b with
  | [], [] => true
  | x :: a, y :: b => (x =? y) && str_same a b
  | _, _ => false
  end.

(** libc: the part of getopt_long (daemon.c:46-47) that passes over operands; [posix] tells
    whether POSIXLY_CORRECT is set *)
Definition g_pass (posix : bool) (st : gst) : gst :=
  let st := mkG (g_argv st) (g_ind st) (Nat.min (g_first st) (g_ind st)) (Nat.min (g_last st) (g_ind st)) (g_next st) in
  if posix then st
  else
    let st := if negb (Nat.eqb (g_first st) (g_last st)) && negb (Nat.eqb (g_last st) (g_ind st)) then g_exchange st
              else if negb (Nat.eqb (g_last st) (g_ind st)) then mkG (g_argv st) (g_ind st) (g_ind st) (g_last st) (g_next st)
              else st in
    let i := (g_ind st + count_nonopts (skipn (g_ind st) (g_argv st)))%nat in
    mkG (g_argv st) i (g_first st) i (g_next st).

(** libc: the part of getopt_long (daemon.c:46-47) that passes over "--" and everything
    after it *)
Definition g_dashes (st : gst) : gst :=
  let st := mkG (g_argv st) (S (g_ind st)) (g_first st) (g_last st) (g_next st) in
  let st := if negb (Nat.eqb (g_first st) (g_last st)) && negb (Nat.eqb (g_last st) (g_ind st)) then g_exchange st
            else if Nat.eqb (g_first st) (g_last st) then mkG (g_argv st) (g_ind st) (g_ind st) (g_last st) (g_next st)
            else st in
  mkG (g_argv st) (length (g_argv st)) (g_first st) (length (g_argv st)) (g_next st).

(** libc: the part of getopt_long (daemon.c:46-47) that looks for the next argument with
    options.  [true] in the result: there is none. *)
Definition g_advance (posix : bool) (st : gst) : res (bool * gst) :=
  let st := g_pass posix st in
  let argc := length (g_argv st) in
  dashes <- (if Nat.eqb (g_ind st) argc then Ok false
             else a <- rd (g_argv st) (g_ind st) ;; Ok (str_same a [45; 45])) ;;
  let st := if (dashes : bool) then g_dashes st else st in
  if Nat.eqb (g_ind st) argc then
    Ok (true, if Nat.eqb (g_first st) (g_last st) then st
              else mkG (g_argv st) (g_first st) (g_first st) (g_last st) (g_next st))
  else
    a <- rd (g_argv st) (g_ind st) ;;
    Ok (nonopt a, st).

(** libc: strncmp (p, s, n) == 0 with n the length of s; process_long_option of getopt_long,
    daemon.c:46-47 *)
Fixpoint starts (p s : list Z) {struct s} : bool :=
  match s, p with
  | [], _ => true
  | a :: s, b :: p => (a =? b) && starts p s
  | _ :: _, [] => false
  end.
(** libc: the name before the first '=', and what follows it; getopt_long, daemon.c:46-47 *)
Fixpoint split_eq (s : list Z) : list Z * option (list Z) :=
  match s with
  | [] => ([], None)
  | c :: s => if c =? 61 then ([], Some s) else let '(n, v) := split_eq s in (c :: n, v)
  end.
(** libc: the option a long name stands for: itself, or the only one it abbreviates (two that
    mean the same would do, but the table has none); getopt_long, daemon.c:46-47 *)
Definition find_long (name : list Z) : option (bool * Z) :=
  match find (fun e => str_same (fst (fst e)) name) long_opts with
  | Some (_, h, v) => Some (h, v)
  | None =>
      match filter (fun e => starts (fst (fst e)) name) long_opts with
      | [(_, h, v)] => Some (h, v)
      | _ => None
      end
  end.

(** libc: process_long_option of getopt_long (daemon.c:46-47); [s] is what follows the two
    dashes.  The results are the option, its argument and the state; 63 is '?'.  The messages
    to stderr are left out. *)
Definition g_long (st : gst) (s : list Z) : res (Z * option (list Z) * gst) :=
  let '(name, val) := split_eq s in
  let argv := g_argv st in
  let i := S (g_ind st) in
  let st := mkG argv i (g_first st) (g_last st) None in
  match find_long name with
  | None => Ok (63, None, st)
  | Some (h, v) =>
      match val with
      | Some x => if h then Ok (v, Some x, st) else Ok (63, None, st)
      | None =>
          if h then
            if Nat.ltb i (length argv) then
              a <- rd argv i ;; Ok (v, Some a, mkG argv (S i) (g_first st) (g_last st) None)
            else Ok (63, None, st)
          else Ok (v, None, st)
      end
  end.

(** libc: strchr; the rest of the option letters from [c] on; getopt_long, daemon.c:46-47 *)
Fixpoint strchr_from (c : Z) (l : list Z) : option (list Z) :=
  match l with
  | [] => None
  | x :: l' => if x =? c then Some l else strchr_from c l'
  end.

(** libc: the part of getopt_long (daemon.c:46-47) for one-letter options; [s] is what
    __nextchar points to, never empty *)
Definition g_short (st : gst) (s : list Z) : res (Z * option (list Z) * gst) :=
  c <- rd s 0 ;;
  let more := tl s in
  let argv := g_argv st in
  let i := match more with [] => S (g_ind st) | _ => g_ind st end in
  let st := mkG argv i (g_first st) (g_last st) (Some more) in
  match strchr_from c short_opts with
  | None => Ok (63, None, st)
  | Some from =>
      if (c =? 58) || (c =? 59) then Ok (63, None, st)
      else if nth 1 from 0 =? 58 then
        match more with
        | _ :: _ => Ok (c, Some more, mkG argv (S i) (g_first st) (g_last st) None)
        | [] =>
            if Nat.eqb i (length argv) then Ok (63, None, mkG argv i (g_first st) (g_last st) None)
            else a <- rd argv i ;; Ok (c, Some a, mkG argv (S i) (g_first st) (g_last st) None)
        end
      else Ok (c, None, st)
  end.

(** libc: getopt_long, called at daemon.c:46-47; -1 when there are no more options.  The
    string of options begins with neither '+', '-' nor ':'. *)
Definition getopt_long (posix : bool) (st : gst) : res (Z * option (list Z) * gst) :=
  if Nat.ltb (length (g_argv st)) 1 then Ok (-1, None, st)
  else
    match g_next st with
    | Some ((_ :: _) as s) => g_short st s
    | _ =>
        '(stop, st) <- g_advance posix st ;;
        if stop then Ok (-1, None, st)
        else
          a <- rd (g_argv st) (g_ind st) ;;
          d <- rd a 1 ;;
          if d =? 45 then g_long st (skipn 2 a) else g_short st (skipn 1 a)
    end.

(** coda_getopt_parse, daemon.c:46-57: the loop.  [fuel] bounds the calls. *)
Fixpoint parse_loop (fuel : nat) (posix : bool) (o : opts) (st : gst) : res (Z * opts * gst) :=
  match fuel with
  | O => Fuel
  | S fuel =>
      '(c, arg, st) <- getopt_long posix st ;;
      if c =? -1 then Ok (0, o, st)
      else if c =? 99 then parse_loop fuel posix (mkO arg (o_pid o) (o_daemon o)) st
      else if c =? 112 then parse_loop fuel posix (mkO (o_config o) arg (o_daemon o)) st
      else if c =? 100 then parse_loop fuel posix (mkO (o_config o) (o_pid o) true) st
      else if c =? 68 then parse_loop fuel posix (mkO (o_config o) (o_pid o) false) st
      else Ok (-1, o, st)
  end.

(** coda_getopt_parse, daemon.c:40-60; the structure is cleared on line 44.  [fuel]: no call
    of getopt_long but the last leaves as many characters and arguments as it found. *)
Definition getopt_parse_args (posix : bool) (st : gst) : res (Z * opts * gst) :=
  parse_loop (S (length (concat (g_argv st)) + length (g_argv st))) posix (mkO None None false) st.
