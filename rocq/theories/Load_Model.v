(** Model of load_from_file, load_from_string and the life of the parser; coda/txml.cpp:11-111.

    expat and the stream functions of the C library are parameters: an expat is what
    XML_ParserCreate returns and what XML_Parse does with a piece of text, that is the
    handler calls it makes and whether it reports an error.  The text of the exceptions is
    not modelled. *)

From Coq Require Import ZArith List Bool.
From Verif Require Import Base Txml_Model.
Import ListNotations.
Local Open Scope Z_scope.

(** txml.cpp:9 BUFSZ *)
Definition BUFSZ : nat := Z.to_nat 4096.

(** expat as seen from txml.cpp:83-87 and 99: a parser, or null, and XML_Parse *)
Record expat := mkX {
  x_st : Type;
  x_new : option x_st;                                   (* XML_ParserCreate *)
  x_parse : x_st -> list Z -> bool -> x_st * list event * bool  (* XML_Parse: new state, handler calls, no error *)
}.

(** Not in the code: what the functions of txml.cpp:9-110 do with resources, in order: XML_ParserCreate and XML_ParserFree
    (83, 92), fopen and fclose (16, 41, 45), a piece given to XML_Parse (99) *)
Inductive act := Create | Free | Open | Close | Feed (d : list Z) (fin : bool).
(** how a function ends; txml.cpp:20, 33, 42, 107 *)
Inductive outcome := Loaded | Thrown.

(** Not in the code: state of a load: the parser, the handlers' state, the log *)
Record ld (X : expat) := mkL { l_x : x_st X; l_st : st; l_log : list act }.
Arguments mkL {X}. Arguments l_x {X}. Arguments l_st {X}. Arguments l_log {X}.

(** txml_parser::txml_parser, txml.cpp:80-88; XML_SetUserData dereferences a null parser *)
Definition parser_new (X : expat) (v : val) : res (ld X) :=
  match x_new X with
  | None => Ub NullDeref
  | Some p => Ok (mkL p (mkSt [] [] v) [Create])
  end.

(** txml_parser::parse, txml.cpp:95-103.  The length is converted to unsigned int and then to
    int; a negative length breaks the contract of XML_Parse.  [false]: an exception. *)
Definition parse {X} (t : ty) (l : ld X) (d : list Z) (len : Z) (fin : bool) : res (ld X * bool) :=
  let n := len mod 2 ^ 32 in
  if 2 ^ 31 <=? n then Ub BadLib else
  let d := firstn (Z.to_nat n) d in
  let '(p, evs, ok) := x_parse X (l_x l) d fin in
  s <- handle t evs (l_st l) ;;
  Ok (mkL p s (l_log l ++ [Feed d fin]), ok).

(** note in the log; txml.cpp:16, 41, 45, 92 *)
Definition note {X} (l : ld X) (a : act) : ld X := mkL (l_x l) (l_st l) (l_log l ++ [a]).
(** the end of the function: the parser's destructor, txml.cpp:90-93 *)
Definition leave {X} (l : ld X) (o : outcome) : res (outcome * val * list act) :=
  Ok (o, root (l_st l), l_log l ++ [Free]).

(** load_from_string with a length, txml.cpp:54-58 *)
Definition load_from_string_n (X : expat) (t : ty) (v : val) (s : list Z) (len : Z)
  : res (outcome * val * list act) :=
  l <- parser_new X v ;;
  '(l, ok) <- parse t l s len true ;;
  leave l (if ok : bool then Loaded else Thrown).
(** strlen(3), txml.cpp:51 *)
Fixpoint strlen (s : list Z) : res Z :=
  match s with
  | [] => Ub OobRead
  | c :: s => if c =? 0 then Ok 0 else n <- strlen s ;; Ok (n + 1)
  end.
(** load_from_string, txml.cpp:48-52 *)
Definition load_from_string (X : expat) (t : ty) (v : val) (s : list Z)
  : res (outcome * val * list act) :=
  n <- strlen s ;; load_from_string_n X t v s n.

(** a stream: what is left of the file and the end-of-file indicator; used in 27-37 *)
Record stream := mkF { f_rest : list Z; f_eof : bool }.
(** fread(3) of BUFSZ bytes, txml.cpp:29: [None] if the error indicator is set, otherwise
    less than BUFSZ bytes at the end of the file only, where the indicator is set *)
Definition fread (bad : bool) (f : stream) : option (list Z * stream) :=
  if bad then None
  else if (length (f_rest f) <? BUFSZ)%nat then Some (f_rest f, mkF [] true)
  else Some (firstn BUFSZ (f_rest f), mkF (skipn BUFSZ (f_rest f)) false).

(** the loop, txml.cpp:27-37; [bad i] says whether the i-th read fails *)
Fixpoint read_loop {X} (fuel : nat) (bad : nat -> bool) (t : ty) (i : nat) (f : stream) (l : ld X)
  : res (ld X * outcome) :=
  if f_eof f then Ok (l, Loaded)                                     (* 27 *)
  else match fuel with O => Fuel | S fuel =>
    match fread (bad i) f with                                       (* 29 *)
    | None => Ok (l, Thrown)                                         (* 31-34 *)
    | Some (d, f) =>
        '(l, ok) <- parse t l d (Z.of_nat (length d)) (f_eof f) ;;   (* 36 *)
        if ok : bool then read_loop fuel bad t (S i) f l else Ok (l, Thrown)
    end end.
(** load_from_file, txml.cpp:11-46; [file] is what fopen finds, [None] if it fails *)
Definition load_from_file (X : expat) (file : option (list Z)) (bad : nat -> bool) (t : ty) (v : val)
  : res (outcome * val * list act) :=
  l <- parser_new X v ;;                                             (* 13 *)
  match file with
  | None => leave l Thrown                                           (* 18-21 *)
  | Some c =>
      let l := note l Open in
      '(l, o) <- read_loop (S (length c)) bad t 0 (mkF c false) l ;;
      leave (note l Close) o                                         (* 39-45 *)
  end.
