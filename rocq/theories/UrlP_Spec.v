(** Specification of the URL parser: the parts of a URL and its normal form. *)

From Coq Require Import ZArith List Bool.
From Verif Require Import Base Str_Spec.
Import ListNotations.
Local Open Scope Z_scope.

(** ** Paths as lists of segments *)

(** "/a/b/c" is the list of its segments a, b, c *)
Definition render (segs : list (list Z)) : list Z := concat (map (cons 47) segs).
Definition slash_free (s : list Z) : Prop := ~ In 47 s.
Definition no_query (s : list Z) : Prop := ~ In 63 s.

(** the directory stack after walking along the segments *)
Definition walk_seg (st : list (list Z)) (s : list Z) : list (list Z) :=
  match s with
  | [] => st                          (* empty *)
  | [46] => st                        (* . *)
  | [46; 46] => removelast st         (* .. *)
  | _ => st ++ [s]
  end.
Definition walk_segs (st segs : list (list Z)) : list (list Z) := fold_left walk_seg segs st.
(** a segment that names a directory *)
Definition dir_seg (s : list Z) : bool :=
  match s with [] | [46] | [46; 46] => true | _ => false end.

(** the normal form of the path with the segments [segs] *)
Definition normal_path (fetch : bool) (segs : list (list Z)) : list Z :=
  match walk_segs [] segs with
  | [] => [47]
  | st => render st ++ (if dir_seg (last segs []) && fetch then [47] else [])
  end.

(** ** Hosts *)

Definition lower (c : Z) : Z := if (65 <=? c) && (c <=? 90) then c + 32 else c.
(** letters, digits, '.', ':', '-', '_' *)
Definition host_char (c : Z) : Prop :=
  97 <= c <= 122 \/ 65 <= c <= 90 \/ 48 <= c <= 57 \/ c = 46 \/ c = 58 \/ c = 45 \/ c = 95.
Definition no_outer_dots (h : list Z) : Prop := hd 0 h <> 46 /\ last h 0 <> 46.

(** The last two labels of the host: everything after the last but one dot.  A dot
    directly before the last dot does not count. *)
Inductive domain_of : list Z -> list Z -> Prop :=
| dom_none : forall h, ~ In 46 h -> domain_of h h
| dom_one : forall a b, ~ In 46 b -> ~ In 46 (removelast a) -> domain_of (a ++ 46 :: b) (a ++ 46 :: b)
| dom_two : forall pre a x b, ~ In 46 b -> ~ In 46 a ->
    domain_of (pre ++ 46 :: (a ++ [x]) ++ 46 :: b) ((a ++ [x]) ++ 46 :: b).

(** ** URLs *)

(** [t] begins with the scheme [p], in any letter case *)
Definition has_scheme (p t s r : list Z) : Prop := t = s ++ r /\ Forall2 eq_case s p.
Definition scheme_of (t s r : list Z) : Prop :=
  has_scheme (zs "http://") t s r \/ has_scheme (zs "https://") t s r \/
  ((forall s' r', ~ has_scheme (zs "http://") t s' r' /\ ~ has_scheme (zs "https://") t s' r') /\
   s = zs "http://" /\ r = t).

Definition add_slash (t : list Z) : list Z :=
  match t with 47 :: _ => t | _ => 47 :: t end.
Definition starts_or_empty (c : Z) (t : list Z) : Prop := t = [] \/ exists t', t = c :: t'.

(** a path with a query: segments and the query with its '?' *)
Definition path_query (t : list Z) (segs : list (list Z)) (args : list Z) : Prop :=
  t = render segs ++ args /\ segs <> [] /\ Forall slash_free segs /\ Forall no_query segs /\
  starts_or_empty 63 args.

(** the text without the fragment *)
Definition cut_fragment (t t' : list Z) : Prop :=
  exists frag, t = t' ++ frag /\ ~ In 35 t' /\ starts_or_empty 35 frag.

Record parts := mkParts { p_scheme : list Z; p_host : list Z; p_segs : list (list Z); p_args : list Z }.

(** the parts of the absolute URL [t] *)
Inductive absolute (t : list Z) : parts -> Prop :=
| absolute_intro : forall scheme rest text dots1 host dots2 tail segs args,
    scheme_of t scheme rest ->
    cut_fragment rest text ->
    text = dots1 ++ host ++ dots2 ++ tail ->
    Forall (eq 46) dots1 -> Forall (eq 46) dots2 -> no_outer_dots host ->
    Forall host_char host -> (host = [] -> dots2 = []) ->
    (forall c, hd_error tail = Some c -> ~ host_char c) ->
    path_query (add_slash tail) segs args ->
    absolute t (mkParts scheme (map lower host) segs args).

(** the normal form: the text of the URL *)
Definition normal (fetch : bool) (p : parts) : list Z :=
  p_scheme p ++ p_host p ++ normal_path fetch (p_segs p) ++ p_args p.

(** ** References relative to a parent URL, given by its parts (with a normal path) *)
Inductive relative (parent : parts) (t : list Z) : parts -> Prop :=
| rel_root : forall text segs args,                  (* "/..." : on the parent's host *)
    cut_fragment t text -> hd 0 t = 47 ->
    path_query text segs args ->
    relative parent t (mkParts (p_scheme parent) (p_host parent) segs args)
| rel_dir : forall text segs args,                   (* in the parent's directory *)
    cut_fragment t text -> hd 0 t <> 47 ->
    path_query (render (removelast (p_segs parent)) ++ 47 :: text) segs args ->
    relative parent t (mkParts (p_scheme parent) (p_host parent) segs args).

(** ** Texts in normal form *)

(** the parts of a URL in normal form: lower-case host, no fragment *)
Definition valid_parts (p : parts) : Prop :=
  (Forall2 eq_case (p_scheme p) (zs "http://") \/ Forall2 eq_case (p_scheme p) (zs "https://")) /\
  Forall host_char (p_host p) /\ map lower (p_host p) = p_host p /\ no_outer_dots (p_host p) /\
  p_segs p <> [] /\ Forall slash_free (p_segs p) /\ Forall no_query (p_segs p) /\
  starts_or_empty 63 (p_args p) /\ ~ In 35 (render (p_segs p) ++ p_args p).
Definition text_of (p : parts) : list Z := p_scheme p ++ p_host p ++ render (p_segs p) ++ p_args p.

(** ** Conditions on the arguments *)

(** the text [t] of [sz] bytes is the beginning of the readable bytes [u], of which the
    code reads at least [need] unless the first one is NUL, and a scheme at the beginning of
    [u] is part of [t] *)
Definition enough (u : list Z) (need : nat) : Prop := (need <= length u)%nat \/ hd_error u = Some 0.
Definition readable (u t : list Z) (need : nat) : Prop :=
  (exists j, u = t ++ j) /\ enough u need /\
  (forall s r, has_scheme (zs "http://") u s r -> (7 <= length t)%nat) /\
  (forall s r, has_scheme (zs "https://") u s r -> (8 <= length t)%nat).

(** mailto:, javascript: and '#' *)
Definition refused (u : list Z) : Prop :=
  (exists s r, has_scheme (zs "mailto:") u s r) \/ (exists s r, has_scheme (zs "javascript:") u s r) \/
  hd 0 u = 35.

(** the fifth character of the scheme is not an upper-case 'S' *)
Definition plain_scheme (p : parts) : Prop := nth_error (p_scheme p) 4 <> Some 83.
