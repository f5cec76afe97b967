(** Specification of references relative to any parent, also to one whose scheme is written
    with an upper-case 'S': how the text of the parent is divided. *)

From Coq Require Import ZArith List Bool.
From Verif Require Import Base Str_Spec UrlP_Model UrlP_Spec.
Import ListNotations.
Local Open Scope Z_scope.

(** The text is cut before its first '/' at or after offset 7, or 8 when the fifth character
    is a lower-case 's'.  What comes before is kept for every reference, what follows is the
    path (and the query).  For "HTTPS://host/a" the kept part is "HTTPS:/" and the path is
    "/host/a". *)
Definition divided (text : list Z) (p : parts) : Prop :=
  text = text_of p /\
  length (p_scheme p) = (if nth 4 text 0 =? 115 then 8%nat else 7%nat) /\
  ~ In 47 (p_host p) /\ ~ In 63 (p_scheme p ++ p_host p) /\
  p_segs p <> [] /\ Forall slash_free (p_segs p) /\ Forall no_query (p_segs p) /\
  starts_or_empty 63 (p_args p).

(** the domain of a URL: lower-case characters of host names *)
Definition domain_text (d : list Z) : Prop := Forall host_char d /\ map lower d = d.

(** an object that holds the text [text_of p] and the domain [d], each with a NUL behind *)
Definition holds (x : url) (p : parts) (d : list Z) : Prop :=
  divided (text_of p) p /\ domain_text d /\
  exists junk, x = mkUrl (text_of p ++ 0 :: d ++ 0 :: junk) (length (text_of p)) (length (text_of p) + 1) (length d).

(** the division of the URL with the parts [p]: with an upper-case 'S' the host becomes the
    first segment of the path *)
Definition seen (p : parts) : parts :=
  if nth 4 (p_scheme p) 0 =? 83
  then mkParts (firstn 7 (p_scheme p)) [] (p_host p :: p_segs p) (p_args p)
  else p.

(** every object that a sequence of calls can make, with any parents *)
Inductive made : url -> Prop :=
| made_abs : forall mem0 u t flags x, readable u t 8 -> t <> [] -> length mem0 = abs_size (length t) ->
    create_absolute mem0 None (Some u) (length t) flags = Ok (0, Some x) -> made x
| made_rel : forall mem0 u t flags parent x, readable u t 11 -> t <> [] ->
    length mem0 = rel_size (length t) parent -> made parent ->
    create_relative mem0 None (Some u) (length t) flags (Some parent) = Ok (0, Some x) -> made x.
