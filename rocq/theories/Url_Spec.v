(** Specifications for url.cpp. *)

From Coq Require Import ZArith List Bool.
From Verif Require Import Base Str_Spec.
Import ListNotations.
Local Open Scope Z_scope.

(** RFC 3986 unreserved characters: ALPHA / DIGIT / "-" / "." / "_" / "~" *)
Definition unreserved (c : Z) : Prop :=
  65 <= c <= 90 \/ 97 <= c <= 122 \/ 48 <= c <= 57 \/ c = 45 \/ c = 46 \/ c = 95 \/ c = 126.
Definition unreservedb (c : Z) : bool :=
  ((65 <=? c) && (c <=? 90)) || ((97 <=? c) && (c <=? 122)) || ((48 <=? c) && (c <=? 57)) ||
  (c =? 45) || (c =? 46) || (c =? 95) || (c =? 126).

(** upper-case hexadecimal digit of 0..15 *)
Definition hexdigit (v : Z) : Z := if v <? 10 then 48 + v else 55 + v.

(** percent-encoding of one byte; [plus]: a blank is '+' *)
Definition pct (c : Z) : list Z := [37; hexdigit (c / 16); hexdigit (c mod 16)].
Definition enc1 (plus : bool) (c : Z) : list Z :=
  if unreservedb c then [c] else if plus && (c =? 32) then [43] else pct c.
Definition url_encode (plus : bool) (s : list Z) : list Z := flat_map (enc1 plus) s.

(** value of a hexadecimal digit of either case; 0 for other characters *)
Definition hexval (c : Z) : Z :=
  if (48 <=? c) && (c <=? 57) then c - 48
  else if (65 <=? c) && (c <=? 70) then c - 55
  else if (97 <=? c) && (c <=? 102) then c - 87 else 0.

(** decoding: '%' followed by two characters, '+', anything else *)
Inductive url_decodes : list Z -> list Z -> Prop :=
| dec_nil : url_decodes [] []
| dec_pct : forall a b s t, url_decodes s t ->
    url_decodes (37 :: a :: b :: s) (hexval a * 16 + hexval b :: t)
| dec_plus : forall s t, url_decodes s t -> url_decodes (43 :: s) (32 :: t)
| dec_copy : forall c s t, c <> 43 -> (c = 37 -> (length s < 2)%nat) ->
    url_decodes s t -> url_decodes (c :: s) (c :: t).

(** [seg] is the text "k d v" with the first [d] after [k]. *)
Definition field (d : Z) (seg k v : list Z) : Prop := seg = k ++ d :: v /\ ~ In d k.

(** the value the segments give to key [k]: the one of the last segment with that
    key, the old one if there is none *)
Definition value_after (d : Z) (segs : list (list Z)) (old : option (list Z)) (k : list Z)
  (new : option (list Z)) : Prop :=
  (exists pre seg post v, segs = pre ++ seg :: post /\ field d seg k v /\
     (forall seg' v', In seg' post -> ~ field d seg' k v') /\ new = Some v)
  \/ ((forall seg v, In seg segs -> ~ field d seg k v) /\ new = old).

(** header lines: CRLF-separated, up to the first empty line *)
Definition crlf : list Z := [13; 10].
Inductive header_lines : list Z -> list (list Z) -> Prop :=
| hl_end : header_lines [] []
| hl_empty : forall s, header_lines (13 :: 10 :: s) []
| hl_last : forall s, s <> [] -> no_occurrence eq crlf s -> header_lines s [s]
| hl_more : forall a s ls, a <> [] -> first_occurrence eq crlf (a ++ crlf ++ s) (length a) ->
    header_lines s ls -> header_lines (a ++ crlf ++ s) (a :: ls).

(** ** The bounded unescape functions *)

Definition hexd (c : Z) : Prop := 48 <= c <= 57 \/ 65 <= c <= 70 \/ 97 <= c <= 102.

(** UTF-8 of the code points the library knows: ASCII without DEL, and U+0080-U+07FF;
    everything else is dropped. *)
Definition utf8_short (v : Z) : list Z :=
  if v <? 127 then [v]
  else if (127 <? v) && (v <? 2048) then [192 + v / 64; 128 + v mod 64] else [].

(** [starts p s]: the text [s] begins with characters satisfying the predicates [p] *)
Fixpoint starts (p : list (Z -> Prop)) (s : list Z) : Prop :=
  match p, s with
  | [], _ => True
  | q :: p, c :: s => q c /\ starts p s
  | _, [] => False
  end.

(** '+', %XX, \xXX, %uXXXX (not followed by a further hex digit), and any other
    character that does not begin an escape *)
Inductive unescapes : list Z -> list Z -> Prop :=
| une_nil : unescapes [] []
| une_plus : forall s t, unescapes s t -> unescapes (43 :: s) (32 :: t)
| une_pct : forall a b s t, hexd a -> hexd b -> unescapes s t ->
    unescapes (37 :: a :: b :: s) (hexval a * 16 + hexval b :: t)
| une_bsx : forall a b s t, hexd a -> hexd b -> unescapes s t ->
    unescapes (92 :: 120 :: a :: b :: s) (hexval a * 16 + hexval b :: t)
| une_uni : forall a b c d s t, hexd a -> hexd b -> hexd c -> hexd d ->
    ~ starts [hexd] s -> unescapes s t ->
    unescapes (37 :: 117 :: a :: b :: c :: d :: s)
      (utf8_short (((hexval a * 16 + hexval b) * 16 + hexval c) * 16 + hexval d) ++ t)
| une_copy : forall c s t, c <> 43 ->
    ~ (c = 37 /\ (starts [hexd; hexd] s \/ starts [eq 117; hexd] s)) ->
    ~ (c = 92 /\ starts [eq 120; hexd; hexd] s) ->
    unescapes s t -> unescapes (c :: s) (c :: t).

(** only escapes of bytes >= 128 are replaced; the grammar has no \xXX below 128 *)
Inductive preunescapes : list Z -> list Z -> Prop :=
| pre_nil : preunescapes [] []
| pre_pct_hi : forall a b s t, hexd a -> hexd b -> 128 <= hexval a * 16 + hexval b ->
    preunescapes s t -> preunescapes (37 :: a :: b :: s) (hexval a * 16 + hexval b :: t)
| pre_pct_lo : forall a b s t, hexd a -> hexd b -> hexval a * 16 + hexval b < 128 ->
    preunescapes s t -> preunescapes (37 :: a :: b :: s) (37 :: a :: b :: t)
| pre_bsx_hi : forall a b s t, hexd a -> hexd b -> 128 <= hexval a * 16 + hexval b ->
    preunescapes s t -> preunescapes (92 :: 120 :: a :: b :: s) (hexval a * 16 + hexval b :: t)
| pre_copy : forall c s t,
    ~ (c = 37 /\ starts [hexd; hexd] s) -> ~ (c = 92 /\ starts [eq 120; hexd; hexd] s) ->
    preunescapes s t -> preunescapes (c :: s) (c :: t).
