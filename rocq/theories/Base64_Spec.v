(** Specification of Base 64 (RFC 4648 section 4/5), independent of the model:
    arithmetic on 24-bit groups and character ranges, no tables, no buffers. *)

From Coq Require Import ZArith List Bool.
From Verif Require Import Base.
Import ListNotations.
Local Open Scope Z_scope.

Section Spec.
  Variables c62 c63 pad : Z.  (* the two alphabet characters that vary, and the padding *)

  (** RFC 4648 table 1/2: the character for a 6-bit value. *)
  Definition rfc_char (v : Z) : Z :=
    if v <? 26 then 65 + v
    else if v <? 52 then 97 + (v - 26)
    else if v <? 62 then 48 + (v - 52)
    else if v =? 62 then c62 else c63.

  (** and back *)
  Definition rfc_value (c : Z) : option Z :=
    if (65 <=? c) && (c <=? 90) then Some (c - 65)
    else if (97 <=? c) && (c <=? 122) then Some (c - 97 + 26)
    else if (48 <=? c) && (c <=? 57) then Some (c - 48 + 52)
    else if c =? c62 then Some 62
    else if c =? c63 then Some 63
    else None.

  Definition group (n : Z) : list Z :=
    [ rfc_char (n / 262144); rfc_char (n / 4096 mod 64);
      rfc_char (n / 64 mod 64); rfc_char (n mod 64) ].

  Fixpoint rfc_encode (l : list Z) : list Z :=
    match l with
    | [] => []
    | [a] => firstn 2 (group (a * 65536)) ++ [pad; pad]
    | [a; b] => firstn 3 (group (a * 65536 + b * 256)) ++ [pad]
    | a :: b :: c :: t => group (a * 65536 + b * 256 + c) ++ rfc_encode t
    end.

  (** Texts a decoder must accept: groups of four alphabet characters, the last
      group may end in one or two padding characters. *)
  Inductive well_formed : list Z -> Prop :=
  | wf_nil : well_formed []
  | wf_pad2 a b : rfc_value a <> None -> rfc_value b <> None -> well_formed [a; b; pad; pad]
  | wf_pad1 a b c : rfc_value a <> None -> rfc_value b <> None -> rfc_value c <> None ->
      well_formed [a; b; c; pad]
  | wf_quad a b c d t : rfc_value a <> None -> rfc_value b <> None -> rfc_value c <> None ->
      rfc_value d <> None -> well_formed t -> well_formed (a :: b :: c :: d :: t).

  (** Values of the leading alphabet characters. *)
  Fixpoint leading_values (l : list Z) : list Z :=
    match l with
    | [] => []
    | c :: t => match rfc_value c with Some v => v :: leading_values t | None => [] end
    end.

  (** The complete octets of the bit string 6 bits per value. *)
  Fixpoint octets (vs : list Z) : list Z :=
    match vs with
    | a :: b :: c :: d :: t =>
      let n := a * 262144 + b * 4096 + c * 64 + d in
      (n / 65536) :: (n / 256 mod 256) :: (n mod 256) :: octets t
    | [a; b; c] =>
      let n := a * 262144 + b * 4096 + c * 64 in [n / 65536; n / 256 mod 256]
    | [a; b] => [(a * 262144 + b * 4096) / 65536]
    | _ => []
    end.

  (** What a decoder produces from a text. *)
  Definition rfc_decoded (l : list Z) : list Z := octets (leading_values l).
End Spec.

(** length of the encoding of n bytes *)
Definition rfc_length (n : nat) : nat := (4 * ((n + 2) / 3))%nat.
