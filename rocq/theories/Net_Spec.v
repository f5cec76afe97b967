(** What an address, a port and a timeout in text or numbers denote. *)

From Coq Require Import ZArith List.
From Verif Require Import Base.
Import ListNotations.
Local Open Scope Z_scope.

Definition digit (c : Z) : Prop := 48 <= c <= 57.
Definition decimal (s : list Z) : Z := fold_left (fun a c => a * 10 + (c - 48)) s 0.

(** a number from 0 to 255 in decimal *)
Definition octet (s : list Z) (v : Z) : Prop :=
  s <> [] /\ Forall digit s /\ decimal s = v /\ v < 256.

(** the text a.b.c.d *)
Definition dotted (s s1 s2 s3 s4 : list Z) : Prop := s = s1 ++ [46] ++ s2 ++ [46] ++ s3 ++ [46] ++ s4.
Definition quad (s : list Z) (a b c d : Z) : Prop :=
  exists s1 s2 s3 s4, dotted s s1 s2 s3 s4 /\ octet s1 a /\ octet s2 b /\ octet s3 c /\ octet s4 d.

(** a socket address holds the four bytes in this order *)
Definition network_order (a b c d : Z) : list Z := [a; b; c; d].

(** a timeval the kernel accepts, and the microseconds it stands for *)
Definition good_timeval (tv : Z * Z) : Prop := 0 <= snd tv < 1000000.
Definition microseconds (tv : Z * Z) : Z := fst tv * 1000000 + snd tv.

(** white space in the C locale *)
Definition white (c : Z) : Prop := 9 <= c <= 13 \/ c = 32.
