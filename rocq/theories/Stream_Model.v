(** A sender and a receiver on a stream socket that use coda_unix_send and coda_unix_recv
    (coda/socket.h:41-64) in loops: the sender goes on with the rest of its data until all is sent,
    the receiver appends what it gets until it has as much as it wants.  The loops are the user's.
    The connection keeps the bytes in order; MSG_NOSIGNAL is left out. *)

From Coq Require Import ZArith List Bool.
From Verif Require Import Base Util_Model Net_Model.
Import ListNotations.
Local Open Scope Z_scope.

(** Not in the code: what the sender has not sent yet, what is on its way, what was received. *)
Record chan := mkC { c_left : list Z; c_wire : list Z; c_got : list Z }.

Section Stream.
Variable maxrw : Z.       (* the most that one send or recv transfers; 0x7ffff000 on Linux *)

(** Not in the code: the calls of recv within one call of coda_unix_recv (socket.h:54), with a
    buffer of [n] bytes: the answers, what is on its way and in the buffer before and after.
    -1 takes nothing; everything else takes that many bytes from the connection and puts them at
    the beginning of the buffer. *)
Inductive krecv (n : nat) : list Z -> list Z -> list (Z * Z) -> list Z -> list Z -> Prop :=
| kr_nil : forall w b, krecv n w b [] w b
| kr_fail : forall w b e answers w' b', krecv n w b answers w' b' ->
    krecv n w b ((-1, e) :: answers) w' b'
| kr_data : forall w b r e answers w' b',
    0 <= r -> r <= Z.of_nat n -> r <= Z.of_nat (length w) -> r <= maxrw ->
    krecv n (skipn (Z.to_nat r) w) (firstn (Z.to_nat r) w) answers w' b' ->
    krecv n w b ((r, e) :: answers) w' b'.

(** Not in the code: one round of the sender, which hands over [n] bytes (socket.h:41-45), or one of
    the receiver, which asks for [n] bytes (socket.h:47-64).  A negative result is a failure, after
    which the loop tries again or stops. *)
Inductive cstep (want : nat) : chan -> chan -> Prop :=
| c_send : forall left wire got n r, (n <= length left)%nat ->
    (r = -1 \/ 0 <= r /\ r <= Z.of_nat n /\ r <= maxrw) ->
    cstep want (mkC left wire got)
      (mkC (let rc := unix_send r in if rc <? 0 then left else skipn (Z.to_nat rc) left)
           (wire ++ firstn (Z.to_nat r) left) got)
| c_recv : forall left wire got n answers wire' buf rc, (length got + n <= want)%nat ->
    krecv n wire [] answers wire' buf -> unix_recv answers = Ok (rc, []) ->
    cstep want (mkC left wire got)
      (mkC left wire' (got ++ (if rc <? 0 then [] else firstn (Z.to_nat rc) buf))).

(** Not in the code: any number of rounds. *)
Inductive crounds (want : nat) (c0 : chan) : chan -> Prop :=
| cr_nil : crounds want c0 c0
| cr_snoc : forall c c', crounds want c0 c -> cstep want c c' -> crounds want c0 c'.
End Stream.
