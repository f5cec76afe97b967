(** Command lines as the usage text of daemon.c and the conventions of GNU programs describe
    them. *)

From Coq Require Import ZArith List Bool.
From Verif Require Import Base.
Import ListNotations.
Local Open Scope Z_scope.

(** the options with an argument and those without: letter and name *)
Definition with_arg : list (Z * list Z) := [(99, zs "config"); (112, zs "pid")].
Definition without_arg : list (Z * list Z) := [(100, zs "daemon"); (68, zs "no-daemon")].

(** a non-empty beginning of the name *)
Definition short_for (s name : list Z) : Prop := s <> [] /\ exists r, name = s ++ r.

(** neither an option nor "--" *)
Definition operand (a : list Z) : Prop := a = [45] \/ forall r, a <> 45 :: r.

(** [reads posix args s ops]: the arguments [args] give the settings [s], in this order, and
    leave the operands [ops].  With [posix] the first operand ends the options. *)
Inductive reads (posix : bool) : list (list Z) -> list (Z * option (list Z)) -> list (list Z) -> Prop :=
| r_end : reads posix [] [] []
| r_dashes : forall rest, reads posix ([45; 45] :: rest) [] rest
| r_operand : forall a rest s ops, posix = false -> operand a -> reads posix rest s ops ->
    reads posix (a :: rest) s (a :: ops)
| r_first_operand : forall a rest, posix = true -> operand a -> reads posix (a :: rest) [] (a :: rest)
| r_flags : forall fl rest s ops,
    fl <> [] -> incl fl (map fst without_arg) -> reads posix rest s ops ->
    reads posix ((45 :: fl) :: rest) (map (fun c => (c, None)) fl ++ s) ops
| r_joined : forall fl c v rest s ops,
    incl fl (map fst without_arg) -> In c (map fst with_arg) -> v <> [] -> reads posix rest s ops ->
    reads posix ((45 :: fl ++ c :: v) :: rest) (map (fun c => (c, None)) fl ++ (c, Some v) :: s) ops
| r_separate : forall fl c v rest s ops,
    incl fl (map fst without_arg) -> In c (map fst with_arg) -> reads posix rest s ops ->
    reads posix ((45 :: fl ++ [c]) :: v :: rest) (map (fun c => (c, None)) fl ++ (c, Some v) :: s) ops
| r_long : forall c name n rest s ops,
    In (c, name) without_arg -> short_for n name -> reads posix rest s ops ->
    reads posix ((45 :: 45 :: n) :: rest) ((c, None) :: s) ops
| r_long_joined : forall c name n v rest s ops,
    In (c, name) with_arg -> short_for n name -> reads posix rest s ops ->
    reads posix ((45 :: 45 :: n ++ 61 :: v) :: rest) ((c, Some v) :: s) ops
| r_long_separate : forall c name n v rest s ops,
    In (c, name) with_arg -> short_for n name -> reads posix rest s ops ->
    reads posix ((45 :: 45 :: n) :: v :: rest) ((c, Some v) :: s) ops.
