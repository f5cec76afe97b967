(** Model of coda/gmtime.h and coda/log_array.hpp.

    uintptr_t and size_t have 64 bits, int has 32, time_t is a signed 64-bit integer. *)

From Coq Require Import ZArith List Bool.
From Verif Require Import Base.
Import ListNotations.
Local Open Scope Z_scope.

(** arithmetic of uintptr_t (gmtime.h:22) and size_t (log_array.hpp:115) *)
Definition W64 (x : Z) : Z := x mod 2 ^ 64.
(** conversion to int (implementation defined, two's complement); gmtime.h:21, 99-105 *)
Definition INT (x : Z) : Z := (x + 2 ^ 31) mod 2 ^ 32 - 2 ^ 31.

(** the fields of struct tm that the function sets; gmtime.h:99-105 *)
Record tm := mkTm
  { tm_sec : Z; tm_min : Z; tm_hour : Z; tm_mday : Z; tm_mon : Z; tm_year : Z; tm_wday : Z }.

(** coda_gmtime, gmtime.h:18-106 *)
Definition gmtime (t : Z) : tm :=
  let n := W64 t in                                                   (* 26 *)
  let days := n / 86400 in
  let wday := W64 (4 + days) mod 7 in                                 (* 31 *)
  let n := n mod 86400 in
  let hour := n / 3600 in
  let n := n mod 3600 in
  let min := n / 60 in
  let sec := n mod 60 in                                              (* 36 *)
  let days := W64 (W64 (days - (31 + 28)) + 719527) in                (* 44 *)
  let year := W64 (W64 (days + 2) * 400) / (365 * 400 + 100 - 4 + 1) in
  let yday := INT (W64 (days - W64 (W64 (W64 (W64 (365 * year) + year / 4) - year / 100) + year / 400))) in
  let '(yday, year) :=
    if yday <? 0 then                                                 (* 56-61 *)
      let leap := if (year mod 4 =? 0) && (negb (year mod 100 =? 0) || (year mod 400 =? 0)) then 1 else 0 in
      (INT (W64 (365 + leap + yday)), W64 (year - 1))
    else (yday, year) in
  let mon := W64 (Z.quot ((yday + 31) * 10) 306) in                   (* 71 *)
  let mday := W64 (W64 (yday - W64 (W64 (367 * mon) / 12 - 30)) + 1) in  (* 75 *)
  let '(year, mon) :=
    if 306 <=? yday then (W64 (year + 1), W64 (mon - 10))             (* 77-80 *)
    else (year, W64 (mon + 2)) in                                     (* 90 *)
  mkTm (INT sec) (INT min) (INT hour) (INT mday) (INT mon) (INT year) (INT wday).

(** coda_msleep, gmtime.h:7-16: the timespec given to nanosleep *)
Definition msleep (ms : Z) : Z * Z := (Z.quot ms 1000, Z.rem ms 1000 * 1000000).

(** *** log_array *)

(** get_by_value, log_array.hpp:115-126: the loop, and the bucket returned *)
Fixpoint log_loop (fuel : nat) (i j : Z) : res Z :=
  match fuel with
  | O => Fuel
  | S fuel => if i =? 0 then Ok j else log_loop fuel (Z.shiftr i 1) (W64 (j + 1))
  end.
(** get_by_value, log_array.hpp:115-126 *)
Definition bucket (maxlog : Z) (i : Z) : res Z :=
  j <- log_loop 65 i (W64 (-1)) ;;
  if j <? maxlog then Ok j else Ok (W64 (maxlog - 1)).
(** get_at, 94-97: the element referred to *)
Definition get_at {T} (data : list T) (i : Z) : res T := rd data (Z.to_nat i).
(** get_by_value, log_array.hpp:115-126, with the element read *)
Definition get_by_value {T} (data : list T) (i : Z) : res T :=
  b <- bucket (Z.of_nat (length data)) i ;; get_at data b.
(** assignment through the reference; that log_array.hpp:115-126 returns *)
Definition set_by_value {T} (data : list T) (i : Z) (v : T) : res (list T) :=
  b <- bucket (Z.of_nat (length data)) i ;; wr data (Z.to_nat b) v.

(** swap, 102-112; both arrays have MaxLog elements *)
Fixpoint swap_loop {T} (n i : nat) (a b : list T) : res (list T * list T) :=
  match n with
  | O => Ok (a, b)
  | S n =>
      x <- rd a i ;; y <- rd b i ;;
      a <- wr a i y ;; b <- wr b i x ;;
      swap_loop n (S i) a b
  end.
(** swap, log_array.hpp:102-112 *)
Definition la_swap {T} (a b : list T) : res (list T * list T) := swap_loop (length a) 0 a b.

(** the constructors, log_array.hpp:9-79: which element types are set to zero *)
Inductive atype := TBool | TChar | TSChar | TUChar | TShort | TUShort | TInt | TUInt | TLong
  | TULong | TLLong | TULLong | TFloat | TDouble | TLDouble.
(** the holders and their constructors, log_array.hpp:9-79 *)
Definition holder (t : atype) : option Z :=
  match t with
  | TChar | TUChar | TUShort | TShort | TInt | TUInt | TLong | TULong | TDouble | TFloat => Some 0
  | _ => None                                                         (* 17-19 *)
  end.
(** a fresh array, and reading a bucket of it (an indeterminate value is undefined);
    log_array.hpp:81-92 *)
Definition la_new (t : atype) (n : nat) : list (option Z) := repeat (holder t) n.
(** reading [get_by_value(i)], log_array.hpp:115-126, of such an array *)
Definition la_read (data : list (option Z)) (i : Z) : res Z :=
  v <- get_by_value data i ;; match v with Some v => Ok v | None => Ub Uninit end.
