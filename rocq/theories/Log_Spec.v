(** What a log line, the name of a thread and an error message should be. *)

From Coq Require Import ZArith List Bool.
From Verif Require Import Base Util_Spec Log_Model.
Import ListNotations.
Local Open Scope Z_scope.

(** *** text *)

(** the number a text of decimal digits denotes *)
Definition number (s : list Z) : Z := fold_left (fun a c => a * 10 + (c - 48)) s 0.
Definition digits (w : nat) (n : Z) (s : list Z) : Prop :=
  length s = w /\ Forall (fun c => 48 <= c <= 57) s /\ number s = n.
(** the order of lines, byte by byte, as sort(1) in the C locale *)
Fixpoint before (a b : list Z) : Prop :=
  match a, b with
  | x :: a, y :: b => x < y \/ (x = y /\ before a b)
  | [], _ :: _ => True
  | _, _ => False
  end.
(** the lines of a text, with their ends *)
Fixpoint newlines (s : list Z) : nat :=
  match s with [] => 0 | c :: s => ((if (c =? 10)%Z then 1 else 0) + newlines s)%nat end.

(** *** levels *)

(** the levels, the most important first; a program that asks for one of them gets that one
    and those before it *)
Definition severities : list level := [Laccess; Lemerg; Lalert; Lcrit; Lerror; Lwarn; Lnotice; Linfo; Ldebug].

(** *** time *)

(** the local time at [t] seconds after 1970 where clocks are [off] seconds ahead of UTC *)
Definition local (off t : Z) : ctm :=
  let l := t + off in
  let '(y, m, d) := date_after (Z.to_nat (l / 86400)) in
  let s := l mod 86400 in
  mkCtm (y - 1900) (m - 1) d (s / 3600) (s / 60 mod 60) (s mod 60).
(** local times for which the calendar has a date in a year of four digits *)
Definition dated (off t : Z) : Prop :=
  0 <= t + off /\ let '(y, _, _) := date_after (Z.to_nat ((t + off) / 86400)) in y <= 9999.

(** *** names of threads *)

(** what the threads of a program do: calls of the two functions, and what the rest of the
    program does with keys of its own.  The answers of the system come with each call *)
Inductive top :=
| TSet (ans : option Z) (mem : bool) (t : nat) (name : Z)
| TGet (ans : option Z) (t : nat)
| TKey (ans : option Z)
| TOther (mem : bool) (k : Z) (t : nat) (v : Z).
Definition tstep (o : top) (s : tsd) : Z * tsd :=
  match o with
  | TSet ans mem t name => log_thread_name_set ans mem t name s
  | TGet ans t => log_thread_name_get ans t s
  | TKey ans => (0, key_create ans s)
  | TOther mem k t v => setspecific mem k t v s
  end.
Fixpoint truns (l : list top) (s : tsd) : list Z * tsd :=
  match l with
  | [] => ([], s)
  | o :: l => let (r, s) := tstep o s in let (rs, s) := truns l s in (r :: rs, s)
  end.
(** the key a call may have been given *)
Definition answered (o : top) : option (option Z) :=
  match o with TSet a _ _ _ | TGet a _ | TKey a => Some a | _ => None end.
(** the system never gives out a key that exists *)
Fixpoint fresh_keys (l : list top) (s : tsd) : Prop :=
  match l with
  | [] => True
  | o :: l => (forall k, answered o = Some (Some k) -> ~ In k (k_live s)) /\ fresh_keys l (snd (tstep o s))
  end.
(** a program uses the keys that it created itself *)
Fixpoint own_keys (l : list top) (mine : list Z) : Prop :=
  match l with
  | [] => True
  | TKey (Some k) :: l => own_keys l (k :: mine)
  | TOther _ k _ _ :: l => In k mine /\ own_keys l mine
  | _ :: l => own_keys l mine
  end.
(** the library got its key *)
Definition got_key (l : list top) : Prop :=
  forall o, In o l -> match o with TSet None _ _ _ | TGet None _ => False | _ => True end.

(** the name of each thread: the last one that it set *)
Fixpoint names (l : list top) (rs : list Z) (cur : nat -> Z) : Prop :=
  match l, rs with
  | TSet _ _ t v :: l, r :: rs => names l rs (fun t' => if Nat.eqb t' t then if r =? 0 then v else cur t else cur t')
  | TGet _ t :: l, r :: rs => r = cur t /\ names l rs cur
  | _ :: l, _ :: rs => names l rs cur
  | _, _ => True
  end.

(** the keys that the rest of the program created *)
Fixpoint keys_of (l : list top) : list Z :=
  match l with
  | [] => []
  | TKey (Some k) :: l => k :: keys_of l
  | _ :: l => keys_of l
  end.
(** the values that the rest of the program stored under them *)
Fixpoint slots (l : list top) (rs : list Z) (cur : Z -> nat -> Z) : Z -> nat -> Z :=
  match l, rs with
  | TKey (Some k) :: l, _ :: rs => slots l rs (fun k' t => if k' =? k then 0 else cur k' t)
  | TOther _ k t v :: l, r :: rs =>
      slots l rs (fun k' t' => if (k' =? k) && Nat.eqb t' t then if r =? 0 then v else cur k t else cur k' t')
  | _ :: l, _ :: rs => slots l rs cur
  | _, _ => cur
  end.

(** *** errors *)

(** a text up to its first zero byte *)
Fixpoint upto_nul (s : list Z) : list Z :=
  match s with
  | [] => []
  | c :: s => if c =? 0 then [] else c :: upto_nul s
  end.
(** [d] is [n] in decimal *)
Definition decimal (n : Z) (d : list Z) : Prop :=
  exists m, d = (if n <? 0 then 45 :: m else m) /\ m <> [] /\ Forall (fun c => 48 <= c <= 57) m /\ number m = Z.abs n.
