(** What the shared-memory stack, pool and hash map should do. *)

From Coq Require Import ZArith List Bool Permutation.
Import ListNotations.
Local Open Scope Z_scope.

(** ** Bounded LIFO of [cap] elements; the top comes first *)
Inductive sop := SPush (el : list Z) | SPop | SUsed | SEmpty | SClear | SAttach.
Inductive sret := SBool (b : bool) | SElem (el : list Z) | SNum (n : Z) | SDone.

Definition sspec (cap : Z) (l : list (list Z)) (o : sop) : option (sret * list (list Z)) :=
  match o with
  | SPush el => if Z.of_nat (length l) <? cap then Some (SBool true, el :: l)
                else Some (SBool false, l)
  | SPop => match l with [] => None | el :: l => Some (SElem el, l) end
  | SUsed => Some (SNum (Z.of_nat (length l)), l)
  | SEmpty => Some (SBool (match l with [] => true | _ => false end), l)
  | SClear => Some (SDone, [])
  | SAttach => Some (SBool true, l)
  end.

(** a history of operations with their results; [SPop] only when it is not empty *)
Inductive sruns (cap : Z) : list (list Z) -> list (sop * sret) -> list (list Z) -> Prop :=
| sruns_nil : forall l, sruns cap l [] l
| sruns_cons : forall l o r l1 h l2,
    sspec cap l o = Some (r, l1) -> sruns cap l1 h l2 -> sruns cap l ((o, r) :: h) l2.

(** ** Pool of the indices 0 .. cap-1; [live] are the ones handed out *)
Inductive pop := PAlloc | PFree (i : Z) | PCount | PClear | PAttach.
Inductive pret := PIdx (i : Z) | PNone | PBool (b : bool) | PNum (n : Z) | PDone.

Inductive pspec (cap : Z) : list Z -> pop -> pret -> list Z -> Prop :=
| pspec_alloc : forall live i, 0 <= i < cap -> ~ In i live ->
    pspec cap live PAlloc (PIdx i) (i :: live)
| pspec_none : forall live, (forall i, 0 <= i < cap -> In i live) ->
    pspec cap live PAlloc PNone live
| pspec_free : forall live i live', Permutation live (i :: live') ->
    pspec cap live (PFree i) (PBool true) live'
| pspec_count : forall live, pspec cap live PCount (PNum (Z.of_nat (length live))) live
| pspec_clear : forall live, pspec cap live PClear PDone []
| pspec_attach : forall live, pspec cap live PAttach (PBool true) live.

(** ** Finite map with at most [cap] keys *)
Definition fmap := list (Z * list Z).

Fixpoint lookup (s : fmap) (k : Z) : option (list Z) :=
  match s with
  | [] => None
  | (k', v) :: s => if k' =? k then Some v else lookup s k
  end.
Definition del (s : fmap) (k : Z) : fmap := filter (fun e => negb (fst e =? k)) s.

Definition has (s : fmap) (k : Z) : bool :=
  match lookup s k with Some _ => true | None => false end.

Inductive mop :=
| MRead (k : Z) | MInsert (k : Z) (v : list Z) | MInsertMany (l : fmap)
| MErase (k : Z) | MEraseMany (l : list Z) | MSize | MClear | MAttach | MIterate.
Inductive mret :=
| MVal (v : option (list Z)) | MBool (b : bool) | MNum (n : Z) | MDone | MList (l : fmap).

Definition put1 (cap : Z) (s : fmap) (k : Z) (v : list Z) : bool * fmap :=
  if has s k then (true, (k, v) :: del s k)
  else if Z.of_nat (length s) <? cap then (true, (k, v) :: s)
  else (false, s).
Definition del1 (s : fmap) (k : Z) : bool * fmap := (has s k, del s k).

(** a batch performs all its operations in order and says whether all succeeded *)
Fixpoint put_all (cap : Z) (s : fmap) (l : fmap) : bool * fmap :=
  match l with
  | [] => (true, s)
  | (k, v) :: l =>
      let (b, s1) := put1 cap s k v in
      let (b', s2) := put_all cap s1 l in (b && b', s2)
  end.
Fixpoint del_all (s : fmap) (l : list Z) : bool * fmap :=
  match l with
  | [] => (true, s)
  | k :: l =>
      let (b, s1) := del1 s k in
      let (b', s2) := del_all s1 l in (b && b', s2)
  end.

(** [MIterate] may report the entries in any order *)
Inductive mspec (cap : Z) (s : fmap) : mop -> mret -> fmap -> Prop :=
| mspec_read : forall k, mspec cap s (MRead k) (MVal (lookup s k)) s
| mspec_insert : forall k v,
    mspec cap s (MInsert k v) (MBool (fst (put1 cap s k v))) (snd (put1 cap s k v))
| mspec_insert_many : forall l,
    mspec cap s (MInsertMany l) (MBool (fst (put_all cap s l))) (snd (put_all cap s l))
| mspec_erase : forall k, mspec cap s (MErase k) (MBool (has s k)) (del s k)
| mspec_erase_many : forall l,
    mspec cap s (MEraseMany l) (MBool (fst (del_all s l))) (snd (del_all s l))
| mspec_size : mspec cap s MSize (MNum (Z.of_nat (length s))) s
| mspec_clear : mspec cap s MClear MDone []
| mspec_attach : mspec cap s MAttach (MBool true) s
| mspec_iterate : forall l, Permutation l s -> mspec cap s MIterate (MList l) s.

Inductive mruns (cap : Z) : fmap -> list (mop * mret) -> fmap -> Prop :=
| mruns_nil : forall s, mruns cap s [] s
| mruns_cons : forall s o r s1 h s2,
    mspec cap s o r s1 -> mruns cap s1 h s2 -> mruns cap s ((o, r) :: h) s2.

(** ** Histories in which processes die while they insert

    [lk] indices are out of use for good: the map takes [lk] keys fewer and size() counts
    them, until clear() brings them back. *)

(** [w] has the first words of [v'] and the rest of [v] *)
Definition torn (v v' w : list Z) : Prop := exists n, w = firstn n v' ++ skipn n v.

(** the effect of an insert of one key that was cut short *)
Inductive put_died (cap lk : Z) (s : fmap) (k : Z) (v : list Z) : Z -> fmap -> Prop :=
| pd_nothing : put_died cap lk s k v lk s
| pd_lost : lookup s k = None -> Z.of_nat (length s) + lk < cap ->
    put_died cap lk s k v (lk + 1) s
| pd_all : lookup s k = None -> Z.of_nat (length s) + lk < cap ->
    put_died cap lk s k v lk ((k, v) :: s)
| pd_torn : forall old w, lookup s k = Some old -> torn old v w ->
    put_died cap lk s k v lk ((k, w) :: del s k).

Inductive item :=
| Did (o : mop) (r : mret)       (* completed *)
| Died (l : fmap).               (* died while inserting this batch *)

Inductive cruns (cap : Z) : Z -> fmap -> list item -> Z -> fmap -> Prop :=
| cr_nil : forall lk s, cruns cap lk s [] lk s
| cr_size : forall lk s h lk' s',
    cruns cap lk s h lk' s' ->
    cruns cap lk s (Did MSize (MNum (Z.of_nat (length s) + lk)) :: h) lk' s'
| cr_clear : forall lk s h lk' s',
    cruns cap 0 [] h lk' s' -> cruns cap lk s (Did MClear MDone :: h) lk' s'
| cr_did : forall lk s o r s1 h lk' s',
    o <> MSize -> o <> MClear -> mspec (cap - lk) s o r s1 ->
    cruns cap lk s1 h lk' s' -> cruns cap lk s (Did o r :: h) lk' s'
| cr_died : forall lk s l1 k v l2 lk1 s1 h lk' s',
    put_died cap lk (snd (put_all (cap - lk) s l1)) k v lk1 s1 ->
    cruns cap lk1 s1 h lk' s' -> cruns cap lk s (Died (l1 ++ (k, v) :: l2) :: h) lk' s'
| cr_died_early : forall lk s l h lk' s',
    cruns cap lk s h lk' s' -> cruns cap lk s (Died l :: h) lk' s'.

(** ** Pool histories in which only handed out indices are returned *)
Fixpoint pool_live (live : list Z) (h : list (pop * pret)) : list Z :=
  match h with
  | [] => live
  | (PAlloc, PIdx i) :: h => pool_live (i :: live) h
  | (PFree i, _) :: h => pool_live (remove Z.eq_dec i live) h
  | (PClear, _) :: h => pool_live [] h
  | _ :: h => pool_live live h
  end.
Fixpoint frees_ok (live : list Z) (h : list (pop * pret)) : Prop :=
  match h with
  | [] => True
  | (o, r) :: h =>
      match o with PFree i => In i live | _ => True end
      /\ frees_ok (pool_live live [(o, r)]) h
  end.
Inductive pruns (cap : Z) : list Z -> list (pop * pret) -> list Z -> Prop :=
| pruns_nil : forall live, pruns cap live [] live
| pruns_cons : forall live o r live1 h live2,
    pspec cap live o r live1 -> pruns cap live1 h live2 ->
    pruns cap live ((o, r) :: h) live2.
