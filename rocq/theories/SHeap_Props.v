(** Properties of the memory the string storage allocates. *)

From Coq Require Import ZArith List Bool Lia Permutation.
From Verif Require Import Base SStore_Model SStore_Spec SStoreTree_Proof SHeap_Model SHeap_Spec SHeap_Proof.
Import ListNotations.
Local Open Scope nat_scope.

(** *** C102: string_storage_free gives everything back, once *)

(** With enough memory, for every history of adds and of writes to user data: the adds
    return what SStore_Model says, and string_storage_free frees every block the storage
    allocated exactly once (a second free is [Ub DoubleFree]), and no other block. *)
Theorem C102_free_releases_everything : forall mv uds ops h0 L,
  Forall key (keys_of ops) -> Forall (fun k => length k + 1 + uds <> 4096) (keys_of ops) ->
  writes_fit uds ops -> holds h0 L ->
  exists st ss lg h', aplay mv (fun _ => true) uds h0 ops = Ok (st, lg) /\
    play uds ops = Ok (ss, lg) /\ storage_free st = Ok h' /\ holds h' L.
Proof.
  intros mv uds ops h0 L H1 H2 H3 H0.
  destruct (play_ok uds ops) as (sb & r & lg & L' & E & H).
  { split; [auto|]. split; auto. }
  destruct (aexec_sim mv L ops (ainit uds h0) [] sb r lg (st_ok_init mv uds h0 L H0) E) as (st & E' & S).
  destruct (storage_free_ok L st S) as (h' & F & Hh).
  exists st, (sb, r), lg, h'. auto.
Qed.
Print Assumptions C102_free_releases_everything.

(** Whatever requests are refused: as long as no add of a key that fits returned null,
    the same holds. *)
Theorem C102_free_after_successful_adds : forall mv ok uds ops h0 L st lg,
  holds h0 L -> aplay mv ok uds h0 ops = Ok (st, lg) -> all_stored uds lg ->
  exists h', storage_free st = Ok h' /\ holds h' L.
Proof.
  intros mv ok uds ops h0 L st lg H0 E A.
  destruct (aexec_ok mv ok L uds ops _ _ _ _ (st_ok_init mv uds h0 L H0) eq_refl E A) as (_ & S & _).
  apply storage_free_ok. exact S.
Qed.
Print Assumptions C102_free_after_successful_adds.

Definition three : list op := map OAdd [zs "one"; zs "two"; zs "three hundred"; zs "three hundred and one"].
Definition h9 : heap := mkH 9 [4; 7].

(** the pointers returned, the number of live blocks, and two summaries of the state *)
Definition look {A B} (f : astorage -> A) (g : astorage -> B) (r : res (astorage * log))
  : option (list (option ptr) * nat * A * B) :=
  match r with Ok (st, lg) => Some (map snd lg, length (h_live (st_h st)), f st, g st) | _ => None end.
Lemma look_inv : forall A B (f : astorage -> A) (g : astorage -> B) r l n a b,
  look f g r = Some (l, n, a, b) ->
  exists st lg, r = Ok (st, lg) /\ map snd lg = l /\ length (h_live (st_h st)) = n /\ f st = a /\ g st = b.
Proof.
  intros A B f g [[st lg]| |] l n a b E; inversion E; subst. exists st, lg. auto.
Qed.

Example C102_ex : holds h9 [7; 4] /\
  exists st lg, aplay Nat.even (fun _ => true) 4 h9 three = Ok (st, lg) /\ length (h_live (st_h st)) = 6 /\
    map snd lg = [Some (0, 1); Some (0, 10); Some (0, 19); Some (0, 38)] /\
    storage_free st = Ok (mkH 14 [4; 7]) /\
    storage_free (mkAs (mkH 14 [4; 7]) (st_b st) (st_r st)) = Ub UseAfterFree.
Proof.
  split.
  { split; [repeat constructor; cbn; intuition lia|]. split; [apply perm_swap|repeat constructor]. }
  destruct (look_inv _ _ storage_free (fun st => storage_free (mkAs (mkH 14 [4; 7]) (st_b st) (st_r st)))
    (aplay Nat.even (fun _ => true) 4 h9 three) _ _ _ _ ltac:(vm_compute; reflexivity)) as (st & lg & A & B & C & D & F).
  exists st, lg. repeat (split; [assumption|]). assumption.
Qed.

(** *** C103: running out of memory *)

(** The first request of an empty storage may be refused: the storage is empty as before,
    no memory is held. *)
Theorem C103_first_add_partial : forall mv ok uds h k, length k + 1 + uds <= 4096 ->
  ok (h_next h) = false ->
  exists h', aadd mv ok (ainit uds h) (cstr k) = Ok (ainit uds h', None) /\ h_live h' = h_live h.
Proof.
  intros mv ok uds h k Hk Ho. unfold aadd. cbn [ainit st_b st_h st_r b_sb init fst s_uds].
  assert (Y : (block_size <? length (cstr k) + uds) = false).
  { apply Nat.ltb_ge. unfold cstr. rewrite app_length. cbn [length].
    replace block_size with 4096 by (vm_compute; reflexivity). lia. }
  rewrite Y. remember (length (cstr k)) as n eqn:En. clear En.
  cbn [afind_add ainit a_kids a_arr length Nat.eqb bind map search Nat.ltb Nat.leb Nat.add Nat.sub].
  cbn [a_cap a_val]. unfold array, alloc. cbn [Nat.eqb]. rewrite Ho. cbn [bind].
  eexists. split; reflexivity.
Qed.
Print Assumptions C103_first_add_partial.

Definition but (n : nat) : nat -> bool := fun i => negb (i =? n).
Definition empty_heap : heap := mkH 0 [].

Example C103_ex : (but 0) (h_next empty_heap) = false /\
  exists st lg, aplay Nat.even (but 0) 4 empty_heap [OAdd (zs "a"); OAdd (zs "a")] = Ok (st, lg) /\
    map snd lg = [None; Some (0, 1)].
Proof.
  split; [reflexivity|].
  destruct (look_inv _ _ (fun _ => 0) (fun _ => 0) (aplay Nat.even (but 0) 4 empty_heap [OAdd (zs "a"); OAdd (zs "a")])
    _ _ _ _ ltac:(vm_compute; reflexivity)) as (st & lg & A & B & _). eauto.
Qed.

(** Later it is not so.  When the array of children cannot grow, add reports failure, but
    the old array is lost: freeing the storage, and adding a key it already has, both
    dereference null. *)
Theorem C103_failed_add_breaks_storage_refuted : forall mv, exists ok st lg p q,
  aplay mv ok 4 empty_heap (map OAdd [zs "a"; zs "b"; zs "c"]) = Ok (st, lg) /\
  map snd lg = [Some p; Some q; None] /\
  storage_free st = Ub NullDeref /\
  (forall ok', aadd mv ok' st (cstr (zs "a")) = Ub NullDeref).
Proof.
  intros mv. exists (but 3).
  destruct (look_inv _ _ storage_free
      (fun st => (a_arr (st_r st), length (a_kids (st_r st)), s_uds (b_sb (st_b st))))
    (aplay mv (but 3) 4 empty_heap (map OAdd [zs "a"; zs "b"; zs "c"]))
    _ _ _ _ ltac:(vm_compute; reflexivity)) as (st & lg & A & B & _ & C & D).
  injection D as D1 D2 D3.
  exists st, lg, (0, 1), (0, 8). split; [exact A|]. split; [exact B|]. split; [exact C|].
  intros ok'. unfold aadd. rewrite D3. replace (block_size <? _) with false by (vm_compute; reflexivity).
  cbn [afind_add]. rewrite D1, D2. reflexivity.
Qed.
Print Assumptions C103_failed_add_breaks_storage_refuted.

(** When the array of blocks cannot grow, add reports failure and another key is gone. *)
Theorem C103_failed_add_loses_a_key_refuted : exists mv ok (b c a : list Z) st lg p q,
  aplay mv ok 4080 empty_heap (map OAdd [b; c; a]) = Ok (st, lg) /\
  map snd lg = [Some p; Some q; None] /\
  find (b_sb (st_b st), erase (st_r st)) (cstr c) = Ok None /\
  storage_free st = Ub NullDeref.
Proof.
  exists Nat.even, (but 6), (zs "b"), (zs "c"), (zs "a").
  destruct (look_inv _ _ storage_free
      (fun st => find (b_sb (st_b st), erase (st_r st)) (cstr (zs "c")))
    (aplay Nat.even (but 6) 4080 empty_heap (map OAdd [zs "b"; zs "c"; zs "a"]))
    [Some (0, 1); Some (1, 1); None] 5 (Ub NullDeref) (Ok None) ltac:(vm_compute; reflexivity))
    as (st & lg & A & B & _ & C & D).
  exists st, lg, (0, 1), (1, 1). auto.
Qed.
Print Assumptions C103_failed_add_loses_a_key_refuted.

(** When the array of blocks cannot be made, add reports failure and memory is leaked. *)
Theorem C103_failed_add_leaks_refuted : forall mv, exists ok st lg h',
  aplay mv ok 4 empty_heap [OAdd (zs "a")] = Ok (st, lg) /\ map snd lg = [None] /\
  storage_free st = Ok h' /\ h_live h' <> [].
Proof.
  intros mv. exists (but 2).
  destruct (look_inv _ _ storage_free (fun _ => 0) (aplay mv (but 2) 4 empty_heap [OAdd (zs "a")])
    _ _ _ _ ltac:(vm_compute; reflexivity)) as (st & lg & A & B & _ & C & _).
  exists st, lg, (mkH 3 [1]). split; [exact A|]. split; [exact B|]. split; [exact C|discriminate].
Qed.
Print Assumptions C103_failed_add_leaks_refuted.

(** When a block of characters cannot be allocated, add does not even report it. *)
Theorem C103_failed_add_crashes_refuted : forall mv, exists ok k,
  aplay mv ok 4 empty_heap [OAdd k] = Ub NullDeref.
Proof. intros mv. exists (but 1), (zs "a"). vm_compute. reflexivity. Qed.
Print Assumptions C103_failed_add_crashes_refuted.
