(** C131: changing a shared hash map while iterating over it. *)

From Coq Require Import ZArith List Bool Lia Permutation.
From Verif Require Import Base Shm_Model Shm_Spec Shm_Proof ShmMap_Proof ShmOps_Proof
  ShmOps2_Proof ShmSys_Spec ShmApi_Proof ShmIter_Model ShmIter_Spec ShmIter_Proof Shm_Props.
Import ListNotations.
Local Open Scope Z_scope.

(** the map that calls after an attach to a cleared segment leave *)
Lemma after_calls : forall P fuel m ops rs m1,
  fits P -> (Z.to_nat (nobj P) < fuel)%nat -> zeroed m -> Forall (mwf P) ops ->
  calls (required_space P) (api P fuel) (MAttach :: ops) m = Ok (MBool true :: rs, m1) ->
  exists s, mruns (nobj P) [] (combine ops rs) s /\ State P s 0 m1.
Proof.
  intros P fuel m ops rs m1 HP Hf Hz HF EC. destruct (attach_new P HP m Hz) as (m0 & E & HS).
  destruct (api_calls P HP fuel Hf ops [] 0 m0 HS HF) as (rs' & m2 & s & lk & E2 & EL & HC & HS2).
  cbn [calls api] in EC. rewrite run_bind, E in EC. cbn [bind run] in EC. rewrite E2 in EC.
  cbn [bind] in EC. injection EC as <- <-.
  destruct (cruns_mruns P ops rs' [] lk s EL HC) as (-> & HM). eauto.
Qed.

Lemma res_ok : forall A (r : res (A * mem)) a, res_of r = Ok a -> r = Ok (a, mem_after r).
Proof. intros A [(x, m)| |] a H; cbn in *; try discriminate. injection H as ->. auto. Qed.

Lemma mruns_det : forall cap s h s1 s2, mruns cap s h s1 -> mruns cap s h s2 -> s1 = s2.
Proof.
  intros cap s h s1 s2 H. revert s2. induction H as [s|s o r s1 h s2 H1 H2 IH]; intros s3 H3.
  - inversion H3. auto.
  - inversion H3 as [|? ? ? s1' ? ? G1 G2]; subst. apply IH.
    assert (s1 = s1') by (inversion H1; subst; inversion G1; subst; auto). subst. auto.
Qed.

(** later calls work on the map [s] *)
Definition then_like (P : tpar) (fuel : nat) (m : mem) (s : fmap) : Prop :=
  forall ops, Forall (mwf P) ops -> exists rs m' s',
    calls (required_space P) (api P fuel) ops m = Ok (rs, m')
    /\ length rs = length ops /\ mruns (nobj P) s (combine ops rs) s'.

Lemma state_then : forall P fuel m s, fits P -> (Z.to_nat (nobj P) < fuel)%nat ->
  State P s 0 m -> then_like P fuel m s.
Proof.
  intros P fuel m s HP Hf HS ops HF.
  destruct (api_calls P HP fuel Hf ops s 0 m HS HF) as (rs & m' & s' & lk & E & EL & HC & _).
  destruct (cruns_mruns P ops rs s lk s' EL HC) as (_ & HM). exists rs, m', s'. auto.
Qed.

(** A loop that moves the iterator on and then erases the entry it has left sees every entry
    of the map exactly once, and leaves exactly the entries it did not want to erase: all
    later calls work on those. *)
Theorem C131_advance_then_erase : forall P fuel m ops rs m1 sel n,
  fits P -> (Z.to_nat (nobj P) < fuel)%nat -> zeroed m -> Forall (mwf P) ops ->
  calls (required_space P) (api P fuel) (MAttach :: ops) m = Ok (MBool true :: rs, m1) ->
  (Z.to_nat (nobj P) < n)%nat ->
  exists s vis m2,
    mruns (nobj P) [] (combine ops rs) s
    /\ run (required_space P) (sweep P fuel sel n) m1 = Ok (vis, m2)
    /\ Permutation vis s
    /\ then_like P fuel m2 (kept sel s).
Proof.
  intros P fuel m ops rs m1 sel n HP Hf Hz HF EC Hn.
  destruct (after_calls P fuel m ops rs m1 HP Hf Hz HF EC) as (s & HM & HS).
  destruct (wp_run _ _ _ _ _ _ (sweep_ok P HP fuel sel n s 0 m1 Hf Hn HS)) as (l & m2 & E & Hp & HS2).
  exists s, l, m2. split; auto. split; auto. split; auto. apply state_then; auto.
Qed.

(** six keys in two buckets *)
Definition exQ : tpar := mkT 6 2 1.
Example C131_exQ : fits exQ /\ (Z.to_nat (nobj exQ) < 7)%nat.
Proof. split; [unfold fits; vm_compute; intuition discriminate|vm_compute; lia]. Qed.
Definition ex_fill : list mop :=
  [MAttach; MInsert 4 [10]; MInsert 7 [20]; MInsert 6 [31]; MInsert 8 [41]; MInsert 9 [51]].
(** entries whose value is odd *)
Definition odd_one (_ : Z) (v : list Z) : bool := Z.odd (hd 0 v).

(** a loop followed by calls *)
Definition ex_then (p : prog fmap) (ops : list mop) : res (fmap * list mret) :=
  '(_, m1) <- calls (required_space exQ) (api exQ 7) ex_fill (cells 0 []) ;;
  '(vis, m2) <- run (required_space exQ) p m1 ;;
  '(rs, _) <- calls (required_space exQ) (api exQ 7) ops m2 ;;
  Ok (vis, rs).

Example C131_ex_sweep :
  ex_then (sweep exQ 7 odd_one 7) [MSize; MIterate; MRead 6; MRead 8; MInsert 8 [60]; MIterate]
  = Ok ([(4, [10]); (6, [31]); (8, [41]); (7, [20]); (9, [51])],
        [MNum 2; MList [(4, [10]); (7, [20])]; MVal None; MVal None; MBool true;
         MList [(4, [10]); (8, [60]); (7, [20])]]).
Proof. vm_compute. reflexivity. Qed.

(** The same loop that erases the entry on which the iterator stands and then moves on does
    not see every entry, and leaves entries it wanted to erase. *)
Theorem C131_erase_then_advance_refuted : exists P fuel m ops rs m1 sel n s vis m2 k v,
  fits P /\ (Z.to_nat (nobj P) < fuel)%nat /\ zeroed m /\ Forall (mwf P) ops
  /\ calls (required_space P) (api P fuel) (MAttach :: ops) m = Ok (MBool true :: rs, m1)
  /\ (Z.to_nat (nobj P) < n)%nat
  /\ mruns (nobj P) [] (combine ops rs) s
  /\ run (required_space P) (weed P fuel sel n) m1 = Ok (vis, m2)
  /\ lookup s k = Some v /\ sel k v = true
  /\ ~ In k (map fst vis)
  /\ exists m3, run (required_space P) (read P fuel k) m2 = Ok (Some v, m3).
Proof.
  set (ops := tl ex_fill).
  set (c := calls (required_space exQ) (api exQ 7) ex_fill (cells 0 [])).
  set (w := run (required_space exQ) (weed exQ 7 odd_one 7) (mem_after c)).
  set (r := run (required_space exQ) (read exQ 7 8) (mem_after w)).
  exists exQ, 7%nat, (cells 0 []), ops, [MBool true; MBool true; MBool true; MBool true; MBool true],
    (mem_after c), odd_one, 7%nat,
    [(9, [51]); (8, [41]); (6, [31]); (7, [20]); (4, [10])],
    [(4, [10]); (6, [31]); (7, [20]); (9, [51])], (mem_after w), 8, [41].
  split; [apply C131_exQ|]. split; [apply C131_exQ|]. split; [intro a; reflexivity|].
  split; [repeat constructor|].
  split; [apply res_ok; vm_compute; reflexivity|]. split; [apply C131_exQ|].
  split.
  { refine (mruns_cons _ _ _ _ _ _ _ (mspec_insert 6 _ 4 [10]) _).
    refine (mruns_cons _ _ _ _ _ _ _ (mspec_insert 6 _ 7 [20]) _).
    refine (mruns_cons _ _ _ _ _ _ _ (mspec_insert 6 _ 6 [31]) _).
    refine (mruns_cons _ _ _ _ _ _ _ (mspec_insert 6 _ 8 [41]) _).
    refine (mruns_cons _ _ _ _ _ _ _ (mspec_insert 6 _ 9 [51]) _). apply mruns_nil. }
  split; [apply res_ok; vm_compute; reflexivity|].
  split; [reflexivity|]. split; [reflexivity|].
  split. { cbn [map fst In]. lia. }
  exists (mem_after r). apply res_ok. vm_compute. reflexivity.
Qed.

(** What that loop does: it is defined and ends; it sees no entry twice; an entry it does
    not see shares the bucket of an entry it has erased; and later calls work on the map
    without the entries that it saw and wanted to erase.
    Missing from the claim of [C131_advance_then_erase]: that it sees every entry. *)
Theorem C131_erase_then_advance_partial : forall P fuel m ops rs m1 sel n,
  fits P -> (Z.to_nat (nobj P) < fuel)%nat -> zeroed m -> Forall (mwf P) ops ->
  calls (required_space P) (api P fuel) (MAttach :: ops) m = Ok (MBool true :: rs, m1) ->
  (Z.to_nat (nobj P) < n)%nat ->
  exists s vis skipped m2,
    mruns (nobj P) [] (combine ops rs) s
    /\ run (required_space P) (weed P fuel sel n) m1 = Ok (vis, m2)
    /\ Permutation s (vis ++ skipped)
    /\ (forall e, In e skipped -> exists d, In d vis /\ sel (fst d) (snd d) = true
          /\ fst d mod hsize P = fst e mod hsize P)
    /\ then_like P fuel m2 (kept sel vis ++ skipped).
Proof.
  intros P fuel m ops rs m1 sel n HP Hf Hz HF EC Hn.
  destruct (after_calls P fuel m ops rs m1 HP Hf Hz HF EC) as (s & HM & HS).
  destruct (wp_run _ _ _ _ _ _ (weed_ok P HP fuel sel n s 0 m1 Hf Hn HS))
    as (l & m2 & E & skip & Hp & Hk & HS2).
  exists s, l, skip, m2. split; auto. split; auto. split; auto. split; auto. apply state_then; auto.
Qed.

Example C131_ex_weed :
  ex_then (weed exQ 7 odd_one 7) [MSize; MIterate; MRead 8]
  = Ok ([(4, [10]); (6, [31]); (7, [20]); (9, [51])],
        [MNum 3; MList [(4, [10]); (8, [41]); (7, [20])]; MVal (Some [41])]).
Proof. vm_compute. reflexivity. Qed.

(** It is as good as the other loop when the map holds no two keys of one bucket. *)
Theorem C131_erase_then_advance_apart : forall P fuel m ops rs m1 sel n s,
  fits P -> (Z.to_nat (nobj P) < fuel)%nat -> zeroed m -> Forall (mwf P) ops ->
  calls (required_space P) (api P fuel) (MAttach :: ops) m = Ok (MBool true :: rs, m1) ->
  mruns (nobj P) [] (combine ops rs) s ->
  NoDup (map (fun e => fst e mod hsize P) s) ->
  (Z.to_nat (nobj P) < n)%nat ->
  exists vis m2,
    run (required_space P) (weed P fuel sel n) m1 = Ok (vis, m2)
    /\ Permutation vis s
    /\ then_like P fuel m2 (kept sel s).
Proof.
  intros P fuel m ops rs m1 sel n s HP Hf Hz HF EC HM ND Hn.
  destruct (after_calls P fuel m ops rs m1 HP Hf Hz HF EC) as (s' & HM' & HS).
  destruct (wp_run _ _ _ _ _ _ (weed_ok P HP fuel sel n s' 0 m1 Hf Hn HS))
    as (vis & m2 & ER & skipped & Hp & HK & HS2).
  rewrite <- (mruns_det _ _ _ _ _ HM HM') in *. clear s' HM'.
  assert (X : skipped = []).
  { destruct skipped as [|e skipped]; auto. exfalso.
    destruct (HK e (or_introl eq_refl)) as (d & Hd & _ & Ed).
    assert (ND' : NoDup (map (fun e => fst e mod hsize P) (vis ++ e :: skipped))).
    { apply (Permutation_NoDup (Permutation_map _ Hp)). auto. }
    rewrite map_app in ND'. cbn [map] in ND'. apply NoDup_remove_2 in ND'. apply ND'.
    apply in_or_app. left. rewrite <- Ed.
    apply (in_map (fun e => fst e mod hsize P) vis d Hd). }
  subst skipped. rewrite app_nil_r in *.
  exists vis, m2. split; auto. split; [now symmetry|].
  apply state_then; auto. destruct HS2 as (ch & fs & cur & A & B & C).
  exists ch, fs, cur. split; auto. split; auto.
  rewrite C. apply kept_perm. now symmetry.
Qed.


(** two keys in two buckets *)
Example C131_ex_apart :
  (let h := [(MInsert 4 [11], MBool true); (MInsert 7 [21], MBool true)] in
   mruns 6 [] h [(7, [21]); (4, [11])]
   /\ NoDup (map (fun e => fst e mod hsize exQ) [(7, [21]); (4, [11])]))
  /\ res_of ('(_, m1) <- calls (required_space exQ) (api exQ 7)
                [MAttach; MInsert 4 [11]; MInsert 7 [21]] (cells 0 []) ;;
             run (required_space exQ) (weed exQ 7 odd_one 7) m1)
     = Ok [(4, [11]); (7, [21])].
Proof.
  split; [split|vm_compute; reflexivity].
  - refine (mruns_cons _ _ _ _ _ _ _ (mspec_insert 6 _ 4 [11]) _).
    refine (mruns_cons _ _ _ _ _ _ _ (mspec_insert 6 _ 7 [21]) _). apply mruns_nil.
  - vm_compute. repeat constructor; cbn [In]; lia.
Qed.

(** A loop that inserts into the map it walks over ends; it sees every key that the map had
    at the start, and none twice; it sees each with the value it has in the map at that
    moment; and later calls work on the map with all that was inserted. *)
Theorem C131_insert_while_iterating : forall P fuel m ops rs m1 body n,
  fits P -> (Z.to_nat (nobj P) < fuel)%nat -> zeroed m -> Forall (mwf P) ops ->
  calls (required_space P) (api P fuel) (MAttach :: ops) m = Ok (MBool true :: rs, m1) ->
  (Z.to_nat (nobj P) < n)%nat ->
  (forall k v, Forall (fun e => length (snd e) = words P) (body k v)) ->
  exists s vis s' m2,
    mruns (nobj P) [] (combine ops rs) s
    /\ run (required_space P) (grow P fuel body n) m1 = Ok (vis, m2)
    /\ tour (fun k v t => snd (put_all (nobj P) t (body k v))) [] s vis s'
    /\ (forall k, In k (map fst s) -> In k (map fst vis))
    /\ then_like P fuel m2 s'.
Proof.
  intros P fuel m ops rs m1 body n HP Hf Hz HF EC Hn HB.
  destruct (after_calls P fuel m ops rs m1 HP Hf Hz HF EC) as (s & HM & HS).
  destruct (wp_run _ _ _ _ _ _ (grow_ok P HP fuel body n s 0 m1 Hf Hn HB HS))
    as (l & m2 & E & s' & HT & HS2 & Hk).
  rewrite Z.sub_0_r in HT.
  exists s, l, s', m2. split; auto. split; auto. split; auto. split; auto. apply state_then; auto.
Qed.

(** for every entry but 4 and 12, the one whose key is 3 more; it is seen when it lies
    ahead *)
Definition ex_body (k : Z) (v : list Z) : fmap :=
  if (k =? 4) || (k =? 12) then [(k, [0])] else [(k + 3, [hd 0 v + 1])].
Example C131_ex_body : forall k v, Forall (fun e => length (snd e) = words exQ) (ex_body k v).
Proof. intros. unfold ex_body. destruct ((k =? 4) || (k =? 12)); repeat constructor. Qed.
(** 9 is there and gets a new value before it is seen; 11 comes behind 9; then the map is
    full, and 12 is not inserted *)
Example C131_ex_grow :
  ex_then (grow exQ 7 ex_body 7) [MSize; MIterate]
  = Ok ([(4, [10]); (6, [31]); (8, [41]); (7, [20]); (9, [32]); (11, [42])],
        [MNum 6; MList [(4, [0]); (6, [31]); (8, [41]); (7, [20]); (9, [32]); (11, [42])]]).
Proof. vm_compute. reflexivity. Qed.

Print Assumptions C131_advance_then_erase.
Print Assumptions C131_erase_then_advance_refuted.
Print Assumptions C131_erase_then_advance_partial.
Print Assumptions C131_erase_then_advance_apart.
Print Assumptions C131_insert_while_iterating.
