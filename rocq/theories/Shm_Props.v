(** Properties of the shared-memory stack, pool and hash map. *)

From Coq Require Import ZArith List Bool Lia Permutation.
From Verif Require Import Base Shm_Model Shm_Spec Shm_Proof ShmMap_Proof ShmOps_Proof ShmOps2_Proof.
From Verif Require Import ShmSys_Model ShmSys_Spec ShmSys_Proof ShmApi_Proof.
Import ListNotations.
Local Open Scope Z_scope.

(** memories for the examples: the given cells, and [d] elsewhere *)
Definition cells (d : Z) (l : list (Z * Z)) : mem :=
  fun a => match find (fun c => fst c =? a) l with Some c => snd c | None => d end.

(** the memory after a sequence of calls; only used for the examples *)
Definition mem_after {A} (r : res (A * mem)) : mem :=
  match r with Ok (_, m) => m | _ => fun _ => 0 end.
Definition res_of {A} (r : res (A * mem)) : res A :=
  match r with Ok (a, _) => Ok a | Ub u => Ub u | Fuel => Fuel end.

(** ** C50: the stack is a bounded LIFO *)

(** For every history that the bounded LIFO allows: the same calls on a stack attached to a
    cleared header give the same results, and change nothing outside the stack. *)
Theorem C50_stack_is_bounded_lifo : forall lim s m h l,
  stack_ok lim s -> (0 < s_words s)%nat ->
  m (s_res s) = 0 -> m (s_isz s) = 0 ->
  sruns (s_num s) [] h l -> Forall (swf s) (map fst h) ->
  exists m', calls lim (stack_api s) (SAttach :: map fst h) m = Ok (SBool true :: map snd h, m')
    /\ forall a, a < s_res s \/ s_res s + 12 <= a ->
         a < s_dat s \/ s_dat s + stack_data_size (s_num s) (s_words s) <= a -> m' a = m a.
Proof.
  intros lim s m h l HS HW H1 H2 HR HF. cbn [calls stack_api].
  rewrite run_bind, run_stack_attach_new by auto. cbn [bind run].
  destruct (stack_calls lim s HS HW [] h l HR (stack_init s m) (stack_init_rep lim s m HS) HF)
    as (m' & E & HR' & F).
  rewrite E. cbn [bind]. eexists. split; [reflexivity|].
  pose proof (so_cur _ _ HS). pose proof (so_isz _ _ HS).
  intros a A1 A2. rewrite F by (auto; lia). unfold stack_init. rewrite !mset_other by lia. auto.
Qed.

(** attaching with another capacity or element size is refused and changes nothing *)
Theorem C50_attach_refuses_other_type : forall lim s m, stack_ok lim s ->
  m (s_res s) <> 0 \/ m (s_isz s) <> 0 ->
  m (s_res s) <> s_num s \/ m (s_isz s) <> 4 * Z.of_nat (s_words s) ->
  run lim (stack_api s SAttach) m = Ok (SBool false, m).
Proof.
  intros lim s m HS H1 H2. cbn [stack_api]. rewrite run_bind, run_stack_attach_old by auto.
  destruct (Z.eqb_spec (m (s_res s)) (s_num s)), (Z.eqb_spec (m (s_isz s)) (4 * Z.of_nat (s_words s)));
    try lia; reflexivity.
Qed.

(** two elements of two words *)
Definition ex_stack : stack := mkStack 2 2 8 12 16 24.
Example ex_stack_ok : stack_ok 40 ex_stack.
Proof. constructor; cbn; try lia; auto; repeat split; lia || reflexivity. Qed.
Example ex_stack_run :
  let h := [(SPush [1; 2], SBool true); (SPush [3; 4], SBool true); (SPush [5; 6], SBool false);
            (SUsed, SNum 2); (SAttach, SBool true); (SPop, SElem [3; 4]); (SPush [7; 8], SBool true);
            (SPop, SElem [7; 8]); (SPop, SElem [1; 2]); (SEmpty, SBool true)] in
  sruns 2 [] h [] /\
  res_of (calls 40 (stack_api ex_stack) (SAttach :: map fst h) (cells 0 []))
  = Ok (SBool true :: map snd h).
Proof. split; [repeat econstructor|vm_compute; reflexivity]. Qed.
(** pop of an empty stack leaves the segment *)
Example ex_pop_empty :
  res_of (calls 40 (stack_api ex_stack) [SAttach; SPop] (cells 0 [])) = Ub OobRead.
Proof. vm_compute. reflexivity. Qed.

(** ** C51: the pool never hands out an index twice *)

(** Any history in which only handed out indices are returned does what the pool
    specification says, and any further legal call is defined. *)
Theorem C51_pool_hands_out_unused_indices : forall lim p isz m h m',
  pool_ok lim p -> isz <> 0 ->
  m (p_res p) = 0 -> m (p_isz p) = 0 -> m (s_res (p_free p)) = 0 -> m (s_isz (p_free p)) = 0 ->
  frees_ok [] h ->
  calls lim (pool_api p isz) (PAttach :: map fst h) m = Ok (PBool true :: map snd h, m') ->
  exists live, pruns (p_num p) [] h live
    /\ (forall a, ~ pool_cell p a -> m' a = m a)
    /\ forall o, (match o with PFree i => In i live | _ => True end) ->
         exists r m2 live2, run lim (pool_api p isz o) m' = Ok (r, m2) /\ pspec (p_num p) live o r live2.
Proof.
  intros lim p isz m h m' HP Hz H1 H2 H3 H4 HF E. cbn [calls pool_api] in E.
  rewrite run_bind, run_pool_attach_new in E by auto. cbn [bind run] in E.
  set (m1 := pool_init p isz (stack_init (p_free p) m)) in *.
  destruct (calls lim (pool_api p isz) (map fst h) m1) as [(rs, m2)| |] eqn:E2; cbn [bind] in E; try discriminate.
  injection E as Er ->. subst rs.
  assert (HS : PState p isz m1 []).
  { exists [], 0. split; [apply (pool_init_rep lim); auto|]. cbn [app].
    split; [constructor|]. intro i. cbn [In]. lia. }
  destruct (pool_calls lim p isz HP Hz h [] m1 m' HS HF E2) as (K1 & K2 & K3).
  exists (pool_live [] h). split; auto. split.
  - intros a Ha. rewrite K3 by auto. unfold m1, pool_init, stack_init. unfold pool_cell in Ha.
    pose proof (po_isz _ _ HP). pose proof (po_cur _ _ HP). pose proof (po_fres _ _ HP).
    pose proof (so_cur _ _ (po_stack _ _ HP)). pose proof (so_isz _ _ (po_stack _ _ HP)).
    rewrite !mset_other by lia. auto.
  - intros o Ho. destruct (pool_step lim p isz m' _ o HP Hz K2 Ho) as (r & m3 & X1 & X2 & _). eauto.
Qed.

(** attaching with another number or size of objects is refused and changes nothing *)
Theorem C51_attach_refuses_other_type : forall lim p isz m, pool_ok lim p ->
  m (s_res (p_free p)) <> 0 \/ m (s_isz (p_free p)) <> 0 ->
  m (p_res p) <> 0 \/ m (p_isz p) <> 0 ->
  m (s_res (p_free p)) <> p_num p \/ m (s_isz (p_free p)) <> 4 \/ m (p_res p) <> p_num p \/ m (p_isz p) <> isz ->
  run lim (pool_api p isz PAttach) m = Ok (PBool false, m).
Proof.
  intros lim p isz m HP H1 H2 H3.
  pose proof (po_isz _ _ HP) as Ei. pose proof (po_cur _ _ HP) as Ec.
  pose proof (po_fres _ _ HP) as Ef. pose proof (po_stack _ _ HP) as HS.
  destruct (po_inb _ _ HP) as (E1 & E2 & E3).
  cbn [pool_api]. rewrite run_bind. unfold pool_attach. rewrite run_bind.
  pose proof (run_stack_attach_old lim (p_free p) m HS H1) as ES.
  rewrite (po_words _ _ HP), (po_num _ _ HP), Ef in ES. rewrite ES. clear ES. rewrite Ef in *.
  change (4 * Z.of_nat 1) with 4 in *. cbn [bind]. rewrite <- Ei, <- Ec.
  destruct (Z.eqb_spec (m (p_res p + 12)) (p_num p)), (Z.eqb_spec (m (s_isz (p_free p))) 4); try reflexivity.
  cbn [andb]. rewrite run_bind, run_load by auto. cbn [bind].
  rewrite run_bind, run_load by auto. cbn [bind].
  destruct (Z.eqb_spec (m (p_res p)) 0), (Z.eqb_spec (m (p_isz p)) 0); cbn [andb]; try lia;
    destruct (Z.eqb_spec (m (p_res p)) (p_num p)), (Z.eqb_spec (m (p_isz p)) isz); cbn [negb orb run bind]; try reflexivity; lia.
Qed.
Print Assumptions C51_attach_refuses_other_type.

Definition ex_pool : pool := mkPool 2 (mkStack 2 1 12 16 20 24) 0 4 8 32.
Example ex_pool_ok : pool_ok 64 ex_pool.
Proof. constructor; cbn; try lia; auto. constructor; cbn; try lia; repeat split; lia || reflexivity. Qed.
Example ex_pool_run :
  let h := [(PAlloc, PIdx 0); (PAlloc, PIdx 1); (PAlloc, PNone); (PFree 0, PBool true);
            (PCount, PNum 1); (PAlloc, PIdx 0); (PFree 1, PBool true); (PFree 0, PBool true);
            (PAlloc, PIdx 0); (PAlloc, PIdx 1); (PClear, PDone); (PAlloc, PIdx 0)] in
  frees_ok [] h /\
  res_of (calls 64 (pool_api ex_pool 8) (PAttach :: map fst h) (cells 0 []))
  = Ok (PBool true :: map snd h).
Proof. split; [cbn; intuition|vm_compute; reflexivity]. Qed.
(** two objects of 8 bytes are there; two of 4 bytes are asked for *)
Example ex_pool_other : res_of (calls 64 (pool_api ex_pool 4) [PAttach] (cells 0 [(0, 2); (4, 8); (12, 2); (16, 4); (20, 4294967295)]))
  = Ok [PBool false].
Proof. vm_compute. reflexivity. Qed.
(** an index returned twice is handed out twice *)
Example ex_pool_double_free :
  res_of (calls 64 (pool_api ex_pool 8) [PAttach; PAlloc; PFree 0; PFree 0; PAlloc; PAlloc] (cells 0 []))
  = Ok [PBool true; PIdx 0; PBool true; PBool true; PIdx 0; PIdx 0].
Proof. vm_compute. reflexivity. Qed.

(** ** C52: the hash map is a finite map with a bounded number of keys *)

(** All sequences of calls, from the first attach to a cleared segment on, are defined and
    give the results of a finite map with at most _OBJECTS_NUM keys. *)
Theorem C52_hash_map_is_finite_map : forall P fuel m ops,
  fits P -> (Z.to_nat (nobj P) < fuel)%nat -> zeroed m -> Forall (mwf P) ops ->
  exists rs m' s,
    calls (required_space P) (api P fuel) (MAttach :: ops) m = Ok (MBool true :: rs, m')
    /\ length rs = length ops /\ mruns (nobj P) [] (combine ops rs) s.
Proof.
  intros P fuel m ops HP Hf Hz HF. destruct (attach_new P HP m Hz) as (m1 & E & HS).
  destruct (api_calls P HP fuel Hf ops [] 0 m1 HS HF) as (rs & m2 & s & lk & E2 & EL & HC & _).
  destruct (cruns_mruns P ops rs [] lk s EL HC) as (_ & HM).
  exists rs, m2, s. split; auto. cbn [calls api]. rewrite run_bind, E. cbn [bind run].
  rewrite E2. reflexivity.
Qed.

(** three keys in two buckets, values of one word *)
Definition exP : tpar := mkT 3 2 1.
Example ex_fits : fits exP.
Proof. unfold fits. vm_compute. intuition discriminate. Qed.
Example ex_map_run :
  res_of (calls (required_space exP) (api exP 5)
    [MAttach; MInsert 4 [10]; MInsert 7 [20]; MInsert 6 [30]; MInsert 8 [40]; MInsert 4 [11];
     MRead 4; MRead 6; MRead 5; MSize; MErase 4; MErase 4; MRead 4; MInsert 8 [40];
     MIterate; MInsertMany [(6, [31]); (9, [50])]; MEraseMany [7; 8]; MAttach; MSize; MRead 6;
     MClear; MSize; MRead 6] (cells 0 []))
  = Ok [MBool true; MBool true; MBool true; MBool true; MBool false; MBool true;
        MVal (Some [11]); MVal (Some [30]); MVal None; MNum 3; MBool true; MBool false; MVal None;
        MBool true; MList [(6, [30]); (8, [40]); (7, [20])]; MBool false; MBool true; MBool true;
        MNum 1; MVal (Some [31]); MDone; MNum 0; MVal None].
Proof. vm_compute. reflexivity. Qed.

(** ** C53: iteration *)

(** An iteration after any calls visits every key of the map exactly once, with its value. *)
Theorem C53_iteration_visits_each_entry_once : forall P fuel m ops rs m',
  fits P -> (Z.to_nat (nobj P) < fuel)%nat -> zeroed m -> Forall (mwf P) ops ->
  calls (required_space P) (api P fuel) (MAttach :: ops) m = Ok (rs, m') ->
  exists l, run (required_space P) (iteration P fuel) m' = Ok (l, m')
    /\ NoDup (map fst l)
    /\ forall k, run (required_space P) (read P fuel k) m' = Ok (lookup l k, m').
Proof.
  intros P fuel m ops rs m' HP Hf Hz HF EC. destruct (attach_new P HP m Hz) as (m1 & E & HS).
  destruct (api_calls P HP fuel Hf ops [] 0 m1 HS HF) as (rs' & m2 & s & lk & E2 & EL & HC & HS2).
  cbn [calls api] in EC. rewrite run_bind, E in EC. cbn [bind run] in EC. rewrite E2 in EC.
  cbn [bind] in EC. injection EC as _ <-.
  pose proof (state_holds P s lk m2 HS2) as HH.
  destruct (iteration_ok P HP s m2 fuel HH Hf) as (l & EI & Hp).
  pose proof (holds_nd P HP s m2 HH) as ND.
  assert (NDl : NoDup (keys l)).
  { apply (Permutation_NoDup (l := keys s)); auto. apply Permutation_map. now symmetry. }
  exists l. split; auto. split; auto. intro k.
  destruct (wp_run _ _ _ _ _ _ (read_ok P HP s m2 k fuel HH Hf)) as (r & m3 & E3 & -> & ->).
  rewrite E3. do 2 f_equal. symmetry. apply lookup_perm; auto.
Qed.

(** ** C57: the pieces of the segment *)

(** the extents of headers, free stack, nodes and buckets *)
Definition extents (P : tpar) : list (Z * Z) :=
  [(0, 12); (a_pool, 24); (a_stack, 4 * nobj P); (a_objs P, nobj P * node_size P);
   (a_hash P, 4 * hsize P)].

(** They lie in the segment one behind the other, aligned; and so do key, value and next in
    every node. *)
Theorem C57_pieces_do_not_overlap : forall P, fits P ->
  (forall i e f, nth_error (extents P) i = Some e -> nth_error (extents P) (S i) = Some f ->
     fst e + snd e <= fst f)
  /\ (forall e, In e (extents P) -> 0 <= fst e /\ 0 <= snd e /\ fst e mod 4 = 0
        /\ fst e + snd e <= required_space P)
  /\ (forall i, 0 <= i < nobj P ->
        a_objs P <= a_key P i /\ a_key P i mod 8 = 0 /\ a_key P i + 8 <= a_val P i
        /\ a_val P i + 4 * Z.of_nat (words P) <= a_next P i /\ a_next P i mod 4 = 0
        /\ a_next P i + 4 <= a_key P (i + 1) /\ a_key P (i + 1) <= a_objs P + nobj P * node_size P).
Proof.
  intros P HP. pose proof HP as (P1 & P2 & P3).
  pose proof (regions P HP) as (G1 & G2 & G3 & G4 & G5 & G6).
  pose proof (node_facts P) as (F1 & F2 & F3 & F4 & F5).
  pose proof (mod_1024_4 _ G5) as G5'. pose proof (mod_1024_4 _ G6) as G6'.
  assert (0 <= nobj P * node_size P) by nia.
  split; [|split].
  - intros i e f He Hf. unfold extents in *.
    destruct i as [|[|[|[|i]]]]; cbn [nth_error] in *;
      try (apply (f_equal (fun o => match o with Some x => x | None => (0, 0) end)) in He, Hf;
           cbv beta iota in He, Hf; subst e f; cbn [fst snd]; try unfold a_pool; lia).
    destruct i; discriminate.
  - intros e He. unfold extents in He. cbn [In] in He.
    destruct He as [<-|[<-|[<-|[<-|[<-|[]]]]]]; cbn [fst snd]; try unfold a_pool;
      (split; [lia|split; [lia|split; [|lia]]]); try reflexivity; auto.
  - intros i Hi. pose proof (node_region P HP i Hi) as (R1 & R2 & R3).
    unfold a_val, a_next, o_val in *. fold (a_key P i) in *.
    assert (E : a_key P (i + 1) = a_key P i + node_size P) by (unfold a_key; ring).
    unfold wsz in F1. split; auto. split; auto. split; [lia|]. split; [lia|]. split.
    + apply mod_add; try lia; now apply mod_8_4.
    + split; [lia|]. rewrite E. unfold a_key. nia.
Qed.

(** Without the bound the 32-bit rounding wraps and the nodes reach beyond the segment. *)
Theorem C57_large_tables_refuted : exists P, 0 <= nobj P < 2^31 /\ 1 <= hsize P < 2^31
  /\ required_space P < a_objs P + nobj P * node_size P.
Proof. exists (mkT (2^28) 16 1). vm_compute. intuition discriminate. Qed.

(** ** C81: a process that dies while it inserts *)

(** Any calls, then an insert (single or batch) cut short at any load or store, then any
    calls by other processes: everything stays defined, and the results are those of a
    finite map in which the insert happened up to some key, that key being added, not
    added, given a partly written value (if it was there before), or not added with one
    place of the map lost. *)
Theorem C81_insert_survives_crash : forall P fuel m ops1 o l ops2 rs1 m1 b m2,
  fits P -> (Z.to_nat (nobj P) < fuel)%nat -> zeroed m ->
  Forall (mwf P) ops1 -> mwf P o -> died_batch o = Some l -> Forall (mwf P) ops2 ->
  calls (required_space P) (api P fuel) (MAttach :: ops1) m = Ok (MBool true :: rs1, m1) ->
  psteps (required_space P) (api P fuel o) m1 b m2 ->
  exists rs2 m3 lk s,
    calls (required_space P) (api P fuel) ops2 m2 = Ok (rs2, m3) /\ length rs2 = length ops2
    /\ cruns (nobj P) 0 []
         (map (fun x => Did (fst x) (snd x)) (combine ops1 rs1)
          ++ Died l :: map (fun x => Did (fst x) (snd x)) (combine ops2 rs2)) lk s.
Proof.
  intros P fuel m ops1 o l ops2 rs1 m1 b m2 HP Hf Hz F1 Ho Hl F2 EC HST.
  destruct (attach_new P HP m Hz) as (m0 & E & HS).
  destruct (api_calls P HP fuel Hf ops1 [] 0 m0 HS F1) as (rs' & m1' & s1 & lk1 & E1 & EL1 & HC1 & HS1).
  cbn [calls api] in EC. rewrite run_bind, E in EC. cbn [bind run] in EC. rewrite E1 in EC.
  cbn [bind] in EC. injection EC as <- <-.
  pose proof (batching_steps P HP fuel Hf o l s1 lk1 m1' b m2 HS1 Ho Hl HST) as HB.
  destruct (batching_died P fuel Hf s1 lk1 l m2 HB) as (lk2 & s2 & HS2 & K).
  destruct (api_calls P HP fuel Hf ops2 s2 lk2 m2 HS2 F2) as (rs2 & m3 & s3 & lk3 & E3 & EL3 & HC3 & HS3).
  exists rs2, m3, lk3, s3. split; auto. split; auto.
  clear - HC1 K HC3. revert HC1. generalize (map (fun x => Did (fst x) (snd x)) (combine ops1 rs')).
  intros h HC1. induction HC1; cbn [app]; try (econstructor; eauto; fail).
  apply K. auto.
Qed.

(** ** C82: a process that dies elsewhere may ruin the map *)

(** run the first [n] loads and stores *)
Fixpoint runn {A} (lim : Z) (n : nat) (p : prog A) (m : mem) : option (prog A * mem) :=
  match n with
  | O => Some (p, m)
  | S n =>
      match p with
      | Load sz a k => if inb lim sz a then runn lim n (k (m a)) m else None
      | Store sz a v k => if inb lim sz a then runn lim n k (mset m a v) else None
      | _ => None
      end
  end.
Lemma psteps_trans : forall A lim (p : prog A) m p1 m1, psteps lim p m p1 m1 ->
  forall p0 m0, psteps lim p0 m0 p m -> psteps lim p0 m0 p1 m1.
Proof. intros A lim p m p1 m1 H. induction H; intros; auto. apply (PCons _ _ _ p1 m1); auto. Qed.
Lemma runn_psteps : forall A lim n (p : prog A) m p' m', runn lim n p m = Some (p', m') ->
  psteps lim p m p' m'.
Proof.
  induction n as [|n IH]; intros p m p' m' H; cbn [runn] in H.
  - injection H as <- <-. constructor.
  - destruct p as [a|sz a k|sz a v k|u|]; try discriminate;
      destruct (inb lim sz a) eqn:E; try discriminate;
      (apply (psteps_trans _ _ _ _ _ _ (IH _ _ _ _ H)); eapply PCons; [apply PNil|constructor; auto]).
Qed.
Definition mem_cut {A} (r : option (prog A * mem)) : mem :=
  match r with Some (_, m) => m | None => fun _ => 0 end.
Definition prog_cut {A} (d : A) (r : option (prog A * mem)) : prog A :=
  match r with Some (p, _) => p | None => Ret d end.
Lemma runn_cut : forall A (d : A) lim n (p : prog A) m,
  (match runn lim n p m with Some _ => true | None => false end) = true ->
  psteps lim p m (prog_cut d (runn lim n p m)) (mem_cut (runn lim n p m)).
Proof.
  intros A d lim n p m H. destruct (runn lim n p m) as [(p', m')|] eqn:E; [|discriminate].
  apply (runn_psteps _ _ _ _ _ _ _ E).
Qed.
Lemma ok_after : forall A (d : A) (r : res (A * mem)) a, res_of r = Ok a -> r = Ok (a, mem_after r).
Proof. intros A d [(x, m)|u|] a H; cbn in *; congruence. Qed.

(** a node whose next is the node itself: the search never ends *)
Definition loops_b (P : tpar) (m : mem) (k : Z) : bool :=
  let i := m (a_bucket P (hidx P k)) in
  negb (hsize P =? 0)
  && inb (required_space P) 4 (a_bucket P (hidx P k))
  && inb (required_space P) 8 (a_key P i) && inb (required_space P) 4 (a_next P i)
  && negb (i =? nil32) && negb (m (a_key P i) =? k) && (m (a_next P i) =? i).
Lemma loops_read : forall P m k, loops_b P m k = true ->
  forall fuel, run (required_space P) (read P fuel k) m = Fuel.
Proof.
  intros P m k H fuel. unfold loops_b in H. cbv zeta in H. rewrite !andb_true_iff in H.
  destruct H as ((((((H0 & H1) & H2) & H3) & H4) & H5) & H6).
  unfold read. destruct (hsize P =? 0); [discriminate|].
  cbn [load pbind run]. rewrite H1. set (i := m (a_bucket P (hidx P k))) in *.
  apply negb_true_iff in H4, H5. apply Z.eqb_eq in H6.
  induction fuel as [|fuel IH]; auto. cbn [read_loop]. rewrite H4.
  cbn [load pbind run]. rewrite H2. rewrite Z.eqb_sym, H5. cbn [load pbind run].
  rewrite H3, H6. auto.
Qed.

(** "A process that dies inside erase leaves a usable map": it may leave a free-stack entry
    that was never written; the node found there is handed out while in use.  Here a later
    insert, by a process that did nothing wrong, loses a key that was not touched by the
    dead process and makes the search for it run forever. *)
Definition erP : tpar := mkT 2 1 1.
Definition er1 := calls (required_space erP) (api erP 4)
  [MAttach; MInsert 1 [10]; MInsert 2 [20]; MErase 1; MInsert 3 [30]] (cells 0 []).
Definition er2 := runn (required_space erP) 8 (api erP 4 (MErase 2)) (mem_after er1).
Definition er3 := calls (required_space erP) (api erP 4) [MRead 3; MInsert 4 [40]] (mem_cut er2).
Theorem C82_crash_in_erase_refuted : exists P m ops k b m1 m2 ops2 rs2 m3 key,
  fits P /\ zeroed m
  /\ (exists rs, calls (required_space P) (api P 4) (MAttach :: ops) m = Ok (rs, m1))
  /\ psteps (required_space P) (api P 4 (MErase k)) m1 b m2
  /\ calls (required_space P) (api P 4) ops2 m2 = Ok (rs2, m3)
  /\ key <> k /\ rs2 = [MVal (Some [30]); MBool true] /\ ops2 = [MRead key; MInsert 4 [40]]
  /\ forall fuel, run (required_space P) (read P fuel key) m3 = Fuel.
Proof.
  exists erP, (cells 0 []), [MInsert 1 [10]; MInsert 2 [20]; MErase 1; MInsert 3 [30]], 2,
    (prog_cut MDone er2), (mem_after er1), (mem_cut er2), [MRead 3; MInsert 4 [40]],
    [MVal (Some [30]); MBool true], (mem_after er3), 3.
  split. { vm_compute. intuition discriminate. }
  split. { intros a Ha. reflexivity. }
  split. { exists [MBool true; MBool true; MBool true; MBool true; MBool true].
           apply (ok_after _ []). vm_compute. reflexivity. }
  split. { apply runn_cut. vm_compute. reflexivity. }
  split. { apply (ok_after _ []). vm_compute. reflexivity. }
  split; [discriminate|]. split; [reflexivity|]. split; [reflexivity|].
  apply loops_read. vm_compute. reflexivity.
Qed.

(** "A process that dies inside clear leaves a usable map": it may leave nodes that are
    still linked but free. *)
Definition clP : tpar := mkT 2 2 1.
Definition cl1 := calls (required_space clP) (api clP 4)
  [MAttach; MInsert 0 [10]; MInsert 1 [20]] (cells 0 []).
Definition cl2 := runn (required_space clP) 2 (api clP 4 MClear) (mem_after cl1).
Definition cl3 := calls (required_space clP) (api clP 4) [MInsert 2 [40]] (mem_cut cl2).
Theorem C82_crash_in_clear_refuted : exists P m ops b m1 m2 m3 key,
  fits P /\ zeroed m
  /\ (exists rs, calls (required_space P) (api P 4) (MAttach :: ops) m = Ok (rs, m1))
  /\ psteps (required_space P) (api P 4 MClear) m1 b m2
  /\ calls (required_space P) (api P 4) [MInsert 2 [40]] m2 = Ok ([MBool true], m3)
  /\ forall fuel, run (required_space P) (read P fuel key) m3 = Fuel.
Proof.
  exists clP, (cells 0 []), [MInsert 0 [10]; MInsert 1 [20]],
    (prog_cut MDone cl2), (mem_after cl1), (mem_cut cl2), (mem_after cl3), 0.
  split. { vm_compute. intuition discriminate. }
  split. { intros a Ha. reflexivity. }
  split. { exists [MBool true; MBool true; MBool true].
           apply (ok_after _ []). vm_compute. reflexivity. }
  split. { apply runn_cut. vm_compute. reflexivity. }
  split. { apply (ok_after _ []). vm_compute. reflexivity. }
  apply loops_read. vm_compute. reflexivity.
Qed.

(** "A process that dies while it is the first to attach leaves a segment others can use":
    the header is written before the buckets, so the next process attaches successfully to
    buckets that were never filled.  A search in the new, all-zero segment never ends. *)
Definition at2 := runn (required_space clP) 6 (api clP 4 MAttach) (cells 0 []).
Definition at3 := calls (required_space clP) (api clP 4) [MAttach] (mem_cut at2).
Theorem C82_crash_in_first_attach_refuted : exists P m b m1 m2 key,
  fits P /\ (forall a, m a = 0)
  /\ psteps (required_space P) (api P 4 MAttach) m b m1
  /\ calls (required_space P) (api P 4) [MAttach] m1 = Ok ([MBool true], m2)
  /\ forall fuel, run (required_space P) (read P fuel key) m2 = Fuel.
Proof.
  exists clP, (cells 0 []), (prog_cut MDone at2), (mem_cut at2), (mem_after at3), 1.
  split. { vm_compute. intuition discriminate. }
  split. { intros a. reflexivity. }
  split. { apply runn_cut. vm_compute. reflexivity. }
  split. { apply (ok_after _ []). vm_compute. reflexivity. }
  apply loops_read. vm_compute. reflexivity.
Qed.

(** What does hold of an erase cut short at any point: as long as nobody writes, every
    reader sees the map either with or without the key, everything else untouched.
    Missing for C82: writers after such a crash, clear and the first attach, where it is
    false. *)
Theorem C82_erase_crash_readers_partial : forall P fuel m ops rs m1 k b m2,
  fits P -> (Z.to_nat (nobj P) < fuel)%nat -> zeroed m -> Forall (mwf P) ops ->
  calls (required_space P) (api P fuel) (MAttach :: ops) m = Ok (MBool true :: rs, m1) ->
  psteps (required_space P) (api P fuel (MErase k)) m1 b m2 ->
  exists s s2, mruns (nobj P) [] (combine ops rs) s /\ (s2 = s \/ s2 = del s k)
    /\ (forall k', run (required_space P) (read P fuel k') m2 = Ok (lookup s2 k', m2))
    /\ exists l, run (required_space P) (iteration P fuel) m2 = Ok (l, m2) /\ Permutation l s2.
Proof.
  intros P fuel m ops rs m1 k b m2 HP Hf Hz HF EC HST.
  destruct (attach_new P HP m Hz) as (m0 & E & HS).
  destruct (api_calls P HP fuel Hf ops [] 0 m0 HS HF) as (rs' & m1' & s & lk & E1 & EL & HC & HS1).
  cbn [calls api] in EC. rewrite run_bind, E in EC. cbn [bind run] in EC. rewrite E1 in EC.
  cbn [bind] in EC. injection EC as <- <-.
  destruct (cruns_mruns P ops rs' [] lk s EL HC) as (-> & HM).
  assert (W : wp (required_space P) (erasing P s k) (api P fuel (MErase k)) m1' (fun _ _ => True)).
  { cbn [api]. apply wp_bind. apply (wp_mono _ _ _ _ _ _ _ _ (erase_ok P HP s 0 m1' k fuel HS1 Hf)); auto.
    intros a x Hx _. apply wp_ret; auto. }
  pose proof (wp_here _ _ _ _ _ _ (wp_psteps _ _ _ _ _ _ _ _ W HST)) as HE.
  assert (HH : exists s2, (s2 = s \/ s2 = del s k) /\ Holds P s2 m2) by (destruct HE; eauto).
  destruct HH as (s2 & Hs2 & HH).
  exists s, s2. split; auto. split; auto. split.
  - intro k'. destruct (wp_run _ _ _ _ _ _ (read_ok P HP s2 m2 k' fuel HH Hf)) as (r & m3 & E3 & -> & ->).
    auto.
  - apply (iteration_ok P HP s2 m2 fuel HH Hf).
Qed.

(** ** C83: the segment remembers its template parameters *)

(** A process that attaches with another number of objects, value size or number of buckets
    gets an exception and changes nothing. *)
Theorem C83_attach_refuses_other_parameters : forall P Q fuel m ops rs m1,
  fits P -> fits Q -> (Z.to_nat (nobj P) < fuel)%nat -> zeroed m -> Forall (mwf P) ops ->
  calls (required_space P) (api P fuel) (MAttach :: ops) m = Ok (rs, m1) ->
  nobj Q <> nobj P \/ words Q <> words P \/ hsize Q <> hsize P ->
  run (required_space Q) (api Q fuel MAttach) m1 = Ok (MBool false, m1).
Proof.
  intros P Q fuel m ops rs m1 HP HQ Hf Hz HF EC Hne.
  destruct (attach_new P HP m Hz) as (m0 & E & HS).
  destruct (api_calls P HP fuel Hf ops [] 0 m0 HS HF) as (rs' & m1' & s & lk & E1 & EL & HC & HS1).
  cbn [calls api] in EC. rewrite run_bind, E in EC. cbn [bind run] in EC. rewrite E1 in EC.
  cbn [bind] in EC. injection EC as _ <-.
  destruct HS1 as (ch & fs & cur & HI & _ & _). destruct (iv_hdr _ _ _ _ _ _ HI) as (D1 & D2 & D3).
  destruct HP as (_ & Hh & _). cbn [api].
  rewrite run_bind, (attach_mismatch Q HQ m1').
  - reflexivity.
  - right. right. lia.
  - rewrite D1, D2, D3. unfold wsz. lia.
Qed.
Example ex_mismatch :
  res_of (calls (required_space exP) (api (mkT 3 2 2) 5) [MAttach]
    (mem_after (calls (required_space exP) (api exP 5) [MAttach; MInsert 4 [10]] (cells 0 []))))
  = Ok [MBool false].
Proof. vm_compute. reflexivity. Qed.

Print Assumptions C50_stack_is_bounded_lifo.
Print Assumptions C51_pool_hands_out_unused_indices.
Print Assumptions C52_hash_map_is_finite_map.
Print Assumptions C53_iteration_visits_each_entry_once.
Print Assumptions C57_pieces_do_not_overlap.
Print Assumptions C81_insert_survives_crash.
Print Assumptions C82_crash_in_erase_refuted.
Print Assumptions C82_crash_in_clear_refuted.
Print Assumptions C82_crash_in_first_attach_refuted.
Print Assumptions C82_erase_crash_readers_partial.
Print Assumptions C83_attach_refuses_other_parameters.
