(** C84: the death of a process between lock and unlock of the shared queue. *)

From Coq Require Import ZArith List Bool Lia.
From Verif Require Import Base Shm_Model Shm_Proof ShmMap_Proof ShmSys_Proof ShmQ_Spec ShmQ_Model
  ShmQSys_Spec ShmQ_Proof ShmQSys_Proof ShmQ_Props ShmQD_Spec ShmQD_Proof.
Import ListNotations.
Local Open Scope Z_scope.

(** Processes may die anywhere, inside the sections as well.  The calls that returned and the
    calls cut short are then a history of the queue in which a call cut short has done nothing
    or all of its work, or, for an unflush, has zeroed the first bytes of the oldest box.  The
    count never promises a box that is not there.

    Missing from the full claim: deaths between the two assignments that take an index from the
    last box to the first (C84_wrap_death_corrupts), and interrupted locks (C62). *)
Theorem C84_deaths_partial : forall n sz m0 k tr s,
  sane n sz -> created n sz m0 -> dexec sz n k m0 tr s ->
  exists h q, hist tr h /\ cruns sz qempty h q /\ 0 <= cnt s /\
    cnt s + Z.of_nat (count claims (procs s))
    <= Z.of_nat (length (q_boxes q)) + Z.of_nat (count posted (procs s)).
Proof.
  intros n sz m0 k tr s S C X. pose proof (created_rep n sz m0 S C) as R. destruct S as ((S1 & S2) & S3).
  destruct (dexec_inv sz n S1 S3 S2 k m0 qempty 0 tr s R eq_refl X) as (_ & _ & h & q & st & lost & m & D & H & Q).
  exists h, q. split; [exact H|]. split; [exact Q|]. destruct D as [M1 M2 M3 M4 M5 M6 M7 M8].
  rewrite (wt_counts n) in M8. lia.
Qed.

(** no section of a process that lives on leaves the segment, divides by zero or gets stuck *)
Theorem C84_sections_are_safe_partial : forall n sz m0 k tr s i o b0 b u,
  sane n sz -> created n sz m0 -> dexec sz n k m0 tr s ->
  nth_error (procs s) i = Some (Body o b0 b, u) ->
  exists r m', run (seg_size n sz) b (sm s) = Ok (r, m').
Proof.
  intros n sz m0 k tr s i o b0 b u S C X Hi. pose proof (created_rep n sz m0 S C) as R.
  destruct S as ((S1 & S2) & S3).
  destruct (dexec_inv sz n S1 S3 S2 k m0 qempty 0 tr s R eq_refl X) as (LI & _ & h & q & st & lost & m & D & H & Q).
  destruct D as [M1 M2 M3 M4 M5 M6 M7 M8].
  pose proof (M4 _ _ _ Hi) as (P1 & P2 & P3 & P4).
  pose proof (wt_others n s i _ _ LI Hi eq_refl) as WT.
  assert (NE0 : o = QUnflush -> q_boxes q <> []).
  { intros -> E. rewrite E in M8. cbn [length] in M8. unfold wt at 1 in WT. cbn [fst] in WT. lia. }
  destruct (run_body sz n S1 S3 S2 m q st o M2 P1 P2 NE0) as (r' & m' & q' & s' & B1 & B2 & B3).
  rewrite P3 in P4. rewrite (psteps_run _ _ _ _ _ _ P4) in B1. eauto.
Qed.

Lemma zeroed_trans : forall a b, zeroed a b -> forall c, zeroed b c -> zeroed a c.
Proof.
  induction 1 as [b|x b b' H IH]; intros c Z; [exact Z|].
  inversion Z; subst; [constructor; assumption|]. constructor. apply IH. assumption.
Qed.
Lemma zeroed_front : forall k b, (k <= length b)%nat -> zeroed b (repeat 0 k ++ skipn k b).
Proof.
  induction k as [|k IH]; intros b H; [constructor|]. destruct b as [|x b]; cbn [length] in H; [lia|].
  cbn [repeat skipn app]. constructor. apply IH. lia.
Qed.

Lemma cruns_order : forall sz q0 h q, cruns sz q0 h q -> q_boxes q0 = [] -> 1 <= sz ->
  exists wd wq rs, came h (wd ++ wq) /\ went h rs /\ Forall2 arrives wd rs /\ Forall2 zeroed wq (q_boxes q) /\
    Z.of_nat (length (q_boxes q)) <= sz - 1.
Proof.
  intros sz q0 h q H E0 Hsz. induction H as [q|q h q1 o r q2 H IH E|q h q1 o q2 H IH E].
  - exists [], [], []. rewrite E0. cbn [length]. repeat split; try constructor. lia.
  - destruct (IH E0) as (wd & wq & rs & C & W & A & Z & L). destruct o as [b| |o v|o]; cbn [qspec] in E.
    + destruct (Z.ltb_spec (Z.of_nat (length (q_boxes q1))) (sz - 1)); injection E as <- <-; cbn [q_boxes].
      * exists wd, (wq ++ [b]), rs. rewrite app_assoc. split; [apply ca_done; exact C|].
        split; [apply we_skip; [exact W|discriminate]|]. split; [exact A|].
        split; [apply Forall2_app; [exact Z|repeat constructor]|]. rewrite app_length. cbn [length]. lia.
      * exists wd, wq, rs. split; [apply ca_skip; [exact C|discriminate]|].
        split; [apply we_skip; [exact W|discriminate]|]. auto.
    + destruct (q_boxes q1) as [|b l] eqn:Eq; [discriminate|]. injection E as <- <-. cbn [q_boxes length] in *.
      inversion Z as [|w b' wq' l' Z1 Z2]; subst.
      exists (wd ++ [w]), wq', (rs ++ [Some b]). rewrite <- app_assoc. cbn [app].
      split; [apply ca_skip; [exact C|discriminate]|]. split; [apply we_done; exact W|].
      split; [apply Forall2_app; [exact A|repeat constructor; exact Z1]|]. split; [exact Z2|lia].
    + injection E as <- <-. exists wd, wq, rs. split; [apply ca_skip; [exact C|discriminate]|].
      split; [apply we_skip; [exact W|discriminate]|]. destruct (o <? 12); auto.
    + injection E as <- <-. exists wd, wq, rs. split; [apply ca_skip; [exact C|discriminate]|].
      split; [apply we_skip; [exact W|discriminate]|]. auto.
  - destruct (IH E0) as (wd & wq & rs & C & W & A & Z & L).
    assert (SK : forall q2, Forall2 zeroed wq (q_boxes q2) -> Z.of_nat (length (q_boxes q2)) <= sz - 1 ->
      exists wd wq rs, came (h ++ [CDied o]) (wd ++ wq) /\ went (h ++ [CDied o]) rs /\ Forall2 arrives wd rs /\
        Forall2 zeroed wq (q_boxes q2) /\ Z.of_nat (length (q_boxes q2)) <= sz - 1).
    { intros q' Z' L'. exists wd, wq, rs. split; [apply ca_skip; [exact C|discriminate]|].
      split; [apply we_skip; [exact W|discriminate]|]. auto. }
    destruct E as [->|[[r E]|(-> & b & l & k & Eq & Hk & ->)]]; [apply SK; assumption| |].
    + destruct o as [b| |o v|o]; cbn [qspec] in E.
      * destruct (Z.ltb_spec (Z.of_nat (length (q_boxes q1))) (sz - 1)); injection E as <- <-; cbn [q_boxes]; [|apply SK; assumption].
        exists wd, (wq ++ [b]), rs. rewrite app_assoc. split; [apply ca_died; exact C|].
        split; [apply we_skip; [exact W|discriminate]|]. split; [exact A|].
        split; [apply Forall2_app; [exact Z|repeat constructor]|]. rewrite app_length. cbn [length]. lia.
      * destruct (q_boxes q1) as [|b l] eqn:Eq; [discriminate|]. injection E as <- <-. cbn [q_boxes length] in *.
        inversion Z as [|w b' wq' l' Z1 Z2]; subst.
        exists (wd ++ [w]), wq', (rs ++ [None]). rewrite <- app_assoc. cbn [app].
        split; [apply ca_skip; [exact C|discriminate]|]. split; [apply we_died; exact W|].
        split; [apply Forall2_app; [exact A|repeat constructor]|]. split; [exact Z2|lia].
      * injection E as <- <-. apply SK; destruct (o <? 12); assumption.
      * injection E as <- <-. apply SK; assumption.
    + apply SK; cbn [q_boxes]; rewrite Eq in *; [|exact L].
      inversion Z as [|w b' wq' l' Z1 Z2]; subst. constructor; [|exact Z2].
      eapply zeroed_trans; [exact Z1|]. apply zeroed_front. exact Hk.
Qed.

(** What arrives is, box by box and in order, what was stored, up to zeros at the beginning of
    boxes at which a reader died; at most [sz - 1] boxes are left. *)
Theorem C84_order_partial : forall n sz m0 k tr s,
  sane n sz -> created n sz m0 -> dexec sz n k m0 tr s ->
  exists h wd rs rest, hist tr h /\ came h (wd ++ rest) /\ went h rs /\ Forall2 arrives wd rs /\
    Z.of_nat (length rest) <= sz - 1.
Proof.
  intros n sz m0 k tr s S C X. destruct (C84_deaths_partial n sz m0 k tr s S C X) as (h & q & H & Q & _).
  destruct S as ((S1 & S2) & S3).
  destruct (cruns_order sz qempty h q Q eq_refl S1) as (wd & wq & rs & A & B & D & E & F).
  exists h, wd, rs, wq. repeat split; auto. assert (LL : length wq = length (q_boxes q)) by (clear - E; induction E; cbn [length]; congruence).
  rewrite LL. exact F.
Qed.

(** The moment that is left out: with the end index past the last box, every flush that finds
    room writes behind the segment. *)
Theorem C84_wrap_death_corrupts : forall n sz m b,
  sane n sz -> sz + 1 < 2^32 -> (0 < n)%nat -> length b = n ->
  m a_size = sz -> m a_bsz = Z.of_nat n -> m a_end = sz -> m a_start <> (sz + 1) mod sz ->
  run (seg_size n sz) (flush_body b) m = Ub OobWrite.
Proof.
  intros n sz m b ((S1 & S2) & S3) S4 Hn Hb M1 M2 M3 M4.
  unfold flush_body, load, store, umod. cbn [pbind run].
  assert (H : forall a, In a [a_size; a_bsz; a_start; a_end] -> inb (seg_size n sz) 4 a = true).
  { intros a Ha. apply inb_hdr; auto; cbn in Ha; unfold a_size, a_bsz, a_start, a_end in Ha; destruct Ha as [<-|[<-|[<-|[<-|[]]]]];
      first [lia|reflexivity]. }
  rewrite !H by (cbn; auto). rewrite M3, M1. destruct (Z.eqb_spec sz 0); [lia|]. cbn [pbind run].
  rewrite H by (cbn; auto). rewrite (u32_small (sz + 1)) by lia.
  destruct (Z.eqb_spec ((sz + 1) mod sz) (m a_start)) as [X|X]; [congruence|]. cbn [negb pbind run].
  rewrite !H by (cbn; auto). rewrite M3, M2. destruct b as [|w b]; [cbn in Hb; lia|].
  cbn [store_bytes]. unfold store. cbn [pbind run].
  assert (B : inb (seg_size n sz) 1 (a_boxes + u32 (sz * Z.of_nat n)) = false).
  { unfold inb, seg_size, a_boxes. rewrite !andb_false_iff. left. right. apply Z.leb_gt. lia. }
  rewrite B. reflexivity.
Qed.

(** ** Concrete executions *)
Definition in_rangeb (sz : Z) (m : mem) : bool := (m a_start <? sz) && (m a_end <? sz).
Fixpoint dfires (sz : Z) (n : nat) (l : list (nat * act)) (tr : list event) (s : sys) : option (list event * sys) :=
  match l with
  | [] => Some (tr, s)
  | (i, a) :: l => match fire (seg_size n sz) n s i a with
                   | Some (e, s') => if is_intr e || (is_inner_death e && negb (in_rangeb sz (sm s))) then None
                                     else dfires sz n l (tr ++ [e]) s'
                   | None => dfires sz n l tr s
                   end
  end.
Lemma dfires_dexec : forall sz n k m0 l tr s tr' s', dexec sz n k m0 tr s ->
  dfires sz n l tr s = Some (tr', s') -> dexec sz n k m0 tr' s'.
Proof.
  induction l as [|[i a] l IH]; intros tr s tr' s' X H; cbn [dfires] in H.
  - injection H as <- <-. exact X.
  - destruct (fire (seg_size n sz) n s i a) as [[e s1]|] eqn:E; [|eapply IH; eauto].
    destruct (is_intr e || _) eqn:B; [discriminate|]. apply orb_false_iff in B. destruct B as [B1 B2].
    eapply IH; [|exact H]. eapply dexec_snoc; [exact X|eapply fire_step; exact E|exact B1|].
    intros D. rewrite D in B2. cbn in B2. apply negb_false_iff in B2. unfold in_rangeb in B2.
    apply andb_prop in B2. destruct B2 as [B2 B3]. split; [apply Z.ltb_lt; exact B2|apply Z.ltb_lt; exact B3].
Qed.

(** A writer dies in the middle of its box, another after it has stored its box but before it
    has announced it, a reader after it has zeroed one byte of the oldest box; a third process
    goes on. *)
Definition deaths : list (nat * act) :=
  call 4 (QFlush [1;2]) 40 ++ call 0 (QFlush [7;8]) 9 ++ [(0%nat, ADie)] ++ call 4 (QFlush [3;4]) 40
  ++ call 1 QUnflush 8 ++ [(1%nat, ADie)] ++ call 4 QUnflush 40 ++ call 2 (QFlush [5;6]) 14 ++ [(2%nat, ADie)]
  ++ call 4 (QFlush [9;9]) 40 ++ call 4 QUnflush 40 ++ call 4 QUnflush 40.
Example C84_deaths_ex : sane 2 3 /\ created 2 3 m3 /\ exists tr s, dexec 3 2 5 m3 tr s /\
  length (filter is_inner_death tr) = 3%nat /\ cnt s = 0 /\
  map snd (dones tr) = [QStored true; QStored true; QBox [0;2]; QStored false].
Proof.
  split; [exact m3_sane|]. split; [exact m3_created|].
  assert (T : match dfires 3 2 deaths [] (init 5 m3) with
    | Some (tr, s) => Some (length (filter is_inner_death tr), cnt s, map snd (dones tr)) | None => None end
    = Some (3%nat, 0, [QStored true; QStored true; QBox [0;2]; QStored false])) by (vm_compute; reflexivity).
  destruct (dfires 3 2 deaths [] (init 5 m3)) as [[tr s]|] eqn:E; [|discriminate].
  injection T as T1 T2 T3. exists tr, s. split; [|auto].
  eapply dfires_dexec; [constructor|exact E].
Qed.

(** the left-out moment on a queue of three boxes, the last of which is being stored *)
Example C84_wrap_ex : sane 2 3 /\ exists m, m a_size = 3 /\ m a_bsz = Z.of_nat 2 /\ m a_end = 3 /\
  m a_start <> (3 + 1) mod 3 /\ m = mset (mset m3 a_start 2) a_end 3.
Proof.
  split; [exact m3_sane|]. exists (mset (mset m3 a_start 2) a_end 3). repeat split; try reflexivity.
  vm_compute. discriminate.
Qed.

Print Assumptions C84_deaths_partial.
Print Assumptions C84_sections_are_safe_partial.
Print Assumptions C84_order_partial.
Print Assumptions C84_wrap_death_corrupts.
