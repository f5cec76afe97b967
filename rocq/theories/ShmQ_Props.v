(** C58-C62, C84, C85: the shared-memory queue. *)

From Coq Require Import ZArith List Bool Lia.
From Verif Require Import Base Shm_Model Shm_Proof ShmMap_Proof ShmSys_Proof ShmQ_Spec ShmQ_Model
  ShmQSys_Spec ShmQ_Proof ShmQSys_Proof ShmQBox_Proof.
Import ListNotations.
Local Open Scope Z_scope.

(** ** C58: the boxes come out once each, in the order in which they were stored *)

Lemma created_rep : forall n sz m0, sane n sz -> created n sz m0 -> Rep sz n m0 qempty 0.
Proof.
  intros n sz m0 ((S1 & S2) & S3) (m & R).
  destruct (run_attach_new sz n S1 S3 m) as (m' & E & R').
  rewrite E in R. injection R as <-. exact R'.
Qed.

(** In every execution of any number of processes, with any scheduling, with processes that
    die outside the sections, the completed calls in the order of their completion are a
    history of the bounded FIFO: a flush stores its box unless [sz - 1] boxes are stored,
    an unflush that returns true delivers the oldest box, the registers are variables. *)
Theorem C58_queue_is_fifo : forall n sz m0 k tr s,
  sane n sz -> created n sz m0 ->
  exec (seg_size n sz) n k m0 tr s -> (forall e, In e tr -> fine e = true) ->
  exists q, qruns sz qempty (dones tr) q.
Proof.
  intros n sz m0 k tr s S C X F. pose proof (created_rep n sz m0 S C) as R.
  destruct S as ((S1 & S2) & S3).
  destruct (minv_exec sz n S1 S3 S2 k m0 qempty 0 tr s R eq_refl X F) as (_ & q & st & lost & m & MI).
  exists q. apply (m_runs _ _ _ _ _ _ _ _ _ MI).
Qed.

Lemma qruns_order : forall sz q0 h q, qruns sz q0 h q ->
  q_boxes q0 ++ stored h = delivered h ++ q_boxes q
  /\ (Z.of_nat (length (q_boxes q0)) <= sz - 1 -> Z.of_nat (length (q_boxes q)) <= sz - 1).
Proof.
  assert (SA : forall a b, stored (a ++ b) = stored a ++ stored b).
  { induction a as [|[o r] a IH]; intros b; auto. cbn [app stored].
    destruct o; try apply IH. destruct r as [[]| | |]; rewrite IH; reflexivity. }
  assert (DA : forall a b, delivered (a ++ b) = delivered a ++ delivered b).
  { induction a as [|[o r] a IH]; intros b; auto. cbn [app delivered].
    destruct o; try apply IH. destruct r; rewrite IH; reflexivity. }
  intros sz q0 h q H. induction H as [s|s h s1 o r s2 H IH E]. { cbn. rewrite app_nil_r. auto. }
  rewrite SA, DA, app_assoc. destruct IH as (IH & IL). rewrite IH.
  destruct o; cbn [qspec] in E.
  - destruct (Z.ltb_spec (Z.of_nat (length (q_boxes s1))) (sz - 1)); injection E as <- <-;
      cbn [stored delivered q_boxes].
    + rewrite app_nil_r, <- app_assoc. split; auto. rewrite app_length. cbn [length]. lia.
    + rewrite !app_nil_r. auto.
  - destruct (q_boxes s1) as [|b l]; [discriminate|]. injection E as <- <-.
    cbn [stored delivered q_boxes length] in *. rewrite app_nil_r, <- app_assoc. split; auto. lia.
  - injection E as <- <-. destruct (o <? 12); cbn [stored delivered q_boxes]; rewrite !app_nil_r; auto.
  - injection E as <- <-. cbn [stored delivered]. rewrite !app_nil_r. auto.
Qed.

(** what was delivered is a prefix of what was stored, and at most [sz - 1] boxes are left *)
Theorem C58_boxes_arrive_in_order : forall n sz m0 k tr s,
  sane n sz -> created n sz m0 ->
  exec (seg_size n sz) n k m0 tr s -> (forall e, In e tr -> fine e = true) ->
  exists rest, stored (dones tr) = delivered (dones tr) ++ rest
    /\ Z.of_nat (length rest) <= sz - 1.
Proof.
  intros n sz m0 k tr s S C X F. destruct (C58_queue_is_fifo n sz m0 k tr s S C X F) as (q & Q).
  exists (q_boxes q). destruct (qruns_order _ _ _ _ Q) as (A & B). cbn [q_boxes qempty app length] in *.
  split; auto. apply B. destruct S. lia.
Qed.

(** no section ever leaves the segment, divides by zero or gets stuck *)
Theorem C58_sections_are_safe : forall n sz m0 k tr s i o b0 b u,
  sane n sz -> created n sz m0 ->
  exec (seg_size n sz) n k m0 tr s -> (forall e, In e tr -> fine e = true) ->
  nth_error (procs s) i = Some (Body o b0 b, u) ->
  exists r m', run (seg_size n sz) b (sm s) = Ok (r, m').
Proof.
  intros n sz m0 k tr s i o b0 b u S C X F Hi. pose proof (created_rep n sz m0 S C) as R.
  destruct S as ((S1 & S2) & S3).
  destruct (minv_exec sz n S1 S3 S2 k m0 qempty 0 tr s R eq_refl X F) as (LI & q & st & lost & m & MI).
  pose proof MI as [M1 M2 M3 M4 M5 M6 M7 M8].
  pose proof (M4 _ _ _ Hi) as (P1 & P2 & P3 & P4).
  pose proof (wt_others n s i _ _ LI Hi eq_refl) as WT.
  assert (NE0 : o = QUnflush -> q_boxes q <> []).
  { intros -> E. rewrite E in M8. cbn [length] in M8. unfold wt at 1 in WT. cbn [fst] in WT. lia. }
  destruct (run_body sz n S1 S3 S2 m q st o M2 P1 P2 NE0) as (r' & m' & q' & s' & B1 & B2 & B3).
  rewrite P3 in P4. rewrite (psteps_run _ _ _ _ _ _ P4) in B1. eauto.
Qed.

(** ** C59: the count *)

Lemma qruns_fun : forall sz q0 h q1, qruns sz q0 h q1 -> forall q2, qruns sz q0 h q2 -> q1 = q2.
Proof.
  intros sz q0 h q1 H. induction H as [s|s h s1 o r s2 H IH E]; intros q2 H2.
  - inversion H2; auto. match goal with K : ?h ++ [_] = [] |- _ => now destruct h end.
  - inversion H2.
    + match goal with K : [] = ?h ++ [_] |- _ => now destruct h end.
    + match goal with K : _ ++ [_] = _ ++ [_] |- _ => apply app_inj_tail in K; destruct K as (-> & K);
        injection K as -> -> end.
      match goal with K : qruns _ _ _ ?x |- _ => match type of H2 with qruns _ _ _ x => fail 1 | _ =>
        rewrite (IH _ K) in E; congruence end end.
Qed.

(** The semaphore that boxes_in_queue reports, plus the readers that have a ticket, is the
    number of boxes stored and not delivered (a flush that has announced its box but has
    not returned counts as well).  It never promises more, even if processes die outside
    the sections. *)
Theorem C59_count_is_exact : forall n sz m0 k tr s q,
  sane n sz -> sz <= 32768 -> created n sz m0 ->
  exec (seg_size n sz) n k m0 tr s ->
  (forall e, In e tr -> is_intr e = false /\ is_death e = false) ->
  qruns sz qempty (dones tr) q ->
  cnt s + Z.of_nat (count claims (procs s))
  = Z.of_nat (length (q_boxes q)) + Z.of_nat (count posted (procs s)).
Proof.
  intros n sz m0 k tr s q S SZ C X F Q. pose proof (created_rep n sz m0 S C) as R.
  destruct S as ((S1 & S2) & S3).
  assert (F' : forall e, In e tr -> fine e = true).
  { intros e He. destruct (F e He) as (A & B). unfold fine. rewrite A. destruct e; cbn in *; auto. discriminate. }
  destruct (minv_exec sz n S1 S3 S2 k m0 qempty 0 tr s R eq_refl X F') as (LI & q' & st & lost & m & MI).
  rewrite (qruns_fun _ _ _ _ Q _ (m_runs _ _ _ _ _ _ _ _ _ MI)).
  pose proof (m_sum _ _ _ _ _ _ _ _ _ MI) as M8. rewrite (wt_counts n) in M8.
  rewrite (m_none _ _ _ _ _ _ _ _ _ MI) in M8; auto; [lia|].
  intros e He. apply (F e He).
Qed.

Theorem C59_count_never_overpromises : forall n sz m0 k tr s q,
  sane n sz -> created n sz m0 ->
  exec (seg_size n sz) n k m0 tr s -> (forall e, In e tr -> fine e = true) ->
  qruns sz qempty (dones tr) q ->
  0 <= cnt s /\
  cnt s + Z.of_nat (count claims (procs s))
  <= Z.of_nat (length (q_boxes q)) + Z.of_nat (count posted (procs s)).
Proof.
  intros n sz m0 k tr s q S C X F Q. pose proof (created_rep n sz m0 S C) as R.
  destruct S as ((S1 & S2) & S3).
  destruct (minv_exec sz n S1 S3 S2 k m0 qempty 0 tr s R eq_refl X F) as (LI & q' & st & lost & m & MI).
  rewrite (qruns_fun _ _ _ _ Q _ (m_runs _ _ _ _ _ _ _ _ _ MI)).
  pose proof (m_sum _ _ _ _ _ _ _ _ _ MI) as M8. rewrite (wt_counts n) in M8.
  pose proof (m_lost _ _ _ _ _ _ _ _ _ MI). pose proof (m_cnt _ _ _ _ _ _ _ _ _ MI). lia.
Qed.

(** ** C62: the lock *)

(** Without interrupted system calls at most one process is in a section, even if processes
    die at any point; interruptions are what is missing. *)
Theorem C62_lock_excludes_partial : forall lim n k m0 tr s,
  exec lim n k m0 tr s -> (forall e, In e tr -> is_intr e = false) -> one_holder s.
Proof.
  intros lim n k m0 tr s X F. pose proof (linv_exec _ _ _ _ _ _ X F) as LI.
  intros i j p u q v Hi Hj Hp Hq. eapply linv_two; eauto.
Qed.

(** ** Executable scheduler for concrete executions *)
Inductive act := ACall (o : qop) | AStep | AIntr | ADie.

Definition qwfb (n : nat) (o : qop) : bool :=
  match o with
  | QFlush b => (length b =? n)%nat
  | QSetReg o v => (0 <=? o) && (o <? 256) && (0 <=? v) && (v <? 2^32)
  | QGetReg o => (0 <=? o) && (o <? 256)
  | QUnflush => true
  end.
Lemma qwfb_ok : forall n o, qwfb n o = true -> qwf n o.
Proof.
  intros n [b| |o v|o]; cbn; auto; rewrite ?andb_true_iff, ?Z.leb_le, ?Z.ltb_lt; try lia.
  apply Nat.eqb_eq.
Qed.

Definition fire (lim : Z) (n : nat) (s : sys) (i : nat) (a : act) : option (event * sys) :=
  let '(mkS l c m ps) := s in
  match nth_error ps i with
  | None => None
  | Some (p, u) =>
    match a with
    | ACall o =>
        match p with
        | Idle => if qwfb n o then
                    match noreg o with
                    | None => Some (ECall i o, mkS l c m (upd ps i (entry o, u)))
                    | Some r => Some (EDone i o r, s)
                    end
                  else None
        | _ => None
        end
    | AIntr =>
        match p with
        | Lock o => Some (EIntr i, mkS l c m (upd ps i (Body o (body n o) (body n o), u)))
        | _ => None
        end
    | ADie =>
        match p with
        | Dead => None
        | _ => Some (EDie i (holds p), mkS (Z.max 0 (l + u)) c m (upd ps i (Dead, 0)))
        end
    | AStep =>
        match p with
        | Ticket => if 0 <? c then Some (ETau i, mkS l (c - 1) m (upd ps i (Lock QUnflush, u)))
                    else if c =? 0 then Some (EFail i, mkS l c m (upd ps i (Idle, u))) else None
        | Lock o => if 0 <? l then
                      Some (ETau i, mkS (l - 1) c m
                        (upd ps i (Body o (body n o) (body n o), u + 1)))
                    else None
        | Body o b0 (Ret r) => Some (ETau i, mkS l c m (upd ps i (after o r, u)))
        | Body o b0 (Load sz a k) =>
            if inb lim sz a then Some (ETau i, mkS l c m (upd ps i (Body o b0 (k (m a)), u))) else None
        | Body o b0 (Store sz a v k) =>
            if inb lim sz a then Some (ETau i, mkS l c (mset m a v) (upd ps i (Body o b0 k, u)))
            else None
        | Post o r => Some (ETau i, mkS l (if c <? semvmx then c + 1 else c) m
                                      (upd ps i (Unlock o r, u)))
        | Unlock o r => Some (EDone i o r, mkS (l + 1) c m (upd ps i (Idle, u - 1)))
        | _ => None
        end
    end
  end.

Lemma fire_step : forall lim n s i a e s', fire lim n s i a = Some (e, s') -> step lim n s e s'.
Proof.
  intros lim n [l c m ps] i a e s' H. unfold fire in H.
  destruct (nth_error ps i) as [[p u]|] eqn:E; [|discriminate].
  destruct a as [o| | |].
  - destruct p; try discriminate. destruct (qwfb n o) eqn:W; [|discriminate].
    apply qwfb_ok in W.
    destruct (noreg o) eqn:N; injection H as <- <-; [eapply SNoReg|eapply SCall]; eauto.
  - destruct p as [| |o|o b0 b|o r|o r|]; try discriminate.
    + destruct (Z.ltb_spec 0 c).
      * injection H as <- <-. eapply STicket; eauto.
      * destruct (Z.eqb_spec c 0); [|discriminate]. injection H as <- <-. eapply SFail; eauto.
    + destruct (Z.ltb_spec 0 l); [|discriminate]. injection H as <- <-. eapply SLock; eauto.
    + destruct b as [r|w a k|w a v k|w|]; try discriminate.
      * injection H as <- <-. eapply SEnd; eauto.
      * destruct (inb lim w a) eqn:B; [|discriminate]. injection H as <- <-.
        eapply SMem; eauto. now constructor.
      * destruct (inb lim w a) eqn:B; [|discriminate]. injection H as <- <-.
        eapply SMem; eauto. now constructor.
    + injection H as <- <-. eapply SPost; eauto.
    + injection H as <- <-. eapply SUnlock; eauto.
  - destruct p; try discriminate. injection H as <- <-. eapply SIntr; eauto.
  - assert (D : p <> Dead) by (destruct p; discriminate).
    replace e with (EDie i (holds p)) by (destruct p; congruence).
    replace s' with (mkS (Z.max 0 (l + u)) c m (upd ps i (Dead, 0))) by (destruct p; congruence).
    eapply SDie; eauto.
Qed.

(** a step that is not possible is skipped *)
Fixpoint fires (lim : Z) (n : nat) (l : list (nat * act)) (tr : list event) (s : sys)
  : option (list event * sys) :=
  match l with
  | [] => Some (tr, s)
  | (i, a) :: l => match fire lim n s i a with
                   | Some (e, s) => fires lim n l (tr ++ [e]) s
                   | None => fires lim n l tr s
                   end
  end.
Lemma fires_exec : forall lim n k m0 l tr s tr' s', exec lim n k m0 tr s ->
  fires lim n l tr s = Some (tr', s') -> exec lim n k m0 tr' s'.
Proof.
  induction l as [|[i a] l IH]; intros tr s tr' s' X H; cbn [fires] in H.
  - injection H as <- <-. auto.
  - destruct (fire lim n s i a) as [[e s1]|] eqn:E.
    + eapply IH; [|exact H]. eapply exec_snoc; eauto. eapply fire_step; eauto.
    + eapply IH; eauto.
Qed.

(** a schedule whose outcome passes a test is an execution with that outcome *)
Lemma witness : forall lim n k m0 l (t : list event -> sys -> bool) d,
  match fires lim n l [] (init k m0) with Some (tr, s) => t tr s | None => false end = true ->
  let o := match fires lim n l [] (init k m0) with Some o => o | None => d end in
  exec lim n k m0 (fst o) (snd o) /\ t (fst o) (snd o) = true.
Proof.
  intros lim n k m0 l t d H. cbn zeta.
  destruct (fires lim n l [] (init k m0)) as [[tr s]|] eqn:E; [|discriminate].
  split; auto. eapply fires_exec; [constructor|exact E].
Qed.

Definition many (i k : nat) : list (nat * act) := repeat (i, AStep) k.
(** a complete call, in a system where nobody else is in the way *)
Definition call (i : nat) (o : qop) (k : nat) : list (nat * act) := (i, ACall o) :: many i k.

(** the segment of 3 boxes of 2 bytes *)
Definition m3 : mem :=
  match run (seg_size 2 3) (attach_body true 2 3) (fun _ => 7) with Ok (_, m) => m | _ => fun _ => 0 end.
Lemma m3_created : created 2 3 m3.
Proof.
  exists (fun _ => 7). unfold m3.
  destruct (run_attach_new 3 2 ltac:(lia) ltac:(vm_compute; reflexivity) (fun _ => 7)) as (m' & E & _).
  rewrite E. reflexivity.
Qed.
Lemma m3_sane : sane 2 3.
Proof. unfold sane. cbn. lia. Qed.

Definition ret_eqb (a b : qret) : bool :=
  match a, b with
  | QStored x, QStored y => Bool.eqb x y
  | QBox x, QBox y => if list_eq_dec Z.eq_dec x y then true else false
  | QNum x, QNum y => x =? y
  | QUnit, QUnit => true
  | _, _ => false
  end.
Fixpoint rets_eqb (a b : list qret) : bool :=
  match a, b with
  | [], [] => true
  | x :: a, y :: b => ret_eqb x y && rets_eqb a b
  | _, _ => false
  end.

(** two writers and a reader: the third flush finds the queue full; the boxes arrive in
    order; a register keeps its value *)
Example C58_ex :
  let l := call 0 (QFlush [1;2]) 40 ++ call 1 (QFlush [3;4]) 40 ++ call 0 (QFlush [5;6]) 40
           ++ call 2 QUnflush 40 ++ call 1 (QSetReg 3 9) 40 ++ call 0 (QFlush [5;6]) 40
           ++ call 2 QUnflush 40 ++ call 0 QUnflush 40 ++ call 0 (QGetReg 3) 40
           ++ call 0 QUnflush 40 in
  match fires (seg_size 2 3) 2 l [] (init 3 m3) with
  | Some (tr, s) =>
      forallb fine tr
      && rets_eqb (map snd (dones tr))
           [QStored true; QStored true; QStored false; QBox [1;2]; QUnit; QStored true;
            QBox [3;4]; QBox [5;6]; QNum 9]
      && (cnt s =? 0)
  | None => false
  end = true.
Proof. vm_compute. reflexivity. Qed.

(** Two boxes stored, a third in the middle of its flush: the semaphore counts 2.  Such an
    execution meets the hypotheses of C59. *)
Example C59_ex : sane 2 3 /\ created 2 3 m3 /\ exists tr s,
  exec (seg_size 2 3) 2 3 m3 tr s /\ (forall e, In e tr -> fine e = true) /\
  (forall e, In e tr -> is_intr e = false /\ is_death e = false) /\ cnt s = 2 /\
  count claims (procs s) = 0%nat /\ length (dones tr) = 2%nat.
Proof.
  split; [exact m3_sane|]. split; [exact m3_created|].
  set (l := call 0 (QFlush [1;2]) 40 ++ call 1 (QFlush [3;4]) 40 ++ call 0 (QFlush [5;6]) 3).
  destruct (witness (seg_size 2 3) 2 3 m3 l (fun tr s => forallb fine tr
    && forallb (fun e => negb (is_intr e) && negb (is_death e)) tr && (cnt s =? 2)
    && (count claims (procs s) =? 0)%nat && (length (dones tr) =? 2)%nat) ([], init 0 (fun _ => 0))) as [X T];
    [vm_compute; reflexivity|].
  cbv zeta in X, T. eexists _, _. split; [exact X|]. clear X. set (o := match fires _ _ _ _ _ with Some _ => _ | None => _ end) in *. clearbody o.
  apply andb_prop in T. destruct T as [T T5]. apply andb_prop in T. destruct T as [T T4].
  apply andb_prop in T. destruct T as [T T3]. apply andb_prop in T. destruct T as [T1 T2].
  rewrite forallb_forall in T1, T2. split; [exact T1|]. split.
  { intros e He. specialize (T2 e He). apply andb_prop in T2. destruct T2 as [A B]. apply negb_true_iff in A, B. auto. }
  split; [lia|]. split; apply Nat.eqb_eq; assumption.
Qed.

Definition holdsb (s : sys) (i : nat) : bool :=
  match nth_error (procs s) i with Some (p, _) => holds p | None => false end.
Definition stuckb (lim : Z) (s : sys) (i : nat) : bool :=
  match nth_error (procs s) i with
  | Some (Body _ _ b, _) => match run lim b (sm s) with Ub OobWrite => true | _ => false end
  | _ => false
  end.
Definition box_in (b : list Z) (l : list (list Z)) : bool :=
  existsb (fun x => if list_eq_dec Z.eq_dec b x then true else false) l.
Lemma box_in_spec : forall b l, box_in b l = true <-> In b l.
Proof.
  intros b l. unfold box_in. rewrite existsb_exists. split.
  - intros (x & Hx & E). destruct (list_eq_dec Z.eq_dec b x); [subst; auto|discriminate].
  - intros H. exists b. split; auto. destruct (list_eq_dec Z.eq_dec b b); auto.
Qed.
Definition count_ev (f : event -> bool) (tr : list event) : nat := length (filter f tr).
Definition dflt : list event * sys := ([], init 0 (fun _ => 0)).

(** One interrupted semop is enough to have two processes in their sections; and after both
    have left, two further processes can be inside although no call of theirs was
    interrupted. *)
Theorem C62_interrupted_lock_refuted : exists tr s,
  exec (seg_size 2 3) 2 4 m3 tr s /\ count_ev is_intr tr = 1%nat
  /\ count_ev is_death tr = 0%nat /\ ~ one_holder s.
Proof.
  set (l := (0%nat, ACall (QFlush [1;2])) :: many 0 3 ++ [(1%nat, ACall (QFlush [3;4])); (1%nat, AIntr)]).
  pose proof (witness (seg_size 2 3) 2 4 m3 l
    (fun tr s => (count_ev is_intr tr =? 1)%nat && (count_ev is_death tr =? 0)%nat
                 && holdsb s 0 && holdsb s 1) dflt) as W.
  destruct W as (X & T). { vm_compute. reflexivity. }
  revert X T. generalize (match fires (seg_size 2 3) 2 l [] (init 4 m3) with Some o => o | None => dflt end).
  clear l. intros [tr s] X T. cbn [fst snd] in *.
  rewrite !andb_true_iff, !Nat.eqb_eq in T. destruct T as (((T1 & T2) & T3) & T4).
  exists tr, s. repeat split; auto. intros O. unfold holdsb in T3, T4.
  destruct (nth_error (procs s) 0) as [[p u]|] eqn:E0; [|discriminate].
  destruct (nth_error (procs s) 1) as [[q v]|] eqn:E1; [|discriminate].
  specialize (O 0%nat 1%nat p u q v E0 E1 T3 T4). discriminate.
Qed.

Theorem C62_lock_stays_broken_refuted : exists tr1 tr2 s,
  exec (seg_size 2 3) 2 4 m3 (tr1 ++ tr2) s /\ count_ev is_intr tr1 = 1%nat
  /\ count_ev is_intr tr2 = 0%nat /\ count_ev is_death (tr1 ++ tr2) = 0%nat
  /\ holdsb s 0 = false /\ holdsb s 1 = false /\ ~ one_holder s.
Proof.
  set (l := (0%nat, ACall (QFlush [1;2])) :: many 0 3
            ++ [(1%nat, ACall (QFlush [3;4])); (1%nat, AIntr)] ++ many 1 30 ++ many 0 30
            ++ [(2%nat, ACall (QFlush [5;6])); (2%nat, AStep); (3%nat, ACall (QFlush [7;8]));
                (3%nat, AStep)]).
  pose proof (witness (seg_size 2 3) 2 4 m3 l
    (fun tr s => (count_ev is_intr (firstn 10 tr) =? 1)%nat && (count_ev is_intr (skipn 10 tr) =? 0)%nat
                 && (count_ev is_death tr =? 0)%nat
                 && negb (holdsb s 0) && negb (holdsb s 1) && holdsb s 2 && holdsb s 3) dflt) as W.
  destruct W as (X & T). { vm_compute. reflexivity. }
  revert X T. generalize (match fires (seg_size 2 3) 2 l [] (init 4 m3) with Some o => o | None => dflt end).
  clear l. intros [tr s] X T. cbn [fst snd] in *.
  rewrite !andb_true_iff, !negb_true_iff, !Nat.eqb_eq in T.
  destruct T as ((((((T1 & T2) & T3) & T4) & T5) & T6) & T7).
  exists (firstn 10 tr), (skipn 10 tr), s. rewrite firstn_skipn.
  do 6 (split; auto). intros O. unfold holdsb in T6, T7.
  destruct (nth_error (procs s) 2) as [[p u]|] eqn:E0; [|discriminate].
  destruct (nth_error (procs s) 3) as [[q v]|] eqn:E1; [|discriminate].
  specialize (O 2%nat 3%nat p u q v E0 E1 T6 T7). discriminate.
Qed.

(** and a reader then gets a box that nobody flushed, while a stored box is lost *)
Theorem C62_interrupted_lock_loses_a_box_refuted : exists tr s b b',
  exec (seg_size 2 3) 2 4 m3 tr s /\ count_ev is_intr tr = 1%nat /\ count_ev is_death tr = 0%nat
  /\ In b (delivered (dones tr)) /\ ~ In b (stored (dones tr))
  /\ In b' (stored (dones tr)) /\ ~ In b' (delivered (dones tr)) /\ cnt s = 0.
Proof.
  set (l := (0%nat, ACall (QFlush [1;2])) :: many 0 6
            ++ [(1%nat, ACall (QFlush [3;4])); (1%nat, AIntr)] ++ many 1 30 ++ many 0 30
            ++ call 2 QUnflush 40 ++ call 2 QUnflush 40).
  pose proof (witness (seg_size 2 3) 2 4 m3 l
    (fun tr s => (count_ev is_intr tr =? 1)%nat && (count_ev is_death tr =? 0)%nat
                 && box_in [0;0] (delivered (dones tr)) && negb (box_in [0;0] (stored (dones tr)))
                 && box_in [3;4] (stored (dones tr)) && negb (box_in [3;4] (delivered (dones tr)))
                 && (cnt s =? 0)) dflt) as W.
  destruct W as (X & T). { vm_compute. reflexivity. }
  revert X T. generalize (match fires (seg_size 2 3) 2 l [] (init 4 m3) with Some o => o | None => dflt end).
  clear l. intros [tr s] X T. cbn [fst snd] in *.
  rewrite !andb_true_iff, !negb_true_iff, !Nat.eqb_eq, Z.eqb_eq in T.
  destruct T as ((((((T1 & T2) & T3) & T4) & T5) & T6) & T7).
  exists tr, s, [0;0], [3;4]. repeat split; auto; try (now apply box_in_spec);
    intros O; apply box_in_spec in O; congruence.
Qed.

(** ** C84: the death of a process inside a section *)

(** A writer that dies between the two assignments to the end index leaves an index that
    is too large: the next flush writes behind the segment. *)
Theorem C84_death_in_flush_refuted : exists tr s i o b0 b u,
  exec (seg_size 2 3) 2 3 m3 tr s /\ count_ev is_intr tr = 0%nat /\ count_ev is_death tr = 1%nat
  /\ nth_error (procs s) i = Some (Body o b0 b, u) /\ run (seg_size 2 3) b (sm s) = Ub OobWrite.
Proof.
  set (l := call 0 (QFlush [1;2]) 40 ++ call 0 (QFlush [3;4]) 40 ++ call 1 QUnflush 40
            ++ call 1 QUnflush 40 ++ call 0 (QFlush [5;6]) 10 ++ [(0%nat, ADie)]
            ++ call 1 (QFlush [7;8]) 1).
  pose proof (witness (seg_size 2 3) 2 3 m3 l
    (fun tr s => (count_ev is_intr tr =? 0)%nat && (count_ev is_death tr =? 1)%nat
                 && stuckb (seg_size 2 3) s 1) dflt) as W.
  destruct W as (X & T). { vm_compute. reflexivity. }
  revert X T. generalize (match fires (seg_size 2 3) 2 l [] (init 3 m3) with Some o => o | None => dflt end).
  clear l. intros [tr s] X T. cbn [fst snd] in *.
  rewrite !andb_true_iff, !Nat.eqb_eq in T. destruct T as ((T1 & T2) & T3). unfold stuckb in T3.
  destruct (nth_error (procs s) 1) as [[[| |o|o b0 b|o r|o r|] u]|] eqn:E; try discriminate.
  exists tr, s, 1%nat, o, b0, b, u. repeat split; auto.
  destruct (run (seg_size 2 3) b (sm s)) as [?|[]|]; try discriminate. reflexivity.
Qed.

(** A reader that dies while it clears its box leaves a damaged box, which the next reader
    gets. *)
Theorem C84_death_in_unflush_refuted : exists tr s b,
  exec (seg_size 2 3) 2 3 m3 tr s /\ count_ev is_intr tr = 0%nat /\ count_ev is_death tr = 1%nat
  /\ In b (delivered (dones tr)) /\ ~ In b (stored (dones tr)).
Proof.
  set (l := call 0 (QFlush [1;2]) 40 ++ call 0 (QFlush [3;4]) 40 ++ call 1 QUnflush 8
            ++ [(1%nat, ADie)] ++ call 2 QUnflush 40).
  pose proof (witness (seg_size 2 3) 2 3 m3 l
    (fun tr s => (count_ev is_intr tr =? 0)%nat && (count_ev is_death tr =? 1)%nat
                 && box_in [0;2] (delivered (dones tr)) && negb (box_in [0;2] (stored (dones tr)))) dflt) as W.
  destruct W as (X & T). { vm_compute. reflexivity. }
  revert X T. generalize (match fires (seg_size 2 3) 2 l [] (init 3 m3) with Some o => o | None => dflt end).
  clear l. intros [tr s] X T. cbn [fst snd] in *.
  rewrite !andb_true_iff, !negb_true_iff, !Nat.eqb_eq in T. destruct T as (((T1 & T2) & T3) & T4).
  exists tr, s, [0;2]. repeat split; auto.
  - now apply box_in_spec.
  - intros O. apply box_in_spec in O. congruence.
Qed.

(** A reader that dies between its ticket and the lock takes a ticket with it: the box stays
    stored and nobody is told about it. *)
Theorem C84_lost_ticket_refuted : exists tr s q,
  exec (seg_size 2 3) 2 3 m3 tr s /\ forallb fine tr = true
  /\ qruns 3 qempty (dones tr) q /\ q_boxes q <> [] /\ cnt s = 0
  /\ count claims (procs s) = 0%nat.
Proof.
  set (l := call 0 (QFlush [1;2]) 40 ++ [(1%nat, ACall QUnflush); (1%nat, AStep); (1%nat, ADie)]).
  pose proof (witness (seg_size 2 3) 2 3 m3 l
    (fun tr s => forallb fine tr && (length (delivered (dones tr)) =? 0)%nat
                 && (length (stored (dones tr)) =? 1)%nat
                 && (cnt s =? 0) && (count claims (procs s) =? 0)%nat) dflt) as W.
  destruct W as (X & T). { vm_compute. reflexivity. }
  revert X T. generalize (match fires (seg_size 2 3) 2 l [] (init 3 m3) with Some o => o | None => dflt end).
  clear l. intros [tr s] X T. cbn [fst snd] in *.
  rewrite !andb_true_iff, !Nat.eqb_eq, Z.eqb_eq in T. destruct T as ((((T1 & T2) & T3) & T4) & T5).
  assert (F : forall e, In e tr -> fine e = true) by (apply forallb_forall; auto).
  destruct (C58_queue_is_fifo 2 3 m3 3 tr s m3_sane m3_created X F) as (q & Q).
  exists tr, s, q. repeat split; auto. intros E.
  destruct (qruns_order _ _ _ _ Q) as (A & _). rewrite E in A. cbn [qempty q_boxes app] in A.
  rewrite A, app_length, T2 in T3. discriminate.
Qed.

(** ** C85: sizes accepted by connect *)

(** 2^31 boxes of 2 bytes: the product wraps, the segment has no room for a single box *)
Theorem C85_large_queue_refuted : exists n sz m0 b,
  1 <= sz < 2^32 /\ 0 < Z.of_nat n < 2^32 /\ created n sz m0 /\ length b = n
  /\ run (seg_size n sz) (flush_body b) m0 = Ub OobWrite.
Proof.
  exists 2%nat, (2^31).
  set (o := run (seg_size 2 (2^31)) (attach_body true 2 (2^31)) (fun _ => 0)).
  exists (match o with Ok (_, m) => m | _ => fun _ => 0 end), [1;2].
  split; [lia|]. split; [cbn; lia|]. split; [|split; [reflexivity|]].
  - exists (fun _ => 0). fold o.
    assert (E : match o with Ok (tt, _) => true | _ => false end = true) by (vm_compute; reflexivity).
    destruct o as [[[] m]| |]; try discriminate. reflexivity.
  - vm_compute. reflexivity.
Qed.

(** no boxes at all: flush divides by zero *)
Theorem C85_zero_boxes_refuted : exists n m0 b,
  created n 0 m0 /\ length b = n /\ run (seg_size n 0) (flush_body b) m0 = Ub DivByZero.
Proof.
  exists 2%nat.
  set (o := run (seg_size 2 0) (attach_body true 2 0) (fun _ => 0)).
  exists (match o with Ok (_, m) => m | _ => fun _ => 0 end), [1;2].
  split; [|split; [reflexivity|]].
  - exists (fun _ => 0). fold o.
    assert (E : match o with Ok (tt, _) => true | _ => false end = true) by (vm_compute; reflexivity).
    destruct o as [[[] m]| |]; try discriminate. reflexivity.
  - vm_compute. reflexivity.
Qed.

(** ** C60: items and boxes *)

(** A writer starts with an empty box of [n] bytes, puts [xs], each at most [n] bytes, and
    flushes.  Every put returns true; the boxes offered to the queue hold [xs] in order, and
    a reader that gets from such a box receives its items in order.  The object a reader
    passes must not report a larger size than the item to come. *)
Theorem C60_items_survive_boxing : forall T (K : codec T) enc n xs,
  codec_ok T K enc -> Forall (fun x => (c_size K x <= n)%nat) xs ->
  exists b' log c cs last,
    q_puts T K (box_clear n) [] xs = Ok (b', log, repeat true (length xs))
    /\ snd (q_flush b' log) = log ++ [last] /\ fst (q_flush b' log) = box_clear n
    /\ xs = concat (cs ++ [c])
    /\ Forall2 (packed T enc n) (cs ++ [c]) (log ++ [last])
    /\ Forall (fun c => c <> []) cs
    /\ Forall2 (fun c b => forall hs, Forall2 (fun h x => (c_size K h <= c_size K x)%nat) hs c ->
                             q_gets T K (copy_from b) hs = c) (cs ++ [c]) (log ++ [last]).
Proof.
  intros T K enc n xs OK H.
  destruct (q_puts_spec T K enc OK n xs (box_clear n) [] [] (brep_clear T enc n n eq_refl) H)
    as (b' & log & c & cs & E & R & C & P & N).
  cbn [app] in *. exists b', log, c, cs, (b_mem b').
  assert (P' : Forall2 (packed T enc n) (cs ++ [c]) (log ++ [b_mem b'])).
  { apply Forall2_app; auto. constructor; [apply R|constructor]. }
  split; auto. split; [reflexivity|]. split.
  { unfold q_flush. cbn [fst]. destruct R as ((z & _ & L) & _). now rewrite L. }
  split. { rewrite concat_app. cbn [concat]. now rewrite app_nil_r. }
  split; auto. split; auto.
  clear - P' OK. induction P' as [|c0 b0 l1 l2 Hp _ IH]; constructor; auto.
  intros hs Hh. eapply packed_gets; eauto.
Qed.

(** A reader that goes on after the last item receives nothing more, if the type refuses
    zeros. *)
Theorem C60_no_items_after_the_last : forall T (K : codec T) enc n c b hs more,
  codec_ok T K enc -> (forall z, c_des K (repeat 0 z) = None) -> packed T enc n c b ->
  Forall2 (fun h x => (c_size K h <= c_size K x)%nat) hs c ->
  q_gets T K (copy_from b) (hs ++ more) = c /\
  exists b1, (forall h, snd (q_get T K b1 h) = false) /\
    b_mem b1 = b /\ b_pos b1 = length (concat (map enc c)).
Proof.
  intros T K enc n c b hs more OK Z0 (z & E & L) H. subst b.
  assert (F : forall pre c' h, b_pos (mkBox (pre ++ repeat 0 z) (length pre)) = c' ->
     snd (q_get T K (mkBox (pre ++ repeat 0 z) (length pre)) h) = false).
  { intros pre c' h _. unfold q_get, box_get. cbn [b_mem b_pos]. destruct (box_fits _ _ _ _); [|reflexivity].
    rewrite skipn_app, Nat.sub_diag, skipn_all. cbn [app skipn]. rewrite Z0. reflexivity. }
  split.
  - assert (G : forall c hs pre, Forall2 (fun h x => (c_size K h <= c_size K x)%nat) hs c ->
      q_gets T K (mkBox (pre ++ concat (map enc c) ++ repeat 0 z) (length pre)) (hs ++ more) = c).
    { clear c hs H L. induction c as [|x c IH]; intros hs pre H; inversion H as [|h ? hs' ? H1 H2]; subst.
      - cbn [map concat app]. destruct more as [|h more]; [reflexivity|]. cbn [q_gets].
        pose proof (F pre _ h eq_refl) as X. destruct (q_get T K _ h) as [[b1 y] ok]. cbn [snd] in X. subst ok. reflexivity.
      - cbn [app q_gets]. unfold q_get, box_fits. cbn [b_mem b_pos map concat].
        rewrite !app_length, (k_len _ _ _ OK).
        destruct (Nat.leb_spec (length pre + c_size K h)
          (length pre + (c_size K x + length (concat (map enc c)) + length (repeat 0 z)))); [|lia].
        unfold box_get. cbn [b_mem b_pos].
        rewrite skipn_app, Nat.sub_diag, skipn_all. cbn [app skipn].
        rewrite <- app_assoc, (k_des _ _ _ OK). f_equal.
        replace (pre ++ enc x ++ concat (map enc c) ++ repeat 0 z) with ((pre ++ enc x) ++ concat (map enc c) ++ repeat 0 z)
          by (rewrite <- app_assoc; reflexivity).
        rewrite <- (k_len _ _ _ OK x), <- app_length. apply IH; auto. }
    apply (G c hs []); auto.
  - exists (mkBox (concat (map enc c) ++ repeat 0 z) (length (concat (map enc c)))). split; [|auto].
    intros h. exact (F _ _ h eq_refl).
Qed.
Print Assumptions C60_no_items_after_the_last.

(** put refuses exactly the items that do not fit into an empty box, and then it has
    offered the current box to the queue and left an empty one *)
Theorem C60_put_refuses_only_oversized : forall T (K : codec T) enc n b c log x,
  codec_ok T K enc -> packed T enc n c (b_mem b) -> b_pos b = length (concat (map enc c)) ->
  exists b' log' ok, q_put T K b log x = Ok (b', log', ok)
    /\ (ok = false <-> (n < c_size K x)%nat)
    /\ (ok = false -> b' = box_clear n /\ log' = log ++ [b_mem b]).
Proof.
  intros T K enc n b c log x OK P1 P2.
  assert (R : brep T enc n b c) by (split; auto).
  destruct (Nat.le_gt_cases (c_size K x) n) as [L|L].
  - destruct (q_put_spec T K enc OK n b c log x R L) as (b' & l' & c' & cs & E & _).
    exists b', (log ++ l'), true. split; auto. split; [split; [discriminate|lia]|discriminate].
  - unfold q_put. rewrite (put_full T K enc n b c x R) by lia. cbn [bind]. unfold q_flush.
    assert (Ln : length (b_mem b) = n) by (destruct P1 as (z & _ & Ln); auto). rewrite Ln.
    rewrite (put_full T K enc n (box_clear n) [] x (brep_clear T enc n n eq_refl)) by (cbn; lia).
    cbn [bind]. do 3 eexists. split; [reflexivity|]. split; [split; auto|]. auto.
Qed.

(** two item types: single words of 2 bytes, and strings with a length byte *)
Definition pairK : codec (Z * Z) :=
  mkCodec _ (fun _ => 2%nat) (fun x => Some [fst x; snd x])
    (fun l => match l with a :: b :: _ => Some (a, b) | _ => None end).
Definition strK : codec (list Z) :=
  mkCodec _ (fun x => S (length x)) (fun x => Some (Z.of_nat (length x) :: x))
    (fun l => match l with
              | k :: l => if k =? 0 then None else Some (firstn (Z.to_nat k) l)
              | [] => None
              end).
Lemma pairK_ok : codec_ok _ pairK (fun x => [fst x; snd x]).
Proof. constructor; auto. intros [a b] rest. reflexivity. Qed.

Example C60_ex :
  q_puts _ pairK (box_clear 5) [] [(1,2);(3,4);(5,6)]
  = Ok (mkBox [5;6;0;0;0] 2, [[1;2;3;4;0]], [true;true;true])
  /\ q_gets _ pairK (copy_from [1;2;3;4;0]) [(9,9);(9,9);(9,9)] = [(1,2);(3,4)].
Proof. split; reflexivity. Qed.

Definition word1K : codec Z := mkCodec _ (fun _ => 1%nat) (fun x => Some [x])
  (fun l => match l with k :: _ => if k =? 0 then None else Some k | [] => None end).
Example C60_ex2 : (forall z, c_des word1K (repeat 0 z) = None) /\
  q_gets _ word1K (copy_from [7; 8; 0; 0]) [1; 1; 1; 1; 1] = [7; 8].
Proof. split; [intros [|z]; reflexivity|reflexivity]. Qed.

(** A box that is not full yields items nobody put when the type accepts zeros. *)
Theorem C60_phantom_items_refuted : exists T (K : codec T) enc x hs,
  codec_ok T K enc /\ packed T enc 6 [x] (match q_puts T K (box_clear 6) [] [x] with
                                          | Ok (b, _, _) => b_mem b | _ => [] end)
  /\ q_gets T K (copy_from (match q_puts T K (box_clear 6) [] [x] with
                            | Ok (b, _, _) => b_mem b | _ => [] end)) hs <> [x]
  /\ (length hs <= 3)%nat /\ (1 < length (q_gets T K (copy_from (match q_puts T K (box_clear 6) [] [x] with
                            | Ok (b, _, _) => b_mem b | _ => [] end)) hs))%nat.
Proof.
  exists _, pairK, (fun x => [fst x; snd x]), (1, 2), [(0,0);(0,0);(0,0)].
  split; [apply pairK_ok|]. split. { exists 4%nat. split; reflexivity. }
  split; [discriminate|]. cbn. lia.
Qed.

(** Items of different sizes: a reader that reuses its object misses the short item after a
    long one. *)
Theorem C60_reused_object_refuted : exists T (K : codec T) (x y : T) b,
  b = match q_puts T K (box_clear 7) [] [x; y] with Ok (b, _, _) => b_mem b | _ => [] end
  /\ q_gets T K (copy_from b) [y; y] = [x; y]
  /\ q_gets T K (copy_from b) [y; x] = [x].
Proof.
  exists _, strK, [1;2;3;4], [5], [4;1;2;3;4;1;5]. repeat split; reflexivity.
Qed.

(** ** C61: connect *)

(** When connect throws because of the segment it still holds the lock; another size of box
    or queue is undefined behaviour. *)
Theorem C61_failed_connect_refuted :
  (exists e bs z o, connect e bs z (mkObj false false) = Ok (o, Threw, true))
  /\ (exists e bs z, connect e bs z (mkObj false false) = Ub NullDeref).
Proof.
  split.
  - exists (mkEnv true true true true true true (Some (8192, 500)) false true true), 8192, 1000.
    eexists. reflexivity.
  - exists (mkEnv true true true true true true (Some (4096, 1000)) true true true), 8192, 1000.
    reflexivity.
Qed.

(** the first process, and a later one *)
Example C61_ex :
  connect (mkEnv true false true true true true None false true true) 8192 1000 (mkObj false false) = Ok (mkObj true true, Connected, false) /\
  connect (mkEnv true true false false false true (Some (8192, 1000)) true false true) 8192 1000 (mkObj false false) = Ok (mkObj true true, Connected, false).
Proof. split; reflexivity. Qed.

(** What does hold: a connect that returns has released the lock; one that throws because of
    the semaphores never took it; the sizes of an existing queue are compared. *)
Theorem C61_connect_partial : forall e bs z o,
  match connect e bs z o with
  | Ok (o', Connected, held) =>
      held = false /\ o_sem o' = true /\ o_boxes o' = true
      /\ (forall s, v_shm e = Some s -> s = (bs, z))
  | Ok (o', Threw, held) => held = true <-> snd (connect_sem e o) = true
  | Ub _ => exists bs' z', v_shm e = Some (bs', z') /\ (bs', z') <> (bs, z)
  | Fuel => False
  end.
Proof.
  intros e bs z o. unfold connect. destruct (connect_sem e o) as [o1 ok] eqn:S. cbn [snd].
  destruct ok; cbn [negb]; [|split; congruence].
  assert (O1 : o_sem o1 = true).
  { unfold connect_sem in S. destruct (o_sem o) eqn:A; [injection S as <-; auto; discriminate|].
    destruct (negb (v_ftok1 e)); [discriminate|].
    destruct (v_sem_old e); [injection S as <-; auto|].
    destruct (negb (v_sem_new e)); [discriminate|]. injection S as <- _. auto. }
  unfold connect_shm.
  destruct (o_boxes o1); [cbn [bind]; tauto|].
  destruct (negb (v_ftok2 e)); [cbn [bind]; tauto|].
  destruct (v_shm e) as [[bs' z']|].
  - destruct (negb (v_shm_old_ok e)); [cbn [bind]; tauto|].
    destruct (negb (v_shmat e)); [cbn [bind]; tauto|].
    destruct (Z.eqb_spec bs bs') as [<-|N1]; cbn [negb orb].
    + destruct (Z.eqb_spec z z') as [<-|N2]; cbn [negb orb bind o_sem o_boxes].
      * repeat split; auto. congruence.
      * exists bs, z'. split; auto. congruence.
    + cbn [bind]. exists bs', z'. split; auto. congruence.
  - destruct (negb (v_shm_new e)); [cbn [bind]; tauto|].
    destruct (negb (v_shmat e)); [cbn [bind]; tauto|].
    cbn [bind o_sem o_boxes]. repeat split; auto. discriminate.
Qed.

(** connect returns exactly if every call it needs succeeds: the semaphores exist or are made
    and given their two values, and the segment exists with the same sizes or is made. *)
Theorem C61_connect_iff : forall e bs z o,
  (exists o', connect e bs z o = Ok (o', Connected, false)) <->
  (o_sem o = false /\ o_boxes o = false /\ v_ftok1 e = true /\ v_ftok2 e = true /\ v_shmat e = true /\
   (v_sem_old e = true \/ (v_sem_new e = true /\ v_set0 e = true /\ v_set1 e = true)) /\
   match v_shm e with
   | Some (bs', z') => v_shm_old_ok e = true /\ bs' = bs /\ z' = z
   | None => v_shm_new e = true
   end).
Proof.
  intros e bs z [os ob]. unfold connect, connect_sem, connect_shm. cbn [o_sem o_boxes].
  destruct os; [cbn; split; [intros (o' & X); discriminate|intros (X & _); discriminate]|].
  destruct (v_ftok1 e); [|cbn; split; [intros (o' & X); discriminate|intros (_ & _ & X & _); discriminate]].
  cbn [negb].
  assert (R : exists ok, (if v_sem_old e then (mkObj true ob, true)
              else if negb (v_sem_new e) then (mkObj false ob, false)
              else (mkObj true ob, v_set0 e && v_set1 e)) = (mkObj (v_sem_old e || v_sem_new e) ob, ok) /\
             (ok = true <-> v_sem_old e = true \/ (v_sem_new e = true /\ v_set0 e = true /\ v_set1 e = true))).
  { destruct (v_sem_old e), (v_sem_new e), (v_set0 e), (v_set1 e); cbn; eexists; (split; [reflexivity|]); intuition congruence. }
  destruct R as (ok & -> & K). destruct ok; cbn [negb].
  2:{ split; [intros (o' & X); discriminate|]. intros X. assert (Y : false = true) by tauto. discriminate Y. }
  destruct ob; cbn [o_boxes bind]; [split; [intros (o' & X); discriminate|intros (_ & X & _); discriminate]|].
  destruct (v_ftok2 e); cbn [negb bind]; [|split; [intros (o' & X); discriminate|intros (_ & _ & _ & X & _); discriminate]].
  destruct (v_shmat e); cbn [negb].
  2:{ split; [|intros (_ & _ & _ & _ & X & _); discriminate]. intros (o' & X).
      destruct (v_shm e) as [[b' z']|]; [destruct (v_shm_old_ok e)|destruct (v_shm_new e)]; cbn in X; discriminate. }
  destruct (v_shm e) as [[b' z']|].
  - destruct (v_shm_old_ok e); cbn [negb bind]; [|split; [intros (o' & X); discriminate|intros X; exfalso; intuition discriminate]].
    destruct (Z.eqb_spec bs b'), (Z.eqb_spec z z'); cbn [negb orb bind]; split; intros X;
      try (destruct X as (o' & X); discriminate); try (exfalso; intuition congruence); [|eauto]; subst; intuition.
  - destruct (v_shm_new e); cbn [negb bind]; split; intros X;
      try (destruct X as (o' & X); discriminate); try (exfalso; intuition congruence); [|eauto]; intuition.
Qed.
Print Assumptions C61_connect_iff.

Print Assumptions C58_queue_is_fifo.
Print Assumptions C58_boxes_arrive_in_order.
Print Assumptions C58_sections_are_safe.
Print Assumptions C59_count_is_exact.
Print Assumptions C59_count_never_overpromises.
Print Assumptions C60_items_survive_boxing.
Print Assumptions C60_put_refuses_only_oversized.
Print Assumptions C60_phantom_items_refuted.
Print Assumptions C60_reused_object_refuted.
Print Assumptions C61_failed_connect_refuted.
Print Assumptions C61_connect_partial.
Print Assumptions C62_lock_excludes_partial.
Print Assumptions C62_interrupted_lock_refuted.
Print Assumptions C62_lock_stays_broken_refuted.
Print Assumptions C62_interrupted_lock_loses_a_box_refuted.
Print Assumptions C84_death_in_flush_refuted.
Print Assumptions C84_death_in_unflush_refuted.
Print Assumptions C84_lost_ticket_refuted.
Print Assumptions C85_large_queue_refuted.
Print Assumptions C85_zero_boxes_refuted.
