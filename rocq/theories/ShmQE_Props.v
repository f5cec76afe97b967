(** C139: items put into a shared queue by many writers reach its readers once and in order. *)
From Coq Require Import ZArith List Bool Lia Arith.
From Verif Require Import Base Shm_Model Shm_Proof ShmQ_Spec ShmQ_Model ShmQSys_Spec ShmQ_Proof ShmQSys_Proof ShmQBox_Proof ShmQ_Props
  ShmQE_Model ShmQE_Spec ShmQE_Proof.
Import ListNotations.
Local Open Scope Z_scope.

Lemma qruns_counts : forall sz h q, qruns sz qempty h q -> (length (q_boxes q) + taken h)%nat = stored h.
Proof.
  intros sz h q H. remember qempty as q0 eqn:E0. induction H as [|s h s1 o r s2 R IH S]; [subst; reflexivity|].
  specialize (IH E0). unfold taken, stored in *. rewrite !filter_app, !app_length.
  destruct o as [b| |ro rv|ro]; cbn [qspec] in S.
  - destruct (_ <? _); injection S as <- <-; cbn [filter length q_boxes]; rewrite ?app_length; cbn [length]; lia.
  - destruct (q_boxes s1) as [|x l]; [discriminate|]. injection S as <- <-. cbn [filter length q_boxes] in *. lia.
  - injection S as <- <-. replace (q_boxes (if ro <? 12 then _ else _)) with (q_boxes s1) by (now destruct (ro <? 12)). cbn [filter length]. lia.
  - injection S as <- <-. cbn [filter length]. lia.
Qed.

(** Several processes use one queue, some only to write, the others only to read; no semaphore
    operation is interrupted and nobody dies inside a section; processes may die elsewhere.  The type of the items refuses zeros and readers
    pass objects that are not larger than any item.  At any moment there is a list of boxes
    that explains everything: what a writer has put is what its boxes carry, in order, and what
    it has not flushed yet; what a reader has got is what the boxes it received carry, in order,
    up to the ones it has not read yet; boxes are received in the order in which they were
    stored, whoever stored them, each by one reader, and lost only if a flush found the queue full.
    Missing: processes that write and read with one object, see the refutations below. *)
Theorem C139_items_partial : forall T (K : codec T) enc n sz m0 k writer tr w,
  codec_ok T K enc -> (forall z, c_des K (repeat 0 z) = None) -> sane n sz -> created n sz m0 ->
  eexec T K (seg_size n sz) n k m0 tr w ->
  proper T (fun h => forall x, (c_size K h <= c_size K x)%nat) writer tr ->
  (forall e, In e (rings T tr) -> fine e = true) ->
  exists old new : list (parcel T), let H := old ++ new in
  (forall p, In p old -> p_fate T p <> Waiting) /\ (forall p, In p new -> forall j, p_fate T p <> Read j) /\
  (forall i, puts T i tr = items T (from T i) H ++ unsent T i tr) /\
  (forall j, writer j = false -> (j < k)%nat -> exists rest, items T (to T j) H = gets T j tr ++ rest /\
     (opened T j tr = false -> rest = [])) /\
  (forall p j, In p H -> p_fate T p = Read j -> writer j = false /\ (j < k)%nat) /\
  length (filter (is_refused T) H) = refusals (dones (rings T tr)) /\
  (length (filter (is_waiting T) H) + taken (dones (rings T tr)) = stored (dones (rings T tr)))%nat /\
  flushes (rings T tr) = map (fun p => (p_from T p, negb (is_refused T p))) H /\
  receivers (rings T tr) = flat_map (reader_of T) H.
Proof.
  intros T K enc n sz m0 k writer tr w OK Z0 HS HC X P F.
  destruct (einv_exec T K enc n sz m0 k writer OK Z0 HS HC tr w X P F) as (HA & HB & q & V).
  destruct V as [V1 V2 V3 V4 V5 V6 V7 V8 V9 V10 V11 V12 V13 V14]. exists HA, HB. cbn zeta.
  rewrite Forall_forall in V3, V4.
  assert (NB : forall p j, In p HB -> p_fate T p <> Read j) by (intros p j Hp E; destruct (V4 p Hp); congruence).
  assert (NT : forall j, items T (to T j) HB = []).
  { intros j. unfold items. replace (filter (to T j) HB) with (@nil (parcel T)); [reflexivity|]. clear -V4.
    induction HB as [|p l IH]; [reflexivity|]. cbn [filter]. replace (to T j p) with false; [apply IH; intros; apply V4; now right|].
    unfold to. destruct (V4 p (or_introl eq_refl)) as [->| ->]; reflexivity. }
  split. { intros p Hp E. specialize (V3 p Hp). unfold is_waiting in V3. rewrite E in V3. discriminate. }
  split; [eauto|]. split; [exact V5|]. split.
  { intros j Wj Lj. rewrite <- V11 in Lj. destruct (nth_error (e_loc T w) j) as [[b pd]|] eqn:E; [|apply nth_error_None in E; lia].
    destruct (V8 j b pd E Wj) as (dn & rs & z & _ & _ & M3 & M4). exists rs.
    rewrite items_app, NT, app_nil_r. auto. }
  split. { intros p j Hp E. apply in_app_or in Hp. destruct Hp as [Hp|Hp]; [eauto|]. elim (NB p j Hp E). }
  split; [now symmetry|].
  assert (WA : filter (is_waiting T) HA = []).
  { clear -V3. induction HA as [|p l IH]; [reflexivity|]. cbn [filter]. rewrite (V3 p (or_introl eq_refl)). apply IH. intros; apply V3; now right. }
  split.
  { rewrite filter_app, WA. cbn [app]. rewrite <- (qruns_counts _ _ _ V1). f_equal.
    rewrite <- (map_length (p_items T)). clear -V2. induction V2; cbn [length]; auto. }
  split; [exact V13|]. rewrite V14, flat_map_app. replace (flat_map (reader_of T) HB) with (@nil nat); [now rewrite app_nil_r|].
  clear -V4. induction HB as [|p l IH]; [reflexivity|]. cbn [flat_map]. rewrite <- IH by (intros; apply V4; now right).
  unfold reader_of. now destruct (V4 p (or_introl eq_refl)) as [->| ->].
Qed.
Print Assumptions C139_items_partial.

(** When no flush found the queue full, the writers have flushed, every box has been taken and
    the readers have read theirs up, then every item that was put was got exactly once, by one
    reader, and the items of one writer that reach one reader arrive in the order they were put. *)
Theorem C139_exactly_once_partial : forall T (K : codec T) enc n sz m0 k writer tr w,
  codec_ok T K enc -> (forall z, c_des K (repeat 0 z) = None) -> sane n sz -> created n sz m0 ->
  eexec T K (seg_size n sz) n k m0 tr w ->
  proper T (fun h => forall x, (c_size K h <= c_size K x)%nat) writer tr ->
  (forall e, In e (rings T tr) -> fine e = true) ->
  refusals (dones (rings T tr)) = 0%nat -> stored (dones (rings T tr)) = taken (dones (rings T tr)) ->
  (forall i, unsent T i tr = []) -> (forall j, opened T j tr = false) ->
  exists D : list (delivery T),
  (forall d, In d D -> writer (d_to T d) = false /\ (d_to T d < k)%nat) /\
  (forall i, map (d_item T) (filter (fun d => d_from T d =? i)%nat D) = puts T i tr) /\
  (forall j, writer j = false -> (j < k)%nat -> map (d_item T) (filter (fun d => d_to T d =? j)%nat D) = gets T j tr).
Proof.
  intros T K enc n sz m0 k writer tr w OK Z0 HS HC X P F NR ST NU NO.
  destruct (C139_items_partial T K enc n sz m0 k writer tr w OK Z0 HS HC X P F) as (HA & HB & A1 & A2 & A3 & A4 & A5 & A6 & A7 & _).
  remember (HA ++ HB) as H eqn:EH. clear EH A1 A2.
  assert (R : forall p, In p H -> exists j, p_fate T p = Read j).
  { intros p Hp. destruct (p_fate T p) as [| |j] eqn:E; [| |eauto]; exfalso.
    - assert (In p (filter (is_refused T) H)) as Q by (apply filter_In; unfold is_refused; rewrite E; auto).
      rewrite NR in A6. destruct (filter (is_refused T) H); [destruct Q|discriminate].
    - assert (In p (filter (is_waiting T) H)) as Q by (apply filter_In; unfold is_waiting; rewrite E; auto).
      destruct (filter (is_waiting T) H); [destruct Q|cbn [length] in A7; lia]. }
  set (dl := fun p => map (fun x => mkDel T (p_from T p) (match p_fate T p with Read j => j | _ => 0%nat end) x) (p_items T p)).
  exists (flat_map dl H). split; [|split].
  - intros d Hd. apply in_flat_map in Hd. destruct Hd as (p & Hp & Hd). apply in_map_iff in Hd. destruct Hd as (x & <- & _).
    cbn [d_to]. destruct (R p Hp) as [j E]. rewrite E. eauto.
  - intros i. rewrite A3, NU, app_nil_r. clear. induction H as [|p H IH]; [reflexivity|].
    cbn [flat_map]. rewrite filter_app, map_app, IH. unfold items. cbn [filter]. unfold from at 2.
    assert (E : filter (fun d => d_from T d =? i)%nat (dl p) = if (p_from T p =? i)%nat then dl p else []).
    { unfold dl. induction (p_items T p) as [|x l IHl]; cbn [map filter d_from]; [now destruct (_ =? _)%nat|]. rewrite IHl.
      now destruct (p_from T p =? i)%nat. }
    rewrite E. destruct (p_from T p =? i)%nat; [|reflexivity]. cbn [map concat]. f_equal.
    unfold dl. rewrite map_map. cbn [d_item]. apply map_id.
  - intros j Wj Lj. destruct (A4 j Wj Lj) as (rest & E & E0). rewrite (E0 (NO j)), app_nil_r in E. rewrite <- E.
    clear -R. induction H as [|p H IH]; [reflexivity|].
    cbn [flat_map]. rewrite filter_app, map_app, IH by (intros; apply R; now right). unfold items. cbn [filter]. unfold to at 2.
    destruct (R p (or_introl eq_refl)) as [j0 E]. rewrite E.
    assert (E1 : filter (fun d => d_to T d =? j)%nat (dl p) = if (j0 =? j)%nat then dl p else []).
    { unfold dl. rewrite E. induction (p_items T p) as [|x l IHl]; cbn [map filter d_to]; [now destruct (_ =? _)%nat|]. rewrite IHl.
      now destruct (j0 =? j)%nat. }
    rewrite E1. destruct (j0 =? j)%nat; [|reflexivity]. cbn [map concat]. f_equal.
    unfold dl. rewrite map_map. cbn [d_item]. apply map_id.
Qed.
Print Assumptions C139_exactly_once_partial.

(** concrete executions *)
Definition natK : codec nat := mkCodec _ (fun _ => 1%nat) (fun x => Some [Z.of_nat x + 1])
  (fun l => match l with z :: _ => if z <=? 0 then None else Some (Z.to_nat (z - 1)) | [] => None end).
Lemma natK_ok : codec_ok nat natK (fun x => [Z.of_nat x + 1]).
Proof.
  constructor; intros; cbn; auto. destruct (Z.leb_spec (Z.of_nat x + 1) 0); [lia|]. f_equal. lia.
Qed.
Lemma natK_zero : forall z, c_des natK (repeat 0 z) = None.
Proof. intros [|z]; reflexivity. Qed.

Inductive cmd := CPut (x : nat) | CAgain | CGet (h : nat) | CAct (a : act).
Definition efire (lim : Z) (n : nat) (w : esys nat) (i : nat) (c : cmd) : option (eev nat * esys nat) :=
  let '(mkE _ s l) := w in
  match nth_error (procs s) i, nth_error l i with
  | Some (p, u), Some (b, pd) =>
    match c, p, pd with
    | CPut x, Idle, None =>
        match box_put nat natK b x with
        | Ok (b', true) => Some (Put nat i x true, mkE nat s (upd l i (b', None)))
        | Ok (b', false) =>
            match fire lim n s i (ACall (QFlush (b_mem b'))) with
            | Some (ECall j (QFlush y), s') =>
                if (j =? i)%nat && (if list_eq_dec Z.eq_dec y (b_mem b') then true else false)
                then Some (Ring nat (ECall i (QFlush (b_mem b'))), mkE nat s' (upd l i (b', Some x))) else None
            | _ => None
            end
        | _ => None
        end
    | CAgain, Idle, Some x =>
        match box_put nat natK b x with
        | Ok (b', ok) => Some (Put nat i x ok, mkE nat s (upd l i (b', None)))
        | _ => None
        end
    | CGet h, Idle, None =>
        let '(b', y, ok) := q_get nat natK b h in Some (Get nat i h y ok, mkE nat s (upd l i (b', None)))
    | CAct a, _, _ =>
        match fire lim n s i a with
        | Some (ECall j o, s') =>
            match nth_error l j with
            | Some (b, None) =>
              match o with
              | QFlush y => if list_eq_dec Z.eq_dec y (b_mem b) then Some (Ring nat (ECall j o), mkE nat s' l) else None
              | _ => Some (Ring nat (ECall j o), mkE nat s' l)
              end
            | _ => None
            end
        | Some (EDone j o r, s') =>
            match nth_error l j with
            | Some (b, pd) => Some (Ring nat (EDone j o r), mkE nat s' (upd l j (left_box n o r b, pd)))
            | None => None
            end
        | Some (e, s') => Some (Ring nat e, mkE nat s' l)
        | None => None
        end
    | _, _, _ => None
    end
  | _, _ => None
  end.
Lemma efire_step : forall lim n w i c e w', efire lim n w i c = Some (e, w') -> estep nat natK lim n w e w'.
Proof.
  intros lim n [s l] i c e w' H. unfold efire in H.
  destruct (nth_error (procs s) i) as [[p u]|] eqn:Ep; [|discriminate].
  destruct (nth_error l i) as [[b pd]|] eqn:El; [|discriminate].
  destruct c as [x| |h|a].
  - destruct p; try discriminate. destruct pd as [y|]; [discriminate|].
    { destruct (box_put nat natK b x) as [[b' [|]]|b1|] eqn:Eb; try discriminate.
      * injection H as <- <-. eapply EPut; eauto.
      * destruct (fire lim n s i (ACall (QFlush (b_mem b')))) as [[ev s']|] eqn:Ef; [|discriminate].
        apply fire_step in Ef. destruct ev as [j o|j|j|j z|j o r|j|j z]; try discriminate. destruct o as [y| |ro rv|ro]; try discriminate.
        destruct (Nat.eqb_spec j i); [|discriminate]. cbn [andb] in H.
        destruct (list_eq_dec Z.eq_dec y (b_mem b')); [|discriminate]. injection H as <- <-. subst. eapply EFull; eauto. }
  - destruct p; try discriminate. destruct pd as [y|]; [|discriminate].
    destruct (box_put nat natK b y) as [[b' ok]|b1|] eqn:Eb; try discriminate. injection H as <- <-. eapply EAgain; eauto.
  - destruct p; try discriminate. destruct pd as [y|]; [discriminate|].
    destruct (q_get nat natK b h) as [[b' y] ok] eqn:Eb. injection H as <- <-. eapply EGet; eauto.
  - assert (H' : match fire lim n s i a with
        | Some (ECall j o, s') =>
            match nth_error l j with
            | Some (b, None) =>
              match o with
              | QFlush y => if list_eq_dec Z.eq_dec y (b_mem b) then Some (Ring nat (ECall j o), mkE nat s' l) else None
              | _ => Some (Ring nat (ECall j o), mkE nat s' l)
              end
            | _ => None
            end
        | Some (EDone j o r, s') =>
            match nth_error l j with
            | Some (b, pd) => Some (Ring nat (EDone j o r), mkE nat s' (upd l j (left_box n o r b, pd)))
            | None => None
            end
        | Some (e, s') => Some (Ring nat e, mkE nat s' l)
        | None => None
        end = Some (e, w')) by (destruct p, pd; exact H).
    clear H. rename H' into H.
    destruct (fire lim n s i a) as [[ev s']|] eqn:Ef; [|discriminate]. apply fire_step in Ef.
    destruct ev as [j o|j|j|j z|j o r|j|j z]; try (injection H as <- <-; now eapply EInner).
    + destruct (nth_error l j) as [[b1 [y|]]|] eqn:Ej; try discriminate.
      destruct o as [y| |ro rv|ro]; try (injection H as <- <-; eapply ECallE; eauto; intros; discriminate).
      destruct (list_eq_dec Z.eq_dec y (b_mem b1)); [|discriminate]. injection H as <- <-. eapply ECallE; eauto. intros x E. congruence.
    + destruct (nth_error l j) as [[b1 pd1]|] eqn:Ej; try discriminate. injection H as <- <-. eapply EDoneE; eauto.
Qed.
Fixpoint efires (lim : Z) (n : nat) (l : list (nat * cmd)) (tr : list (eev nat)) (w : esys nat) : list (eev nat) * esys nat :=
  match l with
  | [] => (tr, w)
  | (i, c) :: l => match efire lim n w i c with
                   | Some (e, w) => efires lim n l (tr ++ [e]) w
                   | None => efires lim n l tr w
                   end
  end.
Lemma efires_exec : forall lim n k m0 l tr w, eexec nat natK lim n k m0 tr w ->
  eexec nat natK lim n k m0 (fst (efires lim n l tr w)) (snd (efires lim n l tr w)).
Proof.
  induction l as [|[i c] l IH]; intros tr w X; cbn [efires]; [exact X|].
  destruct (efire lim n w i c) as [[e w1]|] eqn:E; [|auto]. apply IH. eapply eexec_snoc; eauto. eapply efire_step; eauto.
Qed.
Definition acts (l : list (nat * act)) : list (nat * cmd) := map (fun x => (fst x, CAct (snd x))) l.
(** a call that runs to its end *)
Definition whole (i : nat) (o : qop) : list (nat * cmd) := acts (call i o 40).
Definition put (i x : nat) : list (nat * cmd) := [(i, CPut x)] ++ acts (many i 40) ++ [(i, CAgain)].

Fixpoint propb (writer : nat -> bool) (tr rest : list (eev nat)) : bool :=
  match rest with
  | [] => true
  | e :: rest =>
      match e with
      | Put _ i _ _ => writer i
      | Get _ j _ _ _ => negb (writer j)
      | Ring _ (ECall i (QFlush _)) => writer i
      | Ring _ (ECall j QUnflush) => negb (writer j) && negb (opened nat j tr)
      | _ => true
      end && propb writer (tr ++ [e]) rest
  end.
Lemma propb_ok : forall writer rest tr, proper nat (fun h => forall x, (c_size natK h <= c_size natK x)%nat) writer tr ->
  propb writer tr rest = true -> proper nat (fun h => forall x, (c_size natK h <= c_size natK x)%nat) writer (tr ++ rest).
Proof.
  intros writer. induction rest as [|e rest IH]; intros tr P H; [now rewrite app_nil_r|].
  cbn [propb] in H. apply andb_prop in H. destruct H as [H1 H2].
  replace (tr ++ e :: rest) with ((tr ++ [e]) ++ rest) by now rewrite <- app_assoc. apply IH; auto.
  constructor; auto. destruct e as [i x ok|j h y ok|e]; auto.
  - apply negb_true_iff in H1. split; auto.
  - destruct e as [i o|i|i|i z|i o r|i|i z]; auto. destruct o; auto. apply andb_prop in H1. destruct H1 as [H1 H3].
    apply negb_true_iff in H1, H3. auto.
Qed.

(** Processes 0 and 1 write, 2 and 3 read.  A box takes two items: the third put of process 0
    flushes by itself.  The hypotheses of both theorems hold and every item arrives. *)
Definition sched139 : list (nat * cmd) :=
  put 0 10 ++ put 0 11 ++ put 1 20 ++ put 0 12 ++ whole 1 (QFlush [21; 0]) ++
  whole 3 QUnflush ++ whole 2 QUnflush ++
  [(3%nat, CGet 0%nat); (2%nat, CGet 0%nat); (3%nat, CGet 0%nat); (2%nat, CGet 0%nat); (3%nat, CGet 0%nat)] ++
  whole 0 (QFlush [13; 0]) ++ whole 3 QUnflush ++ [(3%nat, CGet 0%nat); (3%nat, CGet 0%nat)].
Definition run139 := efires (seg_size 2 3) 2 sched139 [] (einit nat 2 4 m3).
Definition w139 (i : nat) : bool := (i <? 2)%nat.
Example C139_ex : sane 2 3 /\ created 2 3 m3 /\ codec_ok nat natK (fun x => [Z.of_nat x + 1]) /\
  (forall z, c_des natK (repeat 0 z) = None) /\
  eexec nat natK (seg_size 2 3) 2 4 m3 (fst run139) (snd run139) /\
  proper nat (fun h => forall x, (c_size natK h <= c_size natK x)%nat) w139 (fst run139) /\
  (forall e, In e (rings nat (fst run139)) -> fine e = true) /\
  refusals (dones (rings nat (fst run139))) = 0%nat /\
  stored (dones (rings nat (fst run139))) = 3%nat /\ taken (dones (rings nat (fst run139))) = 3%nat /\
  map (fun i => unsent nat i (fst run139)) [0;1;2;3]%nat = [[];[];[];[]] /\
  map (fun j => opened nat j (fst run139)) [0;1;2;3]%nat = [false;false;false;false] /\
  map (fun i => puts nat i (fst run139)) [0;1;2;3]%nat = [[10;11;12]; [20]; []; []]%nat /\
  map (fun j => gets nat j (fst run139)) [0;1;2;3]%nat = [[]; []; [20]; [10;11;12]]%nat.
Proof.
  split; [exact m3_sane|]. split; [exact m3_created|]. split; [exact natK_ok|]. split; [exact natK_zero|].
  split; [apply efires_exec; constructor|].
  split; [apply (propb_ok w139 (fst run139) []); [constructor|vm_compute; reflexivity]|].
  split; [apply forallb_forall; vm_compute; reflexivity|].
  repeat (split; [vm_compute; reflexivity|]). vm_compute. reflexivity.
Qed.

(** One object has one box for writing and for reading.  A process that puts an item and then
    calls unflush has lost the item, though put said it was accepted and nothing was refused. *)
Definition sched_loss : list (nat * cmd) :=
  put 0 10 ++ whole 0 (QFlush [11; 0]) ++ put 1 20 ++ whole 1 QUnflush ++
  [(1%nat, CGet 0%nat); (1%nat, CGet 0%nat)] ++ whole 1 (QFlush [11; 0]) ++ whole 2 QUnflush ++
  [(2%nat, CGet 0%nat); (2%nat, CGet 0%nat)].
Definition run_loss := efires (seg_size 2 3) 2 sched_loss [] (einit nat 2 3 m3).
(** 1 puts 20, receives the box with 10 and reads it, and flushes: 20 is nowhere, and process 2
    gets 10 a second time. *)
Theorem C139_one_box_refuted : exists tr w,
  eexec nat natK (seg_size 2 3) 2 3 m3 tr w /\ (forall e, In e (rings nat tr) -> fine e = true) /\
  refusals (dones (rings nat tr)) = 0%nat /\ stored (dones (rings nat tr)) = 2%nat /\ taken (dones (rings nat tr)) = 2%nat /\
  map (fun i => puts nat i tr) [0;1;2]%nat = [[10]; [20]; []]%nat /\
  map (fun i => unsent nat i tr) [0;1;2]%nat = [[]; []; []] /\
  map (fun j => gets nat j tr) [0;1;2]%nat = [[]; [10]; [10]]%nat.
Proof.
  exists (fst run_loss), (snd run_loss). split; [apply efires_exec; constructor|].
  split; [apply forallb_forall; vm_compute; reflexivity|].
  repeat (split; [vm_compute; reflexivity|]). vm_compute. reflexivity.
Qed.
Print Assumptions C139_one_box_refuted.

(** A put that fills the box flushes it, and when the queue is full the whole box is dropped:
    put returns true for all the items and they are gone. *)
Definition sched_full : list (nat * cmd) :=
  put 0 1 ++ put 0 2 ++ put 0 3 ++ put 0 4 ++ put 0 5 ++ put 0 6 ++ put 0 7 ++
  whole 1 QUnflush ++ [(1%nat, CGet 0%nat); (1%nat, CGet 0%nat); (1%nat, CGet 0%nat)] ++
  whole 1 QUnflush ++ [(1%nat, CGet 0%nat); (1%nat, CGet 0%nat); (1%nat, CGet 0%nat)] ++
  whole 0 (QFlush [8; 0]) ++ whole 1 QUnflush ++ [(1%nat, CGet 0%nat); (1%nat, CGet 0%nat)].
Definition run_full := efires (seg_size 2 3) 2 sched_full [] (einit nat 2 2 m3).
Definition w_full (i : nat) : bool := (i =? 0)%nat.
Theorem C139_full_queue_refuted : exists tr w,
  eexec nat natK (seg_size 2 3) 2 2 m3 tr w /\ (forall e, In e (rings nat tr) -> fine e = true) /\
  proper nat (fun h => forall x, (c_size natK h <= c_size natK x)%nat) w_full tr /\
  refusals (dones (rings nat tr)) = 1%nat /\ stored (dones (rings nat tr)) = taken (dones (rings nat tr)) /\
  puts nat 0 tr = [1;2;3;4;5;6;7]%nat /\ unsent nat 0 tr = [] /\ gets nat 1 tr = [1;2;3;4;7]%nat.
Proof.
  exists (fst run_full), (snd run_full). split; [apply efires_exec; constructor|].
  split; [apply forallb_forall; vm_compute; reflexivity|].
  split; [apply (propb_ok w_full (fst run_full) []); [constructor|vm_compute; reflexivity]|].
  repeat (split; [vm_compute; reflexivity|]). vm_compute. reflexivity.
Qed.
Print Assumptions C139_full_queue_refuted.
