(** Items on their way through a shared queue: the invariant. *)
From Coq Require Import ZArith List Bool Lia Arith.
From Verif Require Import Base Shm_Model Shm_Proof ShmQ_Spec ShmQ_Model ShmQSys_Spec ShmQ_Proof ShmQSys_Proof ShmQBox_Proof ShmQ_Props
  ShmQE_Model ShmQE_Spec.
Import ListNotations.
Local Open Scope Z_scope.

(** the call a process is in *)
Definition opc (p : pc) : option qop :=
  match p with
  | Ticket => Some QUnflush
  | Lock o | Body o _ _ | Post o _ | Unlock o _ => Some o
  | Idle | Dead => None
  end.

Lemma step_inner : forall lim n s e s', step lim n s e s' -> inner e = true ->
  length (procs s') = length (procs s) /\
  forall i p' u', nth_error (procs s') i = Some (p', u') ->
  exists p u, nth_error (procs s) i = Some (p, u) /\ (opc p' = opc p \/ opc p' = None).
Proof.
  intros lim n s e s' H I.
  assert (G : forall (ps : list (pc * Z)) j p1 u1 p2 u2, nth_error ps j = Some (p1, u1) -> (opc p2 = opc p1 \/ opc p2 = None) ->
    forall i p' u', nth_error (upd ps j (p2, u2)) i = Some (p', u') ->
    exists p u, nth_error ps i = Some (p, u) /\ (opc p' = opc p \/ opc p' = None)).
  { intros ps j p1 u1 p2 u2 E O i p' u' F. destruct (Nat.eq_dec i j) as [->|N].
    - rewrite nth_error_upd_same in F by (apply nth_error_Some; congruence). injection F as <- <-. eauto.
    - rewrite nth_error_upd_other in F by auto. eauto. }
  destruct H; try discriminate I; cbn [procs]; rewrite ?upd_length; (split; [reflexivity|]);
    try (intros; eexists _, _; split; [eassumption|now left]);
    eapply G; eauto; cbn [opc]; auto.
  left. destruct r as [[]| | |]; reflexivity.
Qed.
Lemma step_call : forall lim n s i o s', step lim n s (ECall i o) s' ->
  exists u, nth_error (procs s) i = Some (Idle, u) /\ procs s' = upd (procs s) i (entry o, u).
Proof. intros lim n s i o s' H. inversion H; subst; cbn [procs]. eauto. Qed.
Lemma step_done : forall lim n s i o r s', step lim n s (EDone i o r) s' ->
  (s' = s /\ (forall b, o <> QFlush b) /\ o <> QUnflush) \/
  exists u, nth_error (procs s) i = Some (Unlock o r, u) /\ procs s' = upd (procs s) i (Idle, u - 1).
Proof.
  intros lim n s i o r s' H. inversion H; subst; cbn [procs].
  - left. split; auto. match goal with N : noreg o = _ |- _ => destruct o; cbn in N; try discriminate; split; intros; discriminate end.
  - right. eauto.
Qed.
Lemma entry_opc : forall o, opc (entry o) = Some o.
Proof. destruct o; reflexivity. Qed.

Section E.
Variable T : Type.
Variable K : codec T.
Variable enc : T -> list Z.
Variable n : nat.
Variable sz : Z.
Variable m0 : mem.
Variable k : nat.
Variable writer : nat -> bool.
Hypothesis OK : codec_ok T K enc.
Hypothesis Z0 : forall z, c_des K (repeat 0 z) = None.
Hypothesis HS : sane n sz.
Hypothesis HC : created n sz m0.
Definition small (h : T) : Prop := forall x, (c_size K h <= c_size K x)%nat.
Notation cat c := (concat (map enc c)).
Notation eev := (eev T).
Notation lim := (seg_size n sz).
Notation puts := (puts T).
Notation gets := (gets T).
Notation unsent := (unsent T).
Notation opened := (opened T).
Notation rings := (rings T).
Notation parcel := (parcel T).
Notation items := (items T).
Notation from := (from T).
Notation to := (to T).
Notation is_waiting := (is_waiting T).
Notation is_refused := (is_refused T).
Notation p_items := (p_items T).
Notation p_fate := (p_fate T).

Definition actor (e : eev) : nat :=
  match e with
  | Put _ i _ _ | Get _ i _ _ _ => i
  | Ring _ (ECall i _) | Ring _ (ETau i) | Ring _ (EFail i) | Ring _ (ECount i _) | Ring _ (EDone i _ _)
  | Ring _ (EIntr i) | Ring _ (EDie i _) => i
  end.

Lemma puts_snoc : forall i tr e, puts i (tr ++ [e]) = puts i tr ++ puts i [e].
Proof. intros. unfold ShmQE_Spec.puts. now rewrite flat_map_app. Qed.
Lemma gets_snoc : forall i tr e, gets i (tr ++ [e]) = gets i tr ++ gets i [e].
Proof. intros. unfold ShmQE_Spec.gets. now rewrite flat_map_app. Qed.
Lemma rings_snoc : forall tr e, rings (tr ++ [e]) = rings tr ++ rings [e].
Proof. intros. unfold ShmQE_Spec.rings. now rewrite flat_map_app. Qed.
Lemma flushes_app : forall a b, flushes (a ++ b) = flushes a ++ flushes b.
Proof. intros. unfold flushes. now rewrite flat_map_app. Qed.
Lemma receivers_app : forall a b, receivers (a ++ b) = receivers a ++ receivers b.
Proof. intros. unfold receivers. now rewrite flat_map_app. Qed.
Lemma unsent_snoc : forall i tr e, unsent i (tr ++ [e]) =
  match e with
  | Put _ k x true => if (k =? i)%nat then unsent i tr ++ [x] else unsent i tr
  | Ring _ (EDone k (QFlush _) _) => if (k =? i)%nat then [] else unsent i tr
  | _ => unsent i tr
  end.
Proof. intros. unfold ShmQE_Spec.unsent. rewrite fold_left_app. reflexivity. Qed.
Lemma opened_snoc : forall i tr e, opened i (tr ++ [e]) =
  match e with
  | Get _ k _ _ false => if (k =? i)%nat then false else opened i tr
  | Ring _ (EDone k QUnflush _) => if (k =? i)%nat then true else opened i tr
  | _ => opened i tr
  end.
Proof. intros. unfold ShmQE_Spec.opened. rewrite fold_left_app. reflexivity. Qed.

(** what an event of somebody else, or one inside the ring, leaves alone *)
Definition same (i : nat) (tr : list eev) (e : eev) : Prop :=
  puts i (tr ++ [e]) = puts i tr /\ gets i (tr ++ [e]) = gets i tr /\
  unsent i (tr ++ [e]) = unsent i tr /\ opened i (tr ++ [e]) = opened i tr.
Lemma same_other : forall i tr e, actor e <> i -> same i tr e.
Proof.
  intros i tr e N. unfold same. rewrite puts_snoc, gets_snoc, unsent_snoc, opened_snoc.
  destruct e as [j x []|j h y []|e]; cbn [actor ShmQE_Spec.puts ShmQE_Spec.gets flat_map app] in *;
    try (destruct (Nat.eqb_spec j i); [congruence|]); rewrite ?app_nil_r; auto.
  destruct e; auto. destruct o; auto; destruct (Nat.eqb_spec i0 i); try congruence; auto.
Qed.
Lemma same_quiet : forall i tr e, (forall j o r, e <> EDone j o r) -> same i tr (Ring T e).
Proof.
  intros i tr e N. unfold same. rewrite puts_snoc, gets_snoc, unsent_snoc, opened_snoc.
  cbn [ShmQE_Spec.puts ShmQE_Spec.gets flat_map app]. rewrite !app_nil_r.
  destruct e; auto. now elim (N i0 o r).
Qed.

Record EInv (tr : list eev) (w : esys T) (HA HB : list parcel) (q : qst) : Prop := mkEInv
  { v_q : qruns sz qempty (dones (rings tr)) q;
    v_ring : Forall2 (packed T enc n) (map p_items (filter is_waiting HB)) (q_boxes q);
    v_a : Forall (fun p => is_waiting p = false) HA;
    v_b : Forall (fun p => p_fate p = Refused \/ p_fate p = Waiting) HB;
    v_puts : forall i, puts i tr = items (from i) (HA ++ HB) ++ unsent i tr;
    v_len : length (e_loc T w) = length (procs (e_sys T w));
    v_w : forall i b pd, nth_error (e_loc T w) i = Some (b, pd) -> writer i = true -> brep T enc n b (unsent i tr);
    v_r : forall j b pd, nth_error (e_loc T w) j = Some (b, pd) -> writer j = false ->
      exists dn rs z, b_mem b = cat dn ++ cat rs ++ repeat 0 z /\ b_pos b = length (cat dn) /\
      gets j tr ++ rs = items (to j) HA /\ (opened j tr = false -> rs = []);
    v_pc : forall i p u b pd, nth_error (procs (e_sys T w)) i = Some (p, u) ->
      nth_error (e_loc T w) i = Some (b, pd) ->
      match opc p with
      | Some (QFlush x) => writer i = true /\ x = b_mem b
      | Some QUnflush => writer i = false /\ opened i tr = false
      | _ => True
      end;
    v_ref : refusals (dones (rings tr)) = length (filter is_refused (HA ++ HB));
    v_k : length (e_loc T w) = k;
    v_to : forall p j, In p HA -> p_fate p = Read j -> writer j = false /\ (j < k)%nat;
    v_from : flushes (rings tr) = map (fun p => (p_from T p, negb (is_refused p))) (HA ++ HB);
    v_recv : receivers (rings tr) = flat_map (reader_of T) HA }.

Lemma items_app : forall f a b, items f (a ++ b) = items f a ++ items f b.
Proof. intros. unfold ShmQE_Spec.items. now rewrite filter_app, map_app, concat_app. Qed.

Lemma nthu : forall B (l : list B) i v j y, nth_error (upd l i v) j = Some y ->
  (j = i /\ y = v) \/ (j <> i /\ nth_error l j = Some y).
Proof.
  intros B l i v j y H. destruct (Nat.eq_dec j i) as [->|N].
  - left. split; auto. assert (L : (i < length l)%nat) by (rewrite <- (upd_length _ l i v); apply nth_error_Some; congruence).
    rewrite nth_error_upd_same in H by auto. congruence.
  - right. rewrite nth_error_upd_other in H by auto. auto.
Qed.

Lemma einv_init : EInv [] (einit T n k m0) [] [] qempty.
Proof.
  constructor; cbn [einit e_sys e_loc init procs ShmQE_Spec.rings flat_map dones app]; try (now constructor).
  - now rewrite !repeat_length.
  - intros i b pd H _. apply nth_error_In, repeat_spec in H. injection H as -> ->. now apply brep_clear.
  - intros j b pd H _. apply nth_error_In, repeat_spec in H. injection H as -> ->.
    exists [], [], n. repeat split.
  - intros i p u b pd H _. apply nth_error_In, repeat_spec in H. injection H as -> ->. exact I.
  - apply repeat_length.
Qed.

Lemma rings_exec : forall tr w, eexec T K lim n k m0 tr w -> exec lim n k m0 (rings tr) (e_sys T w).
Proof.
  intros tr w X. induction X as [|tr w e w' X IH S]; [constructor|].
  rewrite rings_snoc. destruct S; cbn [ShmQE_Spec.rings flat_map app e_sys] in *; rewrite ?app_nil_r; auto;
    eapply exec_snoc; eauto.
Qed.

(** a step of the ring that is no return *)
Lemma einv_quiet : forall tr s l s' l' e HA HB q, EInv tr (mkE T s l) HA HB q -> (forall j o r, e <> EDone j o r) ->
  length l' = length (procs s') -> length l' = length l ->
  (forall i b pd, nth_error l' i = Some (b, pd) -> exists pd', nth_error l i = Some (b, pd')) ->
  (forall i p' u' b pd, nth_error (procs s') i = Some (p', u') -> nth_error l' i = Some (b, pd) ->
     match opc p' with
      | Some (QFlush x) => writer i = true /\ x = b_mem b
      | Some QUnflush => writer i = false /\ opened i tr = false
      | _ => True
      end) ->
  EInv (tr ++ [Ring T e]) (mkE T s' l') HA HB q.
Proof.
  intros tr s l s' l' e HA HB q V N L Lk Hl Hp. destruct V as [V1 V2 V3 V4 V5 V6 V7 V8 V9 V10 V11 V12 V13 V14].
  assert (Q : forall i, same i tr (Ring T e)) by (intros i; now apply same_quiet).
  assert (D : dones (rings (tr ++ [Ring T e])) = dones (rings tr)).
  { rewrite rings_snoc, dones_app. cbn [ShmQE_Spec.rings flat_map app]. destruct e; cbn [dones]; rewrite ?app_nil_r; auto.
    now elim (N i o r). }
  assert (DF : flushes (rings (tr ++ [Ring T e])) = flushes (rings tr)).
  { rewrite rings_snoc, flushes_app. cbn [ShmQE_Spec.rings flat_map app]. destruct e; cbn [flushes flat_map app]; rewrite ?app_nil_r; auto.
    now elim (N i o r). }
  assert (DR : receivers (rings (tr ++ [Ring T e])) = receivers (rings tr)).
  { rewrite rings_snoc, receivers_app. cbn [ShmQE_Spec.rings flat_map app]. destruct e; cbn [receivers flat_map app]; rewrite ?app_nil_r; auto.
    now elim (N i o r). }
  constructor; cbn [e_sys e_loc] in *; rewrite ?D, ?DF, ?DR; auto.
  - intros i. destruct (Q i) as (-> & _ & -> & _). auto.
  - intros i b pd E W. destruct (Q i) as (_ & _ & -> & _). destruct (Hl _ _ _ E) as [pd' E']. eauto.
  - intros i b pd E W. destruct (Q i) as (_ & -> & _ & ->). destruct (Hl _ _ _ E) as [pd' E']. eauto.
  - intros i p u b pd E1 E2. destruct (Q i) as (_ & _ & _ & ->). exact (Hp _ _ _ _ _ E1 E2).
  - congruence.
Qed.

(** a step of the local box of a writer that keeps the ring *)
Lemma einv_put : forall tr s l i x ok u b pd b' HA HB q, EInv tr (mkE T s l) HA HB q -> writer i = true ->
  nth_error (procs s) i = Some (Idle, u) -> nth_error l i = Some (b, pd) -> box_put T K b x = Ok (b', ok) ->
  EInv (tr ++ [Put T i x ok]) (mkE T s (upd l i (b', None))) HA HB q.
Proof.
  intros tr s l i x ok u b pd b' HA HB q V W Hi Hl Hb. destruct V as [V1 V2 V3 V4 V5 V6 V7 V8 V9 V10 V11 V12 V13 V14].
  cbn [e_sys e_loc] in *. pose proof (V7 _ _ _ Hl W) as B.
  assert (B' : brep T enc n b' (unsent i tr ++ if ok then [x] else [])).
  { destruct (Nat.le_gt_cases (length (cat (unsent i tr)) + c_size K x) n) as [F|F].
    - destruct (put_fits T K enc OK n b _ x B F) as (b2 & E & R). rewrite Hb in E. injection E as <- ->. exact R.
    - rewrite (put_full T K enc n b _ x B F) in Hb. injection Hb as <- <-. now rewrite app_nil_r. }
  assert (U : unsent i (tr ++ [Put T i x ok]) = unsent i tr ++ if ok then [x] else []).
  { rewrite unsent_snoc, Nat.eqb_refl. destruct ok; rewrite ?app_nil_r; reflexivity. }
  assert (D : rings (tr ++ [Put T i x ok]) = rings tr).
  { rewrite rings_snoc. cbn [ShmQE_Spec.rings flat_map app]. now rewrite app_nil_r. }
  constructor; cbn [e_sys e_loc]; rewrite ?D, ?upd_length; auto.
  - intros j. destruct (Nat.eq_dec i j) as [<-|N].
    + rewrite U, app_assoc, <- V5, puts_snoc. f_equal. cbn. destruct ok; [rewrite Nat.eqb_refl|]; reflexivity.
    + destruct (same_other j tr (Put T i x ok) N) as (-> & _ & -> & _). auto.
  - intros j b1 pd1 E Wj. destruct (nthu _ _ _ _ _ _ E) as [(-> & E1)|(N & E1)].
    + injection E1 as -> ->. now rewrite U.
    + destruct (same_other j tr (Put T i x ok) (not_eq_sym N)) as (_ & _ & -> & _). eauto.
  - intros j b1 pd1 E Wj. destruct (nthu _ _ _ _ _ _ E) as [(-> & E1)|(N & E1)]; [congruence|].
    destruct (same_other j tr (Put T i x ok) (not_eq_sym N)) as (_ & -> & _ & ->). eauto.
  - intros j p1 u1 b1 pd1 E1 E2. destruct (nthu _ _ _ _ _ _ E2) as [(-> & E3)|(N & E3)].
    + rewrite Hi in E1. injection E1 as <- <-. exact I.
    + destruct (same_other j tr (Put T i x ok) (not_eq_sym N)) as (_ & _ & _ & ->). exact (V9 _ _ _ _ _ E1 E3).
Qed.

Lemma get_spec : forall dn rs z h b, small h -> b_mem b = cat dn ++ cat rs ++ repeat 0 z -> b_pos b = length (cat dn) ->
  match rs with
  | [] => q_get T K b h = (b, h, false)
  | x :: _ => q_get T K b h = (mkBox (b_mem b) (b_pos b + c_size K x), x, true)
  end.
Proof.
  intros dn rs z h [bm bp] Sm Em Ep. cbn [b_mem b_pos] in *. subst bm bp.
  unfold q_get, box_fits, box_get. cbn [b_mem b_pos].
  rewrite skipn_app, Nat.sub_diag, skipn_all. cbn [app skipn].
  destruct rs as [|x rs]; cbn [map concat app].
  - rewrite Z0. now destruct (_ <=? _)%nat.
  - rewrite <- app_assoc, (k_des _ _ _ OK). specialize (Sm x).
    rewrite !app_length, (k_len _ _ _ OK).
    destruct (Nat.leb_spec (length (cat dn) + c_size K h) (length (cat dn) + (c_size K x + (length (cat rs) + length (repeat 0 z))))); [reflexivity|lia].
Qed.

Lemma einv_get : forall tr s l i h y ok u b b' HA HB q, EInv tr (mkE T s l) HA HB q -> writer i = false -> small h ->
  nth_error (procs s) i = Some (Idle, u) -> nth_error l i = Some (b, None) -> q_get T K b h = (b', y, ok) ->
  EInv (tr ++ [Get T i h y ok]) (mkE T s (upd l i (b', None))) HA HB q.
Proof.
  intros tr s l i h y ok u b b' HA HB q V W Sm Hi Hl Hb. destruct V as [V1 V2 V3 V4 V5 V6 V7 V8 V9 V10 V11 V12 V13 V14].
  cbn [e_sys e_loc] in *. destruct (V8 _ _ _ Hl W) as (dn & rs & z & M1 & M2 & M3 & M4).
  pose proof (get_spec dn rs z h b Sm M1 M2) as G.
  assert (D : rings (tr ++ [Get T i h y ok]) = rings tr).
  { rewrite rings_snoc. cbn [ShmQE_Spec.rings flat_map app]. now rewrite app_nil_r. }
  constructor; cbn [e_sys e_loc]; rewrite ?D, ?upd_length; auto.
  - intros j. rewrite unsent_snoc, puts_snoc. cbn [ShmQE_Spec.puts flat_map app]. rewrite app_nil_r. auto.
  - intros j b1 pd1 E Wj. destruct (nthu _ _ _ _ _ _ E) as [(-> & E1)|(N & E1)]; [congruence|].
    rewrite unsent_snoc. eauto.
  - intros j b1 pd1 E Wj. destruct (nthu _ _ _ _ _ _ E) as [(-> & E1)|(N & E1)].
    + injection E1 as -> ->. rewrite gets_snoc, opened_snoc. cbn [ShmQE_Spec.gets flat_map app]. rewrite Nat.eqb_refl.
      destruct rs as [|x rs]; rewrite G in Hb; injection Hb; intros; subst.
      * exists dn, [], z. rewrite app_nil_r. auto.
      * exists (dn ++ [y]), rs, z. cbn [b_mem b_pos]. rewrite map_app, concat_app, app_length. cbn [map concat].
        rewrite app_nil_r, (k_len _ _ _ OK). split; [rewrite M1; cbn [map concat]; rewrite <- !app_assoc; reflexivity|].
        split; [lia|]. split; [rewrite <- app_assoc; exact M3|].
        intros O. specialize (M4 O). discriminate.
    + destruct (same_other j tr (Get T i h y ok) (not_eq_sym N)) as (_ & -> & _ & ->). eauto.
  - intros j p1 u1 b1 pd1 E1 E2. destruct (nthu _ _ _ _ _ _ E2) as [(-> & E3)|(N & E3)].
    + rewrite Hi in E1. injection E1 as <- <-. exact I.
    + destruct (same_other j tr (Get T i h y ok) (not_eq_sym N)) as (_ & _ & _ & ->). exact (V9 _ _ _ _ _ E1 E3).
Qed.

Lemma qruns_end : forall h o r q1 q2, qruns sz qempty h q1 -> qruns sz qempty (h ++ [(o, r)]) q2 -> qspec sz q1 o = Some (r, q2).
Proof.
  intros h o r q1 q2 H1 H2. remember (h ++ [(o, r)]) as h' eqn:E. destruct H2 as [|s h' s1 o' r' s2 R S].
  - destruct h; discriminate.
  - apply app_inj_tail in E. destruct E as [-> E]. injection E as -> ->.
    now rewrite (qruns_fun _ _ _ _ H1 _ R).
Qed.

Lemma waiting_split : forall HB q, Forall2 (packed T enc n) (map p_items (filter is_waiting HB)) q ->
  Forall (fun p => p_fate p = Refused \/ p_fate p = Waiting) HB -> forall x l, q = x :: l ->
  exists R i c HB', HB = R ++ mkParcel T i c Waiting :: HB' /\ Forall (fun p => p_fate p = Refused) R /\
    packed T enc n c x /\ Forall2 (packed T enc n) (map p_items (filter is_waiting HB')) l.
Proof.
  induction HB as [|[i c f] HB IH]; intros q F A x l ->; [inversion F|].
  inversion A as [|? ? [A1|A1] A2]; subst; cbn [ShmQE_Spec.p_fate] in A1; subst f; cbn [filter ShmQE_Spec.is_waiting ShmQE_Spec.p_fate] in F.
  - destruct (IH _ F A2 x l eq_refl) as (R & i' & c' & HB' & -> & B1 & B2 & B3).
    exists (mkParcel T i c Refused :: R), i', c', HB'. split; [reflexivity|]. auto.
  - cbn [map] in F. inversion F as [|? ? ? ? P1 P2]; subst. exists [], i, c, HB. auto.
Qed.

Lemma einv_step : forall tr w e w' HA HB q, eexec T K lim n k m0 tr w -> EInv tr w HA HB q ->
  proper T small writer (tr ++ [e]) -> (forall e0, In e0 (rings (tr ++ [e])) -> fine e0 = true) ->
  estep T K lim n w e w' -> exists HA' HB' q', EInv (tr ++ [e]) w' HA' HB' q'.
Proof.
  intros tr w e w' HA HB q X V P F S. pose proof (eexec_snoc _ _ _ _ _ _ _ _ _ _ X S) as X'.
  assert (R : match e with
    | Put _ i _ _ => writer i = true
    | Get _ j h _ _ => writer j = false /\ small h
    | Ring _ (ECall i (QFlush _)) => writer i = true
    | Ring _ (ECall j QUnflush) => writer j = false /\ opened j tr = false
    | _ => True
    end).
  { remember (tr ++ [e]) as tr' eqn:E. destruct P as [|tr' e' P R]; [destruct tr; discriminate|].
    apply app_inj_tail in E. destruct E as [-> ->]. exact R. }
  destruct S as [s l i u b b' x Hi Hl Hb|s s' l i b b' x Hl Hb Hs|s l i u b b' x ok Hi Hl Hb|s l i u b b' h y ok Hi Hl Hb
    |s s' l i b o Hl Ho Hs|s s' l i b pd o r Hl Hs|s s' l e Hs Hin].
  - exists HA, HB, q. eapply einv_put; eauto.
  - exists HA, HB, q. pose proof (v_len _ _ _ _ _ V) as VL. cbn [e_loc e_sys] in VL.
    assert (b' = b).
    { unfold box_put in Hb. destruct (box_fits T K b x); [|congruence]. destruct (c_ser K x); [|congruence].
      destruct (blit (b_mem b) (b_pos b) l0); discriminate. } subst b'.
    destruct (step_call _ _ _ _ _ _ Hs) as (u & Hi & Hp). eapply einv_quiet; [exact V|intros; discriminate| | | |].
    + rewrite Hp, ?upd_length. exact VL.
    + now rewrite ?upd_length.
    + intros j b1 pd1 E. destruct (nthu _ _ _ _ _ _ E) as [(-> & E1)|(N & E1)]; [injection E1; intros; subst|]; eauto.
    + intros j p1 u1 b1 pd1 E1 E2. rewrite Hp in E1. destruct (nthu _ _ _ _ _ _ E1) as [(-> & E3)|(N & E3)].
      * injection E3 as -> ->. destruct (nthu _ _ _ _ _ _ E2) as [(_ & E4)|(N & _)]; [|now elim N].
        injection E4 as -> ->. cbn [entry opc]. auto.
      * destruct (nthu _ _ _ _ _ _ E2) as [(E4 & _)|(_ & E4)]; [contradiction|].
        exact (v_pc _ _ _ _ _ V j p1 u1 b1 pd1 E3 E4).
  - exists HA, HB, q. eapply einv_put; eauto.
  - destruct R as [R1 R2]. exists HA, HB, q. eapply einv_get; eauto.
  - exists HA, HB, q. pose proof (v_len _ _ _ _ _ V) as VL. cbn [e_loc e_sys] in VL.
    destruct (step_call _ _ _ _ _ _ Hs) as (u & Hi & Hp). eapply einv_quiet; [exact V|intros; discriminate| | | |].
    + rewrite Hp, ?upd_length. exact VL.
    + now rewrite ?upd_length.
    + eauto.
    + intros j p1 u1 b1 pd1 E1 E2. rewrite Hp in E1. destruct (nthu _ _ _ _ _ _ E1) as [(-> & E3)|(N & E3)].
      * injection E3 as -> ->. rewrite Hl in E2. injection E2; intros; subst. rewrite entry_opc. destruct o; auto.
      * exact (v_pc _ _ _ _ _ V j p1 u1 b1 pd1 E3 E2).
  - (* a return *)
    destruct (C58_queue_is_fifo n sz m0 k _ _ HS HC (rings_exec _ _ X') F) as (q' & Q').
    rewrite rings_snoc, dones_app in Q'. cbn [ShmQE_Spec.rings flat_map app dones] in Q'.
    destruct V as [V1 V2 V3 V4 V5 V6 V7 V8 V9 V10 V11 V12 V13 V14]. cbn [e_loc e_sys] in *.
    pose proof (qruns_end _ _ _ _ _ V1 Q') as QS.
    assert (D : dones (rings (tr ++ [Ring T (EDone i o r)])) = dones (rings tr) ++ [(o, r)]).
    { rewrite rings_snoc, dones_app. reflexivity. }
    assert (DF : flushes (rings (tr ++ [Ring T (EDone i o r)])) = flushes (rings tr) ++ flushes [EDone i o r]).
    { rewrite rings_snoc, flushes_app. reflexivity. }
    assert (DR : receivers (rings (tr ++ [Ring T (EDone i o r)])) = receivers (rings tr) ++ receivers [EDone i o r]).
    { rewrite rings_snoc, receivers_app. reflexivity. }
    assert (Oth : forall j, j <> i -> same j tr (Ring T (EDone i o r))) by (intros j N; apply same_other; cbn; auto).
    assert (L' : length (procs s') = length (procs s)).
    { destruct (step_done _ _ _ _ _ _ _ Hs) as [(-> & _)|(u & _ & Hp)]; [reflexivity|]. now rewrite Hp, upd_length. }
    assert (PC : forall j p u, j <> i -> nth_error (procs s') j = Some (p, u) -> nth_error (procs s) j = Some (p, u)).
    { intros j p u N E. destruct (step_done _ _ _ _ _ _ _ Hs) as [(-> & _)|(u0 & _ & Hp)]; auto.
      rewrite Hp in E. destruct (nthu _ _ _ _ _ _ E) as [(E1 & _)|(_ & E1)]; [contradiction|auto]. }
    destruct (step_done _ _ _ _ _ _ _ Hs) as [(-> & N1 & N2)|(u & Hi & Hp)].
    + (* a register that does not exist *)
      assert (Sm : forall j, same j tr (Ring T (EDone i o r))).
      { intros j. unfold same. rewrite puts_snoc, gets_snoc, unsent_snoc, opened_snoc.
        cbn [ShmQE_Spec.puts ShmQE_Spec.gets flat_map app]. rewrite !app_nil_r.
        destruct o; auto; [now elim (N1 b0)|now elim N2]. }
      assert (LB : left_box n o r b = b) by (destruct o; auto; [now elim (N1 b0)|now elim N2]).
      assert (QB : q_boxes q' = q_boxes q).
      { destruct o; cbn [qspec] in QS; [now elim (N1 b0)|now elim N2| |]; injection QS as _ <-; [destruct (o <? 12)|]; reflexivity. }
      exists HA, HB, q'. constructor; cbn [e_loc e_sys]; rewrite ?D, ?DF, ?DR, ?QB, ?upd_length; auto.
      * intros j. destruct (Sm j) as (-> & _ & -> & _). auto.
      * intros j b1 pd1 E Wj. destruct (Sm j) as (_ & _ & -> & _).
        destruct (nthu _ _ _ _ _ _ E) as [(-> & E1)|(_ & E1)]; [injection E1 as -> ->; rewrite LB|]; eauto.
      * intros j b1 pd1 E Wj. destruct (Sm j) as (_ & -> & _ & ->).
        destruct (nthu _ _ _ _ _ _ E) as [(-> & E1)|(_ & E1)]; [injection E1 as -> ->; rewrite LB|]; eauto.
      * intros j p1 u1 b1 pd1 E1 E2. destruct (Sm j) as (_ & _ & _ & ->).
        destruct (nthu _ _ _ _ _ _ E2) as [(-> & E3)|(_ & E3)]; [injection E3 as -> ->; rewrite LB; exact (V9 _ _ _ _ _ E1 Hl)|exact (V9 _ _ _ _ _ E1 E3)].
      * unfold refusals in *. rewrite filter_app, app_length, V10. cbn [filter].
        destruct o; [now elim (N1 b0)| | |]; cbn [length]; lia.
      * rewrite V13. destruct o; [now elim (N1 b0)|now elim N2| |]; cbn; now rewrite app_nil_r.
      * rewrite V14. destruct o; [now elim (N1 b0)|now elim N2| |]; cbn; now rewrite app_nil_r.
    + pose proof (V9 _ _ _ _ _ Hi Hl) as Pi. cbn [opc] in Pi.
      assert (IdleI : forall p u1, nth_error (procs s') i = Some (p, u1) -> opc p = None).
      { intros p u1 E. rewrite Hp in E. destruct (nthu _ _ _ _ _ _ E) as [(_ & E1)|(N & _)]; [|now elim N]. injection E1 as -> ->. reflexivity. }
      destruct o as [x| |ro rv|ro].
      * (* flush *)
        destruct Pi as [Wi ->]. pose proof (V7 _ _ _ Hl Wi) as [Pk _].
        assert (Ui : unsent i (tr ++ [Ring T (EDone i (QFlush (b_mem b)) r)]) = []) by (rewrite unsent_snoc, Nat.eqb_refl; reflexivity).
        assert (Pu : forall j, puts j (tr ++ [Ring T (EDone i (QFlush (b_mem b)) r)]) = puts j tr).
        { intros j. rewrite puts_snoc. cbn [ShmQE_Spec.puts flat_map app]. now rewrite app_nil_r. }
        assert (Ge : forall j, gets j (tr ++ [Ring T (EDone i (QFlush (b_mem b)) r)]) = gets j tr).
        { intros j. rewrite gets_snoc. cbn [ShmQE_Spec.gets flat_map app]. now rewrite app_nil_r. }
        assert (Op : forall j, opened j (tr ++ [Ring T (EDone i (QFlush (b_mem b)) r)]) = opened j tr) by (intros j; now rewrite opened_snoc).
        cbn [qspec] in QS. set (ft := if Z.of_nat (length (q_boxes q)) <? sz - 1 then Waiting else Refused).
        exists HA, (HB ++ [mkParcel T i (unsent i tr) ft]), q'.
        constructor; cbn [e_loc e_sys]; rewrite ?D, ?DF, ?DR, ?upd_length; auto.
        -- rewrite filter_app, map_app. unfold ft. destruct (Z.of_nat (length (q_boxes q)) <? sz - 1); injection QS as _ <-; cbn [filter ShmQE_Spec.is_waiting ShmQE_Spec.p_fate map q_boxes].
           ++ apply Forall2_app; [exact V2|]. constructor; [exact Pk|constructor].
           ++ rewrite app_nil_r. auto.
        -- apply Forall_app. split; auto. constructor; [|constructor]. unfold ft. cbn [ShmQE_Spec.p_fate]. destruct (_ <? _); auto.
        -- intros j. rewrite Pu, V5, app_assoc, (items_app _ (HA ++ HB)).
           assert (IS : items (from j) [mkParcel T i (unsent i tr) ft] = if (i =? j)%nat then unsent i tr else []).
           { unfold ShmQE_Spec.items, ShmQE_Spec.from. cbn [filter ShmQE_Spec.p_from].
             destruct (i =? j)%nat; cbn [map concat ShmQE_Spec.p_items]; rewrite ?app_nil_r; reflexivity. }
           rewrite IS. destruct (Nat.eqb_spec i j) as [Eij|N]; [subst j|].
           ++ now rewrite Ui, app_nil_r.
           ++ rewrite (proj1 (proj2 (proj2 (Oth j (not_eq_sym N))))). now rewrite app_nil_r.
        -- congruence.
        -- intros j b1 pd1 E Wj. destruct (nthu _ _ _ _ _ _ E) as [(-> & E1)|(N & E1)].
           ++ injection E1 as -> ->. rewrite Ui. cbn [left_box]. apply brep_clear. reflexivity.
           ++ destruct (Oth j N) as (_ & _ & -> & _). eauto.
        -- intros j b1 pd1 E Wj. rewrite Ge, Op. destruct (nthu _ _ _ _ _ _ E) as [(-> & E1)|(N & E1)]; [congruence|]. eauto.
        -- intros j p1 u1 b1 pd1 E1 E2. rewrite Op. destruct (nthu _ _ _ _ _ _ E2) as [(-> & E3)|(N & E3)].
           ++ rewrite (IdleI _ _ E1). exact I.
           ++ exact (V9 _ _ _ _ _ (PC _ _ _ N E1) E3).
        -- unfold refusals in *. rewrite app_assoc, !filter_app, !app_length, V10.
           rewrite filter_app, app_length. unfold ft.
           destruct (Z.of_nat (length (q_boxes q)) <? sz - 1); injection QS as <- _; reflexivity.
        -- rewrite app_assoc, map_app, V13. f_equal. unfold ft.
           destruct (Z.of_nat (length (q_boxes q)) <? sz - 1); injection QS as <- _; reflexivity.
        -- rewrite V14. cbn. now rewrite app_nil_r.
      * (* unflush *)
        destruct Pi as [Wi Oi]. cbn [qspec] in QS. destruct (q_boxes q) as [|x lq] eqn:EQ; [discriminate|]. injection QS as <- <-.
        destruct (waiting_split _ _ V2 V4 x lq eq_refl) as (R0 & i0 & c & HB' & -> & B1 & B2 & B3).
        exists (HA ++ R0 ++ [mkParcel T i0 c (Read i)]), HB', (mkQ lq (q_regs q)).
        assert (Pu : forall j, puts j (tr ++ [Ring T (EDone i QUnflush (QBox x))]) = puts j tr).
        { intros j. rewrite puts_snoc. cbn [ShmQE_Spec.puts flat_map app]. now rewrite app_nil_r. }
        assert (Ge : forall j, gets j (tr ++ [Ring T (EDone i QUnflush (QBox x))]) = gets j tr).
        { intros j. rewrite gets_snoc. cbn [ShmQE_Spec.gets flat_map app]. now rewrite app_nil_r. }
        assert (Un : forall j, unsent j (tr ++ [Ring T (EDone i QUnflush (QBox x))]) = unsent j tr) by (intros j; now rewrite unsent_snoc).
        assert (IT : forall j, items (to j) (HA ++ R0 ++ [mkParcel T i0 c (Read i)]) = items (to j) HA ++ if (i =? j)%nat then c else []).
        { intros j. rewrite !items_app. f_equal.
          replace (items (to j) R0) with (@nil T).
          - cbn [app]. unfold ShmQE_Spec.items, ShmQE_Spec.to. cbn [filter ShmQE_Spec.p_fate].
            destruct (i =? j)%nat; cbn [map concat ShmQE_Spec.p_items]; rewrite ?app_nil_r; reflexivity.
          - clear -B1. induction B1 as [|p R0 H _ IH]; [reflexivity|]. unfold ShmQE_Spec.items in *. cbn [filter].
            unfold ShmQE_Spec.to at 1. rewrite H. exact IH. }
        constructor; cbn [e_loc e_sys q_boxes]; rewrite ?D, ?DF, ?DR, ?upd_length; auto.
        -- apply Forall_app. split; auto. apply Forall_app. split; [|constructor; [reflexivity|constructor]].
           eapply Forall_impl; [|exact B1]. intros p E. unfold ShmQE_Spec.is_waiting. now rewrite E.
        -- apply Forall_app in V4. destruct V4 as [_ V4]. inversion V4; auto.
        -- intros j. rewrite Pu, Un, V5. f_equal. rewrite !items_app, <- !app_assoc. f_equal. f_equal.
           unfold ShmQE_Spec.items, ShmQE_Spec.from. cbn [filter ShmQE_Spec.p_from].
           destruct (i0 =? j)%nat; cbn [map concat app ShmQE_Spec.p_items]; rewrite ?app_nil_r; reflexivity.
        -- congruence.
        -- intros j b1 pd1 E Wj. rewrite Un. destruct (nthu _ _ _ _ _ _ E) as [(-> & E1)|(N & E1)]; [congruence|]. eauto.
        -- intros j b1 pd1 E Wj. rewrite Ge, IT. destruct (nthu _ _ _ _ _ _ E) as [(-> & E1)|(N & E1)].
           ++ injection E1 as -> ->. destruct (V8 _ _ _ Hl Wi) as (dn & rs & z & _ & _ & M3 & M4).
              rewrite (M4 Oi), app_nil_r in M3. destruct B2 as (z' & Ex & _).
              exists [], c, z'. cbn [left_box copy_from b_mem b_pos map concat app length]. split; [exact Ex|]. split; [reflexivity|].
              rewrite Nat.eqb_refl, M3. split; [reflexivity|]. rewrite opened_snoc, Nat.eqb_refl. discriminate.
           ++ destruct (Nat.eqb_spec i j); [congruence|]. rewrite app_nil_r.
              destruct (Oth j N) as (_ & _ & _ & ->). eauto.
        -- intros j p1 u1 b1 pd1 E1 E2. destruct (nthu _ _ _ _ _ _ E2) as [(-> & E3)|(N & E3)].
           ++ rewrite (IdleI _ _ E1). exact I.
           ++ destruct (Oth j N) as (_ & _ & _ & ->). exact (V9 _ _ _ _ _ (PC _ _ _ N E1) E3).
        -- unfold refusals in *. rewrite filter_app, app_length, V10. cbn [filter length].
           rewrite !filter_app, !app_length. cbn [filter length ShmQE_Spec.is_refused ShmQE_Spec.p_fate]. lia.
        -- intros p j Hin0 Hf. apply in_app_or in Hin0. destruct Hin0 as [Hin0|Hin0]; [eauto|].
           apply in_app_or in Hin0. destruct Hin0 as [Hin0|[<-|[]]].
           ++ rewrite Forall_forall in B1. rewrite (B1 _ Hin0) in Hf. discriminate.
           ++ cbn [ShmQE_Spec.p_fate] in Hf. injection Hf as <-. split; [exact Wi|]. rewrite <- V11. apply nth_error_Some. congruence.
        -- rewrite V13. cbn [flushes flat_map]. rewrite !app_nil_r, !map_app, <- !app_assoc. reflexivity.
        -- rewrite V14, !flat_map_app. f_equal. replace (flat_map (reader_of T) R0) with (@nil nat); [reflexivity|].
           clear -B1. induction B1 as [|p R0 H _ IH]; [reflexivity|]. cbn [flat_map]. unfold reader_of at 1. rewrite H. exact IH.
      * (* a register is set *)
        exists HA, HB, q'. cbn [qspec] in QS. injection QS as <- <-.
        assert (Sm : forall j, same j tr (Ring T (EDone i (QSetReg ro rv) QUnit))).
        { intros j. unfold same. rewrite puts_snoc, gets_snoc, unsent_snoc, opened_snoc.
          cbn [ShmQE_Spec.puts ShmQE_Spec.gets flat_map app]. now rewrite !app_nil_r. }
        constructor; cbn [e_loc e_sys]; rewrite ?D, ?DF, ?DR, ?upd_length; auto.
        -- destruct (ro <? 12); auto.
        -- intros j. destruct (Sm j) as (-> & _ & -> & _). auto.
        -- congruence.
        -- intros j b1 pd1 E Wj. destruct (Sm j) as (_ & _ & -> & _).
           destruct (nthu _ _ _ _ _ _ E) as [(-> & E1)|(_ & E1)]; [injection E1 as -> ->; cbn [left_box]|]; eauto.
        -- intros j b1 pd1 E Wj. destruct (Sm j) as (_ & -> & _ & ->).
           destruct (nthu _ _ _ _ _ _ E) as [(-> & E1)|(_ & E1)]; [injection E1 as -> ->; cbn [left_box]|]; eauto.
        -- intros j p1 u1 b1 pd1 E1 E2. destruct (Sm j) as (_ & _ & _ & ->).
           destruct (nthu _ _ _ _ _ _ E2) as [(-> & E3)|(N & E3)]; [rewrite (IdleI _ _ E1); exact I|].
           exact (V9 _ _ _ _ _ (PC _ _ _ N E1) E3).
        -- unfold refusals in *. rewrite filter_app, app_length, V10. cbn [filter length]. lia.
        -- rewrite V13. cbn. now rewrite app_nil_r.
        -- rewrite V14. cbn. now rewrite app_nil_r.
      * (* a register is read *)
        exists HA, HB, q'. cbn [qspec] in QS. injection QS as <- <-.
        set (rv := QNum (if ro <? 12 then nth (Z.to_nat ro) (q_regs q) 0 else 0)) in *.
        assert (Sm : forall j, same j tr (Ring T (EDone i (QGetReg ro) rv))).
        { intros j. unfold same. rewrite puts_snoc, gets_snoc, unsent_snoc, opened_snoc.
          cbn [ShmQE_Spec.puts ShmQE_Spec.gets flat_map app]. now rewrite !app_nil_r. }
        constructor; cbn [e_loc e_sys]; rewrite ?D, ?DF, ?DR, ?upd_length; auto.
        -- intros j. destruct (Sm j) as (-> & _ & -> & _). auto.
        -- congruence.
        -- intros j b1 pd1 E Wj. destruct (Sm j) as (_ & _ & -> & _).
           destruct (nthu _ _ _ _ _ _ E) as [(-> & E1)|(_ & E1)]; [injection E1 as -> ->; cbn [left_box]|]; eauto.
        -- intros j b1 pd1 E Wj. destruct (Sm j) as (_ & -> & _ & ->).
           destruct (nthu _ _ _ _ _ _ E) as [(-> & E1)|(_ & E1)]; [injection E1 as -> ->; cbn [left_box]|]; eauto.
        -- intros j p1 u1 b1 pd1 E1 E2. destruct (Sm j) as (_ & _ & _ & ->).
           destruct (nthu _ _ _ _ _ _ E2) as [(-> & E3)|(N & E3)]; [rewrite (IdleI _ _ E1); exact I|].
           exact (V9 _ _ _ _ _ (PC _ _ _ N E1) E3).
        -- unfold refusals in *. rewrite filter_app, app_length, V10. cbn [filter length]. lia.
        -- rewrite V13. cbn. now rewrite app_nil_r.
        -- rewrite V14. cbn. now rewrite app_nil_r.
  - exists HA, HB, q. pose proof (v_len _ _ _ _ _ V) as VL. cbn [e_loc e_sys] in VL.
    destruct (step_inner _ _ _ _ _ Hs Hin) as [L G]. eapply einv_quiet; [exact V|intros j o r ->; discriminate| | | |].
    + congruence.
    + reflexivity.
    + eauto.
    + intros j p1 u1 b1 pd1 E1 E2. destruct (G _ _ _ E1) as (p0 & u0 & E0 & [->| ->]); [|exact I].
      exact (v_pc _ _ _ _ _ V j p0 u0 b1 pd1 E0 E2).
Qed.

Lemma proper_prefix : forall tr e, proper T small writer (tr ++ [e]) -> proper T small writer tr.
Proof.
  intros tr e P. remember (tr ++ [e]) as tr' eqn:E. destruct P as [|tr' e' P R]; [destruct tr; discriminate|].
  apply app_inj_tail in E. destruct E as [-> ->]. exact P.
Qed.

Theorem einv_exec : forall tr w, eexec T K lim n k m0 tr w -> proper T small writer tr ->
  (forall e, In e (rings tr) -> fine e = true) -> exists HA HB q, EInv tr w HA HB q.
Proof.
  intros tr w X. induction X as [|tr w e w' X IH S]; intros P F.
  - exists [], [], qempty. apply einv_init.
  - destruct IH as (HA & HB & q & V); [eapply proper_prefix; eauto| |eapply einv_step; eauto].
    intros e0 H. apply F. rewrite rings_snoc. apply in_or_app. auto.
Qed.
End E.
