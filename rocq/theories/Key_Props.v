(** C144, C145: what a file name stands for when several shared maps and queues are in use. *)
From Coq Require Import ZArith List Bool Lia Arith.
From Verif Require Import Base Key_Model Key_Spec.
Import ListNotations.
Local Open Scope Z_scope.

(** ** Keys *)
Lemma low_bits : forall A B C, Z.land A 0xffff = A -> Z.land B 0xff = B -> Z.land (Z.lor (Z.lor A (Z.shiftl B 16)) (Z.shiftl C 24)) 0xffff = A.
Proof.
  intros A B C HA HB. rewrite !Z.land_lor_distr_l, HA.
  assert (E : forall X n, 16 <= n -> Z.land (Z.shiftl X n) 0xffff = 0).
  { intros X n Hn. change 0xffff with (Z.ones 16). rewrite Z.land_ones by lia. rewrite Z.shiftl_mul_pow2 by lia.
    replace n with ((n - 16) + 16) by lia. rewrite Z.pow_add_r by lia. rewrite Z.mul_assoc. apply Z.mod_mul. lia. }
  rewrite !E by lia. now rewrite !Z.lor_0_r.
Qed.
Lemma mid_bits : forall A B C, Z.land A 0xffff = A -> Z.land B 0xff = B ->
  Z.land (Z.shiftr (Z.lor (Z.lor A (Z.shiftl B 16)) (Z.shiftl C 24)) 16) 0xff = B.
Proof.
  intros A B C HA HB. rewrite !Z.shiftr_lor.
  assert (E : Z.shiftr A 16 = 0).
  { rewrite <- HA. change 0xffff with (Z.ones 16). rewrite Z.land_ones by lia. rewrite Z.shiftr_div_pow2 by lia.
    apply Z.div_small. apply Z.mod_pos_bound. lia. }
  rewrite E, Z.lor_0_l. rewrite Z.shiftr_shiftl_l, Z.shiftr_shiftl_l by lia. change (16 - 16) with 0. change (24 - 16) with 8.
  rewrite Z.shiftl_0_r, Z.land_lor_distr_l, HB.
  assert (E2 : Z.land (Z.shiftl C 8) 0xff = 0).
  { change 0xff with (Z.ones 8). rewrite Z.land_ones by lia. rewrite Z.shiftl_mul_pow2 by lia. apply Z.mod_mul. lia. }
  rewrite E2. apply Z.lor_0_r.
Qed.

(** Two files have the same key exactly when the last 16 bits of the inode numbers and the last
    8 bits of the device numbers are the same. *)
Theorem C144_same_key : forall u v, file_ok u -> file_ok v ->
  (key u = key v <-> u_ino u mod 65536 = u_ino v mod 65536 /\ u_dev u mod 256 = u_dev v mod 256).
Proof.
  intros u v _ _. unfold key, ftok.
  assert (L16 : forall x, Z.land x 0xffff = x mod 65536) by (intros; change 0xffff with (Z.ones 16); now rewrite Z.land_ones by lia).
  assert (L8 : forall x, Z.land x 0xff = x mod 256) by (intros; change 0xff with (Z.ones 8); now rewrite Z.land_ones by lia).
  assert (I16 : forall x, Z.land (Z.land x 0xffff) 0xffff = Z.land x 0xffff) by (intros; now rewrite <- Z.land_assoc).
  assert (I8 : forall x, Z.land (Z.land x 0xff) 0xff = Z.land x 0xff) by (intros; now rewrite <- Z.land_assoc).
  split.
  - intros E. split.
    + rewrite <- !L16. apply (f_equal (fun z => Z.land z 0xffff)) in E. rewrite !low_bits in E by auto. exact E.
    + rewrite <- !L8. apply (f_equal (fun z => Z.land (Z.shiftr z 16) 0xff)) in E. rewrite !mid_bits in E by auto. exact E.
  - intros [E1 E2]. rewrite <- !L16 in E1. rewrite <- !L8 in E2. now rewrite E1, E2.
Qed.
Print Assumptions C144_same_key.

(** ** Different keys: nothing in common *)
Lemma put_same : forall B (f : Z -> option B) k v, put f k v k = v.
Proof. intros. unfold put. now rewrite Z.eqb_refl. Qed.
Lemma put_other : forall B (f : Z -> option B) k v x, x <> k -> put f k v x = f x.
Proof. intros. unfold put. destruct (Z.eqb_spec x k); congruence. Qed.
Lemma exec_len : forall us tr s, exec us tr s -> length (ps s) = length us.
Proof.
  intros us tr s H. induction H as [|tr s e s' H IH S]; [apply repeat_length|]. destruct S. cbn [ps]. now rewrite upd_length.
Qed.

(** What the users of one key see is an execution of their own: it is what would have happened
    had the users of all other keys done nothing at all. *)
Theorem C144_separate : forall us k tr s, exec us tr s ->
  exists s', exec us (filter (of_key us k) tr) s' /\ agree us k s s'.
Proof.
  intros us k tr s H. induction H as [|tr s e s' H IH S].
  - exists (init us). split; [constructor|]. repeat split.
  - destruct IH as (s1 & X & (A1 & A2 & A3)). rewrite filter_app. cbn [filter].
    destruct S as [s i u p w v' m' p' Hu Hp HL]. unfold of_key at 2. cbn [fst]. rewrite Hu.
    pose proof (exec_len _ _ _ X) as L1. assert (Li : (i < length us)%nat) by (apply nth_error_Some; congruence).
    destruct (Z.eqb_spec (key u) k) as [<-|N].
    + pose proof (A3 i u Hu eq_refl) as A. rewrite Hp in A. rewrite A1, A2 in HL.
      eexists. split; [eapply ex_snoc; [exact X|]; eapply st; eauto|].
      split; [cbn [t_sem]; now rewrite !put_same|]. split; [cbn [t_seg]; now rewrite !put_same|].
      intros j uj Hj Kj. cbn [ps]. pose proof (exec_len _ _ _ H) as L0.
      destruct (Nat.eq_dec j i) as [->|Nj].
      * rewrite !nth_error_upd_same by lia. reflexivity.
      * rewrite !nth_error_upd_other by auto. eauto.
    + rewrite app_nil_r. exists s1. split; [exact X|].
      split; [cbn [t_sem]; now rewrite put_other by auto|]. split; [cbn [t_seg]; now rewrite put_other by auto|].
      intros j uj Hj Kj. cbn [ps]. rewrite nth_error_upd_other; [eauto|]. intros ->. congruence.
Qed.
Print Assumptions C144_separate.

(** ** Counting *)
Fixpoint total (g : user -> pc -> nat) (us : list user) (l : list pc) : nat :=
  match us, l with u :: us, p :: l => (g u p + total g us l)%nat | _, _ => 0%nat end.
Lemma total_upd : forall g us l i u p p', nth_error us i = Some u -> nth_error l i = Some p ->
  (total g us (upd l i p') + g u p = total g us l + g u p')%nat.
Proof.
  intros g. induction us as [|u0 us IH]; intros l [|i] u p p' Hu Hp; try discriminate; destruct l as [|q l]; try discriminate; cbn in *.
  - injection Hu as ->. injection Hp as ->. cbn. lia.
  - cbn. specialize (IH l i u p p' Hu Hp). lia.
Qed.
Lemma total_ge : forall g us l i u p, nth_error us i = Some u -> nth_error l i = Some p -> (g u p <= total g us l)%nat.
Proof.
  intros g. induction us as [|u0 us IH]; intros [|q l] [|i] u p Hu Hp; try discriminate; cbn in *.
  - injection Hu as ->. injection Hp as ->. lia.
  - specialize (IH _ _ _ _ Hu Hp). lia.
Qed.
Lemma total_two : forall g us l i j u v p q, nth_error us i = Some u -> nth_error l i = Some p ->
  nth_error us j = Some v -> nth_error l j = Some q -> i <> j -> (g u p + g v q <= total g us l)%nat.
Proof.
  intros g. induction us as [|u0 us IH]; intros [|r l] [|i] [|j] u v p q Hu Hp Hv Hq N; try discriminate; try (now elim N); cbn in *.
  - injection Hu as ->. injection Hp as ->. pose proof (total_ge g us l j v q Hv Hq). lia.
  - injection Hv as ->. injection Hq as ->. pose proof (total_ge g us l i u p Hu Hp). lia.
  - assert (i <> j) by congruence. specialize (IH l i j u v p q Hu Hp Hv Hq H). lia.
Qed.
Lemma total_init : forall g us, (forall u, g u CSem = 0%nat) -> total g us (repeat CSem (length us)) = 0%nat.
Proof. intros g us H. induction us as [|u us IH]; [reflexivity|]. cbn. rewrite H, IH. reflexivity. Qed.

Definition on (k : Z) (f : pc -> bool) (u : user) (p : pc) : nat := if (key u =? k) && f p then 1%nat else 0%nat.
Definition wr (p : pc) : bool := match p with CShm | CUnlock _ | AHdr | AUnlock _ | Writing => true | _ => false end.
Definition rdg (p : pc) : bool := match p with Reading => true | _ => false end.
Definition cl (p : pc) : bool := match p with UTake | UIn => true | _ => false end.
Definition po (p : pc) : bool := match p with FPost => true | _ => false end.
Lemma on_other : forall k f u p, key u <> k -> on k f u p = 0%nat.
Proof. intros. unfold on. destruct (Z.eqb_spec (key u) k); [contradiction|reflexivity]. Qed.
Lemma on_key : forall f u p, on (key u) f u p = if f p then 1%nat else 0%nat.
Proof. intros. unfold on. now rewrite Z.eqb_refl. Qed.

(** all users of a key have maps *)
Definition minv (us : list user) (k : Z) (s : sys) : Prop :=
  let W := total (on k wr) us (ps s) in let R := total (on k rdg) us (ps s) in
  match t_sem s k with
  | None => W = 0%nat /\ R = 0%nat
  | Some (a, b) => a = Z.of_nat R /\ b = Z.of_nat W /\ (W <= 1)%nat /\ (W = 1%nat -> R = 0%nat)
  end.
Lemma minv_ok : forall us k, (forall u, In u us -> key u = k -> u_kind u = Map) -> forall tr s, exec us tr s -> minv us k s.
Proof.
  intros us k HK tr s H. induction H as [|tr s e s' H IH S].
  - unfold minv. cbn [init t_sem ps]. rewrite !total_init; auto; intros u; unfold on; cbn; now rewrite andb_false_r.
  - destruct S as [s i u p w v' m' p' Hu Hp HL]. unfold minv in *. cbn [t_sem ps].
    pose proof (total_upd (on k wr) us (ps s) i u p p' Hu Hp) as TW. pose proof (total_upd (on k rdg) us (ps s) i u p p' Hu Hp) as TR.
    pose proof (total_ge (on k wr) us (ps s) i u p Hu Hp) as GW. pose proof (total_ge (on k rdg) us (ps s) i u p Hu Hp) as GR.
    set (W := total (on k wr) us (ps s)) in *. set (R := total (on k rdg) us (ps s)) in *.
    set (W' := total (on k wr) us (upd (ps s) i p')) in *. set (R' := total (on k rdg) us (upd (ps s) i p')) in *.
    destruct (Z.eq_dec (key u) k) as [E|N].
    + pose proof (HK u (nth_error_In _ _ Hu) E) as Ku. subst k. rewrite put_same. rewrite !on_key in *.
      remember (mkL (t_sem s (key u)) (t_seg s (key u)) p) as l0 eqn:E0. remember (mkL v' m' p') as l1 eqn:E1.
      destruct HL; try congruence; try (destruct (_ && _ && _)); injection E1; intros; subst; injection E0; intros; subst;
        repeat match goal with X : _ = t_sem s (key u) |- _ => rewrite <- X in IH; clear X end;
        cbn [wr rdg] in *; try rewrite Ku in *; cbn [fresh] in *; try (destruct IH as [? ?]; lia);
        try (destruct v as [a b]); try (destruct (t_sem s (key u)) as [[a b]|]); try (destruct ok); cbn [wr rdg] in *; try lia.
    + rewrite put_other by congruence. rewrite !on_other in * by auto. rewrite !Nat.add_0_r in *. rewrite TW, TR. exact IH.
Qed.

(** all users of a key have queues *)
Definition qinv (us : list user) (k : Z) (tr : list event) (s : sys) : Prop :=
  (match t_sem s k with Some (_, b) => b | None => 0 end) +
  Z.of_nat (total (on k cl) us (ps s) + total (on k po) us (ps s) + seen us k Took tr) = Z.of_nat (seen us k Stored tr) /\
  match t_sem s k with Some (_, b) => 0 <= b | None => True end.
Lemma seen_snoc : forall us k x tr i u w, nth_error us i = Some u -> seen us k x (tr ++ [(i, w)]) =
  (seen us k x tr + if (key u =? k)%Z && match w, x with Stored, Stored | Took, Took => true | _, _ => false end then 1 else 0)%nat.
Proof.
  intros us k x tr i u w Hu. unfold seen. rewrite filter_app, app_length. f_equal. cbn [filter]. unfold of_key. cbn [fst snd].
  rewrite Hu. now destruct (_ && _).
Qed.
Lemma qinv_ok : forall us k, (forall u, In u us -> key u = k -> u_kind u = Queue) -> forall tr s, exec us tr s -> qinv us k tr s.
Proof.
  intros us k HK tr s H. induction H as [|tr s e s' H IH S].
  - unfold qinv. cbn [init t_sem ps]. rewrite !total_init; [split; [reflexivity|exact I]|..]; intros u; unfold on; cbn; now rewrite andb_false_r.
  - destruct S as [s i u p w v' m' p' Hu Hp HL]. unfold qinv in *. rewrite !(seen_snoc us k _ tr i u w Hu). cbn [t_sem ps].
    pose proof (total_upd (on k cl) us (ps s) i u p p' Hu Hp) as TW. pose proof (total_upd (on k po) us (ps s) i u p p' Hu Hp) as TR.
    pose proof (total_ge (on k cl) us (ps s) i u p Hu Hp) as GW. pose proof (total_ge (on k po) us (ps s) i u p Hu Hp) as GR.
    set (W := total (on k cl) us (ps s)) in *. set (R := total (on k po) us (ps s)) in *.
    set (W' := total (on k cl) us (upd (ps s) i p')) in *. set (R' := total (on k po) us (upd (ps s) i p')) in *.
    destruct (Z.eq_dec (key u) k) as [E|N].
    + pose proof (HK u (nth_error_In _ _ Hu) E) as Ku. subst k. rewrite put_same. rewrite !on_key in *. rewrite Z.eqb_refl.
      remember (mkL (t_sem s (key u)) (t_seg s (key u)) p) as l0 eqn:E0. remember (mkL v' m' p') as l1 eqn:E1.
      destruct HL; try congruence; try (destruct (_ && _ && _)); injection E1; intros; subst; injection E0; intros; subst;
        repeat match goal with X : _ = t_sem s (key u) |- _ => rewrite <- X in IH; clear X end;
        cbn [cl po andb] in *; try rewrite Ku in *; cbn [fresh] in *; try lia;
        try (destruct v as [a b]); try (destruct (t_sem s (key u)) as [[a b]|]); try lia.
    + rewrite put_other by congruence. rewrite !on_other in * by auto. rewrite !Nat.add_0_r in *. rewrite TW, TR.
      destruct (Z.eqb_spec (key u) k); [contradiction|]. cbn [andb]. rewrite !Nat.add_0_r. exact IH.
Qed.

(** When no map has the key of a queue, maps are isolated, and no queue gives out a box that was
    not stored, whatever the users of other keys do.
    Missing: a map and a queue with one key, see the refutations. *)
Theorem C145_one_kind_partial : forall us tr s, exec us tr s ->
  (forall u v, In u us -> In v us -> key u = key v -> u_kind u = u_kind v) ->
  isolated us s /\ forall k, (exists u, In u us /\ key u = k /\ u_kind u = Queue) -> (seen us k Took tr <= seen us k Stored tr)%nat.
Proof.
  intros us tr s H HK. split.
  - intros i j u v q Hu Hv E Hi Hj Hq.
    assert (KM : u_kind u = Map).
    { destruct (u_kind u) eqn:Ku; [reflexivity|]. exfalso. clear -H Hu Hi Ku.
      revert i u Hu Ku Hi. induction H as [|tr s e s' H IH S]; intros i u Hu Ku Hi.
      - cbn in Hi. apply nth_error_In, repeat_spec in Hi. discriminate.
      - destruct S as [s j w p ev v' m' p' Hw Hp HL]. cbn [ps] in Hi. destruct (Nat.eq_dec i j) as [->|N].
        + rewrite nth_error_upd_same in Hi by (apply nth_error_Some; congruence). injection Hi as ->.
          rewrite Hu in Hw. injection Hw as <-. remember (mkL v' m' Writing) as l1 eqn:E1.
          destruct HL; try congruence; try (destruct (_ && _ && _)); congruence.
        + rewrite nth_error_upd_other in Hi by auto. eauto. }
    assert (A : forall w, In w us -> key w = key u -> u_kind w = Map).
    { intros w Iw Kw. rewrite <- KM. apply HK; auto. eapply nth_error_In; eauto. }
    pose proof (minv_ok us (key u) A tr s H) as M. unfold minv in M.
    pose proof (total_ge (on (key u) wr) us (ps s) i u _ Hu Hi) as G1. rewrite on_key in G1. cbn [wr] in G1.
    destruct (Nat.eq_dec i j) as [|N]; [assumption|exfalso].
    pose proof (total_two (on (key u) wr) us (ps s) i j u v _ q Hu Hi Hv Hj N) as G2.
    pose proof (total_ge (on (key u) rdg) us (ps s) j v q Hv Hj) as G3. rewrite E in *. rewrite !on_key in *.
    rewrite <- E, on_key in G2. cbn [wr] in G2. rewrite E in G2.
    destruct (t_sem s (key v)) as [[a b]|]; [|lia].
    destruct Hq as [->| ->]; cbn [wr rdg] in *; lia.
  - intros k (u & Iu & <- & Ku).
    assert (A : forall w, In w us -> key w = key u -> u_kind w = Queue) by (intros w Iw Kw; rewrite <- Ku; auto).
    destruct (qinv_ok us (key u) A tr s H) as [Q B]. destruct (t_sem s (key u)) as [[a b]|]; lia.
Qed.
Print Assumptions C145_one_kind_partial.

(** ** Executions *)
Definition lfire (u : user) (l : loc) (c : nat) : option (what * loc) :=
  let '(mkL v m p) := l in
  match u_kind u, p, v, m with
  | k, CSem, None, _ => Some (Tau, mkL (Some (fresh k)) m CLock)
  | _, CSem, Some _, _ => Some (Tau, mkL v m CLock)
  | Map, CLock, Some (a, b), _ => if (a =? 0) && (b =? 0) then Some (Tau, mkL (Some (0, 1)) m CShm) else None
  | Queue, CLock, Some (a, b), _ => if 0 <? a then Some (Tau, mkL (Some (a - 1, b)) m CShm) else None
  | Map, CShm, _, None => Some (Tau, mkL v (Some (u_need u, (0, 0, 0))) (CUnlock true))
  | Map, CShm, _, Some (sz, h) => Some (Tau, mkL v m (CUnlock (u_need u <=? sz)))
  | Queue, CShm, _, None => Some (Tau, mkL v (Some (u_need u, (u_a u, u_b u, 0))) (CUnlock true))
  | Queue, CShm, _, Some (sz, (x, y, z)) =>
      Some (if (u_need u <=? sz) && (x =? u_a u) && (y =? u_b u) then Tau else Failed,
            mkL v m (if (u_need u <=? sz) && (x =? u_a u) && (y =? u_b u) then CUnlock true else Gone))
  | Map, CUnlock ok, Some (a, b), _ => if 0 <? b then Some (if ok then Tau else Failed, mkL (Some (a, b - 1)) m (if ok then ALock else Gone)) else None
  | Queue, CUnlock ok, Some (a, b), _ => Some (Connected, mkL (Some (a + 1, b)) m Up)
  | Map, ALock, Some (a, b), _ => if (a =? 0) && (b =? 0) then Some (Tau, mkL (Some (0, 1)) m AHdr) else None
  | Map, AHdr, _, Some (sz, (x, y, z)) =>
      Some (Tau, if (x =? 0) && (y =? 0) && (z =? 0) then mkL v (Some (sz, (u_a u, u_b u, u_c u))) (AUnlock true)
                 else mkL v m (AUnlock ((x =? u_a u) && (y =? u_b u) && (z =? u_c u))))
  | Map, AUnlock ok, Some (a, b), _ => if 0 <? b then Some (if ok then Connected else Failed, mkL (Some (a, b - 1)) m (if ok then Up else Gone)) else None
  | Map, Up, Some (a, b), _ =>
      match c with
      | O => if b =? 0 then Some (Tau, mkL (Some (a + 1, 0)) m Reading) else None
      | _ => if (a =? 0) && (b =? 0) then Some (Tau, mkL (Some (0, 1)) m Writing) else None
      end
  | Map, Reading, Some (a, b), _ => if 0 <? a then Some (Tau, mkL (Some (a - 1, b)) m Up) else None
  | Map, Writing, Some (a, b), _ => if 0 <? b then Some (Tau, mkL (Some (a, b - 1)) m Up) else None
  | Queue, Up, Some (a, b), _ =>
      match c with
      | O => if 0 <? a then Some (Tau, mkL (Some (a - 1, b)) m FIn) else None
      | _ => if 0 <? b then Some (Tau, mkL (Some (a, b - 1)) m UTake) else None
      end
  | Queue, FIn, _, _ => match c with O => Some (Stored, mkL v m FPost) | _ => Some (Tau, mkL v m FOut) end
  | Queue, FPost, Some (a, b), _ => Some (Tau, mkL (Some (a, b + 1)) m FOut)
  | Queue, FOut, Some (a, b), _ => Some (Tau, mkL (Some (a + 1, b)) m Up)
  | Queue, UTake, Some (a, b), _ => if 0 <? a then Some (Tau, mkL (Some (a - 1, b)) m UIn) else None
  | Queue, UIn, _, _ => Some (Took, mkL v m UOut)
  | Queue, UOut, Some (a, b), _ => Some (Tau, mkL (Some (a + 1, b)) m Up)
  | _, _, _, _ => None
  end.
Lemma lfire_step : forall u l c w l', lfire u l c = Some (w, l') -> lstep u l w l'.
Proof.
  intros u [v m p] c w l' H. unfold lfire in H.
  destruct (u_kind u) eqn:Ku; destruct p; destruct v as [[a b]|]; try discriminate;
    repeat match type of H with
    | context [if (?a =? 0) && (?b =? 0) then Some _ else None] => destruct (Z.eqb_spec a 0); [|discriminate]; destruct (Z.eqb_spec b 0); [|discriminate]; subst; cbn [andb] in H
    | context [if ?a =? 0 then Some _ else None] => destruct (Z.eqb_spec a 0); [|discriminate]; subst
    | context [if 0 <? ?a then _ else _] => destruct (Z.ltb_spec 0 a); [|discriminate]
    | context [match c with O => _ | _ => _ end] => destruct c as [|c]
    | context [match m with Some _ => _ | None => _ end] => destruct m as [[sz [[x y] z]]|]
    end; try discriminate; injection H as <- <-; try (constructor; assumption); try (now constructor);
    pose proof (l_sem_new u m) as X; rewrite Ku in X; exact X.
Qed.
Lemma lstep_fire : forall u l w l', lstep u l w l' -> exists c, lfire u l c = Some (w, l').
Proof.
  intros u l w l' H.
  assert (T : forall a, 0 < a -> (0 <? a) = true) by (intros a X; now apply Z.ltb_lt).
  destruct H; unfold lfire; cbn [sems seg at_];
    try match goal with K : u_kind u = _ |- _ => rewrite K end;
    try (exists 0%nat; rewrite ?T by assumption; reflexivity); try (exists 1%nat; rewrite ?T by assumption; reflexivity).
  all: exists 0%nat; now destruct (u_kind u).
Qed.
Definition fire (us : list user) (s : sys) (i c : nat) : option (event * sys) :=
  match nth_error us i, nth_error (ps s) i with
  | Some u, Some p =>
      match lfire u (mkL (t_sem s (key u)) (t_seg s (key u)) p) c with
      | Some (w, mkL v' m' p') => Some ((i, w), mkS (put (t_sem s) (key u) v') (put (t_seg s) (key u) m') (upd (ps s) i p'))
      | None => None
      end
  | _, _ => None
  end.
Fixpoint fires (us : list user) (tr : list event) (s : sys) (l : list (nat * nat)) : list event * sys :=
  match l with
  | [] => (tr, s)
  | (i, c) :: l => match fire us s i c with Some (e, s) => fires us (tr ++ [e]) s l | None => fires us tr s l end
  end.
Lemma fires_exec : forall us l tr s, exec us tr s -> exec us (fst (fires us tr s l)) (snd (fires us tr s l)).
Proof.
  intros us. induction l as [|[i c] l IH]; intros tr s X; cbn [fires]; [exact X|].
  destruct (fire us s i c) as [[e s1]|] eqn:E; [|auto]. apply IH. eapply ex_snoc; [exact X|]. unfold fire in E.
  destruct (nth_error us i) as [u|] eqn:Hu; [|discriminate]. destruct (nth_error (ps s) i) as [p|] eqn:Hp; [|discriminate].
  destruct (lfire u _ c) as [[w [v' m' p']]|] eqn:Ef; [|discriminate]. injection E as <- <-.
  eapply st; eauto. eapply lfire_step; eauto.
Qed.
(** process [j] cannot move *)
Definition stuck (us : list user) (s : sys) (j : nat) : Prop := forall w s', ~ step us s (j, w) s'.
Lemma stuck_ok : forall us s j, fire us s j 0 = None -> fire us s j 1 = None -> 
  (forall u l c, lfire u l (S (S c)) = lfire u l 1) -> stuck us s j.
Proof.
  intros us s j F0 F1 G w s' H. inversion H as [s0 i u p w0 v' m' p' Hu Hp HL]; subst.
  destruct (lstep_fire _ _ _ _ HL) as [c E]. unfold fire in F0, F1. rewrite Hu, Hp in F0, F1.
  destruct c as [|[|c]]; [rewrite E in F0; discriminate|rewrite E in F1; discriminate|].
  rewrite G in E. rewrite E in F1. discriminate.
Qed.
Lemma lfire_big : forall u l c, lfire u l (S (S c)) = lfire u l 1.
Proof. intros u [v m p] c. reflexivity. Qed.

Definition run (i n : nat) : list (nat * nat) := repeat (i, 0%nat) n.
Definition mapU (ino : Z) : user := mkU 2049 ino Map 3136 10 8 16.
Definition queU (ino : Z) : user := mkU 2049 ino Queue 864 4 200 0.

(** Two files of one file system, two maps: the second map is the first.  While one process
    writes into its map the other, which has named another file, has to wait. *)
Theorem C144_separate_refuted : exists us u v tr s, us = [u; v] /\ file_ok u /\ file_ok v /\ ~ same_file u v /\ u_dev u = u_dev v /\
  exec us tr s /\ In (0%nat, Connected) tr /\ In (1%nat, Connected) tr /\
  ps s = [Writing; Up] /\ stuck us s 1.
Proof.
  set (us := [mapU 1001; mapU (1001 + 65536)]). set (l := run 0 7 ++ run 1 7 ++ [(0%nat, 1%nat)]).
  exists us, (mapU 1001), (mapU (1001 + 65536)), (fst (fires us [] (init us) l)), (snd (fires us [] (init us) l)).
  split; [reflexivity|]. split; [split; cbn; lia|]. split; [split; cbn; lia|].
  split; [intros [_ E]; discriminate|]. split; [reflexivity|].
  split; [apply fires_exec; constructor|].
  split; [vm_compute; tauto|]. split; [vm_compute; tauto|]. split; [vm_compute; reflexivity|].
  apply stuck_ok; [vm_compute; reflexivity|vm_compute; reflexivity|exact lfire_big].
Qed.
Print Assumptions C144_separate_refuted.

(** A map and a queue on one file.  When the queue was first, connecting the map waits although
    nobody is using the queue; *)
Theorem C145_map_waits_refuted : exists tr s, exec [queU 1001; mapU 1001] tr s /\ In (0%nat, Connected) tr /\
  ps s = [Up; CLock] /\ stuck [queU 1001; mapU 1001] s 1.
Proof.
  set (us := [queU 1001; mapU 1001]). set (l := run 0 4 ++ run 1 7).
  exists (fst (fires us [] (init us) l)), (snd (fires us [] (init us) l)).
  split; [apply fires_exec; constructor|]. split; [vm_compute; tauto|]. split; [vm_compute; reflexivity|].
  apply stuck_ok; [vm_compute; reflexivity|vm_compute; reflexivity|exact lfire_big].
Qed.
Print Assumptions C145_map_waits_refuted.
(** when the map was first, connecting the queue waits although nobody is using the map. *)
Theorem C145_queue_waits_refuted : exists tr s, exec [mapU 1001; queU 1001] tr s /\ In (0%nat, Connected) tr /\
  ps s = [Up; CLock] /\ stuck [mapU 1001; queU 1001] s 1.
Proof.
  set (us := [mapU 1001; queU 1001]). set (l := run 0 7 ++ run 1 7).
  exists (fst (fires us [] (init us) l)), (snd (fires us [] (init us) l)).
  split; [apply fires_exec; constructor|]. split; [vm_compute; tauto|]. split; [vm_compute; reflexivity|].
  apply stuck_ok; [vm_compute; reflexivity|vm_compute; reflexivity|exact lfire_big].
Qed.
Print Assumptions C145_queue_waits_refuted.
(** When the map gets in while somebody else connects to the queue, it raises the count of the
    queue: a reader receives a box that nobody has stored, and the map waits for ever. *)
Theorem C145_phantom_box_refuted : exists tr s, exec [queU 1001; queU 1001; mapU 1001] tr s /\
  seen [queU 1001; queU 1001; mapU 1001] (key (queU 1001)) Stored tr = 0%nat /\ In (0%nat, Took) tr /\
  ps s = [Up; Up; CUnlock false] /\ stuck [queU 1001; queU 1001; mapU 1001] s 2.
Proof.
  set (us := [queU 1001; queU 1001; mapU 1001]).
  set (l := run 0 4 ++ run 1 2 ++ run 2 2 ++ run 1 2 ++ [(0, 1); (0, 0); (0, 0); (0, 0)]%nat ++ run 2 1).
  exists (fst (fires us [] (init us) l)), (snd (fires us [] (init us) l)).
  split; [apply fires_exec; constructor|]. split; [vm_compute; reflexivity|]. split; [vm_compute; tauto|]. split; [vm_compute; reflexivity|].
  apply stuck_ok; [vm_compute; reflexivity|vm_compute; reflexivity|exact lfire_big].
Qed.
Print Assumptions C145_phantom_box_refuted.
(** A process that connects to the queue while another reads the map takes the reader's place
    in the count: a writer gets in while the reader is reading. *)
Theorem C145_isolation_refuted : exists tr s, exec [mapU 1001; mapU 1001; queU 1001] tr s /\
  ps s = [Reading; Writing; CShm] /\ ~ isolated [mapU 1001; mapU 1001; queU 1001] s.
Proof.
  set (us := [mapU 1001; mapU 1001; queU 1001]).
  set (l := run 0 7 ++ run 1 7 ++ [(0, 0)]%nat ++ run 2 2 ++ [(1, 1)]%nat).
  assert (E : ps (snd (fires us [] (init us) l)) = [Reading; Writing; CShm]) by (vm_compute; reflexivity).
  exists (fst (fires us [] (init us) l)), (snd (fires us [] (init us) l)).
  split; [apply fires_exec; constructor|]. split; [exact E|].
  intros I. specialize (I 1%nat 0%nat (mapU 1001) (mapU 1001) Reading eq_refl eq_refl eq_refl).
  rewrite E in I. specialize (I eq_refl eq_refl (or_introl eq_refl)). discriminate.
Qed.
Print Assumptions C145_isolation_refuted.

(** the hypotheses of C145_one_kind_partial hold when the map and the queue have files with
    different keys, and both are used *)
Example C145_ex : let us := [queU 1001; mapU 1002; queU 1001; mapU 1002] in
  (forall u v, In u us -> In v us -> key u = key v -> u_kind u = u_kind v) /\
  exists tr s, exec us tr s /\ ps s = [Up; Writing; UOut; Up] /\
    seen us (key (queU 1001)) Stored tr = 1%nat /\ seen us (key (queU 1001)) Took tr = 1%nat.
Proof.
  intros us. split.
  - intros u v Iu Iv. cbn in Iu, Iv.
    repeat match goal with I : _ \/ _ |- _ => destruct I as [I|I] | I : False |- _ => destruct I end; subst; vm_compute; congruence.
  - set (l := run 0 4 ++ run 1 7 ++ run 2 4 ++ run 3 7 ++ [(1, 1)]%nat ++ run 0 4 ++ [(2, 1); (2, 0); (2, 0)]%nat).
    exists (fst (fires us [] (init us) l)), (snd (fires us [] (init us) l)).
    split; [apply fires_exec; constructor|]. repeat (split; [vm_compute; reflexivity|]). vm_compute. reflexivity.
Qed.
(** different inode numbers that have different keys, and that have the same *)
Example C144_ex : file_ok (mapU 1001) /\ file_ok (mapU 66537) /\ key (mapU 1001) = key (mapU 66537) /\ key (mapU 1001) <> key (mapU 1002).
Proof. repeat split; vm_compute; congruence. Qed.
