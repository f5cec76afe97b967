(** C141: no log message is lost when the log is rotated.  C142: the path given to log_create. *)
From Coq Require Import ZArith List Bool Lia Arith.
From Verif Require Import Base Rot_Model Rot_Spec Rot_Proof.
Import ListNotations.
Local Open Scope Z_scope.

Lemma rest_go : forall s i c d n dt nx b l, is_fmt (thr s i) = false -> is_fmt c = false ->
  rest (mkS d n dt nx b l (lck s) (put (thr s) i c)) = rest s.
Proof.
  intros s i c d n dt nx b l H1 H2. unfold rest. cbn [lck thr]. destruct (lck s) as [k|]; [|reflexivity].
  destruct (Nat.eq_dec k i) as [->|N]; [rewrite put_same|now rewrite put_other by auto].
  destruct (thr s i), c; try discriminate; reflexivity.
Qed.
Lemma said_snoc : forall tr e, said (tr ++ [e]) = said tr ++ match e with EMsg _ cs => cs | _ => [] end.
Proof. intros. unfold said. rewrite flat_map_app. cbn. now rewrite app_nil_r. Qed.
Lemma written_snoc : forall tr e, written (tr ++ [e]) = written tr ++ match e with EWrite _ _ c => [c] | _ => [] end.
Proof. intros. unfold written. rewrite flat_map_app. cbn. now rewrite app_nil_r. Qed.
Lemma bytes_snoc : forall f tr e, bytes_to f (tr ++ [e]) = bytes_to f tr ++ match e with EWrite _ g c => if Nat.eqb g f then c else [] | _ => [] end.
Proof. intros. unfold bytes_to. rewrite flat_map_app. cbn. now rewrite app_nil_r. Qed.
Lemma not_in_snoc : forall A (P : A -> Prop) l x, (forall e, In e (l ++ [x]) -> P e) <-> (forall e, In e l -> P e) /\ P x.
Proof.
  intros A P l x. split.
  - intros H. split; [intros e I; apply H, in_or_app; auto|apply H, in_or_app; right; left; reflexivity].
  - intros [H1 H2] e I. apply in_app_or in I. destruct I as [I|[<-|[]]]; auto.
Qed.

Lemma nothing_lost : forall s0 tr s, at_rest s0 -> runs s0 tr s -> (forall e, In e tr -> ~ write_fails e) ->
  said tr = written tr ++ rest s /\ forall i c, ~ In (ELost i c) tr.
Proof.
  intros s0 tr s A R. induction R as [|tr s e s' R IH S]; intros NF.
  - split; [|intros i c []]. destruct A as (_ & L & _). unfold rest. rewrite L. reflexivity.
  - apply not_in_snoc in NF. destruct NF as [NF NE]. destruct (IH NF) as [H1 H2]. clear IH.
    pose proof (winv_runs _ _ _ (winv_rest _ A) R) as W.
    rewrite said_snoc, written_snoc.
    assert (G : (forall i c, e <> ELost i c) -> forall i c, ~ In (ELost i c) (tr ++ [e])).
    { intros N i c I. apply in_app_or in I. destruct I as [I|[I|[]]]; [eapply H2; eauto|eapply N; eauto]. }
    cases S; pose proof W as (W1 & W2 & W3 & W4); try (split; [|apply G; intros; discriminate]); rewrite ?app_nil_r.
    all: try (rewrite rest_go by (rt; reflexivity); exact H1).
    + rewrite H1. unfold rest. cbn [lck thr]. rewrite put_same, E0. now rewrite app_nil_r.
    + rewrite H1. unfold rest. cbn [lck thr]. assert (L : lck s = Some i) by (apply W2; rewrite E; reflexivity). rewrite L, E. now rewrite app_nil_r.
    + rewrite H1. unfold rest. cbn [lck thr]. assert (L : lck s = Some i) by (apply W2; rewrite E; reflexivity). rewrite L, E, put_same.
      rewrite <- app_assoc. reflexivity.
    + elim W1. assumption.
    + rewrite rest_go; [exact H1|rt; reflexivity|]. destruct (z =? 0), (z =? 47); reflexivity.
    + rewrite rest_go; [exact H1|rt; reflexivity|]. destruct ok; reflexivity.
    + elim NE. exact I.
    + rewrite rest_go; [exact H1|rt; reflexivity|]. destruct (td =? 2)%nat; reflexivity.
    + rewrite rest_go; [exact H1|rt; reflexivity|]. destruct (td =? 2)%nat; reflexivity.
    + exact H1.
    + exact H1.
Qed.

Lemma contents : forall s0 tr s, sane_files s0 -> runs s0 tr s ->
  (nxt s0 <= nxt s)%nat /\ sane_files s /\
  (forall f, (f < nxt s0)%nat -> dat s f = dat s0 f ++ bytes_to f tr) /\
  (forall f, (nxt s0 <= f < nxt s)%nat -> dat s f = bytes_to f tr) /\
  (forall f, (nxt s <= f)%nat -> bytes_to f tr = []).
Proof.
  intros s0 tr s A R. induction R as [|tr s e s' R IH S].
  - split; [lia|]. split; [exact A|]. split; [intros; now rewrite app_nil_r|]. split; [lia|reflexivity].
  - destruct IH as (H1 & (F1 & F2) & H3 & H4 & H5).
    assert (G : (forall i f c, e <> EWrite i f c) -> dat s' = dat s -> nxt s' = nxt s -> sane_files s' ->
      (nxt s0 <= nxt s')%nat /\ sane_files s' /\
      (forall f, (f < nxt s0)%nat -> dat s' f = dat s0 f ++ bytes_to f (tr ++ [e])) /\
      (forall f, (nxt s0 <= f < nxt s')%nat -> dat s' f = bytes_to f (tr ++ [e])) /\
      (forall f, (nxt s' <= f)%nat -> bytes_to f (tr ++ [e]) = [])).
    { intros N -> -> Sn. assert (B : forall f, bytes_to f (tr ++ [e]) = bytes_to f tr).
      { intros f. rewrite bytes_snoc. destruct e; try (now rewrite app_nil_r). elim (N i f0 c eq_refl). }
      split; [exact H1|]. split; [exact Sn|]. split; [intros; rewrite B; auto|]. split; intros; rewrite B; auto. }
    cases S; try (apply G; [discriminate|reflexivity|reflexivity|split; cbn; assumption]).
    + (* write *)
      assert (Fn : (n < nxt s)%nat) by (eapply F1; eauto).
      split; [exact H1|]. split; [split; cbn; auto|]. cbn [dat nxt].
      split; [|split]; intros f L; rewrite bytes_snoc; destruct (Nat.eqb_spec n f) as [<-|N];
        rewrite ?put_same, ?(put_other _ _ _ _ f) by auto; rewrite ?app_nil_r; auto.
      * rewrite H3 by auto. now rewrite app_assoc.
      * rewrite H4 by auto. reflexivity.
      * lia.
    + (* mkdir *)
      apply G; [discriminate|reflexivity|reflexivity|]. split; cbn; [exact F1|]. intros q f. destruct (nam s _); [apply F2|].
      unfold putn. destruct (list_eq_dec _ _ _); [discriminate|apply F2].
    + (* dup2 *)
      apply G; [discriminate|reflexivity|reflexivity|]. split; cbn; [|exact F2]. intros d f. unfold put. destruct (d =? 2)%nat; apply F1.
    + apply G; [discriminate|reflexivity|reflexivity|]. split; cbn; [|exact F2]. intros d f. unfold put. destruct (d =? td)%nat; [discriminate|apply F1].
    + apply G; [discriminate|reflexivity|reflexivity|]. split; cbn; [|exact F2]. intros d f. unfold put. destruct (d =? td)%nat; [discriminate|apply F1].
    + (* open *)
      apply G; [discriminate|reflexivity|reflexivity|]. split; cbn; [|exact F2]. intros d f'. unfold put. destruct (d =? td)%nat; [|apply F1].
      intros X. injection X as <-. eapply F2; eauto.
    + (* creation *)
      cbn [dat nxt]. split; [lia|]. split; [|split; [|split]].
      * split; cbn.
        -- intros d f. unfold put. destruct (d =? td)%nat; [intros X; injection X as <-; lia|]. intros X. specialize (F1 _ _ X). lia.
        -- intros q f. unfold putn. destruct (list_eq_dec _ _ _); [intros X; injection X as <-; lia|]. intros X. specialize (F2 _ _ X). lia.
      * intros f L. rewrite put_other by lia. rewrite bytes_snoc, app_nil_r. auto.
      * intros f L. rewrite bytes_snoc, app_nil_r. destruct (Nat.eq_dec f (nxt s)) as [->|N]; [rewrite put_same; symmetry; apply H5; lia|].
        rewrite put_other by auto. apply H4. lia.
      * intros f L. rewrite bytes_snoc, app_nil_r. apply H5. lia.
    + apply G; [discriminate|reflexivity|reflexivity|]. split; cbn; [exact F1|]. intros q' f. unfold putn.
      destruct (list_eq_dec _ _ _); [discriminate|]. destruct (list_eq_dec _ _ _); [apply F2|apply F2].
    + apply G; [discriminate|reflexivity|reflexivity|]. split; cbn; [exact F1|]. intros q' f. unfold putn.
      destruct (list_eq_dec _ _ _); [discriminate|apply F2].
Qed.

(** Whatever the threads do, and however often the log is opened, rotated or renamed while they
    log: all that was said has been written, in the order in which it was said, message after
    message and without repetition, except the end of the message that is just being written; and
    a file contains what it contained before and what was written to it.  The only thing assumed
    is that write itself does not fail. *)
Theorem C141_nothing_is_lost : forall s0 tr s, at_rest s0 -> sane_files s0 -> runs s0 tr s ->
  (forall e, In e tr -> ~ write_fails e) ->
  said tr = written tr ++ rest s /\
  (forall i c, ~ In (ELost i c) tr) /\
  (forall f, (f < nxt s0)%nat -> dat s f = dat s0 f ++ bytes_to f tr) /\
  (forall f, new_file s0 f -> (f < nxt s)%nat -> dat s f = bytes_to f tr).
Proof.
  intros s0 tr s A Sn R NF. destruct (nothing_lost _ _ _ A R NF) as [H1 H2].
  destruct (contents _ _ _ Sn R) as (_ & _ & H3 & H4 & _). split; [exact H1|]. split; [exact H2|]. split; [exact H3|].
  intros f N L. apply H4. unfold new_file in N. lia.
Qed.
Print Assumptions C141_nothing_is_lost.

(** *** after a rotation *)

Lemma cstr_text : forall q r, ~ In 0 q -> cstr (q ++ 0 :: r) = q.
Proof.
  induction q as [|x q IH]; intros r N; [reflexivity|]. cbn. destruct (Z.eqb_spec x 0) as [->|_]; [elim N; left; reflexivity|].
  f_equal. apply IH. intros X. apply N. right. exact X.
Qed.
Lemma upd_upd_back : forall (t : list Z) p x y, nth_error t p = Some x -> upd (upd t p y) p x = t.
Proof. induction t as [|a t IH]; intros [|p] x y H; cbn in *; try discriminate; [congruence|]. f_equal. eauto. Qed.
Lemma upd_cut : forall (t : list Z) p x, nth_error t p = Some x -> upd t p 0 = firstn p t ++ 0 :: skipn (S p) t.
Proof. induction t as [|a t IH]; intros [|p] x H; cbn in *; try discriminate; [reflexivity|]. f_equal. eauto. Qed.

(** the file opened in an execution, and that the name stood for it then *)
Definition opened_as (s1 : sys) (tr : list ev) (i : nat) (q : list Z) (f : nat) : Prop :=
  exists tra trb td s', tr = tra ++ EOpen i q td f :: trb /\ runs s1 (tra ++ [EOpen i q td f]) s' /\ nam s' q = Some (File f).
Lemma opened_as_snoc : forall s1 tr i q f e, opened_as s1 tr i q f -> opened_as s1 (tr ++ [e]) i q f.
Proof.
  intros s1 tr i q f e (tra & trb & td & s' & -> & R & N). exists tra, (trb ++ [e]), td, s'. split; [|auto].
  rewrite <- app_assoc. reflexivity.
Qed.

(** thread [i] alone is in log_create *)
Definition Alone (i b : nat) (lv : Z) (s1 : sys) (tr : list ev) (s : sys) : Prop :=
  (forall j, j <> i -> held (thr s j) = None /\ (thr s j = Out \/ is_fmt (thr s j) = true)) /\
  (forall b', b' <> b -> buf s b' = buf s1 b') /\
  match thr s i with
  | Scan b' lv' p => b' = b /\ lv' = lv /\ (1 <= p)%nat /\ buf s b = buf s1 b
  | Cut b' lv' p => b' = b /\ lv' = lv /\ (1 <= p)%nat /\ buf s b = buf s1 b /\ nth_error (buf s1 b) p = Some 47
  | Mk b' lv' p | Back b' lv' p _ => b' = b /\ lv' = lv /\ (1 <= p)%nat /\ buf s b = upd (buf s1 b) p 0 /\ nth_error (buf s1 b) p = Some 47
  | Opn b' lv' => b' = b /\ lv' = lv /\ buf s b = buf s1 b
  | Dup lv' td => lv' = lv /\ buf s b = buf s1 b /\ exists f, fd s td = Some f /\ opened_as s1 tr i (cstr (buf s1 b)) f
  | Cls lv' td => lv' = lv /\ buf s b = buf s1 b /\ td <> 2%nat /\ exists f, fd s 2 = Some f /\ opened_as s1 tr i (cstr (buf s1 b)) f
  | Lev lv' => lv' = lv /\ buf s b = buf s1 b /\ exists f, fd s 2 = Some f /\ opened_as s1 tr i (cstr (buf s1 b)) f
  | Rtn rc => buf s b = buf s1 b /\ (rc = 2 -> lev s = lv /\ exists f, fd s 2 = Some f /\ opened_as s1 tr i (cstr (buf s1 b)) f)
  | Out | Fmt _ => False
  end.

Lemma alone_step : forall i b lv s1 tr s e s', WInv s -> runs s1 tr s -> Alone i b lv s1 tr s -> step s e s' ->
  ~ is_call e -> (forall rc, e <> ERet i rc) -> Alone i b lv s1 (tr ++ [e]) s'.
Proof.
  intros i b lv s1 tr s e s' W R (A1 & A2 & A3) S NC NR.
  (* another thread, which can only write *)
  assert (O : forall j c, j <> i -> (thr s j = Out \/ is_fmt (thr s j) = true) -> (c = Out \/ is_fmt c = true) ->
     forall dt l, Alone i b lv s1 (tr ++ [e]) (mkS (fd s) (nam s) dt (nxt s) (buf s) (lev s) l (put (thr s) j c))).
  { intros j c N _ C dt l. split; [|split].
    - intros k Nk. cbn [thr]. destruct (Nat.eq_dec k j) as [->|]; [rewrite put_same|rewrite put_other by auto; auto].
      split; [|exact C]. destruct C as [->|C]; [reflexivity|]. destruct c; try discriminate; reflexivity.
    - exact A2.
    - cbn [thr]. rewrite put_other by auto. destruct (thr s i); auto; cbn [buf fd lev] in *.
      + destruct A3 as (? & ? & f & ? & X). repeat (split; [assumption|]). exists f. split; [assumption|]. now apply opened_as_snoc.
      + destruct A3 as (? & ? & ? & f & ? & X). repeat (split; [assumption|]). exists f. split; [assumption|]. now apply opened_as_snoc.
      + destruct A3 as (? & ? & f & ? & X). repeat (split; [assumption|]). exists f. split; [assumption|]. now apply opened_as_snoc.
      + destruct A3 as (? & X). split; [assumption|]. intros Q. destruct (X Q) as (? & f & ? & Y). split; [assumption|].
        exists f. split; [assumption|]. now apply opened_as_snoc. }
  (* another process *)
  assert (P : forall n, Alone i b lv s1 (tr ++ [e]) (mkS (fd s) n (dat s) (nxt s) (buf s) (lev s) (lck s) (thr s))).
  { intros n. split; [exact A1|]. split; [exact A2|]. cbn [thr]. destruct (thr s i); auto; cbn [buf fd lev] in *.
    + destruct A3 as (? & ? & f & ? & X). repeat (split; [assumption|]). exists f. split; [assumption|]. now apply opened_as_snoc.
    + destruct A3 as (? & ? & ? & f & ? & X). repeat (split; [assumption|]). exists f. split; [assumption|]. now apply opened_as_snoc.
    + destruct A3 as (? & ? & f & ? & X). repeat (split; [assumption|]). exists f. split; [assumption|]. now apply opened_as_snoc.
    + destruct A3 as (? & X). split; [assumption|]. intros Q. destruct (X Q) as (? & f & ? & Y). split; [assumption|].
      exists f. split; [assumption|]. now apply opened_as_snoc. }
  pose proof W as (W1 & W2 & W3 & W4). pose proof S as S0.
  cases S; try apply P; try (elim NC; exact I).
  (* whose step is it? *)
  all: match goal with H : thr _ ?k = _ |- _ => destruct (Nat.eq_dec k i) as [->|Nk] end.
  all: try match goal with N : ?k <> _, H : thr _ ?k = _ |- _ =>
    destruct (A1 k N) as [B1 B2]; rewrite ?H in B1, B2; cbn [held is_fmt] in B1, B2;
    first [discriminate|destruct B2; discriminate|apply O; [exact N|rewrite H; auto|cbn [is_fmt]; auto]]
  end.
  all: match goal with H : thr _ _ = _ |- _ => rewrite H in A3 end; try contradiction.
  all: split; [intros j Nj; cbn [thr]; rewrite put_other by auto; apply A1; exact Nj|].
  all: split; [try exact A2|cbn [thr buf fd lev]; rewrite put_same].
  - destruct A3 as (-> & -> & L & B). rewrite B in *.
    destruct (z =? 0); [auto|]. destruct (Z.eqb_spec z 47) as [->|]; [auto|]. repeat split; auto.
  - cbn [buf]. intros b' Nb. destruct A3 as (-> & _). rewrite put_other by auto. auto.
  - destruct A3 as (-> & -> & L & B & H). rewrite put_same, B. auto.
  - exact A3.
  - cbn [buf]. intros b' Nb. destruct A3 as (-> & _). rewrite put_other by auto. auto.
  - destruct A3 as (-> & -> & L & B & H).
    assert (X : put (buf s) b (upd (buf s b) p 47) b = buf s1 b) by (rewrite put_same, B; apply upd_upd_back; exact H).
    destruct ok; [repeat split; auto|]. split; [exact X|discriminate].
  - destruct A3 as (-> & B & f & F & X). split; [reflexivity|]. split; [exact B|].
    split; [eapply (W3 i); rewrite E; reflexivity|]. exists f. rewrite put_same. split; [exact F|]. now apply opened_as_snoc.
  - destruct A3 as (-> & B & N & f & F & X). split; [reflexivity|]. split; [exact B|]. exists f. rewrite put_other by auto.
    split; [exact F|]. now apply opened_as_snoc.
  - destruct A3 as (-> & B & f & F & X). split; [exact B|]. intros _. split; [reflexivity|]. exists f. split; [exact F|]. now apply opened_as_snoc.
  - elim (NR rc eq_refl).
  - destruct A3 as (-> & -> & L & B & H). auto.
  - destruct A3 as (-> & -> & B). split; [exact B|discriminate].
  - destruct A3 as (-> & B & _). split; [exact B|discriminate].
  - destruct A3 as (-> & B & _). split; [exact B|discriminate].
  - destruct A3 as (-> & -> & B). destruct (Nat.eqb_spec td 2) as [->|Nt]; [congruence|].
    split; [reflexivity|]. split; [exact B|]. exists f. rewrite put_same. split; [reflexivity|].
    rewrite B in *. eexists tr, [], td, _. split; [reflexivity|]. split; [eapply runs_snoc; eauto|]. cbn. assumption.
  - destruct A3 as (-> & -> & B). destruct (Nat.eqb_spec td 2) as [->|Nt]; [congruence|].
    split; [reflexivity|]. split; [exact B|]. exists (nxt s). rewrite put_same. split; [reflexivity|].
    rewrite B in *. eexists tr, [], td, _. split; [reflexivity|]. split; [eapply runs_snoc; eauto|]. cbn. apply putn_same.
Qed.
Lemma runs_last : forall s0 tr e s, runs s0 (tr ++ [e]) s -> exists s', runs s0 tr s' /\ step s' e s.
Proof.
  intros s0 tr e s R. remember (tr ++ [e]) as t eqn:Q. destruct R as [|t' s' e' s'' R S]; [destruct tr; discriminate|].
  apply app_inj_tail in Q. destruct Q as [-> ->]. eauto.
Qed.
Lemma alone_start : forall s i b lv s', quiet s -> step s (ECall i b lv) s' -> Alone i b lv s [ECall i b lv] s'.
Proof.
  intros s i b lv s' Q S.
  assert (A : s' = go s i (Scan b lv 1) -> Alone i b lv s [ECall i b lv] s').
  { intros ->. unfold go. split; [|split].
    - intros j N. cbn [thr]. rewrite put_other by auto. destruct (Q j) as [->|[cs ->]]; cbn; auto.
    - reflexivity.
    - cbn [thr buf]. rewrite put_same. auto. }
  apply A. destruct S as [a F]. destruct a; cbn [fire] in F; unfold advance, failing, opened in F;
  repeat match type of F with match ?x with _ => _ end = Some _ => destruct x; try discriminate F end;
  injection F; intros; subst; try discriminate; reflexivity.
Qed.
Lemma alone_runs : forall s1 i b lv tr2 s, WInv s1 -> quiet s1 -> runs s1 (ECall i b lv :: tr2) s ->
  (forall e, In e tr2 -> ~ is_call e /\ forall rc, e <> ERet i rc) -> Alone i b lv s1 (ECall i b lv :: tr2) s.
Proof.
  intros s1 i b lv tr2. induction tr2 as [|e tr2 IH] using rev_ind; intros s W Q R H.
  - destruct (runs_last s1 [] _ _ R) as (s' & R' & S). assert (s' = s1) as ->.
    { remember (@nil ev) as t eqn:T in R'. destruct R' as [|t' ? ? ? ? ?]; [reflexivity|destruct t'; discriminate]. }
    apply alone_start; auto.
  - change (ECall i b lv :: tr2 ++ [e]) with ((ECall i b lv :: tr2) ++ [e]) in *.
    destruct (runs_last _ _ _ _ R) as (s' & R' & S). apply not_in_snoc in H. destruct H as [H (H1 & H2)].
    apply (alone_step i b lv s1 (ECall i b lv :: tr2) s' e s); auto. exact (winv_runs _ _ _ W R').
Qed.
(** without log_create the descriptor stays where it is *)
Lemma quiet_runs : forall s tr s' f, quiet s -> fd s 2 = Some f -> runs s tr s' -> (forall e, In e tr -> ~ is_call e) ->
  quiet s' /\ fd s' 2 = Some f /\ (forall j g c, In (EWrite j g c) tr -> g = f).
Proof.
  intros s tr s' f Q F R. induction R as [|tr s' e s'' R IH S]; intros H.
  - split; [exact Q|]. split; [exact F|]. intros j g c [].
  - apply not_in_snoc in H. destruct H as [H HE]. destruct (IH H) as (Q' & F' & X). clear IH.
    assert (G : forall j c (d : nat -> option nat) n dt nx bf l k, c = Out \/ (exists cs, c = Fmt cs) ->
      quiet (mkS d n dt nx bf l k (put (thr s') j c))).
    { intros j c d n dt nx bf l k C i. cbn [thr]. destruct (Nat.eq_dec i j) as [->|N]; [rewrite put_same; exact C|rewrite put_other by auto; apply Q']. }
    assert (Y : forall j g c, (forall i' g' c', e <> EWrite i' g' c') -> In (EWrite j g c) (tr ++ [e]) -> g = f).
    { intros j g c N I. apply in_app_or in I. destruct I as [I|[I|[]]]; [eauto|elim (N _ _ _ I)]. }
    cases S; try (elim HE; exact I);
      try match goal with E : thr _ ?k = _ |- _ => destruct (Q' k) as [B|[cs' B]]; rewrite E in B; try discriminate B end.
    + split; [apply G; eauto|]. split; [exact F'|]. intros. eapply Y; eauto. discriminate.
    + split; [apply G; eauto|]. split; [exact F'|]. intros. eapply Y; eauto. discriminate.
    + split; [apply G; eauto|]. split; [cbn; congruence|]. intros j g c I. apply in_app_or in I. destruct I as [I|[I|[]]]; [eauto|]. congruence.
    + congruence.
    + split; [apply G; eauto|]. split; [exact F'|]. intros. eapply Y; eauto. discriminate.
    + split; [exact Q'|]. split; [exact F'|]. intros. eapply Y; eauto. discriminate.
    + split; [exact Q'|]. split; [exact F'|]. intros. eapply Y; eauto. discriminate.
Qed.

(** A log_create that returns 2 while no other one is running has opened the file that its path
    named at that moment; the level is the one given; and everything written from its return to
    the next call of log_create, by any thread, goes to that file. *)
Theorem C141_after_rotation_partial : forall s0 tr1 s1 i b lv tr2 s2, at_rest s0 -> runs s0 tr1 s1 -> quiet s1 ->
  runs s1 (ECall i b lv :: tr2 ++ [ERet i 2]) s2 ->
  (forall e, In e tr2 -> ~ is_call e /\ forall rc, e <> ERet i rc) ->
  lev s2 = lv /\ (forall b', buf s2 b' = buf s1 b') /\
  exists f, opened_as s1 (ECall i b lv :: tr2) i (cstr (buf s1 b)) f /\
    forall tr3 s3, runs s2 tr3 s3 -> (forall e, In e tr3 -> ~ is_call e) ->
      forall j g c, In (EWrite j g c) tr3 -> g = f.
Proof.
  intros s0 tr1 s1 i b lv tr2 s2 A R1 Q R H.
  assert (W : WInv s1) by (eapply winv_runs; [apply winv_rest; exact A|exact R1]).
  change (ECall i b lv :: tr2 ++ [ERet i 2]) with ((ECall i b lv :: tr2) ++ [ERet i 2]) in R.
  destruct (runs_last _ _ _ _ R) as (s & R' & S). pose proof (alone_runs _ _ _ _ _ _ W Q R' H) as (A1 & A2 & A3).
  assert (X : thr s i = Rtn 2 /\ s2 = go s i Out).
  { destruct S as [a F]. destruct a; cbn [fire] in F; unfold advance, failing, opened in F;
    repeat match type of F with match ?x with _ => _ end = Some _ => destruct x eqn:?; try discriminate F end;
    injection F; intros; subst; try discriminate.
    match goal with K : ERet _ _ = ERet _ _ |- _ => injection K; intros; subst; auto | _ => auto end. }
  destruct X as [X ->]. rewrite X in A3. destruct A3 as (B & A3). destruct (A3 eq_refl) as (L & f & F & O).
  cbn [lev buf go]. split; [exact L|]. split.
  { intros b'. destruct (Nat.eq_dec b' b) as [->|N]; auto. }
  exists f. split; [exact O|]. intros tr3 s3 R3 H3. eapply quiet_runs; [| |exact R3|exact H3].
  - intros j. cbn [thr go]. destruct (Nat.eq_dec j i) as [->|N]; [rewrite put_same; auto|]. rewrite put_other by auto.
    destruct (A1 j N) as (_ & [K|K]); [auto|]. destruct (thr s j); try discriminate. eauto.
  - exact F.
Qed.
Print Assumptions C141_after_rotation_partial.

(** *** descriptors *)

(** When no dup2 fails, rotation leaves no descriptor behind: as soon as nobody is in log_create
    the open descriptors are those of the beginning. *)
Lemma fds_inv : forall s0 tr s, at_rest s0 -> runs s0 tr s -> (forall e, In e tr -> ~ dup_fails e) ->
  (forall i td, held (thr s i) = Some td -> fd s0 td = None) /\
  (forall d, d <> 2%nat -> fd s d = fd s0 d \/ exists i, held (thr s i) = Some d).
Proof.
  intros s0 tr s A R. induction R as [|tr s e s' R IH S]; intros H.
  - split; [|auto]. intros i td. destruct A as (A & _). rewrite A. discriminate.
  - apply not_in_snoc in H. destruct H as [H HE]. destruct (IH H) as (I1 & I2). clear IH.
    pose proof (winv_runs _ _ _ (winv_rest _ A) R) as W.
    assert (G : forall j c, held c = held (thr s j) ->
      (forall i td, held (put (thr s) j c i) = Some td -> fd s0 td = None) /\
      (forall d, d <> 2%nat -> fd s d = fd s0 d \/ exists i, held (put (thr s) j c i) = Some d)).
    { intros j c C. assert (Y : forall i, held (put (thr s) j c i) = held (thr s i)).
      { intros i. destruct (Nat.eq_dec i j) as [->|N]; [now rewrite put_same|now rewrite put_other by auto]. }
      split; [intros i td; rewrite Y; apply I1|]. intros d N. destruct (I2 d N) as [?|[i ?]]; [auto|]. right. exists i. now rewrite Y. }
    cases S; pose proof W as (W1 & W2 & W3 & W4); try (apply G; rt; reflexivity); try (elim HE; exact I); try (split; assumption).
    + apply G. rt. destruct (z =? 0), (z =? 47); reflexivity.
    + apply G. rt. destruct ok; reflexivity.
    + cbn [fd thr]. split.
      * intros j d. destruct (Nat.eq_dec j i) as [->|N]; [rewrite put_same; intros X; apply (I1 i); rewrite E; exact X|rewrite put_other by auto; apply I1].
      * intros d N. rewrite put_other by auto. destruct (I2 d N) as [?|[j K]]; [auto|]. right. exists j.
        destruct (Nat.eq_dec j i) as [->|Nj]; [rewrite put_same; rewrite E in K; exact K|rewrite put_other by auto; exact K].
    + cbn [fd thr]. split.
      * intros j d. destruct (Nat.eq_dec j i) as [->|N]; [rewrite put_same; discriminate|rewrite put_other by auto; apply I1].
      * intros d N. destruct (Nat.eq_dec d td) as [->|Nd]; [left; rewrite put_same; symmetry; apply (I1 i); rewrite E; reflexivity|].
        rewrite put_other by auto. destruct (I2 d N) as [?|[j K]]; [auto|]. right. exists j.
        destruct (Nat.eq_dec j i) as [->|Nj]; [rewrite E in K; cbn in K; congruence|rewrite put_other by auto; exact K].
    + cbn [fd thr]. split.
      * intros j d. destruct (Nat.eq_dec j i) as [->|N]; [rewrite put_same; discriminate|rewrite put_other by auto; apply I1].
      * intros d N. destruct (Nat.eq_dec d td) as [->|Nd]; [left; rewrite put_same; symmetry; apply (I1 i); rewrite E; reflexivity|].
        rewrite put_other by auto. destruct (I2 d N) as [?|[j K]]; [auto|]. right. exists j.
        destruct (Nat.eq_dec j i) as [->|Nj]; [rewrite E in K; cbn in K; congruence|rewrite put_other by auto; exact K].
    + assert (T : td <> 2%nat) by (intros ->; congruence). destruct (Nat.eqb_spec td 2); [contradiction|]. cbn [fd thr].
      assert (Z0 : fd s0 td = None). { destruct (I2 td T) as [?|[j K]]; [congruence|]. eauto. }
      split.
      * intros j d. destruct (Nat.eq_dec j i) as [->|N]; [rewrite put_same; cbn; congruence|rewrite put_other by auto; apply I1].
      * intros d N. destruct (Nat.eq_dec d td) as [->|Nd]; [right; exists i; rewrite put_same; reflexivity|].
        rewrite put_other by auto. destruct (I2 d N) as [?|[j K]]; [auto|]. right. exists j.
        destruct (Nat.eq_dec j i) as [->|Nj]; [rewrite E in K; cbn in K; congruence|rewrite put_other by auto; exact K].
    + assert (T : td <> 2%nat) by (intros ->; congruence). destruct (Nat.eqb_spec td 2); [contradiction|]. cbn [fd thr].
      assert (Z0 : fd s0 td = None). { destruct (I2 td T) as [?|[j K]]; [congruence|]. eauto. }
      split.
      * intros j d. destruct (Nat.eq_dec j i) as [->|N]; [rewrite put_same; cbn; congruence|rewrite put_other by auto; apply I1].
      * intros d N. destruct (Nat.eq_dec d td) as [->|Nd]; [right; exists i; rewrite put_same; reflexivity|].
        rewrite put_other by auto. destruct (I2 d N) as [?|[j K]]; [auto|]. right. exists j.
        destruct (Nat.eq_dec j i) as [->|Nj]; [rewrite E in K; cbn in K; congruence|rewrite put_other by auto; exact K].
Qed.
Theorem C141_no_descriptor_left : forall s0 tr s, at_rest s0 -> runs s0 tr s -> (forall e, In e tr -> ~ dup_fails e) -> quiet s ->
  fd s 2 <> None /\ forall d, d <> 2%nat -> fd s d = fd s0 d.
Proof.
  intros s0 tr s A R H Q. split; [apply (winv_runs _ _ _ (winv_rest _ A) R)|]. intros d N.
  destruct (fds_inv _ _ _ A R H) as (_ & I2). destruct (I2 d N) as [?|[i K]]; [assumption|].
  destruct (Q i) as [X|[cs X]]; rewrite X in K; discriminate.
Qed.
Print Assumptions C141_no_descriptor_left.

(** ** C142 *)

Local Arguments dirs_to : simpl never.
Definition uses (c : pc) : option nat :=
  match c with Scan b _ _ | Cut b _ _ | Mk b _ _ | Back b _ _ _ | Opn b _ => Some b | _ => None end.
Definition cutting (c : pc) : option (nat * nat) :=
  match c with Mk b _ p | Back b _ p _ => Some (b, p) | _ => None end.
Definition idle (c : pc) : bool := match c with Out | Fmt _ => true | _ => false end.
Definition at_slash (t : list Z) (p : nat) : Prop := (1 <= p)%nat /\ nth_error t p = Some 47.
(** what thread [i] has made so far, by where it is *)
Definition place (s0 : sys) (c : pc) (m : list (list Z)) : Prop :=
  match c with
  | Scan b _ p => (1 <= p < length (buf s0 b))%nat /\ m = dirs_to (removelast (buf s0 b)) p
  | Cut b _ p | Mk b _ p | Back b _ p false => at_slash (buf s0 b) p /\ m = dirs_to (removelast (buf s0 b)) p
  | Back b _ p true => at_slash (buf s0 b) p /\ m = dirs_to (removelast (buf s0 b)) (S p)
  | Opn b _ => m = dirs (removelast (buf s0 b))
  | _ => True
  end.
Definition TInv (s0 : sys) (tr : list ev) (s : sys) : Prop :=
  (forall i b, uses (thr s i) = Some b -> text_of tr i = Some b) /\
  (forall i j b, text_of tr i = Some b -> text_of tr j = Some b -> i = j) /\
  (forall b, buf s b = buf s0 b /\ (forall i p, cutting (thr s i) <> Some (b, p)) \/
     exists i p, cutting (thr s i) = Some (b, p) /\ buf s b = upd (buf s0 b) p 0) /\
  (forall i, place s0 (thr s i) (made tr i)) /\
  (forall i, idle (thr s i) = true -> text_of tr i = None).

Lemma text_of_snoc : forall tr e i, text_of (tr ++ [e]) i =
  match e with ECall j b _ => if Nat.eqb j i then Some b else text_of tr i | ERet j _ => if Nat.eqb j i then None else text_of tr i | _ => text_of tr i end.
Proof. intros. unfold text_of. rewrite fold_left_app. reflexivity. Qed.
Lemma made_snoc : forall tr e i, made (tr ++ [e]) i =
  match e with ECall j _ _ => if Nat.eqb j i then [] else made tr i | EMkdir j d => if Nat.eqb j i then made tr i ++ [d] else made tr i | _ => made tr i end.
Proof. intros. unfold made. rewrite fold_left_app. reflexivity. Qed.
Lemma dirs_to_S : forall q p, (1 <= p)%nat -> dirs_to q (S p) = dirs_to q p ++ (if nth p q 0 =? 47 then [firstn p q] else []).
Proof.
  intros q p L. unfold dirs_to. replace (S p - 1)%nat with (S (p - 1)) by lia. rewrite seq_S, filter_app, map_app. f_equal.
  replace (1 + (p - 1))%nat with p by lia. cbn. destruct (nth p q 0 =? 47); reflexivity.
Qed.
Lemma cstr_none : forall q r, ~ In 0 q -> cstr (q ++ 0 :: r) = q.
Proof.
  induction q as [|x q IH]; intros r H; cbn; [reflexivity|]. destruct (Z.eqb_spec x 0) as [->|N]; [exfalso; apply H; left; reflexivity|].
  f_equal. apply IH. intros X. apply H. right. exact X.
Qed.
Lemma upd_app_at : forall (l : list Z) p v x, nth_error l p = Some x -> upd l p v = firstn p l ++ v :: skipn (S p) l.
Proof.
  induction l as [|y l IH]; intros [|p] v x H; cbn in *; try discriminate; [reflexivity|]. f_equal. eapply IH; eauto.
Qed.
Lemma upd_back : forall (l : list Z) p x, nth_error l p = Some x -> upd (upd l p 0) p x = l.
Proof. induction l as [|y l IH]; intros [|p] x H; cbn in *; try discriminate; [congruence|]. f_equal. auto. Qed.
Lemma firstn_rl : forall (q : list Z) p, (p <= length q)%nat -> firstn p (q ++ [0]) = firstn p q.
Proof. intros. rewrite firstn_app. replace (p - length q)%nat with 0%nat by lia. cbn. apply app_nil_r. Qed.
(** the text up to the slash that has been overwritten *)
Lemma cstr_cut : forall q p, ~ In 0 q -> nth_error (q ++ [0]) p = Some 47 -> cstr (upd (q ++ [0]) p 0) = firstn p q.
Proof.
  intros q p H N. assert (L : (p < length q)%nat).
  { destruct (le_lt_dec (length q) p) as [G|G]; [|exact G]. rewrite nth_error_app2 in N by lia. destruct (p - length q)%nat as [|[|?]]; discriminate. }
  rewrite (upd_app_at _ _ _ _ N), firstn_rl by lia. apply cstr_none. intros I. apply H. rewrite <- (firstn_skipn p q). apply in_or_app. left. exact I.
Qed.
Lemma rl_last : forall (q : list Z), removelast (q ++ [0]) = q.
Proof. intros. apply removelast_last. Qed.
Lemma nth_in : forall (q : list Z) p x, nth_error (q ++ [0]) p = Some x -> x <> 0 -> (p < length q)%nat /\ nth p q 0 = x.
Proof.
  intros q p x N H. destruct (le_lt_dec (length q) p) as [G|G].
  - rewrite nth_error_app2 in N by lia. destruct (p - length q)%nat as [|[|?]]; cbn in N; congruence.
  - split; [exact G|]. rewrite nth_error_app1 in N by exact G. apply nth_error_nth. exact N.
Qed.

Lemma own_prefix : forall tr e, own_texts (tr ++ [e]) -> own_texts tr.
Proof. intros tr e H tr1 tr2 i b lv E. apply (H tr1 (tr2 ++ [e]) i b lv). rewrite E, <- app_assoc. reflexivity. Qed.

Lemma tinv_rest : forall s, at_rest s -> TInv s [] s.
Proof.
  intros s (H & _). split; [intros i b; rewrite H; discriminate|]. split; [intros i j b; cbn; discriminate|].
  split; [intros b; left; split; [reflexivity|intros i p; rewrite H; discriminate]|].
  split; [intros i; rewrite H; exact I|reflexivity].
Qed.

(** nothing in the texts changes, one thread moves outside the calls that use them *)
Lemma tinv_move : forall s0 tr s e i c d n dt nx l lk, TInv s0 tr s ->
  (forall j, text_of (tr ++ [e]) j = text_of tr j) -> (forall j, made (tr ++ [e]) j = made tr j) ->
  (forall b, uses c = Some b -> uses (thr s i) = Some b) -> cutting c = cutting (thr s i) ->
  place s0 c (made tr i) -> (idle c = true -> idle (thr s i) = true) ->
  TInv s0 (tr ++ [e]) (mkS d n dt nx (buf s) l lk (put (thr s) i c)).
Proof.
  intros s0 tr s e i c d n dt nx l lk (T1 & T2 & T3 & T4 & T5) Ht Hm Hu Hc Hp Ho. unfold TInv. cbn [buf thr].
  split; [|split; [|split; [|split]]].
  - intros j b H. rewrite Ht. destruct (Nat.eq_dec j i) as [->|N]; [rewrite put_same in H; auto|rewrite put_other in H by auto; auto].
  - intros j k b. rewrite !Ht. apply T2.
  - intros b. destruct (T3 b) as [[A B]|(j & p & A & B)].
    + left. split; [exact A|]. intros j p. destruct (Nat.eq_dec j i) as [->|N]; [rewrite put_same, Hc; apply B|rewrite put_other by auto; apply B].
    + right. exists j, p. split; [|exact B]. destruct (Nat.eq_dec j i) as [->|N]; [rewrite put_same, Hc; exact A|rewrite put_other by auto; exact A].
  - intros j. rewrite Hm. destruct (Nat.eq_dec j i) as [->|N]; [rewrite put_same; exact Hp|rewrite put_other by auto; apply T4].
  - intros j. rewrite Ht. destruct (Nat.eq_dec j i) as [->|N]; [rewrite put_same; auto|rewrite put_other by auto; apply T5].
Qed.

(** the text a thread reads is the one it was given, or the one it has cut *)
Lemma text_plain : forall s0 tr s i b, TInv s0 tr s -> uses (thr s i) = Some b -> cutting (thr s i) = None -> buf s b = buf s0 b.
Proof.
  intros s0 tr s i b (T1 & T2 & T3 & T4 & T5) U C. destruct (T3 b) as [[A _]|(j & p & A & _)]; [exact A|]. exfalso.
  assert (U' : uses (thr s j) = Some b) by (destruct (thr s j); cbn in *; congruence).
  assert (j = i) by (eapply T2; eauto). subst. congruence.
Qed.
Lemma text_cut : forall s0 tr s i b p, TInv s0 tr s -> cutting (thr s i) = Some (b, p) -> buf s b = upd (buf s0 b) p 0.
Proof.
  intros s0 tr s i b p (T1 & T2 & T3 & T4 & T5) C. destruct (T3 b) as [[_ A]|(j & p' & A & B)]; [exfalso; eapply A; eauto|].
  assert (U : forall k x, cutting (thr s k) = Some (b, x) -> uses (thr s k) = Some b) by (intros k x; destruct (thr s k); cbn; congruence).
  assert (j = i) by (eapply T2; eauto). subst. congruence.
Qed.

Lemma tinv_step : forall s0 tr s e s', (forall b, path_text (buf s0 b)) -> TInv s0 tr s -> own_texts (tr ++ [e]) -> step s e s' ->
  TInv s0 (tr ++ [e]) s'.
Proof.
  intros s0 tr s e s' P T O S. cases S; pose proof T as (T1 & T2 & T3 & T4 & T5).
  all: try (apply tinv_move; [exact T|intros; rewrite text_of_snoc; reflexivity|intros; rewrite made_snoc; reflexivity|rt; cbn; congruence|rt; reflexivity|exact I|rt; cbn; congruence]; fail).
  (* the calls *)
  1-2: assert (Z0 : text_of tr i = None) by (apply T5; rewrite E; reflexivity);
    unfold TInv; cbn [buf thr]; (split; [|split; [|split; [|split]]]).
  1, 6: intros j b' H; rewrite text_of_snoc; destruct (Nat.eqb_spec i j) as [<-|N];
    [rewrite put_same in H; cbn in H; congruence|rewrite put_other in H by auto; auto].
  1, 5: intros j k b'; rewrite !text_of_snoc;
    assert (Y : forall h, text_of tr h <> Some b) by (intros h; eapply O; reflexivity);
    destruct (Nat.eqb_spec i j) as [<-|Nj], (Nat.eqb_spec i k) as [<-|Nk]; intros Hj Hk; auto; try (eapply T2; eauto; fail);
    exfalso; [apply (Y k); congruence|apply (Y j); congruence].
  1, 4: intros b'; destruct (T3 b') as [[A B]|(j & p & A & B)];
    [left; split; [exact A|]; intros j p; destruct (Nat.eq_dec j i) as [->|N]; [rewrite put_same; discriminate|rewrite put_other by auto; apply B]
    |right; exists j, p; split; [|exact B]; destruct (Nat.eq_dec j i) as [->|N]; [rewrite E in A; discriminate|rewrite put_other by auto; exact A]].
  1, 3: intros j; rewrite made_snoc; destruct (Nat.eqb_spec i j) as [<-|N];
    [rewrite put_same; cbn; split; [|reflexivity]; destruct (P b) as (q & -> & Q & _); rewrite app_length; cbn; destruct q; [congruence|cbn; lia]
    |rewrite put_other by auto; apply T4].
  1, 2: intros j; rewrite text_of_snoc; destruct (Nat.eqb_spec i j) as [<-|N]; [rewrite put_same; discriminate|rewrite put_other by auto; apply T5].
  (* the next character *)
  - assert (B : buf s b = buf s0 b) by (eapply text_plain; [exact T|rewrite E; reflexivity|rewrite E; reflexivity]).
    pose proof (T4 i) as Pl. rewrite E in Pl. cbn in Pl. destruct Pl as (L & M). rewrite B in E0.
    destruct (P b) as (q & Q & Q1 & Q2). rewrite Q in *. rewrite rl_last in M. rewrite app_length in L. cbn in L.
    apply tinv_move; [exact T|intros; rewrite text_of_snoc; reflexivity|intros; rewrite made_snoc; reflexivity| | | |].
    + rt. destruct (z =? 0); [cbn; auto|]. destruct (z =? 47); cbn; auto.
    + rt. destruct (z =? 0); [reflexivity|]. destruct (z =? 47); reflexivity.
    + destruct (Z.eqb_spec z 0) as [->|N0].
      * cbn. rewrite Q, rl_last. assert (X : p = length q).
        { destruct (le_lt_dec (length q) p) as [G|G]; [lia|]. rewrite nth_error_app1 in E0 by exact G. apply nth_error_In in E0. contradiction. }
        rewrite X in M. exact M.
      * destruct (nth_in _ _ _ E0 N0) as (L1 & L2). destruct (Z.eqb_spec z 47) as [->|N1].
        -- cbn. rewrite Q, rl_last. split; [split; [lia|exact E0]|exact M].
        -- cbn. rewrite Q, rl_last, app_length. cbn. split; [lia|]. rewrite dirs_to_S by lia. rewrite L2.
           destruct (Z.eqb_spec z 47); [contradiction|]. rewrite app_nil_r. exact M.
    + rt. destruct (z =? 0); [discriminate|]. destruct (z =? 47); discriminate.
  (* the slash is overwritten *)
  - assert (B : buf s b = buf s0 b) by (eapply text_plain; [exact T|rewrite E; reflexivity|rewrite E; reflexivity]).
    pose proof (T4 i) as Pl. rewrite E in Pl. unfold TInv. cbn [buf thr]. split; [|split; [|split; [|split]]].
    + intros j b' H. rewrite text_of_snoc. destruct (Nat.eq_dec j i) as [->|N]; [rewrite put_same in H; apply T1; rewrite E; exact H|rewrite put_other in H by auto; auto].
    + intros j k b'. rewrite !text_of_snoc. apply T2.
    + intros b'. destruct (Nat.eq_dec b' b) as [->|Nb].
      * right. exists i, p. rewrite !put_same, B. split; reflexivity.
      * rewrite (put_other _ (buf s)) by auto. destruct (T3 b') as [[A B']|(j & p' & A & B')].
        -- left. split; [exact A|]. intros j p'. destruct (Nat.eq_dec j i) as [->|N]; [rewrite put_same; cbn; congruence|rewrite put_other by auto; apply B'].
        -- right. exists j, p'. split; [|exact B']. destruct (Nat.eq_dec j i) as [->|N]; [rewrite E in A; discriminate|rewrite put_other by auto; exact A].
    + intros j. rewrite made_snoc. destruct (Nat.eq_dec j i) as [->|N]; [rewrite put_same; exact Pl|rewrite put_other by auto; apply T4].
    + intros j. rewrite text_of_snoc. destruct (Nat.eq_dec j i) as [->|N]; [rewrite put_same; discriminate|rewrite put_other by auto; apply T5].
  (* mkdir *)
  - assert (B : buf s b = upd (buf s0 b) p 0) by (eapply text_cut; [exact T|rewrite E; reflexivity]).
    pose proof (T4 i) as Pl. rewrite E in Pl. cbn in Pl. destruct Pl as ((L & N) & M). destruct (P b) as (q & Q & Q1 & Q2).
    unfold TInv. cbn [buf thr]. split; [|split; [|split; [|split]]].
    + intros j b' H. rewrite text_of_snoc. destruct (Nat.eq_dec j i) as [->|Nj]; [rewrite put_same in H; apply T1; rewrite E; exact H|rewrite put_other in H by auto; auto].
    + intros j k b'. rewrite !text_of_snoc. apply T2.
    + intros b'. destruct (T3 b') as [[A B']|(j & p' & A & B')].
      * left. split; [exact A|]. intros j p'. destruct (Nat.eq_dec j i) as [->|Nj]; [rewrite put_same; specialize (B' i p'); rewrite E in B'; exact B'|rewrite put_other by auto; apply B'].
      * right. exists j, p'. split; [|exact B']. destruct (Nat.eq_dec j i) as [->|Nj]; [rewrite put_same; rewrite E in A; exact A|rewrite put_other by auto; exact A].
    + intros j. rewrite made_snoc. destruct (Nat.eqb_spec i j) as [<-|Nj]; [|rewrite put_other by auto; apply T4].
      rewrite put_same. cbn. split; [split; assumption|]. rewrite dirs_to_S by exact L. rewrite M, B, Q, rl_last.
      rewrite Q in N. destruct (nth_in _ _ _ N ltac:(lia)) as (_ & X). rewrite X, (cstr_cut _ _ Q2 N). reflexivity.
    + intros j. rewrite text_of_snoc. destruct (Nat.eq_dec j i) as [->|Nj]; [rewrite put_same; discriminate|rewrite put_other by auto; apply T5].
  (* the slash is put back *)
  - assert (B : buf s b = upd (buf s0 b) p 0) by (eapply text_cut; [exact T|rewrite E; reflexivity]).
    pose proof (T4 i) as Pl. rewrite E in Pl. destruct (P b) as (q & Q & Q1 & Q2).
    assert (SL : at_slash (buf s0 b) p) by (destruct ok; apply Pl). destruct SL as (L & N).
    assert (Y : cutting (if ok then Scan b lv (S p) else Rtn (-1)) = None) by (destruct ok; reflexivity).
    unfold TInv. cbn [buf thr]. split; [|split; [|split; [|split]]].
    + intros j b' H. rewrite text_of_snoc. destruct (Nat.eq_dec j i) as [->|Nj]; [rewrite put_same in H; apply T1; rewrite E; destruct ok; [exact H|discriminate]|rewrite put_other in H by auto; auto].
    + intros j k b'. rewrite !text_of_snoc. apply T2.
    + intros b'. destruct (Nat.eq_dec b' b) as [->|Nb].
      * left. rewrite put_same. split; [rewrite B; apply upd_back; exact N|]. intros j p'.
        destruct (Nat.eq_dec j i) as [->|Nj]; [rewrite put_same, Y; discriminate|]. rewrite put_other by auto. intros X. apply Nj.
        apply (T2 j i b); apply T1; [|rewrite E; reflexivity]. destruct (thr s j); cbn in *; congruence.
      * rewrite (put_other _ (buf s)) by auto. destruct (T3 b') as [[A B']|(j & p' & A & B')].
        -- left. split; [exact A|]. intros j p'. destruct (Nat.eq_dec j i) as [->|Nj]; [rewrite put_same, Y; discriminate|rewrite put_other by auto; apply B'].
        -- right. exists j, p'. split; [|exact B']. destruct (Nat.eq_dec j i) as [->|Nj]; [rewrite E in A; cbn in A; congruence|rewrite put_other by auto; exact A].
    + intros j. rewrite made_snoc. destruct (Nat.eq_dec j i) as [->|Nj]; [rewrite put_same|rewrite put_other by auto; apply T4].
      destruct ok; [|exact I]. cbn in *. destruct Pl as (_ & M). split; [|exact M]. rewrite Q in N |- *. destruct (nth_in _ _ _ N ltac:(lia)) as (X & _).
      rewrite app_length. cbn. lia.
    + intros j. rewrite text_of_snoc. destruct (Nat.eq_dec j i) as [->|Nj]; [rewrite put_same; destruct ok; discriminate|rewrite put_other by auto; apply T5].
  (* the return *)
  - unfold TInv. cbn [buf thr]. split; [|split; [|split; [|split]]].
    + intros j b' H. rewrite text_of_snoc. destruct (Nat.eqb_spec i j) as [<-|Nj]; [rewrite put_same in H; discriminate|rewrite put_other in H by auto; auto].
    + intros j k b'. rewrite !text_of_snoc. destruct (Nat.eqb i j); [discriminate|]. destruct (Nat.eqb i k); [discriminate|]. apply T2.
    + intros b'. destruct (T3 b') as [[A B']|(j & p' & A & B')].
      * left. split; [exact A|]. intros j p'. destruct (Nat.eq_dec j i) as [->|Nj]; [rewrite put_same; discriminate|rewrite put_other by auto; apply B'].
      * right. exists j, p'. split; [|exact B']. destruct (Nat.eq_dec j i) as [->|Nj]; [rewrite E in A; discriminate|rewrite put_other by auto; exact A].
    + intros j. rewrite made_snoc. destruct (Nat.eq_dec j i) as [->|Nj]; [rewrite put_same; exact I|rewrite put_other by auto; apply T4].
    + intros j. rewrite text_of_snoc. destruct (Nat.eqb_spec i j) as [<-|Nj]; [reflexivity|rewrite put_other by auto; apply T5].
  (* mkdir fails *)
  - pose proof (T4 i) as Pl. rewrite E in Pl.
    apply tinv_move; [exact T|intros; rewrite text_of_snoc; reflexivity|intros; rewrite made_snoc; reflexivity|rt; cbn; congruence|rt; reflexivity|exact Pl|rt; cbn; congruence].
  (* open *)
  - apply tinv_move; [exact T|intros; rewrite text_of_snoc; reflexivity|intros; rewrite made_snoc; reflexivity
    |rt; destruct (Nat.eqb td 2); discriminate|rt; destruct (Nat.eqb td 2); reflexivity|destruct (Nat.eqb td 2); exact I|destruct (Nat.eqb td 2); discriminate].
  - apply tinv_move; [exact T|intros; rewrite text_of_snoc; reflexivity|intros; rewrite made_snoc; reflexivity
    |rt; destruct (Nat.eqb td 2); discriminate|rt; destruct (Nat.eqb td 2); reflexivity|destruct (Nat.eqb td 2); exact I|destruct (Nat.eqb td 2); discriminate].
  (* other processes *)
  - unfold TInv; cbn [buf thr]; (split; [|split; [|split; [|split]]]); intros; rewrite ?text_of_snoc, ?made_snoc in *; eauto.
  - unfold TInv; cbn [buf thr]; (split; [|split; [|split; [|split]]]); intros; rewrite ?text_of_snoc, ?made_snoc in *; eauto.
Qed.
Lemma tinv_runs : forall s0 tr s, (forall b, path_text (buf s0 b)) -> at_rest s0 -> runs s0 tr s -> own_texts tr -> TInv s0 tr s.
Proof.
  intros s0 tr s P A R. induction R as [|tr s e s' R IH S]; intros O; [apply tinv_rest; exact A|].
  eapply tinv_step; eauto. apply IH. eapply own_prefix; eauto.
Qed.

Lemma runs_split : forall s0 tr s tr1 e tr2, runs s0 tr s -> tr = tr1 ++ e :: tr2 -> exists s1 s2, runs s0 tr1 s1 /\ step s1 e s2.
Proof.
  intros s0 tr s tr1 e tr2 R. revert tr2. induction R as [|tr s e' s' R IH S]; intros tr2 E; [destruct tr1; discriminate|].
  destruct tr2 as [|e'' tr2 _] using rev_ind.
  - apply app_inj_tail in E. destruct E as [-> ->]. eauto.
  - change (tr1 ++ e :: tr2 ++ [e'']) with (tr1 ++ (e :: tr2) ++ [e'']) in E. rewrite app_assoc in E. apply app_inj_tail in E. destruct E as [-> _]. eauto.
Qed.
Lemma step_from : forall s e s', step s e s' ->
  match e with
  | EOpen i q _ _ => exists b lv, thr s i = Opn b lv /\ q = cstr (buf s b)
  | EMkdir i d => exists b lv p, thr s i = Mk b lv p /\ d = cstr (buf s b)
  | _ => True
  end.
Proof. intros s e s' S. cases S; eauto 6. Qed.
Lemma own_part : forall tr1 tr2, own_texts (tr1 ++ tr2) -> own_texts tr1.
Proof. intros tr1 tr2 H a c i b lv E. apply (H a (c ++ tr2) i b lv). rewrite E, <- app_assoc. reflexivity. Qed.
Lemma dirs_to_prefix : forall q n m, (n <= m)%nat -> exists r, dirs_to q m = dirs_to q n ++ r.
Proof.
  intros q n m L. induction L as [|m L [r IH]]; [exists []; now rewrite app_nil_r|].
  destruct m as [|m]; [exists r; exact IH|]. rewrite dirs_to_S by lia. rewrite IH, <- app_assoc. eauto.
Qed.

(** If calls that overlap have their own copies of the path, then whatever the threads do in
    between, log_create opens exactly the name it was given, after it has made the directories
    of that name and no others, outermost first. *)
Theorem C142_whole_path : forall s0 tr s, at_rest s0 -> (forall b, path_text (buf s0 b)) -> runs s0 tr s -> own_texts tr ->
  (forall tr1 tr2 i q td f, tr = tr1 ++ EOpen i q td f :: tr2 ->
     exists b, text_of tr1 i = Some b /\ buf s0 b = q ++ [0] /\ made tr1 i = dirs q) /\
  (forall tr1 tr2 i d, tr = tr1 ++ EMkdir i d :: tr2 ->
     exists b q r, text_of tr1 i = Some b /\ buf s0 b = q ++ [0] /\ dirs q = made tr1 i ++ d :: r).
Proof.
  intros s0 tr s A P R O. split.
  - intros tr1 tr2 i q td f E. destruct (runs_split _ _ _ _ _ _ R E) as (s1 & s2 & R1 & S1). subst tr.
    pose proof (tinv_runs _ _ _ P A R1 (own_part _ _ O)) as T. pose proof T as (T1 & _ & _ & T4 & _).
    apply step_from in S1. destruct S1 as (b & lv & H' & ->). exists b; pose proof (T4 i) as Pl; rewrite H' in Pl; cbn in Pl.
    all: assert (B : buf s1 b = buf s0 b) by (eapply text_plain; [exact T|rewrite H'; reflexivity|rewrite H'; reflexivity]).
    all: destruct (P b) as (q & Q & Q1 & Q2); rewrite Q, rl_last in Pl; rewrite B, Q, (cstr_none _ _ Q2).
    all: split; [apply T1; rewrite H'; reflexivity|split; [reflexivity|exact Pl]].
  - intros tr1 tr2 i d E. destruct (runs_split _ _ _ _ _ _ R E) as (s1 & s2 & R1 & S1). subst tr.
    pose proof (tinv_runs _ _ _ P A R1 (own_part _ _ O)) as T. pose proof T as (T1 & _ & _ & T4 & _).
    apply step_from in S1. destruct S1 as (b & lv & p & H' & ->).
    exists b. pose proof (T4 i) as Pl. rewrite H' in Pl. cbn in Pl. destruct Pl as ((L & N) & M).
    assert (B : buf s1 b = upd (buf s0 b) p 0) by (eapply text_cut; [exact T|rewrite H'; reflexivity]).
    destruct (P b) as (q & Q & Q1 & Q2). rewrite Q in N, M, B. rewrite rl_last in M. exists q.
    destruct (nth_in _ _ _ N ltac:(lia)) as (L2 & X). destruct (dirs_to_prefix q (S p) (length q) L2) as (r & Y).
    exists r. split; [apply T1; rewrite H'; reflexivity|]. split; [exact Q|]. unfold dirs. rewrite Y, dirs_to_S by exact L.
    rewrite B, X, (cstr_cut _ _ Q2 N), M, <- app_assoc. reflexivity.
Qed.
Print Assumptions C142_whole_path.

(** the texts, shared or not *)
Definition SInv (s0 s : sys) : Prop :=
  (forall b p, nth_error (buf s b) p = nth_error (buf s0 b) p \/
     (exists i, cutting (thr s i) = Some (b, p)) /\ nth_error (buf s b) p = Some 0) /\
  (forall i, match thr s i with
     | Scan b _ p => nth_error (buf s0 b) p <> None
     | Cut b _ p | Mk b _ p | Back b _ p _ => nth_error (buf s0 b) p = Some 47
     | _ => True end).
Lemma nth_error_ext : forall (l m : list Z), (forall p, nth_error l p = nth_error m p) -> l = m.
Proof.
  induction l as [|x l IH]; intros [|y m] H; auto; try (specialize (H 0%nat); discriminate).
  f_equal; [specialize (H 0%nat); cbn in H; congruence|]. apply IH. intros p. apply (H (S p)).
Qed.
Lemma nth_upd : forall (l : list Z) p v r, nth_error (upd l p v) r = if Nat.eqb r p then match nth_error l p with Some _ => Some v | None => None end else nth_error l r.
Proof. induction l as [|x l IH]; intros [|p] v [|r]; cbn; auto. destruct (Nat.eqb r p); reflexivity. Qed.
Lemma sinv_move : forall s0 s i c d n dt nx l lk, SInv s0 s -> cutting c = cutting (thr s i) ->
  match c with
     | Scan b _ p => nth_error (buf s0 b) p <> None
     | Cut b _ p | Mk b _ p | Back b _ p _ => nth_error (buf s0 b) p = Some 47
     | _ => True end -> SInv s0 (mkS d n dt nx (buf s) l lk (put (thr s) i c)).
Proof.
  intros s0 s i c d n dt nx l lk (T1 & T2) C H. split; cbn [buf thr].
  - intros b p. destruct (T1 b p) as [A|[[j A] B]]; [left; exact A|right; split; [|exact B]]. exists j.
    destruct (Nat.eq_dec j i) as [->|N]; [rewrite put_same, C; exact A|rewrite put_other by auto; exact A].
  - intros j. destruct (Nat.eq_dec j i) as [->|N]; [rewrite put_same; exact H|rewrite put_other by auto; apply T2].
Qed.
Lemma last_zero : forall t p x, path_text t -> nth_error t p = Some x -> x <> 0 -> nth_error t (S p) <> None.
Proof.
  intros t p x (q & -> & _ & _) N H. destruct (nth_in _ _ _ N H) as (L & _). apply nth_error_Some. rewrite app_length. cbn. lia.
Qed.
Lemma sinv_step : forall s0 s e s', (forall b, path_text (buf s0 b)) -> SInv s0 s -> step s e s' -> SInv s0 s'.
Proof.
  intros s0 s e s' P T S. cases S; pose proof T as (T1 & T2).
  all: try (apply sinv_move; [exact T|rt; reflexivity|exact I]; fail).
  1-2: apply sinv_move; [exact T|rt; reflexivity|]; destruct (P b) as (q & -> & Q & _); destruct q; [congruence|]; cbn; destruct q; discriminate.
  - apply sinv_move; [exact T|rt; destruct (z =? 0); [reflexivity|]; destruct (z =? 47); reflexivity|].
    destruct (Z.eqb_spec z 0) as [->|N0]; [exact I|].
    assert (X : nth_error (buf s0 b) p = Some z) by (destruct (T1 b p) as [X|[_ X]]; congruence).
    destruct (Z.eqb_spec z 47) as [->|N1]; [exact X|]. eapply last_zero; eauto.
  - pose proof (T2 i) as N. rewrite E in N. split; cbn [buf thr].
    + intros b' p'. destruct (Nat.eq_dec b' b) as [->|Nb].
      * rewrite put_same, nth_upd. destruct (Nat.eqb_spec p' p) as [->|Np].
        -- right. split; [exists i; rewrite put_same; reflexivity|]. destruct (T1 b p) as [X|[_ X]]; rewrite X, ?N; reflexivity.
        -- destruct (T1 b p') as [A|[[j A] B]]; [left; exact A|right; split; [|exact B]]. exists j.
           destruct (Nat.eq_dec j i) as [->|Nj]; [rewrite E in A; discriminate|rewrite put_other by auto; exact A].
      * rewrite (put_other _ (buf s)) by auto. destruct (T1 b' p') as [A|[[j A] B]]; [left; exact A|right; split; [|exact B]]. exists j.
        destruct (Nat.eq_dec j i) as [->|Nj]; [rewrite E in A; discriminate|rewrite put_other by auto; exact A].
    + intros j. destruct (Nat.eq_dec j i) as [->|Nj]; [rewrite put_same; exact N|rewrite put_other by auto; apply T2].
  - pose proof (T2 i) as N. rewrite E in N. apply sinv_move; [exact T|rt; reflexivity|exact N].
  - pose proof (T2 i) as N. rewrite E in N. split; cbn [buf thr].
    + intros b' p'. destruct (Nat.eq_dec b' b) as [->|Nb].
      * rewrite put_same, nth_upd. destruct (Nat.eqb_spec p' p) as [->|Np].
        -- left. rewrite N. destruct (T1 b p) as [X|[_ X]]; rewrite X, ?N; reflexivity.
        -- destruct (T1 b p') as [A|[[j A] B]]; [left; exact A|right; split; [|exact B]]. exists j.
           destruct (Nat.eq_dec j i) as [->|Nj]; [rewrite E in A; cbn in A; congruence|rewrite put_other by auto; exact A].
      * rewrite (put_other _ (buf s)) by auto. destruct (T1 b' p') as [A|[[j A] B]]; [left; exact A|right; split; [|exact B]]. exists j.
        destruct (Nat.eq_dec j i) as [->|Nj]; [rewrite E in A; cbn in A; congruence|rewrite put_other by auto; exact A].
    + intros j. destruct (Nat.eq_dec j i) as [->|Nj]; [rewrite put_same|rewrite put_other by auto; apply T2].
      destruct ok; [|exact I]. eapply last_zero; eauto; lia.
  - pose proof (T2 i) as N. rewrite E in N. apply sinv_move; [exact T|rt; reflexivity|exact N].
  - apply sinv_move; [exact T|rt; destruct (Nat.eqb td 2); reflexivity|destruct (Nat.eqb td 2); exact I].
  - apply sinv_move; [exact T|rt; destruct (Nat.eqb td 2); reflexivity|destruct (Nat.eqb td 2); exact I].
  - exact T.
  - exact T.
Qed.
Lemma sinv_runs : forall s0 tr s, (forall b, path_text (buf s0 b)) -> at_rest s0 -> runs s0 tr s -> SInv s0 s.
Proof.
  intros s0 tr s P A R. induction R as [|tr s e s' R IH S]; [|eapply sinv_step; eauto].
  split; [intros b p; left; reflexivity|]. intros i. destruct A as (A & _). rewrite A. exact I.
Qed.
(** Even if calls that overlap share the memory of the path, no thread reads beyond its end, and
    when all calls have returned it holds what it held before. *)
Theorem C142_text_restored : forall s0 tr s, at_rest s0 -> (forall b, path_text (buf s0 b)) -> runs s0 tr s ->
  (forall i b lv p, thr s i = Scan b lv p -> nth_error (buf s b) p <> None) /\
  (quiet s -> forall b, buf s b = buf s0 b).
Proof.
  intros s0 tr s A P R. destruct (sinv_runs _ _ _ P A R) as (T1 & T2). split.
  - intros i b lv p E. pose proof (T2 i) as N. rewrite E in N. destruct (T1 b p) as [X|[_ X]]; congruence.
  - intros Q b. apply nth_error_ext. intros p. destruct (T1 b p) as [X|[[j X] _]]; [exact X|].
    destruct (Q j) as [Y|[cs Y]]; rewrite Y in X; discriminate.
Qed.
Print Assumptions C142_text_restored.

(** *** executions *)

Fixpoint fires (s : sys) (l : list act) : option (list ev * sys) :=
  match l with
  | [] => Some ([], s)
  | a :: l => match fire s a with
              | Some (e, s) => match fires s l with Some (tr, s) => Some (e :: tr, s) | None => None end
              | None => None
              end
  end.
Lemma runs_cons : forall s e s1 tr s2, step s e s1 -> runs s1 tr s2 -> runs s (e :: tr) s2.
Proof.
  intros s e s1 tr s2 S R. induction R as [|tr s' e' s'' R IH S'].
  - apply (runs_snoc s [] s e s1); [constructor|exact S].
  - change (e :: tr ++ [e']) with ((e :: tr) ++ [e']). econstructor; eauto.
Qed.
Lemma fires_runs : forall l s tr s', fires s l = Some (tr, s') -> runs s tr s'.
Proof.
  induction l as [|a l IH]; intros s tr s' H; cbn in H; [injection H; intros; subst; constructor|].
  destruct (fire s a) as [[e s1]|] eqn:F; [|discriminate]. destruct (fires s1 l) as [[tr1 s2]|] eqn:G; [|discriminate].
  injection H; intros; subst. eapply runs_cons; [exists a; exact F|auto].
Qed.
Definition go_n (n i : nat) : list act := repeat (AGo i) n.

(** descriptors 0, 1 and 2 stand for file 0, which is called "l"; text 0 and text 1 are "l", text
    2 is "d/l" *)
Definition s_start : sys := mkS
  (fun d => if Nat.ltb d 3 then Some 0%nat else None)
  (fun q => if list_eq_dec Z.eq_dec q [108] then Some (File 0) else None)
  (fun _ => []) 1
  (fun b => match b with 0%nat | 1%nat => [108; 0] | _ => [100; 47; 108; 0] end) 7 None (fun _ => Out).
Lemma start_rest : at_rest s_start /\ sane_files s_start.
Proof.
  split; [split; [reflexivity|split; [reflexivity|intros H; vm_compute in H; discriminate]]|]. split; unfold s_start; cbn [fd nam nxt].
  - intros d f. destruct (Nat.ltb d 3); [|discriminate]. intros H. injection H as <-. lia.
  - intros q f. destruct (list_eq_dec Z.eq_dec q [108]); [|discriminate]. intros H. injection H as <-. lia.
Qed.

Lemma start_texts : forall b, path_text (buf s_start b).
Proof.
  assert (A : path_text [108; 0]) by (exists [108]; split; [reflexivity|split; [discriminate|cbn; lia]]).
  intros [|[|b]]; [exact A|exact A|]. exists [100; 47; 108]. split; [reflexivity|split; [discriminate|cbn; lia]].
Qed.
(** threads that do nothing stay where they are *)
Definition low (a : act) : bool :=
  match a with AMsg j _ | ACreate j _ _ | ARotate j _ | AGo j | AFail j | AOpen j _ => (j <? 3)%nat | _ => true end.
Lemma fires_low : forall l s0 tr s1 i, forallb low l = true -> fires s0 l = Some (tr, s1) -> (3 <= i)%nat -> thr s1 i = thr s0 i.
Proof.
  induction l as [|a l IH]; intros s0 tr s1 i H F L; cbn in F; [congruence|].
  destruct (fire s0 a) as [[e s']|] eqn:Fa; [|discriminate]. destruct (fires s' l) as [[tr' s'']|] eqn:Fl; [|discriminate].
  injection F; intros; subst. cbn in H. apply andb_true_iff in H. destruct H as [H H'].
  rewrite (IH _ _ _ i H' Fl L).
  destruct a; cbn [fire low] in *; try apply Nat.ltb_lt in H; unfold advance, failing, opened in Fa;
  repeat match type of Fa with match ?x with _ => _ end = Some _ => destruct x eqn:?; try discriminate Fa end;
  injection Fa; intros; subst; cbn [thr go go_fd go_nam go_buf]; try reflexivity; apply put_other; lia.
Qed.
Lemma quiet_low : forall l tr s, forallb low l = true -> fires s_start l = Some (tr, s) ->
  thr s 0%nat = Out -> thr s 1%nat = Out -> thr s 2%nat = Out -> quiet s.
Proof.
  intros l tr s L F H0 H1 H2 i. left. destruct i as [|[|[|i]]]; auto. rewrite (fires_low _ _ _ _ (S (S (S i))) L F); [reflexivity|lia].
Qed.

(** thread 0 rotates while threads 1 and 2 write; the old file has been renamed *)
Definition acts_ex : list act :=
  [AMsg 1 [[1;1]]] ++ go_n 2 1 ++ [AMove [108] [109]; ARotate 0 0] ++ go_n 1 0 ++
  [AMsg 2 [[2;2]; [3]]; AGo 2; AOpen 0 3; AGo 2] ++ go_n 1 0 ++ go_n 1 2 ++ [AMsg 1 [[4]]] ++ go_n 2 1 ++ go_n 3 0 ++
  [AMsg 2 [[5]]] ++ go_n 2 2.
Example C141_ex : match fires s_start acts_ex with
  | Some (tr, s) => runs s_start tr s /\ quiet s /\
    (forall e, In e tr -> ~ write_fails e /\ ~ dup_fails e) /\ In (ERet 0 2) tr /\
    said tr = [[1; 1]; [2; 2]; [3]; [4]; [5]] /\
    dat s 0%nat = [1; 1; 2; 2; 3] /\ dat s 1%nat = [4; 5] /\ nam s [108] = Some (File 1)
  | None => False
  end.
Proof.
  destruct (fires s_start acts_ex) as [[tr s]|] eqn:E; [|vm_compute in E; discriminate].
  split; [eapply fires_runs; eauto|].
  assert (Q : match fires s_start acts_ex with Some (tr, s) =>
     forallb (fun e => match e with EWrFail _ _ | EDupFail _ _ => false | _ => true end) tr = true /\
     nth_error tr 17 = Some (ERet 0 2) /\ said tr = [[1; 1]; [2; 2]; [3]; [4]; [5]] /\
     dat s 0%nat = [1; 1; 2; 2; 3] /\ dat s 1%nat = [4; 5] /\ nam s [108] = Some (File 1) /\
     thr s 0%nat = Out /\ thr s 1%nat = Out /\ thr s 2%nat = Out | None => False end).
  { clear. vm_compute. repeat (split; [reflexivity|]). reflexivity. }
  rewrite E in Q. destruct Q as (Q1 & Q2 & Q3 & Q4 & Q5 & Q6 & Q7 & Q8 & Q9).
  split; [eapply quiet_low; [|exact E| | |]; auto|]. split; [|split; [eapply nth_error_In; eauto|auto]].
  intros e I. rewrite forallb_forall in Q1. specialize (Q1 e I). destruct e; try discriminate Q1; (split; intros []).
Qed.

(** two calls at the same time: both succeed, and the log goes on into the file that has been
    renamed, because the call that opened the old file came last with its dup2 *)
Definition acts_over : list act :=
  [ARotate 0 0; AGo 0; AOpen 0 3; AMove [108] [109]; ARotate 1 1; AGo 1; AOpen 1 4] ++ go_n 4 1 ++ go_n 4 0 ++ [AMsg 2 [[9]]] ++ go_n 2 2.
Theorem C141_overlap_refuted : exists tr s, runs s_start tr s /\ quiet s /\
  (forall e, In e tr -> ~ write_fails e /\ ~ dup_fails e) /\
  (exists tr1 tr2, tr = tr1 ++ EMove [108] [109] :: ECall 1 1 7 :: tr2 /\ In (ERet 1 2) tr2 /\ In (ERet 0 2) tr2) /\
  nam s [108] = Some (File 1) /\ nam s [109] = Some (File 0) /\ fd s 2 = Some 0%nat /\ dat s 0%nat = [9] /\ dat s 1%nat = [].
Proof.
  assert (Q : match fires s_start acts_over with Some (tr, s) =>
     forallb (fun e => match e with EWrFail _ _ | EDupFail _ _ => false | _ => true end) tr = true /\
     tr = firstn 3 tr ++ EMove [108] [109] :: ECall 1 1 7 :: skipn 5 tr /\
     nth_error (skipn 5 tr) 5 = Some (ERet 1 2) /\ nth_error (skipn 5 tr) 9 = Some (ERet 0 2) /\
     nam s [108] = Some (File 1) /\ nam s [109] = Some (File 0) /\ fd s 2%nat = Some 0%nat /\ dat s 0%nat = [9] /\ dat s 1%nat = [] /\
     thr s 0%nat = Out /\ thr s 1%nat = Out /\ thr s 2%nat = Out | None => False end).
  { vm_compute. repeat (split; [reflexivity|]). reflexivity. }
  destruct (fires s_start acts_over) as [[tr s]|] eqn:E; [|contradiction].
  destruct Q as (Q1 & Q2 & Q3 & Q4 & Q5 & Q6 & Q7 & Q8 & Q9 & T0 & T1 & T2).
  exists tr, s. split; [eapply fires_runs; eauto|]. split; [eapply quiet_low; [|exact E| | |]; auto|].
  split; [intros e I; rewrite forallb_forall in Q1; specialize (Q1 e I); destruct e; try discriminate Q1; (split; intros [])|].
  split; [|auto 6]. do 2 eexists. split; [exact Q2|]. split; eapply nth_error_In; eauto.
Qed.
Print Assumptions C141_overlap_refuted.

(** log_rotate keeps the level it read when it was called: a log_create that sets another one
    meanwhile is undone *)
Definition acts_lev : list act := [ARotate 0 0; AGo 0; AOpen 0 3; ACreate 1 1 8; AGo 1; AOpen 1 4] ++ go_n 4 1 ++ go_n 4 0.
Theorem C141_level_lost_refuted : exists tr s, runs s_start tr s /\ quiet s /\
  (exists tr1 tr2, tr = ECall 0 0 7 :: tr1 ++ ECall 1 1 8 :: tr2 /\ In (ERet 1 2) tr2 /\ In (ERet 0 2) tr2) /\ lev s = 7.
Proof.
  assert (Q : match fires s_start acts_lev with Some (tr, s) =>
     tr = ECall 0 0 7 :: firstn 2 (skipn 1 tr) ++ ECall 1 1 8 :: skipn 4 tr /\
     nth_error (skipn 4 tr) 5 = Some (ERet 1 2) /\ nth_error (skipn 4 tr) 9 = Some (ERet 0 2) /\ lev s = 7 /\
     thr s 0%nat = Out /\ thr s 1%nat = Out /\ thr s 2%nat = Out | None => False end).
  { vm_compute. repeat (split; [reflexivity|]). reflexivity. }
  destruct (fires s_start acts_lev) as [[tr s]|] eqn:E; [|contradiction]. destruct Q as (Q2 & Q3 & Q4 & Q5 & T0 & T1 & T2).
  exists tr, s. split; [eapply fires_runs; eauto|]. split; [eapply quiet_low; [|exact E| | |]; auto|].
  split; [|exact Q5]. do 2 eexists. split; [exact Q2|]. split; eapply nth_error_In; eauto.
Qed.
Print Assumptions C141_level_lost_refuted.

(** a message that needs two writes may be torn apart: its beginning is in the old file, its end
    in the new one *)
Definition acts_torn : list act :=
  [AMove [108] [109]; ARotate 0 0; AGo 0; AOpen 0 3; AMsg 1 [[1]; [2]]; AGo 1; AGo 0; AGo 1; AGo 1] ++ go_n 3 0.
Theorem C141_torn_message_refuted : exists tr s, runs s_start tr s /\ quiet s /\ said tr = [[1]; [2]] /\
  nam s [109] = Some (File 0) /\ dat s 0%nat = [1] /\ nam s [108] = Some (File 1) /\ dat s 1%nat = [2].
Proof.
  assert (Q : match fires s_start acts_torn with Some (tr, s) =>
     said tr = [[1]; [2]] /\ nam s [109] = Some (File 0) /\ dat s 0%nat = [1] /\ nam s [108] = Some (File 1) /\ dat s 1%nat = [2] /\
     thr s 0%nat = Out /\ thr s 1%nat = Out /\ thr s 2%nat = Out | None => False end).
  { vm_compute. repeat (split; [reflexivity|]). reflexivity. }
  destruct (fires s_start acts_torn) as [[tr s]|] eqn:E; [|contradiction]. destruct Q as (Q2 & Q3 & Q4 & Q5 & Q6 & T0 & T1 & T2).
  exists tr, s. split; [eapply fires_runs; eauto|]. split; [eapply quiet_low; [|exact E| | |]; auto|]. auto 6.
Qed.
Print Assumptions C141_torn_message_refuted.

(** Calls that share the memory of the path: while one has overwritten the slash of "d/l" to make
    the directory, the other one takes what is in front of it for the path, and makes a file
    where the directory should be. *)
Definition acts_shared : list act :=
  [ACreate 0 2 7; AGo 0; AGo 0; ACreate 1 2 7; AGo 1; AOpen 1 3] ++ go_n 4 1 ++ go_n 4 0 ++ [AFail 0; AGo 0].
Theorem C142_shared_text_refuted : exists tr s, runs s_start tr s /\ quiet s /\
  (forall b, path_text (buf s_start b)) /\
  In (ECall 1 2 7) tr /\ buf s_start 2 = [100; 47; 108] ++ [0] /\ In (EOpen 1 [100] 3 1) tr /\ In (ERet 1 2) tr /\
  nam s [100] = Some (File 1) /\ fd s 2 = Some 1%nat /\ In (ERet 0 (-1)) tr.
Proof.
  assert (Q : match fires s_start acts_shared with Some (tr, s) =>
     nth_error tr 3 = Some (ECall 1 2 7) /\ nth_error tr 5 = Some (EOpen 1 [100] 3 1) /\ nth_error tr 9 = Some (ERet 1 2) /\
     nam s [100] = Some (File 1) /\ fd s 2%nat = Some 1%nat /\ nth_error tr 15 = Some (ERet 0 (-1)) /\
     thr s 0%nat = Out /\ thr s 1%nat = Out /\ thr s 2%nat = Out | None => False end).
  { vm_compute. repeat (split; [reflexivity|]). reflexivity. }
  destruct (fires s_start acts_shared) as [[tr s]|] eqn:E; [|contradiction]. destruct Q as (Q2 & Q3 & Q4 & Q5 & Q6 & Q7 & T0 & T1 & T2).
  exists tr, s. split; [eapply fires_runs; eauto|]. split; [eapply quiet_low; [|exact E| | |]; auto|].
  split; [apply start_texts|]. split; [eapply nth_error_In; eauto|]. split; [reflexivity|]. split; [eapply nth_error_In; eauto|].
  split; [eapply nth_error_In; eauto|]. split; [exact Q5|]. split; [exact Q6|]. eapply nth_error_In; eauto.
Qed.
Print Assumptions C142_shared_text_refuted.

(** coda_mkpath begins with the second character: the text of an empty path ends in front of it *)
Theorem C142_empty_path_refuted : forall s b i lv, buf s b = [0] -> thr s i = Out ->
  exists tr s', runs s tr s' /\ thr s' i = Scan b lv 1 /\ nth_error (buf s' b) 1 = None.
Proof.
  intros s b i lv B T. exists [ECall i b lv], (go s i (Scan b lv 1)). split; [|split].
  - change [ECall i b lv] with ([] ++ [ECall i b lv]). econstructor; [constructor|]. exists (ACreate i b lv). cbn. rewrite T. reflexivity.
  - apply put_same.
  - cbn. rewrite B. reflexivity.
Qed.
Print Assumptions C142_empty_path_refuted.

(** two threads, each with its own path, of which one makes a directory *)
Definition acts_own : list act :=
  [ACreate 0 2 7; AGo 0; AGo 0; ARotate 1 1; AGo 1; AOpen 1 3; AGo 0] ++ go_n 4 1 ++ go_n 3 0 ++ [AOpen 0 3] ++ go_n 4 0.
Lemma own_snoc : forall tr e, own_texts tr -> match e with ECall _ b _ => forall j, text_of tr j <> Some b | _ => True end -> own_texts (tr ++ [e]).
Proof.
  intros tr e O H tr1 tr2 i b lv E. destruct tr2 as [|e' tr2 _] using rev_ind.
  - apply app_inj_tail in E. destruct E as [-> ->]. exact H.
  - change (tr1 ++ ECall i b lv :: tr2 ++ [e']) with (tr1 ++ (ECall i b lv :: tr2) ++ [e']) in E. rewrite app_assoc in E. apply app_inj_tail in E.
    destruct E as [-> _]. eapply O. reflexivity.
Qed.
Lemma own_quiet : forall tr2 tr1, own_texts tr1 -> forallb (fun e => match e with ECall _ _ _ => false | _ => true end) tr2 = true -> own_texts (tr1 ++ tr2).
Proof.
  induction tr2 as [|e tr2 IH]; intros tr1 O H; [rewrite app_nil_r; exact O|]. cbn in H. apply andb_true_iff in H. destruct H as [H1 H2].
  change (e :: tr2) with ([e] ++ tr2). rewrite app_assoc. apply IH; [|exact H2]. apply own_snoc; [exact O|]. destruct e; try exact I. discriminate.
Qed.
Example C142_ex : exists tr s, runs s_start tr s /\ quiet s /\ at_rest s_start /\ (forall b, path_text (buf s_start b)) /\ own_texts tr /\
  In (EMkdir 0 [100]) tr /\ In (EOpen 0 [100; 47; 108] 3 1) tr /\ In (EOpen 1 [108] 3 0) tr /\ dirs [100; 47; 108] = [[100]].
Proof.
  assert (Q : match fires s_start acts_own with Some (tr, s) =>
     tr = [ECall 0 2 7; ETau 0; ETau 0] ++ [ECall 1 1 7] ++ skipn 4 tr /\
     forallb (fun e => match e with ECall _ _ _ => false | _ => true end) (skipn 4 tr) = true /\
     nth_error tr 6 = Some (EMkdir 0 [100]) /\ nth_error tr 14 = Some (EOpen 0 [100; 47; 108] 3 1) /\ nth_error tr 5 = Some (EOpen 1 [108] 3 0) /\
     thr s 0%nat = Out /\ thr s 1%nat = Out /\ thr s 2%nat = Out | None => False end).
  { vm_compute. repeat (split; [reflexivity|]). reflexivity. }
  destruct (fires s_start acts_own) as [[tr s]|] eqn:E; [|contradiction]. destruct Q as (Q1 & Q2 & Q4 & Q5 & Q6 & T0 & T1 & T2).
  exists tr, s. split; [eapply fires_runs; eauto|]. split; [eapply quiet_low; [|exact E| | |]; auto|].
  split; [apply start_rest|]. split; [apply start_texts|]. split.
  - rewrite Q1, app_assoc. apply own_quiet; [|exact Q2]. apply own_snoc.
    + change [ECall 0 2 7; ETau 0; ETau 0] with (([] ++ [ECall 0 2 7]) ++ [ETau 0; ETau 0]). apply own_quiet; [|reflexivity].
      apply own_snoc; [intros tr1 tr2 i b lv X; destruct tr1; discriminate X|]. discriminate.
    + intros [|j]; cbn; discriminate.
  - split; [eapply nth_error_In; eauto|]. split; [eapply nth_error_In; eauto|]. split; [eapply nth_error_In; eauto|]. reflexivity.
Qed.
