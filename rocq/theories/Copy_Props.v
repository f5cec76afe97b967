(** Properties C146 and C147: copies of shared maps and of shared queues. *)

From Coq Require Import ZArith List Bool Lia Permutation.
From Verif Require Import Base Life_Model Life_Spec Life_Props Copy_Model Copy_Spec.
Import ListNotations.
Local Open Scope Z_scope.

(** *** logs *)

Lemma worldof_app : forall w0 l1 l, worldof w0 (l1 ++ l) = worldof (worldof w0 l) l1.
Proof. intros w0 l1 l. induction l1 as [|[c a] l1 IH]; cbn; [reflexivity|]. rewrite IH. reflexivity. Qed.
Lemma run_extends : forall A (p : prog A) ans l, exists l1, snd (run p ans l) = l1 ++ l.
Proof.
  intros A p ans. induction p as [a|u|c k IH]; intros l; cbn [run snd]; try (exists []; reflexivity).
  destruct (IH (ans l c) ((c, ans l c) :: l)) as (l1 & E). exists (l1 ++ [(c, ans l c)]). rewrite E, <- app_assoc. reflexivity.
Qed.
Lemma sane_app : forall w0 l1 l, sane w0 (l1 ++ l) -> sane w0 l.
Proof. intros w0 l1 l. induction l1 as [|[c a] l1 IH]; cbn; intros H; [exact H|]. apply IH, H. Qed.
Lemma headers_app : forall l1 l, headers_ok (l1 ++ l) <-> headers_ok l1 /\ headers_ok l.
Proof. intros l1 l. induction l1 as [|[c a] l1 IH]; cbn; [tauto|]. destruct c; rewrite ?IH; tauto. Qed.
Lemma frees_app : forall w0 l1 l, frees_ok w0 (l1 ++ l) <-> frees_ok (worldof w0 l) l1 /\ frees_ok w0 l.
Proof.
  intros w0 l1 l. induction l1 as [|[c a] l1 IH]; cbn; [tauto|].
  destruct c; rewrite ?IH, ?worldof_app; tauto.
Qed.
(** one operation and the rest of the program *)
Lemma do_ops_run : forall C T (f : op C -> objs T -> prog (objs T)) a ops s ans l,
  run (do_ops f (a :: ops) s) ans l =
  match run (f a s) ans l with
  | (Ok s', l') => run (do_ops f ops s') ans l'
  | (Ub u, l') => (Ub u, l') | (Fuel, l') => (Fuel, l') end.
Proof. intros. cbn [do_ops]. apply run_bind. Qed.
Lemma do_ops_app : forall C T (f : op C -> objs T -> prog (objs T)) o1 o2 s ans l s1 l1,
  run (do_ops f o1 s) ans l = (Ok s1, l1) -> run (do_ops f (o1 ++ o2) s) ans l = run (do_ops f o2 s1) ans l1.
Proof.
  intros C T f. induction o1 as [|a o1 IH]; intros o2 s ans l s1 l1 E.
  - cbn in E. injection E; intros; subst. reflexivity.
  - cbn [app]. rewrite do_ops_run in *. destruct (run (f a s) ans l) as [[s'|u|] l']; try discriminate. now apply IH.
Qed.
(** what is sane at the end was sane before *)
Lemma sane_step : forall C T (f : op C -> objs T -> prog (objs T)) a ops s ans l w0,
  sane w0 (snd (run (do_ops f (a :: ops) s) ans l)) -> sane w0 (snd (run (f a s) ans l)).
Proof.
  intros C T f a ops s ans l w0. rewrite do_ops_run. destruct (run (f a s) ans l) as [[s'|u|] l'] eqn:E; auto.
  cbn [snd]. destruct (run_extends _ (do_ops f ops s') ans l') as (l1 & ->). apply sane_app.
Qed.

(** *** objects *)

Lemma obj_set_same : forall T (s : objs T) i o x, obj s i = Some o -> obj (setobj s i x) i = x.
Proof.
  unfold obj. intros T s. induction s as [|y s IH]; intros [|i] o x H; cbn in *; try discriminate.
  - destruct x; reflexivity.
  - eapply IH, H.
Qed.
Lemma obj_set_other : forall T (s : objs T) i j x, i <> j -> obj (setobj s i x) j = obj s j.
Proof.
  unfold obj. intros T s. induction s as [|y s IH]; intros [|i] [|j] x N; cbn in *; try congruence; try reflexivity.
  apply IH. congruence.
Qed.
Lemma obj_snoc : forall T (s : objs T) x i o, obj (s ++ [Some x]) i = Some o ->
  obj s i = Some o \/ (i = length s /\ o = x).
Proof.
  unfold obj. intros T s. induction s as [|y s IH]; intros x [|i] o H; cbn in *.
  - right. split; congruence.
  - destruct i; discriminate.
  - left. exact H.
  - destruct (IH _ _ _ H) as [E|(E & F)]; [left; exact E|right; split; congruence].
Qed.
Lemma obj_snoc_old : forall T (s : objs T) x i o, obj s i = Some o -> obj (s ++ [x]) i = Some o.
Proof.
  unfold obj. intros T s. induction s as [|y s IH]; intros x [|i] o H; cbn in *; try discriminate; auto.
Qed.
Lemma obj_snoc_new : forall T (s : objs T) x, obj (s ++ [Some x]) (length s) = Some x.
Proof. unfold obj. intros T s x. induction s as [|y s IH]; cbn; auto. Qed.
Lemma obj_len : forall T (s : objs T) i o, obj s i = Some o -> (i < length s)%nat.
Proof.
  unfold obj. intros T s i o H. apply nth_error_Some. destruct (nth_error s i); discriminate || congruence.
Qed.

(** *** C146: the map *)

(** every map points to a segment that is attached *)
Definition map_inv (w0 : world) (s : objs map) (l : log) : Prop :=
  keeps w0 l /\
  forall i o, obj s i = Some o -> (m_ptrs o = true -> m_mem o <> 0) /\ (m_mem o <> 0 -> In (m_mem o) (w_att (worldof w0 l))).

(** the segments that are attached stay so *)
Definition grows (w0 : world) (l l' : log) : Prop :=
  forall p, In p (w_att (worldof w0 l)) -> In p (w_att (worldof w0 l')).
Lemma keeps_grows_gen : forall A w0 (p : prog A) l0 l, dt0 p -> keeps w0 l -> grows w0 l0 l ->
  wp w0 p (fun _ l' => keeps w0 l' /\ grows w0 l0 l') l.
Proof.
  intros A w0 p l0. induction p as [a|u|c k IH]; intros l D K G; try (cbn; auto; fail).
  cbn [wp]. intros a P. cbn [dt0] in D. apply IH; [apply D| |].
  - assert (W := dt0_keeps _ w0 (Call c (fun _ => Ret tt)) l). cbn [dt0 wp] in W. apply W; auto. split; [apply D|auto].
  - intros q Iq. apply G in Iq. cbn [worldof]. destruct K as (_ & K).
    destruct c; cbn; try (destruct (_ <=? _)); try (destruct (_ =? _) eqn:E); cbn; auto.
    destruct D as (-> & _). cbn in P. apply Z.eqb_eq in E. subst a.
    destruct P as [(_ & P)|(P & _)]; [|discriminate]. rewrite Forall_forall in K. specialize (K _ P). lia.
Qed.

(** what a method leaves in the object *)
Definition mgood (w0 : world) (o : map) (l : log) : Prop :=
  (m_ptrs o = true -> m_mem o <> 0) /\ (m_mem o <> 0 -> In (m_mem o) (w_att (worldof w0 l))).
Definition mg (w0 : world) (A : Type) (get : A -> map) (r : res A) (l : log) : Prop :=
  forall x, r = Ok x -> mgood w0 (get x) l.
Lemma mgood_call : forall w0 o l c a, mgood w0 o l ->
  match c with Shmat _ | Shmdt _ => False | _ => True end -> mgood w0 o ((c, a) :: l).
Proof.
  intros w0 o l c a (H1 & H2) H. split; [exact H1|]. intros N. specialize (H2 N). cbn [worldof].
  destruct c; try contradiction; cbn; try (destruct (_ <=? _)); try (destruct (_ =? _)); auto.
Qed.
Lemma mgood_ids : forall w0 s h s' h' m q l, mgood w0 (mkMap s h m q) l -> mgood w0 (mkMap s' h' m q) l.
Proof. intros w0 s h s' h' m q l H. exact H. Qed.
Lemma mgood_down : forall w0 s h l, mgood w0 (mkMap s h 0 false) l.
Proof. intros. split; cbn; congruence. Qed.
Lemma mg_bind : forall A B w0 (p : prog A) (k : A -> prog B) get get' l, wp w0 p (mg w0 A get) l ->
  (forall x l', mgood w0 (get x) l' -> wp w0 (k x) (mg w0 B get') l') -> wp w0 (pbind p k) (mg w0 B get') l.
Proof.
  intros A B w0 p k get get' l H K. apply wp_bind. eapply wp_mono; [|exact H]. cbn beta.
  intros [x|u|] l' H'; [apply K; apply H'; reflexivity| |]; intros x E; discriminate E.
Qed.
Lemma mg_ret : forall A w0 (x : A) get l, mgood w0 (get x) l -> mg w0 A get (Ok x) l.
Proof. intros A w0 x get l H y E. injection E; intros; subst. exact H. Qed.
Ltac mk := repeat first
  [ match goal with
    | |- mg _ _ _ (Ok _) _ => apply mg_ret; cbn [fst snd]
    | |- mg _ _ _ (Ub _) _ => intros ? E; discriminate E
    | |- wp _ (if ?x then _ else _) _ _ => destruct x eqn:?
    | |- wp _ (pbind (if ?x then _ else _) _) _ _ => destruct x eqn:?
    | |- wp _ (let '(_, _) := ?x in _) _ _ => destruct x
    | |- forall _ : Z, _ -> _ => let a := fresh "a" in let P := fresh "P" in intros a P
    | |- mgood _ (mkMap _ _ 0 false) _ => apply mgood_down
    | H : mgood ?w ?o ?l |- mgood ?w ?o ?l => exact H
    | H : mgood ?w (mkMap _ _ ?m ?q) ?l |- mgood ?w (mkMap _ _ ?m ?q) ?l => exact H
    | |- mgood _ _ (_ :: _) => apply mgood_call; [|exact I]
    end
  | progress norm ].
Lemma m_sem_good : forall w0 o l, mgood w0 o l -> wp w0 (m_connect_sem o) (mg w0 _ fst) l.
Proof. intros w0 [s h m q] l G. unfold m_connect_sem. cbn zeta. mk. Qed.
Lemma m_disconnect_good : forall w0 o l, mgood w0 o l -> wp w0 (m_disconnect o) (mg w0 _ (fun o => o)) l.
Proof. intros w0 [s h m q] l G. unfold m_disconnect. norm. mk. Qed.
Lemma m_shm_good : forall w0 o l, mgood w0 o l -> wp w0 (m_connect_shm o) (mg w0 _ fst) l.
Proof.
  intros w0 [s h m q] l G. unfold m_connect_shm, m_lock, m_unlock. cbn zeta. mk.
  all: match goal with P : possible _ (Shmat _) ?a, H : (?a =? -1) = ?b |- _ => idtac;
    match b with
    | true => destruct G as (G1 & G2); split; [exact G1|]; intros N; cbn; rewrite H; specialize (G2 N); cbn in G2 |- *; destruct (0 <=? _); exact G2
    | false => cbn [possible] in P; destruct P as [P|(P & _)]; [apply Z.eqb_neq in H; contradiction|];
      split; cbn; [lia|]; intros _; rewrite H; cbn; left; reflexivity
    end end.
Qed.
Lemma wp_and : forall A w0 (p : prog A) (Q Q' : res A -> log -> Prop) l,
  wp w0 p Q l -> wp w0 p Q' l -> wp w0 p (fun r l => Q r l /\ Q' r l) l.
Proof. intros A w0 p Q Q'. induction p as [a|u|c k IH]; cbn; intros l H H'; auto. Qed.
Lemma m_shm_flag : forall w0 o l, wp w0 (m_connect_shm o) (fun r _ => forall x, r = Ok x -> snd x = true -> m_mem (fst x) <> 0) l.
Proof.
  intros w0 [s h m q] l. unfold m_connect_shm, m_lock, m_unlock. cbn zeta. mk.
  all: intros x E; injection E; intros; subst; cbn [snd fst m_mem] in *; try discriminate.
  all: match goal with P : possible _ (Shmat _) ?a, H : (?a =? -1) = false |- _ =>
    cbn [possible] in P; apply Z.eqb_neq in H; lia end.
Qed.
Lemma m_handler_good : forall w0 o l, mgood w0 o l -> wp w0 (m_handler o) (mg w0 _ fst) l.
Proof.
  intros w0 o l G. unfold m_handler, m_unlock. mk. apply mg_bind with (get := fun o => o).
  - apply m_disconnect_good. mk.
  - intros x l' G'. mk.
Qed.
Lemma m_call_good : forall w0 c o l, mgood w0 o l -> wp w0 (m_call c o) (mg w0 _ fst) l.
Proof.
  intros w0 c o l G. destruct c; cbn [m_call].
  - unfold m_connect. apply mg_bind with (get := fst); [apply m_sem_good; exact G|]. intros [o1 b] l1 G1. cbn [fst] in G1.
    assert (S : wp w0 (if b then m_connect_shm o1 else Ret (o1, false))
              (fun r l => mg w0 _ fst r l /\ forall x, r = Ok x -> snd x = true -> m_mem (fst x) <> 0) l1).
    { destruct b; [apply wp_and; [apply m_shm_good; exact G1|apply m_shm_flag]|]. cbn [wp]. split; [mk|].
      intros x E. injection E; intros; subst. discriminate. }
    apply wp_bind. eapply wp_mono; [|exact S]. clear S. cbn beta.
    intros [[o2 b2]|u|] l2 (G2 & F2); try (intros x E; discriminate E).
    specialize (G2 _ eq_refl). specialize (F2 _ eq_refl). cbn [fst snd] in G2, F2. destruct b2; norm.
    2:{ apply mg_bind with (get := fun o => o); [apply m_disconnect_good; exact G2|]. intros x l3 G3. mk. }
    specialize (F2 eq_refl).
    unfold m_lock at 1. norm. intros a P. destruct (0 <=? a); norm; [|apply m_handler_good; mk].
    intros r Pr.
    assert (G3 : forall l', mgood w0 o2 l' -> mgood w0 (mkMap (m_sem o2) (m_shm o2) (m_mem o2) true) l').
    { intros l' (H1 & H2). split; [intros _; exact F2|exact H2]. }
    destruct (r <? 0); norm; [apply m_handler_good; apply G3; mk|].
    unfold m_unlock at 1. norm. intros u Pu. destruct (0 <=? u); norm; [|apply m_handler_good; apply G3; mk].
    apply mg_ret. cbn [fst]. apply G3. mk.
  - apply mg_bind with (get := fun o => o); [apply m_disconnect_good; exact G|]. intros x l1 G1. mk.
  - unfold m_use, m_lock, m_unlock. mk.
Qed.

Lemma map_step : forall w0 a s l, map_inv w0 s l ->
  wp w0 (map_op a s) (fun r l' => forall s', r = Ok s' -> map_inv w0 s' l') l.
Proof.
  intros w0 a s l (K & G). unfold map_op, do_op. destruct a as [|j|i j|i c|i].
  - cbn [wp]. intros s' E. injection E; intros; subst. split; [exact K|]. intros i o O.
    destruct (obj_snoc _ _ _ _ _ O) as [H|(_ & ->)]; [exact (G _ _ H)|]. cbn. split; congruence.
  - destruct (obj s j) as [oj|] eqn:J; cbn [wp]; intros s' E; injection E; intros; subst; [|split; auto].
    split; [exact K|]. intros i o O.
    destruct (obj_snoc _ _ _ _ _ O) as [H|(_ & ->)]; [exact (G _ _ H)|]. exact (G _ _ J).
  - destruct (obj s i) as [oi|] eqn:Oi; destruct (obj s j) as [oj|] eqn:J; cbn [wp];
      intros s' E; injection E; intros; subst; try (split; auto; fail).
    split; [exact K|]. intros k o O. destruct (Nat.eq_dec i k) as [<-|N].
    + rewrite (obj_set_same _ _ _ oi) in O by exact Oi. injection O; intros; subst. exact (G _ _ J).
    + rewrite obj_set_other in O by exact N. exact (G _ _ O).
  - destruct (obj s i) as [oi|] eqn:Oi; cbn [wp]; [|intros s' E; injection E; intros; subst; split; auto].
    apply wp_bind. eapply wp_mono; [|apply wp_and; [apply (m_call_good w0 c oi l); exact (G _ _ Oi)|
      apply keeps_grows_gen; [apply dt0_call|exact K|intros p H; exact H]]].
    cbn beta. intros [[o1 b]|u|] l' (M & K' & R); cbn [wp]; try (intros s' E; discriminate E).
    intros s' E; injection E; intros; subst. split; [exact K'|]. intros k o O. destruct (Nat.eq_dec i k) as [<-|N].
    + rewrite (obj_set_same _ _ _ oi) in O by exact Oi. injection O; intros; subst. exact (M _ eq_refl).
    + rewrite obj_set_other in O by exact N. destruct (G _ _ O) as (G1 & G2). split; [exact G1|]. intros H. apply R, G2, H.
  - destruct (obj s i) as [oi|] eqn:Oi; cbn [wp]; [|intros s' E; injection E; intros; subst; split; auto].
    apply wp_bind. eapply wp_mono; [|apply keeps_grows_gen; [apply dt0_disconnect|exact K|intros p H; exact H]].
    cbn beta. intros [o1|u|] l' (K' & R); cbn [wp]; try (intros s' E; discriminate E).
    intros s' E; injection E; intros; subst. split; [exact K'|]. intros k o O. destruct (Nat.eq_dec i k) as [<-|N].
    + rewrite (obj_set_same _ _ _ oi) in O by exact Oi. discriminate.
    + rewrite obj_set_other in O by exact N. destruct (G _ _ O) as (G1 & G2). split; [exact G1|]. intros H. apply R, G2, H.
Qed.
Lemma map_history : forall ops w0 ans s l, map_inv w0 s l ->
  sane w0 (snd (run (do_ops map_op ops s) ans l)) ->
  touches_ok map_op map_touch w0 ans ops s l /\
  forall s' l', run (do_ops map_op ops s) ans l = (Ok s', l') -> map_inv w0 s' l'.
Proof.
  induction ops as [|a ops IH]; intros w0 ans s l V S.
  - split; [exact I|]. cbn. intros s' l' E. injection E; intros; subst. exact V.
  - pose proof (wp_run _ w0 _ _ ans l (map_step w0 a s l V) (sane_step _ _ _ _ _ _ _ _ _ S)) as V'. cbn beta in V'.
    rewrite do_ops_run in *. cbn [touches_ok].
    assert (T : map_touch (worldof w0 l) a s).
    { destruct a as [|j|i j|i c|i]; cbn; auto. destruct c; auto. intros o O P. destruct V as (_ & V).
      destruct (V _ _ O) as (V1 & V2). apply V2, V1, P. }
    destruct (run (map_op a s) ans l) as [[s1|u|] l1]; cbn [fst snd] in *; try (split; [split; [exact T|exact I]|discriminate]).
    specialize (V' _ eq_refl). destruct (IH w0 ans s1 l1 V' S) as (H1 & H2). split; [split; assumption|exact H2].
Qed.

(** Programs that make, copy, assign, use, disconnect and destroy maps in any order, whatever the
    kernel answers: no use works on a segment that is not attached, and every map that calls
    itself connected, copy or not, points to an attached segment. *)
Theorem C146_copies_stay_valid : forall ops w0 ans,
  Forall (fun p => 0 < p) (w_att w0) ->
  let r := run (do_ops map_op ops []) ans [] in
  sane w0 (snd r) ->
  touches_ok map_op map_touch w0 ans ops [] [] /\
  forall s i o, fst r = Ok s -> obj s i = Some o -> m_connected o = true ->
    In (m_mem o) (w_att (worldof w0 (snd r))).
Proof.
  intros ops w0 ans F r S.
  assert (V : map_inv w0 [] []). { split; [split; [reflexivity|exact F]|]. intros [|i] o; discriminate. }
  destruct (map_history ops w0 ans [] [] V S) as (H1 & H2). split; [exact H1|].
  intros s i o E O C. unfold r in *. destruct (run (do_ops map_op ops []) ans []) as [x l] eqn:R. cbn [fst snd] in *. subst x.
  destruct (H2 _ _ eq_refl) as (_ & G). apply (G _ _ O). unfold m_connected in C.
  destruct (Z.eqb_spec (m_mem o) 0); [discriminate|assumption].
Qed.
Print Assumptions C146_copies_stay_valid.

(** the operation changes object [i] itself *)
Definition names {C} (i : nat) (a : op C) : Prop :=
  match a with OAssign k _ | OCall k _ | ODestroy k => k = i | _ => False end.
Lemma others_step : forall C T new (call : C -> T -> prog (T * bool)) destroy a s ans l s' l' i o,
  run (do_op new call destroy a s) ans l = (Ok s', l') -> obj s i = Some o -> ~ names i a -> obj s' i = Some o.
Proof.
  intros C T new call destroy a s ans l s' l' i o E O N. unfold do_op in E. destruct a as [|j|k j|k c|k]; cbn [names] in N.
  - cbn in E. injection E; intros; subst. now apply obj_snoc_old.
  - destruct (obj s j); cbn in E; injection E; intros; subst; auto. now apply obj_snoc_old.
  - destruct (obj s k); [destruct (obj s j)|]; cbn in E; injection E; intros; subst; auto. now rewrite obj_set_other.
  - destruct (obj s k) as [ok|]; [|cbn in E; injection E; intros; subst; auto].
    rewrite run_bind in E. destruct (run (call c ok) ans l) as [[[o1 b]|u|] l1]; cbn in E; try discriminate.
    injection E; intros; subst. now rewrite obj_set_other.
  - destruct (obj s k) as [ok|]; [|cbn in E; injection E; intros; subst; auto].
    rewrite run_bind in E. destruct (run (destroy ok) ans l) as [[o1|u|] l1]; cbn in E; try discriminate.
    injection E; intros; subst. now rewrite obj_set_other.
Qed.
Lemma others : forall C T new (call : C -> T -> prog (T * bool)) destroy ops s ans l s' l' i o,
  run (do_ops (do_op new call destroy) ops s) ans l = (Ok s', l') -> obj s i = Some o ->
  Forall (fun a => ~ names i a) ops -> obj s' i = Some o.
Proof.
  intros C T new call destroy. induction ops as [|a ops IH]; intros s ans l s' l' i o E O N.
  - cbn in E. injection E; intros; subst. exact O.
  - rewrite do_ops_run in E. destruct (run (do_op new call destroy a s) ans l) as [[s1|u|] l1] eqn:E1; try discriminate.
    inversion N; subst. eapply IH; [exact E| |assumption]. eapply others_step; eauto.
Qed.

(** A copy of a connected map keeps working on the same segment, whatever is then done to the map
    it was copied from and to all others: it is still connected, its segment attached, and a use
    of it that gets the lock reads and writes there. *)
Theorem C146_copy_survives : forall ops1 ops2 w0 ans s1 l1 j o s2 l2,
  Forall (fun p => 0 < p) (w_att w0) ->
  run (do_ops map_op ops1 []) ans [] = (Ok s1, l1) -> obj s1 j = Some o -> m_connected o = true -> m_ptrs o = true ->
  Forall (fun a => ~ names (length s1) a) ops2 ->
  run (do_ops map_op (OCopy j :: ops2) s1) ans l1 = (Ok s2, l2) -> sane w0 l2 ->
  obj s2 (length s1) = Some o /\ In (m_mem o) (w_att (worldof w0 l2)) /\
  forall ans' l, fst (run (m_use o) ans' l) <> Ub NullDeref.
Proof.
  intros ops1 ops2 w0 ans s1 l1 j o s2 l2 F E1 O C P N E2 S.
  assert (E : run (do_ops map_op (ops1 ++ OCopy j :: ops2) []) ans [] = (Ok s2, l2)).
  { rewrite (do_ops_app _ _ _ _ _ _ _ _ _ _ E1). exact E2. }
  assert (O2 : obj s2 (length s1) = Some o).
  { rewrite do_ops_run in E2. unfold map_op in E2. cbn [do_op] in E2. rewrite O in E2. cbn [run] in E2.
    eapply (others mcall map); [exact E2| |exact N]. apply obj_snoc_new. }
  split; [exact O2|]. split.
  - destruct (C146_copies_stay_valid (ops1 ++ OCopy j :: ops2) w0 ans F) as (_ & H).
    { rewrite E. exact S. }
    rewrite E in H. cbn [fst snd] in H. exact (H _ _ _ eq_refl O2 C).
  - intros ans' l. unfold m_use, m_lock, m_unlock. rewrite P. cbn [sys pbind run].
    destruct (negb _); cbn; discriminate.
Qed.
Print Assumptions C146_copy_survives.

(** a connected map is copied, the original destroyed, the copy used *)
Definition copy_ops : list (op mcall) :=
  [ONew; OCall 0 MConnect; OCopy 0; OCall 0 MDisconnect; ODestroy 0; OCall 1 MUse].
Example C146_ex : let r := run (do_ops map_op copy_ops []) kind [] in
  sane w_empty (snd r) /\ exists o, fst r = Ok [None; Some o] /\ m_connected o = true.
Proof.
  cbn zeta. split; [vm_compute; repeat split; auto; try discriminate; try (left; split; [reflexivity|discriminate]);
    try (right; split; [reflexivity|intuition discriminate])|].
  eexists. split; [vm_compute; reflexivity|reflexivity].
Qed.

(** *** C147: the queue *)

(** worlds that differ only in the order of what they hold *)
Definition weq (w w' : world) : Prop :=
  Permutation (w_att w) (w_att w') /\ Permutation (w_heap w) (w_heap w') /\ w_lock w = w_lock w'.
Lemma remove1_perm : forall x l l', Permutation l l' -> Permutation (remove1 x l) (remove1 x l').
Proof.
  intros x l l' H. induction H as [|y l l' H IH|y z l|l1 l2 l3 H1 IH1 H2 IH2]; cbn.
  - constructor.
  - destruct (x =? y); [exact H|constructor; exact IH].
  - destruct (Z.eqb_spec x z) as [->|]; destruct (Z.eqb_spec z y) as [->|]; try rewrite Z.eqb_refl; try reflexivity.
    + destruct (Z.eqb_spec x y) as [->|]; reflexivity.
    + destruct (Z.eqb_spec x y) as [->|]; [reflexivity|apply perm_swap].
  - now rewrite IH1.
Qed.
Lemma after_weq : forall w w' c a, weq w w' -> weq (after w c a) (after w' c a).
Proof.
  intros w w' c a (H1 & H2 & H3).
  destruct c; cbn; try (destruct (_ <=? _)); try (destruct (_ =? _)); repeat split; cbn; auto;
    try (constructor; assumption); try (apply remove1_perm; assumption); try congruence.
Qed.
Lemma worldof_weq : forall w w' l, weq w w' -> weq (worldof w l) (worldof w' l).
Proof. intros w w' l H. induction l as [|[c a] l IH]; cbn; [exact H|]. now apply after_weq. Qed.
Lemma weq_sym : forall w w', weq w w' -> weq w' w.
Proof. intros w w' (H1 & H2 & H3). repeat split; auto; now symmetry. Qed.
Lemma possible_weq : forall w w' c a, weq w w' -> possible w c a -> possible w' c a.
Proof.
  intros w w' c a (H1 & H2 & _) P.
  assert (A : forall x, In x (w_att w') <-> In x (w_att w)) by (intros x; split; apply Permutation_in; [symmetry|]; exact H1).
  assert (B : forall x, In x (w_heap w') <-> In x (w_heap w)) by (intros x; split; apply Permutation_in; [symmetry|]; exact H2).
  destruct c; cbn in *; rewrite ?A, ?B; exact P.
Qed.
Lemma wp_weq : forall A w w' (p : prog A) Q l, weq w w' -> wp w' p Q l -> wp w p Q l.
Proof.
  intros A w w' p Q. induction p as [a|u|c k IH]; cbn; intros l H W; auto.
  intros a P. apply IH; [exact H|]. apply W. eapply possible_weq; [|exact P]. now apply worldof_weq.
Qed.
Lemma wp_rebase : forall A w0 l (p : prog A) Q l1,
  wp (worldof w0 l) p (fun r l2 => Q r (l2 ++ l)) l1 <-> wp w0 p Q (l1 ++ l).
Proof.
  intros A w0 l p Q. induction p as [a|u|c k IH]; intros l1; cbn [wp]; try tauto.
  rewrite worldof_app. split; intros H a P.
  - exact (proj1 (IH a ((c, a) :: l1)) (H a P)).
  - exact (proj2 (IH a ((c, a) :: l1)) (H a P)).
Qed.
Lemma frees_weq : forall w w' l, weq w w' -> frees_ok w' l -> frees_ok w l.
Proof.
  intros w w' l H. induction l as [|[c a] l IH]; cbn; auto. intros F. destruct c; auto. destruct F as (F & F'). split; auto.
  eapply Permutation_in; [|exact F]. symmetry. apply (worldof_weq w w' l H).
Qed.

(** a queue as its methods leave it *)
Definition fine (o : queue) : Prop :=
  0 <= q_info o /\ 0 <= q_ptr o /\
  (q_info o = 0 <-> q_boxes o = 0) /\ (q_info o = 0 -> q_ptr o = 0) /\ (q_info o <> 0 -> q_sem o <> -1).
(** calls that give a queue what it has *)
Definition given (o : queue) : log :=
  List.map (fun p => (New 0, p)) (nz (q_ptr o)) ++ List.map (fun p => (Shmat 0, p)) (nz (q_info o)).
Lemma given_world : forall w o, 0 <= q_info o -> 0 <= q_ptr o ->
  worldof w (given o) = mkW (nz (q_info o) ++ w_att w) (nz (q_ptr o) ++ w_heap w) (w_lock w).
Proof.
  intros [wa wh wl] o H1 H2. unfold given, nz.
  destruct (Z.eqb_spec (q_info o) 0), (Z.eqb_spec (q_ptr o) 0); cbn; try reflexivity.
  - destruct (Z.eqb_spec (q_ptr o) 0); [lia|reflexivity].
  - destruct (Z.eqb_spec (q_info o) (-1)); [lia|reflexivity].
  - destruct (Z.eqb_spec (q_ptr o) 0); [lia|]. destruct (Z.eqb_spec (q_info o) (-1)); [lia|reflexivity].
Qed.
Lemma owns_given : forall w o, fine o -> owns w o (given o).
Proof.
  intros w o (H1 & H2 & H3 & H4 & H5). unfold owns. rewrite given_world by assumption. cbn.
  repeat (split; [reflexivity|]). split; [|auto].
  unfold given, nz. destruct (Z.eqb_spec (q_info o) 0), (Z.eqb_spec (q_ptr o) 0); cbn; auto.
Qed.
Lemma given_headers : forall o, headers_ok (given o).
Proof. intros o. unfold given, nz. destruct (q_ptr o =? 0), (q_info o =? 0); cbn; auto. Qed.

(** what a method of one queue does while other things are held *)
Definition frame (w0 : world) (ra rh : list Z) (o : queue) (l : log) : Prop :=
  fine o /\ Permutation (w_att (worldof w0 l)) (nz (q_info o) ++ ra) /\
  Permutation (w_heap (worldof w0 l)) (nz (q_ptr o) ++ rh) /\ frees_ok w0 l.
Lemma framed : forall A (p : prog A) get o w0 ra rh l,
  (forall w1 l1, owns w1 o l1 -> wp w1 p (qgood w1 A get) l1) -> frame w0 ra rh o l ->
  wp w0 p (fun r l' => (r = Ub NullDeref /\ ~ headers_ok l') \/ exists x, r = Ok x /\ frame w0 ra rh (get x) l') l.
Proof.
  intros A p get o w0 ra rh l H (F & Pa & Ph & Fr).
  set (w1 := mkW ra rh (w_lock (worldof w0 l))).
  assert (E : weq (worldof w0 l) (worldof w1 (given o))).
  { rewrite given_world by apply F. repeat split; assumption. }
  apply (proj1 (wp_rebase A w0 l p _ [])). apply (wp_weq _ _ _ _ _ _ E).
  eapply wp_mono; [|apply (proj2 (wp_rebase A w1 (given o) p (qgood w1 A get) [])); apply H, owns_given, F].
  cbn beta. intros r l1 [(-> & N)|(x & -> & O)].
  - left. split; [reflexivity|]. rewrite headers_app in *. pose proof (given_headers o). tauto.
  - right. exists x. split; [reflexivity|]. destruct O as (O1 & O2 & O3 & O4).
    pose proof (worldof_weq _ _ l1 E) as (E1 & E2 & _). rewrite worldof_app in O1, O2. rewrite frees_app in O3.
    split; [exact O4|]. rewrite worldof_app. split; [rewrite E1, O1; reflexivity|]. split; [rewrite E2, O2; reflexivity|].
    rewrite frees_app. split; [|exact Fr]. eapply frees_weq; [exact E|apply O3].
Qed.
Lemma q_destroy_owns : forall w0 o l, owns w0 o l -> wp w0 (q_destroy o) (qgood w0 _ (fun _ => queue_new)) l.
Proof.
  intros w0 o l O. unfold q_destroy.
  assert (D : forall o l, owns w0 o l -> q_info o = 0 -> q_deallocate o = Ret o).
  { intros o' l' O' I'. unfold q_deallocate. destruct O' as (_ & _ & _ & _ & _ & _ & O' & _). rewrite (O' I'). reflexivity. }
  assert (N : forall o l, owns w0 o l -> q_info o = 0 -> owns w0 queue_new l).
  { intros o' l' (O1 & O2 & O3 & O4 & O5 & O6 & O7 & O8) I'. rewrite (O7 I') in O2. rewrite I' in O1.
    unfold owns. cbn. repeat (split; [assumption || lia|]). lia. }
  apply wp_bind. destruct (Z.eqb_spec (q_boxes o) 0) as [Z0|Z0]; norm.
  - assert (q_info o = 0) by (apply O; exact Z0). rewrite (D o l) by auto. cbn. right. eexists. split; [reflexivity|]. eapply N; eauto.
  - eapply wp_mono; [|apply q_disconnect_owns; exact O]. cbn beta. intros r2 l2 (o2 & -> & O2 & I2 & _).
    rewrite (D o2 l2) by auto. cbn. right. eexists. split; [reflexivity|]. eapply N; eauto.
Qed.
Lemma qu_call_owns : forall w0 c o l, owns w0 o l -> wp w0 (qu_call c o) (qgood w0 _ fst) l.
Proof.
  intros w0 [c|] o l O; cbn [qu_call]; [apply q_call_owns; exact O|]. right. eexists. split; [reflexivity|exact O].
Qed.

(** what all queues hold *)
Lemma segments_set : forall s i o x, obj s i = Some o ->
  Permutation (segments (setobj s i x)) (match x with Some o => nz (q_info o) | None => [] end ++ segments (setobj s i None)).
Proof.
  unfold obj, segments. induction s as [|y s IH]; intros [|i] o x H; cbn in *; try discriminate.
  - reflexivity.
  - rewrite (IH i o x H). rewrite !app_assoc. apply Permutation_app_tail. apply Permutation_app_comm.
Qed.
Lemma buffers_set : forall s i o x, obj s i = Some o ->
  Permutation (buffers (setobj s i x)) (match x with Some o => nz (q_ptr o) | None => [] end ++ buffers (setobj s i None)).
Proof.
  unfold obj, buffers. induction s as [|y s IH]; intros [|i] o x H; cbn in *; try discriminate.
  - reflexivity.
  - rewrite (IH i o x H). rewrite !app_assoc. apply Permutation_app_tail. apply Permutation_app_comm.
Qed.
Lemma setobj_same : forall T (s : objs T) i o, obj s i = Some o -> setobj s i (Some o) = s.
Proof.
  unfold obj. intros T. induction s as [|y s IH]; intros [|i] o H; cbn in *; try discriminate.
  - destruct y; congruence.
  - now rewrite (IH i o H).
Qed.
Definition queues_inv (w0 : world) (la lh : list Z) (s : objs queue) (l : log) : Prop :=
  (forall i o, obj s i = Some o -> fine o) /\
  Permutation (w_att (worldof w0 l)) (segments s ++ la) /\
  Permutation (w_heap (worldof w0 l)) (buffers s ++ lh) /\ frees_ok w0 l.
Lemma inv_frame : forall w0 la lh s l i o, queues_inv w0 la lh s l -> obj s i = Some o ->
  frame w0 (segments (setobj s i None) ++ la) (buffers (setobj s i None) ++ lh) o l.
Proof.
  intros w0 la lh s l i o (F & A & H & R) O. split; [exact (F _ _ O)|].
  pose proof (segments_set s i o (Some o) O) as X. pose proof (buffers_set s i o (Some o) O) as Y.
  rewrite (setobj_same _ _ _ _ O) in X, Y. rewrite !app_assoc, <- X, <- Y. auto.
Qed.
Lemma frame_inv : forall w0 la lh s l' i o x, (forall i o, obj s i = Some o -> fine o) -> obj s i = Some o ->
  frame w0 (segments (setobj s i None) ++ la) (buffers (setobj s i None) ++ lh) (match x with Some o' => o' | None => queue_new end) l' ->
  queues_inv w0 la lh (setobj s i x) l'.
Proof.
  intros w0 la lh s l' i o x F O (G & A & H & R). split.
  - intros k o' K. destruct (Nat.eq_dec i k) as [<-|N].
    + rewrite (obj_set_same _ _ _ o) in K by exact O. subst x. exact G.
    + rewrite obj_set_other in K by exact N. exact (F _ _ K).
  - rewrite (segments_set s i o x O), (buffers_set s i o x O). rewrite <- !app_assoc. destruct x; auto.
Qed.
Lemma segments_snoc : forall s o, segments (s ++ [Some o]) = segments s ++ nz (q_info o).
Proof. intros. unfold segments. rewrite flat_map_app. cbn. now rewrite app_nil_r. Qed.
Lemma buffers_snoc : forall s o, buffers (s ++ [Some o]) = buffers s ++ nz (q_ptr o).
Proof. intros. unfold buffers. rewrite flat_map_app. cbn. now rewrite app_nil_r. Qed.
Lemma inv_snoc : forall w0 la lh s l o, queues_inv w0 la lh s l -> fine o -> idle_queue o ->
  queues_inv w0 la lh (s ++ [Some o]) l.
Proof.
  intros w0 la lh s l o (F & A & H & R) G (I1 & I2). split.
  - intros i o' K. destruct (obj_snoc _ _ _ _ _ K) as [E|(_ & ->)]; [exact (F _ _ E)|exact G].
  - rewrite segments_snoc, buffers_snoc, I1, I2. cbn. rewrite !app_nil_r. auto.
Qed.
Lemma fine_new : fine queue_new.
Proof. unfold fine. cbn. lia. Qed.

Lemma queue_step : forall strict w0 la lh a s l, queues_inv w0 la lh s l -> op_careful strict a s ->
  wp w0 (queue_op a s) (fun r l' => (r = Ub NullDeref /\ ~ headers_ok l') \/
    exists s' la' lh', r = Ok s' /\ queues_inv w0 la' lh' s' l' /\ (strict = true -> la' = la /\ lh' = lh)) l.
Proof.
  intros strict w0 la lh a s l V C. unfold queue_op, do_op.
  assert (Stay : wp w0 (Ret s) (fun r l' => (r = Ub NullDeref /\ ~ headers_ok l') \/
    exists s' la' lh', r = Ok s' /\ queues_inv w0 la' lh' s' l' /\ (strict = true -> la' = la /\ lh' = lh)) l).
  { right. exists s, la, lh. auto. }
  destruct a as [|j|i j|i c|i]; cbn [op_careful] in C.
  - right. exists (s ++ [Some queue_new]), la, lh. split; [reflexivity|]. split; [|auto].
    apply inv_snoc; [exact V|exact fine_new|split; reflexivity].
  - destruct (obj s j) as [o|] eqn:O; [|exact Stay]. right. exists (s ++ [Some o]), la, lh. split; [reflexivity|].
    split; [|auto]. apply inv_snoc; [exact V|exact (proj1 V _ _ O)|exact (C _ eq_refl)].
  - destruct (obj s i) as [oi|] eqn:Oi; [|exact Stay]. destruct (obj s j) as [o|] eqn:O; [|exact Stay].
    destruct C as (C1 & C2). destruct (C1 _ eq_refl) as (I1 & I2).
    pose proof (inv_frame _ _ _ _ _ _ _ V Oi) as (G & A & H & R).
    right. exists (setobj s i (Some o)), (nz (q_info oi) ++ la), (nz (q_ptr oi) ++ lh). split; [reflexivity|]. split.
    + apply (frame_inv _ _ _ s l i oi (Some o)); [exact (proj1 V)|exact Oi|].
      split; [exact (proj1 V _ _ O)|]. rewrite I1, I2. cbn [nz Z.eqb app].
      rewrite A, H. split; [apply Permutation_app_swap_app|]. split; [apply Permutation_app_swap_app|exact R].
    + intros T. destruct (C2 T _ eq_refl) as (J1 & J2). rewrite J1, J2. auto.
  - destruct (obj s i) as [o|] eqn:O; [|exact Stay]. apply wp_bind.
    eapply wp_mono; [|exact (framed _ (qu_call c o) fst o w0 _ _ l (fun w1 l1 => qu_call_owns w1 c o l1) (inv_frame _ _ _ _ _ _ _ V O))].
    cbn beta. intros r l' [(-> & N)|([o' b] & -> & G)]; [left; auto|]. cbn [wp]. right.
    exists (setobj s i (Some o')), la, lh. split; [reflexivity|]. split; [|auto]. eapply frame_inv; [exact (proj1 V)|exact O|exact G].
  - destruct (obj s i) as [o|] eqn:O; [|exact Stay]. apply wp_bind.
    eapply wp_mono; [|exact (framed _ (q_destroy o) (fun _ => queue_new) o w0 _ _ l (fun w1 l1 => q_destroy_owns w1 o l1) (inv_frame _ _ _ _ _ _ _ V O))].
    cbn beta. intros r l' [(-> & N)|(o' & -> & G)]; [left; auto|]. cbn [wp]. right.
    exists (setobj s i None), la, lh. split; [reflexivity|]. split; [|auto]. eapply frame_inv; [exact (proj1 V)|exact O|exact G].
Qed.

Lemma segments_in : forall s i o, obj s i = Some o -> q_info o <> 0 -> In (q_info o) (segments s).
Proof.
  intros s i o O N. rewrite <- (setobj_same _ _ _ _ O). eapply Permutation_in; [symmetry; apply (segments_set s i o (Some o) O)|].
  apply in_or_app. left. unfold nz. destruct (Z.eqb_spec (q_info o) 0); [contradiction|left; reflexivity].
Qed.
Lemma buffers_in : forall s i o, obj s i = Some o -> q_ptr o <> 0 -> In (q_ptr o) (buffers s).
Proof.
  intros s i o O N. rewrite <- (setobj_same _ _ _ _ O). eapply Permutation_in; [symmetry; apply (buffers_set s i o (Some o) O)|].
  apply in_or_app. left. unfold nz. destruct (Z.eqb_spec (q_ptr o) 0); [contradiction|left; reflexivity].
Qed.
Lemma inv_touch : forall w0 la lh a s l, queues_inv w0 la lh s l -> queue_touch (worldof w0 l) a s.
Proof.
  intros w0 la lh a s l (F & A & H & _).
  assert (X : forall i o, obj s i = Some o -> q_info o <> 0 -> In (q_info o) (w_att (worldof w0 l))).
  { intros i o O N. eapply Permutation_in; [symmetry; exact A|]. apply in_or_app. left. eapply segments_in; eauto. }
  assert (Y : forall i o, obj s i = Some o -> q_ptr o <> 0 -> In (q_ptr o) (w_heap (worldof w0 l))).
  { intros i o O N. eapply Permutation_in; [symmetry; exact H|]. apply in_or_app. left. eapply buffers_in; eauto. }
  destruct a as [|j|i j|i c|i]; cbn; auto. destruct c as [[bs mb| |]|]; auto.
  - intros o O B. split; [apply (X i o O)|apply (Y i o O)]. intros E. apply B. apply (F _ _ O). exact E.
  - intros o O. apply (Y i o O).
Qed.
Lemma headers_step : forall a ops s ans l,
  headers_ok (snd (run (do_ops queue_op (a :: ops) s) ans l)) -> headers_ok (snd (run (queue_op a s) ans l)).
Proof.
  intros a ops s ans l. rewrite do_ops_run. destruct (run (queue_op a s) ans l) as [[s'|u|] l'] eqn:E; auto.
  cbn [snd]. destruct (run_extends _ (do_ops queue_op ops s') ans l') as (l1 & ->). rewrite headers_app. tauto.
Qed.
Lemma queue_history : forall strict ops w0 la lh ans s l, queues_inv w0 la lh s l -> careful strict ans ops s l ->
  sane w0 (snd (run (do_ops queue_op ops s) ans l)) -> headers_ok (snd (run (do_ops queue_op ops s) ans l)) ->
  touches_ok queue_op queue_touch w0 ans ops s l /\
  exists s' la' lh', fst (run (do_ops queue_op ops s) ans l) = Ok s' /\
    queues_inv w0 la' lh' s' (snd (run (do_ops queue_op ops s) ans l)) /\ (strict = true -> la' = la /\ lh' = lh).
Proof.
  intros strict. induction ops as [|a ops IH]; intros w0 la lh ans s l V C S H.
  - split; [exact I|]. exists s, la, lh. auto.
  - cbn [careful] in C. destruct C as (Ca & C).
    pose proof (wp_run _ w0 _ _ ans l (queue_step strict w0 la lh a s l V Ca) (sane_step _ _ _ _ _ _ _ _ _ S)) as W.
    pose proof (headers_step _ _ _ _ _ H) as Hs. cbn beta in W. cbn [touches_ok]. rewrite do_ops_run in *.
    destruct (run (queue_op a s) ans l) as [r l1]. cbn [fst snd] in *.
    destruct W as [(_ & N)|(s1 & la1 & lh1 & -> & V1 & K1)]; [contradiction|].
    destruct (IH w0 la1 lh1 ans s1 l1 V1 C S H) as (T & s' & la' & lh' & E & V' & K').
    split; [split; [exact (inv_touch _ _ _ _ _ _ V)|exact T]|]. exists s', la', lh'. split; [exact E|]. split; [exact V'|].
    intros Q. destruct (K1 Q) as (-> & ->). exact (K' Q).
Qed.
Lemma inv_start : forall w0, queues_inv w0 (w_att w0) (w_heap w0) [] [].
Proof. intros w0. split; [intros [|i] o; discriminate|]. repeat split; reflexivity. Qed.

(** Programs that make, copy, assign, use and destroy queues in any order, whatever the kernel
    answers (but that no queue with other sizes is found, C107): as long as they copy and assign
    only queues that are not connected, nothing crashes, every buffer is freed at most once, and
    what a queue works on is still there. *)
Theorem C147_careful_partial : forall ops w0 ans,
  let r := run (do_ops queue_op ops []) ans [] in
  sane w0 (snd r) -> headers_ok (snd r) -> careful false ans ops [] [] ->
  (exists s, fst r = Ok s) /\ frees_ok w0 (snd r) /\ touches_ok queue_op queue_touch w0 ans ops [] [].
Proof.
  intros ops w0 ans r S H C.
  destruct (queue_history false ops w0 _ _ ans [] [] (inv_start w0) C S H) as (T & s & la & lh & E & (_ & _ & _ & F) & _).
  split; [exists s; exact E|]. split; [exact F|exact T].
Qed.
Print Assumptions C147_careful_partial.

(** If they also assign only to queues that are not connected, the process holds at every time
    exactly what its queues point to; when all are destroyed, nothing is left. *)
Theorem C147_careful_releases_partial : forall ops w0 ans,
  let r := run (do_ops queue_op ops []) ans [] in
  sane w0 (snd r) -> headers_ok (snd r) -> careful true ans ops [] [] ->
  exists s, fst r = Ok s /\
    Permutation (w_att (worldof w0 (snd r))) (segments s ++ w_att w0) /\
    Permutation (w_heap (worldof w0 (snd r))) (buffers s ++ w_heap w0) /\
    (Forall (fun x => x = None) s ->
     Permutation (w_att (worldof w0 (snd r))) (w_att w0) /\ Permutation (w_heap (worldof w0 (snd r))) (w_heap w0)).
Proof.
  intros ops w0 ans r S H C.
  destruct (queue_history true ops w0 _ _ ans [] [] (inv_start w0) C S H) as (T & s & la & lh & E & (_ & A & B & _) & K).
  destruct (K eq_refl) as (-> & ->). exists s. split; [exact E|]. split; [exact A|]. split; [exact B|].
  intros F. assert (Z : segments s = [] /\ buffers s = []).
  { clear - F. induction F as [|x s -> F (IH1 & IH2)]; [auto|]. unfold segments, buffers in *. cbn. auto. }
  destruct Z as (Z1 & Z2). rewrite Z1 in A. rewrite Z2 in B. auto.
Qed.
Print Assumptions C147_careful_releases_partial.

(** *** copies of connected queues *)

Lemma remove1_in : forall x y l, In x (remove1 y l) -> In x l.
Proof. intros x y l. induction l as [|z l IH]; cbn; auto. destruct (y =? z); cbn; tauto. Qed.
Lemma remove1_nodup : forall y l, NoDup l -> NoDup (remove1 y l).
Proof.
  intros y l H. induction H as [|z l N H IH]; cbn; [constructor|]. destruct (y =? z); [exact H|]. constructor; auto.
  intros I. apply N. eapply remove1_in, I.
Qed.
Lemma remove1_gone : forall y l, NoDup l -> ~ In y (remove1 y l).
Proof.
  intros y l H. induction H as [|z l N H IH]; cbn; [tauto|]. destruct (Z.eqb_spec y z) as [->|Ne]; [exact N|].
  cbn. intros [E|I]; [congruence|contradiction].
Qed.
Lemma sane_nodup : forall w0 l, sane w0 l ->
  (NoDup (w_heap w0) -> NoDup (w_heap (worldof w0 l))) /\ (NoDup (w_att w0) -> NoDup (w_att (worldof w0 l))).
Proof.
  intros w0 l. induction l as [|[c a] l IH]; cbn; [tauto|]. intros (P & S). destruct (IH S) as (H1 & H2).
  destruct c; cbn in *; try (match goal with |- context [if ?b then _ else _] => destruct b eqn:B end); cbn; split; auto; intros N;
    try (apply remove1_nodup; auto; fail); constructor; auto; apply Z.eqb_neq in B; tauto.
Qed.
Lemma destroy_log : forall o ans l, q_ptr o <> 0 -> exists a l1, snd (run (q_destroy o) ans l) = (Delete (q_ptr o), a) :: l1 /\
  (l1 = l \/ exists i x, l1 = (Shmdt i, x) :: l) /\ exists o', fst (run (q_destroy o) ans l) = Ok o'.
Proof.
  intros [p i bx s h bs mb] ans l N. unfold q_destroy, q_disconnect, q_deallocate. cbn [q_ptr q_boxes q_info] in *.
  destruct (Z.eqb_spec bx 0); [|destruct (Z.eqb_spec i 0)]; cbn; destruct (Z.eqb_spec p 0); try contradiction; cbn;
    eexists _, _; (split; [reflexivity|]); split; eauto.
Qed.

Lemma op_copy : forall s j o, obj s j = Some o -> queue_op (OCopy j) s = Ret (s ++ [Some o]).
Proof. intros s j o O. unfold queue_op, do_op. rewrite O. reflexivity. Qed.
Lemma op_destroy : forall s i o, obj s i = Some o -> queue_op (ODestroy i) s = (_ <~ q_destroy o ;; Ret (setobj s i None)).
Proof. intros s i o O. unfold queue_op, do_op. rewrite O. reflexivity. Qed.
Lemma op_call : forall s i c o, obj s i = Some o ->
  queue_op (OCall i c) s = ('(o, b) <~ qu_call c o ;; Ret (setobj s i (Some o))).
Proof. intros s i c o O. unfold queue_op, do_op. rewrite O. reflexivity. Qed.

(** Whatever happened before: a queue that has a buffer is copied, and both are destroyed; the
    buffer is freed a second time. *)
Theorem C147_copy_freed_twice : forall ops w0 ans s l j o,
  NoDup (w_heap w0) ->
  run (do_ops queue_op ops []) ans [] = (Ok s, l) -> obj s j = Some o -> q_ptr o <> 0 ->
  let r := run (do_ops queue_op (ops ++ [OCopy j; ODestroy j; ODestroy (length s)]) []) ans [] in
  sane w0 (snd r) -> ~ frees_ok w0 (snd r).
Proof.
  intros ops w0 ans s l j o D E O N r. unfold r. rewrite (do_ops_app _ _ _ _ _ _ _ _ _ _ E).
  rewrite do_ops_run, (op_copy _ _ _ O). cbn [run].
  rewrite do_ops_run, (op_destroy _ _ o), run_bind by (apply obj_snoc_old; exact O).
  destruct (destroy_log o ans l N) as (a & l1 & E1 & X1 & o1 & R1).
  destruct (run (q_destroy o) ans l) as [r1 l1']. cbn [fst snd] in E1, R1. subst r1 l1'. cbn [run].
  assert (L : (j < length s)%nat) by (eapply obj_len; eauto).
  rewrite do_ops_run, (op_destroy _ _ o), run_bind by (rewrite obj_set_other by lia; apply obj_snoc_new).
  destruct (destroy_log o ans ((Delete (q_ptr o), a) :: l1) N) as (a2 & l2 & E2 & X2 & o2 & R2).
  destruct (run (q_destroy o) ans ((Delete (q_ptr o), a) :: l1)) as [r2 l2']. cbn [fst snd] in E2, R2. subst r2 l2'.
  cbn [do_ops run snd]. intros S F. cbn [frees_ok] in F. destruct F as (F & _).
  assert (G : ~ In (q_ptr o) (w_heap (worldof w0 ((Delete (q_ptr o), a) :: l1)))).
  { cbn [worldof after w_heap]. apply remove1_gone. apply (sane_nodup w0 l1); [|exact D].
    change ((Delete (q_ptr o), a2) :: l2) with ([(Delete (q_ptr o), a2)] ++ l2) in S. apply sane_app in S.
    destruct X2 as [->|(i & x & ->)]; cbn [sane] in S; tauto. }
  destruct X2 as [->|(i & x & ->)]; [contradiction|]. apply G. cbn [worldof] in *. cbn [after] in F.
  destruct (x =? 0); exact F.
Qed.
Print Assumptions C147_copy_freed_twice.

(** Whatever happened before: a connected queue is copied, and the original is disconnected; a
    flush or unflush of the copy works on a segment that is not attached any more. *)
Theorem C147_copy_without_segment : forall ops w0 ans s l j o,
  NoDup (w_att w0) ->
  run (do_ops queue_op ops []) ans [] = (Ok s, l) -> obj s j = Some o -> q_info o <> 0 -> q_boxes o <> 0 ->
  let more := [OCopy j; OCall j (QU QDisconnect); OCall (length s) (QU QUse)] in
  sane w0 (snd (run (do_ops queue_op (ops ++ more) []) ans [])) ->
  ~ touches_ok queue_op queue_touch w0 ans (ops ++ more) [] [].
Proof.
  intros ops w0 ans s l j o D E O N B more S T.
  assert (T' : touches_ok queue_op queue_touch w0 ans more s l).
  { clear - E T. revert E T. generalize (@nil (option queue)) as s0. generalize (@nil (call * Z)) as l0. induction ops as [|a ops IH].
    - intros l0 s0 E T. cbn in E. injection E; intros; subst. exact T.
    - intros l0 s0 E T. rewrite do_ops_run in E. cbn [app touches_ok] in T. destruct T as (_ & T).
      destruct (run (queue_op a s0) ans l0) as [[s1|u|] l1]; try discriminate. exact (IH _ _ E T). }
  rewrite (do_ops_app _ _ _ _ _ _ _ _ _ _ E) in S. unfold more in *. clear T more E.
  cbn [touches_ok] in T'. destruct T' as (_ & T). rewrite do_ops_run in S.
  rewrite (op_copy _ _ _ O) in S, T. cbn [run] in S, T.
  destruct T as (_ & T). rewrite do_ops_run in S.
  rewrite (op_call _ _ _ o), run_bind in S, T by (apply obj_snoc_old; exact O).
  assert (L : (j < length s)%nat) by (eapply obj_len; eauto).
  set (x := ans l (Shmdt (q_info o))) in *.
  assert (X : exists o1 b l1, run (qu_call (QU QDisconnect) o) ans l = (Ok (o1, b), l1) /\
     (l1 = (Shmdt (q_info o), x) :: l \/ exists p y, l1 = (Delete p, y) :: (Shmdt (q_info o), x) :: l)).
  { destruct o as [p i bx sm h bs mb]. cbn [q_info] in *. unfold qu_call, q_call, q_disconnect, q_deallocate. cbn [q_info].
    destruct (Z.eqb_spec i 0); [contradiction|]. cbn. fold x. destruct (Z.eqb_spec p 0); cbn; eexists _, _, _; split; eauto. }
  destruct X as (o1 & b & l1 & R & Y). rewrite R in S, T. cbn [run] in S, T. destruct T as (T & _).
  cbn [queue_touch] in T. specialize (T o). rewrite obj_set_other, obj_snoc_new in T by lia.
  destruct (T eq_refl B) as (T1 & _). rewrite do_ops_run in S.
  assert (S1 : sane w0 l1).
  { destruct (run (queue_op _ _) ans l1) as [r3 l3] eqn:E3.
    pose proof (run_extends _ (queue_op (OCall (length s) (QU QUse)) (setobj (s ++ [Some o]) j (Some o1))) ans l1) as (l4 & E4).
    rewrite E3 in E4. cbn [snd] in E4. subst l3. destruct r3; cbn [do_ops run snd] in S; eapply sane_app, S. }
  assert (G : forall l0, l0 = (Shmdt (q_info o), x) :: l -> sane w0 l0 -> ~ In (q_info o) (w_att (worldof w0 l0))).
  { intros l0 -> S0. cbn [sane] in S0. destruct S0 as (P & S0). cbn [worldof after]. cbn [possible] in P.
    destruct P as [(-> & P)|(-> & P)]; cbn.
    - apply remove1_gone. apply (sane_nodup w0 l S0). exact D.
    - exact P. }
  destruct Y as [->|(p & y & ->)]; [exact (G _ eq_refl S1 T1)|]. destruct S1 as (_ & S1). exact (G _ eq_refl S1 T1).
Qed.
Print Assumptions C147_copy_without_segment.

(** a program in which this happens, and one that leaves a segment and a buffer behind *)
Definition twice_ops : list (op qucall) :=
  [ONew; OCall 0 (QU (QConnect 16 4)); OCopy 0; ODestroy 0; ODestroy 1].
Theorem C147_copies_refuted : exists ops ans,
  let r := run (do_ops queue_op ops []) ans [] in
  ops = twice_ops /\ sane w_empty (snd r) /\ headers_ok (snd r) /\ locks_work (snd r) /\ ~ frees_ok w_empty (snd r).
Proof.
  exists twice_ops, (fun l c => match c with Shmdt p => if existsb (fun x => match x with (Shmdt q, _) => q =? p | _ => false end) l then -1 else 0 | _ => kind l c end).
  cbn zeta. split; [reflexivity|]. split; [|split; [|split]].
  - vm_compute. repeat split; auto; try discriminate; try (left; split; [reflexivity|discriminate]);
    try (left; split; [reflexivity|left; reflexivity]); try (right; split; [reflexivity|intuition discriminate]); try (right; split; [reflexivity|tauto]).
  - vm_compute. repeat split; discriminate.
  - vm_compute. repeat split; reflexivity.
  - vm_compute. intuition discriminate.
Qed.
Print Assumptions C147_copies_refuted.
Definition lost_ops : list (op qucall) :=
  [ONew; OCall 0 (QU (QConnect 16 4)); ONew; OAssign 0 1; ODestroy 0; ODestroy 1].
Theorem C147_assign_loses_refuted : exists ops ans,
  let r := run (do_ops queue_op ops []) ans [] in
  ops = lost_ops /\ sane w_empty (snd r) /\ headers_ok (snd r) /\ locks_work (snd r) /\ careful false ans ops [] [] /\
  fst r = Ok [None; None] /\ w_att (worldof w_empty (snd r)) <> [] /\ w_heap (worldof w_empty (snd r)) <> [].
Proof.
  exists lost_ops, kind. cbn zeta. split; [reflexivity|]. split; [|split; [|split; [|split; [|split; [|split]]]]].
  - vm_compute. repeat split; auto; try discriminate; try (left; split; [reflexivity|discriminate]);
    try (right; split; [reflexivity|intuition discriminate]); try (right; split; [reflexivity|tauto]).
  - vm_compute. repeat split; discriminate.
  - vm_compute. repeat split; reflexivity.
  - vm_compute. repeat split; intros; try discriminate; match goal with H : Some _ = Some _ |- _ => injection H; intros; subst; reflexivity end.
  - reflexivity.
  - vm_compute. discriminate.
  - vm_compute. discriminate.
Qed.
Print Assumptions C147_assign_loses_refuted.

(** careful programs exist: a new queue is copied, both are connected, used and destroyed *)
Definition careful_ops : list (op qucall) :=
  [ONew; OCopy 0; OCall 0 (QU (QConnect 16 4)); OCall 1 (QU (QConnect 16 4)); OCall 0 QItem; OCall 0 (QU QUse);
   OCall 1 (QU QUse); OCall 1 QItem; ODestroy 0; OCall 1 (QU QUse); ODestroy 1].
Example C147_ex : let r := run (do_ops queue_op careful_ops []) kind [] in
  sane w_empty (snd r) /\ headers_ok (snd r) /\ careful true kind careful_ops [] [] /\ fst r = Ok [None; None] /\
  length (ever (snd r)) = 2%nat.
Proof.
  cbn zeta. split; [|split; [|split; [|split]]].
  - vm_compute. repeat split; auto; try discriminate; try (left; split; [reflexivity|discriminate]);
    try (left; split; [reflexivity|tauto]); try (right; split; [reflexivity|intuition discriminate]); try (right; split; [reflexivity|tauto]).
  - vm_compute. repeat split; discriminate.
  - vm_compute. repeat split; intros; try discriminate; match goal with H : Some _ = Some _ |- _ => injection H; intros; subst; reflexivity end.
  - reflexivity.
  - reflexivity.
Qed.
