(** Lemmas about the string storage: the tree, and histories, for arbitrary keys. *)

From Coq Require Import ZArith List Bool Lia.
From Verif Require Import Base SStore_Model SStore_Spec SStore_Proof.
Import ListNotations.
Local Open Scope nat_scope.
Local Opaque block_size.

Fixpoint twf (L : list slot) (r : node) : Prop :=
  match r with
  | Node _ cap kids =>
      capinv cap (length kids) /\
      (fix go (l : list node) : Prop :=
         match l with [] => True | x :: l => (known L x /\ twf L x) /\ go l end) kids
  end.

Lemma twf_eq : forall L r, twf L r <->
  capinv (n_cap r) (length (n_kids r)) /\ Forall (fun x => known L x /\ twf L x) (n_kids r).
Proof.
  intros L [v cap kids]. cbn [n_cap n_kids].
  assert (G : forall l, (fix go (l : list node) : Prop :=
         match l with [] => True | x :: l => (known L x /\ twf L x) /\ go l end) l <->
         Forall (fun x => known L x /\ twf L x) l).
  { induction l as [|x l IH]; [split; auto|]. rewrite Forall_cons_iff. rewrite IH. tauto. }
  cbn [twf]. rewrite G. tauto.
Qed.

Fixpoint node_ind' (P : node -> Prop)
  (H : forall v cap kids, Forall P kids -> P (Node v cap kids)) (r : node) : P r :=
  match r with
  | Node v cap kids =>
      H v cap kids ((fix go (l : list node) : Forall P l :=
        match l with [] => Forall_nil P | x :: l => Forall_cons x (node_ind' P H x) (go l) end) kids)
  end.

Lemma twf_mono : forall L L', incl L L' -> forall r, twf L r -> twf L' r.
Proof.
  intros L L' HL. induction r as [v cap kids IH] using node_ind'. intros H.
  apply twf_eq in H. apply twf_eq. cbn [n_cap n_kids] in *. destruct H as [H1 H2]. split; auto.
  rewrite Forall_forall in *. intros x Hx. destruct (H2 x Hx) as [K W]. split; auto.
  unfold known in *. eapply incl_map; eauto.
Qed.

Lemma twf_known : forall L r, twf L r -> Forall (known L) (n_kids r).
Proof.
  intros L r H. apply twf_eq in H. destruct H as [_ H]. eapply Forall_impl; [|exact H].
  intros a [K _]. exact K.
Qed.

Lemma insert_child_ok : forall L r i v, twf L r -> i <= length (n_kids r) -> In v (map sl_v L) ->
  exists r', insert_child r i v = Ok r' /\ twf L r' /\
    n_kids r' = firstn i (n_kids r) ++ Node v 0 [] :: skipn i (n_kids r).
Proof.
  intros L r i v W Hi Hv. unfold insert_child. apply twf_eq in W. destruct W as [Wc Wk].
  destruct (grow_room _ _ Wc) as [Hr Hc].
  destruct (Nat.leb_spec i (length (n_kids r))), (Nat.ltb_spec (length (n_kids r)) (grow (n_cap r) (length (n_kids r))));
    try lia. cbn [andb]. eexists. split; [reflexivity|]. cbn [n_kids]. split; [|reflexivity].
  apply twf_eq. cbn [n_cap n_kids]. split.
  - rewrite app_length. cbn [length]. rewrite firstn_length, skipn_length.
    replace (Nat.min i (length (n_kids r)) + S (length (n_kids r) - i)) with (S (length (n_kids r))) by lia.
    exact Hc.
  - rewrite <- (firstn_skipn i (n_kids r)) in Wk. apply Forall_app in Wk. destruct Wk as [W1 W2].
    apply Forall_app. split; auto. constructor; auto. split; [exact Hv|].
    apply twf_eq. cbn. split; [left; auto | constructor].
Qed.

Lemma Forall_upd : forall A (P : A -> Prop) l i x, Forall P l -> P x -> Forall P (upd l i x).
Proof.
  induction l as [|y l IH]; intros i x H Hx; simpl; auto. inversion H; subst.
  destruct i; constructor; auto.
Qed.

Definition at_prev (L : list slot) (prev : nat) (v : ptr) : Prop :=
  exists x, In x L /\ sl_v x = v /\ sl_p x = prev.

Definition found (L : list slot) (p : option ptr) : Prop :=
  exists x, In x L /\ p = Some (padd (sl_v x) 1).

Lemma find_add_ok : forall fuel sb L r prev s doadd, inv sb L -> twf L r -> key s ->
  prev < 256 -> length s < fuel -> length s + 2 + s_uds sb <= block_size ->
  exists sb' r' p L', find_add fuel sb r prev (cstr s) doadd = Ok (sb', r', p) /\
    inv sb' L' /\ twf L' r' /\ n_val r' = n_val r /\
    (forall x, In x (n_kids r') -> In (n_val x) (map n_val (n_kids r)) \/ at_prev L' prev (n_val x)) /\
    frame sb sb' L /\
    ((sb' = sb /\ r' = r /\ L' = L /\ (found L p \/ (p = None /\ doadd = false))) \/
     (exists x, doadd = true /\ L' = x :: L /\ p = Some (padd (sl_v x) 1) /\
        ~ In (sl_v x) (map sl_v L) /\ udata sb' (sl_v x) (zeros (s_uds sb)))).
Proof.
  induction fuel as [|fuel IH]; intros sb L r prev s doadd I W K Hp Hf Hl; [lia|].
  cbn [find_add]. pose proof (twf_known _ _ W) as FK.
  destruct (search_ok sb L (n_kids r) prev s I K FK) as (o & Eo & Po). rewrite Eo. cbn [bind].
  destruct o as [m | g].
  - destruct Po as (x & Hx & _). unfold rd. rewrite Hx. cbn [bind].
    rewrite Forall_forall in FK. destruct (known_slot L x) as (sl & Hsl & Esl);
      [apply FK; eapply nth_error_In; eauto|].
    exists sb, r, (Some (padd (n_val x) 1)), L. split; [reflexivity|].
    split; [exact I|]. split; [exact W|]. split; [reflexivity|].
    split; [intros; left; apply in_map; auto|]. split; [apply frame_refl|].
    left. repeat split; auto. left. exists sl. rewrite Esl. auto.
  - destruct Po as (Hg & HL & HR).
    assert (Hcb : exists cb, (if g =? 0 then Ok 0
             else x <- rd (n_kids r) (g - 1) ;;
                  n <- common_prefix sb (cstr s) (padd (n_val x) (s_uds sb + 1)) ;;
                  Ok (n mod 256)) = Ok cb /\ cb <= length s /\
                  (8 < cb -> exists x, nth_error (n_kids r) (g - 1) = Some x)).
    { destruct (Nat.eqb_spec g 0); [exists 0; repeat split; lia|].
      destruct (nth_error (n_kids r) (g - 1)) as [x|] eqn:Ex.
      2: { apply nth_error_None in Ex. lia. }
      unfold rd. rewrite Ex. cbn [bind].
      rewrite Forall_forall in FK. destruct (known_slot L x) as (sl & Hsl & Esl);
        [apply FK; eapply nth_error_In; eauto|].
      rewrite <- Esl. rewrite slot_common by (auto; apply (i_in _ _ I); auto). cbn [bind].
      eexists. split; [reflexivity|]. split.
      - pose proof (lcp_le_r (sl_s sl) s). pose proof (Nat.mod_le (lcp (sl_s sl) s) 256). lia.
      - eauto. }
    destruct Hcb as (cb & Ecb & Hcb & Hx). rewrite Ecb. cbn [bind].
    destruct (Nat.ltb_spec 8 cb) as [H8 | H8].
    + destruct (Hx H8) as (x & Ex). unfold rd. rewrite Ex. cbn [bind].
      rewrite skipn_cstr by auto.
      pose proof (proj1 (twf_eq _ _) W) as [Wc Wk].
      assert (Wx : known L x /\ twf L x).
      { rewrite Forall_forall in Wk. apply Wk. eapply nth_error_In; eauto. }
      destruct Wx as [Kx Wx].
      destruct (IH sb L x ((prev + cb) mod 256) (skipn cb s) doadd)
        as (sb' & x' & p & L' & E & I' & W' & V & _ & F & D); auto.
      { apply key_skipn; auto. }
      { apply Nat.mod_upper_bound. lia. }
      { rewrite skipn_length. lia. }
      { rewrite skipn_length. lia. }
      rewrite E. cbn [bind].
      assert (Hupd : upd (n_kids r) (g - 1) x = n_kids r).
      { clear -Ex. revert Ex. generalize (g - 1). induction (n_kids r) as [|y l IHl]; intros [|i] Ex; simpl in *; try congruence.
        rewrite IHl; auto. }
      assert (W'' : incl L L' -> twf L' (Node (n_val r) (n_cap r) (upd (n_kids r) (g - 1) x'))).
      { intros Hi. apply twf_eq. cbn [n_cap n_kids]. rewrite upd_length. split; auto.
        apply Forall_upd.
        - rewrite Forall_forall in *. intros y Hy. destruct (Wk y Hy) as [Ky Wy]. split.
          + unfold known in *. eapply incl_map; eauto.
          + eapply twf_mono; eauto.
        - split; auto. unfold known in *. rewrite V. eapply incl_map; eauto. }
      assert (Hvals : forall y, In y (upd (n_kids r) (g - 1) x') -> In (n_val y) (map n_val (n_kids r))).
      { intros y Hy. apply In_nth_error in Hy. destruct Hy as [i Hy].
        destruct (Nat.eq_dec (g - 1) i) as [<- | Ni].
        - rewrite nth_error_upd_same in Hy by (apply nth_error_Some; congruence).
          injection Hy as <-. rewrite V. apply in_map. eapply nth_error_In; eauto.
        - rewrite nth_error_upd_other in Hy by auto. apply in_map. eapply nth_error_In; eauto. }
      eexists _, _, _, L'. split; [reflexivity|]. split; [exact I'|].
      destruct D as [(-> & -> & -> & D) | (y & -> & -> & -> & D)].
      * split; [apply W''; apply incl_refl|]. split; [reflexivity|]. split; [auto|]. split; [exact F|].
        left. rewrite Hupd. split; [reflexivity|]. split; [destruct r; reflexivity|]. auto.
      * split; [apply W''; apply incl_tl, incl_refl|]. split; [reflexivity|]. split; [auto|]. split; [exact F|].
        right. exists y. repeat split; auto; apply D.
    + destruct doadd; cbn [negb].
      * destruct (new_slot_ok sb L prev s I K Hp Hl) as (sb' & v & E & I' & F & N & U).
        rewrite E. cbn [bind].
        destruct (insert_child_ok (mkSl v prev s :: L) r g v) as (r' & Er & Wr & Ek); auto.
        { eapply twf_mono; [|exact W]. apply incl_tl, incl_refl. }
        { left. reflexivity. }
        rewrite Er. cbn [bind]. eexists _, _, _, _. split; [reflexivity|].
        split; [exact I'|]. split; [exact Wr|].
        split.
        { unfold insert_child in Er. destruct (_ && _) in Er; [|discriminate]. injection Er as <-. reflexivity. }
        split.
        { rewrite Ek. intros y Hy. apply in_app_or in Hy.
          assert (Ho : In y (n_kids r) -> In (n_val y) (map n_val (n_kids r)) \/
            at_prev (mkSl v prev s :: L) prev (n_val y)) by (intros; left; apply in_map; auto).
          destruct Hy as [Hy | [<- | Hy]].
          - apply Ho. rewrite <- (firstn_skipn g (n_kids r)). apply in_or_app. auto.
          - right. eexists. split; [left; reflexivity|]. auto.
          - apply Ho. rewrite <- (firstn_skipn g (n_kids r)). apply in_or_app. auto. }
        split; [exact F|]. right. eexists. split; [reflexivity|]. split; [reflexivity|]. auto.
      * eexists _, _, _, L. split; [reflexivity|]. split; [exact I|]. split; [exact W|].
        split; [reflexivity|]. split; [intros; left; apply in_map; auto|].
        split; [apply frame_refl|]. left. auto 6.
Qed.

(** *** histories *)

Fixpoint adds (ops : list op) : nat :=
  match ops with [] => 0 | OAdd _ :: ops => S (adds ops) | OWrite _ _ :: ops => adds ops end.

Lemma view_app : forall ops ops' n lg p d,
  view (ops ++ ops') n lg p d = view ops' (n + adds ops) lg p (view ops n lg p d).
Proof.
  induction ops as [|[k | i e] ops IH]; intros ops' n lg p d; cbn [app view adds].
  - now rewrite Nat.add_0_r.
  - rewrite IH. f_equal. lia.
  - destruct (nth_error lg i) as [[? [q|]]|]; [destruct (_ && _)| |]; apply IH.
Qed.

Lemma view_log : forall ops n lg x p d, n + adds ops <= length lg ->
  view ops n (lg ++ x) p d = view ops n lg p d.
Proof.
  induction ops as [|[k | i e] ops IH]; intros n lg x p d H; cbn [view adds] in *; auto.
  - apply IH. lia.
  - destruct (Nat.ltb_spec i n).
    + rewrite nth_error_app1 by lia. destruct (nth_error lg i) as [[? [q|]]|]; auto.
      cbn [andb]. destruct (_ && _); auto.
    + cbn [andb]. destruct (nth_error lg i) as [[? [q|]]|] eqn:E; destruct (nth_error (lg ++ x) i) as [[? [q'|]]|]; auto.
Qed.

Lemma view_fresh : forall ops n lg p d, (forall k, ~ In (k, Some p) lg) ->
  view ops n lg p d = d.
Proof.
  induction ops as [|[k | i e] ops IH]; intros n lg p d H; cbn [view]; auto.
  destruct (nth_error lg i) as [[k [q|]]|] eqn:E; auto.
  destruct (peqb_spec q p) as [-> | N].
  - exfalso. apply (H k). eapply nth_error_In; eauto.
  - unfold peqb in *. destruct (fst q =? fst p) eqn:E1, (snd q =? snd p) eqn:E2; rewrite ?andb_false_r; auto.
    exfalso. apply N. apply Nat.eqb_eq in E1, E2. destruct q, p; simpl in *; congruence.
Qed.

Lemma view_length : forall ops n lg p d u, (forall i e, In (OWrite i e) ops -> length e <= u) ->
  length d = u -> length (view ops n lg p d) = u.
Proof.
  induction ops as [|[k | i e] ops IH]; intros n lg p d u H Hd; cbn [view]; auto.
  - apply IH; auto. intros i e He. apply (H i e). right. auto.
  - assert (He : length e <= u) by (apply (H i e); left; auto).
    assert (H' : forall i e, In (OWrite i e) ops -> length e <= u) by (intros j f Hf; apply (H j f); right; auto).
    destruct (nth_error lg i) as [[k [q|]]|]; auto. destruct (_ && _); auto.
    apply IH; auto. rewrite app_length, skipn_length. lia.
Qed.

Definition padd_inj : forall p q, padd p 1 = padd q 1 -> p = q.
Proof. intros [a b] [c d] H. unfold padd in H. simpl in H. injection H as -> H. f_equal. lia. Qed.

(** the state after the history [ops] *)
Record hinv (uds : nat) (ops : list op) (sb : sblocks) (r : node) (lg : log) (L : list slot) : Prop := {
  h_inv : inv sb L;
  h_uds : s_uds sb = uds;
  h_twf : twf L r;
  h_top : forall x, In x (n_kids r) -> at_prev L 0 (n_val x);
  h_adds : length lg = adds ops;
  h_keys : map fst lg = keys_of ops;
  h_log : forall k p, In (k, Some p) lg -> found L (Some p);
  h_none : forall k, In (k, None) lg -> block_size < length k + 1 + uds;
  h_some : forall k p, In (k, Some p) lg -> length k + 2 + uds <= block_size;
  h_data : forall x, In x L -> udata sb (sl_v x) (view ops 0 lg (padd (sl_v x) 1) (zeros uds)) }.

Lemma hinv_init : forall uds, hinv uds [] (fst (init uds)) (snd (init uds)) [] [].
Proof.
  intros uds. constructor; cbn; auto; try (intros; contradiction).
  - constructor; cbn; auto; try (intros; contradiction); try lia.
    + left. auto.
    + constructor.
  - split; auto. left. auto.
Qed.

Lemma adds_app : forall a b, adds (a ++ b) = adds a + adds b.
Proof. induction a as [|[k | i e] a IH]; intros b; cbn; rewrite ?IH; auto. Qed.
Lemma keys_of_app : forall a b, keys_of (a ++ b) = keys_of a ++ keys_of b.
Proof. induction a as [|[k | i e] a IH]; intros b; cbn; rewrite ?IH; auto. Qed.

Lemma exec_app : forall ops ops' st,
  exec st (ops ++ ops') = bind (exec st ops) (fun st => exec st ops').
Proof.
  induction ops as [|o ops IH]; intros ops' st; cbn [app exec bind]; auto.
  destruct (exec_op st o); cbn [bind]; auto.
Qed.

Lemma add_step : forall uds ops sb r lg L k, hinv uds ops sb r lg L -> key k ->
  length k + 1 + uds <> block_size ->
  exists sb' r' p L', add (sb, r) (cstr k) = Ok ((sb', r'), p) /\
    hinv uds (ops ++ [OAdd k]) sb' r' (lg ++ [(k, p)]) L' /\
    (p = None -> block_size < length k + 1 + uds) /\
    (p <> None -> find_add (S (S (length k))) sb r 0 (cstr k) true = Ok (sb', r', p)).
Proof.
  intros uds ops sb r lg L k H K Hk. unfold add. rewrite cstr_length.
  rewrite (h_uds _ _ _ _ _ _ H).
  assert (Hv : forall x q, view (ops ++ [OAdd k]) 0 (lg ++ [(k, q)]) (padd (sl_v x) 1) (zeros uds) =
                   view ops 0 lg (padd (sl_v x) 1) (zeros uds)).
  { intros x q. rewrite view_app. cbn [view]. apply view_log. rewrite (h_adds _ _ _ _ _ _ H). lia. }
  destruct (Nat.ltb_spec block_size (S (length k) + uds)) as [Hb | Hb].
  - exists sb, r, None, L. split; [reflexivity|].
    split; [|split; [intros; lia|congruence]].
    constructor; try apply H.
    + rewrite app_length, adds_app, (h_adds _ _ _ _ _ _ H). reflexivity.
    + rewrite map_app, keys_of_app, (h_keys _ _ _ _ _ _ H). reflexivity.
    + intros k0 p Hi. apply in_app_or in Hi. destruct Hi as [Hi | [Hi | []]]; [|congruence].
      eapply (h_log _ _ _ _ _ _ H); eauto.
    + intros k0 Hi. apply in_app_or in Hi. destruct Hi as [Hi | [Hi | []]].
      * eapply (h_none _ _ _ _ _ _ H); eauto.
      * injection Hi as <-. lia.
    + intros k0 p Hi. apply in_app_or in Hi. destruct Hi as [Hi | [Hi | []]]; [|congruence].
      eapply (h_some _ _ _ _ _ _ H); eauto.
    + intros x Hx. rewrite Hv. apply (h_data _ _ _ _ _ _ H); auto.
  - destruct (find_add_ok (S (S (length k))) sb L r 0 k true)
      as (sb' & r' & p & L' & E & I' & W' & _ & Tp & F & D); try apply H; auto; try lia.
    { rewrite (h_uds _ _ _ _ _ _ H). lia. }
    rewrite E. cbn [bind]. exists sb', r', p, L'. split; [reflexivity|].
    assert (Hp : found L' p).
    { destruct D as [(-> & -> & -> & [D | [D1 D2]]) | (x & _ & -> & -> & _)]; auto.
      - discriminate.
      - exists x. split; [left|]; auto. }
    assert (Hi : incl L L').
    { destruct D as [(_ & _ & -> & _) | (x & _ & -> & _)]; [apply incl_refl | apply incl_tl, incl_refl]. }
    destruct Hp as (xp & Hxp & Ep).
    split; [|split; [congruence | auto]].
    constructor.
    + exact I'.
    + destruct F as [F _]. rewrite F. apply H.
    + exact W'.
    + intros x Hx. destruct (Tp x Hx) as [Hv' | Hv']; auto. apply in_map_iff in Hv'.
      destruct Hv' as (y & Ey & Hy). destruct (h_top _ _ _ _ _ _ H y Hy) as (z & Hz & Hz').
      exists z. rewrite <- Ey. auto.
    + rewrite app_length, adds_app, (h_adds _ _ _ _ _ _ H). reflexivity.
    + rewrite map_app, keys_of_app, (h_keys _ _ _ _ _ _ H). reflexivity.
    + intros k0 q Hq. apply in_app_or in Hq. destruct Hq as [Hq | [Hq | []]].
      * destruct (h_log _ _ _ _ _ _ H _ _ Hq) as (y & Hy & Ey). exists y. auto.
      * injection Hq as <- Eq. exists xp. split; auto. congruence.
    + intros k0 Hq. apply in_app_or in Hq. destruct Hq as [Hq | [Hq | []]]; [|congruence].
      eapply (h_none _ _ _ _ _ _ H); eauto.
    + intros k0 q Hq. apply in_app_or in Hq. destruct Hq as [Hq | [Hq | []]].
      * eapply (h_some _ _ _ _ _ _ H); eauto.
      * injection Hq as <- _. lia.
    + intros x Hx. rewrite Hv.
      assert (Hold : In x L -> udata sb' (sl_v x) (view ops 0 lg (padd (sl_v x) 1) (zeros uds))).
      { intros Hx'. apply F; auto. apply (h_data _ _ _ _ _ _ H); auto. }
      destruct D as [(-> & -> & -> & _) | (y & _ & -> & -> & N & U)]; auto.
      destruct Hx as [<- | Hx]; auto.
      rewrite view_fresh.
      * rewrite <- (h_uds _ _ _ _ _ _ H). exact U.
      * intros k0 Hq. destruct (h_log _ _ _ _ _ _ H _ _ Hq) as (z & Hz & Ez).
        injection Ez as Ez. apply N. apply in_map_iff. exists z. split; auto.
        symmetry. apply padd_inj. unfold padd. f_equal; auto.
Qed.

Lemma write_step : forall uds ops sb r lg L i d, hinv uds ops sb r lg L -> length d <= uds ->
  exists sb', exec_op ((sb, r), lg) (OWrite i d) = Ok ((sb', r), lg) /\
    hinv uds (ops ++ [OWrite i d]) sb' r lg L.
Proof.
  intros uds ops sb r lg L i d H Hd.
  pose proof (h_adds _ _ _ _ _ _ H) as Ha.
  assert (Hv : forall p, view (ops ++ [OWrite i d]) 0 lg p (zeros uds) =
    view [OWrite i d] (length lg) lg p (view ops 0 lg p (zeros uds))).
  { intros p. rewrite view_app, Ha. reflexivity. }
  assert (Hg : forall sb', inv sb' L -> s_uds sb' = uds ->
    (forall x, In x L -> udata sb' (sl_v x) (view (ops ++ [OWrite i d]) 0 lg (padd (sl_v x) 1) (zeros uds))) ->
    hinv uds (ops ++ [OWrite i d]) sb' r lg L).
  { intros sb' I' U' D'. constructor; auto; try apply H.
    - rewrite adds_app, Ha. cbn. lia.
    - rewrite keys_of_app, (h_keys _ _ _ _ _ _ H). cbn. now rewrite app_nil_r. }
  cbn [exec_op view] in *.
  destruct (nth_error lg i) as [[k [p|]]|] eqn:E.
  - assert (Hi : i < length lg) by (apply nth_error_Some; congruence).
    apply nth_error_In in E. destruct (h_log _ _ _ _ _ _ H _ _ E) as (x & Hx & Ex).
    injection Ex as ->.
    pose proof (h_data _ _ _ _ _ _ H x Hx) as Du.
    destruct (user_write_ok sb L r x d (view ops 0 lg (padd (sl_v x) 1) (zeros uds)) (h_inv _ _ _ _ _ _ H) Hx)
      as (sb' & E' & I' & U' & D' & O'); auto.
    { rewrite (h_uds _ _ _ _ _ _ H). auto. }
    rewrite E'. cbn [bind]. exists sb'. split; [reflexivity|]. apply Hg; auto.
    + rewrite U'. apply H.
    + intros y Hy. rewrite Hv.
      destruct (Nat.ltb_spec i (length lg)); [|lia]. cbn [andb].
      change ((fst (padd (sl_v x) 1) =? fst (padd (sl_v y) 1)) &&
              (snd (padd (sl_v x) 1) =? snd (padd (sl_v y) 1)))
        with (peqb (padd (sl_v x) 1) (padd (sl_v y) 1)).
      destruct (peqb_spec (padd (sl_v x) 1) (padd (sl_v y) 1)) as [Exy | N].
      * rewrite <- Exy. apply padd_inj in Exy. rewrite <- Exy. exact D'.
      * apply O'; auto; [congruence|]. apply (h_data _ _ _ _ _ _ H); auto.
  - exists sb. split; [reflexivity|]. apply Hg; try apply H. intros x Hx. rewrite Hv.
    apply (h_data _ _ _ _ _ _ H); auto.
  - exists sb. split; [reflexivity|]. apply Hg; try apply H. intros x Hx. rewrite Hv.
    apply (h_data _ _ _ _ _ _ H); auto.
Qed.

Definition sizes_ok (uds : nat) (ops : list op) : Prop :=
  Forall key (keys_of ops) /\ Forall (fun k => length k + 1 + uds <> block_size) (keys_of ops) /\
  writes_fit uds ops.

Lemma sizes_app : forall uds a b, sizes_ok uds (a ++ b) -> sizes_ok uds a /\ sizes_ok uds b.
Proof.
  intros uds a b (H1 & H2 & H3). rewrite keys_of_app in H1, H2.
  apply Forall_app in H1, H2. destruct H1, H2. unfold sizes_ok, writes_fit in *.
  repeat split; auto; intros i d Hi; apply (H3 i d); apply in_or_app; auto.
Qed.

Lemma play_ok : forall uds ops, sizes_ok uds ops ->
  exists sb r lg L, play uds ops = Ok ((sb, r), lg) /\ hinv uds ops sb r lg L.
Proof.
  intros uds. induction ops as [|o ops IH] using rev_ind; intros H.
  - exists (fst (init uds)), (snd (init uds)), [], []. split; [reflexivity|]. apply hinv_init.
  - apply sizes_app in H. destruct H as [H (K1 & K2 & K3)].
    destruct (IH H) as (sb & r & lg & L & E & Hi).
    unfold play in *. rewrite exec_app, E. cbn [bind exec].
    destruct o as [k | i d].
    + cbn in K1, K2. inversion K1; inversion K2; subst.
      destruct (add_step uds ops sb r lg L k Hi) as (sb' & r' & p & L' & E' & H' & _); auto.
      cbn [exec_op]. rewrite E'. cbn [bind]. exists sb', r', (lg ++ [(k, p)]), L'. auto.
    + destruct (write_step uds ops sb r lg L i d Hi) as (sb' & E' & H').
      { apply (K3 i d). left. auto. }
      rewrite E'. cbn [bind]. exists sb', r, lg, L. auto.
Qed.

Lemma udata_bytes : forall sb r v d b, udata sb v d -> nth_error (s_blocks sb) (fst v) = Some b ->
  snd v + 1 + s_uds sb <= length b -> bytes_at (sb, r) (padd v 1) (s_uds sb) = Some d.
Proof.
  intros sb r v d b (b' & Hb' & Hd & R) Hb Hl. assert (b' = b) by congruence. subst b'.
  unfold bytes_at. cbn [fst padd snd]. rewrite Hb.
  destruct (Nat.leb_spec (snd v + 1 + s_uds sb) (length b)); [|lia]. f_equal.
  assert (Hlen : length (firstn (s_uds sb) (skipn (snd v + 1) b)) = s_uds sb)
    by (rewrite firstn_length, skipn_length; lia).
  apply nth_ext with 0%Z 0%Z; [lia|]. intros j Hj. rewrite Hlen in Hj.
  assert (E : nth_error (firstn (s_uds sb) (skipn (snd v + 1) b)) j = nth_error d j).
  { rewrite <- R by auto.
    rewrite <- (firstn_skipn (snd v + 1) b) at 2.
    rewrite nth_error_app2 by (rewrite firstn_length; lia).
    rewrite firstn_length. replace (snd v + 1 + j - Nat.min (snd v + 1) (length b)) with j by lia.
    rewrite <- (firstn_skipn (s_uds sb) (skipn (snd v + 1) b)) at 2.
    rewrite nth_error_app1 by lia. reflexivity. }
  rewrite (nth_error_nth' _ 0%Z) in E by lia. rewrite (nth_error_nth' d 0%Z) in E by lia. congruence.
Qed.
