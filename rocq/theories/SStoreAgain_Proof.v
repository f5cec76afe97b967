(** Lemmas about the string storage: what holds for all keys.  The children of every node are
    sorted, a second search takes the path of the first, and the tree holds every slot once. *)

From Coq Require Import ZArith List Bool Lia Sorted Permutation.
From Verif Require Import Base SStore_Model SStore_Spec SStore_Proof SStoreTree_Proof SStoreFlat_Proof SStoreEnum_Proof.
Import ListNotations.
Local Open Scope nat_scope.
Local Opaque block_size.

(** the children of every node are in order *)
Fixpoint tsort (lb : ptr -> nat * list Z) (r : node) : Prop :=
  match r with
  | Node _ _ kids =>
      StronglySorted (R2 lb) kids /\
      (fix go (l : list node) : Prop := match l with [] => True | x :: l => tsort lb x /\ go l end) kids
  end.
Lemma tsort_eq : forall lb r, tsort lb r <->
  StronglySorted (R2 lb) (n_kids r) /\ Forall (tsort lb) (n_kids r).
Proof.
  intros lb [v cap kids]. cbn [n_kids].
  assert (G : forall l, (fix go (l : list node) : Prop :=
         match l with [] => True | x :: l => tsort lb x /\ go l end) l <-> Forall (tsort lb) l).
  { induction l as [|x l IH]; [split; auto|]. rewrite Forall_cons_iff. rewrite IH. tauto. }
  cbn [tsort]. rewrite G. tauto.
Qed.

(** the slots of the tree *)
Fixpoint tvals (r : node) : list ptr :=
  match r with
  | Node _ _ kids =>
      (fix go (l : list node) : list ptr :=
         match l with [] => [] | x :: l => (n_val x :: tvals x) ++ go l end) kids
  end.
Lemma tvals_eq : forall r, tvals r = flat_map (fun x => n_val x :: tvals x) (n_kids r).
Proof.
  intros [v cap kids]. cbn [tvals n_kids]. induction kids as [|x l IH]; auto.
Qed.

Lemma tsort_ext : forall L L' r, (forall v, In v (map sl_v L) -> lab L' v = lab L v) ->
  twf L r -> tsort (lab L) r -> tsort (lab L') r.
Proof.
  intros L L' r H. induction r as [v cap kids IH] using node_ind'. intros W T.
  apply twf_eq in W. apply tsort_eq in T. apply tsort_eq. cbn [n_kids] in *.
  destruct W as [_ W], T as [T1 T2]. rewrite Forall_forall in *. split.
  - eapply SS_impl; [|exact T1]. intros x y Hx Hy Hxy. unfold R2, lbn in *.
    rewrite !H; auto; apply W; auto.
  - intros x Hx. apply IH; auto. apply W; auto.
Qed.

(** two searches over the same slots end in the same place *)
Lemma search_same : forall sb sb' L L' kids kids' prev s,
  inv sb L -> inv sb' L' -> key s -> Forall (known L) kids -> Forall (known L') kids' ->
  map n_val kids' = map n_val kids ->
  (forall v, In v (map sl_v L) -> lab L' v = lab L v) ->
  search (S (length kids')) sb' kids' prev (cstr s) 0 (length kids') =
  search (S (length kids)) sb kids prev (cstr s) 0 (length kids).
Proof.
  intros sb sb' L L' kids kids' prev s I I' K F F' M HL.
  assert (Hlen : length kids' = length kids) by (rewrite <- (map_length n_val kids'), M, map_length; auto).
  rewrite Hlen.
  assert (Hn : forall i x x', nth_error kids i = Some x -> nth_error kids' i = Some x' -> n_val x' = n_val x).
  { intros i x x' Hx Hx'. apply (map_nth_error n_val) in Hx. apply (map_nth_error n_val) in Hx'.
    rewrite M in Hx'. congruence. }
  assert (G : forall fuel b e, e <= length kids ->
    search fuel sb' kids' prev (cstr s) b e = search fuel sb kids prev (cstr s) b e).
  { induction fuel as [|fuel IH]; intros b e He; auto. cbn [search].
    destruct (Nat.ltb_spec b e); auto.
    set (mid := (b + e) / 2).
    assert (Hm : mid < e) by (apply Nat.div_lt_upper_bound; lia).
    destruct (nth_error kids mid) as [x|] eqn:Ex; [|apply nth_error_None in Ex; lia].
    destruct (nth_error kids' mid) as [x'|] eqn:Ex'; [|apply nth_error_None in Ex'; lia].
    unfold rd. rewrite Ex, Ex'. cbn [bind]. pose proof (Hn _ _ _ Ex Ex') as Ev.
    rewrite Forall_forall in F, F'.
    destruct (known_slot L x) as (sl & Hsl & Esl); [apply F; eapply nth_error_In; eauto|].
    destruct (known_slot L' x') as (sl' & Hsl' & Esl'); [apply F'; eapply nth_error_In; eauto|].
    assert (El : (sl_p sl', sl_s sl') = (sl_p sl, sl_s sl)).
    { rewrite <- (lab_in _ _ _ I Hsl), <- (lab_in _ _ _ I' Hsl'). rewrite Esl', Ev, <- Esl.
      apply HL. apply in_map; auto. }
    injection El as Ep Es.
    rewrite <- Esl, <- Esl'.
    rewrite (slot_strcmp sb sl) by (auto; apply (i_in _ _ I); auto).
    rewrite (slot_strcmp sb' sl') by (auto; apply (i_in _ _ I'); auto).
    rewrite (slot_prev sb sl) by (apply (i_in _ _ I); auto).
    rewrite (slot_prev sb' sl') by (apply (i_in _ _ I'); auto).
    rewrite Ep, Es. cbn [bind].
    assert (H1 : search fuel sb' kids' prev (cstr s) b mid = search fuel sb kids prev (cstr s) b mid) by (apply IH; lia).
    assert (H2 : search fuel sb' kids' prev (cstr s) (mid + 1) e = search fuel sb kids prev (cstr s) (mid + 1) e) by (apply IH; lia).
    rewrite H1, H2. reflexivity. }
  apply G. lia.
Qed.

Lemma upd_same : forall A (l : list A) i x, nth_error l i = Some x -> upd l i x = l.
Proof.
  induction l as [|y l IH]; intros [|i] x H; simpl in *; try congruence. rewrite IH; auto.
Qed.
Lemma upd_twice : forall A (l : list A) i x y, upd (upd l i x) i y = upd l i y.
Proof. induction l as [|z l IH]; intros [|i] x y; simpl; auto. rewrite IH; auto. Qed.
Lemma map_upd_same : forall A B (f : A -> B) l i x y, nth_error l i = Some x -> f y = f x ->
  map f (upd l i y) = map f l.
Proof.
  induction l as [|z l IH]; intros [|i] x y H E; simpl in *; try congruence.
  erewrite IH; eauto.
Qed.
Lemma upd_split : forall A (l : list A) i x y, nth_error l i = Some x ->
  exists a b, l = a ++ x :: b /\ upd l i y = a ++ y :: b.
Proof.
  induction l as [|z l IH]; intros [|i] x y H; simpl in *; try congruence.
  - injection H as ->. exists [], l. auto.
  - destruct (IH i x y H) as (a & b & -> & E). exists (z :: a), b. simpl. rewrite E. auto.
Qed.

Lemma insert_val : forall r g v r', insert_child r g v = Ok r' -> n_val r' = n_val r.
Proof.
  intros r g v r' E. unfold insert_child in E. destruct (_ && _) in E; [|discriminate]. injection E as <-. reflexivity.
Qed.

(** the prefix taken over from the child before the place *)
Lemma prefix_same : forall sb sb' L L' kids kids' g s,
  inv sb L -> inv sb' L' -> key s -> Forall (known L) kids -> Forall (known L') kids' ->
  map n_val kids' = map n_val kids -> (forall v, In v (map sl_v L) -> lab L' v = lab L v) ->
  g <= length kids ->
  (if g =? 0 then Ok 0
   else x <- rd kids' (g - 1) ;;
        n <- common_prefix sb' (cstr s) (padd (n_val x) (s_uds sb' + 1)) ;;
        Ok (n mod 256)) =
  (if g =? 0 then Ok 0
   else x <- rd kids (g - 1) ;;
        n <- common_prefix sb (cstr s) (padd (n_val x) (s_uds sb + 1)) ;;
        Ok (n mod 256)).
Proof.
  intros sb sb' L L' kids kids' g s I I' K F F' M HL Hg.
  assert (Hlen : length kids' = length kids) by (rewrite <- (map_length n_val kids'), M, map_length; auto).
  destruct (Nat.eqb_spec g 0); auto.
  destruct (nth_error kids (g - 1)) as [x|] eqn:Ex; [|apply nth_error_None in Ex; lia].
  destruct (nth_error kids' (g - 1)) as [x'|] eqn:Ex'; [|apply nth_error_None in Ex'; lia].
  unfold rd. rewrite Ex, Ex'. cbn [bind].
  assert (Ev : n_val x' = n_val x).
  { pose proof (map_nth_error n_val _ _ Ex) as A. pose proof (map_nth_error n_val _ _ Ex') as A'.
    rewrite M in A'. congruence. }
  rewrite Forall_forall in F, F'.
  destruct (known_slot L x) as (sl & Hsl & Esl); [apply F; eapply nth_error_In; eauto|].
  destruct (known_slot L' x') as (sl' & Hsl' & Esl'); [apply F'; eapply nth_error_In; eauto|].
  assert (El : (sl_p sl', sl_s sl') = (sl_p sl, sl_s sl)).
  { rewrite <- (lab_in _ _ _ I Hsl), <- (lab_in _ _ _ I' Hsl'). rewrite Esl', Ev, <- Esl.
    apply HL. apply in_map; auto. }
  injection El as _ Es. rewrite <- Esl, <- Esl'.
  rewrite (slot_common sb sl) by (auto; apply (i_in _ _ I); auto).
  rewrite (slot_common sb' sl') by (auto; apply (i_in _ _ I'); auto).
  rewrite Es. reflexivity.
Qed.

(** an addition, and the same call after it *)
Lemma find_add_again : forall fuel sb L r prev s, inv sb L -> twf L r -> tsort (lab L) r -> key s ->
  prev < 256 -> length s < fuel -> length s + 2 + s_uds sb <= block_size ->
  exists sb' r' v L', find_add fuel sb r prev (cstr s) true = Ok (sb', r', Some (padd v 1)) /\
    inv sb' L' /\ twf L' r' /\ tsort (lab L') r' /\ n_val r' = n_val r /\ frame sb sb' L /\
    In v (tvals r') /\
    ((sb' = sb /\ r' = r /\ L' = L /\ find_add fuel sb r prev (cstr s) false = Ok (sb, r, Some (padd v 1))) \/
     (exists p t, L' = mkSl v p t :: L /\ ~ In v (map sl_v L) /\ udata sb' v (zeros (s_uds sb)) /\
        Permutation (tvals r') (v :: tvals r) /\
        find_add fuel sb r prev (cstr s) false = Ok (sb, r, None))) /\
    (forall sb2 d, inv sb2 L' -> find_add fuel sb2 r' prev (cstr s) d = Ok (sb2, r', Some (padd v 1))).
Proof.
  induction fuel as [|fuel IH]; intros sb L r prev s I W T K Hp Hf Hl; [lia|].
  pose proof (twf_known _ _ W) as FK. pose proof (proj1 (tsort_eq _ _) T) as [T1 T2].
  destruct (search_sorted sb L (n_kids r) prev s I K FK T1) as (o & Eo & Po).
  destruct o as [m | g].
  - destruct Po as (x & Hx & _).
    assert (G : forall sb2 d, inv sb2 L ->
      find_add (S fuel) sb2 r prev (cstr s) d = Ok (sb2, r, Some (padd (n_val x) 1))).
    { intros sb2 d I2. cbn [find_add].
      rewrite (search_same sb sb2 L L (n_kids r) (n_kids r) prev s); auto. rewrite Eo. cbn [bind].
      unfold rd. rewrite Hx. reflexivity. }
    exists sb, r, (n_val x), L. rewrite !(G sb) by auto. split; [reflexivity|].
    split; [exact I|]. split; [exact W|]. split; [exact T|]. split; [reflexivity|].
    split; [apply frame_refl|]. split; [|split; [left; auto | exact G]].
    rewrite tvals_eq. apply in_flat_map. exists x. split; [eapply nth_error_In; eauto | left; auto].
  - destruct Po as (Hg & Hlo & Hhi).
    assert (Hcb : exists cb, (if g =? 0 then Ok 0
             else x <- rd (n_kids r) (g - 1) ;;
                  n <- common_prefix sb (cstr s) (padd (n_val x) (s_uds sb + 1)) ;;
                  Ok (n mod 256)) = Ok cb /\ cb <= length s /\
                  (8 < cb -> exists x, nth_error (n_kids r) (g - 1) = Some x)).
    { destruct (Nat.eqb_spec g 0); [exists 0; repeat split; lia|].
      destruct (nth_error (n_kids r) (g - 1)) as [x|] eqn:Ex.
      2: { apply nth_error_None in Ex. lia. }
      unfold rd. rewrite Ex. cbn [bind].
      rewrite Forall_forall in FK. destruct (known_slot L x) as (sl & Hsl & Esl);
        [apply FK; eapply nth_error_In; eauto|].
      rewrite <- Esl. rewrite slot_common by (auto; apply (i_in _ _ I); auto). cbn [bind].
      eexists. split; [reflexivity|]. split.
      - pose proof (lcp_le_r (sl_s sl) s). pose proof (Nat.mod_le (lcp (sl_s sl) s) 256). lia.
      - eauto. }
    destruct Hcb as (cb & Ecb & Hcb & Hx).
    destruct (Nat.ltb_spec 8 cb) as [H8 | H8].
    + destruct (Hx H8) as (x & Ex).
      pose proof (proj1 (twf_eq _ _) W) as [Wc Wk].
      assert (Wx : known L x /\ twf L x).
      { rewrite Forall_forall in Wk. apply Wk. eapply nth_error_In; eauto. }
      destruct Wx as [Kx Wx].
      assert (Tx : tsort (lab L) x).
      { rewrite Forall_forall in T2. apply T2. eapply nth_error_In; eauto. }
      destruct (IH sb L x ((prev + cb) mod 256) (skipn cb s)) as (sb' & x' & v & L' & E & I' & W' & T' & V & F & Hv & D & G); auto.
      { apply key_skipn; auto. }
      { apply Nat.mod_upper_bound. lia. }
      { rewrite skipn_length. lia. }
      { rewrite skipn_length. lia. }
      assert (Hinc : incl L L').
      { destruct D as [(_ & _ & -> & _) | (p & t & -> & _)]; [apply incl_refl | apply incl_tl, incl_refl]. }
      assert (Hlab : forall u, In u (map sl_v L) -> lab L' u = lab L u).
      { intros u Hu. destruct D as [(_ & _ & -> & _) | (p & t & -> & N & _)]; auto.
        apply lab_cons. cbn. intros ->. contradiction. }
      set (r' := Node (n_val r) (n_cap r) (upd (n_kids r) (g - 1) x')).
      assert (W'' : twf L' r').
      { apply twf_eq. cbn [r' n_cap n_kids]. rewrite upd_length. split; auto.
        apply Forall_upd.
        - rewrite Forall_forall in *. intros y Hy. destruct (Wk y Hy) as [Ky Wy]. split.
          + unfold known in *. eapply incl_map; eauto.
          + eapply twf_mono; eauto.
        - split; auto. unfold known in *. rewrite V. eapply incl_map; eauto. }
      assert (Hm : map n_val (upd (n_kids r) (g - 1) x') = map n_val (n_kids r))
        by (eapply map_upd_same; eauto).
      destruct (upd_split _ (n_kids r) (g - 1) x x' Ex) as (ka & kb & Ekl & Eku).
      assert (T'' : tsort (lab L') r').
      { apply tsort_eq. cbn [r' n_kids]. split.
        - rewrite Eku. rewrite Ekl in T1. apply SS_app in T1. destruct T1 as (Q1 & Q2 & Q3).
          apply SS_cons in Q2. destruct Q2 as [Q2 Q4].
          rewrite Ekl in FK. apply Forall_app in FK. destruct FK as [FK1 FK2].
          inversion FK2 as [|? ? _ FK3]; subst. rewrite Forall_forall in FK1, FK3.
          assert (Hxx : lbn (lab L') x' = lbn (lab L) x) by (unfold lbn; rewrite V; apply Hlab; exact Kx).
          assert (Ha : forall z, In z ka -> lbn (lab L') z = lbn (lab L) z) by (intros z Hz; apply Hlab; apply FK1; auto).
          assert (Hb : forall z, In z kb -> lbn (lab L') z = lbn (lab L) z) by (intros z Hz; apply Hlab; apply FK3; auto).
          apply SS_app. split; [|split].
          + eapply SS_impl; [|exact Q1]. intros a b A B. unfold R2. rewrite !Ha by auto. auto.
          + apply SS_cons. split.
            * eapply SS_impl; [|exact Q2]. intros a b A B. unfold R2. rewrite !Hb by auto. auto.
            * intros y Hy. unfold R2. rewrite Hxx, Hb by auto. apply Q4; auto.
          + intros a b A [<- | B]; unfold R2.
            * rewrite Hxx, Ha by auto. apply Q3; auto. left. auto.
            * rewrite Ha, Hb by auto. apply Q3; auto. right. auto.
        - apply Forall_upd; auto. rewrite Forall_forall in *. intros y Hy.
          eapply tsort_ext; [exact Hlab | apply Wk; auto | apply T2; auto]. }
      assert (FK' : Forall (known L') (n_kids r')) by (apply twf_known; auto).
      assert (G' : forall sb2 d, inv sb2 L' ->
        find_add (S fuel) sb2 r' prev (cstr s) d = Ok (sb2, r', Some (padd v 1))).
      { intros sb2 d I2. cbn [find_add].
        rewrite (search_same sb sb2 L L' (n_kids r) (n_kids r') prev s); auto. rewrite Eo. cbn [bind].
        rewrite (prefix_same sb sb2 L L' (n_kids r) (n_kids r') g s); auto. rewrite Ecb. cbn [bind].
        destruct (Nat.ltb_spec 8 cb); [|lia].
        unfold rd. cbn [r' n_kids]. rewrite nth_error_upd_same by (apply nth_error_Some; congruence).
        cbn [bind]. rewrite skipn_cstr by auto. rewrite G by auto. cbn [bind n_val n_cap].
        rewrite upd_twice. reflexivity. }
      exists sb', r', v, L'.
      assert (Eadd : forall d, find_add (S fuel) sb r prev (cstr s) d =
        ('(sb, x, p) <- find_add fuel sb x ((prev + cb) mod 256) (cstr (skipn cb s)) d ;;
         Ok (sb, Node (n_val r) (n_cap r) (upd (n_kids r) (g - 1) x), p))).
      { intros d. cbn [find_add]. rewrite Eo. cbn [bind]. rewrite Ecb. cbn [bind].
        destruct (Nat.ltb_spec 8 cb); [|lia]. unfold rd. rewrite Ex. cbn [bind].
        rewrite skipn_cstr by auto. reflexivity. }
      rewrite !Eadd, E. cbn [bind]. split; [reflexivity|].
      split; [exact I'|]. split; [exact W''|]. split; [exact T''|]. split; [reflexivity|].
      split; [exact F|]. split.
      { rewrite tvals_eq. apply in_flat_map. exists x'. split.
        - cbn [r' n_kids]. rewrite Eku. apply in_or_app. right. left. auto.
        - right. exact Hv. }
      split; [|exact G'].
      destruct D as [(-> & -> & -> & D) | (p & t & -> & N & U & P & D)].
      * left. rewrite D. cbn [bind]. unfold r'. rewrite (upd_same _ _ _ _ Ex).
        destruct r; auto.
      * right. exists p, t. rewrite D. cbn [bind]. rewrite (upd_same _ _ _ _ Ex).
        split; [reflexivity|]. split; [exact N|]. split; [exact U|]. split; [|destruct r; reflexivity].
        rewrite !tvals_eq. cbn [r' n_kids]. rewrite Eku, Ekl, !flat_map_app. cbn [flat_map].
        rewrite V. rewrite P. cbn [app].
        rewrite perm_swap. symmetry. apply Permutation_middle.
    + destruct (new_slot_ok sb L prev s I K Hp Hl) as (sb' & v & E & I' & F & N & U).
      set (L' := mkSl v prev s :: L) in *.
      destruct (insert_child_ok L' r g v) as (r' & Er & Wr & Ek); auto.
      { eapply twf_mono; [|exact W]. apply incl_tl, incl_refl. }
      { left. reflexivity. }
      assert (Hlab : forall u, In u (map sl_v L) -> lab L' u = lab L u).
      { intros u Hu. apply lab_cons. cbn. intros ->. contradiction. }
      assert (Hnew : lbn (lab L') (Node v 0 []) = (prev, s)) by (unfold lbn, L'; cbn; apply lab_head).
      rewrite Forall_forall in FK.
      assert (Hin : forall z, In z (firstn g (n_kids r)) \/ In z (skipn g (n_kids r)) -> In z (n_kids r)).
      { intros z Hz. rewrite <- (firstn_skipn g (n_kids r)). apply in_or_app. exact Hz. }
      assert (Hold : forall z, In z (n_kids r) -> lbn (lab L') z = lbn (lab L) z).
      { intros z Hz. apply Hlab. apply FK. auto. }
      assert (T1' : StronglySorted (R2 (lab L')) (n_kids r')).
      { rewrite Ek. rewrite <- (firstn_skipn g (n_kids r)) in T1. apply SS_app in T1. destruct T1 as (Q1 & Q2 & Q3).
        assert (Hext : forall l, (forall z, In z l -> In z (n_kids r)) -> StronglySorted (R2 (lab L)) l ->
          StronglySorted (R2 (lab L')) l).
        { intros l Hl' Sl. eapply SS_impl; [|exact Sl]. intros a b Ha Hb. unfold R2.
          rewrite !Hold by auto. auto. }
        apply SS_app. split; [apply Hext; auto|]. split.
        * apply SS_cons. split; [apply Hext; auto|]. intros y Hy. unfold R2. rewrite Hnew.
          rewrite Hold by auto. apply Hhi; auto.
        * intros a b Ha [<- | Hb]; unfold R2.
          -- rewrite Hnew. rewrite Hold by auto. apply Hlo; auto.
          -- rewrite !Hold by auto. apply Q3; auto. }
      assert (T' : tsort (lab L') r').
      { apply tsort_eq. split; [exact T1'|]. rewrite Ek.
        assert (A : forall z, In z (n_kids r) -> tsort (lab L') z).
        { intros z Hz. apply twf_eq in W. destruct W as [_ W]. rewrite Forall_forall in W, T2.
          eapply tsort_ext; [exact Hlab | apply W; auto | apply T2; auto]. }
        apply Forall_app. split; [apply Forall_forall; auto|]. constructor; [|apply Forall_forall; auto].
        apply tsort_eq. cbn. split; constructor. }
      exists sb', r', v, L'.
      assert (Eadd : forall d, find_add (S fuel) sb r prev (cstr s) d =
        if negb d then Ok (sb, r, None)
        else Ok (sb', r', Some (padd v 1))).
      { intros d. cbn [find_add]. rewrite Eo. cbn [bind]. rewrite Ecb. cbn [bind].
        destruct (Nat.ltb_spec 8 cb); [lia|]. destruct d; cbn [negb]; auto.
        rewrite E. cbn [bind]. rewrite Er. reflexivity. }
      rewrite !Eadd. cbn [negb]. split; [reflexivity|].
      split; [exact I'|]. split; [exact Wr|]. split; [exact T'|]. split; [eapply insert_val; eauto|].
      split; [exact F|].
      assert (P : Permutation (tvals r') (v :: tvals r)).
      { rewrite !tvals_eq, Ek. rewrite <- (firstn_skipn g (n_kids r)) at 3. rewrite !flat_map_app.
        cbn [flat_map n_val tvals app]. symmetry. apply Permutation_middle. }
      split; [eapply Permutation_in; [symmetry; exact P | left; auto]|].
      split.
      { right. exists prev, s. auto 6. }
      intros sb2 d I2. cbn [find_add].
      pose proof (twf_known _ _ Wr) as FK'.
      destruct (search_sorted sb2 L' (n_kids r') prev s I2 K FK' T1') as (o & Eo' & Po').
      rewrite Eo'. cbn [bind]. destruct o as [m | g'].
      * destruct Po' as (x & Ex & Elx). unfold rd. rewrite Ex. cbn [bind].
        assert (x = Node v 0 []) as ->; [|reflexivity].
        apply nth_error_In in Ex. rewrite Ek in Ex. apply in_app_or in Ex.
        destruct Ex as [Ex | [Ex | Ex]]; auto; exfalso.
        -- specialize (Hlo x Ex). rewrite <- Hold in Hlo by auto. rewrite Elx in Hlo. eapply lt2_irrefl; eauto.
        -- specialize (Hhi x Ex). rewrite <- Hold in Hhi by auto. rewrite Elx in Hhi. eapply lt2_irrefl; eauto.
      * exfalso. destruct Po' as (_ & Hlo' & Hhi').
        assert (Hm : In (Node v 0 []) (n_kids r')) by (rewrite Ek; apply in_or_app; right; left; auto).
        rewrite <- (firstn_skipn g' (n_kids r')) in Hm. apply in_app_or in Hm.
        destruct Hm as [Hm | Hm]; [apply Hlo' in Hm | apply Hhi' in Hm]; rewrite Hnew in Hm; eapply lt2_irrefl; eauto.
Qed.

(** *** histories *)

Record ginv (uds : nat) (sb : sblocks) (r : node) (lg : log) (L : list slot) : Prop := {
  g_inv : inv sb L;
  g_uds : s_uds sb = uds;
  g_twf : twf L r;
  g_sort : tsort (lab L) r;
  g_perm : Permutation (tvals r) (map sl_v L);
  g_log : forall k p, In (k, Some p) lg -> exists v, p = padd v 1 /\ In v (map sl_v L);
  g_out : forall v, In v (map sl_v L) -> exists k, In (k, Some (padd v 1)) lg;
  g_data : forall x, In x L -> exists d, udata sb (sl_v x) d }.

Lemma ginv_init : forall uds, ginv uds (fst (init uds)) (snd (init uds)) [] [].
Proof.
  intros uds. pose proof (hinv_init uds) as H. constructor; try apply H; cbn; auto; try (intros; contradiction).
  split; auto. constructor.
Qed.

Lemma padd_1 : forall v u, padd v 1 = padd u 1 <-> v = u.
Proof. intros. split; [apply padd_inj | congruence]. Qed.

Lemma gadd : forall uds sb r lg L k, ginv uds sb r lg L -> key k -> length k + 2 + uds <= block_size ->
  exists sb' r' v L', add (sb, r) (cstr k) = Ok ((sb', r'), Some (padd v 1)) /\
    ginv uds sb' r' (lg ++ [(k, Some (padd v 1))]) L' /\
    ((sb' = sb /\ r' = r /\ find (sb, r) (cstr k) = Ok (Some (padd v 1)) /\ In v (map sl_v L)) \/
     (find (sb, r) (cstr k) = Ok None /\ ~ In v (map sl_v L))) /\
    (forall sb2, inv sb2 L' -> s_uds sb2 = uds -> find (sb2, r') (cstr k) = Ok (Some (padd v 1)) /\
       add (sb2, r') (cstr k) = Ok ((sb2, r'), Some (padd v 1))).
Proof.
  intros uds sb r lg L k H K Hl. pose proof (g_uds _ _ _ _ _ H) as Hu.
  destruct (find_add_again (S (length (cstr k))) sb L r 0 k) as (sb' & r' & v & L' & E & I' & W' & T' & _ & F & Hv & D & G);
    try apply H; auto; try lia.
  { rewrite cstr_length. lia. }
  exists sb', r', v, L'. unfold add, find. rewrite Hu.
  assert (Hb : (block_size <? length (cstr k) + uds) = false).
  { apply Nat.ltb_ge. rewrite cstr_length. lia. }
  rewrite Hb, E. cbn [bind]. split; [reflexivity|]. split; [|split].
  - constructor; auto.
    + destruct F as [F _]. rewrite F. exact Hu.
    + destruct D as [(-> & -> & -> & _) | (p & t & -> & N & _ & P & _)]; [apply H|].
      cbn [map sl_v]. rewrite P. constructor. apply H.
    + intros k0 p Hp. apply in_app_or in Hp. destruct Hp as [Hp | [Hp | []]].
      * destruct (g_log _ _ _ _ _ H _ _ Hp) as (u & -> & Hu'). exists u. split; auto.
        destruct D as [(_ & _ & -> & _) | (q & t & -> & _)]; auto. right. auto.
      * injection Hp as <- <-. exists v. split; auto.
        destruct D as [(-> & -> & -> & _) | (q & t & -> & _)]; [|left; reflexivity].
        eapply Permutation_in; [apply (g_perm _ _ _ _ _ H) | exact Hv].
    + intros u Hu'.
      assert (A : In u (map sl_v L) -> exists k0, In (k0, Some (padd u 1)) (lg ++ [(k, Some (padd v 1))])).
      { intros B. destruct (g_out _ _ _ _ _ H u B) as (k0 & Hk0). exists k0. apply in_or_app. auto. }
      destruct D as [(_ & _ & -> & _) | (q & t & -> & _)]; auto.
      destruct Hu' as [<- | Hu']; auto. exists k. apply in_or_app. right. left. reflexivity.
    + intros x Hx.
      assert (A : In x L -> exists d, udata sb' (sl_v x) d).
      { intros B. destruct (g_data _ _ _ _ _ H x B) as (d & Hd). exists d. apply F; auto. }
      destruct D as [(_ & _ & -> & _) | (q & t & -> & _ & U & _)]; auto.
      destruct Hx as [<- | Hx]; eauto.
  - destruct D as [(-> & -> & -> & D) | (q & t & -> & N & _ & _ & D)]; rewrite D; cbn [bind].
    + left. repeat split; auto. eapply Permutation_in; [apply (g_perm _ _ _ _ _ H) | exact Hv].
    + right. auto.
  - intros sb2 I2 U2. rewrite U2, Hb, !G by auto. auto.
Qed.

Lemma gwrite : forall uds sb r lg L i d, ginv uds sb r lg L -> length d <= uds ->
  exists sb', exec_op ((sb, r), lg) (OWrite i d) = Ok ((sb', r), lg) /\ ginv uds sb' r lg L.
Proof.
  intros uds sb r lg L i d H Hd. cbn [exec_op].
  destruct (nth_error lg i) as [[k [p|]]|] eqn:E; try (exists sb; split; [reflexivity | exact H]).
  apply nth_error_In in E. destruct (g_log _ _ _ _ _ H _ _ E) as (v & -> & Hv).
  apply in_map_iff in Hv. destruct Hv as (x & <- & Hx).
  destruct (g_data _ _ _ _ _ H x Hx) as (d0 & Hd0).
  destruct (user_write_ok sb L r x d d0 (g_inv _ _ _ _ _ H) Hx) as (sb' & E' & I' & U' & D' & O'); auto.
  { rewrite (g_uds _ _ _ _ _ H). auto. }
  rewrite E'. cbn [bind]. exists sb'. split; [reflexivity|].
  constructor; auto; try apply H.
  - rewrite U'. apply H.
  - intros y Hy. destruct (g_data _ _ _ _ _ H y Hy) as (dy & Hdy).
    destruct (peqb_spec (sl_v y) (sl_v x)) as [Eq | N].
    + rewrite Eq. eauto.
    + exists dy. apply O'; auto. congruence.
Qed.

Lemma gnone : forall uds sb r lg L k, ginv uds sb r lg L -> ginv uds sb r (lg ++ [(k, None)]) L.
Proof.
  intros uds sb r lg L k H. constructor; try apply H.
  - intros k0 p Hp. apply in_app_or in Hp. destruct Hp as [Hp | [Hp | []]]; [|discriminate].
    eapply (g_log _ _ _ _ _ H); eauto.
  - intros v Hv. destruct (g_out _ _ _ _ _ H v Hv) as (k0 & Hk0). exists k0. apply in_or_app. auto.
Qed.

Lemma play_again : forall uds ops, sizes_ok uds ops ->
  exists sb r lg L, play uds ops = Ok ((sb, r), lg) /\ ginv uds sb r lg L.
Proof.
  intros uds. induction ops as [|o ops IH] using rev_ind; intros H.
  - exists (fst (init uds)), (snd (init uds)), [], []. split; [reflexivity|]. apply ginv_init.
  - apply sizes_app in H. destruct H as [H (K1 & K2 & K3)].
    destruct (IH H) as (sb & r & lg & L & E & Hi).
    unfold play in *. rewrite exec_app, E. cbn [bind exec].
    destruct o as [k | i d].
    + cbn in K1, K2. inversion K1; inversion K2; subst. cbn [exec_op].
      destruct (le_lt_dec (length k + 2 + uds) block_size) as [Hk | Hk].
      * destruct (gadd uds sb r lg L k Hi) as (sb' & r' & v & L' & E' & H' & _); auto.
        rewrite E'. cbn [bind]. eauto 6.
      * unfold add. rewrite (g_uds _ _ _ _ _ Hi).
        destruct (Nat.ltb_spec block_size (length (cstr k) + uds)) as [Hb | Hb].
        2: { rewrite cstr_length in Hb. lia. }
        cbn [bind]. exists sb, r, (lg ++ [(k, None)]), L. split; [reflexivity|]. apply gnone. exact Hi.
    + destruct (gwrite uds sb r lg L i d Hi) as (sb' & E' & H').
      { apply (K3 i d). left. auto. }
      rewrite E'. cbn [bind]. eauto 6.
Qed.

(** the enumeration walks over the tree *)
Lemma enum_vals : forall sb r parent l, enum_rec sb parent r = Ok l ->
  map snd l = map (fun v => padd v 1) (tvals r).
Proof.
  intros sb. induction r as [v cap kids IH] using node_ind'. intros parent l.
  rewrite enum_rec_eq, tvals_eq. cbn [n_kids]. revert l. induction kids as [|x kids IHk]; intros l E.
  - cbn in E. injection E as <-. reflexivity.
  - inversion IH as [|? ? IHx IHr]; subst. cbn [enum_list] in E.
    destruct (enum_key sb parent (n_val x)) as [buf| |]; try discriminate. cbn [bind] in E.
    destruct (enum_rec sb buf x) as [sub| |] eqn:Es; try discriminate. cbn [bind] in E.
    destruct (enum_list sb parent kids) as [rest| |] eqn:Er; try discriminate. cbn [bind] in E.
    injection E as <-. cbn [map flat_map snd app]. rewrite !map_app, (IHx _ _ Es), (IHk IHr rest eq_refl). reflexivity.
Qed.

Lemma slots_nodup : forall u L, ForallOrdPairs (apart u) L -> NoDup (map sl_v L).
Proof.
  intros u L H. induction H as [|x L Hx H IH]; cbn; constructor; auto.
  intros Hi. apply in_map_iff in Hi. destruct Hi as (y & E & Hy).
  rewrite Forall_forall in Hx. specialize (Hx y Hy). unfold apart, sl_b, sl_o, sl_len in Hx.
  rewrite E in Hx. lia.
Qed.

Lemma ginv_nodup : forall uds sb r lg L, ginv uds sb r lg L -> NoDup (tvals r).
Proof.
  intros uds sb r lg L H. eapply Permutation_NoDup; [symmetry; apply (g_perm _ _ _ _ _ H)|].
  eapply slots_nodup. apply (i_apart _ _ (g_inv _ _ _ _ _ H)).
Qed.
