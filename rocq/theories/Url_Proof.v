(** Lemmas about url.cpp. *)

From Coq Require Import ZArith List Bool Lia Arith.
From Verif Require Import Base Str_Model Str_Spec Str_Proof StrCpp_Model StrCpp_Spec StrCpp_Proof
  Url_Model Url_Spec.
Import ListNotations.
Local Open Scope Z_scope.

(** ** Tables *)

Lemma byte_sweep : forall P : Z -> bool,
  forallb P (zrange 256) = true -> forall c, byte c -> P c = true.
Proof. intros P H c Hc. apply (zrange_forall 256 P H). exact Hc. Qed.

Definition is_ok {A} (eqb : A -> A -> bool) (r : res A) (a : A) : bool :=
  match r with Ok x => eqb x a | _ => false end.
Lemma is_ok_true : forall A (eqb : A -> A -> bool) r a,
  (forall x y, eqb x y = true -> x = y) -> is_ok eqb r a = true -> r = Ok a.
Proof.
  intros A eqb [x| |] a H E; try discriminate. f_equal. apply H. exact E.
Qed.

Lemma must_escape_ok : forall c, byte c ->
  must_escape c = Ok (negb (unreservedb c || (c =? 32))).
Proof.
  intros c Hc. apply (is_ok_true _ Bool.eqb); [intros x y; apply eqb_prop|].
  revert c Hc. apply byte_sweep. vm_compute. reflexivity.
Qed.
Lemma hex_hi_ok : forall c, byte c -> hex_hi c = Ok (hexdigit (c / 16)).
Proof.
  intros c Hc. apply (is_ok_true _ Z.eqb); [intros x y; apply Z.eqb_eq|].
  revert c Hc. apply byte_sweep. vm_compute. reflexivity.
Qed.
Lemma hex_lo_ok : forall c, byte c -> hex_lo c = Ok (hexdigit (c mod 16)).
Proof.
  intros c Hc. apply (is_ok_true _ Z.eqb); [intros x y; apply Z.eqb_eq|].
  revert c Hc. apply byte_sweep. vm_compute. reflexivity.
Qed.
Lemma table_urldec_ok : forall c, byte c -> rd table_urldec (Z.to_nat c) = Ok (hexval c).
Proof.
  intros c Hc. apply (is_ok_true _ Z.eqb); [intros x y; apply Z.eqb_eq|].
  revert c Hc. apply byte_sweep. vm_compute. reflexivity.
Qed.
Lemma hexval_range : forall c, 0 <= hexval c < 16.
Proof.
  intros c. unfold hexval.
  destruct (Z.leb_spec 48 c), (Z.leb_spec c 57), (Z.leb_spec 65 c), (Z.leb_spec c 70),
    (Z.leb_spec 97 c), (Z.leb_spec c 102); cbn [andb]; lia.
Qed.
Lemma dec_byte_ok : forall a b, byte a -> byte b ->
  dec_byte a b = Ok (hexval a * 16 + hexval b).
Proof.
  intros a b Ha Hb. unfold dec_byte. rewrite !table_urldec_ok by assumption. cbn [bind].
  pose proof (hexval_range a). pose proof (hexval_range b).
  rewrite Z.mul_1_r, Z.mod_small by lia. reflexivity.
Qed.

Lemma unreservedb_iff : forall c, unreservedb c = true <-> unreserved c.
Proof.
  intros c. unfold unreservedb, unreserved.
  rewrite !orb_true_iff, !andb_true_iff, !Z.leb_le, !Z.eqb_eq. tauto.
Qed.

Lemma enc1_len : forall plus c, (1 <= length (enc1 plus c) <= 3)%nat.
Proof.
  intros plus c. unfold enc1, pct. destruct (unreservedb c); [cbn; lia|].
  destruct (plus && (c =? 32)); cbn; lia.
Qed.
Lemma url_encode_len : forall plus s, (length s <= length (url_encode plus s) <= 3 * length s)%nat.
Proof.
  intros plus. induction s as [|c s IH]; cbn [url_encode flat_map length]; [lia|].
  rewrite app_length. pose proof (enc1_len plus c). unfold url_encode in IH. lia.
Qed.

(** the enc1 case split in the shape the code uses *)
Lemma unreserved_32 : unreservedb 32 = false. Proof. reflexivity. Qed.

(** ** String versions *)

Lemma urlenc_loop_ok : forall s dst, bytes s ->
  urlenc_loop dst s (length s) = Ok (dst ++ url_encode true s).
Proof.
  induction s as [|c s IH]; intros dst Hs; cbn [length urlenc_loop].
  - cbn. rewrite app_nil_r. reflexivity.
  - apply bytes_cons in Hs. destruct Hs as [Hc Hs]. cbn [deref bind tl].
    rewrite must_escape_ok by exact Hc. cbn [bind]. cbn [url_encode flat_map]. fold (url_encode true s).
    unfold enc1. cbn [andb].
    destruct (unreservedb c) eqn:Eu; cbn [orb negb].
    + destruct (Z.eqb_spec c 32) as [->|_]; [discriminate|].
      rewrite IH by exact Hs. rewrite <- app_assoc. reflexivity.
    + destruct (Z.eqb_spec c 32) as [->|H32]; cbn [negb].
      * rewrite IH by exact Hs. rewrite <- app_assoc. reflexivity.
      * rewrite hex_hi_ok, hex_lo_ok by exact Hc. cbn [bind].
        rewrite IH by exact Hs. rewrite <- app_assoc. reflexivity.
Qed.

Lemma urlenc_noplus_loop_ok : forall s dst, bytes s ->
  urlenc_noplus_loop dst s (length s) = Ok (dst ++ url_encode false s).
Proof.
  induction s as [|c s IH]; intros dst Hs; cbn [length urlenc_noplus_loop].
  - cbn. rewrite app_nil_r. reflexivity.
  - apply bytes_cons in Hs. destruct Hs as [Hc Hs]. cbn [deref bind tl].
    cbn [url_encode flat_map]. fold (url_encode false s). unfold enc1. cbn [andb].
    destruct (Z.eqb_spec c 32) as [->|H32].
    + cbn [bind]. rewrite hex_hi_ok, hex_lo_ok by exact Hc. cbn [bind]. rewrite unreserved_32.
      rewrite IH by exact Hs. rewrite <- app_assoc. reflexivity.
    + rewrite must_escape_ok by exact Hc. cbn [bind].
      destruct (Z.eqb_spec c 32) as [E|_]; [contradiction|]. rewrite orb_false_r.
      destruct (unreservedb c) eqn:Eu; cbn [negb].
      * rewrite IH by exact Hs. rewrite <- app_assoc. reflexivity.
      * rewrite hex_hi_ok, hex_lo_ok by exact Hc. cbn [bind].
        rewrite IH by exact Hs. rewrite <- app_assoc. reflexivity.
Qed.

Lemma urldec_loop_ok : forall s t, url_decodes s t -> bytes s -> forall dst,
  urldec_loop dst s (length s) = Ok (dst ++ t).
Proof.
  induction 1 as [|a b s t H IH|s t H IH|c s t H43 H37 H IH]; intros Hs dst.
  - cbn. rewrite app_nil_r. reflexivity.
  - rewrite !bytes_cons in Hs. destruct Hs as [_ [Ha [Hb Hs]]].
    cbn [length urldec_loop deref bind tl Z.eqb Pos.eqb].
    rewrite dec_byte_ok by assumption. cbn [bind]. rewrite IH by exact Hs.
    rewrite <- app_assoc. reflexivity.
  - apply bytes_cons in Hs. destruct Hs as [_ Hs].
    cbn [length urldec_loop deref bind tl Z.eqb Pos.eqb]. rewrite IH by exact Hs.
    rewrite <- app_assoc. reflexivity.
  - apply bytes_cons in Hs. destruct Hs as [Hc Hs].
    assert (Hrec : urldec_loop (dst ++ [c]) s (length s) = Ok (dst ++ c :: t)).
    { rewrite IH by exact Hs. rewrite <- app_assoc. reflexivity. }
    cbn [length urldec_loop deref bind tl].
    destruct (Z.eqb_spec c 43) as [E|_]; [contradiction|].
    destruct (Z.eqb_spec c 37) as [->|_].
    + specialize (H37 eq_refl). destruct s as [|x [|y s]]; cbn [length] in *; [exact Hrec|exact Hrec|lia].
    + exact Hrec.
Qed.

Lemma url_decodes_exists : forall s, exists t, url_decodes s t /\ (length t <= length s)%nat.
Proof.
  intros s. remember (length s) as n eqn:En. assert (Hn : (length s <= n)%nat) by lia.
  rewrite En. clear En. revert s Hn. induction n as [|n IH]; intros s Hn.
  - destruct s; [|cbn in Hn; lia]. exists []. split; [constructor|cbn; lia].
  - destruct s as [|c s]; [exists []; split; [constructor|cbn; lia]|]. cbn [length] in Hn.
    destruct (Z.eq_dec c 43) as [->|H43].
    { destruct (IH s) as [t [H Hl]]; [lia|]. exists (32 :: t). split; [constructor; exact H|cbn; lia]. }
    destruct (Z.eq_dec c 37) as [->|H37].
    + destruct s as [|a [|b s]].
      * exists [37]. split; [|cbn; lia]. apply dec_copy; [lia|cbn; lia|constructor].
      * destruct (IH [a]) as [t [H Hl]]; [cbn in *; lia|]. exists (37 :: t).
        split; [apply dec_copy; [lia|cbn; lia|exact H]|cbn in *; lia].
      * destruct (IH s) as [t [H Hl]]; [cbn in Hn; lia|]. exists (hexval a * 16 + hexval b :: t).
        split; [constructor; exact H|cbn in *; lia].
    + destruct (IH s) as [t [H Hl]]; [lia|]. exists (c :: t).
      split; [apply dec_copy; [exact H43|contradiction|exact H]|cbn; lia].
Qed.

Lemma hexval_hexdigit : forall v, 0 <= v < 16 -> hexval (hexdigit v) = v.
Proof.
  intros v Hv. apply Z.eqb_eq.
  revert v Hv. apply (zrange_forall 16). vm_compute. reflexivity.
Qed.

Lemma unreserved_not : forall c, unreservedb c = true -> c <> 43 /\ c <> 37.
Proof. intros c H. split; intros ->; discriminate. Qed.

Lemma url_decodes_encode : forall plus s, bytes s -> url_decodes (url_encode plus s) s.
Proof.
  intros plus. induction s as [|c s IH]; intros Hs; cbn [url_encode flat_map]; [constructor|].
  apply bytes_cons in Hs. destruct Hs as [Hc Hs]. fold (url_encode plus s). unfold enc1.
  destruct (unreservedb c) eqn:Eu.
  - apply unreserved_not in Eu. destruct Eu as [H1 H2]. cbn [app].
    apply dec_copy; [exact H1|contradiction|exact (IH Hs)].
  - destruct (plus && (c =? 32)) eqn:Ep.
    + apply andb_true_iff in Ep. destruct Ep as [_ Ep]. apply Z.eqb_eq in Ep. subst c.
      cbn [app]. apply dec_plus. exact (IH Hs).
    + unfold pct. cbn [app].
      assert (Hd : 0 <= c / 16 < 16) by (unfold byte in Hc; split; [apply Z.div_pos|apply Z.div_lt_upper_bound]; lia).
      pose proof (Z.mod_pos_bound c 16 ltac:(lia)) as Hm.
      assert (E : c = hexval (hexdigit (c / 16)) * 16 + hexval (hexdigit (c mod 16))).
      { rewrite !hexval_hexdigit by assumption. rewrite Z.mul_comm. apply Z.div_mod. lia. }
      rewrite E at 3. apply dec_pct. exact (IH Hs).
Qed.

(** ** Buffer versions *)

Lemma wr_list_ok : forall l pre old rest, length old = length l ->
  wr_list (pre ++ old ++ rest) (length pre) l = Ok (pre ++ l ++ rest).
Proof.
  induction l as [|c l IH]; intros pre [|x old] rest Hl; cbn [length] in Hl; try lia; cbn [wr_list app].
  - reflexivity.
  - rewrite wr_push by reflexivity. cbn [bind].
    replace (length pre + 1)%nat with (length (pre ++ [c])) by (rewrite app_length; reflexivity).
    rewrite IH by lia. rewrite <- app_assoc. reflexivity.
Qed.

Lemma urlenc_buf_loop_ok : forall s pre rest, bytes s ->
  (length (url_encode true s) < length rest)%nat ->
  urlenc_buf_loop (pre ++ rest) (length pre) s (length s)
  = Ok ((length pre + length (url_encode true s))%nat,
        pre ++ url_encode true s ++ 0 :: skipn (S (length (url_encode true s))) rest).
Proof.
  induction s as [|c s IH]; intros pre rest Hs Hr; cbn [length urlenc_buf_loop].
  - destruct rest as [|x rest]; [cbn in Hr; lia|]. rewrite wr_app by reflexivity. cbn.
    apply ok2; [lia|reflexivity].
  - apply bytes_cons in Hs. destruct Hs as [Hc Hs]. cbn [deref bind tl].
    rewrite must_escape_ok by exact Hc. cbn [bind].
    cbn [url_encode flat_map] in *. fold (url_encode true s) in *. unfold enc1 in *. cbn [andb] in *.
    assert (One : forall b, (1 + length (url_encode true s) < length rest)%nat ->
      (dst <- wr (pre ++ rest) (length pre) b ;; urlenc_buf_loop dst (length pre + 1) s (length s))
      = Ok ((length pre + length ([b] ++ url_encode true s))%nat,
            pre ++ ([b] ++ url_encode true s) ++ 0 :: skipn (S (length ([b] ++ url_encode true s))) rest)).
    { intros b Hl. destruct rest as [|x rest]; [cbn in Hl; lia|]. cbn [length] in Hl.
      rewrite wr_push by reflexivity. cbn [bind].
      replace (length pre + 1)%nat with (length (pre ++ [b])) by (rewrite app_length; reflexivity).
      rewrite IH by (assumption || lia). rewrite app_length. cbn [length app].
      rewrite <- app_assoc. apply ok2; [lia|reflexivity]. }
    destruct (unreservedb c) eqn:Eu; cbn [orb negb].
    + destruct (Z.eqb_spec c 32) as [->|_]; [discriminate|]. apply One. cbn in Hr; lia.
    + destruct (Z.eqb_spec c 32) as [->|H32]; cbn [negb]; [apply One; cbn in Hr; lia|].
      unfold pct in *. cbn [app length] in Hr.
      destruct rest as [|x1 [|x2 [|x3 rest]]]; cbn [length] in Hr; try lia.
      rewrite wr_push by reflexivity. cbn [bind]. rewrite hex_hi_ok by exact Hc. cbn [bind].
      rewrite wr_push by (rewrite app_length; reflexivity). cbn [bind].
      rewrite hex_lo_ok by exact Hc. cbn [bind].
      rewrite wr_push by (rewrite !app_length; cbn; lia). cbn [bind].
      replace (length pre + 3)%nat
        with (length (((pre ++ [37]) ++ [hexdigit (c / 16)]) ++ [hexdigit (c mod 16)]))
        by (rewrite !app_length; cbn; lia).
      rewrite IH by (assumption || lia). rewrite !app_length, <- !app_assoc. cbn [app length].
      apply ok2; [lia|reflexivity].
Qed.

Lemma urldec_buf_loop_ok : forall s t, url_decodes s t -> bytes s -> forall pre rest,
  (length t < length rest)%nat ->
  urldec_buf_loop (pre ++ rest) (length pre) s (length s)
  = Ok ((length pre + length t)%nat, pre ++ t ++ 0 :: skipn (S (length t)) rest).
Proof.
  assert (Step : forall s t pre rest b,
    (forall pre rest, (length t < length rest)%nat ->
      urldec_buf_loop (pre ++ rest) (length pre) s (length s)
      = Ok ((length pre + length t)%nat, pre ++ t ++ 0 :: skipn (S (length t)) rest)) ->
    (length (b :: t) < length rest)%nat ->
    (dst <- wr (pre ++ rest) (length pre) b ;; urldec_buf_loop dst (length pre + 1) s (length s))
    = Ok ((length pre + length (b :: t))%nat, pre ++ (b :: t) ++ 0 :: skipn (S (length (b :: t))) rest)).
  { intros s t pre rest b IH Hl. destruct rest as [|x rest]; [cbn in Hl; lia|]. cbn [length] in Hl.
    rewrite wr_push by reflexivity. cbn [bind].
    replace (length pre + 1)%nat with (length (pre ++ [b])) by (rewrite app_length; reflexivity).
    rewrite IH by lia. rewrite app_length. cbn [length app]. rewrite <- app_assoc.
    apply ok2; [lia|reflexivity]. }
  induction 1 as [|a b s t H IH|s t H IH|c s t H43 H37 H IH]; intros Hs pre rest Hl.
  - destruct rest as [|x rest]; [cbn in Hl; lia|]. cbn [length urldec_buf_loop].
    rewrite wr_app by reflexivity. cbn. apply ok2; [lia|reflexivity].
  - rewrite !bytes_cons in Hs. destruct Hs as [_ [Ha [Hb Hs]]].
    cbn [length urldec_buf_loop deref bind tl Z.eqb Pos.eqb].
    rewrite dec_byte_ok by assumption. cbn [bind].
    apply Step; [intros; apply IH; assumption|exact Hl].
  - apply bytes_cons in Hs. destruct Hs as [_ Hs].
    cbn [length urldec_buf_loop deref bind tl Z.eqb Pos.eqb].
    apply Step; [intros; apply IH; assumption|exact Hl].
  - apply bytes_cons in Hs. destruct Hs as [Hc Hs].
    pose proof (Step s t pre rest c (fun p r => IH Hs p r) Hl) as Hrec.
    cbn [length urldec_buf_loop deref bind tl].
    destruct (Z.eqb_spec c 43) as [E|_]; [contradiction|].
    destruct (Z.eqb_spec c 37) as [->|_].
    + specialize (H37 eq_refl). destruct s as [|x [|y s]]; cbn [length] in *; [exact Hrec|exact Hrec|lia].
    + exact Hrec.
Qed.

(** ** Maps *)

Lemma lookup_set_same : forall k v m, lookup k (map_set k v m) = Some v.
Proof.
  intros k v. induction m as [|[k' v'] m IH]; cbn [map_set lookup].
  - destruct (list_eqb_spec k k); [reflexivity|contradiction].
  - destruct (list_eqb_spec k k') as [->|H]; cbn [lookup].
    + destruct (list_eqb_spec k' k'); [reflexivity|contradiction].
    + destruct (list_eqb_spec k k'); [contradiction|exact IH].
Qed.
Lemma lookup_set_other : forall k k' v m, k <> k' -> lookup k (map_set k' v m) = lookup k m.
Proof.
  intros k k' v m Hne. induction m as [|[k2 v2] m IH]; cbn [map_set lookup].
  - destruct (list_eqb_spec k k'); [contradiction|reflexivity].
  - destruct (list_eqb_spec k' k2) as [->|H]; cbn [lookup].
    + destruct (list_eqb_spec k k2); [contradiction|reflexivity].
    + rewrite IH. reflexivity.
Qed.

(** *** fields *)

Lemma field_fun : forall d seg k v k' v', field d seg k v -> field d seg k' v' -> k = k' /\ v = v'.
Proof.
  intros d seg k v k' v' [E Hk] [E' Hk'].
  assert (Hf : forall l, ~ In d l -> Forall (fun c => ~ c = d) l).
  { intros l Hl. apply Forall_forall. intros x Hx ->. contradiction. }
  subst seg. revert k' Hk' E'. induction k as [|x k IH]; intros [|x' k'] Hk' E'; cbn in E'.
  - injection E' as ->. split; reflexivity.
  - injection E' as -> ->. destruct Hk'. left. reflexivity.
  - injection E' as -> E'. destruct Hk. left. reflexivity.
  - injection E' as -> E'. destruct (IH (fun H => Hk (or_intror H)) k' (fun H => Hk' (or_intror H)) E')
      as [-> ->]. split; reflexivity.
Qed.
Lemma field_dec : forall d seg, (exists k v, field d seg k v) \/ ~ In d seg.
Proof.
  intros d. induction seg as [|x seg IH]; [right; intros []|].
  destruct (Z.eq_dec x d) as [->|H].
  - left. exists [], seg. split; [reflexivity|intros []].
  - destruct IH as [[k [v [-> Hk]]]|Hn].
    + left. exists (x :: k), v. split; [reflexivity|]. intros [H1|H1]; contradiction.
    + right. intros [H1|H1]; contradiction.
Qed.
Lemma field_in : forall d seg k v, field d seg k v -> In d seg.
Proof. intros d seg k v [-> _]. apply in_or_app. right. left. reflexivity. Qed.

(** the effect of one segment *)
Definition set_field (d : Z) (seg : list Z) (m m' : smap) : Prop :=
  (exists k v, field d seg k v /\ m' = map_set k v m) \/ (~ In d seg /\ m' = m).

Lemma value_after_cons : forall d seg segs m m' k new,
  set_field d seg m m' ->
  value_after d segs (lookup k m') k new -> value_after d (seg :: segs) (lookup k m) k new.
Proof.
  intros d seg segs m m' k new Hset [[pre [sg [post [v [-> [Hf [Hno ->]]]]]]]|[Hno ->]].
  - left. exists (seg :: pre), sg, post, v. split; [reflexivity|]. split; [exact Hf|]. split; [exact Hno|reflexivity].
  - destruct Hset as [[k' [v' [Hf ->]]]|[Hn ->]].
    + destruct (list_eqb_spec k k') as [->|Hne].
      * left. exists [], seg, segs, v'. split; [reflexivity|]. split; [exact Hf|].
        split; [|apply lookup_set_same]. intros seg' v'' Hin. apply Hno. exact Hin.
      * right. split; [|apply lookup_set_other; exact Hne].
        intros sg v [<-|Hin]; [|apply Hno; exact Hin].
        intros Hf'. destruct (field_fun _ _ _ _ _ _ Hf Hf') as [E _]. congruence.
    + right. split; [|reflexivity]. intros sg v [<-|Hin]; [|apply Hno; exact Hin].
      intros Hf. apply Hn. exact (field_in _ _ _ _ Hf).
Qed.

Lemma strnchr_none : forall s c, ~ In c s -> strnchr s c (length s) = Ok None.
Proof.
  intros s c H. unfold strnchr.
  pose proof (chr_loop_ok same eq same_eq same_idem s c 0) as E. change (same c) with c in E.
  destruct (chr_loop same c s 0 (length s)) as [[i|]| |]; try contradiction; [|reflexivity].
  destruct E as [_ [[x [E1 <-]] _]]. apply nth_error_In in E1. contradiction.
Qed.
Lemma strnchr_first : forall a c s, ~ In c a ->
  strnchr (a ++ c :: s) c (length (a ++ c :: s)) = Ok (Some (length a)).
Proof.
  intros a c s H. unfold strnchr.
  assert (G : forall pos, chr_loop same c (a ++ c :: s) pos (length (a ++ c :: s))
                          = Ok (Some (pos + length a)%nat)).
  { induction a as [|x a IH]; intros pos; cbn [app length chr_loop].
    - unfold same. rewrite Z.eqb_refl, Nat.add_0_r. reflexivity.
    - unfold same at 1. destruct (Z.eqb_spec c x) as [->|Hx]; [destruct H; left; reflexivity|].
      rewrite IH by (intros H1; apply H; right; exact H1). do 2 f_equal. lia. }
  apply G.
Qed.

(** splitting at a separator that is found inside / outside the segment *)
Lemma equ_case : forall d seg rest (m : smap),
  (exists q, strnchr (seg ++ rest) d (length (seg ++ rest)) = Ok q /\
    set_field d seg m
      (match q with
       | Some equ => if (equ <? length seg)%nat
                     then map_set (firstn equ (seg ++ rest))
                            (firstn (length seg - equ - 1) (skipn (equ + 1) (seg ++ rest))) m
                     else m
       | None => m
       end)).
Proof.
  intros d seg rest m. destruct (field_dec d seg) as [[k [v [-> Hk]]]|Hn].
  - exists (Some (length k)). split.
    + rewrite <- app_assoc. cbn [app]. apply strnchr_first. exact Hk.
    + left. exists k, v. split; [split; [reflexivity|exact Hk]|].
      rewrite app_length. cbn [length].
      destruct (Nat.ltb_spec (length k) (length k + S (length v))); [|lia].
      rewrite <- app_assoc. cbn [app]. rewrite firstn_cut.
      replace (length k + 1)%nat with (S (length k)) by lia. rewrite skipn_cut.
      replace (length k + S (length v) - length k - 1)%nat with (length v) by lia.
      rewrite firstn_cut. reflexivity.
  - destruct (field_dec d rest) as [[k [v [-> Hk]]]|Hn'].
    + exists (Some (length (seg ++ k))). split.
      * rewrite app_assoc. apply strnchr_first. intros H. apply in_app_or in H. tauto.
      * right. split; [exact Hn|]. rewrite app_length.
        destruct (Nat.ltb_spec (length seg + length k) (length seg)); [lia|reflexivity].
    + exists None. split.
      * apply strnchr_none. intros H. apply in_app_or in H. tauto.
      * right. split; [exact Hn|reflexivity].
Qed.

Lemma params_loop_ok : forall s ps, splits (fun c => c = 38) s ps ->
  forall fuel m, (length s < fuel)%nat ->
  exists r, params_loop fuel m s (length s) = Ok r /\
    forall k, value_after 61 ps (lookup k m) k (lookup k r).
Proof.
  induction 1 as [s Hs|a d s ps Ha Hd Hs IH]; intros fuel m Hf;
    (destruct fuel as [|fuel]; [lia|]); cbn [params_loop].
  - destruct s as [|c s].
    + cbn [length Nat.eqb]. exists m. split; [reflexivity|]. intros k. right. split; [|reflexivity].
      intros seg v [<-|[]] [E _]. destruct k; discriminate.
    + destruct (Nat.eqb_spec (length (c :: s)) 0) as [E|_]; [discriminate|].
      rewrite strnchr_none by (apply not_in_forall; exact Hs). cbn [bind]. cbv zeta.
      destruct (equ_case 61 (c :: s) [] m) as [q [Eq Hset]]. rewrite app_nil_r in *.
      rewrite Eq. cbn [bind].
      replace (length (c :: s) - (length (c :: s) + 1))%nat with 0%nat by lia.
      destruct fuel as [|fuel]; [cbn in Hf; lia|]. cbn [params_loop Nat.eqb].
      eexists. split; [reflexivity|]. intros k. eapply value_after_cons; [exact Hset|].
      right. split; [intros seg v []|reflexivity].
  - subst d. destruct (Nat.eqb_spec (length (a ++ 38 :: s)) 0) as [E|_];
      [rewrite app_length in E; cbn in E; lia|].
    rewrite strnchr_first by (apply not_in_forall; exact Ha). cbn [bind]. cbv zeta.
    destruct (equ_case 61 a (38 :: s) m) as [q [Eq Hset]]. rewrite Eq. cbn [bind].
    match goal with |- context [params_loop fuel ?m' _ _] => set (m1 := m') in * end.
    replace (length a + 1)%nat with (S (length a)) by lia. rewrite skipn_cut.
    replace (length (a ++ 38%Z :: s) - S (length a))%nat with (length s)
      by (rewrite app_length; cbn [length]; lia).
    destruct (IH fuel m1) as [r [Er Hr]]; [rewrite app_length in Hf; cbn [length] in Hf; lia|].
    exists r. split; [exact Er|]. intros k. eapply value_after_cons; [exact Hset|apply Hr].
Qed.

(** *** headers *)

Lemma strnstr_crlf : forall s, hd 0 s <> 0 ->
  match strnstr (Some s) (Some crlf_lit) (length s) with
  | Ok (Some i) => first_occurrence eq crlf s i
  | Ok None => no_occurrence eq crlf s
  | _ => False
  end.
Proof.
  intros [|c s] Hc; [destruct Hc; reflexivity|].
  apply (str_gen_ok same eq same_eq same_idem c s crlf []); [discriminate| |exact Hc].
  repeat constructor; discriminate.
Qed.

Lemma first_occ_unique : forall s i j, first_occurrence eq crlf s i -> first_occurrence eq crlf s j -> i = j.
Proof.
  intros s i j [H1 H2] [H3 H4]. destruct (Nat.lt_trichotomy i j) as [H|[H|H]]; [|exact H|].
  - destruct (H4 i H H1).
  - destruct (H2 j H H3).
Qed.

Lemma header_loop_ok : forall s ls, header_lines s ls -> Forall (fun l => hd 0 l <> 0) ls ->
  forall fuel m, (length s < fuel)%nat ->
  exists r, header_loop fuel m s (length s) = Ok r /\
    forall k, value_after 58 ls (lookup k m) k (lookup k r).
Proof.
  induction 1 as [|s|s Hne Hno|a s ls Hne Hfirst Hs IH]; intros Hl fuel m Hf;
    (destruct fuel as [|fuel]; [lia|]).
  - cbn. exists m. split; [reflexivity|]. intros k. right. split; [intros seg v []|reflexivity].
  - exists m. split.
    + cbn [header_loop]. destruct (Nat.eqb_spec (length (13 :: 10 :: s)) 0) as [E|_]; [discriminate|].
      pose proof (strnstr_crlf (13 :: 10 :: s) ltac:(discriminate)) as H.
      assert (H0 : first_occurrence eq crlf (13 :: 10 :: s) 0).
      { split; [|intros j Hj; lia]. exists [], crlf, s. split; [reflexivity|]. split; [reflexivity|].
        repeat constructor. }
      destruct (strnstr (Some (13 :: 10 :: s)) (Some crlf_lit) (length (13 :: 10 :: s)))
        as [[i|]| |]; try contradiction.
      * rewrite (first_occ_unique _ _ _ H H0). reflexivity.
      * destruct (H 0%nat). apply H0.
    + intros k. right. split; [intros seg v []|reflexivity].
  - inversion Hl as [|? ? Hh _]; subst. cbn [header_loop].
    destruct (Nat.eqb_spec (length s) 0) as [E|_]; [destruct s; [congruence|discriminate]|].
    pose proof (strnstr_crlf s Hh) as H.
    destruct (strnstr (Some s) (Some crlf_lit) (length s)) as [[i|]| |]; try contradiction.
    { destruct (Hno i). apply H. }
    cbn [bind]. cbv zeta.
    destruct (Nat.eqb_spec (length s) 0) as [E|_]; [destruct s; [congruence|discriminate]|].
    destruct (equ_case 58 s [] m) as [q [Eq Hset]]. rewrite app_nil_r in *.
    rewrite Eq. cbn [bind].
    replace (length s - (length s + 2))%nat with 0%nat by lia.
    destruct fuel as [|fuel]; [destruct s; [congruence|cbn in Hf; lia]|]. cbn [header_loop Nat.eqb].
    eexists. split; [reflexivity|]. intros k. eapply value_after_cons; [exact Hset|].
    right. split; [intros seg v []|reflexivity].
  - inversion Hl as [|? ? Hh Hl']; subst. cbn [header_loop].
    destruct (Nat.eqb_spec (length (a ++ crlf ++ s)) 0) as [E|_];
      [rewrite !app_length in E; cbn in E; lia|].
    pose proof (strnstr_crlf (a ++ crlf ++ s)) as H.
    assert (Hh' : hd 0 (a ++ crlf ++ s) <> 0) by (destruct a; [congruence|exact Hh]).
    specialize (H Hh').
    destruct (strnstr (Some (a ++ crlf ++ s)) (Some crlf_lit) (length (a ++ crlf ++ s)))
      as [[i|]| |]; try contradiction; [|destruct (H (length a)); apply Hfirst].
    rewrite (first_occ_unique _ _ _ H Hfirst). cbn [bind]. cbv zeta.
    destruct (Nat.eqb_spec (length a) 0) as [E|_]; [destruct a; [congruence|discriminate]|].
    destruct (equ_case 58 a (crlf ++ s) m) as [q [Eq Hset]]. rewrite Eq. cbn [bind].
    match goal with |- context [header_loop fuel ?m' _ _] => set (m1 := m') in * end.
    assert (E2 : skipn (length a + 2) (a ++ crlf ++ s) = s).
    { rewrite skipn_app_ge by lia. replace (length a + 2 - length a)%nat with 2%nat by lia. reflexivity. }
    rewrite E2.
    replace (length (a ++ crlf ++ s) - (length a + 2))%nat with (length s)
      by (rewrite !app_length; cbn [length crlf]; lia).
    destruct (IH Hl' fuel m1) as [r [Er Hr]]; [rewrite !app_length in Hf; cbn [length crlf] in Hf; lia|].
    exists r. split; [exact Er|]. intros k. eapply value_after_cons; [exact Hset|apply Hr].
Qed.

(** ** url_escape *)

Lemma memset0_ok : forall dest sz, 0 <= sz -> Z.of_nat (length dest) = sz ->
  memset0 dest sz = Ok (repeat 0 (length dest)).
Proof.
  intros dest sz Hsz E. unfold memset0. subst sz. rewrite Nat2Z.id.
  pose proof (wr_list_ok (repeat 0 (length dest)) [] dest []) as H.
  rewrite repeat_length in H. specialize (H eq_refl). cbn [app length] in H.
  rewrite !app_nil_r in H. exact H.
Qed.

Lemma repeat_cons_app : forall n m, (m <= n)%nat -> repeat 0 n = repeat 0 m ++ repeat 0 (n - m).
Proof. intros. rewrite <- repeat_app. f_equal. lia. Qed.

Lemma escape_stop : forall dest ptr s sz, s <> [] -> sz <= Z.of_nat ptr ->
  escape_loop dest ptr s sz = Ok dest.
Proof.
  intros dest ptr [|c s] sz Hs H; [congruence|]. cbn [escape_loop].
  destruct (Z.ltb_spec (Z.of_nat ptr) sz); [lia|]. rewrite orb_true_r. reflexivity.
Qed.

Lemma escape_loop_ok : forall s pre z sz junk,
  Forall (fun c => 1 <= c <= 127) s -> 0 <= sz ->
  Z.of_nat (length pre + z) = sz + 3 -> (0 < z)%nat ->
  exists k, escape_loop (pre ++ repeat 0 z) (length pre) (s ++ 0 :: junk) sz
            = Ok (pre ++ firstn k (url_encode true s) ++ repeat 0 (z - k))
    /\ (k <= length (url_encode true s))%nat /\ (k < z)%nat
    /\ (Z.of_nat (length pre + length (url_encode true s)) < sz -> k = length (url_encode true s)).
Proof.
  induction s as [|c s IH]; intros pre z sz junk Hs Hsz Hz Hz0.
  - exists 0%nat. cbn. rewrite Nat.sub_0_r. repeat split; lia.
  - inversion Hs as [|? ? Hc Hs']; subst. cbn [app].
    destruct (Z.ltb_spec (Z.of_nat (length pre)) sz) as [Hp|Hp].
    2:{ exists 0%nat. rewrite escape_stop by (discriminate || lia). cbn [firstn app].
        rewrite Nat.sub_0_r. split; [reflexivity|]. split; [lia|]. split; [lia|].
        intros H. pose proof (url_encode_len true (c :: s)). cbn [length] in *. lia. }
    cbn [escape_loop]. destruct (Z.eqb_spec c 0) as [E|_]; [lia|].
    destruct (Z.ltb_spec (Z.of_nat (length pre)) sz) as [_|E]; [|lia]. cbn [orb negb].
    unfold schar. destruct (Z.ltb_spec c 128) as [_|E]; [|lia].
    destruct (Z.ltb_spec c 0) as [E|_]; [lia|].
    assert (Hb : byte c) by (unfold byte; lia).
    rewrite must_escape_ok by exact Hb. cbn [bind].
    cbn [url_encode flat_map]. fold (url_encode true s). unfold enc1. cbn [andb].
    assert (One : forall b, exists k,
      (dest <- wr (pre ++ repeat 0 z) (length pre) b ;;
       escape_loop dest (length pre + 1) (s ++ 0 :: junk) sz)
      = Ok (pre ++ firstn k ([b] ++ url_encode true s) ++ repeat 0 (z - k)) /\
      (k <= length ([b] ++ url_encode true s))%nat /\ (k < z)%nat /\
      (Z.of_nat (length pre + length ([b] ++ url_encode true s)) < sz ->
       k = length ([b] ++ url_encode true s))).
    { intros b. destruct z as [|z]; [lia|]. cbn [repeat]. rewrite wr_push by reflexivity. cbn [bind].
      replace (length pre + 1)%nat with (length (pre ++ [b])) by (rewrite app_length; reflexivity).
      destruct (IH (pre ++ [b]) z sz junk Hs' Hsz) as [k [E [H1 [H2 H3]]]];
        [rewrite app_length; cbn [length]; lia|lia|].
      exists (S k). cbn [app length firstn]. rewrite E, <- app_assoc. cbn [app].
      rewrite app_length in H3. cbn [length] in H3. repeat split; lia || reflexivity. }
    destruct (unreservedb c) eqn:Eu; cbn [orb negb].
    + destruct (Z.eqb_spec c 32) as [->|_]; [discriminate|]. apply One.
    + destruct (Z.eqb_spec c 32) as [->|H32]; cbn [negb]; [apply One|].
      unfold snprintf_hex. rewrite hex_hi_ok, hex_lo_ok by exact Hb. cbn [bind].
      destruct (Z.leb_spec (sz - Z.of_nat (length pre)) 0) as [E|_]; [lia|].
      unfold pct. set (h := hexdigit (c / 16)). set (l := hexdigit (c mod 16)).
      destruct (Z.le_gt_cases 4 (sz - Z.of_nat (length pre))) as [H4|H4].
      * replace (Z.min (sz - Z.of_nat (length pre) - 1) 3) with 3 by lia.
        change (firstn (Z.to_nat 3) [37; h; l] ++ [0]) with [37; h; l; 0].
        rewrite (repeat_cons_app z 4) by lia.
        rewrite (wr_list_ok [37; h; l; 0] pre (repeat 0 4)) by reflexivity. cbn [bind].
        replace (pre ++ [37; h; l; 0] ++ repeat 0 (z - 4))
          with ((pre ++ [37; h; l]) ++ repeat 0 (z - 3)).
        2:{ rewrite <- app_assoc. f_equal. replace (z - 3)%nat with (S (z - 4)) by lia. reflexivity. }
        replace (length pre + 3)%nat with (length (pre ++ [37; h; l])) by (rewrite app_length; reflexivity).
        destruct (IH (pre ++ [37; h; l]) (z - 3)%nat sz junk Hs' Hsz) as [k [E [H1 [H2 H3]]]];
          [rewrite app_length; cbn [length]; lia|lia|].
        exists (3 + k)%nat. rewrite E, <- app_assoc. cbn [app length firstn Nat.add].
        rewrite app_length in H3. cbn [length] in H3.
        split; [|repeat split; lia]. rewrite <- Nat.sub_add_distr. reflexivity.
      * set (n := Z.to_nat (Z.min (sz - Z.of_nat (length pre) - 1) 3)).
        assert (Hn : (n < 3)%nat) by lia.
        assert (Ln : length (firstn n [37; h; l] ++ [0]) = S n).
        { rewrite app_length, firstn_length. cbn [length]. lia. }
        rewrite (repeat_cons_app z (S n)) by lia.
        rewrite wr_list_ok by (rewrite repeat_length; lia). cbn [bind].
        rewrite escape_stop by (lia || (destruct s; discriminate)).
        exists n. split; [|repeat split].
        -- rewrite <- app_assoc. do 3 f_equal.
           ++ rewrite firstn_app_le by (cbn [length]; lia). reflexivity.
           ++ replace (z - n)%nat with (S (z - S n)) by lia. reflexivity.
        -- cbn [app length]. lia.
        -- lia.
        -- cbn [app length]. lia.
Qed.

(** ** url_unescape *)

Lemma isxdigit_iff : forall c, isxdigit c = true <-> hexd c.
Proof.
  intros c. unfold isxdigit, hexd. rewrite !orb_true_iff, !andb_true_iff, !Z.leb_le. tauto.
Qed.
Lemma isxdigit_false : forall c, isxdigit c = false -> ~ hexd c.
Proof. intros c H Hx. apply isxdigit_iff in Hx. congruence. Qed.
Lemma xval_hexval : forall c, hexd c -> xval c = hexval c.
Proof.
  intros c H. unfold xval, hexval, hexd in *.
  destruct (Z.leb_spec c 57), (Z.leb_spec c 70), (Z.leb_spec 48 c), (Z.leb_spec 65 c),
    (Z.leb_spec 97 c), (Z.leb_spec c 102); cbn [andb]; lia.
Qed.
Lemma hex2_ok : forall a b, hexd a -> hexd b -> hex2 a b = hexval a * 16 + hexval b.
Proof.
  intros a b Ha Hb. unfold hex2. rewrite !xval_hexval by assumption.
  pose proof (hexval_range a). pose proof (hexval_range b). apply Z.mod_small. lia.
Qed.
Lemma hexd_not0 : forall c, hexd c -> c <> 0. Proof. unfold hexd; lia. Qed.

(** the three tests of the loops on a C string [c :: t ++ 0 :: junk] *)
Lemma test_pct : forall c t junk,
  let s := c :: t ++ 0 :: junk in
  let b := andr (Ok (c =? 37)) (andr (xd s 1) (xd s 2)) in
  (b = Ok true /\ exists x y t', c = 37 /\ t = x :: y :: t' /\ hexd x /\ hexd y)
  \/ (b = Ok false /\ ~ (c = 37 /\ starts [hexd; hexd] t)).
Proof.
  intros c t junk s b. unfold b, s, andr. cbn [bind].
  destruct (Z.eqb_spec c 37) as [->|Hc]; [|right; split; [reflexivity|tauto]].
  unfold xd. destruct t as [|x t].
  { right. split; [reflexivity|]. cbn. tauto. }
  cbn [app rd nth_error bind]. destruct (isxdigit x) eqn:Ex.
  2:{ right. split; [reflexivity|]. apply isxdigit_false in Ex. cbn. tauto. }
  destruct t as [|y t].
  { right. split; [reflexivity|]. cbn. tauto. }
  cbn [app rd nth_error bind]. destruct (isxdigit y) eqn:Ey.
  - left. split; [reflexivity|]. exists x, y, t. apply isxdigit_iff in Ex, Ey. auto.
  - right. split; [reflexivity|]. apply isxdigit_false in Ey. cbn. tauto.
Qed.

Lemma test_uni : forall c t junk,
  let s := c :: t ++ 0 :: junk in
  let b := andr (Ok (c =? 37)) (andr (x <- rd s 1 ;; Ok (x =? 117)) (xd s 2)) in
  (b = Ok true /\ exists x t', c = 37 /\ t = 117 :: x :: t' /\ hexd x)
  \/ (b = Ok false /\ ~ (c = 37 /\ starts [eq 117; hexd] t)).
Proof.
  intros c t junk s b. unfold b, s, andr. cbn [bind].
  destruct (Z.eqb_spec c 37) as [->|Hc]; [|right; split; [reflexivity|tauto]].
  unfold xd. destruct t as [|u t].
  { right. split; [reflexivity|]. cbn. tauto. }
  cbn [app rd nth_error bind]. destruct (Z.eqb_spec u 117) as [->|Hu].
  2:{ right. split; [reflexivity|]. cbn. intros [_ [E _]]. congruence. }
  destruct t as [|x t].
  { right. split; [reflexivity|]. cbn. tauto. }
  cbn [app rd nth_error bind]. destruct (isxdigit x) eqn:Ex.
  - left. split; [reflexivity|]. exists x, t. apply isxdigit_iff in Ex. auto.
  - right. split; [reflexivity|]. apply isxdigit_false in Ex. cbn. tauto.
Qed.

Lemma test_bsx : forall c t junk,
  let s := c :: t ++ 0 :: junk in
  let b := andr (Ok (c =? 92)) (andr (x <- rd s 1 ;; Ok (x =? 120)) (andr (xd s 2) (xd s 3))) in
  (b = Ok true /\ exists x y t', c = 92 /\ t = 120 :: x :: y :: t' /\ hexd x /\ hexd y)
  \/ (b = Ok false /\ ~ (c = 92 /\ starts [eq 120; hexd; hexd] t)).
Proof.
  intros c t junk s b. unfold b, s, andr. cbn [bind].
  destruct (Z.eqb_spec c 92) as [->|Hc]; [|right; split; [reflexivity|tauto]].
  unfold xd. destruct t as [|u t].
  { right. split; [reflexivity|]. cbn. tauto. }
  cbn [app rd nth_error bind]. destruct (Z.eqb_spec u 120) as [->|Hu].
  2:{ right. split; [reflexivity|]. cbn. intros [_ [E _]]. congruence. }
  destruct t as [|x t].
  { right. split; [reflexivity|]. cbn. tauto. }
  cbn [app rd nth_error bind]. destruct (isxdigit x) eqn:Ex.
  2:{ right. split; [reflexivity|]. apply isxdigit_false in Ex. cbn. tauto. }
  destruct t as [|y t].
  { right. split; [reflexivity|]. cbn. tauto. }
  cbn [app rd nth_error bind]. destruct (isxdigit y) eqn:Ey.
  - left. split; [reflexivity|]. exists x, y, t. apply isxdigit_iff in Ex, Ey. auto.
  - right. split; [reflexivity|]. apply isxdigit_false in Ey. cbn. tauto.
Qed.

(** strtol stops inside the string *)
Lemma strtol_digits_safe : forall t acc junk, 
  exists v t', strtol_digits (t ++ 0 :: junk) acc = Ok (v, t' ++ 0 :: junk)
    /\ (length t' <= length t)%nat /\ (nonul t -> nonul t').
Proof.
  induction t as [|c t IH]; intros acc junk; cbn [app strtol_digits].
  - exists (Z.min acc (2 ^ 63 - 1)), []. cbn. auto.
  - destruct (isxdigit c).
    + destruct (IH (acc * 16 + xval c) junk) as [v [t' [E [H1 H2]]]]. exists v, t'.
      split; [exact E|]. split; [cbn; lia|]. intros H. apply H2. inversion H; assumption.
    + eexists _, (c :: t). split; [reflexivity|]. split; [lia|auto].
Qed.
Lemma strtol16_safe : forall t junk,
  exists v t', strtol16 (t ++ 0 :: junk) = Ok (v, t' ++ 0 :: junk)
    /\ (length t' <= length t)%nat /\ (nonul t -> nonul t').
Proof.
  intros t junk. pose proof (strtol_digits_safe t 0 junk) as D. unfold strtol16.
  destruct t as [|a [|x [|d t]]]; cbn [app] in *.
  - destruct junk as [|j [|k junk]]; exact D.
  - destruct junk as [|j junk]; [exact D|].
    destruct ((a =? 48) && ((0 =? 120) || (0 =? 88)) && isxdigit j) eqn:E; [|exact D].
    cbn in E. rewrite andb_false_r in E. discriminate.
  - destruct ((a =? 48) && ((x =? 120) || (x =? 88)) && isxdigit 0) eqn:E; [|exact D].
    cbn in E. rewrite andb_false_r in E. discriminate.
  - destruct ((a =? 48) && ((x =? 120) || (x =? 88)) && isxdigit d); [|exact D].
    destruct (strtol_digits_safe (d :: t) 0 junk) as [v [t' [E [H1 H2]]]].
    exists v, t'. split; [exact E|]. split; [cbn in *; lia|]. intros H.
    apply H2. inversion H as [|? ? ? H']; inversion H'; assumption.
Qed.

Lemma wr_ex : forall (b : list Z) i x, (i < length b)%nat ->
  exists b', wr b i x = Ok b' /\ length b' = length b /\ nth_error b' i = Some x.
Proof.
  intros b i x H. exists (upd b i x). split; [apply wr_ok; exact H|].
  split; [apply upd_length|apply nth_error_upd_same; exact H].
Qed.

Lemma unescape_safe : forall fuel dest ptr t junk sz,
  nonul t -> (length t < fuel)%nat -> 2 <= sz < 2 ^ 64 -> Z.of_nat (length dest) = sz ->
  Z.of_nat ptr < sz ->
  exists dest', unescape_loop fuel dest ptr (t ++ 0 :: junk) sz = Ok dest' /\
    length dest' = length dest /\ In 0 dest'.
Proof.
  induction fuel as [|fuel IH]; intros dest ptr t junk sz Ht Hf Hsz Hd Hp; [lia|].
  cbn [unescape_loop]. rewrite (Z.mod_small (sz - 2)) by lia.
  destruct t as [|c t].
  { cbn [app deref bind Z.eqb orb]. destruct (wr_ex dest ptr 0) as [b [E [H1 H2]]]; [lia|].
    exists b. split; [exact E|]. split; [exact H1|]. eapply nth_error_In; exact H2. }
  inversion Ht as [|? ? Hc Ht']; subst. cbn [length] in Hf.
  cbn [app deref bind tl]. destruct (Z.eqb_spec c 0) as [E|_]; [contradiction|]. cbn [orb].
  destruct (Z.ltb_spec (Z.of_nat ptr) (Z.of_nat (length dest) - 2)) as [Hlt|Hge]; cbn [negb].
  2:{ destruct (wr_ex dest ptr 0) as [b [E [H1 H2]]]; [lia|].
      exists b. split; [exact E|]. split; [exact H1|]. eapply nth_error_In; exact H2. }
  assert (One : forall x t', nonul t' -> (length t' < fuel)%nat -> exists dest',
    (dest <- wr dest ptr x ;; unescape_loop fuel dest (ptr + 1) (t' ++ 0 :: junk) (Z.of_nat (length dest)))
    = Ok dest' /\ length dest' = length dest /\ In 0 dest').
  { intros x t' H1 H2. destruct (wr_ex dest ptr x) as [b [E [H3 H4]]]; [lia|]. rewrite E. cbn [bind].
    destruct (IH b (ptr + 1)%nat t' junk (Z.of_nat (length dest))) as [d [E2 [H5 H6]]];
      try assumption; try lia.
    rewrite H3. exists d. split; [exact E2|]. split; [congruence|exact H6]. }
  destruct (Z.eqb_spec c 43) as [->|H43].
  { destruct (wr_ex dest ptr 32) as [b [E [H3 H4]]]; [lia|]. rewrite E. cbn [bind].
    destruct (IH b (ptr + 1)%nat t junk (Z.of_nat (length dest))) as [d [E2 [H5 H6]]];
      try assumption; try lia.
    exists d. split; [exact E2|]. split; [congruence|exact H6]. }
  clear One.
  assert (One : forall x t', nonul t' -> (length t' < fuel)%nat -> exists dest',
    (dst <- wr dest ptr x ;; unescape_loop fuel dst (ptr + 1) (t' ++ 0 :: junk) (Z.of_nat (length dest)))
    = Ok dest' /\ length dest' = length dest /\ In 0 dest').
  { intros x t' H1 H2. destruct (wr_ex dest ptr x) as [b [E [H3 H4]]]; [lia|]. rewrite E. cbn [bind].
    destruct (IH b (ptr + 1)%nat t' junk (Z.of_nat (length dest))) as [d [E2 [H5 H6]]];
      try assumption; try lia.
    exists d. split; [exact E2|]. split; [congruence|exact H6]. }
  destruct (test_pct c t junk) as [[-> [x [y [t' [-> [-> [Hx Hy]]]]]]]|[-> Hn1]]; cbn [bind].
  { cbn [rd nth_error bind app skipn]. inversion Ht' as [|? ? ? H1]; inversion H1; subst.
    cbn [length] in Hf. apply One; [assumption|lia]. }
  destruct (test_uni c t junk) as [[-> [x [t' [-> [-> Hx]]]]]|[-> Hn2]]; cbn [bind].
  { cbn [skipn app].
    destruct (strtol16_safe (x :: t') junk) as [v [t2 [E [H1 H2]]]]. cbn [app] in E. rewrite E.
    cbn [bind]. cbv zeta.
    assert (H3 : nonul t2) by (apply H2; inversion Ht'; assumption). cbn [length] in *.
    destruct ((v mod 2 ^ 32 <? 2048) && (127 <? v mod 2 ^ 32)).
    - destruct (wr_ex dest ptr (Z.lor (Z.shiftr (v mod 2 ^ 32) 6) 192)) as [b [E1 [L1 _]]]; [lia|].
      rewrite E1. cbn [bind].
      destruct (wr_ex b (ptr + 1) (Z.lor (Z.land (v mod 2 ^ 32) 63) 128)) as [b2 [E2 [L2 _]]]; [lia|].
      rewrite E2. cbn [bind].
      destruct (IH b2 (ptr + 2)%nat t2 junk (Z.of_nat (length dest))) as [d [E3 [H5 H6]]];
        try assumption; try lia.
      exists d. split; [exact E3|]. split; [congruence|exact H6].
    - destruct (v mod 2 ^ 32 <? 127).
      + apply One; [assumption|lia].
      + apply IH; try assumption; lia. }
  destruct (test_bsx c t junk) as [[-> [x [y [t' [-> [-> [Hx Hy]]]]]]]|[-> Hn3]]; cbn [bind].
  { cbn [rd nth_error bind app skipn]. inversion Ht' as [|? ? ? K1]; inversion K1 as [|? ? ? K2];
      inversion K2; subst.
    cbn [length] in Hf. apply One; [assumption|lia]. }
  apply One; [assumption|lia].
Qed.

Lemma utf8_hi : forall v, 128 <= v < 2048 -> Z.lor (Z.shiftr v 6) 192 = 192 + v / 64.
Proof.
  intros v Hv. apply Z.eqb_eq.
  assert (H : forall z, 0 <= z < Z.of_nat 2048 ->
     ((z <? 128) || (Z.lor (Z.shiftr z 6) 192 =? 192 + z / 64)) = true).
  { apply (zrange_forall 2048). vm_compute. reflexivity. }
  specialize (H v ltac:(lia)). destruct (Z.ltb_spec v 128); [lia|exact H].
Qed.
Lemma utf8_lo : forall v, 128 <= v < 2048 -> Z.lor (Z.land v 63) 128 = 128 + v mod 64.
Proof.
  intros v Hv. apply Z.eqb_eq.
  assert (H : forall z, 0 <= z < Z.of_nat 2048 ->
     ((z <? 128) || (Z.lor (Z.land z 63) 128 =? 128 + z mod 64)) = true).
  { apply (zrange_forall 2048). vm_compute. reflexivity. }
  specialize (H v ltac:(lia)). destruct (Z.ltb_spec v 128); [lia|exact H].
Qed.

Lemma strtol16_four : forall a b c d s junk, hexd a -> hexd b -> hexd c -> hexd d ->
  ~ starts [hexd] s ->
  strtol16 (a :: b :: c :: d :: s ++ 0 :: junk)
  = Ok (((hexval a * 16 + hexval b) * 16 + hexval c) * 16 + hexval d, s ++ 0 :: junk).
Proof.
  intros a b c d s junk Ha Hb Hc Hd Hs. unfold strtol16.
  assert (E : ((b =? 120) || (b =? 88)) = false).
  { unfold hexd in Hb. destruct (Z.eqb_spec b 120), (Z.eqb_spec b 88); (reflexivity || lia). }
  rewrite E, andb_false_r. cbn [andb].
  pose proof (proj2 (isxdigit_iff a) Ha) as Ea. pose proof (proj2 (isxdigit_iff b) Hb) as Eb.
  pose proof (proj2 (isxdigit_iff c) Hc) as Ec. pose proof (proj2 (isxdigit_iff d) Hd) as Ed.
  cbn [strtol_digits]. rewrite Ea, Eb, Ec, Ed. rewrite !xval_hexval by assumption.
  pose proof (hexval_range a). pose proof (hexval_range b). pose proof (hexval_range c).
  pose proof (hexval_range d).
  assert (M : forall v r, 0 <= v < 65536 -> match r with x :: _ => isxdigit x = false | [] => False end ->
              strtol_digits r v = Ok (v, r)).
  { intros v [|x r] Hv Hr; [contradiction|]. cbn [strtol_digits]. rewrite Hr.
    rewrite Z.min_l by lia. reflexivity. }
  rewrite Z.mul_0_l, Z.add_0_l. apply M; [lia|]. destruct s as [|x s]; cbn [app]; [reflexivity|].
  destruct (isxdigit x) eqn:Ex; [|reflexivity]. apply isxdigit_iff in Ex. destruct Hs. cbn. auto.
Qed.

Lemma unescape_exact : forall s t, unescapes s t -> nonul s -> forall fuel pre z junk sz,
  (length s < fuel)%nat -> sz < 2 ^ 64 -> Z.of_nat (length pre + z) = sz ->
  (length t + 2 <= z)%nat ->
  unescape_loop fuel (pre ++ repeat 0 z) (length pre) (s ++ 0 :: junk) sz
  = Ok (pre ++ t ++ repeat 0 (z - length t)).
Proof.
  (* one output byte, then continue *)
  assert (One : forall s t fuel pre z junk sz x,
    (forall pre z, Z.of_nat (length pre + z) = sz -> (length t + 2 <= z)%nat ->
       unescape_loop fuel (pre ++ repeat 0 z) (length pre) (s ++ 0 :: junk) sz
       = Ok (pre ++ t ++ repeat 0 (z - length t))) ->
    Z.of_nat (length pre + z) = sz -> (length (x :: t) + 2 <= z)%nat ->
    (dest <- wr (pre ++ repeat 0 z) (length pre) x ;;
     unescape_loop fuel dest (length pre + 1) (s ++ 0 :: junk) sz)
    = Ok (pre ++ (x :: t) ++ repeat 0 (z - length (x :: t)))).
  { intros s t fuel pre z junk sz x H Hz Hl. destruct z as [|z]; [cbn in Hl; lia|]. cbn [repeat length] in *.
    rewrite wr_push by reflexivity. cbn [bind].
    replace (length pre + 1)%nat with (length (pre ++ [x])) by (rewrite app_length; reflexivity).
    rewrite H by (rewrite ?app_length; cbn [length]; lia). rewrite <- app_assoc. reflexivity. }
  induction 1 as [|s t H IH|a b s t Ha Hb H IH|a b s t Ha Hb H IH|a b c d s t Ha Hb Hc Hd Hs H IH
    |c s t H43 Hp Hx H IH]; intros Hn fuel pre z junk sz Hf Hsz Hz Hl;
    (destruct fuel as [|fuel]; [lia|]); cbn [unescape_loop];
    rewrite (Z.mod_small (sz - 2)) by lia.
  - cbn [app deref bind Z.eqb orb length]. destruct z as [|z]; [cbn in Hl; lia|].
    cbn [repeat]. rewrite wr_app by reflexivity. reflexivity.
  - inversion Hn as [|? ? _ Hn']; subst. cbn [length] in Hf, Hl.
    cbn [app deref bind Z.eqb Pos.eqb orb tl].
    destruct (Z.ltb_spec (Z.of_nat (length pre)) (Z.of_nat (length pre + z) - 2)); [|lia]. cbn [negb].
    apply One; [|reflexivity|cbn [length]; lia]. intros. apply IH; try assumption; lia.
  - inversion Hn as [|? ? _ Hn1]; inversion Hn1 as [|? ? _ Hn2]; inversion Hn2 as [|? ? _ Hn']; subst.
    cbn [length] in Hf, Hl. cbn [app].
    destruct (test_pct 37 (a :: b :: s) junk) as [[E _]|[_ E]]; [|destruct E; cbn; auto].
    cbn [app] in E. cbn [deref bind]. rewrite E. cbn [bind Z.eqb Pos.eqb orb].
    destruct (Z.ltb_spec (Z.of_nat (length pre)) (Z.of_nat (length pre + z) - 2)); [|lia]. cbn [negb].
    cbn [rd nth_error bind skipn]. rewrite hex2_ok by assumption.
    apply One; [|reflexivity|cbn [length]; lia]. intros. apply IH; try assumption; lia.
  - inversion Hn as [|? ? _ Hn0]; inversion Hn0 as [|? ? _ Hn1]; inversion Hn1 as [|? ? _ Hn2];
      inversion Hn2 as [|? ? _ Hn']; subst.
    cbn [length] in Hf, Hl. cbn [app].
    destruct (test_bsx 92 (120 :: a :: b :: s) junk) as [[E _]|[_ E]]; [|destruct E; cbn; auto].
    cbn [app] in E. cbn [deref bind]. rewrite E. cbn [bind Z.eqb Pos.eqb orb andr].
    destruct (Z.ltb_spec (Z.of_nat (length pre)) (Z.of_nat (length pre + z) - 2)); [|lia]. cbn [negb].
    cbn [rd nth_error bind skipn]. rewrite hex2_ok by assumption.
    apply One; [|reflexivity|cbn [length]; lia]. intros. apply IH; try assumption; lia.
  - assert (Hn' : nonul s) by (unfold nonul in *; repeat (inversion_clear Hn as [|? ? _ Hn1]; rename Hn1 into Hn); exact Hn).
    rewrite app_length in Hl. cbn [length] in Hf. cbn [app].
    destruct (test_pct 37 (117 :: a :: b :: c :: d :: s) junk) as [[_ E]|[E _]].
    { destruct E as [x [y [t' [_ [E [Hx _]]]]]]. injection E as <- _. unfold hexd in Hx. lia. }
    destruct (test_uni 37 (117 :: a :: b :: c :: d :: s) junk) as [[E2 _]|[_ E2]]; [|destruct E2; cbn; auto].
    cbn [app] in E, E2. cbn [deref bind]. rewrite E, E2. cbn [bind Z.eqb Pos.eqb orb].
    destruct (Z.ltb_spec (Z.of_nat (length pre)) (sz - 2)); cbn [negb].
    2:{ destruct (utf8_short _); [|cbn [length] in Hl; lia]. destruct t; [|cbn [length] in Hl; lia].
        destruct z as [|z]; [lia|]. cbn [repeat]. rewrite wr_app by reflexivity. reflexivity. }
    cbn [bind skipn]. rewrite strtol16_four by assumption. cbn [bind]. cbv zeta.
    set (v := ((hexval a * 16 + hexval b) * 16 + hexval c) * 16 + hexval d) in *.
    assert (Hv : 0 <= v < 65536).
    { unfold v. pose proof (hexval_range a). pose proof (hexval_range b). pose proof (hexval_range c).
      pose proof (hexval_range d). lia. }
    rewrite (Z.mod_small v) by lia. unfold utf8_short in *.
    destruct (Z.ltb_spec v 2048), (Z.ltb_spec 127 v), (Z.ltb_spec v 127); cbn [andb] in *; try lia;
      try (apply IH; try assumption; cbn [length app] in *; lia).
    + cbn [app length] in *. rewrite utf8_hi, utf8_lo by lia.
      destruct z as [|[|z]]; try lia. cbn [repeat].
      rewrite wr_push by reflexivity. cbn [bind].
      rewrite wr_push by (rewrite app_length; reflexivity). cbn [bind].
      replace (length pre + 2)%nat with (length ((pre ++ [192 + v / 64]) ++ [128 + v mod 64]))
        by (rewrite !app_length; cbn; lia).
      rewrite IH by (try assumption; rewrite ?app_length; cbn [length]; lia).
      rewrite <- !app_assoc. reflexivity.
    + cbn [app] in *. apply One; [|exact Hz|cbn [length] in *; lia]. intros. apply IH; try assumption; lia.
  - inversion Hn as [|? ? Hc Hn']; subst. cbn [length] in Hf, Hl. cbn [app].
    destruct (test_pct c s junk) as [[_ E]|[E _]].
    { destruct E as [x [y [t' [-> [-> [Hx' Hy]]]]]]. destruct Hp. cbn. auto. }
    destruct (test_uni c s junk) as [[_ E2]|[E2 _]].
    { destruct E2 as [x [t' [-> [-> Hx']]]]. destruct Hp. cbn. auto. }
    destruct (test_bsx c s junk) as [[_ E3]|[E3 _]].
    { destruct E3 as [x [y [t' [-> [-> [Hx' Hy]]]]]]. destruct Hx. cbn. auto. }
    cbn [deref bind tl]. destruct (Z.eqb_spec c 0) as [F|_]; [contradiction|]. cbn [orb].
    destruct (Z.ltb_spec (Z.of_nat (length pre)) (Z.of_nat (length pre + z) - 2)); [|lia]. cbn [negb].
    destruct (Z.eqb_spec c 43) as [F|_]; [contradiction|].
    rewrite E, E2. cbn [bind]. rewrite E3. cbn [bind].
    apply One; [|reflexivity|cbn [length]; lia]. intros. apply IH; try assumption; lia.
Qed.

Lemma hexdigit_hexd : forall v, 0 <= v < 16 -> hexd (hexdigit v).
Proof.
  intros v Hv. apply isxdigit_iff. revert v Hv. apply (zrange_forall 16). vm_compute. reflexivity.
Qed.

Lemma unescapes_encode : forall plus s, bytes s -> unescapes (url_encode plus s) s.
Proof.
  intros plus. induction s as [|c s IH]; intros Hs; cbn [url_encode flat_map]; [constructor|].
  apply bytes_cons in Hs. destruct Hs as [Hc Hs]. fold (url_encode plus s). unfold enc1.
  destruct (unreservedb c) eqn:Eu.
  - pose proof (unreserved_not c Eu) as [H1 H2]. cbn [app]. apply une_copy; [exact H1|tauto| |exact (IH Hs)].
    intros [-> _]. discriminate.
  - destruct (plus && (c =? 32)) eqn:Ep.
    + apply andb_true_iff in Ep. destruct Ep as [_ Ep]. apply Z.eqb_eq in Ep. subst c.
      cbn [app]. apply une_plus. exact (IH Hs).
    + unfold pct. cbn [app].
      assert (Hd : 0 <= c / 16 < 16) by (unfold byte in Hc; split; [apply Z.div_pos|apply Z.div_lt_upper_bound]; lia).
      pose proof (Z.mod_pos_bound c 16 ltac:(lia)) as Hm.
      assert (E : c = hexval (hexdigit (c / 16)) * 16 + hexval (hexdigit (c mod 16))).
      { rewrite !hexval_hexdigit by assumption. rewrite Z.mul_comm. apply Z.div_mod. lia. }
      rewrite E at 3. apply une_pct; [apply hexdigit_hexd; assumption..|exact (IH Hs)].
Qed.

Lemma url_encode_nonul : forall plus s, bytes s -> nonul (url_encode plus s).
Proof.
  intros plus s Hs. induction s as [|c s IH]; cbn [url_encode flat_map]; [constructor|].
  apply bytes_cons in Hs. destruct Hs as [Hc Hs]. fold (url_encode plus s).
  apply nonul_app. split; [|exact (IH Hs)]. unfold enc1.
  destruct (unreservedb c) eqn:Eu; [constructor; [intros ->; discriminate|constructor]|].
  destruct (plus && (c =? 32)); [repeat constructor; discriminate|].
  assert (Hd : 0 <= c / 16 < 16) by (unfold byte in Hc; split; [apply Z.div_pos|apply Z.div_lt_upper_bound]; lia).
  pose proof (Z.mod_pos_bound c 16 ltac:(lia)) as Hm.
  unfold pct. repeat constructor; try discriminate; apply hexd_not0; apply hexdigit_hexd; assumption.
Qed.

(** ** url_preunescape *)

Lemma land128 : forall v, 0 <= v < 256 -> negb (Z.land v 128 =? 0) = (128 <=? v).
Proof.
  intros v Hv. apply eqb_prop. revert v Hv. apply (zrange_forall 256). vm_compute. reflexivity.
Qed.

Lemma wr_list_ex : forall l (b : list Z) i, (i + length l <= length b)%nat ->
  exists b', wr_list b i l = Ok b' /\ length b' = length b.
Proof.
  induction l as [|x l IH]; intros b i H; cbn [wr_list length] in *.
  - exists b. auto.
  - destruct (wr_ex b i x) as [b1 [E [L _]]]; [lia|]. rewrite E. cbn [bind].
    destruct (IH b1 (i + 1)%nat) as [b2 [E2 L2]]; [lia|]. exists b2. split; [exact E2|congruence].
Qed.

(** safe whenever the block has room for the rest of the string, or 8 bytes more than sz *)
Lemma preunescape_safe : forall fuel dest ptr t junk sz,
  nonul t -> (length t < fuel)%nat -> 0 <= sz -> sz + 5 < 2 ^ 64 ->
  (sz + 8 <= Z.of_nat (length dest) /\ Z.of_nat ptr <= sz + 7
   \/ (ptr + length t < length dest)%nat) ->
  exists dest', preunescape_loop fuel dest ptr (t ++ 0 :: junk) sz = Ok dest' /\
    length dest' = length dest /\ exists i, (ptr <= i)%nat /\ (i <= ptr + length t)%nat /\ nth_error dest' i = Some 0.
Proof.
  induction fuel as [|fuel IH]; intros dest ptr t junk sz Ht Hf Hsz Hsz2 Hd; [lia|].
  cbn [preunescape_loop]. rewrite (Z.mod_small (sz + 5)) by lia.
  destruct t as [|c t].
  { cbn [app deref bind Z.eqb orb length] in *. destruct (wr_ex dest ptr 0) as [b [E [H1 H2]]]; [lia|].
    exists b. split; [exact E|]. split; [exact H1|]. exists ptr. repeat split; try lia. exact H2. }
  inversion Ht as [|? ? Hc Ht']; subst. cbn [length] in Hf, Hd.
  cbn [app deref bind tl]. destruct (Z.eqb_spec c 0) as [E|_]; [contradiction|]. cbn [orb].
  destruct (Z.ltb_spec (Z.of_nat ptr) (sz + 5)) as [Hlt|Hge]; cbn [negb].
  2:{ destruct (wr_ex dest ptr 0) as [b [E [H1 H2]]]; [lia|].
      exists b. split; [exact E|]. split; [exact H1|]. exists ptr. repeat split; try lia. exact H2. }
  assert (Rec : forall b ptr' t', length b = length dest -> nonul t' -> (length t' < fuel)%nat ->
    (ptr <= ptr')%nat -> (ptr' + length t' <= ptr + S (length t))%nat -> Z.of_nat ptr' <= sz + 7 ->
    exists dest', preunescape_loop fuel b ptr' (t' ++ 0 :: junk) sz = Ok dest' /\
      length dest' = length dest /\
      exists i, (ptr <= i)%nat /\ (i <= ptr + S (length t))%nat /\ nth_error dest' i = Some 0).
  { intros b ptr' t' L H1 H2 H3 H4 H5.
    destruct (IH b ptr' t' junk sz) as [d [E [L2 [i [I1 [I2 I3]]]]]]; try assumption; [lia|].
    exists d. split; [exact E|]. split; [congruence|]. exists i. repeat split; try lia. exact I3. }
  assert (One : forall x t', nonul t' -> (length t' < fuel)%nat -> (S (length t') <= S (length t))%nat ->
    exists dest', (dst <- wr dest ptr x ;; preunescape_loop fuel dst (ptr + 1) (t' ++ 0 :: junk) sz) = Ok dest' /\
      length dest' = length dest /\
      exists i, (ptr <= i)%nat /\ (i <= ptr + S (length t))%nat /\ nth_error dest' i = Some 0).
  { intros x t' H1 H2 H3. destruct (wr_ex dest ptr x) as [b [E [L _]]]; [lia|]. rewrite E. cbn [bind].
    apply Rec; try assumption; lia. }
  cbn [length].
  destruct (test_pct c t junk) as [[-> [x [y [t' [-> [-> [Hx Hy]]]]]]]|[-> Hn1]]; cbn [bind].
  { cbn [rd nth_error bind app skipn]. inversion Ht' as [|? ? ? H1]; inversion H1; subst.
    cbn [length] in *. destruct (negb (Z.land (hex2 x y) 128 =? 0)).
    - apply One; [assumption|lia|lia].
    - destruct (Z.ltb_spec (Z.of_nat (ptr + 4)) sz).
      + destruct (wr_list_ex [37; x; y] dest ptr) as [b [E L]]; [cbn [length]; lia|]. rewrite E. cbn [bind].
        apply Rec; try assumption; lia.
      + cbn [bind]. apply Rec; try assumption; try reflexivity; lia. }
  destruct (test_bsx c t junk) as [[-> [x [y [t' [-> [-> [Hx Hy]]]]]]]|[-> Hn3]]; cbn [bind].
  { cbn [rd nth_error bind app skipn]. inversion Ht' as [|? ? ? K1]; inversion K1 as [|? ? ? K2];
      inversion K2; subst.
    cbn [length] in *. destruct (negb (Z.land (hex2 x y) 128 =? 0)).
    - apply One; [assumption|lia|lia].
    - destruct (Z.ltb_spec (Z.of_nat (ptr + 3)) sz).
      + destruct (wr_list_ex [92; 120; x; y] dest ptr) as [b [E L]]; [cbn [length]; lia|]. rewrite E. cbn [bind].
        apply Rec; try assumption; lia.
      + cbn [bind]. apply Rec; try assumption; try reflexivity; lia. }
  apply One; [assumption|lia|lia].
Qed.

Lemma preunescape_exact : forall s t, preunescapes s t -> nonul s -> forall fuel pre rest junk sz,
  (length s < fuel)%nat -> sz + 5 < 2 ^ 64 ->
  Z.of_nat (length pre + length t) + 2 <= sz -> (length t < length rest)%nat ->
  preunescape_loop fuel (pre ++ rest) (length pre) (s ++ 0 :: junk) sz
  = Ok (pre ++ t ++ 0 :: skipn (S (length t)) rest).
Proof.
  assert (One : forall s t fuel pre rest junk sz x,
    (forall pre rest, Z.of_nat (length pre + length t) + 2 <= sz -> (length t < length rest)%nat ->
       preunescape_loop fuel (pre ++ rest) (length pre) (s ++ 0 :: junk) sz
       = Ok (pre ++ t ++ 0 :: skipn (S (length t)) rest)) ->
    Z.of_nat (length pre + length (x :: t)) + 2 <= sz -> (length (x :: t) < length rest)%nat ->
    (dest <- wr (pre ++ rest) (length pre) x ;;
     preunescape_loop fuel dest (length pre + 1) (s ++ 0 :: junk) sz)
    = Ok (pre ++ (x :: t) ++ 0 :: skipn (S (length (x :: t))) rest)).
  { intros s t fuel pre rest junk sz x H Hz Hl. destruct rest as [|r rest]; [cbn in Hl; lia|].
    cbn [length] in *. rewrite wr_push by reflexivity. cbn [bind].
    replace (length pre + 1)%nat with (length (pre ++ [x])) by (rewrite app_length; reflexivity).
    rewrite H by (rewrite ?app_length; cbn [length]; lia). rewrite <- app_assoc. reflexivity. }
  induction 1 as [|a b s t Ha Hb Hv H IH|a b s t Ha Hb Hv H IH|a b s t Ha Hb Hv H IH|c s t Hp Hx H IH];
    intros Hn fuel pre rest junk sz Hf Hsz Hz Hl;
    (destruct fuel as [|fuel]; [lia|]); cbn [preunescape_loop];
    rewrite (Z.mod_small (sz + 5)) by lia.
  - cbn [app deref bind Z.eqb orb length]. destruct rest as [|r rest]; [cbn in Hl; lia|].
    rewrite wr_app by reflexivity. reflexivity.
  - inversion Hn as [|? ? _ Hn1]; inversion Hn1 as [|? ? _ Hn2]; inversion Hn2 as [|? ? _ Hn']; subst.
    cbn [length] in Hf. cbn [app].
    destruct (test_pct 37 (a :: b :: s) junk) as [[E _]|[_ E]]; [|destruct E; cbn; auto].
    cbn [app] in E. cbn [deref bind]. rewrite E. cbn [bind Z.eqb Pos.eqb orb].
    destruct (Z.ltb_spec (Z.of_nat (length pre)) (sz + 5)); [|lia]. cbn [negb].
    cbn [rd nth_error bind skipn]. rewrite hex2_ok by assumption.
    pose proof (hexval_range a). pose proof (hexval_range b).
    rewrite land128 by lia. destruct (Z.leb_spec 128 (hexval a * 16 + hexval b)); [|lia].
    apply One; [|exact Hz|exact Hl]. intros. apply IH; try assumption; lia.
  - inversion Hn as [|? ? _ Hn1]; inversion Hn1 as [|? ? _ Hn2]; inversion Hn2 as [|? ? _ Hn']; subst.
    cbn [length] in *. cbn [app].
    destruct (test_pct 37 (a :: b :: s) junk) as [[E _]|[_ E]]; [|destruct E; cbn; auto].
    cbn [app] in E. cbn [deref bind]. rewrite E. cbn [bind Z.eqb Pos.eqb orb].
    destruct (Z.ltb_spec (Z.of_nat (length pre)) (sz + 5)); [|lia]. cbn [negb].
    cbn [rd nth_error bind skipn]. rewrite hex2_ok by assumption.
    pose proof (hexval_range a). pose proof (hexval_range b).
    rewrite land128 by lia. destruct (Z.leb_spec 128 (hexval a * 16 + hexval b)); [lia|].
    destruct (Z.ltb_spec (Z.of_nat (length pre + 4)) sz); [|lia].
    destruct rest as [|r1 [|r2 [|r3 rest]]]; cbn [length] in Hl; try lia.
    change (r1 :: r2 :: r3 :: rest) with ([r1; r2; r3] ++ rest).
    rewrite (wr_list_ok [37; a; b] pre [r1; r2; r3] rest) by reflexivity. cbn [bind].
    rewrite app_assoc.
    replace (length pre + 3)%nat with (length (pre ++ [37; a; b])) by (rewrite app_length; reflexivity).
    rewrite IH by (try assumption; rewrite ?app_length; cbn [length]; lia).
    rewrite <- app_assoc. reflexivity.
  - inversion Hn as [|? ? _ Hn0]; inversion Hn0 as [|? ? _ Hn1]; inversion Hn1 as [|? ? _ Hn2];
      inversion Hn2 as [|? ? _ Hn']; subst.
    cbn [length] in Hf. cbn [app].
    destruct (test_bsx 92 (120 :: a :: b :: s) junk) as [[E _]|[_ E]]; [|destruct E; cbn; auto].
    cbn [app] in E. cbn [deref bind]. rewrite E. cbn [bind Z.eqb Pos.eqb orb andr].
    destruct (Z.ltb_spec (Z.of_nat (length pre)) (sz + 5)); [|lia]. cbn [negb].
    cbn [rd nth_error bind skipn]. rewrite hex2_ok by assumption.
    pose proof (hexval_range a). pose proof (hexval_range b).
    rewrite land128 by lia. destruct (Z.leb_spec 128 (hexval a * 16 + hexval b)); [|lia].
    apply One; [|exact Hz|exact Hl]. intros. apply IH; try assumption; lia.
  - inversion Hn as [|? ? Hc Hn']; subst. cbn [length] in Hf. cbn [app].
    destruct (test_pct c s junk) as [[_ E]|[E _]].
    { destruct E as [x [y [t' [-> [-> [Hx' Hy]]]]]]. destruct Hp. cbn. auto. }
    destruct (test_bsx c s junk) as [[_ E3]|[E3 _]].
    { destruct E3 as [x [y [t' [-> [-> [Hx' Hy]]]]]]. destruct Hx. cbn. auto. }
    cbn [deref bind tl]. destruct (Z.eqb_spec c 0) as [F|_]; [contradiction|]. cbn [orb].
    destruct (Z.ltb_spec (Z.of_nat (length pre)) (sz + 5)); [|lia]. cbn [negb].
    rewrite E. cbn [bind]. rewrite E3. cbn [bind].
    apply One; [|exact Hz|exact Hl]. intros. apply IH; try assumption; lia.
Qed.

(** ** Nothing after the given length matters *)

Lemma chr_loop_bound : forall f c s pos len k,
  chr_loop f c s pos len = Ok (Some k) -> (pos <= k < pos + len)%nat.
Proof.
  intros f c s. induction s as [|x s IH]; intros pos [|len] k H; cbn [chr_loop] in H; try discriminate.
  destruct (c =? f x).
  - injection H as <-. lia.
  - apply IH in H. lia.
Qed.
Lemma chr_loop_prefix : forall f c s j pos,
  chr_loop f c (s ++ j) pos (length s) = chr_loop f c s pos (length s).
Proof.
  intros f c s j. induction s as [|x s IH]; intros pos; cbn [app length chr_loop];
    [destruct j; reflexivity|].
  rewrite IH. reflexivity.
Qed.
Lemma strn_cmp_prefix : forall f w j x ln,
  strn_cmp f (w ++ j) (length w) x ln = strn_cmp f w (length w) x ln.
Proof.
  intros f w j. induction w as [|c w IH]; intros x [|ln]; cbn [app length strn_cmp deref bind tl];
    try reflexivity.
  destruct x as [|y x]; cbn [deref bind tl]; [reflexivity|]. rewrite IH. reflexivity.
Qed.
Lemma strn_loop_prefix : forall f s j n nsz pos,
  strn_loop f (s ++ j) (length s) n nsz pos = strn_loop f s (length s) n nsz pos.
Proof.
  intros f s j n nsz. induction s as [|c s IH]; intros pos; cbn [app length strn_loop deref bind tl];
    [reflexivity|].
  change (c :: s ++ j) with ((c :: s) ++ j). change (S (length s)) with (length (c :: s)).
  rewrite strn_cmp_prefix, !IH. reflexivity.
Qed.
Lemma strnstr_prefix : forall s j n, s <> [] ->
  strnstr (Some (s ++ j)) n (length s) = strnstr (Some s) n (length s).
Proof.
  intros s j n Hs. unfold strnstr, str_gen. destruct s as [|c s]; [congruence|].
  cbn [app deref bind]. destruct (c =? 0); [reflexivity|]. destruct n as [n|]; [|reflexivity].
  destruct n as [|y n]; cbn [deref bind]; [reflexivity|]. destruct (y =? 0); [reflexivity|].
  destruct (strlen (y :: n)) as [l| |]; cbn [bind]; try reflexivity.
  destruct (length (c :: s) <? l)%nat; [reflexivity|].
  change (c :: s ++ j) with ((c :: s) ++ j). apply strn_loop_prefix.
Qed.
Lemma strn_loop_bound : forall f s ls n nsz pos k,
  strn_loop f s ls n nsz pos = Ok (Some k) -> (pos <= k < pos + ls)%nat.
Proof.
  intros f s ls n nsz. revert s. induction ls as [|ls IH]; intros s pos k H; cbn [strn_loop] in H; [discriminate|].
  destruct (deref s) as [cs| |]; cbn [bind] in H; try discriminate.
  destruct (deref n) as [cn| |]; cbn [bind] in H; try discriminate.
  destruct (f cs =? f cn).
  - destruct (strn_cmp f s (S ls) n nsz) as [r| |]; cbn [bind] in H; try discriminate.
    destruct (r =? 0)%nat; [injection H as <-; lia|]. apply IH in H. lia.
  - apply IH in H. lia.
Qed.

Lemma params_loop_prefix : forall fuel m s j,
  params_loop fuel m (s ++ j) (length s) = params_loop fuel m s (length s).
Proof.
  induction fuel as [|fuel IH]; intros m s j; cbn [params_loop]; [reflexivity|].
  destruct (Nat.eqb_spec (length s) 0); [reflexivity|].
  unfold strnchr. rewrite !chr_loop_prefix.
  destruct (chr_loop same 38 s 0 (length s)) as [r| |] eqn:E1; cbn [bind]; try reflexivity.
  assert (Hr : (match r with None => length s | Some k => k end <= length s)%nat).
  { destruct r as [k|]; [|lia]. apply chr_loop_bound in E1. lia. }
  set (amp := match r with None => length s | Some k => k end) in *. cbv zeta.
  destruct (chr_loop same 61 s 0 (length s)) as [q| |] eqn:E2; cbn [bind]; try reflexivity.
  assert (Em : match q with
     | Some equ => if (equ <? amp)%nat
                   then map_set (firstn equ (s ++ j)) (firstn (amp - equ - 1) (skipn (equ + 1) (s ++ j))) m
                   else m
     | None => m end
     = match q with
     | Some equ => if (equ <? amp)%nat
                   then map_set (firstn equ s) (firstn (amp - equ - 1) (skipn (equ + 1) s)) m
                   else m
     | None => m end).
  { destruct q as [equ|]; [|reflexivity]. destruct (Nat.ltb_spec equ amp); [|reflexivity].
    rewrite firstn_app_le, skipn_app_le, firstn_app_le by (rewrite ?skipn_length; lia). reflexivity. }
  rewrite Em. set (m1 := match q with Some _ => _ | None => m end).
  destruct (Nat.le_gt_cases (amp + 1) (length s)) as [Hle|Hgt].
  - rewrite skipn_app_le by lia. rewrite <- skipn_length. apply IH.
  - replace (length s - (amp + 1))%nat with 0%nat by lia. destruct fuel; reflexivity.
Qed.

Lemma header_loop_prefix : forall fuel m s j,
  header_loop fuel m (s ++ j) (length s) = header_loop fuel m s (length s).
Proof.
  induction fuel as [|fuel IH]; intros m s j; cbn [header_loop]; [reflexivity|].
  destruct (Nat.eqb_spec (length s) 0) as [|Hs]; [reflexivity|].
  unfold strnchr. rewrite !chr_loop_prefix.
  rewrite strnstr_prefix by (intros ->; apply Hs; reflexivity).
  destruct (strnstr (Some s) (Some crlf_lit) (length s)) as [r| |] eqn:E1; cbn [bind]; try reflexivity.
  assert (Hr : (match r with None => length s | Some k => k end <= length s)%nat).
  { destruct r as [k|]; [|lia]. unfold strnstr, str_gen in E1. destruct s as [|c s]; [discriminate|].
    cbn [deref bind] in E1. destruct (c =? 0); [discriminate|].
    change (strlen crlf_lit) with (Ok 2%nat) in E1. cbn [bind] in E1.
    change (13 =? 0) with false in E1. cbn [crlf_lit deref bind] in E1.
    change (13 =? 0) with false in E1. cbv iota in E1.
    destruct (length (c :: s) <? 2)%nat; [discriminate|]. apply strn_loop_bound in E1. lia. }
  set (amp := match r with None => length s | Some k => k end) in *. cbv zeta.
  destruct (amp =? 0)%nat; [reflexivity|].
  destruct (chr_loop same 58 s 0 (length s)) as [q| |] eqn:E2; cbn [bind]; try reflexivity.
  assert (Em : match q with
     | Some equ => if (equ <? amp)%nat
                   then map_set (firstn equ (s ++ j)) (firstn (amp - equ - 1) (skipn (equ + 1) (s ++ j))) m
                   else m
     | None => m end
     = match q with
     | Some equ => if (equ <? amp)%nat
                   then map_set (firstn equ s) (firstn (amp - equ - 1) (skipn (equ + 1) s)) m
                   else m
     | None => m end).
  { destruct q as [equ|]; [|reflexivity]. destruct (Nat.ltb_spec equ amp); [|reflexivity].
    rewrite firstn_app_le, skipn_app_le, firstn_app_le by (rewrite ?skipn_length; lia). reflexivity. }
  rewrite Em. set (m1 := match q with Some _ => _ | None => m end).
  destruct (Nat.le_gt_cases (amp + 2) (length s)) as [Hle|Hgt].
  - rewrite skipn_app_le by lia. rewrite <- skipn_length. apply IH.
  - replace (length s - (amp + 2))%nat with 0%nat by lia. destruct fuel; reflexivity.
Qed.
