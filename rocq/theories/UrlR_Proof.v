(** Proofs about references relative to any parent. *)

From Coq Require Import ZArith List Bool Lia Arith.
From Verif Require Import Base Str_Model Str_Spec UrlP_Model UrlP_Spec UrlP_Proof UrlR_Spec.
Import ListNotations.
Local Open Scope Z_scope.

(** the fifth character belongs to the scheme *)
Lemma divided_nth : forall p, divided (text_of p) p -> nth 4 (text_of p) 0 = nth 4 (p_scheme p) 0.
Proof.
  intros p [_ [L _]]. unfold text_of. apply app_nth1. destruct (_ =? _) in L; lia.
Qed.
Lemma nth_scheme : forall p q, p_scheme p = p_scheme q -> (7 <= length (p_scheme p))%nat ->
  nth 4 (text_of p) 0 = nth 4 (text_of q) 0.
Proof.
  intros p q E L. unfold text_of. rewrite <- E. rewrite !app_nth1 by lia. reflexivity.
Qed.
Lemma divided_7 : forall p, divided (text_of p) p -> (7 <= length (p_scheme p))%nat.
Proof. intros p [_ [L _]]. destruct (_ =? _) in L; lia. Qed.

Lemma divided_change : forall p q, divided (text_of p) p -> p_scheme q = p_scheme p -> p_host q = p_host p ->
  p_segs q <> [] -> Forall slash_free (p_segs q) -> Forall no_query (p_segs q) -> starts_or_empty 63 (p_args q) ->
  divided (text_of q) q.
Proof.
  intros p q H Es Eh A B C D. pose proof (divided_7 _ H) as L7. destruct H as [_ [L [N47 [N63 _]]]].
  split; [reflexivity|]. rewrite (nth_scheme q p Es) by (rewrite Es; exact L7). rewrite Es, Eh. auto 10.
Qed.

Lemma relative_divided : forall par t p, divided (text_of par) par -> relative par t p -> divided (text_of p) p.
Proof.
  intros par t p H Hr.
  destruct Hr as [text segs args _ _ [_ [A [B [C D]]]]|text segs args _ _ [_ [A [B [C D]]]]];
    apply (divided_change par); cbn [p_scheme p_host p_segs p_args]; auto.
Qed.

Lemma norm_divided : forall fetch p, divided (text_of p) p -> divided (text_of (norm fetch p)) (norm fetch p).
Proof.
  intros fetch p H. pose proof H as [_ [_ [_ [_ [A [B [C D]]]]]]].
  assert (I : forall P : list Z -> Prop, P [] -> Forall P (p_segs p) -> Forall P (normal_segs fetch (p_segs p))).
  { intros P P0 HP. apply Forall_forall. intros x Hx. destruct (normal_segs_in _ _ _ Hx) as [->|[F _]]; [exact P0|].
    rewrite Forall_forall in HP. apply HP. exact F. }
  apply (divided_change p); unfold norm; cbn [p_scheme p_host p_segs p_args]; auto.
  - apply normal_segs_ne.
  - apply I; [intros []|exact B].
  - apply I; [intros []|exact C].
Qed.

Lemma create_suburl_holds : forall b u t sz flags parent P d parts, readable u t 11 -> sz = length t ->
  (0 < sz)%nat -> holds parent P d -> ~ refused u -> relative P t parts ->
  (rel_size sz parent <= length b)%nat ->
  exists x, create_suburl b u sz flags parent = Ok (Some x) /\ holds x (norm (fetchable flags) parts) d.
Proof.
  intros b u t sz flags parent P d parts [[j Hu] [H11 _]] Hsz Hpos HP Href Hrel Hb.
  unfold create_suburl.
  destruct (starts_dec u (zs "mailto:") 7 ltac:(discriminate) ltac:(repeat constructor; discriminate) eq_refl (enough_le u 7 11 H11 ltac:(lia)))
    as [[_ F]|[E _]]; [destruct Href; left; exact F|]. rewrite E; cbn [bind]; clear E.
  destruct (starts_dec u (zs "javascript:") 11 ltac:(discriminate) ltac:(repeat constructor; discriminate) eq_refl H11)
    as [[_ F]|[E _]]; [destruct Href; right; left; exact F|]. rewrite E; cbn [bind]; clear E.
  destruct u as [|c0 u'] eqn:Eu0; [destruct H11 as [H11|H11]; [cbn in H11; lia|discriminate]|]. rewrite <- Eu0 in *.
  assert (R0 : rd u 0 = Ok c0) by (rewrite Eu0; reflexivity). rewrite R0. cbn [bind].
  destruct (Z.eqb_spec c0 35) as [F|N35]; [destruct Href; right; right; rewrite Eu0; exact F|].
  destruct HP as [HV [Hd [junk ->]]]. cbn [u_mem u_len u_dom u_dlen].
  unfold rel_size in Hb. cbn [u_len u_dlen] in Hb.
  pose proof (relative_divided P t parts HV Hrel) as HV'.
  pose proof HV as [_ [Hsl [Hn47 [Hn63 [Hne [Hsf [Hnq Ha]]]]]]].
  destruct P as [scheme host segs args]. cbn [p_scheme p_host p_segs p_args] in *.
  set (val := text_of (mkParts scheme host segs args)) in *.
  assert (Eval : val = scheme ++ host ++ render segs ++ args) by reflexivity.
  (* the length of the scheme *)
  assert (Hc4 : exists c4, nth_error val 4 = Some c4 /\ (if negb (c4 =? 115) then 7%nat else 8%nat) = length scheme).
  { exists (nth 4 val 0). split.
    - apply nth_error_nth'. rewrite Eval, app_length. destruct (nth 4 val 0 =? 115); lia.
    - rewrite Hsl. destruct (nth 4 val 0 =? 115); reflexivity. }
  destruct Hc4 as [c4 [N4 L4]].
  assert (R4 : rd (val ++ 0 :: d ++ 0 :: junk) 4 = Ok c4).
  { apply rd_nth. rewrite nth_error_app1; [exact N4|]. apply nth_error_Some. congruence. }
  rewrite R4. cbn [bind]. rewrite L4.
  assert (Lv : length val = (length scheme + length host + length (render segs) + length args)%nat)
    by (rewrite Eval, !app_length; lia).
  rewrite dist_ok by lia. cbn [bind].
  assert (Ers : exists w, render segs = 47 :: w).
  { destruct segs as [|s segs']; [congruence|]. rewrite render_cons. eexists. reflexivity. }
  destruct Ers as [w Ew].
  assert (Esl : strnchr (skipn (length scheme) (val ++ 0 :: d ++ 0 :: junk)) 47 (length val - length scheme) = Ok (Some (length host))).
  { rewrite Eval, Ew.
    replace ((scheme ++ host ++ (47 :: w) ++ args) ++ 0 :: d ++ 0 :: junk)
      with (scheme ++ host ++ 47 :: w ++ args ++ 0 :: d ++ 0 :: junk) by aa.
    rewrite skipn_len_app. apply strnchr_found; [exact Hn47|].
    rewrite !app_length. cbn [length]. lia. }
  rewrite Esl. cbn [bind].
  (* the fragment *)
  assert (Hcut : forall text frag, t = text ++ frag -> ~ In 35 text -> starts_or_empty 35 frag ->
    exists r, strnchr u 35 sz = Ok r /\ (match r with Some p => p | None => sz end) = length text).
  { intros text frag Et Ht Hf. rewrite Hu, Et, <- app_assoc. apply strnchr_cut; [exact Ht|exact Hf|].
    rewrite Hsz, Et. apply app_length. }
  assert (Hhd : hd 0 t = c0).
  { destruct t as [|x t']; [cbn in Hsz; lia|]. rewrite Hu in Eu0. injection Eu0 as -> _. reflexivity. }
  (* the copy into the new block *)
  assert (Copy : forall A text, (length A + length text + length d + 2 <= length b)%nat ->
     (exists X, val = A ++ X) -> (exists frag, t = text ++ frag) ->
     exists post, (length d + 2 <= length post)%nat /\
     (s <- slice (val ++ 0 :: d ++ 0 :: junk) 0 (length A) ;;
      b <- blit b 0 s ;;
      s <- slice u 0 (length text) ;;
      blit b (length A) s) = Ok (A ++ text ++ post)).
  { intros A text HL [X HX] [frag Hfr]. rewrite HX, <- app_assoc, slice_front by reflexivity. cbn [bind].
    rewrite blit_front by lia. cbn [bind].
    rewrite Hu, Hfr, <- app_assoc, slice_front by reflexivity. cbn [bind].
    rewrite <- (firstn_skipn (length text) (skipn (length A) b)).
    rewrite blit_ok; [|reflexivity|rewrite firstn_length, skipn_length; lia].
    eexists. split; [|reflexivity]. rewrite !skipn_length. lia. }
  assert (Fin : forall b1 segs' args' post, 
     parts = mkParts scheme host segs' args' ->
     b1 = (scheme ++ host) ++ render segs' ++ args' ++ post -> (length d + 2 <= length post)%nat ->
     exists x, (r <- assign_refers b1 (length scheme + length host + length (render segs') + length args')
                   (Ext (skipn (length val + 1) (val ++ 0 :: d ++ 0 :: junk))) (length d) (length scheme + length host) flags ;;
                Ok (Some r)) = Ok (Some x) /\ holds x (norm (fetchable flags) parts) d).
  { intros b1 segs' args' post -> -> Hp.
    pose proof HV' as [_ [_ [_ [_ [Hne' [Hsf' [Hnq' Ha']]]]]]]. cbn [p_scheme p_host p_segs p_args] in *.
    destruct (assign_refers_ok (scheme ++ host) segs' args' post (length scheme + length host + length (render segs') + length args')%nat
       (Ext (skipn (length val + 1) (val ++ 0 :: d ++ 0 :: junk))) d (length d) (length scheme + length host)%nat flags)
      as [jk [E _]]; try assumption; try reflexivity.
    { symmetry. apply app_length. }
    { exists (0 :: junk). replace (val ++ 0 :: d ++ 0 :: junk) with ((val ++ [0]) ++ d ++ 0 :: junk) by aa.
      apply skipn_at. rewrite app_length. reflexivity. }
    cbn zeta in E. rewrite E. cbn [bind]. eexists. split; [reflexivity|]. split.
    { apply norm_divided. exact HV'. }
    split; [exact Hd|]. exists jk. rewrite norm_text. unfold normal. cbn [p_scheme p_host p_segs p_args norm].
    rewrite (app_assoc scheme host). reflexivity. }
  destruct Hrel as [text segs' args' [frag [Et [Ht Hf]]] Hd0 Hpq|text segs' args' [frag [Et [Ht Hf]]] Hd0 Hpq].
  - destruct (Hcut text frag Et Ht Hf) as [r [Er Hr]]. rewrite Er. cbn [bind]. rewrite Hr.
    rewrite Hhd in Hd0. subst c0. cbn [Z.eqb Pos.eqb bind].
    destruct (Copy (scheme ++ host) text) as [post [Lpost EC]].
    { rewrite app_length. rewrite Et, app_length in Hsz. lia. }
    { exists (render segs ++ args). rewrite Eval. aa. } { eauto. }
    rewrite app_length in EC.
    pose proof (path_query_room _ _ _ Hpq) as Lpq. destruct Hpq as [Epq _].
    destruct (slice (val ++ 0 :: d ++ 0 :: junk) 0 (length scheme + length host)) as [s1| |]; cbn [bind] in *; try discriminate.
    destruct (blit b 0 s1) as [b1| |]; cbn [bind] in *; try discriminate.
    destruct (slice u 0 (length text)) as [s2| |]; cbn [bind] in *; try discriminate.
    rewrite EC. cbn [bind].
    replace (length scheme + length host + length text)%nat
      with (length scheme + length host + length (render segs') + length args')%nat by lia.
    apply (Fin _ segs' args' post eq_refl); [|exact Lpost]. rewrite Epq. aa.
  - destruct (Hcut text frag Et Ht Hf) as [r [Er Hr]]. rewrite Er. cbn [bind]. rewrite Hr.
    rewrite Hhd in Hd0. destruct (Z.eqb_spec c0 47) as [F|_]; [contradiction|].
    (* the directory of the parent *)
    assert (Eq : strnchp (val ++ 0 :: d ++ 0 :: junk) 63 (length val) = Ok (length ((scheme ++ host) ++ render segs))).
    { replace (val ++ 0 :: d ++ 0 :: junk) with (((scheme ++ host) ++ render segs) ++ args ++ 0 :: d ++ 0 :: junk)
        by (rewrite Eval; aa).
      apply strnchp_cut; [|exact Ha|rewrite Lv, !app_length; lia].
      intros F. apply in_app_or in F. destruct F as [F|F]; [contradiction|]. exact (render_no_query _ Hnq F). }
    rewrite Eq. cbn [bind].
    cbn [p_segs] in Hpq. set (dir := render (removelast segs)) in *. set (lst := last segs []).
    assert (Ers : render segs = dir ++ 47 :: lst).
    { unfold dir, lst. rewrite (app_removelast_last [] Hne) at 1. rewrite render_app, render_cons. cbn [render map concat].
      rewrite app_nil_r. reflexivity. }
    assert (Hlst : ~ In 47 lst).
    { rewrite (app_removelast_last [] Hne) in Hsf. apply Forall_app in Hsf. destruct Hsf as [_ Hsf]. inversion Hsf. assumption. }
    assert (Erev : revnchr (val ++ 0 :: d ++ 0 :: junk) 47 (length ((scheme ++ host) ++ render segs)) = Ok (Some (length ((scheme ++ host) ++ dir)))).
    { unfold revnchr. rewrite Eval, Ers.
      replace ((scheme ++ host ++ (dir ++ 47 :: lst) ++ args) ++ 0 :: d ++ 0 :: junk)
        with (((scheme ++ host) ++ dir) ++ 47 :: lst ++ args ++ 0 :: d ++ 0 :: junk) by aa.
      replace (length ((scheme ++ host) ++ dir ++ 47 :: lst)) with (length ((scheme ++ host) ++ dir) + 1 + length lst)%nat
        by (rewrite !app_length; cbn [length]; lia).
      apply rev_found. exact Hlst. }
    rewrite Erev. cbn [bind].
    destruct (Copy (((scheme ++ host) ++ dir) ++ [47]) text) as [post [Lpost EC]].
    { rewrite Ers in Lv. rewrite !app_length in *. cbn [length] in *. rewrite Et, app_length in Hsz. lia. }
    { exists (lst ++ args). rewrite Eval, Ers. aa. } { eauto. }
    rewrite (app_length ((scheme ++ host) ++ dir) [47]) in EC. cbn [length] in EC.
    pose proof (path_query_room _ _ _ Hpq) as Lpq. destruct Hpq as [Epq _].
    destruct (slice (val ++ 0 :: d ++ 0 :: junk) 0 (length ((scheme ++ host) ++ dir) + 1)) as [s1| |]; cbn [bind] in *; try discriminate.
    destruct (blit b 0 s1) as [b1| |]; cbn [bind] in *; try discriminate.
    destruct (slice u 0 (length text)) as [s2| |]; cbn [bind] in *; try discriminate.
    rewrite EC. cbn [bind].
    replace (length ((scheme ++ host) ++ dir) + 1 + length text)%nat
      with (length scheme + length host + length (render segs') + length args')%nat.
    2:{ rewrite app_length in Lpq. cbn [length] in Lpq. rewrite !app_length. lia. }
    apply (Fin _ segs' args' post eq_refl); [|exact Lpost].
    replace ((((scheme ++ host) ++ dir) ++ [47]) ++ text ++ post) with ((scheme ++ host) ++ (dir ++ 47 :: text) ++ post) by aa.
    rewrite Epq. aa.
Qed.

(** ** Absolute URLs *)

Lemma domain_lower : forall p d, valid_parts p -> domain_of (p_host p) d -> domain_text d.
Proof.
  intros p d [_ [H [L _]]] D. destruct (domain_incl _ _ D) as [a E]. rewrite E in H, L. rewrite map_app in L. split.
  - apply Forall_app in H. destruct H as [_ H]. exact H.
  - apply (f_equal (skipn (length (map lower a)))) in L. rewrite skipn_len_app, map_length, skipn_len_app in L. exact L.
Qed.

Lemma http_fifth : forall s, Forall2 eq_case s (zs "http://") -> nth 4 s 0 <> 83.
Proof.
  intros s H. change (zs "http://") with [104; 116; 116; 112; 58; 47; 47] in H.
  repeat match goal with H : Forall2 _ _ (_ :: _) |- _ => inversion H; clear H; subst end.
  cbn [nth]. intros ->. match goal with H : eq_case 83 58 |- _ => unfold eq_case in H; lia end.
Qed.
Lemma https_cut : forall s, Forall2 eq_case s (zs "https://") -> s = firstn 7 s ++ [47].
Proof.
  intros s H. change (zs "https://") with [104; 116; 116; 112; 115; 58; 47; 47] in H.
  repeat match goal with H : Forall2 _ _ (_ :: _) |- _ => inversion H; clear H; subst end.
  match goal with H : Forall2 _ _ [] |- _ => inversion H; subst end.
  cbn [firstn app]. do 7 f_equal. match goal with H : eq_case ?x 47 |- [?x] = _ => f_equal; unfold eq_case in H; lia end.
Qed.
Lemma firstn_incl : forall A n (l : list A) x, In x (firstn n l) -> In x l.
Proof. intros A n l x H. rewrite <- (firstn_skipn n l). apply in_or_app. left. exact H. Qed.

Lemma seen_text : forall p, valid_parts p -> text_of (seen p) = text_of p.
Proof.
  intros p HV. unfold seen. destruct (Z.eqb_spec (nth 4 (p_scheme p) 0) 83) as [E|_]; [|reflexivity].
  unfold text_of. cbn [p_scheme p_host p_segs p_args app]. rewrite render_cons. cbn [app].
  destruct HV as [[H|H] _].
  - destruct (http_fifth _ H E).
  - rewrite (https_cut _ H) at 2. rewrite <- !app_assoc. reflexivity.
Qed.

Lemma is_url_holds : forall x p, is_url x p -> holds x (seen p) (url_domain x).
Proof.
  intros x p H. pose proof (is_url_domain _ _ H) as D. destruct H as [HV [d [junk [Hd ->]]]].
  assert (Ed : url_domain (mkUrl (text_of p ++ 0 :: d ++ 0 :: junk) (length (text_of p)) (length (text_of p) + 1) (length d)) = d)
    by exact (domain_of_det _ _ _ D Hd).
  rewrite Ed in *. clear Ed. 
  split; [|split; [exact (domain_lower _ _ HV Hd)|exists junk; rewrite (seen_text _ HV); reflexivity]].
  split; [reflexivity|]. rewrite (seen_text _ HV). pose proof (scheme_len p HV) as Hsl.
  pose proof HV as [Hs [Hh [_ [_ [A [B [C [E _]]]]]]]].
  assert (N4 : nth 4 (text_of p) 0 = nth 4 (p_scheme p) 0).
  { unfold text_of. apply app_nth1. destruct Hsl as [[L _]|[L _]]; lia. }
  rewrite N4. unfold seen. 
  assert (H63 : ~ In 63 (p_scheme p)) by (apply http_safe; auto).
  assert (Hh63 : ~ In 63 (p_host p)) by (apply host_not_in; auto).
  assert (Hh47 : ~ In 47 (p_host p)) by (apply host_not_in; auto).
  destruct (Z.eqb_spec (nth 4 (p_scheme p) 0) 83) as [E4|N83].
  - cbn [p_scheme p_host p_segs p_args]. rewrite E4. cbn [Z.eqb Pos.eqb].
    split; [rewrite firstn_length; destruct Hsl as [[L _]|[L _]]; lia|]. split; [intros []|].
    split. { rewrite app_nil_r. intros F. apply H63. apply (firstn_incl _ _ _ _ F). }
    split; [discriminate|]. split; [constructor; assumption|]. split; [constructor; assumption|exact E].
  - split.
    { destruct Hsl as [[L N]|[L [c [N [-> | ->]]]]]; rewrite (nth_error_nth _ _ 0 N) in *; rewrite L; [reflexivity|reflexivity|congruence]. }
    split; [exact Hh47|]. split; [intros F; apply in_app_or in F; tauto|]. auto.
Qed.

Lemma holds_text : forall x p d, holds x p d -> url_text x = text_of p.
Proof. intros x p d [_ [_ [j ->]]]. unfold url_text. cbn [u_mem u_len]. apply firstn_len_app. Qed.
Lemma holds_domain : forall x p d, holds x p d -> url_domain x = d.
Proof.
  intros x p d [_ [_ [j ->]]]. unfold url_domain. cbn [u_mem u_dom u_dlen].
  replace (text_of p ++ 0 :: d ++ 0 :: j) with ((text_of p ++ [0]) ++ d ++ 0 :: j) by aa.
  rewrite (skipn_at (text_of p ++ [0])) by (rewrite app_length; reflexivity).
  apply firstn_len_app.
Qed.
Lemma holds_dom_mem : forall x p d, holds x p d -> exists j, skipn (u_dom x) (u_mem x) = d ++ 0 :: j.
Proof.
  intros x p d [_ [_ [j ->]]]. cbn [u_mem u_dom].
  replace (text_of p ++ 0 :: d ++ 0 :: j) with ((text_of p ++ [0]) ++ d ++ 0 :: j) by aa.
  rewrite (skipn_at (text_of p ++ [0])) by (rewrite app_length; reflexivity). eauto.
Qed.

Lemma domain_text_equal : forall d1 d2, domain_text d1 -> domain_text d2 ->
  nonul d1 /\ nonul d2 /\ (Forall2 eq_case d1 d2 <-> d1 = d2).
Proof.
  intros d1 d2 [H1 M1] [H2 M2].
  assert (N : forall d, Forall host_char d -> nonul d).
  { intros d Hd. eapply Forall_impl; [|exact Hd]. intros c Hc. apply host_char_safe in Hc. tauto. }
  split; [auto|]. split; [auto|]. split.
  - clear -M1 M2. intros F. induction F as [|x y d1 d2 Hxy F IH]; [reflexivity|].
    cbn in M1, M2. injection M1 as X1 M1. injection M2 as X2 M2. rewrite (eq_case_lower x y) by assumption. f_equal. auto.
  - intros ->. clear. induction d2; constructor; [left; reflexivity|assumption].
Qed.
