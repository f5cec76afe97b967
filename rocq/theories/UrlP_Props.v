(** Theorems about the URL parser (properties C35-C41). *)

From Coq Require Import ZArith List Bool Lia Arith.
From Verif Require Import Base Str_Model Str_Spec UrlP_Model UrlP_Spec UrlP_Proof UrlO_Model UrlO_Spec UrlO_Proof.
Import ListNotations.
Local Open Scope Z_scope.

(** ** Every text has parts, and an object that was created holds the normal form *)

Theorem C36_parts_exist : forall t, exists p, absolute t p.
Proof. exact absolute_ex. Qed.
Print Assumptions C36_parts_exist.

Theorem C36_relative_parts_exist : forall par t, t <> [] -> exists p, relative par t p.
Proof. intros par t H. apply relative_ex. destruct t; [congruence|cbn; lia]. Qed.
Print Assumptions C36_relative_parts_exist.

(** C36: the whole text of the URL made from an absolute URL: scheme, lower-case host, normal
    path and the query as it stands; the fragment is gone *)
Theorem C36_create_absolute : forall mem0 u t flags parts,
  readable u t 8 -> t <> [] -> length mem0 = abs_size (length t) -> absolute t parts ->
  exists x, create_absolute mem0 None (Some u) (length t) flags = Ok (0, Some x) /\
    url_text x = p_scheme parts ++ p_host parts ++ normal_path (fetchable flags) (p_segs parts) ++ p_args parts.
Proof.
  intros mem0 u t flags parts Hr Ht Hm Ha. unfold create_absolute.
  destruct (length t) as [|k] eqn:E; [destruct t; [congruence|discriminate]|]. rewrite <- E in *.
  destruct (create_scheme_url mem0 u t (length t) flags parts Hr eq_refl ltac:(left; lia) Ha) as [x [Ex Hx]].
  rewrite Ex. cbn [bind]. exists x. split; [reflexivity|]. rewrite (is_url_text _ _ Hx), norm_text. reflexivity.
Qed.
Print Assumptions C36_create_absolute.

(** what a normal path is made of: no empty segment, no "." and no ".."; only the last segment
    can be empty, that is the path can end with '/', if it is the root or if FETCHABLE is set
    and the path named a directory *)
Theorem C36_normal_path_clean : forall fetch segs, segs <> [] -> Forall slash_free segs ->
  exists l, normal_path fetch segs = render l /\ Forall slash_free l /\
    ((l = [[]] /\ walk_segs [] segs = []) \/
     (l = walk_segs [] segs /\ l <> [] /\ (dir_seg (last segs []) = false \/ fetch = false)) \/
     (l = walk_segs [] segs ++ [[]] /\ walk_segs [] segs <> [] /\ dir_seg (last segs []) = true /\ fetch = true)) /\
    Forall (fun s => s <> [] /\ s <> [46] /\ s <> [46; 46]) (walk_segs [] segs).
Proof.
  intros fetch segs Hne Hsf. exists (normal_segs fetch segs). split; [symmetry; apply normal_segs_render|].
  split.
  { apply Forall_forall. intros x Hx. destruct (normal_segs_in _ _ _ Hx) as [->|[F _]]; [intros []|].
    rewrite Forall_forall in Hsf. apply Hsf. exact F. }
  split.
  - unfold normal_segs. destruct (walk_segs [] segs) as [|s st]; [left; auto|right].
    destruct (dir_seg (last segs [])), fetch; cbn [andb]; rewrite ?app_nil_r.
    + right. repeat split; discriminate.
    + left. split; [reflexivity|]. split; [discriminate|auto].
    + left. split; [reflexivity|]. split; [discriminate|auto].
    + left. split; [reflexivity|]. split; [discriminate|auto].
  - apply Forall_forall. intros x Hx. destruct (walk_incl _ _ _ Hx) as [[]|[_ F]].
    repeat split; intros ->; discriminate.
Qed.
Print Assumptions C36_normal_path_clean.

(** ".." removes the segment before it and stays at the root *)
Theorem C36_dotdot : forall segs s,
  walk_segs [] (segs ++ [s; [46; 46]]) =
  match s with
  | [] | [46] => removelast (walk_segs [] segs)
  | [46; 46] => removelast (removelast (walk_segs [] segs))
  | _ => walk_segs [] segs
  end.
Proof.
  intros segs s. unfold walk_segs. rewrite fold_left_app. cbn [fold_left]. fold (walk_segs [] segs).
  destruct (seg_cases s) as [->|[->|[->|[H0 [H1 [H2 [Hd Hw]]]]]]]; try reflexivity.
  rewrite Hw. cbn [walk_seg]. rewrite removelast_last.
  destruct s as [|c s]; [congruence|]. destruct c as [|q|q]; try reflexivity.
  do 6 (try (destruct q as [q|q|]; try reflexivity)).
  destruct s as [|c s]; [congruence|]. destruct c as [|q|q]; try reflexivity.
  do 6 (try (destruct q as [q|q|]; try reflexivity)).
  destruct s; [congruence|reflexivity].
Qed.
Print Assumptions C36_dotdot.

Definition mem (n : nat) : list Z := repeat 170 n.
Definition abs_run (s : list Z) (flags : Z) := create_absolute (mem (abs_size (length s))) None (Some s) (length s) flags.
Definition shown (r : res (Z * option url)) : res (Z * option (list Z * list Z)) :=
  '(c, x) <- r ;; Ok (c, match x with Some x => Some (url_text x, url_domain x) | None => None end).

Example C36_ex : shown (abs_run (zs "HTTP://..Www.Example.COM./a//./b/../c/?q=/../#frag") 0)
  = Ok (0, Some (zs "HTTP://www.example.com/a/c?q=/../", zs "example.com")).
Proof. vm_compute. reflexivity. Qed.
Example C36_ex_fetchable : shown (abs_run (zs "https://example.com/../a/b/..") 1)
  = Ok (0, Some (zs "https://example.com/a/", zs "example.com")).
Proof. vm_compute. reflexivity. Qed.
Example C36_ex_readable : readable (zs "HTTP://..Www.Example.COM./a") (zs "HTTP://..Www.Example.COM./a") 8.
Proof.
  split; [exists []; rewrite app_nil_r; reflexivity|]. split; [left; vm_compute; lia|].
  split; intros; vm_compute; lia.
Qed.
Example C36_ex_parts : absolute (zs "Ab.c/x/../y?z#f")
  (mkParts (zs "http://") (zs "ab.c") [zs "x"; zs ".."; zs "y"] (zs "?z")).
Proof.
  apply (absolute_intro _ (zs "http://") (zs "Ab.c/x/../y?z#f") (zs "Ab.c/x/../y?z") [] (zs "Ab.c") [] (zs "/x/../y?z")).
  - right. right. split; [|split; reflexivity]. intros s r. split; intros [E F];
      apply (f_equal (fun l => nth 1 l 0)) in E; cbn in E; 
      inversion F as [|a b l1 l2 A F1]; subst; inversion F1 as [|a2 b2 l3 l4 A2 F2]; subst; cbn in E; subst a2;
      unfold eq_case in A2; lia.
  - exists (zs "#f"). split; [reflexivity|]. split; [cbn; lia|right; eexists; reflexivity].
  - reflexivity.
  - constructor.
  - constructor.
  - split; discriminate.
  - cbn. repeat (constructor; [unfold host_char; lia|]). constructor.
  - discriminate.
  - cbn. intros c E. injection E as <-. unfold host_char. lia.
  - split; [reflexivity|]. split; [discriminate|].
    split; [repeat (constructor; [unfold slash_free, no_query; cbn; intuition discriminate|]); constructor|].
    split; [repeat (constructor; [unfold slash_free, no_query; cbn; intuition discriminate|]); constructor|right; eexists; reflexivity].
Qed.

(** ** C35: memory safety *)

(** Every call succeeds without reading outside [u] and without writing outside the block it
    allocates, provided 8 bytes can be read at [u] whatever [sz] is, and a scheme at the
    beginning of [u] lies within the [sz] bytes.  Missing: the other inputs, where the code
    reads more than [sz] bytes or computes negative lengths (refuted below). *)
Theorem C35_create_absolute_partial : forall mem0 u t flags,
  readable u t 8 -> t <> [] -> length mem0 = abs_size (length t) ->
  exists x p, create_absolute mem0 None (Some u) (length t) flags = Ok (0, Some x) /\ is_url x p.
Proof.
  intros mem0 u t flags Hr Ht Hm. destruct (absolute_ex t) as [parts Ha]. unfold create_absolute.
  destruct (length t) as [|k] eqn:E; [destruct t; [congruence|discriminate]|]. rewrite <- E in *.
  destruct (create_scheme_url mem0 u t (length t) flags parts Hr eq_refl ltac:(left; lia) Ha) as [x [Ex Hx]].
  rewrite Ex. cbn [bind]. eauto.
Qed.
Print Assumptions C35_create_absolute_partial.

(** and these are all the calls that have a defined behaviour: the theorems that assume
    [readable] leave out no call that can be made *)
Theorem C35_create_absolute_exact : forall mem0 u sz flags,
  (0 < sz)%nat -> length mem0 = abs_size sz ->
  ((exists r, create_absolute mem0 None (Some u) sz flags = Ok r) <->
   (sz <= length u)%nat /\ readable u (firstn sz u) 8).
Proof.
  intros mem0 u sz flags Hsz Hm. split.
  - intros [r E]. destruct sz as [|k]; [lia|]. 
    cbn [create_absolute] in E. apply bind_inv in E. destruct E as [x [E _]]. exact (create_scheme_defined _ _ _ _ _ E).
  - intros [L Hr]. set (t := firstn sz u) in *.
    assert (Lt : length t = sz) by (unfold t; rewrite firstn_length; lia).
    rewrite <- Lt in Hm. destruct (C35_create_absolute_partial mem0 u t flags Hr) as [x [p [E _]]];
      [intros ->; cbn in Lt; lia|exact Hm|]. rewrite Lt in E. eauto.
Qed.
Print Assumptions C35_create_absolute_exact.

(** the calls that do nothing but empty the object *)
Theorem C35_create_absolute_errors : forall mem0 this u sz flags,
  (this <> None \/ sz = 0%nat \/ u = None) ->
  create_absolute mem0 this u sz flags = Ok (-1, None).
Proof. intros mem0 [x|] [u|] [|sz] flags H; try reflexivity. destruct H as [H|[H|H]]; congruence. Qed.
Print Assumptions C35_create_absolute_errors.
Theorem C35_create_relative_errors : forall mem0 this u sz flags parent,
  (this <> None \/ sz = 0%nat \/ u = None \/ parent = None) ->
  create_relative mem0 this u sz flags parent = Ok (-1, None).
Proof.
  intros mem0 [x|] [u|] [|sz] flags [p|] H; try reflexivity. destruct H as [H|[H|[H|H]]]; congruence.
Qed.
Print Assumptions C35_create_relative_errors.

(** a URL of one character: the search for "https://" reads 8 bytes of it *)
Theorem C35_short_url_refuted : exists u sz, length u = sz /\ (0 < sz)%nat /\
  forall mem0 flags, create_absolute mem0 None (Some u) sz flags = Ub OobRead.
Proof.
  exists (zs "h"), 1%nat. split; [reflexivity|]. split; [lia|]. intros. vm_compute. reflexivity.
Qed.
Print Assumptions C35_short_url_refuted.
(** a scheme that is longer than the URL: the length of the host becomes negative *)
Theorem C35_cut_scheme_refuted : exists u sz, (sz <= length u)%nat /\ (0 < sz)%nat /\
  exists mem0, length mem0 = abs_size sz /\ create_absolute mem0 None (Some u) sz 0 = Ub BadLib.
Proof.
  exists (zs "http://host/"), 4%nat. split; [vm_compute; lia|]. split; [lia|]. exists (mem (abs_size 4)).
  split; vm_compute; reflexivity.
Qed.
Print Assumptions C35_cut_scheme_refuted.

(** ** C37 *)

Theorem C37_idempotent : forall mem0 u t flags x mem1 u1,
  readable u t 8 -> t <> [] -> length mem0 = abs_size (length t) ->
  create_absolute mem0 None (Some u) (length t) flags = Ok (0, Some x) ->
  readable u1 (url_text x) 8 -> length mem1 = abs_size (u_len x) ->
  exists x', create_absolute mem1 None (Some u1) (u_len x) flags = Ok (0, Some x') /\
    url_text x' = url_text x /\ url_domain x' = url_domain x.
Proof.
  intros mem0 u t flags x mem1 u1 Hr Ht Hm E Hr1 Hm1.
  destruct (absolute_ex t) as [parts Ha]. unfold create_absolute in E.
  destruct (length t) as [|k] eqn:El; [destruct t; [congruence|discriminate]|]. rewrite <- El in *.
  destruct (create_scheme_url mem0 u t (length t) flags parts Hr eq_refl ltac:(left; lia) Ha) as [y [Ey Hy]].
  rewrite Ey in E. cbn [bind] in E. injection E as ->.
  pose proof (is_url_text _ _ Hy) as Tx. pose proof (is_url_domain _ _ Hy) as Dx.
  destruct Hy as [HV [d [j [Hd Ex]]]].
  assert (Lx : u_len x = length (text_of (norm (fetchable flags) parts))) by (rewrite Ex; reflexivity).
  rewrite Lx, Tx in *.
  pose proof (valid_absolute _ HV) as Ha1.
  unfold create_absolute.
  destruct (length (text_of (norm (fetchable flags) parts))) as [|k1] eqn:El1.
  { exfalso. destruct HV as [[Hs|Hs] _]; apply forall2_len in Hs; unfold text_of in El1; rewrite app_length, Hs in El1; discriminate. }
  rewrite <- El1 in *.
  destruct (create_scheme_url mem1 u1 _ _ flags _ Hr1 eq_refl ltac:(left; lia) Ha1) as [x' [Ex' Hx']].
  rewrite Ex'. cbn [bind]. exists x'. split; [reflexivity|]. split.
  - rewrite (is_url_text _ _ Hx'). unfold text_of, norm. cbn [p_scheme p_host p_segs p_args].
    rewrite !normal_segs_render, normal_path_idem. reflexivity.
  - apply (domain_of_det (p_host parts)); [exact (is_url_domain _ _ Hx')|exact Dx].
Qed.
Print Assumptions C37_idempotent.

(** the URL of a created object can be read again: its buffer is longer than 8 bytes and the
    scheme is inside *)
Theorem C37_own_text_readable : forall x p, is_url x p -> readable (u_mem x) (url_text x) 8.
Proof.
  intros x p H. pose proof (is_url_text _ _ H) as T. destruct H as [HV [d [j [Hd ->]]]]. cbn [u_mem] in *. rewrite T.
  assert (L : (7 <= length (text_of p))%nat).
  { destruct HV as [[Hs|Hs] _]; apply forall2_len in Hs; unfold text_of; rewrite app_length, Hs; cbn [zs length]; cbn; lia. }
  split; [eexists; reflexivity|]. split; [left; rewrite app_length; cbn [length]; lia|]. split; intros s r Hsc; [exact L|].
  pose proof HV as [Hs _]. destruct Hs as [Hs|Hs].
  - exfalso. eapply scheme_excl; [|exact Hsc]. unfold text_of. rewrite <- app_assoc. split; [reflexivity|exact Hs].
  - apply forall2_len in Hs. unfold text_of. rewrite app_length, Hs. cbn. lia.
Qed.
Print Assumptions C37_own_text_readable.

Example C37_ex : shown (abs_run (zs "HTTP://www.example.com/a/c?q=/../") 0)
  = Ok (0, Some (zs "HTTP://www.example.com/a/c?q=/../", zs "example.com")).
Proof. vm_compute. reflexivity. Qed.

(** ** C38: the host and the domain *)

(** The text of the object is the scheme, the host and a '/' ...; the host is lower case,
    consists of host characters and neither begins nor ends with a dot; the domain is
    determined by the host.  Both texts are terminated by a NUL. *)
Theorem C38_host : forall mem0 u t flags x,
  readable u t 8 -> t <> [] -> length mem0 = abs_size (length t) ->
  create_absolute mem0 None (Some u) (length t) flags = Ok (0, Some x) ->
  exists scheme host rest, url_text x = scheme ++ host ++ 47 :: rest /\
    (Forall2 eq_case scheme (zs "http://") \/ Forall2 eq_case scheme (zs "https://")) /\
    Forall (fun c => 97 <= c <= 122 \/ 48 <= c <= 57 \/ c = 46 \/ c = 58 \/ c = 45 \/ c = 95) host /\
    no_outer_dots host /\ domain_of host (url_domain x) /\
    nth_error (u_mem x) (u_len x) = Some 0 /\ nth_error (u_mem x) (u_dom x + u_dlen x) = Some 0.
Proof.
  intros mem0 u t flags x Hr Ht Hm E. destruct (C35_create_absolute_partial mem0 u t flags Hr Ht Hm) as [y [p [E' H]]].
  rewrite E in E'. injection E' as <-. rewrite (is_url_text _ _ H).
  pose proof (is_url_domain _ _ H) as D. destruct H as [HV [d [j [Hd Ex]]]].
  pose proof HV as [Hs [Hh [Hl [Ho [Hne _]]]]]. destruct (p_segs p) as [|s segs] eqn:Es; [congruence|].
  exists (p_scheme p), (p_host p), (s ++ render segs ++ p_args p).
  split; [unfold text_of; rewrite Es, render_cons; aa|]. split; [exact Hs|].
  split.
  { apply Forall_forall. intros c Hc. rewrite Forall_forall in Hh. pose proof (Hh c Hc) as HC.
    assert (Lc : lower c = c).
    { clear -Hl Hc. induction (p_host p) as [|a l IH]; [destruct Hc|]. cbn in Hl. injection Hl as A B.
      destruct Hc as [<-|Hc]; [exact A|auto]. }
    unfold lower in Lc. unfold host_char in HC.
    destruct (Z.leb_spec 65 c), (Z.leb_spec c 90); cbn [andb] in Lc; lia. }
  split; [exact Ho|]. split; [exact D|].
  rewrite Ex. cbn [u_mem u_len u_dom u_dlen]. split.
  - rewrite nth_error_app2 by lia. rewrite Nat.sub_diag. reflexivity.
  - replace (text_of p ++ 0 :: d ++ 0 :: j) with ((text_of p ++ 0 :: d) ++ 0 :: j) by aa.
    rewrite nth_error_app2 by (rewrite app_length; cbn; lia).
    replace (length (text_of p) + 1 + length d - length (text_of p ++ 0%Z :: d))%nat with 0%nat
      by (rewrite app_length; cbn; lia). reflexivity.
Qed.
Print Assumptions C38_host.

Theorem C38_domain_determined : forall h d1 d2, domain_of h d1 -> domain_of h d2 -> d1 = d2.
Proof. exact domain_of_det. Qed.
Print Assumptions C38_domain_determined.

(** the last two labels, for hosts without empty labels *)
Theorem C38_last_two_labels_partial : forall host d, domain_of host d -> no_outer_dots host ->
  (forall a b, host <> a ++ 46 :: 46 :: b) ->
  (~ In 46 host /\ d = host) \/
  (exists a b, host = a ++ 46 :: b /\ ~ In 46 a /\ ~ In 46 b /\ a <> [] /\ b <> [] /\ d = host) \/
  (exists pre a b, host = pre ++ 46 :: a ++ 46 :: b /\ ~ In 46 a /\ ~ In 46 b /\ a <> [] /\ b <> [] /\ d = a ++ 46 :: b).
Proof.
  intros host d H [Hh Hl] Hd. destruct H as [h Hn|a b Hb Ha|pre a x b Hb Ha].
  - left. auto.
  - assert (Hbn : b <> []) by (intros ->; rewrite last_last in Hl; congruence).
    destruct (last_snoc_case _ a) as [->|[a' [y ->]]]; [cbn in Hh; congruence|].
    rewrite removelast_last in Ha. right. left. exists (a' ++ [y]), b. split; [reflexivity|].
    split. { intros F. apply in_app_or in F. destruct F as [F|[->|[]]]; [contradiction|].
             apply (Hd a' b). aa. }
    split; [exact Hb|]. split; [intros F; apply app_eq_nil in F; destruct F; discriminate|]. split; [exact Hbn|reflexivity].
  - assert (Hbn : b <> []).
    { intros ->. apply Hl. replace (pre ++ 46 :: (a ++ [x]) ++ [46]) with ((pre ++ 46 :: a ++ [x]) ++ [46]) by aa.
      apply last_last. }
    right. right. exists pre, (a ++ [x]), b. split; [reflexivity|].
    split. { intros F. apply in_app_or in F. destruct F as [F|[->|[]]]; [contradiction|].
             apply (Hd (pre ++ 46 :: a) b). aa. }
    split; [exact Hb|]. split; [intros F; apply app_eq_nil in F; destruct F; discriminate|]. split; [exact Hbn|reflexivity].
Qed.
Print Assumptions C38_last_two_labels_partial.

Example C38_ex : domain_of (zs "www.example.com") (zs "example.com") /\ no_outer_dots (zs "www.example.com") /\
  (forall a b, zs "www.example.com" <> a ++ 46 :: 46 :: b) /\
  exists p, snd p = zs "example.com" /\ shown (abs_run (zs "HTTP://..Www.Example.COM./a") 0) = Ok (0, Some p).
Proof.
  split; [|split; [split; discriminate|split]].
  - apply (dom_two (zs "www") (zs "exampl") 101 (zs "com")); cbn; intuition discriminate.
  - intros a b E. apply (f_equal (fun l => nth_error l (length a) = Some 46 /\ nth_error l (S (length a)) = Some 46)) in E.
    assert (F : nth_error (a ++ 46 :: 46 :: b) (length a) = Some 46 /\ nth_error (a ++ 46 :: 46 :: b) (S (length a)) = Some 46).
    { split; [rewrite nth_error_app2 by lia; rewrite Nat.sub_diag|rewrite nth_error_app2 by lia; replace (S (length a) - length a)%nat with 1%nat by lia]; reflexivity. }
    rewrite <- E in F. destruct F as [F1 F2]. clear E.
    do 15 (destruct a as [|? a]; [cbn in F1, F2; discriminate|]). cbn in F1. destruct (length a); discriminate.
  - eexists. split; [|vm_compute; reflexivity]. reflexivity.
Qed.

(** with an empty label in the host the domain has three labels *)
Theorem C38_last_two_labels_refuted : exists t x,
  shown (abs_run t 0) = Ok (0, Some x) /\ snd x = zs "a..b" /\ t = zs "http://x.a..b/".
Proof. eexists. eexists. split; [|split]; [| |reflexivity]; vm_compute; reflexivity. Qed.
Print Assumptions C38_last_two_labels_refuted.

(** ** C39, C40: references relative to a parent *)

(** a reference that is not an absolute URL *)
Definition has_any_scheme (u : list Z) : Prop :=
  (exists s r, has_scheme (zs "http://") u s r) \/ (exists s r, has_scheme (zs "https://") u s r).

Lemma http_prefix : forall u, enough u 8 ->
  (exists t1, starts u (zs "http://") 7 = Ok t1 /\
   ((if t1 then Ok true else starts u (zs "https://") 8) = Ok true /\ has_any_scheme u \/
    (if t1 then Ok true else starts u (zs "https://") 8) = Ok false /\ ~ has_any_scheme u)).
Proof.
  intros u Hu.
  destruct (starts_dec u http 7 ltac:(discriminate) http_nonul eq_refl (enough_le u 7 8 Hu ltac:(lia))) as [[E H]|[E N]].
  - exists true. split; [exact E|]. left. split; [reflexivity|left; exact H].
  - exists false. split; [exact E|].
    destruct (starts_dec u https 8 ltac:(discriminate) https_nonul eq_refl Hu) as [[E2 H]|[E2 N2]].
    + left. split; [exact E2|right; exact H].
    + right. split; [exact E2|]. intros [F|F]; contradiction.
Qed.

(** C39: the URL has the scheme, the host and the domain of the parent; its path is the
    normal form of the reference's path, below the directory of the parent unless it begins
    with '/'.  Missing: parents whose scheme is written with an upper-case 'S' (refuted
    below). *)
Theorem C39_relative_partial : forall mem0 u t flags parent P parts,
  readable u t 11 -> t <> [] -> length mem0 = rel_size (length t) parent ->
  is_url parent P -> plain_scheme P -> ~ has_any_scheme u -> ~ refused u -> relative P t parts ->
  exists x, create_relative mem0 None (Some u) (length t) flags (Some parent) = Ok (0, Some x) /\
    is_url x (norm (fetchable flags) parts) /\
    url_text x = p_scheme P ++ p_host P ++ normal_path (fetchable flags) (p_segs parts) ++ p_args parts /\
    url_domain x = url_domain parent.
Proof.
  intros mem0 u t flags parent P parts Hr Ht Hm HP Hpl Hns Href Hrel. unfold create_relative.
  destruct (length t) as [|k] eqn:E; [destruct t; [congruence|discriminate]|]. rewrite <- E in *.
  destruct (http_prefix u) as [t1 [E1 [[_ F]|[E2 _]]]]; [destruct Hr as [_ [L _]]; apply (enough_le u 8 11); [exact L|lia]|contradiction|].
  rewrite E1. cbn [bind]. rewrite E2. cbn [bind].
  destruct (create_suburl_ok mem0 u t (length t) flags parent P parts Hr eq_refl ltac:(lia) HP Hpl Href Hrel ltac:(lia))
    as [x [Ex Hx]].
  rewrite Ex. cbn [bind]. exists x. split; [reflexivity|]. split; [exact Hx|].
  assert (Hsh : p_scheme parts = p_scheme P /\ p_host parts = p_host P) by (destruct Hrel; split; reflexivity).
  destruct Hsh as [Hs Hh]. split.
  - rewrite (is_url_text _ _ Hx), norm_text. unfold normal. rewrite Hs, Hh. reflexivity.
  - apply (domain_of_det (p_host P)).
    + pose proof (is_url_domain _ _ Hx) as D. cbn [norm p_host] in D. rewrite Hh in D. exact D.
    + exact (is_url_domain _ _ HP).
Qed.
Print Assumptions C39_relative_partial.

(** mailto:, javascript: and '#' references are refused *)
Theorem C39_refused : forall mem0 u sz flags parent,
  enough u 11 -> (0 < sz)%nat -> ~ has_any_scheme u -> refused u ->
  create_relative mem0 None (Some u) sz flags (Some parent) = Ok (-1, None).
Proof.
  intros mem0 u sz flags parent Hu Hsz Hns Href. unfold create_relative. destruct sz as [|k]; [lia|].
  destruct (http_prefix u) as [t1 [E1 [[_ F]|[E2 _]]]]; [apply (enough_le u 8 11); [exact Hu|lia]|contradiction|].
  rewrite E1. cbn [bind]. rewrite E2. cbn [bind]. rewrite create_suburl_refused by assumption. reflexivity.
Qed.
Print Assumptions C39_refused.

(** every parent that was created from an absolute URL, or relative to such a parent, is
    such an object *)
Inductive created : url -> Prop :=
| created_abs : forall mem0 u t flags x, readable u t 8 -> t <> [] -> length mem0 = abs_size (length t) ->
    create_absolute mem0 None (Some u) (length t) flags = Ok (0, Some x) -> created x
| created_rel : forall mem0 u t flags parent P x, readable u t 11 -> t <> [] ->
    length mem0 = rel_size (length t) parent -> created parent -> is_url parent P -> plain_scheme P ->
    create_relative mem0 None (Some u) (length t) flags (Some parent) = Ok (0, Some x) -> created x.

Definition rel_outcome (flags : Z) (u t : list Z) (parent : url) (P : parts) (r : Z * option url) : Prop :=
  (has_any_scheme u /\ exists parts d, absolute t parts /\ domain_of (p_host parts) d /\
     ((subdomain flags = true /\ d <> url_domain parent /\ r = (-1, None)) \/
      ((subdomain flags = false \/ d = url_domain parent) /\
       exists x, r = (0, Some x) /\ is_url x (norm (fetchable flags) parts) /\ url_domain x = d))) \/
  (~ has_any_scheme u /\ refused u /\ r = (-1, None)) \/
  (~ has_any_scheme u /\ ~ refused u /\ exists parts x, relative P t parts /\ r = (0, Some x) /\
     is_url x (norm (fetchable flags) parts) /\ url_domain x = url_domain parent).

(** C40 and C39: every outcome of create_relative.  Missing: parents whose scheme is written
    with an upper-case 'S'. *)
Theorem C40_outcomes_partial : forall mem0 u t flags parent P,
  readable u t 11 -> t <> [] -> length mem0 = rel_size (length t) parent ->
  is_url parent P -> plain_scheme P ->
  exists r, create_relative mem0 None (Some u) (length t) flags (Some parent) = Ok r /\
    rel_outcome flags u t parent P r.
Proof.
  intros mem0 u t flags parent P Hr Ht Hm HP Hpl.
  pose proof Hr as [[j Hu] [L11 [R7 R8]]].
  destruct (http_prefix u (enough_le u 8 11 L11 ltac:(lia))) as [t1 [E1 [[E2 Hsch]|[E2 Hns]]]].
  - (* an absolute URL *)
    unfold create_relative.
    destruct (length t) as [|k] eqn:E; [destruct t; [congruence|discriminate]|]. rewrite <- E in *.
    rewrite E1. cbn [bind]. rewrite E2. cbn [bind].
    assert (Hr8 : readable u t 8) by (split; [eauto|]; split; [apply (enough_le u 8 11); [exact L11|lia]|auto]).
    assert (Hst : exists s r, has_scheme (zs "http://") t s r \/ has_scheme (zs "https://") t s r).
    { destruct Hsch as [[s [r H]]|[s [r H]]].
      - pose proof (R7 _ _ H) as L. rewrite Hu in H. apply scheme_cut in H; [|exact L]. destruct H as [r' [H _]]. eauto.
      - pose proof (R8 _ _ H) as L. rewrite Hu in H. apply scheme_cut in H; [|exact L]. destruct H as [r' [H _]]. eauto. }
    destruct (absolute_ex t) as [parts Ha].
    destruct (create_scheme_url mem0 u t (length t) flags parts Hr8 eq_refl) as [x [Ex Hx]]; [right; split; [unfold rel_size in Hm; lia|exact Hst]|exact Ha|].
    rewrite Ex. cbn [bind].
    pose proof (is_url_domain _ _ Hx) as Dx. cbn [norm p_host] in Dx.
    pose proof (is_url_domain _ _ HP) as DP.
    destruct (domains_equal (norm (fetchable flags) parts) P (url_domain x) (url_domain parent)) as [N1 [N2 I]].
    { destruct Hx; assumption. } { destruct HP; assumption. } { exact Dx. } { exact DP. }
    assert (Dt : forall y q, is_url y q -> exists j', skipn (u_dom y) (u_mem y) = url_domain y ++ 0 :: j').
    { clear. intros y q [_ [d [j' [_ ->]]]]. unfold url_domain. cbn [u_mem u_dom u_dlen].
      replace (text_of q ++ 0 :: d ++ 0 :: j') with ((text_of q ++ [0]) ++ d ++ 0 :: j') by aa.
      rewrite (skipn_at (text_of q ++ [0])) by (rewrite app_length; reflexivity).
      rewrite firstn_len_app. eauto. }
    destruct (Dt _ _ Hx) as [j1 Ej1]. destruct (Dt _ _ HP) as [j2 Ej2].
    destruct (subdomain flags) eqn:Sd.
    + rewrite Ej1, Ej2. destruct (strcaseeq_ok (url_domain x) (url_domain parent) j1 j2 N1 N2) as [e [Ee He]].
      rewrite Ee. cbn [bind]. rewrite I in He. destruct e; cbn [negb].
      * eexists. split; [reflexivity|]. left. split; [exact Hsch|]. exists parts, (url_domain x).
        split; [exact Ha|]. split; [exact Dx|]. right. split; [right; apply He; reflexivity|]. exists x. auto.
      * eexists. split; [reflexivity|]. left. split; [exact Hsch|]. exists parts, (url_domain x).
        split; [exact Ha|]. split; [exact Dx|]. left. split; [exact Sd|]. split; [|reflexivity].
        intros F. apply He in F. discriminate.
    + cbn [bind negb]. eexists. split; [reflexivity|]. left. split; [exact Hsch|]. exists parts, (url_domain x).
      split; [exact Ha|]. split; [exact Dx|]. right. split; [left; exact Sd|]. exists x. auto.
  - (* a reference *)
    assert (Hdec : refused u \/ ~ refused u).
    { unfold refused.
      destruct (starts_dec u (zs "mailto:") 7 ltac:(discriminate) ltac:(repeat constructor; discriminate) eq_refl (enough_le u 7 11 L11 ltac:(lia))) as [[_ F]|[_ N1]]; [auto|].
      destruct (starts_dec u (zs "javascript:") 11 ltac:(discriminate) ltac:(repeat constructor; discriminate) eq_refl L11) as [[_ F]|[_ N2]]; [auto|].
      destruct (Z.eq_dec (hd 0 u) 35); [auto|]. right. intros [F|[F|F]]; contradiction. }
    assert (Lt : (0 < length t)%nat) by (destruct t; [congruence|cbn; lia]).
    destruct Hdec as [Href|Href].
    + exists (-1, None). split; [apply C39_refused; assumption|]. right. left. auto.
    + destruct (relative_ex P t Lt) as [parts Hrel].
      destruct (C39_relative_partial mem0 u t flags parent P parts Hr Ht Hm HP Hpl Hns Href Hrel) as [x [Ex [Hx [_ Hd]]]].
      exists (0, Some x). split; [exact Ex|]. right. right. split; [exact Hns|]. split; [exact Href|].
      exists parts, x. auto.
Qed.
Print Assumptions C40_outcomes_partial.

(** C40: with SUBDOMAIN a successful call gives a URL in the domain of the parent, and the
    call fails only for another domain or a refused reference *)
Theorem C40_subdomain_partial : forall mem0 u t flags parent P c x,
  readable u t 11 -> t <> [] -> length mem0 = rel_size (length t) parent ->
  is_url parent P -> plain_scheme P -> subdomain flags = true ->
  create_relative mem0 None (Some u) (length t) flags (Some parent) = Ok (c, x) ->
  (c = 0 /\ exists y, x = Some y /\ url_domain y = url_domain parent) \/
  (c = -1 /\ x = None /\
   (refused u \/ exists parts d, absolute t parts /\ domain_of (p_host parts) d /\ d <> url_domain parent)).
Proof.
  intros mem0 u t flags parent P c x Hr Ht Hm HP Hpl Sd E.
  destruct (C40_outcomes_partial mem0 u t flags parent P Hr Ht Hm HP Hpl) as [r [Er Ho]].
  rewrite E in Er. injection Er as <-.
  destruct Ho as [[_ [parts [d [Ha [Hd [[_ [N R]]|[[F|F] [y [R [_ Hy]]]]]]]]]]|[[_ [Href R]]|[_ [_ [parts [y [_ [R [_ Hy]]]]]]]]].
  - right. injection R as -> ->. split; [reflexivity|]. split; [reflexivity|]. right. eauto.
  - congruence.
  - left. injection R as -> ->. split; [reflexivity|]. exists y. split; [reflexivity|congruence].
  - right. injection R as -> ->. auto.
  - left. injection R as -> ->. split; [reflexivity|]. exists y. split; [reflexivity|exact Hy].
Qed.
Print Assumptions C40_subdomain_partial.

(** C36 and C40: FETCHABLE is the lowest bit of the flags and SUBDOMAIN the one above; neither
    depends on the other or on any further bit. *)
Theorem C40_flags : forall flags, 0 <= flags ->
  fetchable flags = Z.odd flags /\ subdomain flags = Z.odd (flags / 2).
Proof.
  intros flags H.
  assert (G : forall i, 0 <= i -> negb (Z.land flags (2 ^ i) =? 0) = Z.testbit flags i).
  { intros i Hi. destruct (Z.testbit flags i) eqn:E.
    - destruct (Z.eqb_spec (Z.land flags (2 ^ i)) 0) as [X|]; [|reflexivity].
      apply (f_equal (fun z => Z.testbit z i)) in X.
      rewrite Z.land_spec, Z.pow2_bits_true, E, Z.bits_0 in X by lia. discriminate.
    - assert (X : Z.land flags (2 ^ i) = 0).
      { apply Z.bits_inj'. intros n Hn. rewrite Z.land_spec, Z.bits_0, Z.pow2_bits_eqb by lia.
        destruct (Z.eqb_spec i n); [subst; rewrite E; reflexivity|apply andb_false_r]. }
      rewrite X. reflexivity. }
  split.
  - unfold fetchable. change 1 with (2 ^ 0) at 1. rewrite G by lia. symmetry. apply Z.bit0_odd.
  - unfold subdomain. change 2 with (2 ^ 1) at 1. rewrite G by lia.
    rewrite <- Z.bit0_odd.
    change 2 with (2 ^ 1). rewrite <- Z.shiftr_div_pow2 by lia. rewrite Z.shiftr_spec by lia. reflexivity.
Qed.
Print Assumptions C40_flags.

Theorem C39_created_objects : forall x, created x -> exists p, is_url x p.
Proof.
  intros x H. induction H as [mem0 u t flags x Hr Ht Hm E|mem0 u t flags parent P x Hr Ht Hm Hc IH HP Hpl E].
  - destruct (C35_create_absolute_partial mem0 u t flags Hr Ht Hm) as [y [p [E' H]]]. rewrite E in E'.
    injection E' as <-. eauto.
  - destruct (C40_outcomes_partial mem0 u t flags parent P Hr Ht Hm HP Hpl) as [r [Er Ho]].
    rewrite E in Er. injection Er as <-.
    destruct Ho as [[_ [parts [d [Ha [Hd [[_ [N R]]|[_ [y [R [Hy _]]]]]]]]]]|[[_ [Href R]]|[_ [_ [parts [y [_ [R [Hy _]]]]]]]]];
      try discriminate; injection R as <-; eauto.
Qed.
Print Assumptions C39_created_objects.

(** C35 for create_relative: no undefined behaviour.  Missing: the inputs of the refuted
    theorems above and parents of which the scheme is written with an upper-case 'S'. *)
Theorem C35_create_relative_partial : forall mem0 u t flags parent P,
  readable u t 11 -> t <> [] -> length mem0 = rel_size (length t) parent ->
  is_url parent P -> plain_scheme P ->
  exists r, create_relative mem0 None (Some u) (length t) flags (Some parent) = Ok r.
Proof.
  intros mem0 u t flags parent P Hr Ht Hm HP Hpl.
  destruct (C40_outcomes_partial mem0 u t flags parent P Hr Ht Hm HP Hpl) as [r [Er _]]. eauto.
Qed.
Print Assumptions C35_create_relative_partial.

Definition rel_run (par s : list Z) (flags : Z) : res (Z * option url) :=
  p <- abs_run par 0 ;;
  match snd p with
  | Some p => create_relative (mem (rel_size (length s) p)) None (Some (s ++ mem 11)) (length s) flags (Some p)
  | None => Ok (-1, None)
  end.

(** the host of the parent is replaced by the first segment of the reference when the
    scheme of the parent is written HTTPS *)
Theorem C39_relative_refuted : 
  shown (abs_run (zs "HTTPS://host.org/dir/") 0) = Ok (0, Some (zs "HTTPS://host.org/dir", zs "host.org")) /\
  shown (rel_run (zs "HTTPS://host.org/dir/") (zs "/evil.net/x") 0)
    = Ok (0, Some (zs "HTTPS://evil.net/x", zs "host.org")).
Proof. split; vm_compute; reflexivity. Qed.
Print Assumptions C39_relative_refuted.

Example C39_ex : shown (rel_run (zs "http://www.host.org/dir/page?x=1") (zs "../a/./b?y#z") 0)
  = Ok (0, Some (zs "http://www.host.org/a/b?y", zs "host.org")).
Proof. vm_compute. reflexivity. Qed.
Example C39_ex_root : shown (rel_run (zs "http://www.host.org/dir/page?x=1") (zs "/r/") 1)
  = Ok (0, Some (zs "http://www.host.org/r/", zs "host.org")).
Proof. vm_compute. reflexivity. Qed.
Example C39_ex_refused : shown (rel_run (zs "http://www.host.org/dir/") (zs "MailTo:me") 0) = Ok (-1, None).
Proof. vm_compute. reflexivity. Qed.
Example C39_ex_hypotheses : exists parent P, is_url parent P /\ plain_scheme P /\
  ~ has_any_scheme (zs "../a/./b?y#z") /\ ~ refused (zs "../a/./b?y#z") /\ readable (zs "../a/./b?y#z") (zs "../a/./b?y#z") 11.
Proof.
  assert (N : forall p q s r, q = hd 0 p -> has_scheme p (zs "../a/./b?y#z") s r -> p <> [] -> eq_case 46 q).
  { intros p q s r -> [E F] Hp. destruct F as [|a b s' p' A F]; [congruence|]. injection E as E _. subst a. exact A. }
  assert (Hr : readable (zs "http://www.host.org/dir/") (zs "http://www.host.org/dir/") 8).
  { split; [exists []; rewrite app_nil_r; reflexivity|]. split; [left; vm_compute; lia|]. split; intros; vm_compute; lia. }
  destruct (absolute_ex (zs "http://www.host.org/dir/")) as [parts Ha].
  destruct (create_scheme_url (mem (abs_size 24)) _ _ 24 0 parts Hr eq_refl ltac:(left; reflexivity) Ha) as [x [Ex Hx]].
  exists x, (norm (fetchable 0) parts). split; [exact Hx|]. split.
  { unfold plain_scheme. cbn [norm p_scheme]. intros F. destruct Ha as [s r u0 dots h1 dots2 rest segs args Hsc].
    cbn [p_scheme] in F. destruct Hsc as [[E _]|[[E H8]|[_ [-> _]]]].
    - apply (f_equal (fun l => nth_error l 4)) in E. rewrite nth_error_app1 in E by (apply nth_error_Some; congruence).
      rewrite F in E. discriminate.
    - apply (f_equal (fun l => nth_error l 4)) in E. rewrite nth_error_app1 in E by (apply nth_error_Some; congruence).
      rewrite F in E. discriminate.
    - discriminate. }
  split.
  { intros [[s [r H]]|[s [r H]]]; apply (N _ 104) in H; try reflexivity; try discriminate; unfold eq_case in H; lia. }
  split.
  { intros [[s [r H]]|[[s [r H]]|H]];
      [apply (N _ 109) in H|apply (N _ 106) in H|discriminate]; try reflexivity; try discriminate; unfold eq_case in H; lia. }
  split; [exists []; rewrite app_nil_r; reflexivity|]. split; [left; vm_compute; lia|]. split; intros; vm_compute; lia.
Qed.

Example C40_ex_same : shown (rel_run (zs "http://www.host.org/") (zs "http://MAIL.Host.org/x") 2)
  = Ok (0, Some (zs "http://mail.host.org/x", zs "host.org")).
Proof. vm_compute. reflexivity. Qed.
Example C40_ex_other : shown (rel_run (zs "http://www.host.org/") (zs "http://www.other.org/x") 2) = Ok (-1, None).
Proof. vm_compute. reflexivity. Qed.

(** ** C41: URL objects are values *)

Definition no_self_assign (o : oop) : Prop := match o with OAssign a b => a <> b | _ => True end.

(** what the parser yields is a value for the objects *)
Theorem C41_parsed_values : forall i x p, is_url x p ->
  op_val (OCreate i (Some x)) (VCreate i (Some (url_text x, url_domain x))).
Proof.
  intros i x p H. cbn [op_val]. split; [reflexivity|].
  pose proof (is_url_text _ _ H) as T. destruct H as [HV [d [j [Hd Ex]]]].
  assert (Dx : url_domain x = d).
  { rewrite Ex. unfold url_domain. cbn [u_mem u_dom u_dlen].
    replace (text_of p ++ 0 :: d ++ 0 :: j) with ((text_of p ++ [0]) ++ d ++ 0 :: j) by aa.
    rewrite (skipn_at (text_of p ++ [0])) by (rewrite app_length; reflexivity). apply firstn_len_app. }
  rewrite T, Dx. split.
  - intros F. destruct HV as [[Hs|Hs] _]; apply forall2_len in Hs; unfold text_of in F;
      destruct (p_scheme p); discriminate.
  - exists j. rewrite Ex. unfold image. f_equal. rewrite <- !app_assoc. cbn [app]. rewrite <- !app_assoc. reflexivity.
Qed.
Print Assumptions C41_parsed_values.

(** After any sequence of constructions, copies, assignments, creations and destructions no
    use after free or double free happened, every living object shows its own value, whatever
    became of the objects it was copied from, no two objects share a block, and every block
    that is not freed belongs to a living object.  Missing: assignment of an object to itself
    (refuted below). *)
Theorem C41_value_semantics_partial : forall ops vals w,
  Forall2 op_val ops vals -> Forall no_self_assign ops -> vrun [] vals w ->
  exists st, o_run ([], []) ops = Ok st /\
    (forall i t d, nth_error w i = Some (Some (Some (t, d))) ->
       o_url st i = Ok (map Some (t ++ [0])) /\ o_dom st i = Ok (map Some (d ++ [0]))) /\
    (forall i, nth_error w i = Some (Some None) -> o_url st i = Ok [Some 0] /\ o_dom st i = Ok [Some 0]) /\
    (forall i j o1 o2 id, nth_error (snd st) i = Some (Some o1) -> nth_error (snd st) j = Some (Some o2) ->
       o_blk o1 = Some id -> o_blk o2 = Some id -> i = j) /\
    (forall id l, nth_error (fst st) id = Some (Some l) ->
       exists i o v, nth_error w i = Some (Some (Some v)) /\ nth_error (snd st) i = Some (Some o) /\ o_blk o = Some id).
Proof.
  intros ops vals w Hv Hn Hw.
  assert (R : orep ([], []) []).
  { split; [reflexivity|]. split; [intros [|i] o v A; discriminate|].
    split; [intros i j id [o [A _]]; destruct i; discriminate|intros [|id] l A; discriminate]. }
  assert (G : exists st, o_run ([], []) ops = Ok st /\ orep st w).
  { revert Hw Hv Hn R. generalize (@nil (option uval)) as w0. generalize (([], []) : ostate) as st0. intros st0 w0 Hw.
    revert st0 ops. induction Hw as [w0|w0 o w1 os w2 Hs Hr IH]; intros st0 ops Hv Hn R.
    - inversion Hv; subst. exists st0. split; [reflexivity|exact R].
    - inversion Hv as [|o' v' ops' vs' Hov Hv']; subst. inversion Hn as [|? ? Hn1 Hn2]; subst.
      destruct (o_step_ok st0 w0 o' o w1 R Hov) as [st1 [E1 R1]]; [|exact Hs|].
      { intros F. destruct o'; cbn in *; try contradiction. destruct F as [F _]. contradiction. }
      cbn [o_run]. rewrite E1. cbn [bind]. apply (IH st1 ops'); assumption. }
  destruct G as [[h e] [E [Hlen [Hrep [Hinj Hown]]]]]. exists (h, e). split; [exact E|]. cbn [fst snd].
  assert (Live : forall i x, nth_error w i = Some (Some x) -> exists o, nth_error e i = Some (Some o) /\ obj_rep h o x).
  { intros i x H. destruct (nth_error e i) as [o'|] eqn:Ei.
    - pose proof (Hrep _ _ _ Ei H) as S. destruct o' as [o'|]; [|destruct S]. exists o'. auto.
    - apply nth_error_None in Ei. apply nth_error_lt in H. lia. }
  split; [|split; [|split]].
  - intros i t d H. destruct (Live _ _ H) as [o [A [Ht [id [j [Eo Eh]]]]]]. unfold o_url, o_dom.
    rewrite (o_get_ok _ _ _ A). cbn [bind]. rewrite Eo. cbn [o_len o_dlen o_blk].
    assert (L : (length t =? 0)%nat = false) by (apply Nat.eqb_neq; destruct t; [congruence|discriminate]).
    rewrite L. unfold h_read. rewrite (rd_some _ _ _ _ Eh). cbn [bind].
    assert (LL : length (map (@Some Z) (image t d) ++ j) = (length t + length d + 2 + length j)%nat).
    { rewrite app_length, map_length. unfold image. rewrite app_length. cbn [length]. rewrite app_length. cbn. lia. }
    rewrite LL. destruct (Nat.leb_spec (length t + 1) (length t + length d + 2 + length j)); [|lia].
    destruct (Nat.leb_spec (length t + length d + 2) (length t + length d + 2 + length j)); [|lia].
    cbn [bind]. split; f_equal.
    + unfold image. replace (t ++ 0 :: d ++ [0]) with ((t ++ [0]) ++ d ++ [0]) by (rewrite <- app_assoc; reflexivity).
      rewrite (map_app _ (t ++ [0])), <- app_assoc.
      replace (length t + 1)%nat with (length (map (@Some Z) (t ++ [0]))) by (rewrite map_length, app_length; reflexivity).
      apply firstn_len_app.
    + rewrite firstn_image by reflexivity.
      unfold image. replace (t ++ 0 :: d ++ [0]) with ((t ++ [0]) ++ d ++ [0]) by (rewrite <- app_assoc; reflexivity).
      rewrite (map_app _ (t ++ [0])).
      replace (length t + 1)%nat with (length (map (@Some Z) (t ++ [0]))) by (rewrite map_length, app_length; reflexivity).
      apply skipn_len_app.
  - intros i H. destruct (Live _ _ H) as [o [A Eo]]. cbn in Eo. subst o. unfold o_url, o_dom.
    rewrite (o_get_ok _ _ _ A). cbn. auto.
  - intros i j o1 o2 id A B C D. apply (Hinj i j id); [exists o1|exists o2]; auto.
  - intros id l H. destruct (Hown id l H) as [i [o [A B]]].
    destruct (nth_error w i) as [v|] eqn:Ew; [|apply nth_error_None in Ew; apply nth_error_lt in A; lia].
    pose proof (Hrep _ _ _ A Ew) as S. destruct v as [v|]; [|destruct S]. cbn in S.
    destruct v as [v|]; [|cbn in S; subst o; discriminate]. exists i, o, v. auto.
Qed.
Print Assumptions C41_value_semantics_partial.

(** no leak: when all objects are destroyed or empty every block has been freed *)
Theorem C41_no_leak_partial : forall ops vals w st,
  Forall2 op_val ops vals -> Forall no_self_assign ops -> vrun [] vals w ->
  Forall (fun o => o = None \/ o = Some None) w -> o_run ([], []) ops = Ok st ->
  forall id l, nth_error (fst st) id <> Some (Some l).
Proof.
  intros ops vals w st Hv Hn Hw Hd E id l F.
  destruct (C41_value_semantics_partial ops vals w Hv Hn Hw) as [st' [E' [_ [_ [_ L]]]]].
  rewrite E in E'. injection E' as <-. destruct (L id l F) as [i [o [v [A _]]]].
  apply nth_error_In in A. rewrite Forall_forall in Hd. destruct (Hd _ A); discriminate.
Qed.
Print Assumptions C41_no_leak_partial.

Definition ex_url : option url :=
  match abs_run (zs "http://www.host.org/a") 0 with Ok (_, x) => x | _ => None end.

(** an object assigned to itself shows bytes that were never written *)
Theorem C41_self_assignment_refuted : exists ops st,
  ops = [ONew; OCreate 0 ex_url; OAssign 0 0] /\ o_run ([], []) ops = Ok st /\
  match o_url st 0 with Ok l => forallb (fun c => match c with None => true | _ => false end) l | _ => false end = true.
Proof. eexists. eexists. split; [reflexivity|]. split; vm_compute; reflexivity. Qed.
Print Assumptions C41_self_assignment_refuted.

Example C41_ex :
  (st <- o_run ([], []) [ONew; OCreate 0 ex_url; OCopy 0; ONew; OAssign 2 1; ODestroy 0; OCreate 1 None] ;; o_url st 2)
  = Ok (map Some (zs "http://www.host.org/a" ++ [0])).
Proof. vm_compute. reflexivity. Qed.
