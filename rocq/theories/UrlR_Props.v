(** Theorems about references relative to any parent (properties C35, C39, C40). *)

From Coq Require Import ZArith List Bool Lia Arith.
From Verif Require Import Base Str_Model Str_Spec UrlP_Model UrlP_Spec UrlP_Proof UrlP_Props UrlR_Spec UrlR_Proof.
Import ListNotations.
Local Open Scope Z_scope.

(** C39, C36: what create_relative makes of a reference, for every parent: the part of the
    parent's text before the dividing '/' is kept, the path is the normal form of the
    reference's path, below the directory of the parent unless it begins with '/', and the
    domain is that of the parent *)
Theorem C39_any_parent : forall mem0 u t flags parent P d parts,
  readable u t 11 -> t <> [] -> length mem0 = rel_size (length t) parent ->
  holds parent P d -> ~ has_any_scheme u -> ~ refused u -> relative P t parts ->
  exists x, create_relative mem0 None (Some u) (length t) flags (Some parent) = Ok (0, Some x) /\
    holds x (norm (fetchable flags) parts) d /\
    url_text x = p_scheme P ++ p_host P ++ normal_path (fetchable flags) (p_segs parts) ++ p_args parts /\
    url_domain x = url_domain parent.
Proof.
  intros mem0 u t flags parent P d parts Hr Ht Hm HP Hns Href Hrel. unfold create_relative.
  destruct (length t) as [|k] eqn:E; [destruct t; [congruence|discriminate]|]. rewrite <- E in *.
  destruct (http_prefix u) as [t1 [E1 [[_ F]|[E2 _]]]]; [destruct Hr as [_ [L _]]; apply (enough_le u 8 11); [exact L|lia]|contradiction|].
  rewrite E1. cbn [bind]. rewrite E2. cbn [bind].
  destruct (create_suburl_holds mem0 u t (length t) flags parent P d parts Hr eq_refl ltac:(lia) HP Href Hrel ltac:(lia))
    as [x [Ex Hx]].
  rewrite Ex. cbn [bind]. exists x. split; [reflexivity|]. split; [exact Hx|].
  assert (Hsh : p_scheme parts = p_scheme P /\ p_host parts = p_host P) by (destruct Hrel; split; reflexivity).
  destruct Hsh as [Hs Hh]. split.
  - rewrite (holds_text _ _ _ Hx), norm_text. unfold normal. rewrite Hs, Hh. reflexivity.
  - rewrite (holds_domain _ _ _ Hx), (holds_domain _ _ _ HP). reflexivity.
Qed.
Print Assumptions C39_any_parent.

(** every outcome of create_relative for a parent whose text is divided into [P] *)
Definition any_outcome (flags : Z) (u t : list Z) (parent : url) (P : parts) (d : list Z) (r : Z * option url) : Prop :=
  (has_any_scheme u /\ exists parts d', absolute t parts /\ domain_of (p_host parts) d' /\
     ((subdomain flags = true /\ d' <> d /\ r = (-1, None)) \/
      ((subdomain flags = false \/ d' = d) /\
       exists x, r = (0, Some x) /\ is_url x (norm (fetchable flags) parts) /\ url_domain x = d'))) \/
  (~ has_any_scheme u /\ refused u /\ r = (-1, None)) \/
  (~ has_any_scheme u /\ ~ refused u /\ exists parts x, relative P t parts /\ r = (0, Some x) /\
     holds x (norm (fetchable flags) parts) d).

Lemma refused_dec : forall u, enough u 11 -> refused u \/ ~ refused u.
Proof.
  intros u L11. unfold refused.
  destruct (starts_dec u (zs "mailto:") 7 ltac:(discriminate) ltac:(repeat constructor; discriminate) eq_refl (enough_le u 7 11 L11 ltac:(lia))) as [[_ F]|[_ N1]]; [auto|].
  destruct (starts_dec u (zs "javascript:") 11 ltac:(discriminate) ltac:(repeat constructor; discriminate) eq_refl L11) as [[_ F]|[_ N2]]; [auto|].
  destruct (Z.eq_dec (hd 0 u) 35); [auto|]. right. intros [F|[F|F]]; contradiction.
Qed.

(** what the code looks at: 8 bytes for a scheme; without one, 7 bytes for "mailto:" and then
    11 for "javascript:" *)
Definition mailto (u : list Z) : Prop := exists s r, has_scheme (zs "mailto:") u s r.
Definition rel_readable (u t : list Z) : Prop :=
  (exists j, u = t ++ j) /\
  ((has_any_scheme u /\ readable u t 8) \/ (~ has_any_scheme u /\ enough u 8 /\ (mailto u \/ enough u 11))).

Lemma readable_rel : forall u t, readable u t 11 -> rel_readable u t.
Proof.
  intros u t [[j Hu] [L11 [R7 R8]]]. split; [eauto|].
  assert (L8 : enough u 8) by (apply (enough_le u 8 11); [exact L11|lia]).
  destruct (http_prefix u L8) as [t1 [_ [[_ Hsch]|[_ Hns]]]]; [left|right; auto].
  split; [exact Hsch|]. split; [eauto|]. auto.
Qed.

Theorem C40_outcomes_any_parent : forall mem0 u t flags parent P d,
  rel_readable u t -> t <> [] -> length mem0 = rel_size (length t) parent -> holds parent P d ->
  exists r, create_relative mem0 None (Some u) (length t) flags (Some parent) = Ok r /\
    any_outcome flags u t parent P d r.
Proof.
  intros mem0 u t flags parent P d Hr Ht Hm HP.
  pose proof Hr as [[j Hu] Hr2].
  assert (L8 : enough u 8) by (destruct Hr2 as [[_ [_ [L _]]]|[_ [L _]]]; exact L).
  destruct (http_prefix u L8) as [t1 [E1 [[E2 Hsch]|[E2 Hns]]]].
  - destruct Hr2 as [[_ Hr8]|[F _]]; [|contradiction]. pose proof Hr8 as [_ [_ [R7 R8]]].
    unfold create_relative.
    destruct (length t) as [|k] eqn:E; [destruct t; [congruence|discriminate]|]. rewrite <- E in *.
    rewrite E1. cbn [bind]. rewrite E2. cbn [bind].
    assert (Hst : exists s r, has_scheme (zs "http://") t s r \/ has_scheme (zs "https://") t s r).
    { destruct Hsch as [[s [r H]]|[s [r H]]].
      - pose proof (R7 _ _ H) as L. rewrite Hu in H. apply scheme_cut in H; [|exact L]. destruct H as [r' [H _]]. eauto.
      - pose proof (R8 _ _ H) as L. rewrite Hu in H. apply scheme_cut in H; [|exact L]. destruct H as [r' [H _]]. eauto. }
    destruct (absolute_ex t) as [parts Ha].
    destruct (create_scheme_url mem0 u t (length t) flags parts Hr8 eq_refl) as [x [Ex Hx]]; [right; split; [unfold rel_size in Hm; lia|exact Hst]|exact Ha|].
    rewrite Ex. cbn [bind].
    pose proof (is_url_domain _ _ Hx) as Dx. cbn [norm p_host] in Dx.
    pose proof (is_url_holds _ _ Hx) as HX.
    destruct (holds_dom_mem _ _ _ HX) as [j1 Ej1]. destruct (holds_dom_mem _ _ _ HP) as [j2 Ej2].
    assert (T1 : domain_text (url_domain x)) by (destruct HX as [_ [H _]]; exact H).
    assert (T2 : domain_text d) by (destruct HP as [_ [H _]]; exact H).
    destruct (domain_text_equal _ _ T1 T2) as [N1 [N2 I]].
    destruct (subdomain flags) eqn:Sd.
    + rewrite Ej1, Ej2. destruct (strcaseeq_ok (url_domain x) d j1 j2 N1 N2) as [e [Ee He]].
      rewrite Ee. cbn [bind]. rewrite I in He. destruct e; cbn [negb].
      * eexists. split; [reflexivity|]. left. split; [exact Hsch|]. exists parts, (url_domain x).
        split; [exact Ha|]. split; [exact Dx|]. right. split; [right; apply He; reflexivity|]. exists x. auto.
      * eexists. split; [reflexivity|]. left. split; [exact Hsch|]. exists parts, (url_domain x).
        split; [exact Ha|]. split; [exact Dx|]. left. split; [exact Sd|]. split; [|reflexivity].
        intros F. apply He in F. discriminate.
    + cbn [bind negb]. eexists. split; [reflexivity|]. left. split; [exact Hsch|]. exists parts, (url_domain x).
      split; [exact Ha|]. split; [exact Dx|]. right. split; [left; exact Sd|]. exists x. auto.
  - assert (Lt : (0 < length t)%nat) by (destruct t; [congruence|cbn; lia]).
    destruct Hr2 as [[F _]|[_ [_ Hr2]]]; [contradiction|].
    assert (Hmail : mailto u -> create_relative mem0 None (Some u) (length t) flags (Some parent) = Ok (-1, None)).
    { intros Hma. unfold create_relative. destruct (length t) as [|k]; [lia|]. rewrite E1. cbn [bind]. rewrite E2. cbn [bind].
      unfold create_suburl.
      destruct (starts_dec u (zs "mailto:") 7 ltac:(discriminate) ltac:(repeat constructor; discriminate) eq_refl (enough_le u 7 8 L8 ltac:(lia)))
        as [[Em _]|[_ N1]]; [rewrite Em; reflexivity|contradiction]. }
    destruct Hr2 as [Hma|L11].
    { exists (-1, None). split; [exact (Hmail Hma)|]. right. left. split; [exact Hns|]. split; [left; exact Hma|reflexivity]. }
    destruct (refused_dec u L11) as [Href|Href].
    + exists (-1, None). split; [apply C39_refused; assumption|]. right. left. auto.
    + destruct (relative_ex P t Lt) as [parts Hrel].
      assert (Hr11 : readable u t 11).
      { split; [eauto|]. split; [exact L11|]. split; intros s r H; destruct Hns; [left|right]; eauto. }
      destruct (C39_any_parent mem0 u t flags parent P d parts Hr11 Ht Hm HP Hns Href Hrel) as [x [Ex [Hx _]]].
      exists (0, Some x). split; [exact Ex|]. right. right. split; [exact Hns|]. split; [exact Href|].
      exists parts, x. auto.
Qed.
Print Assumptions C40_outcomes_any_parent.

(** every object made by any sequence of calls has a divided text and a domain *)
Theorem C39_made_objects : forall x, made x -> exists p d, holds x p d.
Proof.
  intros x H. induction H as [mem0 u t flags x Hr Ht Hm E|mem0 u t flags parent x Hr Ht Hm Hc [P [d HP]] E].
  - destruct (C35_create_absolute_partial mem0 u t flags Hr Ht Hm) as [y [p [E' H]]]. rewrite E in E'.
    injection E' as <-. exists (seen p), (url_domain x). apply is_url_holds. exact H.
  - destruct (C40_outcomes_any_parent mem0 u t flags parent P d (readable_rel _ _ Hr) Ht Hm HP) as [r [Er Ho]].
    rewrite E in Er. injection Er as <-.
    destruct Ho as [[_ [parts [d' [Ha [Hd [[_ [N R]]|[_ [y [R [Hy _]]]]]]]]]]|[[_ [Href R]]|[_ [_ [parts [y [_ [R Hy]]]]]]]];
      try discriminate; injection R as <-; [|eauto].
    exists (seen (norm (fetchable flags) parts)), (url_domain x). apply is_url_holds. exact Hy.
Qed.
Print Assumptions C39_made_objects.

(** C35 for create_relative, for every parent that any sequence of calls has made: these are
    the calls with a defined behaviour *)
Theorem C35_create_relative_exact : forall mem0 u t j flags parent,
  u = t ++ j -> t <> [] -> length mem0 = rel_size (length t) parent -> made parent ->
  ((exists r, create_relative mem0 None (Some u) (length t) flags (Some parent) = Ok r) <-> rel_readable u t).
Proof.
  intros mem0 u t j flags parent Hu Ht Hm Hmade. destruct (C39_made_objects _ Hmade) as [P [d HP]]. split.
  - intros [r E]. split; [eauto|]. unfold create_relative in E.
    destruct (length t) as [|k] eqn:El; [destruct t; [congruence|discriminate]|]. rewrite <- El in *.
    apply bind_inv in E. destruct E as [t1 [E1 E]]. apply bind_inv in E. destruct E as [t2 [E2 E]].
    assert (Ft : firstn (length t) u = t) by (rewrite Hu; apply firstn_len_app).
    destruct t2.
    + apply bind_inv in E. destruct E as [x [E _]]. destruct (create_scheme_defined _ _ _ _ _ E) as [_ Hr].
      rewrite Ft in Hr. left. split; [|exact Hr].
      destruct (http_prefix u) as [t1' [E1' H]]; [destruct Hr as [_ [L _]]; exact L|].
      rewrite E1 in E1'. injection E1' as <-. destruct H as [[_ H]|[E2' _]]; [exact H|]. rewrite E2 in E2'. discriminate.
    + assert (L8 : enough u 8).
      { destruct t1; [discriminate|]. exact (starts_reads u https 8 false ltac:(discriminate) https_nonul eq_refl E2). }
      right. destruct (http_prefix u L8) as [t1' [E1' H]]. rewrite E1 in E1'. injection E1' as <-.
      destruct H as [[E2' _]|[_ Hns]]; [rewrite E2 in E2'; discriminate|]. split; [exact Hns|]. split; [exact L8|].
      apply bind_inv in E. destruct E as [x [E _]]. unfold create_suburl in E.
      destruct (starts_dec u (zs "mailto:") 7 ltac:(discriminate) ltac:(repeat constructor; discriminate) eq_refl (enough_le u 7 8 L8 ltac:(lia)))
        as [[_ F]|[Em _]]; [left; exact F|]. right. rewrite Em in E. cbn [bind] in E.
      apply bind_inv in E. destruct E as [tj [Ej _]].
      exact (starts_reads u (zs "javascript:") 11 tj ltac:(discriminate) ltac:(repeat constructor; discriminate) eq_refl Ej).
  - intros Hr. destruct (C40_outcomes_any_parent mem0 u t flags parent P d Hr Ht Hm HP) as [r [Er _]]. eauto.
Qed.
Print Assumptions C35_create_relative_exact.

(** C40: with SUBDOMAIN the domain of the object equals that of the parent, for every parent
    and every call that has a result *)
Theorem C40_subdomain_any_parent : forall mem0 u t j flags parent c x,
  u = t ++ j -> t <> [] -> length mem0 = rel_size (length t) parent -> made parent -> subdomain flags = true ->
  create_relative mem0 None (Some u) (length t) flags (Some parent) = Ok (c, x) ->
  (c = 0 /\ exists y, x = Some y /\ url_domain y = url_domain parent) \/
  (c = -1 /\ x = None /\
   (refused u \/ exists parts d, absolute t parts /\ domain_of (p_host parts) d /\ d <> url_domain parent)).
Proof.
  intros mem0 u t j flags parent c x Hu Ht Hm Hmade Sd E.
  assert (Hr : rel_readable u t)
    by (apply (C35_create_relative_exact mem0 u t j flags parent Hu Ht Hm Hmade); eauto).
  destruct (C39_made_objects _ Hmade) as [P [d HP]].
  destruct (C40_outcomes_any_parent mem0 u t flags parent P d Hr Ht Hm HP) as [r [Er Ho]].
  rewrite E in Er. injection Er as <-. rewrite (holds_domain _ _ _ HP).
  destruct Ho as [[_ [parts [d' [Ha [Hd [[_ [N R]]|[[F|F] [y [R [_ Hy]]]]]]]]]]|[[_ [Href R]]|[_ [_ [parts [y [_ [R Hy]]]]]]]].
  - right. injection R as -> ->. split; [reflexivity|]. split; [reflexivity|]. right. eauto.
  - congruence.
  - left. injection R as -> ->. split; [reflexivity|]. exists y. split; [reflexivity|congruence].
  - right. injection R as -> ->. auto.
  - left. injection R as -> ->. split; [reflexivity|]. exists y. split; [reflexivity|exact (holds_domain _ _ _ Hy)].
Qed.
Print Assumptions C40_subdomain_any_parent.

(** ** Parents whose scheme is written with an upper-case 'S' *)

(** C39 is false for every such parent: the reference "/name" replaces the host by [name],
    while the object still tells the domain of the parent *)
Theorem C39_upper_scheme : forall mem0 u name flags parent P,
  readable u (47 :: name) 11 -> length mem0 = rel_size (length (47 :: name)) parent ->
  is_url parent P -> nth 4 (p_scheme P) 0 = 83 ->
  ~ In 47 name -> ~ In 63 name -> ~ In 35 name -> dir_seg name = false ->
  exists x, create_relative mem0 None (Some u) (length (47 :: name)) flags (Some parent) = Ok (0, Some x) /\
    url_text x = p_scheme P ++ name /\ url_domain x = url_domain parent.
Proof.
  intros mem0 u name flags parent P Hr Hm HP H83 N47 N63 N35 Hdir.
  pose proof HP as [HV _].
  assert (Hu : exists j, u = 47 :: name ++ j) by (destruct Hr as [[j ->] _]; exists j; reflexivity).
  destruct Hu as [j Hu].
  assert (Bad : forall p s r, hd 0 p <> 47 -> p <> [] -> (forall a, eq_case 47 a -> a = 47) -> ~ has_scheme p u s r).
  { intros p s r Hp Hne C [E F]. rewrite Hu in E. destruct F as [|a b s' p' A F]; [congruence|].
    injection E as E _. subst a. apply C in A. cbn in Hp. congruence. }
  assert (C47 : forall a, eq_case 47 a -> a = 47) by (unfold eq_case; intros; lia).
  assert (Hns : ~ has_any_scheme u).
  { intros [[s [r H]]|[s [r H]]]; revert H; apply Bad; try exact C47; discriminate. }
  assert (Href : ~ refused u).
  { intros [[s [r H]]|[[s [r H]]|H]]; [revert H; apply Bad; try exact C47; discriminate..|]. rewrite Hu in H. discriminate. }
  assert (Hrel : relative (seen P) (47 :: name) (mkParts (p_scheme (seen P)) (p_host (seen P)) [name] [])).
  { apply (rel_root _ _ (47 :: name)); [|reflexivity|].
    - exists []. split; [symmetry; apply app_nil_r|]. split; [|left; reflexivity].
      intros [F|F]; [discriminate|contradiction].
    - split; [cbn [render map concat]; rewrite !app_nil_r; reflexivity|]. split; [discriminate|].
      split; [constructor; [exact N47|constructor]|]. split; [constructor; [exact N63|constructor]|left; reflexivity]. }
  destruct (C39_any_parent mem0 u (47 :: name) flags parent (seen P) (url_domain parent) _ Hr ltac:(discriminate) Hm
              (is_url_holds _ _ HP) Hns Href Hrel) as [x [Ex [_ [Tx Dx]]]].
  exists x. split; [exact Ex|]. split; [|exact Dx]. rewrite Tx. unfold seen. rewrite H83. cbn [Z.eqb Pos.eqb].
  cbn [p_scheme p_host p_segs p_args app]. rewrite app_nil_r.
  assert (En : normal_path (fetchable flags) [name] = 47 :: name).
  { unfold normal_path, walk_segs. cbn [fold_left last]. rewrite Hdir. cbn [andb].
    assert (W : walk_seg [] name = [name]).
    { unfold walk_seg. unfold dir_seg in Hdir.
      destruct name as [|c [|c2 [|c3 nm]]]; [discriminate| | |];
        repeat match goal with |- context [match ?x with _ => _ end] => is_var x; destruct x; try discriminate; try reflexivity end. }
    rewrite W. rewrite render_cons. cbn [render map concat]. rewrite !app_nil_r. reflexivity. }
  rewrite En. destruct HV as [[H|H] _]; [destruct (http_fifth _ H H83)|].
  rewrite (https_cut _ H) at 2. rewrite <- app_assoc. reflexivity.
Qed.
Print Assumptions C39_upper_scheme.

(** the kept part of such a parent is "HTTPS:/" and the host is the first segment of its path:
    ".." can leave the host *)
Example C39_upper_dir : shown (rel_run (zs "httpS://host.org/a/b") (zs "../../evil.net/x?y") 0)
  = Ok (0, Some (zs "httpS://evil.net/x?y", zs "host.org")).
Proof. vm_compute. reflexivity. Qed.
Example C39_upper_plain : shown (rel_run (zs "httpS://host.org/a/b") (zs "c") 0)
  = Ok (0, Some (zs "httpS://host.org/a/c", zs "host.org")).
Proof. vm_compute. reflexivity. Qed.
(** a child of a child: the new host is now the first segment *)
Example C39_upper_chain :
  shown (p <- rel_run (zs "HTTPS://host.org/dir/") (zs "/evil.net/x") 0 ;;
         match snd p with
         | Some p => create_relative (mem (rel_size 3 p)) None (Some (zs "./y" ++ mem 11)) 3 0 (Some p)
         | None => Ok (-1, None)
         end) = Ok (0, Some (zs "HTTPS://evil.net/y", zs "host.org")).
Proof. vm_compute. reflexivity. Qed.

(** the hypotheses of the theorems are met: a parent with an upper-case 'S' *)
Example C39_upper_made : exists x P, made x /\ is_url x P /\ nth 4 (p_scheme P) 0 = 83.
Proof.
  assert (Hr : readable (zs "HTTPS://host.org/dir/") (zs "HTTPS://host.org/dir/") 8).
  { split; [exists []; rewrite app_nil_r; reflexivity|]. split; [left; vm_compute; lia|]. split; intros; vm_compute; lia. }
  destruct (absolute_ex (zs "HTTPS://host.org/dir/")) as [parts Ha].
  destruct (create_scheme_url (mem (abs_size 21)) _ _ 21 0 parts Hr eq_refl ltac:(left; reflexivity) Ha) as [x [Ex Hx]].
  exists x, (norm (fetchable 0) parts). split; [|split; [exact Hx|]].
  - apply (made_abs (mem (abs_size 21)) (zs "HTTPS://host.org/dir/") (zs "HTTPS://host.org/dir/") 0 x Hr); [discriminate|reflexivity|].
    unfold create_absolute. change (length (zs "HTTPS://host.org/dir/")) with 21%nat. rewrite Ex. reflexivity.
  - cbn [norm p_scheme]. destruct Ha as [s r u0 dots h1 dots2 rest segs args Hsc].
    cbn [p_scheme]. destruct Hsc as [[E K7]|[[E K8]|[N _]]].
    + exfalso. pose proof (forall2_len _ _ _ _ _ K7) as L. apply (f_equal (fun l => nth 4 l 0)) in E.
      rewrite app_nth1 in E by (rewrite L; vm_compute; lia). apply (http_fifth _ K7). rewrite <- E. reflexivity.
    + apply (f_equal (fun l => nth 4 l 0)) in E.
      rewrite app_nth1 in E by (rewrite (forall2_len _ _ _ _ _ K8); vm_compute; lia). rewrite <- E. reflexivity.
    + exfalso. destruct (N (zs "HTTPS://") (zs "host.org/dir/")) as [_ F]. apply F. split; [reflexivity|].
      repeat constructor; unfold eq_case; cbn; lia.
Qed.
