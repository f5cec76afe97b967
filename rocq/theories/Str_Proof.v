(** Lemmas about the string functions. *)

From Coq Require Import ZArith List Bool Lia Arith.
From Verif Require Import Base Str_Model Str_Spec.
Import ListNotations.
Local Open Scope Z_scope.

(** ** Case folding *)

Lemma tolower_eq : forall a b, tolower a = tolower b <-> eq_case a b.
Proof.
  intros a b. unfold tolower, eq_case.
  destruct (Z.leb_spec 65 a), (Z.leb_spec a 90), (Z.leb_spec 65 b), (Z.leb_spec b 90);
    cbn [andb]; lia.
Qed.
Lemma same_eq : forall a b, same a = same b <-> a = b.
Proof. unfold same; tauto. Qed.

Lemma tolower_0 : forall a, tolower a = 0 <-> a = 0.
Proof.
  intros a. unfold tolower.
  destruct (Z.leb_spec 65 a), (Z.leb_spec a 90); cbn [andb]; lia.
Qed.

(** ** first_at / last_at *)

Lemma first_at_here : forall (P : Z -> Prop) x l, P x -> first_at P (x :: l) 0.
Proof. intros P x l H. split; [exists x; split; [reflexivity|exact H]|lia]. Qed.

Lemma first_at_next : forall (P : Z -> Prop) x l i,
  ~ P x -> first_at P l i -> first_at P (x :: l) (S i).
Proof.
  intros P x l i Hx [[y [E Py]] Hf]. split.
  - exists y. split; [exact E|exact Py].
  - intros [|j] z Hj Ez; cbn in Ez.
    + injection Ez as <-. exact Hx.
    + apply (Hf j z); [lia|exact Ez].
Qed.

Lemma nowhere_cons : forall (P : Z -> Prop) x l, ~ P x -> nowhere P l -> nowhere P (x :: l).
Proof. intros P x l Hx Hl y [->|Hy]; [exact Hx|exact (Hl y Hy)]. Qed.

Lemma last_at_snoc : forall (P : Z -> Prop) l x, P x -> last_at P (l ++ [x]) (length l).
Proof.
  intros P l x Hx. split.
  - exists x. split; [|exact Hx]. rewrite nth_error_app2 by lia.
    rewrite Nat.sub_diag. reflexivity.
  - intros j y Hj E. exfalso.
    assert (j < length (l ++ [x]))%nat by (apply nth_error_Some; congruence).
    rewrite app_length in H; cbn in H; lia.
Qed.
Lemma last_at_prev : forall (P : Z -> Prop) l x i,
  ~ P x -> last_at P l i -> last_at P (l ++ [x]) i.
Proof.
  intros P l x i Hx [[y [E Py]] Hf].
  assert (Hi : (i < length l)%nat) by (apply nth_error_Some; congruence).
  split.
  - exists y. split; [|exact Py]. rewrite nth_error_app1 by exact Hi. exact E.
  - intros j z Hj Ez. destruct (Nat.lt_ge_cases j (length l)) as [Hl|Hl].
    + rewrite nth_error_app1 in Ez by exact Hl. apply (Hf j z Hj Ez).
    + rewrite nth_error_app2 in Ez by exact Hl.
      destruct (j - length l)%nat as [|[|?]]; cbn in Ez; [|discriminate|discriminate].
      injection Ez as <-. exact Hx.
Qed.
Lemma nowhere_snoc : forall (P : Z -> Prop) l x, ~ P x -> nowhere P l -> nowhere P (l ++ [x]).
Proof.
  intros P l x Hx Hl y Hy. apply in_app_or in Hy. destruct Hy as [Hy|[->|[]]];
    [exact (Hl y Hy)|exact Hx].
Qed.

Lemma firstn_S_nth : forall (A : Type) (l : list A) k x,
  nth_error l k = Some x -> firstn (S k) l = firstn k l ++ [x].
Proof.
  induction l as [|y l IH]; intros [|k] x H; cbn in H; try discriminate.
  - injection H as ->. reflexivity.
  - cbn [firstn app]. f_equal. apply IH. exact H.
Qed.
Lemma rd_nth_error : forall (A : Type) (l : list A) k x, rd l k = Ok x <-> nth_error l k = Some x.
Proof.
  intros A l k x. unfold rd. destruct (nth_error l k); split; intros H; try discriminate;
    congruence.
Qed.
Lemma rd_ex : forall (A : Type) (l : list A) k, (k < length l)%nat ->
  exists x, rd l k = Ok x /\ nth_error l k = Some x.
Proof.
  intros A l k H. destruct (nth_error l k) as [x|] eqn:E.
  - exists x. split; [apply rd_nth_error; exact E|reflexivity].
  - apply nth_error_None in E. lia.
Qed.

Section Chr.
  Variable fold : Z -> Z.
  Variable R : Z -> Z -> Prop.
  Hypothesis HR : forall a b, fold a = fold b <-> R a b.
  Hypothesis Hidem : forall a, fold (fold a) = fold a.
  Set Default Proof Using "All".

  Lemma chr_loop_ok : forall s c pos,
    match chr_loop fold (fold c) s pos (length s) with
    | Ok (Some i) => (pos <= i)%nat /\ first_at (fun x => R c x) s (i - pos)
    | Ok None => nowhere (fun x => R c x) s
    | _ => False
    end.
  Proof.
    induction s as [|x s IH]; intros c pos; cbn [length chr_loop].
    - intros y [].
    - destruct (Z.eqb_spec (fold c) (fold x)) as [E|E].
      + split; [lia|]. rewrite Nat.sub_diag. apply first_at_here. apply HR, E.
      + specialize (IH c (S pos)).
        destruct (chr_loop fold (fold c) s (S pos) (length s)) as [[i|]| |]; try exact IH.
        * destruct IH as [H1 H2]. split; [lia|].
          replace (i - pos)%nat with (S (i - S pos)) by lia.
          apply first_at_next; [intros H; apply E, HR, H|exact H2].
        * apply nowhere_cons; [intros H; apply E, HR, H|exact IH].
  Qed.

  Lemma revchr_loop_ok : forall c s k, (k <= length s)%nat ->
    match revchr_loop fold (fold c) s k with
    | Ok (Some i) => last_at (fun x => R c x) (firstn k s) i
    | Ok None => nowhere (fun x => R c x) (firstn k s)
    | _ => False
    end.
  Proof.
    intros c s. induction k as [|k IH]; intros Hk; cbn [revchr_loop].
    - intros y [].
    - destruct (rd_ex _ s k) as [x [E1 E2]]; [lia|]. rewrite E1. cbn [bind].
      rewrite (firstn_S_nth _ _ _ _ E2).
      destruct (Z.eqb_spec (fold c) (fold x)) as [E|E].
      + replace k with (length (firstn k s)) at 2 by (apply firstn_length_le; lia).
        apply last_at_snoc. apply HR, E.
      + specialize (IH ltac:(lia)).
        destruct (revchr_loop fold (fold c) s k) as [[i|]| |]; try exact IH.
        * apply last_at_prev; [intros H; apply E, HR, H|exact IH].
        * apply nowhere_snoc; [intros H; apply E, HR, H|exact IH].
  Qed.

  Lemma chp_loop_ok : forall suf pre c len,
    match chp_loop fold (fold c) (pre ++ suf) (length pre) (length suf) len with
    | Ok i => (exists k, i = (length pre + k)%nat /\ first_at (fun x => R c x) suf k)
              \/ (i = len /\ nowhere (fun x => R c x) suf)
    | _ => False
    end.
  Proof.
    induction suf as [|x suf IH]; intros pre c len; cbn [length chp_loop].
    - right. split; [reflexivity|intros y []].
    - rewrite rd_app by reflexivity. cbn [bind].
      destruct (Z.eqb_spec (fold c) (fold x)) as [E|E].
      + left. exists 0%nat. split; [lia|]. apply first_at_here. apply HR, E.
      + specialize (IH (pre ++ [x]) c len). rewrite <- app_assoc in IH. cbn [app] in IH.
        rewrite app_length in IH. cbn [length] in IH. rewrite Nat.add_1_r in IH.
        destruct (chp_loop fold (fold c) (pre ++ x :: suf) (S (length pre)) (length suf) len)
          as [i| |]; try exact IH.
        destruct IH as [[k [-> Hf]]|[-> Hn]].
        * left. exists (S k). split; [lia|].
          apply first_at_next; [intros H; apply E, HR, H|exact Hf].
        * right. split; [reflexivity|].
          apply nowhere_cons; [intros H; apply E, HR, H|exact Hn].
  Qed.

  (** ** Alphabets *)

  Definition inalpha (n : list Z) (c : Z) : Prop := exists x, In x n /\ R c x.

  Lemma find_in_ok : forall n c junk, nonul n ->
    exists x, find_in fold c (n ++ 0 :: junk) = Ok x /\
      ((inalpha n c /\ exists e t, x = e :: t /\ e <> 0) \/
       (~ inalpha n c /\ x = 0 :: junk)).
  Proof.
    induction n as [|a n IH]; intros c junk Hn; cbn [app find_in].
    - exists (0 :: junk). split; [reflexivity|]. right. split; [|reflexivity].
      intros [x [[] _]].
    - inversion Hn as [|? ? Ha Hn']; subst.
      destruct (Z.eqb_spec a 0) as [E|_]; [contradiction|].
      destruct (Z.eqb_spec (fold c) (fold a)) as [E|E].
      + eexists. split; [reflexivity|]. left. split.
        * exists a. split; [left; reflexivity|apply HR, E].
        * eexists. eexists. split; [reflexivity|exact Ha].
      + destruct (IH c junk Hn') as [x [E1 [[[y [Hy Ry]] H2]|[H1 H2]]]].
        * exists x. split; [exact E1|]. left. split; [|exact H2].
          exists y. split; [right; exact Hy|exact Ry].
        * exists x. split; [exact E1|]. right. split; [|exact H2].
          intros [y [[->|Hy] Ry]]; [apply E, HR, Ry|].
          apply H1. exists y. split; assumption.
  Qed.

  Lemma lp_0 : forall (P : Z -> Prop) x l, ~ P x -> longest_prefix P (x :: l) 0.
  Proof.
    intros P x l H. split; [lia|]. split; [constructor|].
    intros y E. cbn in E. injection E as <-. exact H.
  Qed.
  Lemma lp_S : forall (P : Z -> Prop) x l k,
    P x -> longest_prefix P l k -> longest_prefix P (x :: l) (S k).
  Proof.
    intros P x l k Hx [H1 [H2 H3]]. split; [cbn [length]; lia|].
    split; [constructor; assumption|exact H3].
  Qed.
  Lemma lp_nil : forall P : Z -> Prop, longest_prefix P [] 0.
  Proof. intros P. split; [apply le_n|]. split; [constructor|intros x E; discriminate]. Qed.

  Lemma nspn_loop_ok : forall n junk s k, nonul n ->
    exists m, nspn_loop fold s (n ++ 0 :: junk) k (length s) = Ok (k + m)%nat /\
      longest_prefix (inalpha n) s m.
  Proof.
    intros n junk. induction s as [|c s IH]; intros k Hn; cbn [length nspn_loop].
    - exists 0%nat. rewrite Nat.add_0_r. split; [reflexivity|apply lp_nil].
    - cbn [deref bind tl]. destruct (find_in_ok n c junk Hn) as [x [-> [[Hi [e [t [-> He]]]]|[Hi ->]]]];
        cbn [bind deref].
      + destruct (Z.eqb_spec e 0) as [E|_]; [contradiction|].
        destruct (IH (S k) Hn) as [m [-> Hm]]. exists (S m). split; [f_equal; lia|].
        apply lp_S; assumption.
      + exists 0%nat. rewrite Nat.add_0_r. split; [reflexivity|apply lp_0; exact Hi].
  Qed.

  Lemma nspc_loop_ok : forall n junk s k, nonul n ->
    exists m, nspc_loop fold s (n ++ 0 :: junk) k (length s) = Ok (k + m)%nat /\
      longest_prefix (fun c => ~ inalpha n c) s m.
  Proof.
    intros n junk. induction s as [|c s IH]; intros k Hn; cbn [length nspc_loop].
    - exists 0%nat. rewrite Nat.add_0_r. split; [reflexivity|apply lp_nil].
    - cbn [deref bind tl]. destruct (find_in_ok n c junk Hn) as [x [-> [[Hi [e [t [-> He]]]]|[Hi ->]]]];
        cbn [bind deref].
      + destruct (Z.eqb_spec e 0) as [E|_]; [contradiction|]. cbn [negb].
        exists 0%nat. rewrite Nat.add_0_r. split; [reflexivity|apply lp_0; tauto].
      + cbn [Z.eqb negb].
        destruct (IH (S k) Hn) as [m [-> Hm]]. exists (S m). split; [f_equal; lia|].
        apply lp_S; assumption.
  Qed.

  Lemma rspc_loop_ok : forall n junk s k, nonul n -> (k <= length s)%nat ->
    exists m, rspc_loop fold s (n ++ 0 :: junk) k = Ok (k - m)%nat /\ (m <= k)%nat /\
      longest_suffix (fun c => ~ inalpha n c) (firstn k s) m.
  Proof.
    intros n junk s. induction k as [|k IH]; intros Hn Hk; cbn [rspc_loop].
    - exists 0%nat. split; [reflexivity|]. split; [lia|apply lp_nil].
    - destruct (rd_ex _ s k) as [c [E1 E2]]; [lia|]. rewrite E1. cbn [bind].
      rewrite (firstn_S_nth _ _ _ _ E2). unfold longest_suffix. rewrite rev_app_distr.
      cbn [rev app].
      destruct (find_in_ok n c junk Hn) as [x [-> [[Hi [e [t [-> He]]]]|[Hi ->]]]];
        cbn [bind deref].
      + destruct (Z.eqb_spec e 0) as [E|_]; [contradiction|]. cbn [negb].
        exists 0%nat. split; [f_equal; lia|]. split; [lia|apply lp_0; tauto].
      + cbn [Z.eqb negb].
        destruct (IH Hn) as [m [-> [Hle Hm]]]; [lia|]. exists (S m).
        split; [f_equal; lia|]. split; [lia|]. apply lp_S; assumption.
  Qed.

  (** The backward span counts one element too many unless it covers everything. *)
  Lemma rspn_loop_ok : forall n junk s k x0 xt, nonul n -> (k <= length s)%nat -> x0 <> 0 ->
    exists m, longest_suffix (inalpha n) (firstn k s) m /\ (m <= k)%nat /\
      rspn_loop fold s (n ++ 0 :: junk) (x0 :: xt) k = Ok (k - Nat.min k (S m))%nat.
  Proof.
    intros n junk s. induction k as [|k IH]; intros x0 xt Hn Hk Hx0; cbn [rspn_loop].
    - exists 0%nat. split; [apply lp_nil|]. split; [lia|reflexivity].
    - cbn [deref bind]. destruct (Z.eqb_spec x0 0) as [E|_]; [contradiction|].
      destruct (rd_ex _ s k) as [c [E1 E2]]; [lia|]. rewrite E1. cbn [bind].
      rewrite (firstn_S_nth _ _ _ _ E2). unfold longest_suffix. rewrite rev_app_distr.
      cbn [rev app].
      destruct (find_in_ok n c junk Hn) as [x [-> [[Hi [e [t [-> He]]]]|[Hi ->]]]];
        cbn [bind].
      + destruct (IH e t Hn) as [m [Hm [Hle ->]]]; [lia|exact He|]. exists (S m).
        split; [apply lp_S; assumption|]. split; [lia|]. apply f_equal; lia.
      + exists 0%nat. split; [apply lp_0; exact Hi|]. split; [lia|].
        destruct k as [|k]; cbn [rspn_loop deref bind Z.eqb]; apply f_equal; lia.
  Qed.

  (** ** Substrings *)

  Lemma strlen_ok : forall n junk, nonul n -> strlen (n ++ 0 :: junk) = Ok (length n).
  Proof.
    induction n as [|a n IH]; intros junk Hn; cbn [app strlen length]; [reflexivity|].
    inversion Hn as [|? ? Ha Hn']; subst.
    destruct (Z.eqb_spec a 0) as [E|_]; [contradiction|]. rewrite IH by exact Hn'.
    reflexivity.
  Qed.

  (** prefix match *)
  Definition matches (n s : list Z) : Prop := exists post mid, s = mid ++ post /\ Forall2 R mid n.

  Lemma matches_nil : forall s, matches [] s.
  Proof. intros s. exists s, []. split; [reflexivity|constructor]. Qed.
  Lemma matches_cons : forall a n c s, matches (a :: n) (c :: s) <-> R c a /\ matches n s.
  Proof.
    intros a n c s. split.
    - intros [post [mid [E F]]]. inversion F as [|x y l l' Rx Fl]; subst.
      cbn in E. injection E as <- ->. split; [exact Rx|]. exists post, l. split; [reflexivity|exact Fl].
    - intros [Rc [post [mid [-> F]]]]. exists post, (c :: mid). split; [reflexivity|].
      constructor; assumption.
  Qed.
  Lemma matches_cons_nil : forall a n, ~ matches (a :: n) [].
  Proof.
    intros a n [post [mid [E F]]]. inversion F; subst. discriminate.
  Qed.

  Lemma occurs_at_skipn : forall n l i, (i <= length l)%nat ->
    (occurs_at R n l i <-> matches n (skipn i l)).
  Proof.
    intros n l i Hi. split.
    - intros [pre [mid [post [-> [<- F]]]]]. exists post, mid. split; [|exact F].
      rewrite skipn_app_ge by lia. rewrite Nat.sub_diag. reflexivity.
    - intros [post [mid [E F]]]. exists (firstn i l), mid, post. split.
      + rewrite <- E. symmetry. apply firstn_skipn.
      + split; [apply firstn_length_le; exact Hi|exact F].
  Qed.
  Lemma occurs_at_le : forall n l i, occurs_at R n l i -> (i + length n <= length l)%nat.
  Proof.
    intros n l i [pre [mid [post [-> [<- F]]]]]. apply Forall2_len in F.
    rewrite !app_length. lia.
  Qed.

  Lemma strn_cmp_ok : forall n s junk,
    exists r, strn_cmp fold s (length s) (n ++ 0 :: junk) (length n) = Ok r /\
      (r = 0%nat <-> matches n s).
  Proof.
    induction n as [|a n IH]; intros [|c s] junk; cbn [length strn_cmp app].
    - exists 0%nat. split; [reflexivity|]. split; [intros _; apply matches_nil|reflexivity].
    - exists 0%nat. split; [reflexivity|]. split; [intros _; apply matches_nil|reflexivity].
    - eexists. split; [reflexivity|]. split; [discriminate|].
      intros H. destruct (matches_cons_nil _ _ H).
    - cbn [deref bind tl]. destruct (Z.eqb_spec (fold c) (fold a)) as [E|E]; cbn [negb].
      + destruct (IH s junk) as [r [-> Hr]]. exists r. split; [reflexivity|].
        rewrite matches_cons. rewrite Hr. split; [|tauto].
        intros H. split; [apply HR, E|exact H].
      + eexists. split; [reflexivity|]. split; [discriminate|].
        rewrite matches_cons. intros [H _]. destruct (E (proj2 (HR c a) H)).
  Qed.

  Lemma strn_loop_ok : forall a n junk s pre,
    match strn_loop fold s (length s) ((a :: n) ++ 0 :: junk) (length (a :: n)) (length pre) with
    | Ok (Some i) => (length pre <= i)%nat /\ occurs_at R (a :: n) (pre ++ s) i /\
                     forall j, (length pre <= j < i)%nat -> ~ occurs_at R (a :: n) (pre ++ s) j
    | Ok None => forall j, (length pre <= j)%nat -> ~ occurs_at R (a :: n) (pre ++ s) j
    | _ => False
    end.
  Proof.
    intros a n junk. induction s as [|c s IH]; intros pre.
    - cbn [length strn_loop]. intros j Hj Ho. apply occurs_at_le in Ho.
      rewrite app_length in Ho. cbn [length] in Ho. lia.
    - cbn [length strn_loop]. cbn [app deref bind tl].
      assert (Hhere : occurs_at R (a :: n) (pre ++ c :: s) (length pre) <-> matches (a :: n) (c :: s)).
      { rewrite occurs_at_skipn by (rewrite app_length; lia).
        rewrite skipn_app_ge by lia. rewrite Nat.sub_diag. reflexivity. }
      assert (Hstep : ~ matches (a :: n) (c :: s) ->
        match strn_loop fold s (length s) (a :: n ++ 0 :: junk) (S (length n)) (S (length pre)) with
        | Ok (Some i) => (length pre <= i)%nat /\ occurs_at R (a :: n) (pre ++ c :: s) i /\
                     forall j, (length pre <= j < i)%nat -> ~ occurs_at R (a :: n) (pre ++ c :: s) j
        | Ok None => forall j, (length pre <= j)%nat -> ~ occurs_at R (a :: n) (pre ++ c :: s) j
        | _ => False
        end).
      { intros Hno. specialize (IH (pre ++ [c])). rewrite <- app_assoc in IH.
        rewrite app_length in IH. cbn [app length] in IH. rewrite Nat.add_1_r in IH.
        destruct (strn_loop fold s (length s) (a :: n ++ 0 :: junk) (S (length n)) (S (length pre)))
          as [[i|]| |]; try exact IH.
        - destruct IH as [H1 [H2 H3]]. split; [lia|]. split; [exact H2|].
          intros j Hj. destruct (Nat.eq_dec j (length pre)) as [->|Hne].
          + rewrite Hhere. exact Hno.
          + apply H3. lia.
        - intros j Hj. destruct (Nat.eq_dec j (length pre)) as [->|Hne].
          + rewrite Hhere. exact Hno.
          + apply IH. lia. }
      destruct (Z.eqb_spec (fold c) (fold a)) as [E|E].
      + destruct (strn_cmp_ok (a :: n) (c :: s) junk) as [r [Er Hr]].
        cbn [length app] in Er. rewrite Er. cbn [bind].
        destruct (Nat.eqb_spec r 0) as [->|Hr0].
        * split; [lia|]. split; [apply Hhere, Hr; reflexivity|]. intros j Hj. lia.
        * apply Hstep. intros H. apply Hr0, Hr, H.
      + apply Hstep. rewrite matches_cons. intros [H _]. apply E, HR, H.
  Qed.

  Lemma str_gen_ok : forall c s n junk, n <> [] -> nonul n -> c <> 0 ->
    match str_gen fold (Some (c :: s)) (Some (n ++ 0 :: junk)) (length (c :: s)) with
    | Ok (Some i) => first_occurrence R n (c :: s) i
    | Ok None => no_occurrence R n (c :: s)
    | _ => False
    end.
  Proof.
    intros c s n junk Hne Hn Hc. unfold str_gen. cbn [deref bind].
    destruct (Z.eqb_spec c 0) as [E|_]; [contradiction|].
    destruct n as [|a n]; [congruence|].
    cbn [app deref bind]. destruct (Z.eqb_spec a 0) as [E|_].
    { inversion Hn; subst; contradiction. }
    change (a :: n ++ 0 :: junk) with ((a :: n) ++ 0 :: junk).
    rewrite strlen_ok by exact Hn. cbn [bind].
    destruct (Nat.ltb_spec (length (c :: s)) (length (a :: n))) as [Hl|Hl].
    - intros j Ho. apply occurs_at_le in Ho. lia.
    - pose proof (strn_loop_ok a n junk (c :: s) []) as H.
      cbn [app] in H. change (length (@nil Z)) with 0%nat in H.
      change (a :: n ++ 0 :: junk) with ((a :: n) ++ 0 :: junk) in H.
      destruct (strn_loop fold (c :: s) (length (c :: s)) ((a :: n) ++ 0 :: junk) (length (a :: n)) 0)
        as [[i|]| |]; try exact H.
      + destruct H as [_ [H1 H2]]. split; [exact H1|]. intros j Hj. apply H2. lia.
      + intros j. apply H. lia.
  Qed.

  Set Default Proof Using "Type".
End Chr.

Lemma tolower_idem : forall a, tolower (tolower a) = tolower a.
Proof.
  intros a. unfold tolower.
  destruct (Z.leb_spec 65 a), (Z.leb_spec a 90); cbn [andb];
    [destruct (Z.leb_spec 65 (a + 32)), (Z.leb_spec (a + 32) 90)
    |destruct (Z.leb_spec 65 a), (Z.leb_spec a 90)
    |destruct (Z.leb_spec 65 a), (Z.leb_spec a 90)
    |destruct (Z.leb_spec 65 a), (Z.leb_spec a 90)]; cbn [andb]; lia.
Qed.
Lemma same_idem : forall a, same (same a) = same a.
Proof. reflexivity. Qed.

(** ** NUL-terminated variants *)

Lemma ispn_loop_ok : forall n junk s sj k, nonul n -> nonul s ->
  exists m, ispn_loop (s ++ 0 :: sj) (n ++ 0 :: junk) k = Ok (k + m)%nat /\
    longest_prefix (inalpha eq_case n) s m.
Proof.
  intros n junk. induction s as [|c s IH]; intros sj k Hn Hs; cbn [app ispn_loop].
  - exists 0%nat. rewrite Nat.add_0_r. split; [reflexivity|apply (lp_nil tolower eq_case tolower_eq tolower_idem)].
  - inversion Hs as [|? ? Hc Hs']; subst.
    destruct (Z.eqb_spec c 0) as [E|_]; [contradiction|].
    destruct (find_in_ok tolower eq_case tolower_eq tolower_idem n c junk Hn)
      as [x [-> [[Hi [e [t [-> He]]]]|[Hi ->]]]]; cbn [bind deref].
    + destruct (Z.eqb_spec e 0) as [E|_]; [contradiction|].
      destruct (IH sj (S k) Hn Hs') as [m [-> Hm]]. exists (S m). split; [f_equal; lia|].
      apply (lp_S tolower eq_case tolower_eq tolower_idem); assumption.
    + exists 0%nat. rewrite Nat.add_0_r. split; [reflexivity|].
      apply (lp_0 tolower eq_case tolower_eq tolower_idem); exact Hi.
Qed.

Lemma ispc_loop_ok : forall n junk s sj k, nonul n -> nonul s ->
  exists m, ispc_loop (s ++ 0 :: sj) (n ++ 0 :: junk) k = Ok (k + m)%nat /\
    longest_prefix (fun c => ~ inalpha eq_case n c) s m.
Proof.
  intros n junk. induction s as [|c s IH]; intros sj k Hn Hs; cbn [app ispc_loop].
  - exists 0%nat. rewrite Nat.add_0_r. split; [reflexivity|apply (lp_nil tolower eq_case tolower_eq tolower_idem)].
  - inversion Hs as [|? ? Hc Hs']; subst.
    destruct (Z.eqb_spec c 0) as [E|_]; [contradiction|].
    destruct (find_in_ok tolower eq_case tolower_eq tolower_idem n c junk Hn)
      as [x [-> [[Hi [e [t [-> He]]]]|[Hi ->]]]]; cbn [bind deref].
    + destruct (Z.eqb_spec e 0) as [E|_]; [contradiction|]. cbn [negb].
      exists 0%nat. rewrite Nat.add_0_r. split; [reflexivity|].
      apply (lp_0 tolower eq_case tolower_eq tolower_idem); tauto.
    + cbn [Z.eqb negb].
      destruct (IH sj (S k) Hn Hs') as [m [-> Hm]]. exists (S m). split; [f_equal; lia|].
      apply (lp_S tolower eq_case tolower_eq tolower_idem); assumption.
Qed.

Lemma stri_cmp_ok : forall n s sj junk, nonul n -> nonul s ->
  exists r, stri_cmp (s ++ 0 :: sj) (n ++ 0 :: junk) = Ok r /\
    (r = 0 <-> matches eq_case n s).
Proof.
  induction n as [|a n IH]; intros [|c s] sj junk Hn Hs; cbn [app stri_cmp].
  - exists 0. split; [reflexivity|]. split; [intros _|reflexivity].
    apply (matches_nil tolower eq_case tolower_eq tolower_idem).
  - inversion Hs as [|? ? Hc Hs']; subst.
    destruct (Z.eqb_spec c 0) as [E|_]; [contradiction|]. cbn [Z.eqb].
    exists 0. split; [reflexivity|]. split; [intros _|reflexivity].
    apply (matches_nil tolower eq_case tolower_eq tolower_idem).
  - cbn [Z.eqb deref]. exists a. split; [reflexivity|].
    inversion Hn as [|? ? Ha Hn']; subst. split; [intros; contradiction|].
    intros H. destruct (matches_cons_nil tolower eq_case tolower_eq tolower_idem _ _ H).
  - inversion Hs as [|? ? Hc Hs']; subst. inversion Hn as [|? ? Ha Hn']; subst.
    destruct (Z.eqb_spec c 0) as [E|_]; [contradiction|].
    destruct (Z.eqb_spec a 0) as [E|_]; [contradiction|].
    pose proof (matches_cons tolower eq_case tolower_eq tolower_idem a n c s) as Hm.
    destruct (Z.eqb_spec (tolower c) (tolower a)) as [E|E]; cbn [negb].
    + destruct (IH s sj junk Hn' Hs') as [r [-> Hr]]. exists r. split; [reflexivity|].
      rewrite Hm, Hr. split; [|tauto]. intros H. split; [apply tolower_eq, E|exact H].
    + exists a. split; [reflexivity|]. split; [intros; contradiction|].
      rewrite Hm. intros [H _]. apply tolower_eq in H. contradiction.
Qed.

Lemma stri_loop_ok : forall a n junk sj s pre, nonul (a :: n) -> nonul s ->
  match stri_loop (s ++ 0 :: sj) ((a :: n) ++ 0 :: junk) (length pre) with
  | Ok (Some i) => (length pre <= i)%nat /\ occurs_at eq_case (a :: n) (pre ++ s) i /\
                   forall j, (length pre <= j < i)%nat -> ~ occurs_at eq_case (a :: n) (pre ++ s) j
  | Ok None => forall j, (length pre <= j)%nat -> ~ occurs_at eq_case (a :: n) (pre ++ s) j
  | _ => False
  end.
Proof.
  intros a n junk sj. induction s as [|c s IH]; intros pre Hn Hs.
  - cbn [app stri_loop Z.eqb]. intros j Hj Ho.
    apply (occurs_at_le tolower eq_case tolower_eq tolower_idem) in Ho.
    rewrite app_length in Ho. cbn [length] in Ho. lia.
  - inversion Hs as [|? ? Hc Hs']; subst.
    cbn [app stri_loop]. destruct (Z.eqb_spec c 0) as [E|_]; [contradiction|].
    cbn [deref bind].
    assert (Hhere : occurs_at eq_case (a :: n) (pre ++ c :: s) (length pre)
                    <-> matches eq_case (a :: n) (c :: s)).
    { rewrite (occurs_at_skipn tolower eq_case tolower_eq tolower_idem)
        by (rewrite app_length; lia).
      rewrite skipn_app_ge by lia. rewrite Nat.sub_diag. reflexivity. }
    assert (Hstep : ~ matches eq_case (a :: n) (c :: s) ->
      match stri_loop (s ++ 0 :: sj) (a :: n ++ 0 :: junk) (S (length pre)) with
      | Ok (Some i) => (length pre <= i)%nat /\ occurs_at eq_case (a :: n) (pre ++ c :: s) i /\
                   forall j, (length pre <= j < i)%nat -> ~ occurs_at eq_case (a :: n) (pre ++ c :: s) j
      | Ok None => forall j, (length pre <= j)%nat -> ~ occurs_at eq_case (a :: n) (pre ++ c :: s) j
      | _ => False
      end).
    { intros Hno. specialize (IH (pre ++ [c]) Hn Hs'). rewrite <- app_assoc in IH.
      rewrite app_length in IH. cbn [app length] in IH. rewrite Nat.add_1_r in IH.
      destruct (stri_loop (s ++ 0 :: sj) (a :: n ++ 0 :: junk) (S (length pre)))
        as [[i|]| |]; try exact IH.
      - destruct IH as [H1 [H2 H3]]. split; [lia|]. split; [exact H2|].
        intros j Hj. destruct (Nat.eq_dec j (length pre)) as [->|Hne].
        + rewrite Hhere. exact Hno.
        + apply H3. lia.
      - intros j Hj. destruct (Nat.eq_dec j (length pre)) as [->|Hne].
        + rewrite Hhere. exact Hno.
        + apply IH. lia. }
    destruct (Z.eqb_spec (tolower c) (tolower a)) as [E|E].
    + destruct (stri_cmp_ok (a :: n) (c :: s) sj junk Hn Hs) as [r [Er Hr]].
      cbn [app] in Er. rewrite Er. cbn [bind].
      destruct (Z.eqb_spec r 0) as [->|Hr0].
      * split; [lia|]. split; [apply Hhere, Hr; reflexivity|]. intros j Hj. lia.
      * apply Hstep. intros H. apply Hr0, Hr, H.
    + apply Hstep. rewrite (matches_cons tolower eq_case tolower_eq tolower_idem).
      intros [H _]. apply E, tolower_eq, H.
Qed.

Lemma stristr_ok : forall s sj n junk, n <> [] -> nonul n -> nonul s ->
  match stristr (Some (s ++ 0 :: sj)) (Some (n ++ 0 :: junk)) with
  | Ok (Some i) => first_occurrence eq_case n s i
  | Ok None => no_occurrence eq_case n s
  | _ => False
  end.
Proof.
  intros s sj n junk Hne Hn Hs. destruct n as [|a n]; [congruence|].
  unfold stristr. destruct s as [|c s].
  - cbn [app deref bind Z.eqb]. intros j Ho.
    apply (occurs_at_le tolower eq_case tolower_eq tolower_idem) in Ho. cbn [length] in Ho. lia.
  - cbn [app deref bind]. inversion Hs; inversion Hn; subst.
    destruct (Z.eqb_spec c 0) as [E|_]; [contradiction|].
    destruct (Z.eqb_spec a 0) as [E|_]; [contradiction|].
    pose proof (stri_loop_ok a n junk sj (c :: s) [] Hn Hs) as H.
    cbn [app] in H. change (length (@nil Z)) with 0%nat in H.
    destruct (stri_loop (c :: s ++ 0 :: sj) (a :: n ++ 0 :: junk) 0) as [[i|]| |]; try exact H.
    + destruct H as [_ [H1' H2']]. split; [exact H1'|]. intros j Hj. apply H2'. lia.
    + intros j. apply H. lia.
Qed.

(** ** Decimal conversion *)

Lemma atou_digits : forall s acc, Forall digit s ->
  atou_loop s (length s) (acc mod 2 ^ 64)
  = Ok ((acc * 10 ^ Z.of_nat (length s) + decimal s) mod 2 ^ 64).
Proof.
  induction s as [|c s IH]; intros acc Hs; cbn [length atou_loop].
  - cbn [decimal]. change (10 ^ Z.of_nat 0) with 1. f_equal. f_equal. lia.
  - inversion Hs as [|? ? Hc Hs']; subst. unfold digit in Hc. cbn [deref bind tl].
    destruct (Z.ltb_spec c 48); [lia|]. destruct (Z.ltb_spec 57 c); [lia|]. cbn [orb].
    replace (((acc mod 2 ^ 64 * 10) mod 2 ^ 64 + (c - 48)) mod 2 ^ 64)
      with ((acc * 10 + (c - 48)) mod 2 ^ 64).
    + rewrite IH by exact Hs'. f_equal. f_equal. cbn [decimal].
      rewrite Nat2Z.inj_succ, Z.pow_succ_r by lia. ring.
    + rewrite Z.mul_mod_idemp_l by lia. rewrite Z.add_mod_idemp_l by lia. reflexivity.
Qed.

Lemma atou_bad : forall s acc, ~ Forall digit s -> atou_loop s (length s) acc = Ok 0.
Proof.
  induction s as [|c s IH]; intros acc Hs; cbn [length atou_loop].
  - destruct Hs. constructor.
  - cbn [deref bind tl]. destruct (Z.ltb_spec c 48); cbn [orb]; [reflexivity|].
    destruct (Z.ltb_spec 57 c); [reflexivity|].
    apply IH. intros H1. apply Hs. constructor; [unfold digit; lia|exact H1].
Qed.

Lemma decimal_nonneg : forall s, Forall digit s -> 0 <= decimal s.
Proof.
  induction 1 as [|c s Hc Hs IH]; cbn [decimal]; [lia|].
  unfold digit in Hc. pose proof (Z.pow_nonneg 10 (Z.of_nat (length s))). nia.
Qed.
