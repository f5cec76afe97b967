(** Lemmas about the URL parser. *)

From Coq Require Import ZArith List Bool Lia Arith.
From Verif Require Import Base Str_Model Str_Spec Str_Proof UrlP_Model UrlP_Spec.
Import ListNotations.
Local Open Scope Z_scope.

Ltac aa := repeat (cbn [app]; rewrite <- app_assoc); cbn [app]; reflexivity.

(** ** Memory *)

Lemma firstn_len_app : forall A (a b : list A), firstn (length a) (a ++ b) = a.
Proof. intros. rewrite firstn_app, Nat.sub_diag, firstn_all. cbn. apply app_nil_r. Qed.
Lemma skipn_len_app : forall A (a b : list A), skipn (length a) (a ++ b) = b.
Proof. intros. rewrite skipn_app, Nat.sub_diag, skipn_all. reflexivity. Qed.

Lemma skipn_at : forall (A B : list Z) p, p = length A -> skipn p (A ++ B) = B.
Proof. intros A B p ->. apply skipn_len_app. Qed.

Lemma slice_ok : forall A B C p n, p = length A -> n = length B -> slice (A ++ B ++ C) p n = Ok B.
Proof.
  intros A B C p n -> ->. unfold slice. rewrite !app_length.
  destruct (Nat.leb_spec (length A + length B) (length A + (length B + length C))); [|lia].
  rewrite skipn_len_app, firstn_len_app. reflexivity.
Qed.
Lemma blit_ok : forall A B C src p, p = length A -> length B = length src ->
  blit (A ++ B ++ C) p src = Ok (A ++ src ++ C).
Proof.
  intros A B C src p -> H. unfold blit. rewrite !app_length.
  destruct (Nat.leb_spec (length A + length src) (length A + (length B + length C))); [|lia].
  rewrite firstn_len_app. rewrite <- H. rewrite (app_assoc A B C), <- app_length, skipn_len_app. reflexivity.
Qed.

(** moving [B] down over [X] *)
Lemma memmove_down : forall A X B C dst src n,
  dst = length A -> src = (length A + length X)%nat -> n = length B ->
  exists J, length J = length X /\ memmove (A ++ X ++ B ++ C) dst src n = Ok (A ++ B ++ J ++ C).
Proof.
  intros A X B C dst src n -> -> ->. unfold memmove.
  replace (A ++ X ++ B ++ C) with ((A ++ X) ++ B ++ C) by aa.
  rewrite slice_ok by (rewrite ?app_length; reflexivity). cbn [bind].
  exists (skipn (length B) (X ++ B)). split; [rewrite skipn_length, app_length; lia|].
  assert (E : X ++ B ++ C = firstn (length B) (X ++ B) ++ skipn (length B) (X ++ B) ++ C).
  { rewrite (app_assoc (firstn _ _)), firstn_skipn, app_assoc. reflexivity. }
  rewrite <- app_assoc, E. rewrite blit_ok; [reflexivity|reflexivity|].
  rewrite firstn_length, app_length. lia.
Qed.
(** moving [B] up by one *)
Lemma memmove_up : forall A B y C dst src n,
  dst = (length A + 1)%nat -> src = length A -> n = length B ->
  exists x, memmove (A ++ B ++ y :: C) dst src n = Ok (A ++ x :: B ++ C).
Proof.
  intros A B y C dst src n -> -> ->. unfold memmove. rewrite slice_ok by reflexivity. cbn [bind].
  destruct (B ++ [y]) as [|x r] eqn:E; [destruct B; discriminate|].
  exists x. replace (B ++ y :: C) with (x :: r ++ C).
  2:{ change (x :: r ++ C) with ((x :: r) ++ C). rewrite <- E, <- app_assoc. reflexivity. }
  replace (A ++ x :: r ++ C) with ((A ++ [x]) ++ r ++ C) by aa.
  assert (L : length r = length B).
  { apply (f_equal (@length Z)) in E. rewrite app_length in E. cbn in E. lia. }
  rewrite blit_ok; [|rewrite app_length; reflexivity|exact L]. rewrite <- app_assoc. reflexivity.
Qed.
Lemma dist_ok : forall a b, (b <= a)%nat -> dist a b = Ok (a - b)%nat.
Proof. intros a b H. unfold dist. destruct (Nat.ltb_spec a b); [lia|reflexivity]. Qed.

(** ** Searching *)

Lemma chr_found : forall A c B pos n, ~ In c A -> (length A < n)%nat ->
  chr_loop same c (A ++ c :: B) pos n = Ok (Some (pos + length A)%nat).
Proof.
  induction A as [|x A IH]; intros c B pos n H Hn; destruct n as [|n]; cbn [length] in *; try lia.
  - cbn. unfold same. rewrite Z.eqb_refl, Nat.add_0_r. reflexivity.
  - cbn. unfold same at 1. destruct (Z.eqb_spec c x) as [->|_]; [destruct H; left; reflexivity|].
    rewrite IH; [f_equal; f_equal; lia|intros F; apply H; right; exact F|lia].
Qed.
Lemma chr_none : forall A c B pos, ~ In c A -> chr_loop same c (A ++ B) pos (length A) = Ok None.
Proof.
  induction A as [|x A IH]; intros c B pos H; [destruct B; reflexivity|]. cbn.
  unfold same at 1. destruct (Z.eqb_spec c x) as [->|_]; [destruct H; left; reflexivity|].
  apply IH. intros F. apply H. right. exact F.
Qed.
Lemma strnchr_found : forall A c B n, ~ In c A -> (length A < n)%nat ->
  strnchr (A ++ c :: B) c n = Ok (Some (length A)).
Proof. intros. unfold strnchr. rewrite chr_found by assumption. reflexivity. Qed.
Lemma strnchr_none : forall A c B n, ~ In c A -> n = length A -> strnchr (A ++ B) c n = Ok None.
Proof. intros A c B n H ->. apply chr_none. exact H. Qed.
(** the first [c] of [A ++ X], where [X] is empty or begins with [c] *)
Lemma strnchr_cut : forall A c X B n, ~ In c A -> starts_or_empty c X -> n = (length A + length X)%nat ->
  exists r, strnchr (A ++ X ++ B) c n = Ok r /\
    (match r with Some i => i | None => n end) = length A.
Proof.
  intros A c X B n H [->|[X' ->]] ->.
  - exists None. split; [apply strnchr_none; [exact H|cbn; lia]|cbn; lia].
  - exists (Some (length A)). split; [|reflexivity]. apply strnchr_found; [exact H|cbn; lia].
Qed.
Lemma chp_cut : forall A c X B pre todo, ~ In c A -> starts_or_empty c X -> todo = (length A + length X)%nat ->
  chp_loop same c (pre ++ A ++ X ++ B) (length pre) todo (length pre + todo)%nat
  = Ok (length pre + length A)%nat.
Proof.
  induction A as [|x A IH]; intros c X B pre todo H HX ->.
  - destruct HX as [->|[X' ->]]; [cbn; f_equal; lia|]. cbn [length Nat.add chp_loop app].
    rewrite rd_app by reflexivity. cbn [bind]. unfold same. rewrite Z.eqb_refl. f_equal. lia.
  - cbn [length Nat.add chp_loop app]. rewrite rd_app by reflexivity. cbn [bind]. unfold same at 1.
    destruct (Z.eqb_spec c x) as [->|_]; [destruct H; left; reflexivity|].
    specialize (IH c X B (pre ++ [x]) (length A + length X)%nat).
    rewrite app_length, <- app_assoc in IH. cbn [length app] in IH.
    replace (length pre + S (length A + length X))%nat with (length pre + 1 + (length A + length X))%nat by lia.
    replace (S (length pre)) with (length pre + 1)%nat by lia.
    rewrite IH; [f_equal; lia|intros F; apply H; right; exact F|exact HX|reflexivity].
Qed.
Lemma strnchp_cut : forall A c X B n, ~ In c A -> starts_or_empty c X -> n = (length A + length X)%nat ->
  strnchp (A ++ X ++ B) c n = Ok (length A).
Proof.
  intros A c X B n H HX ->. unfold strnchp.
  exact (chp_cut A c X B [] _ H HX eq_refl).
Qed.

Lemma rev_found : forall B A c C, ~ In c B ->
  revchr_loop same c (A ++ c :: B ++ C) (length A + 1 + length B) = Ok (Some (length A)).
Proof.
  intros B. induction B as [|x B IH] using rev_ind; intros A c C H.
  - replace (length A + 1 + length (@nil Z))%nat with (S (length A)) by (cbn; lia).
    cbn [revchr_loop]. rewrite rd_app by reflexivity. cbn [bind]. unfold same. rewrite Z.eqb_refl. reflexivity.
  - rewrite app_length. cbn [length].
    replace (length A + 1 + (length B + 1))%nat with (S (length A + 1 + length B)) by lia.
    cbn [revchr_loop].
    replace (A ++ c :: (B ++ [x]) ++ C) with ((A ++ c :: B) ++ x :: C)
      by aa.
    rewrite rd_app by (rewrite app_length; cbn; lia). cbn [bind]. unfold same at 1.
    destruct (Z.eqb_spec c x) as [->|_]; [destruct H; apply in_or_app; right; left; reflexivity|].
    specialize (IH A c (x :: C)).
    replace (A ++ c :: B ++ x :: C) with ((A ++ c :: B) ++ x :: C) in IH
      by aa.
    apply IH. intros F. apply H. apply in_or_app. left. exact F.
Qed.
Lemma rev_none : forall B c C, ~ In c B -> revchr_loop same c (B ++ C) (length B) = Ok None.
Proof.
  intros B. induction B as [|x B IH] using rev_ind; intros c C H; [reflexivity|].
  rewrite app_length. cbn [length]. rewrite Nat.add_1_r. cbn [revchr_loop].
  rewrite <- app_assoc. cbn [app]. rewrite rd_app by reflexivity. cbn [bind]. unfold same at 1.
  destruct (Z.eqb_spec c x) as [->|_]; [destruct H; apply in_or_app; right; left; reflexivity|].
  apply IH. intros F. apply H. apply in_or_app. left. exact F.
Qed.

Lemma back_slash_found : forall w pre D C beg k, ~ In 47 w -> beg = length pre ->
  k = (length D + 1 + length w)%nat ->
  back_slash (pre ++ D ++ 47 :: w ++ C) beg k = Ok (Some (beg + length D)%nat).
Proof.
  intros w. induction w as [|x w IH] using rev_ind; intros pre D C beg k H -> ->.
  - replace (length D + 1 + length (@nil Z))%nat with (S (length D)) by (cbn; lia). cbn [back_slash].
    rewrite app_assoc, rd_app by (rewrite app_length; reflexivity). reflexivity.
  - rewrite app_length. cbn [length].
    replace (length D + 1 + (length w + 1))%nat with (S (length D + 1 + length w)) by lia.
    cbn [back_slash].
    replace (pre ++ D ++ 47 :: (w ++ [x]) ++ C) with ((pre ++ D ++ 47 :: w) ++ x :: C)
      by aa.
    rewrite rd_app by (rewrite !app_length; cbn; lia). cbn [bind].
    destruct (Z.eqb_spec x 47) as [->|_]; [destruct H; apply in_or_app; right; left; reflexivity|].
    specialize (IH pre D (x :: C)).
    replace (pre ++ D ++ 47 :: w ++ x :: C) with ((pre ++ D ++ 47 :: w) ++ x :: C) in IH
      by aa.
    apply IH; [|reflexivity|reflexivity]. intros F. apply H. apply in_or_app. left. exact F.
Qed.

(** ** Comparing with a fixed text *)

Section Prefix.
  Variable fold : Z -> Z.
  Lemma strn_cmp_eq : forall n junk w ls, (ls <= length w)%nat ->
    exists r, strn_cmp fold w ls (n ++ junk) (length n) = Ok r /\
      (r = 0%nat <-> (length n <= ls)%nat /\ map fold (firstn (length n) w) = map fold n).
  Proof.
    induction n as [|x n IH]; intros junk w ls H.
    - exists 0%nat. cbn [length app]. split; [destruct ls; reflexivity|]. split; [|reflexivity].
      intros _. split; [lia|]. reflexivity.
    - destruct ls as [|ls].
      + exists (length (x :: n)). split; [reflexivity|]. cbn [length]. split; intros F; [lia|].
        destruct F; lia.
      + destruct w as [|y w]; [cbn in H; lia|]. cbn [length app strn_cmp deref bind tl].
        destruct (Z.eqb_spec (fold y) (fold x)) as [E|E]; cbn [negb].
        * destruct (IH junk w ls ltac:(cbn in H; lia)) as [r [Er Hr]]. exists r. split; [exact Er|].
          rewrite Hr. cbn [firstn map]. split.
          -- intros [L M]. split; [lia|]. rewrite E, M. reflexivity.
          -- intros [L M]. injection M as _ M. split; [lia|exact M].
        * exists (S (length n)). split; [reflexivity|]. split; [lia|]. intros [_ M]. cbn in M. congruence.
  Qed.

  Lemma strn_loop_short : forall ls s n junk nsz pos, (ls <= length s)%nat -> nsz = length n ->
    n <> [] -> (ls < nsz)%nat -> strn_loop fold s ls (n ++ junk) nsz pos = Ok None.
  Proof.
    induction ls as [|ls IH]; intros s n junk nsz pos H -> Hne Hlt; [reflexivity|].
    destruct s as [|c s]; [cbn in H; lia|]. destruct n as [|x n]; [congruence|].
    cbn [strn_loop deref bind app tl]. destruct (fold c =? fold x).
    - destruct (strn_cmp_eq (x :: n) junk (c :: s) (S ls) H) as [r [Er Hr]].
      change ((x :: n) ++ junk) with (x :: n ++ junk) in Er. rewrite Er. cbn [bind].
      destruct (Nat.eqb_spec r 0) as [->|_]; [destruct Hr as [Hr _]; destruct (Hr eq_refl); lia|].
      change (x :: n ++ junk) with ((x :: n) ++ junk). apply IH; cbn in *; try lia; congruence.
    - change (x :: n ++ junk) with ((x :: n) ++ junk). apply IH; cbn in *; try lia; congruence.
  Qed.

  Lemma strlen_lit : forall n, nonul n -> strlen (n ++ [0]) = Ok (length n).
  Proof.
    induction n as [|x n IH]; intros H; [reflexivity|]. inversion H; subst. cbn.
    destruct (Z.eqb_spec x 0); [contradiction|]. rewrite IH by assumption. reflexivity.
  Qed.

  Lemma str_gen_prefix : forall s n len, n <> [] -> nonul n -> len = length n -> (len <= length s)%nat ->
    exists r, str_gen fold (Some s) (Some (n ++ [0])) len = Ok r /\
      ((hd 0 s <> 0 /\ map fold (firstn len s) = map fold n /\ r = Some 0%nat) \/
       ((hd 0 s = 0 \/ map fold (firstn len s) <> map fold n) /\ r = None)).
  Proof.
    intros s n len Hne Hn -> H. unfold str_gen.
    destruct s as [|c s]; [destruct n; cbn in *; [congruence|lia]|]. cbn [deref bind hd].
    destruct (Z.eqb_spec c 0) as [->|Hc]; [exists None; split; [reflexivity|right; auto]|].
    destruct n as [|x n]; [congruence|]. cbn [app deref bind].
    inversion Hn; subst. destruct (Z.eqb_spec x 0); [contradiction|].
    change (x :: n ++ [0]) with ((x :: n) ++ [0]). rewrite strlen_lit by exact Hn. cbn [bind].
    rewrite Nat.ltb_irrefl.
    cbn [length strn_loop deref bind app tl].
    destruct (strn_cmp_eq (x :: n) [0] (c :: s) (S (length n)) H) as [r [Er Hr]].
    cbn [app length] in Er.
    assert (Sh : strn_loop fold s (length n) (x :: n ++ [0]) (S (length n)) 1 = Ok None).
    { change (x :: n ++ [0]) with ((x :: n) ++ [0]). apply strn_loop_short; cbn in *; try lia. congruence. }
    destruct (Z.eqb_spec (fold c) (fold x)) as [E|E].
    - rewrite Er. cbn [bind]. destruct (Nat.eqb_spec r 0) as [->|Nr].
      + exists (Some 0%nat). split; [reflexivity|]. left. split; [exact Hc|]. split; [|reflexivity].
        apply Hr. reflexivity.
      + rewrite Sh. exists None. split; [reflexivity|]. right. split; [|reflexivity]. right. intros M. apply Nr.
        apply Hr. split; [cbn; lia|exact M].
    - rewrite Sh. exists None. split; [reflexivity|]. right. split; [|reflexivity]. right.
      cbn. congruence.
  Qed.
End Prefix.

Definition eqlz (a b : list Z) : bool := if list_eq_dec Z.eq_dec a b then true else false.
Lemma eqlz_spec : forall a b, eqlz a b = true <-> a = b.
Proof. intros. unfold eqlz. destruct (list_eq_dec Z.eq_dec a b); split; congruence. Qed.

(** coda_strnstr at a '/' *)
Lemma strnstr_at_ok : forall A T n p len, p = length A -> n <> [] -> nonul n -> len = length n ->
  (len <= length T)%nat -> hd 0 T <> 0 ->
  strnstr_at (A ++ T) p n len = Ok (if eqlz (firstn len T) n then Some 0%nat else None).
Proof.
  intros A T n p len -> Hne Hn -> HT Hd. unfold strnstr_at. rewrite skipn_len_app.
  destruct (str_gen_prefix same T n (length n) Hne Hn eq_refl HT) as [r [E H]].
  unfold strnstr. rewrite E. f_equal.
  assert (Ms : forall l, map same l = l) by (exact (@map_id Z)).
  rewrite !Ms in H. destruct H as [[_ [M ->]]|[[H|H] ->]].
  - rewrite (proj2 (eqlz_spec _ _) M). reflexivity.
  - contradiction.
  - destruct (eqlz (firstn (length n) T) n) eqn:Eq; [|reflexivity]. apply eqlz_spec in Eq. contradiction.
Qed.

Lemma enough_le : forall u a b, enough u b -> (a <= b)%nat -> enough u a.
Proof. intros u a b [H|H] L; [left; lia|right; exact H]. Qed.

Lemma starts_ok : forall u n len, n <> [] -> nonul n -> len = length n -> enough u len ->
  exists t, starts u n len = Ok t /\ (t = true <-> Forall2 eq_case (firstn len u) n).
Proof.
  intros u n len Hne Hn Hl [Hu|Hz]; unfold starts.
  2:{ destruct u as [|c u]; [discriminate|]. injection Hz as ->. exists false. split; [reflexivity|].
      split; [discriminate|]. destruct n as [|y n]; [congruence|]. subst len. cbn [length firstn].
      intros F. inversion F as [|? ? ? ? A]; subst. inversion Hn; subst. unfold eq_case in A. intuition lia. }
  destruct (str_gen_prefix tolower u n len Hne Hn Hl Hu) as [r [E H]].
  unfold strxstr. rewrite E. cbn [bind]. eexists. split; [reflexivity|].
  assert (F : map tolower (firstn len u) = map tolower n <-> Forall2 eq_case (firstn len u) n).
  { clear. generalize (firstn len u) as a. intros a. revert n.
    induction a as [|x a IH]; intros [|y n]; cbn [map]; split; intros H; try discriminate;
      try (inversion H; fail); try constructor; try reflexivity.
    - apply tolower_eq. injection H as H _. exact H.
    - apply IH. injection H as _ H. exact H.
    - inversion H; subst. f_equal; [apply tolower_eq; assumption|apply IH; assumption]. }
  destruct H as [[_ [M ->]]|[[H|H] ->]].
  - split; [intros _; apply F; exact M|reflexivity].
  - split; [discriminate|]. intros F2. destruct u as [|c u]; [destruct n; cbn in *; [congruence|lia]|].
    cbn in H. subst c. subst len. destruct n as [|x n]; [congruence|]. cbn in F2. inversion F2; subst.
    match goal with H : eq_case 0 _ |- _ => unfold eq_case in H end. inversion Hn; subst. intuition lia.
  - split; [discriminate|]. intros F2. apply F in F2. contradiction.
Qed.

(** ** The loop over the path *)

Lemma render_app : forall a b, render (a ++ b) = render a ++ render b.
Proof. intros. unfold render. rewrite map_app, concat_app. reflexivity. Qed.
Lemma render_cons : forall s l, render (s :: l) = 47 :: s ++ render l.
Proof. reflexivity. Qed.

Lemma last_snoc_case : forall A (l : list A), l = [] \/ exists l' x, l = l' ++ [x].
Proof.
  intros A l. destruct l as [|y l]; [left; reflexivity|right].
  destruct (@exists_last _ (y :: l) ltac:(discriminate)) as [l' [x E]]. eauto.
Qed.

(** scanning the characters of one segment *)
Lemma scan_seg : forall s fuel A C eofp beg p prev, slash_free s -> p = length A ->
  (p + length s <= eofp)%nat -> (length s <= fuel)%nat ->
  refers_loop fuel (A ++ s ++ C) eofp beg p prev =
  refers_loop (fuel - length s) (A ++ s ++ C) eofp beg (p + length s) prev.
Proof.
  induction s as [|c s IH]; intros fuel A C eofp beg p prev Hs -> He Hf.
  - cbn [length]. rewrite Nat.sub_0_r, Nat.add_0_r. reflexivity.
  - cbn [length] in *. destruct fuel as [|fuel]; [lia|]. cbn [refers_loop].
    destruct (Nat.ltb_spec (length A) eofp); [|lia]. cbn [negb app].
    rewrite rd_app by reflexivity. cbn [bind].
    destruct (Z.eqb_spec c 47) as [->|_]; [destruct Hs; left; reflexivity|]. cbn [negb].
    specialize (IH fuel (A ++ [c]) C eofp beg (length A + 1)%nat prev).
    rewrite <- app_assoc in IH. cbn [app] in IH.
    replace (S (length A)) with (length A + 1)%nat by lia. rewrite IH.
    + replace (length A + 1 + length s)%nat with (length A + S (length s))%nat by lia. reflexivity.
    + intros F. apply Hs. right. exact F.
    + rewrite app_length. reflexivity.
    + lia.
    + lia.
Qed.

Definition prevpos (beg : nat) (st : list (list Z)) : nat := (beg + length (render (removelast st)))%nat.

Lemma firstn_slash_free : forall s T k, slash_free s -> (length s < k)%nat ->
  nth_error (firstn k (s ++ 47 :: T)) (length s) = Some 47.
Proof.
  intros s T k _ H. rewrite firstn_app. rewrite firstn_all2 by lia. rewrite nth_error_app2 by lia.
  rewrite Nat.sub_diag. destruct (k - length s)%nat eqn:E; [lia|]. reflexivity.
Qed.

(** the tests of the loop at a '/' that begins the segment [s] *)
Lemma test_mid : forall s T n, slash_free s -> slash_free n ->
  (eqlz (firstn (length n + 2) (47 :: s ++ 47 :: T)) (47 :: n ++ [47]) = eqlz s n).
Proof.
  intros s T n Hs Hn. destruct (eqlz s n) eqn:E.
  - apply eqlz_spec in E. subst. apply eqlz_spec.
    replace (length n + 2)%nat with (length (47 :: n ++ [47])) by (cbn; rewrite app_length; cbn; lia).
    replace (47 :: n ++ 47 :: T) with ((47 :: n ++ [47]) ++ T) by aa.
    apply firstn_len_app.
  - destruct (eqlz (firstn (length n + 2) (47 :: s ++ 47 :: T)) (47 :: n ++ [47])) eqn:F; [|reflexivity].
    apply eqlz_spec in F. replace (length n + 2)%nat with (S (length n + 1)) in F by lia.
    cbn [firstn] in F. injection F as F. exfalso.
    assert (G : s = n).
    { clear E. revert s Hs F. induction n as [|x n IH]; intros s Hs F.
      - destruct s as [|y s]; [reflexivity|]. cbn in F. injection F as ->.
        destruct Hs. left. reflexivity.
      - destruct s as [|y s].
        + cbn in F. destruct Hn. left. congruence.
        + cbn in F. injection F as -> F. f_equal. apply IH; [|intros X; apply Hs; right; exact X|exact F].
          intros X. apply Hn. right. exact X. }
    subst. assert (eqlz n n = true) by (apply eqlz_spec; reflexivity). congruence.
Qed.
Lemma test_last : forall s C n k, slash_free s -> (k <= S (length s))%nat ->
  k = (length n + 2)%nat -> eqlz (firstn k (47 :: s ++ C)) (47 :: n ++ [47]) = false.
Proof.
  intros s C n k Hs Hk ->. destruct (eqlz _ _) eqn:F; [|reflexivity]. exfalso.
  apply eqlz_spec in F. replace (length n + 2)%nat with (S (length n + 1)) in * by lia.
  cbn [firstn] in F. injection F as F. rewrite firstn_app_le in F by lia.
  apply Hs. assert (In 47 (firstn (length n + 1) s)) by (rewrite F; apply in_or_app; right; left; reflexivity).
  rewrite <- (firstn_skipn (length n + 1) s). apply in_or_app. left. exact H.
Qed.

Lemma refers_loop_ok : forall segs fuel pre st C beg p prev eofp,
  segs <> [] -> Forall slash_free segs -> Forall slash_free st ->
  beg = length pre -> p = (beg + length (render st))%nat -> prev = prevpos beg st ->
  eofp = (p + length (render segs))%nat -> (length (render segs) <= fuel)%nat ->
  exists J, let st' := walk_segs st (removelast segs) in
    refers_loop fuel (pre ++ render st ++ render segs ++ C) eofp beg p prev =
      Ok (pre ++ render st' ++ (47 :: last segs []) ++ J ++ C,
          (beg + length (render st') + 1 + length (last segs []))%nat,
          (beg + length (render st'))%nat) /\
    (length (render st) + length (render segs) =
     length (render st') + 1 + length (last segs []) + length J)%nat /\
    Forall slash_free st'.
Proof.
  assert (N4 : nonul (zs "/../") /\ nonul (zs "/./") /\ nonul (zs "//")).
  { repeat split; repeat constructor; discriminate. }
  destruct N4 as [N4 [N3 N2]].
  assert (D2 : slash_free [46; 46]) by (intros [F|[F|[]]]; discriminate).
  assert (D1 : slash_free [46]) by (intros [F|[]]; discriminate).
  assert (D0 : slash_free []) by (intros []).
  induction segs as [|s segs IH]; intros fuel pre st C beg p prev eofp Hne Hsf Hst Hb Hp Hpv He Hf; [congruence|].
  assert (Hs : slash_free s) by (inversion Hsf; assumption).
  assert (Hsf' : Forall slash_free segs) by (inversion Hsf; assumption).
  rewrite !render_cons in *. cbn [length] in *. rewrite app_length in *.
  destruct fuel as [|fuel]; [lia|]. cbn [refers_loop].
  destruct (Nat.ltb_spec p eofp); [|lia]. cbn [negb].
  set (A := pre ++ render st).
  assert (LA : length A = p) by (unfold A; rewrite app_length; lia).
  destruct segs as [|s2 segs].
  - (* the last segment *)
    cbn [render map concat length] in *. rewrite app_nil_r. 
    replace (pre ++ render st ++ (47 :: s) ++ C) with (A ++ 47 :: s ++ C)
      by (unfold A; aa).
    rewrite rd_app by (symmetry; exact LA). cbn [bind Z.eqb negb Pos.eqb].
    assert (T : forall k n, n <> [] -> nonul n -> k = length n -> n = 47 :: removelast (tl n) ++ [47] ->
      (if (p + k <=? eofp)%nat then strnstr_at (A ++ 47 :: s ++ C) p n k else Ok None) = Ok None).
    { intros k n Hn1 Hn2 Hk Hn3. destruct (Nat.leb_spec (p + k) eofp) as [L|L]; [|reflexivity].
      rewrite strnstr_at_ok; [|symmetry; exact LA|exact Hn1|exact Hn2|exact Hk| |discriminate].
      2:{ cbn [length]. rewrite app_length. lia. }
      rewrite Hn3. rewrite test_last; [reflexivity|exact Hs|lia|].
      rewrite Hk, Hn3 at 1. cbn. rewrite app_length. cbn. lia. }
    rewrite (T 4%nat (zs "/../")) by (try discriminate; try exact N4; reflexivity). cbn [bind].
    rewrite (T 3%nat (zs "/./")) by (try discriminate; try exact N3; reflexivity). cbn [bind].
    rewrite (T 2%nat (zs "//")) by (try discriminate; try exact N2; reflexivity). cbn [bind].
    replace (A ++ 47 :: s ++ C) with ((A ++ [47]) ++ s ++ C) by aa.
    rewrite scan_seg; [|exact Hs|rewrite app_length; cbn; lia|lia|lia].
    exists []. cbn [removelast last walk_segs fold_left].
    split; [|split; [cbn [length]; lia|exact Hst]].
    replace (fuel - length s)%nat with (fuel - length s)%nat by reflexivity.
    assert (Ex : refers_loop (fuel - length s) ((A ++ [47]) ++ s ++ C) eofp beg (S p + length s) p =
                 Ok ((A ++ [47]) ++ s ++ C, eofp, p)).
    { destruct (fuel - length s)%nat; cbn [refers_loop];
        (destruct (Nat.ltb_spec (S p + length s) eofp); [lia|reflexivity]). }
    rewrite Ex. unfold A. apply ok3; [|lia|lia]. rewrite <- !app_assoc. reflexivity.
  - (* a segment in the middle *)
    set (R := render (s2 :: segs)) in *.
    assert (ER : exists R', R = 47 :: R') by (eexists; reflexivity). destruct ER as [R' ER].
    replace (pre ++ render st ++ (47 :: s ++ R) ++ C) with (A ++ 47 :: s ++ R ++ C)
      by (unfold A; aa).
    rewrite rd_app by (symmetry; exact LA). cbn [bind Z.eqb negb Pos.eqb].
    assert (T : forall n, slash_free n -> nonul (47 :: n ++ [47]) ->
      (if (p + (length n + 2) <=? eofp)%nat
       then strnstr_at (A ++ 47 :: s ++ R ++ C) p (47 :: n ++ [47]) (length n + 2) else Ok None)
      = Ok (if eqlz s n then Some 0%nat else None)).
    { intros n Hn1 Hn2. destruct (Nat.leb_spec (p + (length n + 2)) eofp) as [L|L].
      - rewrite strnstr_at_ok; [|symmetry; exact LA|discriminate|exact Hn2| | |discriminate].
        + rewrite ER. cbn [app]. rewrite test_mid by assumption. reflexivity.
        + cbn. rewrite app_length. cbn. lia.
        + cbn [length]. rewrite !app_length. lia.
      - destruct (eqlz s n) eqn:E; [|reflexivity]. apply eqlz_spec in E. subst n.
        rewrite ER in *. cbn [length] in *. lia. }
    pose proof (T [46; 46] D2 N4) as T4. pose proof (T [46] D1 N3) as T3. pose proof (T [] D0 N2) as T2.
    cbn [length Nat.add app] in T4, T3, T2.
    change (zs "/../") with [47; 46; 46; 47]. change (zs "/./") with [47; 46; 47]. change (zs "//") with [47; 47].
    rewrite T4. cbn [bind].
    destruct (eqlz s [46; 46]) eqn:E4.
    + (* .. *)
      apply eqlz_spec in E4. subst s. rewrite dist_ok by (cbn [length] in *; lia). cbn [bind].
      assert (Hpop : exists X, render st = render (removelast st) ++ X).
      { destruct (last_snoc_case _ st) as [->|[st0 [x ->]]]; [exists []; reflexivity|].
        exists (render [x]). rewrite removelast_last, render_app. reflexivity. }
      destruct Hpop as [X HX].
      destruct (memmove_down (pre ++ render (removelast st)) (X ++ [47; 46; 46]) R C prev (p + 3)
                  (eofp - (p + 3))) as [J [LJ EJ]].
      { rewrite app_length. unfold prevpos in Hpv. lia. }
      { rewrite HX in Hp. rewrite !app_length in *. cbn [length]. lia. }
      { cbn [length] in *. lia. }
      replace (A ++ 47 :: [46; 46] ++ R ++ C)
        with ((pre ++ render (removelast st)) ++ (X ++ [47; 46; 46]) ++ R ++ C).
      2:{ unfold A. rewrite HX, <- !app_assoc. reflexivity. }
      rewrite EJ. cbn [bind].
      set (st1 := removelast st).
      assert (Hst1 : Forall slash_free st1).
      { unfold st1. destruct (last_snoc_case _ st) as [->|[st0 [x ->]]]; [constructor|].
        rewrite removelast_last. apply Forall_app in Hst. tauto. }
      (* the new previous slash *)
      assert (Hback : exists r, back_slash ((pre ++ render st1) ++ R ++ J ++ C) beg (prev - beg) = Ok r /\
                match r with Some pp => pp | None => prev end = prevpos beg st1).
      { unfold prevpos in Hpv. fold st1 in Hpv.
        destruct (last_snoc_case _ st1) as [Es|[st0 [x Es]]].
        - rewrite Es in *. cbn [render map concat length] in *. exists None.
          replace (prev - beg)%nat with 0%nat by lia. split; [reflexivity|].
          unfold prevpos. cbn. lia.
        - exists (Some (prevpos beg st1)). split; [|reflexivity].
          rewrite Es. rewrite render_app, render_cons. cbn [render map concat]. rewrite app_nil_r.
          unfold prevpos. rewrite removelast_last.
          replace ((pre ++ render st0 ++ 47 :: x) ++ R ++ J ++ C)
            with (pre ++ render st0 ++ 47 :: x ++ R ++ J ++ C)
            by aa.
          apply back_slash_found; [|exact Hb|].
          + rewrite Es in Hst1. apply Forall_app in Hst1. destruct Hst1 as [_ Hst1]. inversion Hst1. assumption.
          + rewrite Es, render_app, app_length in Hpv. cbn [render map concat length] in Hpv.
            rewrite app_nil_r in Hpv. cbn [length] in Hpv. lia. }
      destruct Hback as [r [Er Hr]]. rewrite Er. cbn [bind]. rewrite Hr.
      assert (Hprev : prev = (beg + length (render st1))%nat) by (rewrite Hpv; reflexivity).
      assert (LX : length (render st) = (length (render st1) + length X)%nat).
      { rewrite HX, app_length. reflexivity. }
      destruct (IH fuel pre st1 (J ++ C) beg prev (prevpos beg st1) (eofp - (p + 3 - prev))%nat)
        as [J2 [E2 [L2 F2]]]; try assumption; try reflexivity; try discriminate.
      { cbn [length] in *. fold R. lia. }
      { cbn [length] in *. fold R. lia. }
      exists (J2 ++ J). cbn zeta in *.
      change (removelast ([46; 46] :: s2 :: segs)) with ([46; 46] :: removelast (s2 :: segs)).
      change (last ([46; 46] :: s2 :: segs) []) with (last (s2 :: segs) []).
      change (walk_segs st ([46; 46] :: removelast (s2 :: segs))) with (walk_segs st1 (removelast (s2 :: segs))).
      split; [|split; [rewrite !app_length in *; cbn [length] in *; fold R in L2; lia|exact F2]].
      fold R in E2. rewrite <- app_assoc. rewrite E2. rewrite <- !app_assoc. reflexivity.
    + rewrite T3. cbn [bind]. destruct (eqlz s [46]) eqn:E3.
      * (* . *)
        apply eqlz_spec in E3. subst s. rewrite dist_ok by (cbn [length] in *; lia). cbn [bind].
        destruct (memmove_down A [47; 46] R C p (p + 2) (eofp - (p + 2))) as [J [LJ EJ]].
        { symmetry. exact LA. } { cbn [length]. lia. } { cbn [length] in *. lia. }
        replace (A ++ 47 :: [46] ++ R ++ C) with (A ++ [47; 46] ++ R ++ C) by reflexivity.
        rewrite EJ. cbn [bind].
        destruct (IH fuel pre st (J ++ C) beg p prev (eofp - 2)%nat)
          as [J2 [E2 [L2 F2]]]; try assumption; try reflexivity; try discriminate.
        { cbn [length] in *. fold R. lia. }
        { cbn [length] in *. fold R. lia. }
        exists (J2 ++ J). cbn zeta in *.
        change (removelast ([46] :: s2 :: segs)) with ([46] :: removelast (s2 :: segs)).
        change (last ([46] :: s2 :: segs) []) with (last (s2 :: segs) []).
        change (walk_segs st ([46] :: removelast (s2 :: segs))) with (walk_segs st (removelast (s2 :: segs))).
        split; [|split; [rewrite app_length in *; cbn [length] in *; fold R in L2; lia|exact F2]].
        fold R in E2. unfold A. rewrite <- app_assoc. rewrite E2. rewrite <- !app_assoc. reflexivity.
      * rewrite T2. cbn [bind]. destruct (eqlz s []) eqn:E2'.
        -- (* empty *)
           apply eqlz_spec in E2'. subst s. rewrite dist_ok by (cbn [length] in *; lia). cbn [bind].
           destruct (memmove_down A [47] R C p (p + 1) (eofp - (p + 1))) as [J [LJ EJ]].
           { symmetry. exact LA. } { cbn [length]. lia. } { cbn [length] in *. lia. }
           replace (A ++ 47 :: [] ++ R ++ C) with (A ++ [47] ++ R ++ C) by reflexivity.
           rewrite EJ. cbn [bind].
           destruct (IH fuel pre st (J ++ C) beg p prev (eofp - 1)%nat)
             as [J2 [E2 [L2 F2]]]; try assumption; try reflexivity; try discriminate.
           { cbn [length] in *. fold R. lia. }
           { cbn [length] in *. fold R. lia. }
           exists (J2 ++ J). cbn zeta in *.
           change (removelast ([] :: s2 :: segs)) with ([] :: removelast (s2 :: segs)).
           change (last ([] :: s2 :: segs) []) with (last (s2 :: segs) []).
           change (walk_segs st ([] :: removelast (s2 :: segs))) with (walk_segs st (removelast (s2 :: segs))).
           split; [|split; [rewrite app_length in *; cbn [length] in *; fold R in L2; lia|exact F2]].
           fold R in E2. unfold A. rewrite <- app_assoc. rewrite E2. rewrite <- !app_assoc. reflexivity.
        -- (* an ordinary segment *)
           replace (A ++ 47 :: s ++ R ++ C) with ((A ++ [47]) ++ s ++ R ++ C) by aa.
           rewrite scan_seg; [|exact Hs|rewrite app_length; cbn; lia|lia|lia].
           assert (Es : render (st ++ [s]) = render st ++ 47 :: s).
           { rewrite render_app, render_cons. cbn [render map concat]. rewrite app_nil_r. reflexivity. }
           destruct (IH (fuel - length s)%nat pre (st ++ [s]) C beg (S p + length s)%nat p eofp)
             as [J2 [E2 [L2 F2]]]; try assumption; try reflexivity; try discriminate.
           { apply Forall_app. split; [exact Hst|]. constructor; [exact Hs|constructor]. }
           { rewrite Es, app_length. cbn [length]. lia. }
           { unfold prevpos. rewrite removelast_last. exact Hp. }
           { fold R. lia. }
           { fold R. lia. }
           exists J2. cbn zeta in *.
           change (removelast (s :: s2 :: segs)) with (s :: removelast (s2 :: segs)).
           change (last (s :: s2 :: segs) []) with (last (s2 :: segs) []).
           assert (W : walk_segs st (s :: removelast (s2 :: segs)) = walk_segs (st ++ [s]) (removelast (s2 :: segs))).
           { unfold walk_segs. cbn [fold_left]. f_equal. unfold walk_seg.
             assert (X0 : s <> []) by (intros ->; discriminate).
             assert (X1 : s <> [46]) by (intros ->; discriminate).
             assert (X2 : s <> [46; 46]) by (intros ->; discriminate).
             clear -X0 X1 X2. destruct s as [|c s]; [congruence|].
             destruct (Z.eq_dec c 46) as [->|Nc].
             - destruct s as [|c2 s]; [congruence|]. destruct (Z.eq_dec c2 46) as [->|Nc2].
               + destruct s; [congruence|reflexivity].
               + destruct c2 as [|q|q]; try reflexivity.
                 do 6 (try (destruct q as [q|q|]; try reflexivity)). congruence.
             - destruct c as [|q|q]; try reflexivity.
               do 6 (try (destruct q as [q|q|]; try reflexivity)). congruence. }
           rewrite W.
           split; [|split; [rewrite Es, app_length in L2; cbn [length] in *; fold R in L2; lia|exact F2]].
           fold R in E2. unfold A. rewrite Es in E2.
           replace (((pre ++ render st) ++ [47]) ++ s ++ R ++ C)
             with (pre ++ (render st ++ 47 :: s) ++ R ++ C)
             by aa.
           rewrite E2. reflexivity.
Qed.

(** ** The end of the path *)

Definition end_path (fetch : bool) (st : list (list Z)) (s : list Z) : list Z :=
  match walk_seg st s with
  | [] => [47]
  | st' => render st' ++ (if dir_seg s && fetch then [47] else [])
  end.

Lemma seg_cases : forall s, s = [] \/ s = [46] \/ s = [46; 46] \/
  (s <> [] /\ s <> [46] /\ s <> [46; 46] /\ dir_seg s = false /\ forall st, walk_seg st s = st ++ [s]).
Proof.
  intros s. destruct (list_eq_dec Z.eq_dec s []) as [->|N0]; [auto|].
  destruct (list_eq_dec Z.eq_dec s [46]) as [->|N1]; [auto|].
  destruct (list_eq_dec Z.eq_dec s [46; 46]) as [->|N2]; [auto|].
  right. right. right. do 3 (split; [assumption|]).
  destruct s as [|c s]; [congruence|].
  destruct (Z.eq_dec c 46) as [->|Nc].
  - destruct s as [|c2 s]; [congruence|]. destruct (Z.eq_dec c2 46) as [->|Nc2].
    + destruct s; [congruence|split; reflexivity].
    + destruct c2 as [|q|q]; try (split; reflexivity).
      do 6 (try (destruct q as [q|q|]; try (split; reflexivity))). congruence.
  - destruct c as [|q|q]; try (split; reflexivity).
    do 6 (try (destruct q as [q|q|]; try (split; reflexivity))). congruence.
Qed.

Lemma render_nonempty : forall st, st <> [] -> (0 < length (render st))%nat.
Proof. intros [|s st] H; [congruence|]. rewrite render_cons. cbn [length]. lia. Qed.

Lemma refers_end_ok : forall pre st s C beg prev eofp flags,
  beg = length pre -> prev = (beg + length (render st))%nat -> eofp = (prev + 1 + length s)%nat ->
  slash_free s -> Forall slash_free st ->
  exists e Z, refers_end (pre ++ render st ++ (47 :: s) ++ C) eofp beg prev flags = Ok e /\
    render st ++ 47 :: s = end_path (fetchable flags) st s ++ Z /\
    e = (beg + length (end_path (fetchable flags) st s))%nat.
Proof.
  intros pre st s C beg prev eofp flags Hb Hp He Hs Hst.
  set (A := pre ++ render st).
  assert (LA : length A = prev) by (unfold A; rewrite app_length; lia).
  replace (pre ++ render st ++ (47 :: s) ++ C) with (A ++ 47 :: s ++ C) by (unfold A; aa).
  assert (T : forall n k, nonul (47 :: n) -> k = S (length n) ->
    (if (prev + k =? eofp)%nat then strnstr_at (A ++ 47 :: s ++ C) prev (47 :: n) k else Ok None)
    = Ok (if eqlz s n then Some 0%nat else None)).
  { intros n k Hn ->. destruct (Nat.eqb_spec (prev + S (length n)) eofp) as [L|L].
    - rewrite strnstr_at_ok; [|symmetry; exact LA|discriminate|exact Hn|reflexivity| |discriminate].
      2:{ cbn [length]. rewrite app_length. lia. }
      assert (Ls : length n = length s) by lia. cbn [firstn]. rewrite Ls, firstn_len_app.
      unfold eqlz. destruct (list_eq_dec Z.eq_dec (47 :: s) (47 :: n)), (list_eq_dec Z.eq_dec s n); congruence.
    - destruct (eqlz s n) eqn:E; [|reflexivity]. apply eqlz_spec in E. subst n. lia. }
  assert (N2 : nonul [47; 46; 46]) by (repeat constructor; discriminate).
  assert (N1 : nonul [47; 46]) by (repeat constructor; discriminate).
  assert (N0 : nonul [47]) by (repeat constructor; discriminate).
  pose proof (T [46; 46] 3%nat N2 eq_refl) as T2. pose proof (T [46] 2%nat N1 eq_refl) as T1.
  pose proof (T [] 1%nat N0 eq_refl) as T0.
  unfold refers_end. change (zs "/..") with [47; 46; 46]. change (zs "/.") with [47; 46].
  change (zs "/") with [47]. rewrite T2, T1, T0. cbn [bind].
  assert (Hbp : (beg <? prev)%nat = match st with [] => false | _ => true end).
  { destruct st as [|x st].
    - cbn in Hp. apply Nat.ltb_ge. lia.
    - apply Nat.ltb_lt. pose proof (render_nonempty (x :: st) ltac:(discriminate)). lia. }
  unfold end_path.
  destruct (seg_cases s) as [->|[->|[->|[X0 [X1 [X2 [Hd Hw]]]]]]].
  - change (eqlz [] [46; 46]) with false. change (eqlz [] [46]) with false. change (eqlz [] []) with true.
    cbn [bind walk_seg dir_seg andb]. rewrite Hbp.
    destruct st as [|x st].
    + exists eofp, []. split; [reflexivity|]. split; [reflexivity|]. cbn in *. lia.
    + destruct (fetchable flags); cbn [negb andb].
      * exists eofp, []. split; [reflexivity|]. rewrite app_nil_r. split; [reflexivity|].
        rewrite app_length. cbn [length] in *. lia.
      * exists (eofp - 1)%nat, [47]. split; [reflexivity|]. rewrite app_nil_r. split; [reflexivity|].
        cbn [length] in *. lia.
  - change (eqlz [46] [46; 46]) with false. change (eqlz [46] [46]) with true.
    cbn [bind walk_seg dir_seg andb]. rewrite Hbp.
    destruct st as [|x st].
    + exists (eofp - 1)%nat, [46]. split; [reflexivity|]. split; [reflexivity|]. cbn in *. lia.
    + destruct (fetchable flags); cbn [negb andb].
      * exists (eofp - 1)%nat, [46]. split; [reflexivity|]. split; [aa|].
        rewrite app_length. cbn [length] in *. lia.
      * exists (eofp - 2)%nat, [47; 46]. split; [reflexivity|]. rewrite app_nil_r. split; [reflexivity|].
        cbn [length] in *. lia.
  - change (eqlz [46; 46] [46; 46]) with true. cbn [bind walk_seg dir_seg andb]. rewrite Hbp.
    destruct (last_snoc_case _ st) as [->|[st0 [x ->]]].
    + exists (eofp - 2)%nat, [46; 46]. split; [reflexivity|]. split; [reflexivity|]. cbn in *. lia.
    + rewrite removelast_last.
      replace (match st0 ++ [x] with [] => false | _ :: _ => true end) with true by (destruct st0; reflexivity).
      assert (Ex : render (st0 ++ [x]) = render st0 ++ 47 :: x).
      { rewrite render_app, render_cons. cbn [render map concat]. rewrite app_nil_r. reflexivity. }
      rewrite Ex in Hp. rewrite app_length in Hp. cbn [length] in Hp.
      apply Forall_app in Hst. destruct Hst as [_ Hx]. inversion Hx; subst x0 l; clear Hx.
      replace (A ++ 47 :: [46; 46] ++ C) with (pre ++ render st0 ++ 47 :: x ++ 47 :: 46 :: 46 :: C)
        by (unfold A; rewrite Ex; aa).
      rewrite (back_slash_found x pre (render st0) (47 :: 46 :: 46 :: C) beg (prev - beg)%nat);
        [|assumption|exact Hb|lia]. cbn [bind].
      cbn [length] in *.
      assert (Hbq : (beg <? beg + length (render st0))%nat = match st0 with [] => false | _ => true end).
      { destruct st0 as [|y st0].
        - cbn. apply Nat.ltb_ge. lia.
        - apply Nat.ltb_lt. pose proof (render_nonempty (y :: st0) ltac:(discriminate)). lia. }
      rewrite Hbq. destruct st0 as [|y st0].
      * exists (beg + 1)%nat, (x ++ [47; 46; 46]). cbn [andb]. cbn in Hp. cbn.
        split; [f_equal; lia|]. rewrite app_nil_r. split; [aa|lia].
      * rewrite Ex. destruct (fetchable flags); cbn [negb andb].
        -- exists (prev - length x)%nat, (x ++ [47; 46; 46]). split; [f_equal; lia|].
           split; [aa|]. rewrite app_length. cbn [length]. lia.
        -- exists (prev - 1 - length x)%nat, (47 :: x ++ [47; 46; 46]). split; [f_equal; lia|].
           rewrite app_nil_r. split; [aa|]. lia.
  - assert (Y : forall n, s <> n -> eqlz s n = false) by (intros n F; unfold eqlz; destruct (list_eq_dec Z.eq_dec s n); congruence).
    rewrite !Y by assumption. cbn [bind]. rewrite Hw, Hd. cbn [andb].
    exists eofp, []. split; [reflexivity|].
    assert (Ex : render (st ++ [s]) = render st ++ 47 :: s).
    { rewrite render_app, render_cons. cbn [render map concat]. rewrite app_nil_r. reflexivity. }
    destruct (st ++ [s]) as [|q l] eqn:Eq; [destruct st; discriminate|].
    rewrite Ex, !app_nil_r. split; [reflexivity|]. rewrite app_length. cbn [length]. lia.
Qed.

Lemma normal_path_end : forall fetch segs, segs <> [] ->
  normal_path fetch segs = end_path fetch (walk_segs [] (removelast segs)) (last segs []).
Proof.
  intros fetch segs H. unfold normal_path, end_path.
  assert (E : walk_segs [] segs = walk_seg (walk_segs [] (removelast segs)) (last segs [])).
  { rewrite (app_removelast_last [] H) at 1. unfold walk_segs. rewrite fold_left_app. reflexivity. }
  rewrite E. reflexivity.
Qed.

(** ** assign_refers *)

Lemma render_no_query : forall segs, Forall no_query segs -> ~ In 63 (render segs).
Proof.
  induction segs as [|s segs IH]; intros H F; [destruct F|]. inversion H; subst.
  rewrite render_cons in F. destruct F as [F|F]; [discriminate|]. apply in_app_or in F.
  destruct F as [F|F]; [contradiction|]. apply IH; assumption.
Qed.

Definition dom_at (pre : list Z) (dom : dptr) (d : list Z) : Prop :=
  match dom with
  | Own i => exists a c, pre = a ++ d ++ c /\ i = length a
  | Ext l => exists j, l = d ++ j
  end.

Lemma end_path_len : forall fetch st s Z0, render st ++ 47 :: s = end_path fetch st s ++ Z0 ->
  length (end_path fetch st s) = (length (render st) + 1 + length s - length Z0)%nat /\
  (length Z0 <= length (render st) + 1 + length s)%nat.
Proof.
  intros fetch st s Z0 H. apply (f_equal (@length Z)) in H. rewrite !app_length in H. cbn [length] in H. lia.
Qed.

Lemma assign_refers_ok : forall pre segs args post vlen dom d dlen beg flags,
  beg = length pre -> ~ In 63 pre ->
  segs <> [] -> Forall slash_free segs -> Forall no_query segs -> starts_or_empty 63 args ->
  vlen = (beg + length (render segs) + length args)%nat -> dlen = length d ->
  dom_at pre dom d -> (length d + 2 <= length post)%nat ->
  exists junk, let val := pre ++ normal_path (fetchable flags) segs ++ args in
    assign_refers (pre ++ render segs ++ args ++ post) vlen dom dlen beg flags =
      Ok (mkUrl (val ++ 0 :: d ++ 0 :: junk) (length val) (length val + 1) dlen) /\
    (length val <= vlen)%nat.
Proof.
  intros pre segs args post vlen dom d dlen beg flags Hb Hq Hne Hsf Hnq Ha Hv Hd Hdom Hroom.
  unfold assign_refers.
  destruct (strnchr_cut (pre ++ render segs) 63 args post vlen) as [r [Er Hr]].
  { intros F. apply in_app_or in F. destruct F as [F|F]; [contradiction|].
    exact (render_no_query _ Hnq F). }
  { exact Ha. }
  { rewrite app_length. lia. }
  replace (pre ++ render segs ++ args ++ post) with ((pre ++ render segs) ++ args ++ post) by aa.
  rewrite Er. cbn [bind]. rewrite Hr. rewrite app_length.
  destruct (refers_loop_ok segs (length pre + length (render segs) - beg) pre [] (args ++ post) beg beg beg
              (length pre + length (render segs))) as [J [E1 [L1 F1]]]; try assumption; try lia.
  { constructor. } { cbn; lia. } { unfold prevpos. cbn. lia. }
  cbn zeta in *. set (st := walk_segs [] (removelast segs)) in *. set (s := last segs []) in *.
  cbn [app render map concat] in E1.
  replace ((pre ++ render segs) ++ args ++ post) with (pre ++ render segs ++ args ++ post) by aa.
  rewrite E1. cbn [bind].
  assert (Hs : slash_free s).
  { unfold s. rewrite (app_removelast_last [] Hne) in Hsf. apply Forall_app in Hsf. destruct Hsf as [_ Hsf].
    inversion Hsf. assumption. }
  destruct (refers_end_ok pre st s (J ++ args ++ post) beg (beg + length (render st))%nat
              (beg + length (render st) + 1 + length s)%nat flags Hb eq_refl eq_refl Hs F1)
    as [e [Z0 [E2 [EZ He]]]].
  change (pre ++ render st ++ 47 :: s ++ J ++ args ++ post)
    with (pre ++ render st ++ (47 :: s) ++ J ++ args ++ post).
  rewrite E2. cbn [bind].
  destruct (end_path_len _ _ _ _ EZ) as [LE LZ].
  assert (NP := normal_path_end (fetchable flags) segs Hne). fold st s in NP. rewrite <- NP in *.
  set (N := normal_path (fetchable flags) segs) in *.
  replace (pre ++ render st ++ (47 :: s) ++ J ++ args ++ post)
    with (pre ++ (render st ++ 47 :: s) ++ J ++ args ++ post) by aa.
  rewrite EZ. cbn [render map concat length] in L1.
  (* the query *)
  assert (Hargs : exists J2, length J2 = (length Z0 + length J)%nat /\
    (if negb (vlen - (length pre + length (render segs)) =? 0)%nat
     then b <- memmove (pre ++ (N ++ Z0) ++ J ++ args ++ post) e (length pre + length (render segs))
                 (vlen - (length pre + length (render segs))) ;;
          Ok (b, (e + (vlen - (length pre + length (render segs))))%nat)
     else Ok (pre ++ (N ++ Z0) ++ J ++ args ++ post, e)) =
    Ok (pre ++ N ++ args ++ J2 ++ post, (e + length args)%nat)).
  { replace (vlen - (length pre + length (render segs)))%nat with (length args) by lia.
    destruct (Nat.eqb_spec (length args) 0) as [L0|L0]; cbn [negb].
    - destruct args; [|discriminate]. exists (Z0 ++ J). split; [apply app_length|].
      cbn [length]. rewrite Nat.add_0_r. apply ok2; [aa|reflexivity].
    - destruct (memmove_down (pre ++ N) (Z0 ++ J) args post e (length pre + length (render segs))%nat (length args))
        as [J2 [LJ2 EJ2]].
      { rewrite app_length. lia. } { rewrite !app_length. lia. } { reflexivity. }
      exists J2. split; [rewrite LJ2; apply app_length|].
      replace (pre ++ (N ++ Z0) ++ J ++ args ++ post) with ((pre ++ N) ++ (Z0 ++ J) ++ args ++ post) by aa.
      rewrite EJ2. cbn [bind]. apply ok2; [aa|reflexivity]. }
  destruct Hargs as [J2 [LJ2 ->]]. cbn [bind].
  set (val := pre ++ N ++ args).
  assert (Lval : length val = (e + length args)%nat) by (unfold val; rewrite !app_length; lia).
  replace (pre ++ N ++ args ++ J2 ++ post) with (val ++ J2 ++ post) by (unfold val; aa).
  (* the domain *)
  assert (Hd2 : (match dom with
        | Own i => if (i + dlen <=? e + length args + 1)%nat then slice (val ++ J2 ++ post) i dlen else Ub BadLib
        | Ext l => slice l 0 dlen
        end) = Ok d).
  { destruct dom as [i|l]; cbn [dom_at] in Hdom.
    - destruct Hdom as [a [c [Epre ->]]].
      assert (Lpre : length pre = (length a + length d + length c)%nat) by (rewrite Epre, !app_length; lia).
      destruct (Nat.leb_spec (length a + dlen) (e + length args + 1)) as [_|L]; [|lia].
      unfold val. rewrite Epre.
      replace (((a ++ d ++ c) ++ N ++ args) ++ J2 ++ post) with (a ++ d ++ c ++ N ++ args ++ J2 ++ post) by aa.
      apply slice_ok; [reflexivity|exact Hd].
    - destruct Hdom as [j ->]. exact (slice_ok [] d j 0 dlen eq_refl Hd). }
  rewrite Hd2. cbn [bind].
  destruct (J2 ++ post) as [|x0 rest] eqn:EJ.
  { apply (f_equal (@length Z)) in EJ. rewrite app_length in EJ. cbn in EJ. lia. }
  assert (Lrest : (length d + 1 <= length rest)%nat).
  { apply (f_equal (@length Z)) in EJ. rewrite app_length in EJ. cbn in EJ. lia. }
  replace (val ++ x0 :: rest) with ((val ++ [x0]) ++ firstn (length d) rest ++ skipn (length d) rest).
  2:{ rewrite firstn_skipn. aa. }
  rewrite blit_ok; [|rewrite app_length; cbn; lia|rewrite firstn_length; lia]. cbn [bind].
  replace ((val ++ [x0]) ++ d ++ skipn (length d) rest) with (val ++ x0 :: d ++ skipn (length d) rest) by aa.
  rewrite wr_app by (symmetry; exact Lval). cbn [bind].
  assert (Ls : (0 < length (skipn (length d) rest))%nat) by (rewrite skipn_length; lia).
  destruct (skipn (length d) rest) as [|x1 junk]; [cbn in Ls; lia|].
  replace (val ++ 0 :: d ++ x1 :: junk) with ((val ++ 0 :: d) ++ x1 :: junk) by aa.
  rewrite wr_app by (rewrite app_length; cbn; lia). cbn [bind].
  exists junk. split; [|lia]. rewrite Lval.
  replace ((val ++ 0 :: d) ++ 0 :: junk) with (val ++ 0 :: d ++ 0 :: junk) by aa. reflexivity.
Qed.

(** ** The host *)

Lemma host_lower : forall c, host_char c -> domain_symbol (tolower c) = true /\ tolower c = lower c.
Proof.
  intros c H. split; [|reflexivity]. unfold tolower, domain_symbol.
  destruct (Z.leb_spec 65 c), (Z.leb_spec c 90); cbn [andb];
    repeat match goal with |- context [?a <=? ?b] => destruct (Z.leb_spec a b); cbn [andb orb] end;
    repeat match goal with |- context [?a =? ?b] => destruct (Z.eqb_spec a b); cbn [andb orb] end;
    try reflexivity; unfold host_char in H; lia.
Qed.
Lemma not_host_lower : forall c, ~ host_char c -> domain_symbol (tolower c) = false /\ tolower c = c.
Proof.
  intros c H. assert (E : tolower c = c).
  { unfold tolower. destruct (Z.leb_spec 65 c), (Z.leb_spec c 90); cbn [andb]; try reflexivity.
    destruct H. unfold host_char. lia. }
  rewrite E. split; [|reflexivity]. unfold domain_symbol.
    repeat match goal with |- context [?a <=? ?b] => destruct (Z.leb_spec a b); cbn [andb orb] end;
    repeat match goal with |- context [?a =? ?b] => destruct (Z.eqb_spec a b); cbn [andb orb] end;
    try reflexivity; unfold host_char in H; lia.
Qed.

Lemma lower_loop_ok : forall hp A q C k p, p = length A -> k = (length hp + length q)%nat ->
  Forall host_char hp -> (forall c, hd_error q = Some c -> ~ host_char c) ->
  lower_loop k (A ++ hp ++ q ++ C) p = Ok (A ++ map lower hp ++ q ++ C, (p + length hp)%nat).
Proof.
  induction hp as [|c hp IH]; intros A q C k p -> -> Hh Hq.
  - cbn [length Nat.add app map]. destruct q as [|c q]; [cbn; apply ok2; [reflexivity|lia]|].
    cbn [length lower_loop app]. rewrite rd_app by reflexivity. cbn [bind].
    rewrite wr_app by reflexivity. cbn [bind]. rewrite rd_app by reflexivity. cbn [bind].
    destruct (not_host_lower c (Hq c eq_refl)) as [-> ->]. cbn [negb]. apply ok2; [reflexivity|lia].
  - inversion Hh; subst. cbn [length Nat.add lower_loop app map]. rewrite rd_app by reflexivity. cbn [bind].
    rewrite wr_app by reflexivity. cbn [bind]. rewrite rd_app by reflexivity. cbn [bind].
    destruct (host_lower c ltac:(assumption)) as [-> ->]. cbn [negb].
    specialize (IH (A ++ [lower c]) q C (length hp + length q)%nat (S (length A))).
    rewrite <- app_assoc in IH. cbn [app] in IH. rewrite IH; try assumption; try reflexivity.
    + apply ok2; [aa|lia].
    + rewrite app_length. cbn. lia.
Qed.

Lemma spn_dots : forall D C k todo, Forall (eq 46) D ->
  (todo = length D \/ ((length D < todo)%nat /\ C <> [] /\ hd 0 C <> 46)) ->
  nspn_loop same (D ++ C) [46; 0] k todo = Ok (k + length D)%nat.
Proof.
  induction D as [|x D IH]; intros C k todo HD Ht.
  - cbn [app length]. rewrite Nat.add_0_r. destruct Ht as [->|[L [HC H]]]; [reflexivity|].
    destruct todo as [|todo]; [lia|]. destruct C as [|c C]; [congruence|]. cbn in H. cbn.
    unfold same. destruct (Z.eqb_spec c 46); [contradiction|]. reflexivity.
  - inversion HD; subst x. subst l. cbn [length] in Ht. destruct todo as [|todo]; [lia|]. cbn.
    rewrite IH; [f_equal; lia|assumption|]. destruct Ht as [Ht|[L Hc]]; [left; lia|right; split; [lia|exact Hc]].
Qed.

Lemma rspn_dots : forall D P x C k, Forall (eq 46) D -> x <> 46 -> k = (S (length P) + length D)%nat ->
  rspn_loop same (P ++ x :: D ++ C) [46; 0] [46; 0] k = Ok (length P).
Proof.
  intros D. induction D as [|y D IH] using rev_ind; intros P x C k HD Hx ->.
  - cbn [length app]. rewrite Nat.add_0_r. cbn [rspn_loop deref bind Z.eqb].
    rewrite rd_app by reflexivity. cbn [bind find_in Z.eqb]. unfold same.
    destruct (Z.eqb_spec x 46); [contradiction|]. cbn [bind].
    destruct (length P); reflexivity.
  - apply Forall_app in HD. destruct HD as [HD Hy]. inversion Hy; subst y. rewrite app_length. cbn [length].
    replace (S (length P) + (length D + 1))%nat with (S (S (length P) + length D)) by lia.
    cbn [rspn_loop deref bind Z.eqb].
    replace (P ++ x :: (D ++ [46]) ++ C) with ((P ++ x :: D) ++ 46 :: C) by aa.
    rewrite rd_app by (rewrite app_length; cbn; lia). cbn [bind find_in Z.eqb]. unfold same at 1 2.
    cbn [Z.eqb Pos.eqb bind]. replace ((P ++ x :: D) ++ 46 :: C) with (P ++ x :: D ++ 46 :: C) by aa.
    apply IH; [exact HD|exact Hx|reflexivity].
Qed.

(** the last dot *)
Lemma last_dot : forall h : list Z, ~ In 46 h \/ exists a b, h = a ++ 46 :: b /\ ~ In 46 b.
Proof.
  induction h as [|c h IH]; [left; intros []|].
  destruct IH as [IH|[a [b [-> Hb]]]].
  - destruct (Z.eq_dec c 46) as [->|Nc].
    + right. exists [], h. split; [reflexivity|exact IH].
    + left. intros [F|F]; [congruence|contradiction].
  - right. exists (c :: a), b. split; [reflexivity|exact Hb].
Qed.

Lemma rev_dot_at : forall sch h C n, (0 <= n)%Z ->
  rev_dot (sch ++ h ++ C) (length sch) n = revchr_loop same 46 (h ++ C) (Z.to_nat n).
Proof.
  intros. unfold rev_dot. destruct (Z.ltb_spec n 0); [lia|]. rewrite skipn_len_app. reflexivity.
Qed.

Definition dot_pos (beg : nat) (r : option nat) : Z :=
  match r with Some i => Z.of_nat (beg + i) | None => Z.of_nat beg - 1 end.

Lemma domain_ok : forall sch h C beg, no_outer_dots h -> beg = length sch ->
  exists a d r1 r2, h = a ++ d /\ domain_of h d /\
    rev_dot (sch ++ h ++ C) beg (Z.of_nat (beg + length h) - 1 - Z.of_nat beg) = Ok r1 /\
    rev_dot (sch ++ h ++ C) beg (dot_pos beg r1 - 1 - Z.of_nat beg) = Ok r2 /\
    Z.to_nat (dot_pos beg r2 + 1) = (beg + length a)%nat.
Proof.
  intros sch h C beg [Hhd Hlast] ->.
  destruct (last_dot h) as [Hn|[a [b [-> Hb]]]].
  - exists [], h, None, None. split; [reflexivity|]. split; [apply dom_none; exact Hn|].
    assert (E1 : rev_dot (sch ++ h ++ C) (length sch)
              (Z.of_nat (length sch + length h) - 1 - Z.of_nat (length sch)) = Ok None).
    { destruct h as [|x h]; [unfold rev_dot; cbn [length];
        replace (Z.of_nat (length sch + 0) - 1 - Z.of_nat (length sch)) with (-1) by lia; reflexivity|].
      destruct (@exists_last _ (x :: h) ltac:(discriminate)) as [h' [y E]]. rewrite E in *.
      rewrite rev_dot_at by (rewrite app_length; cbn [length]; lia).
      replace (Z.to_nat _) with (length h') by (rewrite app_length; cbn [length]; lia).
      rewrite <- app_assoc. apply rev_none. intros F. apply Hn. apply in_or_app. left. exact F. }
    split; [exact E1|]. cbn [dot_pos]. split; [|cbn [length]; lia].
    unfold rev_dot. destruct (Z.ltb_spec (Z.of_nat (length sch) - 1 - 1 - Z.of_nat (length sch)) 0); [reflexivity|lia].
  - assert (Hb0 : exists b' y, b = b' ++ [y]).
    { destruct (last_snoc_case _ b) as [->|[b' [y ->]]]; [|eauto]. rewrite last_last in Hlast. congruence. }
    destruct Hb0 as [b' [y ->]].
    assert (E1 : rev_dot (sch ++ (a ++ 46 :: b' ++ [y]) ++ C) (length sch)
       (Z.of_nat (length sch + length (a ++ 46 :: b' ++ [y])) - 1 - Z.of_nat (length sch)) = Ok (Some (length a))).
    { rewrite rev_dot_at by (rewrite !app_length; cbn [length]; lia).
      replace (Z.to_nat _) with (length a + 1 + length b')%nat
        by (repeat (rewrite app_length; cbn [length]); lia).
      replace ((a ++ 46 :: b' ++ [y]) ++ C) with (a ++ 46 :: b' ++ [y] ++ C) by aa.
      apply rev_found. intros F. apply Hb. apply in_or_app. left. exact F. }
    destruct (last_snoc_case _ a) as [->|[a' [x ->]]]; [cbn in Hhd; congruence|].
    destruct (last_dot a') as [Hn|[pre [m [-> Hm]]]].
    + exists [], ((a' ++ [x]) ++ 46 :: b' ++ [y]), (Some (length (a' ++ [x]))), None.
      split; [reflexivity|]. split; [apply dom_one; [exact Hb|rewrite removelast_last; exact Hn]|].
      split; [exact E1|]. cbn [dot_pos]. split; [|cbn [length]; lia].
      rewrite rev_dot_at by (rewrite app_length; cbn [length]; lia).
      replace (Z.to_nat _) with (length a')%nat by (rewrite app_length; cbn [length]; lia).
      replace (((a' ++ [x]) ++ 46 :: b' ++ [y]) ++ C) with (a' ++ x :: 46 :: b' ++ [y] ++ C) by aa.
      apply rev_none. exact Hn.
    + exists (pre ++ [46]), ((m ++ [x]) ++ 46 :: b' ++ [y]), (Some (length ((pre ++ 46 :: m) ++ [x]))), (Some (length pre)).
      split; [aa|].
      split; [replace (((pre ++ 46 :: m) ++ [x]) ++ 46 :: b' ++ [y]) with (pre ++ 46 :: (m ++ [x]) ++ 46 :: b' ++ [y]) by aa;
              apply dom_two; assumption|].
      split; [exact E1|]. cbn [dot_pos]. split; [|rewrite app_length; cbn [length]; lia].
      rewrite rev_dot_at by (rewrite !app_length; cbn [length]; lia).
      replace (Z.to_nat _) with (length pre + 1 + length m)%nat by (rewrite !app_length; cbn [length]; lia).
      replace ((((pre ++ 46 :: m) ++ [x]) ++ 46 :: b' ++ [y]) ++ C) with (pre ++ 46 :: m ++ x :: 46 :: b' ++ [y] ++ C) by aa.
      apply rev_found. exact Hm.
Qed.

(** ** assign_anchor *)

Lemma host_char_safe : forall c, host_char c -> c <> 47 /\ c <> 63 /\ c <> 35 /\ c <> 0.
Proof. intros c H. unfold host_char in H. lia. Qed.
Lemma host_not_in : forall l x, Forall host_char l -> x = 47 \/ x = 63 \/ x = 35 \/ x = 0 -> ~ In x l.
Proof.
  intros l x H Hx F. rewrite Forall_forall in H. apply H in F. apply host_char_safe in F. lia.
Qed.
Lemma lower_host : forall c, host_char c -> host_char (lower c).
Proof.
  intros c H. unfold lower. destruct (Z.leb_spec 65 c), (Z.leb_spec c 90); cbn [andb]; unfold host_char in *; lia.
Qed.
Lemma lower_dot : forall c, lower c = 46 <-> c = 46.
Proof.
  intros c. unfold lower. destruct (Z.leb_spec 65 c), (Z.leb_spec c 90); cbn [andb]; lia.
Qed.
Lemma lower_dots : forall D, Forall (eq 46) D -> map lower D = D.
Proof. induction D as [|x D IH]; intros H; [reflexivity|]. inversion H; subst. cbn. rewrite IH by assumption. reflexivity. Qed.
Lemma dots_host : forall D, Forall (eq 46) D -> Forall host_char D.
Proof. intros D H. apply Forall_forall. intros x Hx. rewrite Forall_forall in H. rewrite <- (H x Hx). unfold host_char. lia. Qed.
Lemma last_map : forall (f : Z -> Z) l d, last (map f l) (f d) = f (last l d).
Proof. intros f. induction l as [|x l IH]; intros d; [reflexivity|]. destruct l; [reflexivity|]. apply (IH d). Qed.
Lemma no_outer_lower : forall h, no_outer_dots h -> no_outer_dots (map lower h).
Proof.
  intros h [H1 H2]. split.
  - destruct h; [exact H1|]. cbn in *. rewrite lower_dot. exact H1.
  - change 0 with (lower 0). rewrite last_map, lower_dot. exact H2.
Qed.

(** a text without '/' and the rest *)
Lemma first_slash : forall t : list Z, exists q X, t = q ++ X /\ ~ In 47 q /\ starts_or_empty 47 X.
Proof.
  induction t as [|c t [q [X [-> [Hq HX]]]]].
  - exists [], []. split; [reflexivity|]. split; [intros []|left; reflexivity].
  - destruct (Z.eq_dec c 47) as [->|Nc].
    + exists [], (47 :: q ++ X). split; [reflexivity|]. split; [intros []|right; eauto].
    + exists (c :: q), X. split; [reflexivity|]. split; [|exact HX]. intros [F|F]; [congruence|contradiction].
Qed.

Lemma path_query_room : forall t segs args, path_query t segs args ->
  length t = (length (render segs) + length args)%nat.
Proof. intros t segs args [-> _]. apply app_length. Qed.

Lemma assign_anchor_ok : forall sch rest text frag dots1 host dots2 tail segs args post vlen beg flags,
  beg = length sch -> ~ In 35 sch -> ~ In 63 sch ->
  rest = text ++ frag -> ~ In 35 text -> starts_or_empty 35 frag ->
  vlen = (length sch + length rest)%nat ->
  text = dots1 ++ host ++ dots2 ++ tail ->
  Forall (eq 46) dots1 -> Forall (eq 46) dots2 -> no_outer_dots host ->
  Forall host_char host -> (host = [] -> dots2 = []) ->
  (forall c, hd_error tail = Some c -> ~ host_char c) ->
  path_query (add_slash tail) segs args ->
  (length host + 3 <= length post)%nat ->
  exists d junk, let val := sch ++ map lower host ++ normal_path (fetchable flags) segs ++ args in
    domain_of (map lower host) d /\
    assign_anchor (sch ++ rest ++ post) vlen beg flags =
      Ok (mkUrl (val ++ 0 :: d ++ 0 :: junk) (length val) (length val + 1) (length d)).
Proof.
  intros sch rest text frag dots1 host dots2 tail segs args post vlen beg flags
         Hbeg Hs35 Hs63 Hrest Ht35 Hfrag Hvlen Htext Hd1 Hd2 Hout Hhost Hempty Htail Hpq Hroom.
  unfold assign_anchor.
  (* the fragment *)
  destruct (strnchr_cut (sch ++ text) 35 frag post vlen) as [r [Er Hr]].
  { intros F. apply in_app_or in F. tauto. } { exact Hfrag. }
  { rewrite Hvlen, Hrest, !app_length. lia. }
  replace (sch ++ rest ++ post) with ((sch ++ text) ++ frag ++ post) by (rewrite Hrest; aa).
  rewrite Er. cbn [bind]. rewrite Hr. clear r Er Hr.
  rewrite dist_ok by (rewrite app_length; lia). cbn [bind].
  (* the host *)
  set (hp := dots1 ++ host ++ dots2).
  assert (Hhp : Forall host_char hp).
  { unfold hp. rewrite !Forall_app. split; [apply dots_host; exact Hd1|].
    split; [exact Hhost|apply dots_host; exact Hd2]. }
  destruct (first_slash tail) as [q [X [Etail [Hq HX]]]].
  assert (Etext : text = hp ++ q ++ X) by (rewrite Htext, Etail; unfold hp; aa).
  replace ((sch ++ text) ++ frag ++ post) with (sch ++ (hp ++ q) ++ X ++ frag ++ post) by (rewrite Etext; aa).
  rewrite (skipn_at _ _ beg Hbeg).
  destruct (strnchr_cut (hp ++ q) 47 X (frag ++ post) (length (sch ++ text) - beg)%nat) as [r [Er Hr]].
  { intros F. apply in_app_or in F. destruct F as [F|F]; [|contradiction].
    revert F. apply host_not_in; [exact Hhp|auto]. }
  { exact HX. } { rewrite Etext, !app_length. lia. }
  rewrite Er. cbn [bind].
  assert (Ee : match r with Some i => (length sch + i)%nat | None => length (sch ++ text) end
               = (length sch + length hp + length q)%nat).
  { destruct r as [i|]; rewrite app_length in Hr; [rewrite Hr; lia|]. rewrite app_length in *. lia. }
  clear Er Hr.
  replace (match r with Some i => (beg + i)%nat | None => length (sch ++ text) end)
    with (length sch + length hp + length q)%nat by (rewrite <- Ee, Hbeg; reflexivity).
  clear Ee r.
  replace (sch ++ (hp ++ q) ++ X ++ frag ++ post) with (sch ++ hp ++ q ++ X ++ frag ++ post) by aa.
  assert (Hq1 : forall c, hd_error q = Some c -> ~ host_char c).
  { intros c Hc. apply Htail. rewrite Etail. destruct q; [discriminate|exact Hc]. }
  rewrite lower_loop_ok; [|exact Hbeg|lia|exact Hhp|exact Hq1]. cbn [bind].
  set (lo := map lower hp).
  assert (Llo : length lo = length hp) by apply map_length.
  (* the '/' after the host *)
  set (tl0 := add_slash tail) in *.
  assert (Hslash : exists post', length post' = (length frag + length post - (length tl0 - length tail))%nat /\
    (if (length sch + length hp + length q =? beg + length hp)%nat
     then if (length (sch ++ text) =? length sch + length hp + length q)%nat
          then b <- wr (sch ++ lo ++ q ++ X ++ frag ++ post) (length (sch ++ text)) 47 ;;
               Ok (b, S (length (sch ++ text)), length (sch ++ text))
          else Ok (sch ++ lo ++ q ++ X ++ frag ++ post, length (sch ++ text), (length sch + length hp + length q)%nat)
     else n <- dist (length (sch ++ text)) (beg + length hp) ;;
          b <- memmove (sch ++ lo ++ q ++ X ++ frag ++ post) (beg + length hp + 1) (beg + length hp) n ;;
          b <- wr b (beg + length hp) 47 ;;
          Ok (b, S (length (sch ++ text)), (beg + length hp)%nat)) =
    Ok (sch ++ lo ++ tl0 ++ post', (length sch + length lo + length tl0)%nat, (length sch + length lo)%nat)).
  { assert (Lt : length (sch ++ text) = (length sch + length hp + length q + length X)%nat)
      by (rewrite Etext, !app_length; lia).
    assert (Ltail : length tail = (length q + length X)%nat) by (rewrite Etail; apply app_length).
    assert (Hpost : (1 <= length (frag ++ post))%nat) by (rewrite app_length; lia).
    destruct (Nat.eqb_spec (length sch + length hp + length q) (beg + length hp)) as [E|E].
    - destruct q as [|cq q]; [|cbn [length] in E; lia]. cbn [app length] in *.
      destruct (Nat.eqb_spec (length (sch ++ text)) (length sch + length hp + 0)) as [E2|E2].
      + destruct X as [|x X]; [|cbn [length] in Lt; lia]. cbn [app length] in *. 
        assert (Et0 : tl0 = [47]) by (unfold tl0; rewrite Etail; reflexivity).
        destruct (frag ++ post) as [|y fp] eqn:Efp; [cbn in Hpost; lia|].
        exists fp. split.
        * apply (f_equal (@length Z)) in Efp. rewrite app_length in Efp. cbn [length] in Efp. rewrite Et0. cbn [length]. lia.
        * replace (sch ++ lo ++ y :: fp) with ((sch ++ lo) ++ y :: fp) by aa.
          rewrite wr_app by (rewrite (app_length sch lo); lia). cbn [bind]. rewrite Et0.
          apply ok3; [aa| |]; cbn [length]; lia.
      + destruct HX as [->|[X' ->]]; [cbn [length] in Lt; lia|].
        assert (Et0 : tl0 = 47 :: X') by (unfold tl0; rewrite Etail; reflexivity).
        exists (frag ++ post). split; [rewrite app_length, Et0; cbn [length] in *; lia|].
        rewrite Et0. apply ok3; [reflexivity| |]; cbn [length] in *; lia.
    - destruct q as [|cq q]; [cbn [length] in E; lia|].
      assert (Ncq : cq <> 47) by (intros ->; apply Hq; left; reflexivity).
      assert (Et0 : tl0 = 47 :: (cq :: q) ++ X).
      { unfold tl0. rewrite Etail. cbn [app add_slash]. clear -Ncq.
        destruct cq as [|z|z]; try reflexivity. do 6 (try (destruct z as [z|z|]; try reflexivity)). congruence. }
      rewrite dist_ok by (cbn [length] in *; lia). cbn [bind].
      destruct (frag ++ post) as [|y fp] eqn:Efp; [cbn in Hpost; lia|].
      destruct (memmove_up (sch ++ lo) ((cq :: q) ++ X) y fp (beg + length hp + 1) (beg + length hp)
                  (length (sch ++ text) - (beg + length hp))) as [x Ex].
      { rewrite app_length. lia. } { rewrite app_length. lia. } { rewrite (app_length (cq :: q) X). cbn [length] in *. lia. }
      replace (sch ++ lo ++ (cq :: q) ++ X ++ y :: fp) with ((sch ++ lo) ++ ((cq :: q) ++ X) ++ y :: fp) by aa.
      rewrite Ex. cbn [bind]. rewrite wr_app by (rewrite app_length; lia). cbn [bind].
      exists fp. split.
      + apply (f_equal (@length Z)) in Efp. rewrite app_length in Efp. cbn in Efp. rewrite Et0.
        cbn [length]. rewrite app_length. cbn [length] in *. lia.
      + rewrite Et0. apply ok3; [aa| |]; cbn [length] in *; rewrite ?(app_length (cq :: q) X); cbn [length app] in *; rewrite ?(app_length q X); lia. }
  destruct Hslash as [post' [Lpost' ->]]. cbn [bind].
  assert (Ltl0 : (length tl0 - length tail <= 1)%nat).
  { unfold tl0, add_slash. destruct tail as [|c tail']; [cbn; lia|].
    destruct c as [|z|z]; cbn [length]; try lia.
    do 6 (try (destruct z as [z|z|]; cbn [length]; try lia)). }
  (* leading dots *)
  set (lh := map lower host).
  assert (Elo : lo = dots1 ++ lh ++ dots2).
  { unfold lo, hp, lh. rewrite !map_app. rewrite (lower_dots dots1), (lower_dots dots2) by assumption. reflexivity. }
  rewrite dist_ok by lia. cbn [bind].
  rewrite (skipn_at _ _ beg Hbeg).
  unfold strnspn. change (zs "." ++ [0]) with [46; 0].
  assert (Lh : lh = [] -> dots2 = []) by (unfold lh; intros F; apply Hempty; destruct host; [reflexivity|discriminate]).
  assert (Esp : nspn_loop same (lo ++ tl0 ++ post') [46; 0] 0 (length sch + length lo - beg) = Ok (0 + length dots1)%nat).
  { replace (lo ++ tl0 ++ post') with (dots1 ++ lh ++ dots2 ++ tl0 ++ post') by (rewrite Elo; aa).
    apply spn_dots; [exact Hd1|].
    { destruct lh as [|c lh'] eqn:El.
      - left. rewrite Elo, (Lh eq_refl), !app_nil_r. lia.
      - right. rewrite Elo, app_length. cbn [app length hd]. split; [lia|]. split; [discriminate|].
        destruct (no_outer_lower host Hout) as [F _]. fold lh in F. rewrite El in F. exact F. } }
  rewrite Esp. cbn [bind Nat.add].
  assert (Hlead : exists post2, length post2 = (length post' + length dots1)%nat /\
    (if (beg =? beg + length dots1)%nat
     then Ok (sch ++ lo ++ tl0 ++ post', (length sch + length lo + length tl0)%nat, (length sch + length lo)%nat)
     else n <- dist (length sch + length lo + length tl0) (beg + length dots1) ;;
          b <- memmove (sch ++ lo ++ tl0 ++ post') beg (beg + length dots1) n ;;
          Ok (b, (length sch + length lo + length tl0 - (beg + length dots1 - beg))%nat,
              (length sch + length lo - (beg + length dots1 - beg))%nat)) =
    Ok (sch ++ lh ++ dots2 ++ tl0 ++ post2, (length sch + length lh + length dots2 + length tl0)%nat,
        (length sch + length lh + length dots2)%nat)).
  { assert (Ll : length lo = (length dots1 + length lh + length dots2)%nat) by (rewrite Elo, !app_length; lia).
    destruct (Nat.eqb_spec beg (beg + length dots1)) as [E|E].
    - destruct dots1; [|cbn [length] in E; lia]. exists post'. split; [cbn [length]; lia|].
      rewrite Elo. cbn [app length] in *. apply ok3; [aa| |]; rewrite ?app_length; lia.
    - rewrite dist_ok by lia. cbn [bind].
      destruct (memmove_down sch dots1 (lh ++ dots2 ++ tl0) post' beg (beg + length dots1)
                  (length sch + length lo + length tl0 - (beg + length dots1))) as [J [LJ EJ]].
      { exact Hbeg. } { lia. } { rewrite !app_length. lia. }
      replace (sch ++ lo ++ tl0 ++ post') with (sch ++ dots1 ++ (lh ++ dots2 ++ tl0) ++ post') by (rewrite Elo; aa).
      rewrite EJ. cbn [bind]. exists (J ++ post'). split; [rewrite app_length; lia|].
      apply ok3; [aa| |]; lia. }
  destruct Hlead as [post2 [Lpost2 ->]]. cbn [bind].
  (* trailing dots *)
  rewrite dist_ok by lia. cbn [bind].
  rewrite (skipn_at _ _ beg Hbeg). unfold revnspn.
  assert (Htrail : exists k post3, (length post2 <= length post3)%nat /\
    rspn_loop same (lh ++ dots2 ++ tl0 ++ post2) [46; 0] [46; 0] (length sch + length lh + length dots2 - beg) = Ok k /\
    (let p := (length sch + length lh + length dots2 - (length sch + length lh + length dots2 - beg - k))%nat in
     (if (length sch + length lh + length dots2 =? p)%nat
     then Ok (sch ++ lh ++ dots2 ++ tl0 ++ post2, (length sch + length lh + length dots2 + length tl0)%nat,
              (length sch + length lh + length dots2)%nat)
     else n <- dist (length sch + length lh + length dots2 + length tl0) (length sch + length lh + length dots2) ;;
          b <- memmove (sch ++ lh ++ dots2 ++ tl0 ++ post2) (p + 1) (length sch + length lh + length dots2) n ;;
          Ok (b, (length sch + length lh + length dots2 + length tl0 - (length sch + length lh + length dots2 - (p + 1)))%nat,
              (length sch + length lh + length dots2 - (length sch + length lh + length dots2 - (p + 1)))%nat)) =
    Ok (sch ++ lh ++ tl0 ++ post3, (length sch + length lh + length tl0)%nat, (length sch + length lh)%nat))).
  { destruct (last_snoc_case _ lh) as [El|[lh' [y El]]].
    - rewrite El, (Lh El). exists 0%nat, post2. split; [lia|]. cbn [app length].
      replace (length sch + 0 + 0 - beg)%nat with 0%nat by lia. split; [reflexivity|].
      cbn [Nat.sub]. cbn zeta. rewrite Nat.sub_0_r, Nat.eqb_refl.
      apply ok3; [reflexivity| |]; lia.
    - assert (Ny : y <> 46).
      { destruct (no_outer_lower host Hout) as [_ F]. fold lh in F. rewrite El, last_last in F. exact F. }
      destruct (memmove_down (sch ++ lh) dots2 tl0 post2 (length sch + length lh)%nat
                  (length sch + length lh + length dots2)%nat (length tl0)) as [J [LJ EJ]].
      { rewrite app_length. reflexivity. } { rewrite app_length. reflexivity. } { reflexivity. }
      exists (length lh'), (J ++ post2). split; [rewrite app_length; lia|]. 
      assert (Ll : length lh = S (length lh')) by (rewrite El, app_length; cbn; lia).
      split.
      + rewrite El at 1. replace ((lh' ++ [y]) ++ dots2 ++ tl0 ++ post2) with (lh' ++ y :: dots2 ++ tl0 ++ post2) by aa.
        apply rspn_dots; [exact Hd2|exact Ny|lia].
      + cbn zeta.
        replace (length sch + length lh + length dots2 - (length sch + length lh + length dots2 - beg - length lh'))%nat
          with (length sch + length lh')%nat by lia.
        destruct (Nat.eqb_spec (length sch + length lh + length dots2) (length sch + length lh')); [lia|].
        rewrite dist_ok by lia. cbn [bind].
        replace (length sch + length lh' + 1)%nat with (length sch + length lh)%nat by lia.
        replace (length sch + length lh + length dots2 + length tl0 - (length sch + length lh + length dots2))%nat
          with (length tl0) by lia.
        replace (sch ++ lh ++ dots2 ++ tl0 ++ post2) with ((sch ++ lh) ++ dots2 ++ tl0 ++ post2) by aa.
        rewrite EJ. cbn [bind]. apply ok3; [aa| |]; lia. }
  destruct Htrail as [k [post3 [Lpost3 [Ek Etr]]]]. rewrite Ek. cbn [bind]. cbn zeta in Etr.
  rewrite Etr. cbn [bind]. clear Ek Etr k.
  (* the domain *)
  destruct (domain_ok sch lh (tl0 ++ post3) beg (no_outer_lower host Hout) Hbeg)
    as [a [d [r1 [r2 [Eh [Hdom [E1 [E2 E3]]]]]]]].
  rewrite Hbeg in E1 at 2. rewrite E1. cbn [bind]. fold (dot_pos beg r1). rewrite E2. cbn [bind].
  fold (dot_pos beg r2). rewrite E3.
  assert (Llh : length lh = (length a + length d)%nat) by (rewrite Eh; apply app_length).
  rewrite dist_ok by lia. cbn [bind].
  pose proof (path_query_room _ _ _ Hpq) as Lpq. destruct Hpq as [Epq [Hne [Hsf [Hnq Hargs]]]].
  destruct (assign_refers_ok (sch ++ lh) segs args post3 (length sch + length lh + length tl0)%nat
              (Own (beg + length a)) d (length sch + length lh - (beg + length a))%nat (length sch + length lh)%nat flags)
    as [junk [E _]]; try assumption.
  { rewrite app_length. reflexivity. }
  { intros F. apply in_app_or in F. destruct F as [F|F]; [contradiction|]. revert F.
    apply host_not_in; [|auto]. unfold lh. apply Forall_forall. intros x Hx. apply in_map_iff in Hx.
    destruct Hx as [z [<- Hz]]. apply lower_host. rewrite Forall_forall in Hhost. apply Hhost. exact Hz. }
  { lia. } { lia. }
  { cbn [dom_at]. exists (sch ++ a), []. split; [rewrite app_nil_r, Eh; aa|rewrite app_length; lia]. }
  { assert (length lh = length host) by apply map_length. lia. }
  exists d, junk. cbn zeta in *. split; [exact Hdom|].
  replace (sch ++ lh ++ tl0 ++ post3) with ((sch ++ lh) ++ render segs ++ args ++ post3).
  2:{ fold tl0 in Epq. rewrite Epq. aa. }
  rewrite E. fold lh.
  replace ((sch ++ lh) ++ normal_path (fetchable flags) segs ++ args)
    with (sch ++ lh ++ normal_path (fetchable flags) segs ++ args) by aa.
  replace (length sch + length lh - (beg + length a))%nat with (length d) by lia. reflexivity.
Qed.

(** ** create_absolute *)

Lemma scheme_chars : forall p s x, Forall2 eq_case s p ->
  (forall y, In y p -> y <> x /\ y <> x + 32 /\ y <> x - 32) -> ~ In x s.
Proof.
  intros p s x H. induction H as [|a b s p Hab H IH]; intros Hp F; [destruct F|].
  destruct F as [->|F].
  - destruct (Hp b (or_introl eq_refl)) as [A [B C]]. unfold eq_case in Hab. lia.
  - apply IH; [|exact F]. intros y Hy. apply Hp. right. exact Hy.
Qed.
Lemma http_safe : forall s x, x = 35 \/ x = 63 ->
  Forall2 eq_case s (zs "http://") \/ Forall2 eq_case s (zs "https://") -> ~ In x s.
Proof.
  intros s x Hx [H|H]; apply (scheme_chars _ _ x H); intros y Hy; cbn in Hy; lia.
Qed.

Lemma forall2_len : forall A B (R : A -> B -> Prop) a b, Forall2 R a b -> length a = length b.
Proof. intros A B R a b H. induction H; cbn; congruence. Qed.

Lemma starts_scheme : forall u p len, len = length p ->
  Forall2 eq_case (firstn len u) p <-> exists s r, has_scheme p u s r.
Proof.
  intros u p len ->. split.
  - intros H. exists (firstn (length p) u), (skipn (length p) u). split; [symmetry; apply firstn_skipn|exact H].
  - intros [s [r [-> H]]]. rewrite <- (forall2_len _ _ _ _ _ H), firstn_len_app. exact H.
Qed.
Lemma scheme_ext : forall p t j, (exists s r, has_scheme p t s r) -> exists s r, has_scheme p (t ++ j) s r.
Proof.
  intros p t j [s [r [-> H]]]. exists s, (r ++ j). split; [symmetry; apply app_assoc|exact H].
Qed.
Lemma scheme_cut : forall p t j s r, has_scheme p (t ++ j) s r -> (length p <= length t)%nat ->
  exists r', has_scheme p t s r' /\ r = r' ++ j.
Proof.
  intros p t j s r [E H] L. pose proof (forall2_len _ _ _ _ _ H) as Ls. exists (skipn (length s) t).
  assert (Es : firstn (length s) t = s).
  { apply (f_equal (firstn (length s))) in E. rewrite firstn_len_app in E.
    rewrite firstn_app_le in E by lia. exact E. }
  split.
  - split; [|exact H]. rewrite <- Es at 1. symmetry. apply firstn_skipn.
  - apply (f_equal (skipn (length s))) in E. rewrite skipn_len_app in E. rewrite <- E.
    rewrite skipn_app. replace (length s - length t)%nat with 0%nat by lia. reflexivity.
Qed.
Lemma scheme_nth : forall p t s r i c, has_scheme p t s r -> nth_error p i = Some c ->
  exists x, nth_error t i = Some x /\ eq_case x c.
Proof.
  intros p t s r i c [-> H]. revert i. induction H as [|a b s p Hab H IH]; intros i Hi; [destruct i; discriminate|].
  destruct i as [|i]; [injection Hi as <-; exists a; split; [reflexivity|exact Hab]|].
  apply IH. exact Hi.
Qed.
Lemma scheme_excl : forall t s1 r1 s2 r2, has_scheme (zs "http://") t s1 r1 -> has_scheme (zs "https://") t s2 r2 -> False.
Proof.
  intros t s1 r1 s2 r2 H1 H2.
  destruct (scheme_nth _ _ _ _ 4%nat 58 H1 eq_refl) as [x [E1 C1]].
  destruct (scheme_nth _ _ _ _ 4%nat 115 H2 eq_refl) as [y [E2 C2]].
  rewrite E1 in E2. injection E2 as <-. unfold eq_case in *. lia.
Qed.
Lemma scheme_det : forall p t s r s' r', has_scheme p t s r -> has_scheme p t s' r' -> s = s' /\ r = r'.
Proof.
  intros p t s r s' r' [E H] [E' H']. pose proof (forall2_len _ _ _ _ _ H). pose proof (forall2_len _ _ _ _ _ H').
  rewrite E in E'. split.
  - apply (f_equal (firstn (length s))) in E'. rewrite firstn_len_app in E'.
    replace (length s) with (length s') in E' by lia. rewrite firstn_len_app in E'. exact E'.
  - apply (f_equal (skipn (length s))) in E'. rewrite skipn_len_app in E'.
    replace (length s) with (length s') in E' by lia. rewrite skipn_len_app in E'. exact E'.
Qed.

Definition https : list Z := zs "https://".
Definition http : list Z := zs "http://".
Lemma https_nonul : nonul https. Proof. repeat constructor; discriminate. Qed.
Lemma http_nonul : nonul http. Proof. repeat constructor; discriminate. Qed.

Lemma slice_front : forall t j sz, sz = length t -> slice (t ++ j) 0 sz = Ok t.
Proof. intros t j sz H. exact (slice_ok [] t j 0 sz eq_refl H). Qed.
Lemma blit_front : forall b src, (length src <= length b)%nat ->
  blit b 0 src = Ok (src ++ skipn (length src) b).
Proof.
  intros b src H. rewrite <- (firstn_skipn (length src) b) at 1.
  apply (blit_ok [] (firstn (length src) b) (skipn (length src) b) src 0 eq_refl).
  rewrite firstn_length. lia.
Qed.

Lemma create_scheme_ok : forall b u t sz flags parts, readable u t 8 -> sz = length t ->
  ((abs_size sz <= length b)%nat \/
   ((2 * sz + 2 <= length b)%nat /\
    exists s r, has_scheme (zs "http://") t s r \/ has_scheme (zs "https://") t s r)) ->
  absolute t parts ->
  exists d junk, let val := normal (fetchable flags) parts in
    domain_of (p_host parts) d /\
    create_scheme b u sz flags =
      Ok (mkUrl (val ++ 0 :: d ++ 0 :: junk) (length val) (length val + 1) (length d)).
Proof.
  intros b u t sz flags parts [[j Hu] [H8 [R7 R8]]] Hsz Hb Habs.
  destruct Habs as [scheme rest text dots1 host dots2 tail segs args Hsch [frag [Erest [Ht35 Hfrag]]] Htext
                    Hd1 Hd2 Hout Hhost Hempty Htail Hpq].
  assert (Hb0 : (2 * sz + 2 <= length b)%nat) by (unfold abs_size in Hb; destruct Hb as [Hb|[Hb _]]; lia).
  unfold create_scheme, abs_size in *. cbn [normal p_scheme p_host p_segs p_args] in *. unfold normal.
  cbn [p_scheme p_host p_segs p_args].
  assert (Lhost : (length host <= length rest)%nat) by (rewrite Erest, Htext, !app_length; lia).
  destruct (starts_ok u https 8 ltac:(discriminate) https_nonul eq_refl H8) as [t8 [E8 I8]].
  destruct (starts_ok u http 7 ltac:(discriminate) http_nonul eq_refl (enough_le u 7 8 H8 ltac:(lia))) as [t7 [E7 I7]].
  unfold https in E8, I8. unfold http in E7, I7. rewrite E8. cbn [bind].
  rewrite starts_scheme in I8 by reflexivity. rewrite starts_scheme in I7 by reflexivity.
  rewrite Hu, (slice_front t j sz Hsz). cbn [bind].
  rewrite (blit_front b t) by lia. cbn [bind].
  (* both written schemes *)
  assert (Case : forall p k, scheme ++ rest = t -> k = length scheme -> Forall2 eq_case scheme p ->
     p = zs "http://" \/ p = zs "https://" ->
     exists d junk, domain_of (map lower host) d /\
       assign_anchor (t ++ skipn (length t) b) sz k flags =
       Ok (mkUrl ((scheme ++ map lower host ++ normal_path (fetchable flags) segs ++ args) ++ 0 :: d ++ 0 :: junk)
            (length (scheme ++ map lower host ++ normal_path (fetchable flags) segs ++ args))
            (length (scheme ++ map lower host ++ normal_path (fetchable flags) segs ++ args) + 1) (length d))).
  { intros p k Et Hk Hp Hpp. rewrite <- Et. rewrite <- app_assoc.
    assert (Hor : Forall2 eq_case scheme (zs "http://") \/ Forall2 eq_case scheme (zs "https://"))
      by (destruct Hpp; subst p; auto).
    assert (L7 : (7 <= length scheme)%nat).
    { rewrite (forall2_len _ _ _ _ _ Hp). destruct Hpp; subst p; cbn; lia. }
    apply (assign_anchor_ok scheme rest text frag dots1 host dots2 tail segs args
             (skipn (length (scheme ++ rest)) b) sz k flags); try assumption.
    - apply http_safe; [auto|exact Hor].
    - apply http_safe; [auto|exact Hor].
    - rewrite Hsz, <- Et. apply app_length.
    - rewrite skipn_length. pose proof (f_equal (@length Z) Et) as L. rewrite app_length in *. lia. }
  destruct Hsch as [H7|[H8'|[Hnone [-> ->]]]].
  - (* http *)
    assert (T7 : t7 = true) by (apply I7; rewrite Hu; apply scheme_ext; eauto).
    assert (T8 : t8 = false).
    { destruct t8; [|reflexivity]. destruct (proj1 I8 eq_refl) as [s [r Hs]].
      pose proof (R8 _ _ Hs) as L8. rewrite Hu in Hs. apply scheme_cut in Hs; [|exact L8].
      destruct Hs as [r' [Hs _]]. destruct (scheme_excl _ _ _ _ _ H7 Hs). }
    rewrite T8, <- Hu, E7, T7. cbn [bind].
    destruct H7 as [Et H7]. apply (Case (zs "http://")); auto.
    rewrite (forall2_len _ _ _ _ _ H7). reflexivity.
  - (* https *)
    assert (T8 : t8 = true) by (apply I8; rewrite Hu; apply scheme_ext; eauto).
    rewrite T8. destruct H8' as [Et H8'].
    apply (Case (zs "https://")); auto. rewrite (forall2_len _ _ _ _ _ H8'). reflexivity.
  - (* no scheme *)
    assert (Hb1 : (2 + 2 * sz + 9 <= length b)%nat).
    { destruct Hb as [Hb|[_ [s [r [Hs|Hs]]]]]; [exact Hb| |]; destruct (Hnone s r); contradiction. }
    assert (T8 : t8 = false).
    { destruct t8; [|reflexivity]. destruct (proj1 I8 eq_refl) as [s [r Hs]].
      pose proof (R8 _ _ Hs) as L8. rewrite Hu in Hs. apply scheme_cut in Hs; [|exact L8].
      destruct Hs as [r' [Hs _]]. destruct (proj2 (Hnone _ _) Hs). }
    assert (T7 : t7 = false).
    { destruct t7; [|reflexivity]. destruct (proj1 I7 eq_refl) as [s [r Hs]].
      pose proof (R7 _ _ Hs) as L8. rewrite Hu in Hs. apply scheme_cut in Hs; [|exact L8].
      destruct Hs as [r' [Hs _]]. destruct (proj1 (Hnone _ _) Hs). }
    rewrite T8, <- Hu, E7, T7. cbn [bind].
    change (zs "http://") with http. rewrite (blit_front b http) by (cbn [length http zs]; cbn; lia).
    cbn [bind].
    set (m := skipn (length http) b).
    assert (Lm : (2 * sz + 4 <= length m)%nat).
    { unfold m. rewrite skipn_length. change (length http) with 7%nat. lia. }
    rewrite <- (firstn_skipn (length t) m).
    rewrite (blit_ok http (firstn (length t) m)); [|reflexivity|rewrite firstn_length; lia]. cbn [bind].
    apply (assign_anchor_ok http t text frag dots1 host dots2 tail segs args
             (skipn (length t) m) (sz + 7)%nat 7%nat flags); try assumption; try reflexivity.
    + intros F. cbn in F. lia.
    + intros F. cbn in F. lia.
    + cbn. lia.
    + rewrite skipn_length.
      assert (length t = (length text + length frag)%nat) by (rewrite Erest at 1; apply app_length).
      lia.
Qed.

(** every text has parts *)
Lemma split_segs : forall w, exists segs, segs <> [] /\ render segs = 47 :: w /\ Forall slash_free segs /\
  (~ In 63 w -> Forall no_query segs).
Proof.
  induction w as [|c w [segs [Hne [E [Hs Hq]]]]].
  - exists [[]]. split; [discriminate|]. split; [reflexivity|]. split; [constructor; [intros []|constructor]|].
    intros _. constructor; [intros []|constructor].
  - destruct (Z.eq_dec c 47) as [->|Nc].
    + exists ([] :: segs). split; [discriminate|]. rewrite render_cons, E. split; [reflexivity|].
      split; [constructor; [intros []|exact Hs]|]. intros F. constructor; [intros []|]. apply Hq. intros G. apply F. right. exact G.
    + destruct segs as [|s segs]; [congruence|]. exists ((c :: s) :: segs).
      rewrite render_cons in *. injection E as E. split; [discriminate|]. split; [cbn; rewrite E; reflexivity|].
      inversion Hs; subst. split.
      * constructor; [|assumption]. intros [F|F]; [congruence|contradiction].
      * intros F. assert (G : Forall no_query (s :: segs)) by (apply Hq; intros G; apply F; right; exact G).
        inversion G; subst. constructor; [|assumption]. intros [X|X]; [apply F; left; exact X|contradiction].
Qed.
Lemma first_of : forall c (t : list Z), exists a b, t = a ++ b /\ ~ In c a /\ starts_or_empty c b.
Proof.
  intros c. induction t as [|x t [a [b [-> [Ha Hb]]]]].
  - exists [], []. split; [reflexivity|]. split; [intros []|left; reflexivity].
  - destruct (Z.eq_dec x c) as [->|N].
    + exists [], (c :: a ++ b). split; [reflexivity|]. split; [intros []|right; eauto].
    + exists (x :: a), b. split; [reflexivity|]. split; [|exact Hb]. intros [F|F]; [congruence|contradiction].
Qed.
Lemma add_slash_head : forall t, exists w, add_slash t = 47 :: w.
Proof.
  intros [|c t]; [eexists; reflexivity|]. destruct (Z.eq_dec c 47) as [->|N]; [eexists; reflexivity|].
  exists (c :: t). cbn [add_slash]. destruct c as [|z|z]; try reflexivity.
  do 6 (try (destruct z as [z|z|]; try reflexivity)). congruence.
Qed.
Lemma path_query_ex : forall w, exists segs args, path_query (47 :: w) segs args.
Proof.
  intros w. destruct (first_of 63 w) as [a [args [-> [Ha Hargs]]]].
  destruct (split_segs a) as [segs [Hne [E [Hs Hq]]]]. exists segs, args.
  split; [rewrite E; reflexivity|]. split; [exact Hne|]. split; [exact Hs|]. split; [apply Hq; exact Ha|exact Hargs].
Qed.
Lemma host_char_dec : forall c, {host_char c} + {~ host_char c}.
Proof.
  intros c.
  destruct (Z_le_dec 97 c), (Z_le_dec c 122), (Z_le_dec 65 c), (Z_le_dec c 90), (Z_le_dec 48 c), (Z_le_dec c 58);
    try (left; unfold host_char; lia); try (exfalso; lia);
    destruct (Z.eq_dec c 46), (Z.eq_dec c 45), (Z.eq_dec c 95);
    try (left; unfold host_char; lia); right; unfold host_char; lia.
Defined.
Lemma span_ex : forall (P : Z -> Prop), (forall c, {P c} + {~ P c}) -> forall t, exists a b, t = a ++ b /\ Forall P a /\
  (forall c, hd_error b = Some c -> ~ P c).
Proof.
  intros P dec. induction t as [|x t [a [b [-> [Ha Hb]]]]].
  - exists [], []. split; [reflexivity|]. split; [constructor|discriminate].
  - destruct (dec x) as [H|H].
    + exists (x :: a), b. split; [reflexivity|]. split; [constructor; assumption|exact Hb].
    + exists [], (x :: a ++ b). split; [reflexivity|]. split; [constructor|]. intros c E. injection E as <-. exact H.
Qed.
Lemma trail_ex : forall t : list Z, exists a D, t = a ++ D /\ Forall (eq 46) D /\ last a 0 <> 46.
Proof.
  intros t. induction t as [|x t IH] using rev_ind.
  - exists [], []. split; [reflexivity|]. split; [constructor|discriminate].
  - destruct (Z.eq_dec x 46) as [->|N].
    + destruct IH as [a [D [-> [HD Ha]]]]. exists a, (D ++ [46]). split; [aa|].
      split; [apply Forall_app; split; [exact HD|constructor; [reflexivity|constructor]]|exact Ha].
    + exists (t ++ [x]), []. split; [symmetry; apply app_nil_r|]. split; [constructor|]. rewrite last_last. exact N.
Qed.
Lemma scheme_of_ex : forall t, exists s r, scheme_of t s r.
Proof.
  intros t.
  assert (D : forall p, (exists s r, has_scheme p t s r) \/ (forall s r, ~ has_scheme p t s r)).
  { intros p. assert (D2 : {map tolower (firstn (length p) t) = map tolower p} + {map tolower (firstn (length p) t) <> map tolower p})
      by apply (list_eq_dec Z.eq_dec).
    assert (F : forall a n, map tolower a = map tolower n <-> Forall2 eq_case a n).
    { induction a as [|x a IH]; intros [|y n]; cbn [map]; split; intros H; try discriminate;
        try (inversion H; fail); try constructor; try reflexivity.
      - apply tolower_eq. injection H as H _. exact H.
      - apply IH. injection H as _ H. exact H.
      - inversion H; subst. f_equal; [apply tolower_eq; assumption|apply IH; assumption]. }
    destruct D2 as [E|E].
    - left. apply (starts_scheme t p _ eq_refl). apply F. exact E.
    - right. intros s r H. apply E. apply F. apply (starts_scheme t p _ eq_refl). eauto. }
  destruct (D (zs "http://")) as [[s [r H]]|N7]; [exists s, r; left; exact H|].
  destruct (D (zs "https://")) as [[s [r H]]|N8]; [exists s, r; right; left; exact H|].
  exists (zs "http://"), t. right. right. split; [|auto]. intros s r. split; auto.
Qed.
Lemma absolute_ex : forall t, exists parts, absolute t parts.
Proof.
  intros t. destruct (scheme_of_ex t) as [scheme [rest Hs]].
  destruct (first_of 35 rest) as [text [frag [Er [Ht Hf]]]].
  destruct (span_ex host_char host_char_dec text) as [hp [tail [Et [Hhp Htail]]]].
  destruct (span_ex (eq 46) (Z.eq_dec 46) hp) as [dots1 [core [Ehp [Hd1 Hcore]]]].
  destruct (trail_ex core) as [host [dots2 [Ec [Hd2 Hl]]]].
  destruct (add_slash_head tail) as [w Ew]. destruct (path_query_ex w) as [segs [args Hpq]].
  assert (Hempty : host = [] -> dots2 = []).
  { intros ->. cbn in Ec. subst core. destruct dots2 as [|y D]; [reflexivity|]. inversion Hd2; subst.
    destruct (Hcore 46 eq_refl eq_refl). }
  exists (mkParts scheme (map lower host) segs args).
  apply (absolute_intro t scheme rest text dots1 host dots2 tail segs args); try assumption.
  - exists frag. auto.
  - rewrite Et, Ehp, Ec. aa.
  - split; [|exact Hl]. destruct host as [|c host]; [discriminate|]. cbn [hd]. subst core.
    intros ->. apply (Hcore 46); reflexivity.
  - subst hp core. apply Forall_app in Hhp. destruct Hhp as [_ Hhp]. apply Forall_app in Hhp. tauto.
  - rewrite Ew. exact Hpq.
Qed.

(** ** The domain is determined *)

Lemma last_dot_unique : forall a b a' b' : list Z, a ++ 46 :: b = a' ++ 46 :: b' -> ~ In 46 b -> ~ In 46 b' ->
  a = a' /\ b = b'.
Proof.
  induction a as [|x a IH]; intros b a' b' E Hb Hb'.
  - destruct a' as [|y a']; [injection E as ->; auto|]. cbn in E. injection E as _ E. subst b. destruct Hb.
    apply in_or_app. right. left. reflexivity.
  - destruct a' as [|y a']; cbn in E; injection E as -> E.
    + subst b'. destruct Hb'. apply in_or_app. right. left. reflexivity.
    + destruct (IH _ _ _ E Hb Hb') as [-> ->]. auto.
Qed.
Lemma domain_of_det : forall h d1 d2, domain_of h d1 -> domain_of h d2 -> d1 = d2.
Proof.
  assert (In46 : forall a b : list Z, In 46 (a ++ 46 :: b)) by (intros; apply in_or_app; right; left; reflexivity).
  intros h d1 d2 H1 H2.
  destruct H1 as [h Hn|a b Hb Ha|pre a x b Hb Ha]; inversion H2 as [h' Hn' E1 E2|a' b' Hb' Ha' E1 E2|pre' a' x' b' Hb' Ha' E1 E2];
    clear H2; try reflexivity.
  - destruct Hn. rewrite <- E1. apply in_or_app. right. left. reflexivity.
  - exfalso. replace (pre' ++ 46 :: (a' ++ [x']) ++ 46 :: b') with ((pre' ++ 46 :: a' ++ [x']) ++ 46 :: b') in E1 by aa.
    apply last_dot_unique in E1; try assumption. destruct E1 as [<- _]. apply Ha.
    replace (pre' ++ 46 :: a' ++ [x']) with ((pre' ++ 46 :: a') ++ [x']) by aa. rewrite removelast_last. apply In46.
  - destruct Hn'. apply In46.
  - exfalso. replace (pre ++ 46 :: (a ++ [x]) ++ 46 :: b) with ((pre ++ 46 :: a ++ [x]) ++ 46 :: b) in E1 by aa.
    apply last_dot_unique in E1; try assumption. destruct E1 as [-> _]. apply Ha'.
    replace (pre ++ 46 :: a ++ [x]) with ((pre ++ 46 :: a) ++ [x]) by aa. rewrite removelast_last. apply In46.
  - replace (pre ++ 46 :: (a ++ [x]) ++ 46 :: b) with ((pre ++ 46 :: a ++ [x]) ++ 46 :: b) in E1 by aa.
    replace (pre' ++ 46 :: (a' ++ [x']) ++ 46 :: b') with ((pre' ++ 46 :: a' ++ [x']) ++ 46 :: b') in E1 by aa.
    apply last_dot_unique in E1; try assumption. destruct E1 as [E1 <-].
    replace (pre ++ 46 :: a ++ [x]) with ((pre ++ 46 :: a) ++ [x]) in E1 by aa.
    replace (pre' ++ 46 :: a' ++ [x']) with ((pre' ++ 46 :: a') ++ [x']) in E1 by aa.
    apply app_inj_tail in E1. destruct E1 as [E1 <-].
    apply last_dot_unique in E1; try assumption. destruct E1 as [_ <-]. reflexivity.
Qed.

(** ** Normal paths *)

Definition normal_segs (fetch : bool) (segs : list (list Z)) : list (list Z) :=
  match walk_segs [] segs with
  | [] => [[]]
  | st => st ++ (if dir_seg (last segs []) && fetch then [[]] else [])
  end.
Lemma normal_segs_render : forall fetch segs, render (normal_segs fetch segs) = normal_path fetch segs.
Proof.
  intros fetch segs. unfold normal_segs, normal_path. destruct (walk_segs [] segs) as [|s st]; [reflexivity|].
  rewrite render_app. destruct (dir_seg (last segs []) && fetch); reflexivity.
Qed.
Lemma normal_segs_ne : forall fetch segs, normal_segs fetch segs <> [].
Proof. intros. unfold normal_segs. destruct (walk_segs [] segs); discriminate. Qed.

Lemma removelast_incl : forall A (l : list A) x, In x (removelast l) -> In x l.
Proof.
  intros A l x H. destruct (last_snoc_case _ l) as [->|[l' [y ->]]]; [exact H|].
  rewrite removelast_last in H. apply in_or_app. left. exact H.
Qed.
Lemma walk_incl : forall segs st x, In x (walk_segs st segs) ->
  In x st \/ (In x segs /\ dir_seg x = false).
Proof.
  induction segs as [|s segs IH]; intros st x H; [left; exact H|].
  unfold walk_segs in H. cbn [fold_left] in H. fold (walk_segs (walk_seg st s) segs) in H.
  destruct (IH _ _ H) as [F|[F G]]; [|right; split; [right; exact F|exact G]].
  destruct (seg_cases s) as [->|[->|[->|[_ [_ [_ [Hd Hw]]]]]]]; cbn [walk_seg] in F.
  - left. exact F.
  - left. exact F.
  - left. apply removelast_incl. exact F.
  - rewrite Hw in F. apply in_app_or in F. destruct F as [F|[<-|[]]]; [left; exact F|].
    right. split; [left; reflexivity|exact Hd].
Qed.
Lemma normal_segs_in : forall fetch segs x, In x (normal_segs fetch segs) -> x = [] \/ (In x segs /\ dir_seg x = false).
Proof.
  intros fetch segs x H. unfold normal_segs in H.
  pose proof (walk_incl segs [] x) as W. destruct (walk_segs [] segs) as [|s st] eqn:E.
  - destruct H as [<-|[]]. left. reflexivity.
  - apply in_app_or in H. destruct H as [H|H].
    + destruct (W H) as [[]|F]. right. exact F.
    + destruct (dir_seg (last segs []) && fetch); [|destruct H]. destruct H as [<-|[]]. left. reflexivity.
Qed.
Lemma walk_plain : forall l st, Forall (fun s => dir_seg s = false) l -> walk_segs st l = st ++ l.
Proof.
  induction l as [|s l IH]; intros st H; [symmetry; apply app_nil_r|]. inversion H; subst.
  unfold walk_segs. cbn [fold_left]. fold (walk_segs (walk_seg st s) l).
  destruct (seg_cases s) as [->|[->|[->|[_ [_ [_ [_ Hw]]]]]]]; try discriminate.
  rewrite Hw, IH by assumption. aa.
Qed.
(** the normal form of a normal path is itself *)
Lemma normal_path_idem : forall fetch segs, normal_path fetch (normal_segs fetch segs) = normal_path fetch segs.
Proof.
  intros fetch segs. rewrite <- (normal_segs_render fetch segs).
  unfold normal_segs. 
  assert (P : Forall (fun s => dir_seg s = false) (walk_segs [] segs)).
  { apply Forall_forall. intros x Hx. destruct (walk_incl _ _ _ Hx) as [[]|[_ F]]. exact F. }
  destruct (walk_segs [] segs) as [|s st] eqn:E; [reflexivity|].
  unfold normal_path.
  destruct (dir_seg (last segs []) && fetch) eqn:D.
  - assert (W : walk_segs [] ((s :: st) ++ [[]]) = s :: st).
    { unfold walk_segs. rewrite fold_left_app. cbn [fold_left walk_seg]. exact (walk_plain (s :: st) [] P). }
    rewrite W, last_last. apply andb_prop in D. destruct D as [_ ->]. cbn [dir_seg andb].
    rewrite render_app. reflexivity.
  - rewrite app_nil_r. rewrite (walk_plain (s :: st) [] P). cbn [app].
    assert (L : dir_seg (last (s :: st) []) = false).
    { rewrite Forall_forall in P. apply P. destruct (@exists_last _ (s :: st) ltac:(discriminate)) as [l' [y Ey]].
      rewrite Ey, last_last. apply in_or_app. right. left. reflexivity. }
    rewrite L. cbn [andb]. rewrite app_nil_r. reflexivity.
Qed.

Definition norm (fetch : bool) (p : parts) : parts :=
  mkParts (p_scheme p) (p_host p) (normal_segs fetch (p_segs p)) (p_args p).
Lemma norm_text : forall fetch p, text_of (norm fetch p) = normal fetch p.
Proof. intros. unfold text_of, norm, normal. cbn [p_scheme p_host p_segs p_args]. rewrite normal_segs_render. reflexivity. Qed.

Lemma in_render : forall x segs, x <> 47 -> In x (render segs) <-> exists s, In s segs /\ In x s.
Proof.
  intros x segs Hx. induction segs as [|s segs IH]; [split; [intros []|intros [s [[] _]]]|].
  rewrite render_cons. split.
  - intros [F|F]; [congruence|]. apply in_app_or in F. destruct F as [F|F].
    + exists s. split; [left; reflexivity|exact F].
    + apply IH in F. destruct F as [s' [A B]]. exists s'. split; [right; exact A|exact B].
  - intros [s' [[<-|A] B]]; right; apply in_or_app; [left; exact B|right; apply IH; eauto].
Qed.

Lemma norm_valid : forall fetch p, valid_parts p -> valid_parts (norm fetch p).
Proof.
  intros fetch p [Hs [Hh [Hl [Ho [Hne [Hsf [Hnq [Ha H35]]]]]]]]. unfold valid_parts, norm. cbn [p_scheme p_host p_segs p_args].
  do 4 (split; [assumption|]). split; [apply normal_segs_ne|].
  assert (I : forall P : list Z -> Prop, P [] -> Forall P (p_segs p) -> Forall P (normal_segs fetch (p_segs p))).
  { intros P P0 HP. apply Forall_forall. intros x Hx. destruct (normal_segs_in _ _ _ Hx) as [->|[F _]]; [exact P0|].
    rewrite Forall_forall in HP. apply HP. exact F. }
  split; [apply I; [intros []|exact Hsf]|]. split; [apply I; [intros []|exact Hnq]|].
  split; [exact Ha|]. intros F. apply H35. apply in_or_app. apply in_app_or in F. destruct F as [F|F]; [left|right; exact F].
  apply in_render in F; [|discriminate]. destruct F as [s [A B]]. destruct (normal_segs_in _ _ _ A) as [->|[G _]]; [destruct B|].
  apply in_render; [discriminate|]. eauto.
Qed.

Lemma add_slash_eq : forall t, add_slash t = t \/ add_slash t = 47 :: t.
Proof.
  intros [|c t]; [right; reflexivity|]. cbn [add_slash]. destruct c as [|z|z]; auto.
  do 6 (try (destruct z as [z|z|]; auto)).
Qed.
Lemma lower_lower : forall c, lower (lower c) = lower c.
Proof.
  intros c. unfold lower. destruct (Z.leb_spec 65 c), (Z.leb_spec c 90); cbn [andb]; try reflexivity;
  repeat match goal with |- context [?a <=? ?b] => destruct (Z.leb_spec a b); cbn [andb] end; lia.
Qed.

Lemma absolute_valid : forall t p, absolute t p -> valid_parts p.
Proof.
  intros t p H. destruct H as [scheme rest text dots1 host dots2 tail segs args Hsch [frag [Erest [Ht35 Hfrag]]] Htext
                    Hd1 Hd2 Hout Hhost Hempty Htail Hpq].
  destruct Hpq as [Epq [Hne [Hsf [Hnq Hargs]]]].
  unfold valid_parts. cbn [p_scheme p_host p_segs p_args]. split.
  { destruct Hsch as [[_ H]|[[_ H]|[_ [-> _]]]]; auto. left. repeat constructor; unfold eq_case; auto. }
  split. { apply Forall_forall. intros x Hx. apply in_map_iff in Hx. destruct Hx as [z [<- Hz]]. apply lower_host.
           rewrite Forall_forall in Hhost. apply Hhost. exact Hz. }
  split; [rewrite map_map; apply map_ext; exact lower_lower|].
  split; [apply no_outer_lower; exact Hout|]. do 4 (split; [assumption|]).
  intros F. apply Ht35. rewrite Htext. do 3 (apply in_or_app; right).
  rewrite <- Epq in F. destruct (add_slash_eq tail) as [E|E]; rewrite E in F; [exact F|].
  destruct F as [F|F]; [discriminate|exact F].
Qed.

(** the text of a URL has the parts of the URL *)
Lemma valid_absolute : forall p, valid_parts p -> absolute (text_of p) p.
Proof.
  intros [scheme host segs args] [Hs [Hh [Hl [Ho [Hne [Hsf [Hnq [Ha H35]]]]]]]].
  cbn [p_scheme p_host p_segs p_args] in *. unfold text_of. cbn [p_scheme p_host p_segs p_args].
  set (r := host ++ render segs ++ args).
  assert (Eh : exists w, render segs ++ args = 47 :: w).
  { destruct segs as [|s segs]; [congruence|]. rewrite render_cons. eexists. reflexivity. }
  destruct Eh as [w Ew].
  replace (mkParts scheme host segs args) with (mkParts scheme (map lower host) segs args) by (rewrite Hl; reflexivity).
  apply (absolute_intro (scheme ++ r) scheme r r [] host [] (render segs ++ args) segs args).
  - destruct Hs as [Hs|Hs]; [left|right; left]; (split; [reflexivity|exact Hs]).
  - exists []. split; [symmetry; apply app_nil_r|]. split; [|left; reflexivity].
    unfold r. intros F. apply in_app_or in F. destruct F as [F|F]; [|contradiction].
    revert F. apply host_not_in; auto.
  - reflexivity.
  - constructor.
  - constructor.
  - exact Ho.
  - exact Hh.
  - reflexivity.
  - intros c E. rewrite Ew in E. injection E as <-. unfold host_char. lia.
  - rewrite Ew. cbn [add_slash]. rewrite <- Ew. split; [reflexivity|]. auto.
Qed.

(** ** URL objects *)

(** the object holds the URL with the parts [p]: its text and its domain, both
    terminated by a NUL, in its own block *)
Definition is_url (x : url) (p : parts) : Prop :=
  valid_parts p /\ exists d junk, domain_of (p_host p) d /\
    x = mkUrl (text_of p ++ 0 :: d ++ 0 :: junk) (length (text_of p)) (length (text_of p) + 1) (length d).

Lemma is_url_text : forall x p, is_url x p -> url_text x = text_of p.
Proof. intros x p [_ [d [j [_ ->]]]]. unfold url_text. cbn [u_mem u_len]. apply firstn_len_app. Qed.
Lemma is_url_domain : forall x p, is_url x p -> domain_of (p_host p) (url_domain x).
Proof.
  intros x p [_ [d [j [H ->]]]]. unfold url_domain. cbn [u_mem u_dom u_dlen].
  replace (text_of p ++ 0 :: d ++ 0 :: j) with ((text_of p ++ [0]) ++ d ++ 0 :: j) by aa.
  rewrite (skipn_at (text_of p ++ [0])) by (rewrite app_length; reflexivity).
  rewrite firstn_len_app. exact H.
Qed.

Lemma create_scheme_url : forall b u t sz flags parts, readable u t 8 -> sz = length t ->
  ((abs_size sz <= length b)%nat \/
   ((2 * sz + 2 <= length b)%nat /\
    exists s r, has_scheme (zs "http://") t s r \/ has_scheme (zs "https://") t s r)) ->
  absolute t parts ->
  exists x, create_scheme b u sz flags = Ok x /\ is_url x (norm (fetchable flags) parts).
Proof.
  intros b u t sz flags parts Hr Hsz Hb Ha.
  destruct (create_scheme_ok b u t sz flags parts Hr Hsz Hb Ha) as [d [junk [Hd E]]].
  eexists. split; [exact E|]. split; [apply norm_valid; exact (absolute_valid _ _ Ha)|].
  exists d, junk. rewrite norm_text. split; [exact Hd|reflexivity].
Qed.

Lemma relative_valid : forall par t p, valid_parts par -> relative par t p -> valid_parts p.
Proof.
  intros par t p [Hs [Hh [Hl [Ho [Hne [Hsf [Hnq [Ha H35]]]]]]]] Hr.
  destruct Hr as [text segs args [frag [Et [Ht Hf]]] Hd [Epq [Hne' [Hsf' [Hnq' Ha']]]]
                 |text segs args [frag [Et [Ht Hf]]] Hd [Epq [Hne' [Hsf' [Hnq' Ha']]]]];
    unfold valid_parts; cbn [p_scheme p_host p_segs p_args]; do 8 (split; [assumption|]).
  - rewrite <- Epq. exact Ht.
  - rewrite <- Epq. intros F. apply in_app_or in F. destruct F as [F|[F|F]]; [|discriminate|contradiction].
    apply H35. apply in_or_app. left. apply in_render in F; [|discriminate]. destruct F as [s [A B]].
    apply in_render; [discriminate|]. exists s. split; [apply removelast_incl; exact A|exact B].
Qed.

Lemma relative_ex : forall par t, (0 < length t)%nat -> exists p, relative par t p.
Proof.
  intros par t Hlen. destruct (first_of 35 t) as [text [frag [Et [Ht Hf]]]].
  destruct (Z.eq_dec (hd 0 t) 47) as [E|E].
  - assert (Ew : exists w, text = 47 :: w).
    { destruct text as [|c text].
      - destruct Hf as [->|[f ->]]; subst t; cbn in *; [lia|discriminate].
      - subst t. cbn in E. subst c. eauto. }
    destruct Ew as [w ->]. destruct (path_query_ex w) as [segs [args Hpq]].
    eexists. apply (rel_root par t (47 :: w) segs args); [exists frag; auto|exact E|exact Hpq].
  - assert (Ew : exists w, render (removelast (p_segs par)) ++ 47 :: text = 47 :: w).
    { destruct (removelast (p_segs par)); [eexists; reflexivity|]. rewrite render_cons. eexists. reflexivity. }
    destruct Ew as [w Ew]. destruct (path_query_ex w) as [segs [args Hpq]].
    eexists. apply (rel_dir par t text segs args); [exists frag; auto|exact E|rewrite Ew; exact Hpq].
Qed.

Lemma starts_dec : forall u n len, n <> [] -> nonul n -> len = length n -> enough u len ->
  (starts u n len = Ok true /\ exists s r, has_scheme n u s r) \/
  (starts u n len = Ok false /\ ~ exists s r, has_scheme n u s r).
Proof.
  intros u n len H1 H2 H3 H4. destruct (starts_ok u n len H1 H2 H3 H4) as [t [E I]].
  rewrite (starts_scheme u n len H3) in I. destruct t; [left|right]; (split; [exact E|]).
  - apply I. reflexivity.
  - intros F. apply I in F. discriminate.
Qed.

Lemma create_suburl_refused : forall b u sz flags parent, enough u 11 -> refused u ->
  create_suburl b u sz flags parent = Ok None.
Proof.
  intros b u sz flags parent Hu Hr. unfold create_suburl.
  destruct (starts_dec u (zs "mailto:") 7 ltac:(discriminate) ltac:(repeat constructor; discriminate) eq_refl (enough_le u 7 11 Hu ltac:(lia)))
    as [[E _]|[E N1]]; rewrite E; cbn [bind]; [reflexivity|].
  destruct (starts_dec u (zs "javascript:") 11 ltac:(discriminate) ltac:(repeat constructor; discriminate) eq_refl Hu)
    as [[E2 _]|[E2 N2]]; rewrite E2; cbn [bind]; [reflexivity|].
  destruct Hr as [F|[F|F]]; [contradiction|contradiction|].
  destruct u as [|c u]; [discriminate|]. cbn in F. subst c. reflexivity.
Qed.

Lemma scheme_len : forall p, valid_parts p ->
  (length (p_scheme p) = 7%nat /\ nth_error (p_scheme p) 4 = Some 58) \/
  (length (p_scheme p) = 8%nat /\ exists c, nth_error (p_scheme p) 4 = Some c /\ (c = 115 \/ c = 83)).
Proof.
  intros p [[H|H] _].
  - left. split; [exact (forall2_len _ _ _ _ _ H)|].
    destruct (scheme_nth (zs "http://") (p_scheme p) (p_scheme p) [] 4%nat 58) as [x [E C]].
    { split; [symmetry; apply app_nil_r|exact H]. } { reflexivity. }
    rewrite E. f_equal. unfold eq_case in C. lia.
  - right. split; [exact (forall2_len _ _ _ _ _ H)|].
    destruct (scheme_nth (zs "https://") (p_scheme p) (p_scheme p) [] 4%nat 115) as [x [E C]].
    { split; [symmetry; apply app_nil_r|exact H]. } { reflexivity. }
    exists x. split; [exact E|]. unfold eq_case in C. lia.
Qed.

Lemma rd_nth : forall (l : list Z) i x, nth_error l i = Some x -> rd l i = Ok x.
Proof. intros. apply rd_nth_error. assumption. Qed.

Lemma create_suburl_ok : forall b u t sz flags parent P parts, readable u t 11 -> sz = length t ->
  (0 < sz)%nat -> is_url parent P -> plain_scheme P -> ~ refused u -> relative P t parts ->
  (rel_size sz parent <= length b)%nat ->
  exists x, create_suburl b u sz flags parent = Ok (Some x) /\ is_url x (norm (fetchable flags) parts).
Proof.
  intros b u t sz flags parent P parts [[j Hu] [H11 _]] Hsz Hpos HP Hplain Href Hrel Hb.
  unfold create_suburl.
  destruct (starts_dec u (zs "mailto:") 7 ltac:(discriminate) ltac:(repeat constructor; discriminate) eq_refl (enough_le u 7 11 H11 ltac:(lia)))
    as [[_ F]|[E _]]; [destruct Href; left; exact F|]. rewrite E; cbn [bind]; clear E.
  destruct (starts_dec u (zs "javascript:") 11 ltac:(discriminate) ltac:(repeat constructor; discriminate) eq_refl H11)
    as [[_ F]|[E _]]; [destruct Href; right; left; exact F|]. rewrite E; cbn [bind]; clear E.
  destruct u as [|c0 u'] eqn:Eu0; [destruct H11 as [H11|H11]; [cbn in H11; lia|discriminate]|]. rewrite <- Eu0 in *.
  assert (R0 : rd u 0 = Ok c0) by (rewrite Eu0; reflexivity). rewrite R0. cbn [bind].
  destruct (Z.eqb_spec c0 35) as [F|N35]; [destruct Href; right; right; rewrite Eu0; exact F|].
  pose proof HP as HPv. destruct HP as [HV [d [junk [Hd ->]]]]. cbn [u_mem u_len u_dom u_dlen].
  unfold rel_size in Hb. cbn [u_len u_dlen] in Hb.
  pose proof (scheme_len P HV) as Hsl.
  pose proof (relative_valid P t parts HV Hrel) as HV'.
  pose proof HV as [Hs [Hh [Hl [Ho [Hne [Hsf [Hnq [Ha H35]]]]]]]].
  destruct P as [scheme host segs args]. cbn [p_scheme p_host p_segs p_args] in *. unfold plain_scheme in Hplain.
  cbn [p_scheme] in Hplain.
  set (val := text_of (mkParts scheme host segs args)) in *.
  assert (Eval : val = scheme ++ host ++ render segs ++ args) by reflexivity.
  (* the length of the scheme *)
  assert (Hc4 : exists c4, nth_error scheme 4 = Some c4 /\ (if negb (c4 =? 115) then 7%nat else 8%nat) = length scheme).
  { destruct Hsl as [[L N4]|[L [c [N4 C]]]].
    - exists 58. split; [exact N4|]. rewrite L. reflexivity.
    - exists c. split; [exact N4|]. destruct C as [-> | ->]; [rewrite L; reflexivity|]. contradiction. }
  destruct Hc4 as [c4 [N4 L4]].
  assert (R4 : rd (val ++ 0 :: d ++ 0 :: junk) 4 = Ok c4).
  { apply rd_nth. rewrite Eval, <- app_assoc. rewrite nth_error_app1; [exact N4|]. apply nth_error_Some. congruence. }
  rewrite R4. cbn [bind]. rewrite L4.
  assert (Lv : length val = (length scheme + length host + length (render segs) + length args)%nat)
    by (rewrite Eval, !app_length; lia).
  rewrite dist_ok by lia. cbn [bind].
  assert (Ers : exists w, render segs = 47 :: w).
  { destruct segs as [|s segs']; [congruence|]. rewrite render_cons. eexists. reflexivity. }
  destruct Ers as [w Ew].
  assert (Hn47 : ~ In 47 host) by (apply host_not_in; auto).
  assert (Esl : strnchr (skipn (length scheme) (val ++ 0 :: d ++ 0 :: junk)) 47 (length val - length scheme) = Ok (Some (length host))).
  { rewrite Eval, Ew.
    replace ((scheme ++ host ++ (47 :: w) ++ args) ++ 0 :: d ++ 0 :: junk)
      with (scheme ++ host ++ 47 :: w ++ args ++ 0 :: d ++ 0 :: junk) by aa.
    rewrite skipn_len_app. apply strnchr_found; [exact Hn47|].
    rewrite !app_length. cbn [length]. lia. }
  rewrite Esl. cbn [bind].
  (* the fragment *)
  assert (Hn63 : ~ In 63 (scheme ++ host)).
  { intros F. apply in_app_or in F. destruct F as [F|F]; [revert F; apply http_safe; auto|].
    revert F. apply host_not_in; auto. }
  assert (Hcut : forall text frag, t = text ++ frag -> ~ In 35 text -> starts_or_empty 35 frag ->
    exists r, strnchr u 35 sz = Ok r /\ (match r with Some p => p | None => sz end) = length text).
  { intros text frag Et Ht Hf. rewrite Hu, Et, <- app_assoc. apply strnchr_cut; [exact Ht|exact Hf|].
    rewrite Hsz, Et. apply app_length. }
  assert (Hhd : hd 0 t = c0).
  { destruct t as [|x t']; [cbn in Hsz; lia|]. rewrite Hu in Eu0. injection Eu0 as -> _. reflexivity. }
  (* the copy into the new block *)
  assert (Copy : forall A text, (length A + length text + length d + 2 <= length b)%nat ->
     (exists X, val = A ++ X) -> (exists frag, t = text ++ frag) ->
     exists post, (length d + 2 <= length post)%nat /\
     (s <- slice (val ++ 0 :: d ++ 0 :: junk) 0 (length A) ;;
      b <- blit b 0 s ;;
      s <- slice u 0 (length text) ;;
      blit b (length A) s) = Ok (A ++ text ++ post)).
  { intros A text HL [X HX] [frag Hfr]. rewrite HX, <- app_assoc, slice_front by reflexivity. cbn [bind].
    rewrite blit_front by lia. cbn [bind].
    rewrite Hu, Hfr, <- app_assoc, slice_front by reflexivity. cbn [bind].
    rewrite <- (firstn_skipn (length text) (skipn (length A) b)).
    rewrite blit_ok; [|reflexivity|rewrite firstn_length, skipn_length; lia].
    eexists. split; [|reflexivity]. rewrite !skipn_length. lia. }
  assert (Fin : forall b1 segs' args' post, 
     parts = mkParts scheme host segs' args' ->
     b1 = (scheme ++ host) ++ render segs' ++ args' ++ post -> (length d + 2 <= length post)%nat ->
     exists x, (r <- assign_refers b1 (length scheme + length host + length (render segs') + length args')
                   (Ext (skipn (length val + 1) (val ++ 0 :: d ++ 0 :: junk))) (length d) (length scheme + length host) flags ;;
                Ok (Some r)) = Ok (Some x) /\ is_url x (norm (fetchable flags) parts)).
  { intros b1 segs' args' post -> -> Hp.
    destruct HV' as [_ [_ [_ [_ [Hne' [Hsf' [Hnq' [Ha' _]]]]]]]]. cbn [p_scheme p_host p_segs p_args] in *.
    destruct (assign_refers_ok (scheme ++ host) segs' args' post (length scheme + length host + length (render segs') + length args')%nat
       (Ext (skipn (length val + 1) (val ++ 0 :: d ++ 0 :: junk))) d (length d) (length scheme + length host)%nat flags)
      as [jk [E _]]; try assumption; try reflexivity.
    { symmetry. apply app_length. }
    { exists (0 :: junk). replace (val ++ 0 :: d ++ 0 :: junk) with ((val ++ [0]) ++ d ++ 0 :: junk) by aa.
      apply skipn_at. rewrite app_length. reflexivity. }
    cbn zeta in E. rewrite E. cbn [bind]. eexists. split; [reflexivity|]. split.
    { apply norm_valid. apply (relative_valid _ _ _ HV Hrel). }
    exists d, jk. rewrite norm_text. unfold normal. cbn [p_scheme p_host p_segs p_args norm].
    split; [exact Hd|]. rewrite (app_assoc scheme host). reflexivity. }
  destruct Hrel as [text segs' args' [frag [Et [Ht Hf]]] Hd0 Hpq|text segs' args' [frag [Et [Ht Hf]]] Hd0 Hpq].
  - destruct (Hcut text frag Et Ht Hf) as [r [Er Hr]]. rewrite Er. cbn [bind]. rewrite Hr.
    rewrite Hhd in Hd0. subst c0. cbn [Z.eqb Pos.eqb bind].
    destruct (Copy (scheme ++ host) text) as [post [Lpost EC]].
    { rewrite app_length. rewrite Et, app_length in Hsz. lia. }
    { exists (render segs ++ args). rewrite Eval. aa. } { eauto. }
    rewrite app_length in EC.
    pose proof (path_query_room _ _ _ Hpq) as Lpq. destruct Hpq as [Epq _].
    destruct (slice (val ++ 0 :: d ++ 0 :: junk) 0 (length scheme + length host)) as [s1| |]; cbn [bind] in *; try discriminate.
    destruct (blit b 0 s1) as [b1| |]; cbn [bind] in *; try discriminate.
    destruct (slice u 0 (length text)) as [s2| |]; cbn [bind] in *; try discriminate.
    rewrite EC. cbn [bind].
    replace (length scheme + length host + length text)%nat
      with (length scheme + length host + length (render segs') + length args')%nat by lia.
    apply (Fin _ segs' args' post eq_refl); [|exact Lpost]. rewrite Epq. aa.
  - destruct (Hcut text frag Et Ht Hf) as [r [Er Hr]]. rewrite Er. cbn [bind]. rewrite Hr.
    rewrite Hhd in Hd0. destruct (Z.eqb_spec c0 47) as [F|_]; [contradiction|].
    (* the directory of the parent *)
    assert (Eq : strnchp (val ++ 0 :: d ++ 0 :: junk) 63 (length val) = Ok (length ((scheme ++ host) ++ render segs))).
    { replace (val ++ 0 :: d ++ 0 :: junk) with (((scheme ++ host) ++ render segs) ++ args ++ 0 :: d ++ 0 :: junk)
        by (rewrite Eval; aa).
      apply strnchp_cut; [|exact Ha|rewrite Lv, !app_length; lia].
      intros F. apply in_app_or in F. destruct F as [F|F]; [contradiction|]. exact (render_no_query _ Hnq F). }
    rewrite Eq. cbn [bind].
    cbn [p_segs] in Hpq. set (dir := render (removelast segs)) in *. set (lst := last segs []).
    assert (Ers : render segs = dir ++ 47 :: lst).
    { unfold dir, lst. rewrite (app_removelast_last [] Hne) at 1. rewrite render_app, render_cons. cbn [render map concat].
      rewrite app_nil_r. reflexivity. }
    assert (Hlst : ~ In 47 lst).
    { rewrite (app_removelast_last [] Hne) in Hsf. apply Forall_app in Hsf. destruct Hsf as [_ Hsf]. inversion Hsf. assumption. }
    assert (Erev : revnchr (val ++ 0 :: d ++ 0 :: junk) 47 (length ((scheme ++ host) ++ render segs)) = Ok (Some (length ((scheme ++ host) ++ dir)))).
    { unfold revnchr. rewrite Eval, Ers.
      replace ((scheme ++ host ++ (dir ++ 47 :: lst) ++ args) ++ 0 :: d ++ 0 :: junk)
        with (((scheme ++ host) ++ dir) ++ 47 :: lst ++ args ++ 0 :: d ++ 0 :: junk) by aa.
      replace (length ((scheme ++ host) ++ dir ++ 47 :: lst)) with (length ((scheme ++ host) ++ dir) + 1 + length lst)%nat
        by (rewrite !app_length; cbn [length]; lia).
      apply rev_found. exact Hlst. }
    rewrite Erev. cbn [bind].
    destruct (Copy (((scheme ++ host) ++ dir) ++ [47]) text) as [post [Lpost EC]].
    { rewrite Ers in Lv. rewrite !app_length in *. cbn [length] in *. rewrite Et, app_length in Hsz. lia. }
    { exists (lst ++ args). rewrite Eval, Ers. aa. } { eauto. }
    rewrite (app_length ((scheme ++ host) ++ dir) [47]) in EC. cbn [length] in EC.
    pose proof (path_query_room _ _ _ Hpq) as Lpq. destruct Hpq as [Epq _].
    destruct (slice (val ++ 0 :: d ++ 0 :: junk) 0 (length ((scheme ++ host) ++ dir) + 1)) as [s1| |]; cbn [bind] in *; try discriminate.
    destruct (blit b 0 s1) as [b1| |]; cbn [bind] in *; try discriminate.
    destruct (slice u 0 (length text)) as [s2| |]; cbn [bind] in *; try discriminate.
    rewrite EC. cbn [bind].
    replace (length ((scheme ++ host) ++ dir) + 1 + length text)%nat
      with (length scheme + length host + length (render segs') + length args')%nat.
    2:{ rewrite app_length in Lpq. cbn [length] in Lpq. rewrite !app_length. lia. }
    apply (Fin _ segs' args' post eq_refl); [|exact Lpost].
    replace ((((scheme ++ host) ++ dir) ++ [47]) ++ text ++ post) with ((scheme ++ host) ++ (dir ++ 47 :: text) ++ post) by aa.
    rewrite Epq. aa.
Qed.

Lemma strcaseeq_ok : forall a b j j', nonul a -> nonul b ->
  exists e, strcaseeq (a ++ 0 :: j) (b ++ 0 :: j') = Ok e /\ (e = true <-> Forall2 eq_case a b).
Proof.
  induction a as [|x a IH]; intros b j j' Ha Hb.
  - destruct b as [|y b].
    + exists true. split; [reflexivity|]. split; [constructor|reflexivity].
    + inversion Hb; subst. exists false. split; [|split; [discriminate|intros F; inversion F]].
      cbn [app strcaseeq]. destruct (Z.eqb_spec (tolower 0) (tolower y)) as [E|_]; [|reflexivity].
      symmetry in E. apply (proj1 (tolower_0 y)) in E. contradiction.
  - inversion Ha; subst. destruct b as [|y b].
    + exists false. split; [|split; [discriminate|intros F; inversion F]].
      cbn [app strcaseeq]. destruct (Z.eqb_spec (tolower x) (tolower 0)) as [E|_]; [|reflexivity].
      apply (proj1 (tolower_0 x)) in E. contradiction.
    + inversion Hb; subst. cbn [app strcaseeq].
      destruct (Z.eqb_spec (tolower x) (tolower y)) as [E|E].
      * destruct (Z.eqb_spec x 0); [contradiction|].
        destruct (IH b j j') as [e [Ee He]]; [assumption|assumption|]. exists e. split; [exact Ee|]. rewrite He.
        split; intros F; [constructor; [apply tolower_eq; exact E|exact F]|inversion F; assumption].
      * exists false. split; [reflexivity|]. split; [discriminate|]. intros F. inversion F; subst.
        destruct E. apply tolower_eq. assumption.
Qed.

Lemma domain_incl : forall h d, domain_of h d -> exists a, h = a ++ d.
Proof.
  intros h d H. destruct H as [h _|a b _ _|pre a x b _ _]; [exists []; reflexivity|exists []; reflexivity|].
  exists (pre ++ [46]). aa.
Qed.
Lemma eq_case_lower : forall a b, eq_case a b -> lower a = a -> lower b = b -> a = b.
Proof.
  intros a b H Ha Hb. unfold eq_case, lower in *.
  destruct (Z.leb_spec 65 a), (Z.leb_spec a 90); cbn [andb] in Ha; try lia;
  destruct (Z.leb_spec 65 b), (Z.leb_spec b 90); cbn [andb] in Hb; lia.
Qed.
Lemma domains_equal : forall p1 p2 d1 d2, valid_parts p1 -> valid_parts p2 -> domain_of (p_host p1) d1 ->
  domain_of (p_host p2) d2 -> nonul d1 /\ nonul d2 /\ (Forall2 eq_case d1 d2 <-> d1 = d2).
Proof.
  intros p1 p2 d1 d2 [_ [H1 [L1 _]]] [_ [H2 [L2 _]]] D1 D2.
  destruct (domain_incl _ _ D1) as [a1 E1]. destruct (domain_incl _ _ D2) as [a2 E2].
  assert (N : forall h a d, h = a ++ d -> Forall host_char h -> map lower h = h -> nonul d /\ map lower d = d).
  { intros h a d -> Hh Hl. rewrite map_app in Hl. split.
    - apply Forall_app in Hh. destruct Hh as [_ Hh]. eapply Forall_impl; [|exact Hh]. intros c Hc.
      apply host_char_safe in Hc. tauto.
    - apply (f_equal (skipn (length (map lower a)))) in Hl. rewrite skipn_len_app, map_length, skipn_len_app in Hl. exact Hl. }
  destruct (N _ _ _ E1 H1 L1) as [N1 M1]. destruct (N _ _ _ E2 H2 L2) as [N2 M2].
  split; [exact N1|]. split; [exact N2|]. split.
  - clear -M1 M2. intros F. induction F as [|x y d1 d2 Hxy F IH]; [reflexivity|].
    cbn in M1, M2. injection M1 as X1 M1. injection M2 as X2 M2. rewrite (eq_case_lower x y) by assumption. f_equal. auto.
  - intros ->. clear. induction d2; constructor; [left; reflexivity|assumption].
Qed.

(** ** What a call with a defined result needs *)

Lemma bind_inv : forall A B (r : res A) (k : A -> res B) y, (x <- r ;; k x) = Ok y ->
  exists x, r = Ok x /\ k x = Ok y.
Proof. intros A B [x|e|] k y H; try discriminate. eauto. Qed.

Lemma strn_cmp_reads : forall fold ls w x ln, strn_cmp fold w ls x ln = Ok 0%nat -> (ls <= ln)%nat ->
  (ls <= length w)%nat.
Proof.
  intros fold. induction ls as [|ls IH]; intros w x ln H L; [lia|]. destruct ln as [|ln]; [lia|]. cbn [strn_cmp] in H.
  apply bind_inv in H. destruct H as [cw [E1 H]]. apply bind_inv in H. destruct H as [cx [E2 H]].
  destruct w as [|c w]; [discriminate|]. destruct (negb (fold cw =? fold cx)); [discriminate|].
  apply IH in H; [cbn [tl length] in *; lia|lia].
Qed.
Lemma strn_loop_reads : forall fold ls s n nsz pos r, strn_loop fold s ls n nsz pos = Ok r -> (ls <= nsz)%nat ->
  (ls <= length s)%nat.
Proof.
  intros fold. induction ls as [|ls IH]; intros s n nsz pos r H L; [lia|]. cbn [strn_loop] in H.
  apply bind_inv in H. destruct H as [cs [E1 H]]. apply bind_inv in H. destruct H as [cn [E2 H]].
  destruct s as [|c s]; [discriminate|]. cbn [tl] in H.
  destruct (fold cs =? fold cn).
  - apply bind_inv in H. destruct H as [k [E3 H]]. destruct (Nat.eqb_spec k 0) as [->|N].
    + apply strn_cmp_reads in E3; [exact E3|exact L].
    + apply IH in H; [cbn; lia|lia].
  - apply IH in H; [cbn; lia|lia].
Qed.
Lemma starts_reads : forall u n len t, n <> [] -> nonul n -> len = length n -> starts u n len = Ok t -> enough u len.
Proof.
  intros u n len t Hne Hn Hl H. unfold starts, strxstr, str_gen in H. apply bind_inv in H. destruct H as [r [H _]].
  apply bind_inv in H. destruct H as [c [E1 H]]. destruct (Z.eqb_spec c 0) as [->|Nc].
  - right. destruct u as [|c u]; [discriminate|]. cbn in E1. injection E1 as ->. reflexivity.
  - left. apply bind_inv in H. destruct H as [c' [E2 H]]. destruct n as [|x n]; [congruence|]. cbn in E2. injection E2 as <-.
    assert (Nx : x <> 0) by (inversion Hn; assumption).
    destruct (Z.eqb_spec x 0); [contradiction|]. rewrite (strlen_lit (x :: n) Hn) in H. cbn [bind] in H.
    rewrite <- Hl in H. rewrite Nat.ltb_irrefl in H. apply strn_loop_reads in H; [exact H|lia].
Qed.
Lemma strnchr_bound : forall s c n e, strnchr s c n = Ok (Some e) -> (e < n)%nat.
Proof.
  intros s c n e. unfold strnchr.
  assert (G : forall n s pos e, chr_loop same c s pos n = Ok (Some e) -> (e < pos + n)%nat).
  { clear. induction n as [|n IH]; intros s pos e H; destruct s as [|x s]; cbn [chr_loop] in H; try discriminate.
    destruct (c =? same x); [injection H as <-; lia|apply IH in H; lia]. }
  intros H. apply G in H. lia.
Qed.
Lemma anchor_reads : forall b sz beg flags x, assign_anchor b sz beg flags = Ok x -> (beg <= sz)%nat.
Proof.
  intros b sz beg flags x H. unfold assign_anchor in H. apply bind_inv in H. destruct H as [r [E1 H]].
  apply bind_inv in H. destruct H as [n [E2 _]]. unfold dist in E2.
  assert (L : (match r with Some e => e | None => sz end <= sz)%nat).
  { destruct r as [e|]; [|lia]. apply strnchr_bound in E1. lia. }
  destruct (Nat.ltb_spec (match r with Some e => e | None => sz end) beg); [discriminate|lia].
Qed.
Lemma create_scheme_defined : forall b u sz flags x, create_scheme b u sz flags = Ok x ->
  (sz <= length u)%nat /\ readable u (firstn sz u) 8.
Proof.
  intros b u sz flags x H. unfold create_scheme in H.
  apply bind_inv in H. destruct H as [t8 [E8 H]].
  pose proof (starts_reads u https 8 t8 ltac:(discriminate) https_nonul eq_refl E8) as En.
  assert (G : forall p n, p = zs "http://" \/ p = zs "https://" -> n = length p -> forall s r, has_scheme p u s r ->
     starts u p n = Ok true).
  { intros p n Hp -> s r Hs.
    assert (A1 : p <> []) by (destruct Hp; subst p; discriminate).
    assert (A2 : nonul p) by (destruct Hp; subst p; [apply http_nonul|apply https_nonul]).
    assert (A3 : enough u (length p)) by (apply (enough_le u _ 8); [exact En|destruct Hp; subst p; cbn; lia]).
    destruct (starts_dec u p (length p) A1 A2 eq_refl A3) as [[E _]|[_ F]]; [exact E|destruct F; eauto]. }
  assert (Len : forall s0 l, slice u 0 sz = Ok s0 -> l = sz -> (l <= length u)%nat).
  { intros s0 l E ->. unfold slice in E. destruct (Nat.leb_spec (0 + sz) (length u)); [lia|discriminate]. }
  assert (Fin : (sz <= length u)%nat -> 
     (forall s r, has_scheme (zs "http://") u s r -> (7 <= sz)%nat) ->
     (forall s r, has_scheme (zs "https://") u s r -> (8 <= sz)%nat) ->
     (sz <= length u)%nat /\ readable u (firstn sz u) 8).
  { intros L A B. split; [exact L|]. split; [exists (skipn sz u); symmetry; apply firstn_skipn|].
    split; [exact En|]. rewrite firstn_length, Nat.min_l by exact L. auto. }
  destruct t8.
  - apply bind_inv in H. destruct H as [s0 [E0 H]]. apply bind_inv in H. destruct H as [b1 [_ H]].
    apply anchor_reads in H. apply Fin; [eapply Len; [exact E0|reflexivity]| |]; intros; lia.
  - apply bind_inv in H. destruct H as [t7 [E7 H]].
    assert (N8 : forall s r, has_scheme (zs "https://") u s r -> (8 <= sz)%nat).
    { intros s r Hs. pose proof (G (zs "https://") 8%nat (or_intror eq_refl) eq_refl s r Hs) as E. rewrite E8 in E. discriminate. }
    destruct t7.
    + apply bind_inv in H. destruct H as [s0 [E0 H]]. apply bind_inv in H. destruct H as [b1 [_ H]].
      apply anchor_reads in H. apply Fin; [eapply Len; [exact E0|reflexivity]| |exact N8]; intros; lia.
    + apply bind_inv in H. destruct H as [b1 [_ H]]. apply bind_inv in H. destruct H as [s0 [E0 _]].
      apply Fin; [eapply Len; [exact E0|reflexivity]| |exact N8].
      intros s r Hs. pose proof (G (zs "http://") 7%nat (or_introl eq_refl) eq_refl s r Hs) as E. rewrite E7 in E. discriminate.
Qed.
