(** Lemmas about the model of getopt_long and coda_getopt_parse. *)

From Coq Require Import ZArith List Bool Lia Permutation.
From Verif Require Import Base Fd_Model Daemon_Spec Getopt_Model Getopt_Spec.
Import ListNotations.
Local Open Scope Z_scope.

(** *** lists *)

Lemma firstn_len : forall A (a b : list A) n, n = length a -> firstn n (a ++ b) = a.
Proof. intros A a b n ->. rewrite firstn_app, Nat.sub_diag, firstn_all, firstn_O, app_nil_r. reflexivity. Qed.

Lemma skipn_len : forall A (a b : list A) n, n = length a -> skipn n (a ++ b) = b.
Proof. intros A a b n ->. rewrite skipn_app, Nat.sub_diag, skipn_all. reflexivity. Qed.

Lemma rd_len : forall A (a : list A) x b n, n = length a -> rd (a ++ x :: b) n = Ok x.
Proof. intros A a x b n ->. unfold rd. rewrite nth_error_app2, Nat.sub_diag by lia. reflexivity. Qed.

Lemma str_same_iff : forall a b, str_same a b = true <-> a = b.
Proof.
  induction a as [|x a IH]; intros [|y b]; cbn; split; intros H; try discriminate; auto.
  - apply andb_prop in H. destruct H as [E H]. apply Z.eqb_eq in E. apply IH in H. congruence.
  - injection H as -> ->. rewrite Z.eqb_refl. apply IH. reflexivity.
Qed.

Lemma nonopt_operand : forall a, nonopt a = true <-> operand a.
Proof.
  intros a. unfold operand. destruct a as [|c [|d a]]; cbn.
  - split; auto. intros _. right. discriminate.
  - split; auto. intros _. destruct (Z.eqb_spec c 45) as [->|N]; [auto|].
    right. intros r E. congruence.
  - destruct (Z.eqb_spec c 45) as [->|N]; cbn; split; intros H; try discriminate; auto.
    + destruct H as [H|H]; [discriminate|]. exfalso. eapply H; reflexivity.
    + right. intros r E. congruence.
Qed.

Lemma count_nonopts_app : forall ops rest, Forall operand ops ->
  count_nonopts (ops ++ rest) = (length ops + count_nonopts rest)%nat.
Proof.
  induction ops as [|a ops IH]; intros rest F; cbn; auto. inversion F; subst.
  destruct (nonopt a) eqn:E; [f_equal; auto|].
  apply nonopt_operand in H1. congruence.
Qed.

(** *** states *)

(** between two arguments: [D] has been taken, the operands [non] have been passed, [rest] is
    to be read.  The array has [non] before the last options taken until the next call. *)
Definition betw0 (st : gst) (D non rest : list (list Z)) : Prop :=
  (g_next st = None \/ g_next st = Some []) /\
  ((exists done mid, non <> [] /\ D = done ++ mid /\ g_argv st = done ++ non ++ mid ++ rest /\
     g_ind st = (length done + length non + length mid)%nat /\
     Nat.min (g_first st) (g_ind st) = length done /\
     Nat.min (g_last st) (g_ind st) = (length done + length non)%nat) \/
   (non = [] /\ g_argv st = D ++ rest /\ g_ind st = length D /\
     Nat.min (g_first st) (g_ind st) = Nat.min (g_last st) (g_ind st))).
(** the same, with operands of [non] still ahead *)
Definition betw (posix : bool) (st : gst) (D non rest : list (list Z)) : Prop :=
  if posix then non = [] /\ betw0 st D [] rest
  else exists non0 ops, non = non0 ++ ops /\ Forall operand ops /\ betw0 st D non0 (ops ++ rest).
(** at the first argument of [rest] *)
Definition at_arg (posix : bool) (st : gst) (D non rest : list (list Z)) : Prop :=
  g_argv st = D ++ non ++ rest /\ g_ind st = (length D + length non)%nat /\
  if posix then non = [] /\ g_first st = g_last st /\ (g_last st <= g_ind st)%nat
  else g_first st = length D /\ g_last st = g_ind st.

Lemma at_betw : forall posix st D non mid rest st',
  at_arg posix st D non (mid ++ rest) ->
  g_argv st' = g_argv st -> g_first st' = g_first st -> g_last st' = g_last st ->
  g_ind st' = (g_ind st + length mid)%nat -> g_next st' = None \/ g_next st' = Some [] ->
  betw posix st' (D ++ mid) non rest.
Proof.
  intros posix st D non mid rest st' (A & I & X) A' F' L' I' N'. unfold betw. destruct posix.
  - destruct X as (-> & E & L). split; auto. split; auto. right. cbn [app length] in *.
    rewrite A', A, I', F', L', app_assoc, app_length, E. repeat split; auto. lia.
  - destruct X as (E & L). exists non, []. rewrite app_nil_r. repeat split; auto.
    destruct non as [|x non].
    + right. cbn [app length] in *. rewrite A', A, I', F', L', app_assoc, app_length, E, L. repeat split; auto; try lia.
    + left. exists D, mid. rewrite A', A, I', F', L', E, L, I. repeat split; auto; try discriminate; lia.
Qed.

Lemma exchange_eq : forall a b c d i f l nx, f = length a -> l = (length a + length b)%nat ->
  i = (length a + length b + length c)%nat ->
  g_exchange (mkG (a ++ b ++ c ++ d) i f l nx) = mkG (a ++ c ++ b ++ d) i (f + length c)%nat i nx.
Proof.
  intros a b c d i f l nx -> -> ->. unfold g_exchange. cbn [g_argv g_ind g_first g_last g_next].
  assert (E1 : firstn (length a) (a ++ b ++ c ++ d) = a) by (apply firstn_len; auto).
  assert (E2 : skipn (length a) (a ++ b ++ c ++ d) = b ++ c ++ d) by (apply skipn_len; auto).
  assert (E3 : skipn (length a + length b) (a ++ b ++ c ++ d) = c ++ d)
    by (rewrite app_assoc; apply skipn_len; rewrite app_length; auto).
  assert (E4 : skipn (length a + length b + length c) (a ++ b ++ c ++ d) = d)
    by (rewrite (app_assoc b), app_assoc; apply skipn_len; rewrite !app_length; lia).
  rewrite E1, E2, E3, E4.
  replace (length a + length b - length a)%nat with (length b) by lia.
  replace (length a + length b + length c - (length a + length b))%nat with (length c) by lia.
  rewrite !firstn_len by reflexivity. reflexivity.
Qed.

Lemma g_pass_at : forall posix st D non rest, betw posix st D non rest ->
  (posix = false -> count_nonopts rest = O) ->
  at_arg posix (g_pass posix st) D non rest /\ (g_next (g_pass posix st) = None \/ g_next (g_pass posix st) = Some []).
Proof.
  intros posix st D non rest B C. unfold betw in B. destruct posix.
  - destruct B as (-> & N & [(d & m & X & _) | (_ & A & I & M)]); [congruence|].
    unfold g_pass. cbn. split; auto. unfold at_arg. cbn. rewrite Nat.add_0_r. repeat split; auto. lia.
  - destruct B as (non0 & ops & -> & F & N & B). specialize (C eq_refl).
    unfold g_pass. cbn [g_argv g_ind g_first g_last g_next].
    destruct B as [(d & m & X & -> & A & I & M1 & M2) | (-> & A & I & M)].
    + rewrite M1, M2, I, A. assert (length non0 <> O) by (destruct non0; [congruence|discriminate]).
      destruct (Nat.eqb_spec (length d) (length d + length non0)); [lia|]. cbn [negb andb].
      destruct (Nat.eqb_spec (length d + length non0) (length d + length non0 + length m)) as [E|E]; cbn [negb].
      * assert (m = []) by (destruct m; [auto|cbn in E; lia]). subst m. cbn [app length g_argv g_ind g_first g_last g_next] in *.
        rewrite Nat.add_0_r in *. rewrite (app_assoc d), skipn_len by (rewrite app_length; reflexivity).
        rewrite count_nonopts_app, C by auto. split; auto.
        unfold at_arg. cbn [g_argv g_ind g_first g_last g_next]. rewrite !app_nil_r, app_length, !app_assoc.
        repeat split; auto; lia.
      * rewrite exchange_eq by reflexivity. cbn [g_argv g_ind g_first g_last g_next].
        replace (d ++ m ++ non0 ++ ops ++ rest) with ((d ++ m ++ non0) ++ ops ++ rest) by (rewrite <- !app_assoc; reflexivity).
        rewrite skipn_len by (rewrite !app_length; lia). rewrite count_nonopts_app, C by auto.
        split; auto. unfold at_arg. cbn [g_argv g_ind g_first g_last g_next]. rewrite <- !app_assoc, !app_length.
        repeat split; auto; lia.
    + rewrite M. set (l := Nat.min (g_last st) (g_ind st)) in *. rewrite Nat.eqb_refl. cbn [negb andb].
      destruct (Nat.eqb_spec l (g_ind st)) as [E|E]; cbn [negb g_argv g_ind g_first g_last g_next];
        rewrite A, I, skipn_len, count_nonopts_app, C by auto; (split; [|auto]);
        unfold at_arg; cbn [g_argv g_ind g_first g_last g_next app]; repeat split; auto; lia.
Qed.

(** *** single calls *)

Lemma argc_pos : forall posix st D non rest, betw posix st D non rest -> D <> [] ->
  Nat.ltb (length (g_argv st)) 1 = false.
Proof.
  intros posix st D non rest B N. apply Nat.ltb_ge.
  assert (X : exists D non rest, betw0 st D non rest /\ D <> []).
  { unfold betw in B. destruct posix; [exists D, [], rest; tauto|].
    destruct B as (n & o & _ & _ & B). exists D, n, (o ++ rest). auto. }
  clear B N D non rest. destruct X as (D & non & rest & (_ & B) & N).
  assert (1 <= length D)%nat by (destruct D; [congruence|cbn; lia]).
  destruct B as [(d & m & X & -> & -> & _) | (_ & -> & _)]; rewrite !app_length in *; lia.
Qed.

(** a call between two arguments first passes over operands *)
Lemma call_betw : forall posix st D non rest, betw posix st D non rest -> D <> [] ->
  getopt_long posix st =
    ('(stop, st) <- g_advance posix st ;;
     if (stop : bool) then Ok (-1, None, st)
     else
       a <- rd (g_argv st) (g_ind st) ;;
       d <- rd a 1 ;;
       if d =? 45 then g_long st (skipn 2 a) else g_short st (skipn 1 a)).
Proof.
  intros posix st D non rest B N. unfold getopt_long. rewrite (argc_pos _ _ _ _ _ B N).
  assert (X : g_next st = None \/ g_next st = Some []).
  { unfold betw in B. destruct posix; [exact (proj1 (proj2 B))|]. destruct B as (n & o & _ & _ & B). exact (proj1 B). }
  destruct X as [-> | ->]; reflexivity.
Qed.

Lemma at_fresh : forall st D ops, g_argv st = D ++ ops -> g_ind st = length D ->
  Nat.min (g_first st) (g_ind st) = Nat.min (g_last st) (g_ind st) ->
  g_next st = None \/ g_next st = Some [] -> betw0 st D [] ops.
Proof. intros. split; auto. Qed.

(** the end of the arguments *)
Lemma call_end : forall posix st D non, betw posix st D non [] -> D <> [] ->
  exists st', getopt_long posix st = Ok (-1, None, st') /\ betw0 st' D [] non.
Proof.
  intros posix st D non B N. rewrite (call_betw _ _ _ _ _ B N).
  destruct (g_pass_at _ _ _ _ _ B (fun _ => eq_refl)) as ((A & I & X) & Nx).
  unfold g_advance. set (s := g_pass posix st) in *. rewrite app_nil_r in A.
  assert (E : Nat.eqb (g_ind s) (length (g_argv s)) = true) by (apply Nat.eqb_eq; rewrite A, I, app_length; lia).
  rewrite E. cbn [bind]. rewrite E. cbn [bind]. eexists. split; [reflexivity|].
  destruct posix.
  - destruct X as (-> & F & L). cbn [app length] in *. rewrite app_nil_r in A. rewrite Nat.add_0_r in I.
    rewrite F, Nat.eqb_refl. apply at_fresh; auto; try (rewrite app_nil_r; auto); lia.
  - destruct X as (F & L). destruct (Nat.eqb_spec (g_first s) (g_last s)) as [Q|Q].
    + assert (length non = O) by lia. destruct non; [|discriminate]. apply at_fresh; auto; cbn in I; lia.
    + clearbody s. apply at_fresh; cbn [g_argv g_ind g_first g_last g_next]; auto; lia.
Qed.

(** "--" ends the options *)
Lemma call_dashes : forall posix st D non rest, betw posix st D non ([45; 45] :: rest) -> D <> [] ->
  exists st', getopt_long posix st = Ok (-1, None, st') /\ betw0 st' (D ++ [[45; 45]]) [] (non ++ rest).
Proof.
  intros posix st D non rest B N. rewrite (call_betw _ _ _ _ _ B N).
  destruct (g_pass_at _ _ _ _ _ B (fun _ => eq_refl)) as ((A & I & X) & Nx).
  unfold g_advance. set (s := g_pass posix st) in *.
  assert (E : Nat.eqb (g_ind s) (length (g_argv s)) = false)
    by (apply Nat.eqb_neq; rewrite A, I, !app_length; cbn; lia).
  rewrite E. rewrite A, app_assoc, rd_len by (rewrite app_length; auto). cbn [bind str_same Z.eqb Pos.eqb andb].
  rewrite <- app_assoc, <- A.
  assert (G : g_argv (g_dashes s) = D ++ [[45; 45]] ++ non ++ rest /\ g_ind (g_dashes s) = length (g_argv s) /\
              g_first (g_dashes s) = S (length D) /\ g_last (g_dashes s) = length (g_argv s) /\ g_next (g_dashes s) = g_next s).
  { unfold g_dashes. cbn [g_argv g_ind g_first g_last g_next]. destruct posix.
    - destruct X as (-> & F & L). cbn [app length] in *. rewrite F, Nat.eqb_refl. cbn [negb andb g_argv g_ind g_first g_last g_next].
      rewrite A, I. repeat split; auto; lia.
    - destruct X as (F & L). destruct (Nat.eqb_spec (g_first s) (g_last s)) as [Q|Q]; cbn [negb andb].
      + assert (length non = O) by lia. destruct non; [|discriminate]. cbn [app length g_argv g_ind g_first g_last g_next] in *.
        rewrite A, I. repeat split; auto; lia.
      + assert (Q2 : Nat.eqb (g_last s) (S (g_ind s)) = false) by (apply Nat.eqb_neq; lia). rewrite Q2. cbn [negb].
        rewrite A. change ([45; 45] :: rest) with ([[45; 45]] ++ rest).
        rewrite exchange_eq by (cbn [length]; lia). cbn [g_argv g_ind g_first g_last g_next].
        rewrite !app_length. cbn [length]. repeat split; auto; lia. }
  destruct G as (GA & GI & GF & GL & GN). rewrite GI, Nat.eqb_refl. cbn [bind]. eexists. split; [reflexivity|].
  assert (LA : length (g_argv s) = (length D + length non + S (length rest))%nat) by (rewrite A, !app_length; cbn; lia).
  rewrite GF, GL. destruct (Nat.eqb_spec (S (length D)) (length (g_argv s))) as [Q|Q].
  - apply at_fresh; auto; try congruence.
    + rewrite GA, <- app_assoc. reflexivity.
    + rewrite GI, app_length. cbn. lia.
  - apply at_fresh; cbn [g_argv g_ind g_first g_last g_next]; auto.
    + rewrite GA, <- app_assoc. reflexivity.
    + rewrite app_length. cbn. lia.
    + lia.
    + rewrite GN. auto.
Qed.

(** with [posix] the first operand ends the options *)
Lemma call_operand : forall st D a rest, betw true st D [] (a :: rest) -> operand a -> D <> [] ->
  exists st', getopt_long true st = Ok (-1, None, st') /\ betw0 st' D [] (a :: rest).
Proof.
  intros st D a rest B O N. rewrite (call_betw _ _ _ _ _ B N).
  destruct (g_pass_at _ _ _ _ _ B ltac:(discriminate)) as ((A & I & X) & Nx).
  unfold g_advance. set (s := g_pass true st) in *. destruct X as (_ & F & L). cbn [app length] in *. rewrite Nat.add_0_r in I.
  assert (E : Nat.eqb (g_ind s) (length (g_argv s)) = false)
    by (apply Nat.eqb_neq; rewrite A, I, !app_length; cbn; lia).
  rewrite E. rewrite A, rd_len by auto. cbn [bind].
  assert (NE : str_same a [45; 45] = false).
  { destruct (str_same a [45; 45]) eqn:Q; auto. apply str_same_iff in Q. subst a. apply nonopt_operand in O. discriminate. }
  rewrite NE. rewrite <- A, E, A, rd_len by auto. cbn [bind].
  rewrite (proj2 (nonopt_operand a) O). cbn [bind]. eexists. split; [reflexivity|]. apply at_fresh; auto; lia.
Qed.

(** the state before an argument with options *)
Lemma call_option : forall posix st D non b s rest, betw posix st D non ((45 :: b :: s) :: rest) -> b :: s <> [45] -> D <> [] ->
  exists st', at_arg posix st' D non ((45 :: b :: s) :: rest) /\
    getopt_long posix st = if b =? 45 then g_long st' s else g_short st' (b :: s).
Proof.
  intros posix st D non b s rest B NB N. rewrite (call_betw _ _ _ _ _ B N).
  destruct (g_pass_at _ _ _ _ _ B (fun _ => eq_refl)) as (AT & Nx).
  unfold g_advance. set (t := g_pass posix st) in *. exists t. split; [exact AT|]. destruct AT as (A & I & X).
  assert (E : Nat.eqb (g_ind t) (length (g_argv t)) = false)
    by (apply Nat.eqb_neq; rewrite A, I, !app_length; cbn; lia).
  assert (R : rd (g_argv t) (g_ind t) = Ok (45 :: b :: s)) by (rewrite A, app_assoc, rd_len by (rewrite app_length; auto); reflexivity).
  rewrite E, R. cbn [bind].
  assert (NE : str_same (45 :: b :: s) [45; 45] = false).
  { destruct (str_same (45 :: b :: s) [45; 45]) eqn:Q; auto. apply str_same_iff in Q. congruence. }
  rewrite NE, E, R. cbn [bind nonopt negb Z.eqb Pos.eqb]. rewrite R. reflexivity.
Qed.

(** *** one-letter options *)

(** inside the argument [a] with [s] left to read *)
Definition inside (posix : bool) (st : gst) (D non : list (list Z)) (a : list Z) (rest : list (list Z)) (s : list Z) : Prop :=
  at_arg posix st D non (a :: rest) /\ g_next st = Some s.

Lemma call_inside : forall posix st D non a rest c s, inside posix st D non a rest (c :: s) -> D <> [] ->
  getopt_long posix st = g_short st (c :: s).
Proof.
  intros posix st D non a rest c s ((A & _) & E) N. unfold getopt_long.
  assert (L : Nat.ltb (length (g_argv st)) 1 = false).
  { apply Nat.ltb_ge. rewrite A, !app_length. destruct D; [congruence|cbn; lia]. }
  rewrite L, E. reflexivity.
Qed.

Lemma letters : forall c, In c [100; 68] \/ In c [99; 112] \/ (~ In c [100; 68] /\ ~ In c [99; 112]).
Proof.
  intros c. destruct (in_dec Z.eq_dec c [100; 68]) as [|H1]; auto.
  destruct (in_dec Z.eq_dec c [99; 112]) as [|H2]; auto.
Qed.

Lemma short_flag : forall posix st D non a rest c s, at_arg posix st D non (a :: rest) -> In c [100; 68] ->
  exists st', g_short st (c :: s) = Ok (c, None, st') /\
    (s <> [] -> inside posix st' D non a rest s) /\ (s = [] -> betw posix st' (D ++ [a]) non rest).
Proof.
  intros posix st D non a rest c s A H.
  assert (E : exists i, g_short st (c :: s) = Ok (c, None, mkG (g_argv st) i (g_first st) (g_last st) (Some s)) /\
               i = match s with [] => S (g_ind st) | _ => g_ind st end).
  { destruct H as [<- | [<- | []]]; eexists; split; reflexivity. }
  destruct E as (i & E & ->). eexists. split; [exact E|]. split.
  - intros NE. split; [|reflexivity]. destruct s as [|x s]; [congruence|]. exact A.
  - intros ->. apply (at_betw posix st _ _ [a]); cbn; auto. lia.
Qed.

Lemma short_joined : forall posix st D non a rest c v, at_arg posix st D non (a :: rest) -> In c [99; 112] -> v <> [] ->
  exists st', g_short st (c :: v) = Ok (c, Some v, st') /\ betw posix st' (D ++ [a]) non rest.
Proof.
  intros posix st D non a rest c v A H NE. destruct v as [|x v]; [congruence|].
  assert (E : g_short st (c :: x :: v) = Ok (c, Some (x :: v), mkG (g_argv st) (S (g_ind st)) (g_first st) (g_last st) None)).
  { destruct H as [<- | [<- | []]]; reflexivity. }
  eexists. split; [exact E|]. apply (at_betw posix st _ _ [a]); cbn; auto. lia.
Qed.

Lemma short_separate : forall posix st D non a rest c, at_arg posix st D non (a :: rest) -> In c [99; 112] ->
  (forall v r, rest = v :: r -> exists st', g_short st [c] = Ok (c, Some v, st') /\ betw posix st' (D ++ [a; v]) non r) /\
  (rest = [] -> exists st', g_short st [c] = Ok (63, None, st')).
Proof.
  intros posix st D non a rest c A H.
  assert (E : g_short st [c] =
    if Nat.eqb (S (g_ind st)) (length (g_argv st)) then Ok (63, None, mkG (g_argv st) (S (g_ind st)) (g_first st) (g_last st) None)
    else v <- rd (g_argv st) (S (g_ind st)) ;; Ok (c, Some v, mkG (g_argv st) (S (S (g_ind st))) (g_first st) (g_last st) None)).
  { destruct H as [<- | [<- | []]]; reflexivity. }
  rewrite E. pose proof A as (AA & AI & _). split.
  - intros v r ->.
    assert (Q : Nat.eqb (S (g_ind st)) (length (g_argv st)) = false) by (apply Nat.eqb_neq; rewrite AA, AI, !app_length; cbn; lia).
    rewrite Q. rewrite AA. replace (D ++ non ++ a :: v :: r) with ((D ++ non ++ [a]) ++ v :: r) by (rewrite <- !app_assoc; reflexivity).
    rewrite rd_len by (rewrite !app_length; cbn; lia). cbn [bind]. eexists. split; [reflexivity|].
    apply (at_betw posix st _ _ [a; v]); cbn [g_argv g_first g_last g_ind g_next length]; auto; try lia.
    rewrite AA, <- !app_assoc. reflexivity.
  - intros ->.
    assert (Q : Nat.eqb (S (g_ind st)) (length (g_argv st)) = true) by (apply Nat.eqb_eq; rewrite AA, AI, !app_length; cbn; lia).
    rewrite Q. eauto.
Qed.

Lemma short_unknown : forall st c s, ~ In c [100; 68] -> ~ In c [99; 112] ->
  exists st', g_short st (c :: s) = Ok (63, None, st').
Proof.
  intros st c s N1 N2. unfold g_short. cbn [rd nth_error bind tl].
  change short_opts with [99; 58; 112; 58; 100; 68]. cbn [strchr_from In] in *.
  destruct (Z.eqb_spec 99 c); [tauto|]. destruct (Z.eqb_spec 58 c) as [<-|].
  { cbn [Z.eqb Pos.eqb orb]. eauto. }
  destruct (Z.eqb_spec 112 c); [tauto|]. destruct (Z.eqb_spec 100 c); [tauto|].
  destruct (Z.eqb_spec 68 c); [tauto|]. eauto.
Qed.

(** *** long options *)

Lemma starts_iff : forall p s, starts p s = true <-> exists r, p = s ++ r.
Proof.
  intros p s; revert p. induction s as [|a s IH]; intros p; cbn.
  - split; [exists p; reflexivity|destruct p; reflexivity].
  - destruct p as [|b p]; [split; [discriminate|intros (r & E); discriminate]|].
    rewrite andb_true_iff, Z.eqb_eq, IH. split.
    + intros (-> & r & ->). eauto.
    + intros (r & E). injection E as -> ->. eauto.
Qed.

Definition names : list (Z * list Z) := with_arg ++ without_arg.

(** what a name stands for *)
Lemma find_long_known : forall n c name h, (In (c, name) with_arg /\ h = true) \/ (In (c, name) without_arg /\ h = false) ->
  short_for n name -> find_long n = Some (h, c).
Proof.
  intros n c name h H (NE & r & E).
  assert (P : In n (map (fun k => firstn k name) (seq 1 (length name)))).
  { apply in_map_iff. exists (length n). split.
    - rewrite E. apply firstn_len. reflexivity.
    - apply in_seq. rewrite E, app_length. destruct n; [congruence|cbn; lia]. }
  clear NE E r. cbn [In with_arg without_arg] in H.
  assert (K : (c, name, h) = (99, [99;111;110;102;105;103], true) \/ (c, name, h) = (112, [112;105;100], true) \/
              (c, name, h) = (100, [100;97;101;109;111;110], false) \/ (c, name, h) = (68, [110;111;45;100;97;101;109;111;110], false)).
  { destruct H as [([[= <- <-] | [[= <- <-] | []]] & ->) | ([[= <- <-] | [[= <- <-] | []]] & ->)]; auto. }
  clear H. destruct K as [[= -> -> ->] | [[= -> -> ->] | [[= -> -> ->] | [= -> -> ->]]]]; cbn in P;
    repeat (destruct P as [<- | P]; [reflexivity|]); destruct P.
Qed.

Lemma find_long_some : forall n h c, find_long n = Some (h, c) ->
  exists name, short_for n name /\ ((In (c, name) with_arg /\ h = true) \/ (In (c, name) without_arg /\ h = false)).
Proof.
  intros n h c H. unfold find_long in H.
  assert (T : forall nm h c, In (nm, h, c) long_opts -> (In (c, nm) with_arg /\ h = true) \/ (In (c, nm) without_arg /\ h = false)).
  { clear. intros nm h c I. cbn [long_opts In] in I. cbn [with_arg without_arg In].
    destruct I as [[= <- <- <-] | [[= <- <- <-] | [[= <- <- <-] | [[= <- <- <-] | []]]]]; auto. }
  assert (NE : n <> []) by (intros ->; discriminate H).
  destruct (find _ long_opts) as [[[nm h'] c']|] eqn:F.
  - injection H as -> ->. apply find_some in F. destruct F as (I & E). cbn [fst] in E. apply str_same_iff in E. subst nm.
    exists n. split; auto. split; auto. exists []. rewrite app_nil_r. reflexivity.
  - destruct (filter _ long_opts) as [|[[nm h'] c'] [|? ?]] eqn:G; try discriminate. injection H as -> ->.
    assert (I : In (nm, h, c) (filter (fun e => starts (fst (fst e)) n) long_opts)) by (rewrite G; left; auto).
    apply filter_In in I. destruct I as (I & E). cbn [fst] in E. apply starts_iff in E.
    exists nm. split; auto. split; auto.
Qed.

Lemma short_for_no_eq : forall n c name, In (c, name) names -> short_for n name -> ~ In 61 n.
Proof.
  intros n c name H (_ & r & E) I. assert (J : In 61 name) by (rewrite E; apply in_or_app; auto).
  cbn [names with_arg without_arg app In] in H.
  destruct H as [[= <- <-] | [[= <- <-] | [[= <- <-] | [[= <- <-] | []]]]]; cbn in J;
    repeat (destruct J as [J|J]; [discriminate|]); exact J.
Qed.

Lemma split_eq_none : forall s, ~ In 61 s -> split_eq s = (s, None).
Proof.
  induction s as [|c s IH]; intros N; auto. cbn. destruct (Z.eqb_spec c 61) as [->|_]; [exfalso; apply N; left; auto|].
  rewrite IH by (intros X; apply N; right; auto). reflexivity.
Qed.
Lemma split_eq_some : forall n v, ~ In 61 n -> split_eq (n ++ 61 :: v) = (n, Some v).
Proof.
  induction n as [|c n IH]; intros v N; [reflexivity|]. cbn. destruct (Z.eqb_spec c 61) as [->|_]; [exfalso; apply N; left; auto|].
  rewrite IH by (intros X; apply N; right; auto). reflexivity.
Qed.
Lemma split_eq_inv : forall s n v, split_eq s = (n, v) -> ~ In 61 n /\ s = n ++ match v with Some v => 61 :: v | None => [] end.
Proof.
  induction s as [|c s IH]; intros n v E; cbn in E.
  - injection E as <- <-. auto.
  - destruct (Z.eqb_spec c 61) as [->|N].
    + injection E as <- <-. auto.
    + destruct (split_eq s) as [n' v'] eqn:Q. injection E as <- <-. destruct (IH _ _ eq_refl) as (I & ->).
      split; auto. intros [X|X]; auto.
Qed.

(** *** the loop *)

(** the structure after further settings *)
Definition settings (o : opts) (s : list (Z * option (list Z))) : opts :=
  mkO (last_arg 99 s (o_config o)) (last_arg 112 s (o_pid o)) (last_of 100 68 s (o_daemon o)).

Lemma settings_app : forall s1 s2 o, settings o (s1 ++ s2) = settings (settings o s1) s2.
Proof.
  assert (L : forall A c (s1 s2 : list (Z * A)) d, last_arg c (s1 ++ s2) d = last_arg c s2 (last_arg c s1 d))
    by (intros A c s1; induction s1 as [|[x a] s1 IH]; intros; cbn; auto).
  assert (M : forall A on off (s1 s2 : list (Z * A)) d, last_of on off (s1 ++ s2) d = last_of on off s2 (last_of on off s1 d))
    by (intros A on off s1; induction s1 as [|[x a] s1 IH]; intros; cbn; auto).
  intros. unfold settings. rewrite !L, M. reflexivity.
Qed.

Lemma settings_nil : forall o, settings o [] = o. Proof. intros []. reflexivity. Qed.

Lemma loop_known : forall f posix o st c arg st', getopt_long posix st = Ok (c, arg, st') -> In c (map fst names) ->
  parse_loop (S f) posix o st = parse_loop f posix (settings o [(c, arg)]) st'.
Proof.
  intros f posix o st c arg st' E H. cbn [parse_loop]. rewrite E. cbn [bind]. destruct o as [oc op od].
  cbn in H. destruct H as [<- | [<- | [<- | [<- | []]]]]; reflexivity.
Qed.
Lemma loop_end : forall f posix o st st', getopt_long posix st = Ok (-1, None, st') ->
  parse_loop (S f) posix o st = Ok (0, o, st').
Proof. intros. cbn [parse_loop]. rewrite H. reflexivity. Qed.
Lemma loop_bad : forall f posix o st st', getopt_long posix st = Ok (63, None, st') ->
  parse_loop (S f) posix o st = Ok (-1, o, st').
Proof. intros. cbn [parse_loop]. rewrite H. reflexivity. Qed.

(** a group of flags *)
Lemma loop_flags : forall posix fl t st D non a rest o f,
  incl fl [100; 68] -> D <> [] -> t <> [] -> inside posix st D non a rest (fl ++ t) ->
  exists st', inside posix st' D non a rest t /\
    parse_loop (length fl + f) posix o st = parse_loop f posix (settings o (map (fun c => (c, None)) fl)) st'.
Proof.
  intros posix fl. induction fl as [|c fl IH]; intros t st D non a rest o f I ND NT S.
  - exists st. split; auto. rewrite settings_nil. reflexivity.
  - destruct (short_flag posix st D non a rest c (fl ++ t) (proj1 S) (I c (or_introl eq_refl))) as (st1 & E & S1 & _).
    assert (NE : fl ++ t <> []) by (intros X; apply app_eq_nil in X; tauto). specialize (S1 NE).
    cbn [app] in S. rewrite <- (call_inside _ _ _ _ _ _ _ _ S ND) in E.
    assert (I' : incl fl [100; 68]) by (intros x X; apply I; right; auto).
    destruct (IH t st1 D non a rest (settings o [(c, None)]) f I' ND NT S1) as (st2 & S2 & L2).
    exists st2. split; auto. cbn [length Nat.add map].
    change ((c, None) :: map (fun c0 => (c0, None)) fl) with ([(c, @None (list Z))] ++ map (fun c0 => (c0, None)) fl).
    rewrite settings_app, <- L2.
    apply loop_known; [exact E|]. destruct (I c (or_introl eq_refl)) as [<- | [<- | []]]; cbn; auto.
Qed.
Lemma loop_all_flags : forall posix fl st D non a rest o f,
  incl fl [100; 68] -> D <> [] -> fl <> [] -> inside posix st D non a rest fl ->
  exists st', betw posix st' (D ++ [a]) non rest /\
    parse_loop (length fl + f) posix o st = parse_loop f posix (settings o (map (fun c => (c, None)) fl)) st'.
Proof.
  intros posix fl st D non a rest o f I ND NE IN.
  destruct (exists_last NE) as (fl' & c & ->).
  assert (I' : incl fl' [100; 68]) by (intros x X; apply I, in_or_app; auto).
  assert (Ic : In c [100; 68]) by (apply I, in_or_app; right; left; auto).
  destruct (loop_flags posix fl' [c] st D non a rest o (S f) I' ND ltac:(discriminate) IN) as (st1 & S1 & L1).
  destruct (short_flag posix st1 D non a rest c [] (proj1 S1) Ic) as (st2 & E & _ & B). specialize (B eq_refl).
  rewrite <- (call_inside _ _ _ _ _ _ _ _ S1 ND) in E.
  exists st2. split; auto. rewrite app_length. cbn [length]. replace (length fl' + 1 + f)%nat with (length fl' + S f)%nat by lia.
  rewrite L1, map_app, settings_app. apply loop_known; [exact E|]. destruct Ic as [<- | [<- | []]]; cbn; auto.
Qed.

(** a short group read from between two arguments behaves as if its first letter were next *)
Lemma enter : forall posix st D non b s rest, betw posix st D non ((45 :: b :: s) :: rest) -> b <> 45 -> D <> [] ->
  exists st', inside posix st' D non (45 :: b :: s) rest (b :: s) /\
    forall f o, parse_loop (S f) posix o st = parse_loop (S f) posix o st'.
Proof.
  intros posix st D non b s rest B NB ND.
  destruct (call_option _ _ _ _ _ _ _ B ltac:(congruence) ND) as (t & A & E).
  destruct (Z.eqb_spec b 45) as [|_]; [congruence|].
  pose (st' := mkG (g_argv t) (g_ind t) (g_first t) (g_last t) (Some (b :: s))).
  assert (SI : inside posix st' D non (45 :: b :: s) rest (b :: s)) by (split; [exact A|reflexivity]).
  exists st'. split; auto. intros f o. cbn [parse_loop]. rewrite E, (call_inside _ _ _ _ _ _ _ _ SI ND). reflexivity.
Qed.

Lemma split_letters : forall s, exists fl t, s = fl ++ t /\ incl fl [100; 68] /\
  (t = [] \/ exists c v, t = c :: v /\ ~ In c [100; 68]).
Proof.
  induction s as [|c s (fl & t & -> & I & H)].
  - exists [], []. repeat split; auto. intros x [].
  - destruct (in_dec Z.eq_dec c [100; 68]) as [Y|N].
    + exists (c :: fl), t. repeat split; auto. intros x [<- | X]; auto.
    + exists [], (c :: fl ++ t). repeat split; auto; [intros x []|]. right. eauto.
Qed.

(** *** whole command lines *)

Definition chars (l : list (list Z)) : nat := length (concat l).
Lemma chars_cons : forall a l, chars (a :: l) = (length a + chars l)%nat.
Proof. intros. unfold chars. cbn. rewrite app_length. reflexivity. Qed.

Lemma dash_nonopt : forall b s, ~ operand (45 :: b :: s).
Proof. intros b s O. apply nonopt_operand in O. discriminate. Qed.

(** a readable command line is read so *)
Theorem reads_sound : forall posix args s ops, reads posix args s ops ->
  forall st D non o f, betw posix st D non args -> D <> [] -> (chars args <= f)%nat ->
  exists st' D', parse_loop (S f) posix o st = Ok (0, settings o s, st') /\ betw0 st' D' [] (non ++ ops) /\
    (exists E, D' = D ++ E) /\ Permutation (D ++ args) (D' ++ ops).
Proof.
  intros posix args s ops R. induction R; intros st D non o f B ND LE.
  - destruct (call_end _ _ _ _ B ND) as (st' & E & F). exists st', D. rewrite (loop_end _ _ _ _ _ E), settings_nil.
    rewrite app_nil_r in *. repeat split; auto; [exact (proj1 F)|exact (proj2 F)|exists []; rewrite app_nil_r; auto].
  - destruct (call_dashes _ _ _ _ _ B ND) as (st' & E & F). exists st', (D ++ [[45; 45]]).
    rewrite (loop_end _ _ _ _ _ E), settings_nil. rewrite <- app_assoc. repeat split; eauto; [exact (proj1 F)|exact (proj2 F)].
  - subst posix. destruct (IHR st D (non ++ [a]) o f) as (st' & D' & L & F & (E' & Q') & P); auto.
    + cbn [betw] in *. destruct B as (n0 & op & -> & Fo & B). exists n0, (op ++ [a]).
      rewrite <- !app_assoc. repeat split; auto; [apply Forall_app; auto|exact (proj1 B)|exact (proj2 B)].
    + rewrite chars_cons in LE. lia.
    + exists st', D'. rewrite <- app_assoc in F. repeat split; eauto; [exact (proj1 F)|exact (proj2 F)|].
      rewrite <- !Permutation_middle. apply perm_skip. auto.
  - subst posix. destruct B as (-> & B). destruct (call_operand st D a rest (conj eq_refl B) H0 ND) as (st' & E & F).
    exists st', D. rewrite (loop_end _ _ _ _ _ E), settings_nil.
    repeat split; auto; [exact (proj1 F)|exact (proj2 F)|exists []; rewrite app_nil_r; auto].
  - destruct fl as [|b fl]; [congruence|]. rewrite chars_cons in LE. cbn [length] in LE.
    assert (Nb : b <> 45) by (intros ->; destruct (H0 45 (or_introl eq_refl)) as [X | [X | []]]; discriminate X).
    destruct (enter _ _ _ _ _ _ _ B Nb ND) as (st1 & S1 & L1). rewrite L1.
    destruct (loop_all_flags posix (b :: fl) st1 D non (45 :: b :: fl) rest o (S f - length (b :: fl)) H0 ND ltac:(discriminate) S1)
      as (st2 & B2 & L2).
    replace (length (b :: fl) + (S f - length (b :: fl)))%nat with (S f) in L2 by (cbn [length] in *; lia).
    rewrite L2. replace (S f - length (b :: fl))%nat with (S (f - length (b :: fl))) by (cbn [length] in *; lia).
    destruct (IHR st2 (D ++ [45 :: b :: fl]) non (settings o (map (fun c => (c, None)) (b :: fl))) (f - length (b :: fl))%nat)
      as (st' & D' & L & F & (E' & Q') & P); auto; [intros X; apply app_eq_nil in X; destruct X; discriminate|cbn [length] in *; lia|].
    exists st', D'. rewrite settings_app. rewrite <- app_assoc in P, Q'. repeat split; eauto; [exact (proj1 F)|exact (proj2 F)].
  - rewrite chars_cons in LE. cbn [length] in LE. rewrite app_length in LE. cbn [length] in LE.
    assert (LV : (0 < length v)%nat) by (destruct v; [congruence|cbn; lia]).
    assert (EN : exists st1, inside posix st1 D non (45 :: fl ++ c :: v) rest (fl ++ c :: v) /\
       forall f o, parse_loop (S f) posix o st = parse_loop (S f) posix o st1).
    { destruct fl as [|b fl]; cbn [app] in *; apply enter; auto.
      - intros ->; destruct H0 as [X | [X | []]]; discriminate X.
      - intros ->; destruct (H 45 (or_introl eq_refl)) as [X | [X | []]]; discriminate X. }
    destruct EN as (st1 & S1 & L1). rewrite L1.
    destruct (loop_flags posix fl (c :: v) st1 D non _ rest o (S f - length fl)%nat H ND ltac:(discriminate) S1) as (st2 & S2 & L2).
    replace (length fl + (S f - length fl))%nat with (S f) in L2 by lia.
    rewrite L2. replace (S f - length fl)%nat with (S (S (f - length fl - 1))) by lia.
    destruct (short_joined posix st2 D non _ rest c v (proj1 S2) H0 H1) as (st3 & E3 & B3).
    rewrite <- (call_inside _ _ _ _ _ _ _ _ S2 ND) in E3.
    rewrite (loop_known _ _ _ _ _ _ _ E3) by (destruct H0 as [<- | [<- | []]]; cbn; auto).
    destruct (IHR st3 (D ++ [45 :: fl ++ c :: v]) non (settings (settings o (map (fun c => (c, None)) fl)) [(c, Some v)]) (f - length fl - 1)%nat)
      as (st' & D' & L & F & (E' & Q') & P); auto; [intros X; apply app_eq_nil in X; destruct X; discriminate|lia|].
    exists st', D'. rewrite settings_app. change ((c, Some v) :: s) with ([(c, Some v)] ++ s). rewrite settings_app.
    rewrite <- app_assoc in P, Q'. repeat split; eauto; [exact (proj1 F)|exact (proj2 F)].
  - rewrite !chars_cons in LE. cbn [length] in LE. rewrite app_length in LE. cbn [length] in LE.
    assert (EN : exists st1, inside posix st1 D non (45 :: fl ++ [c]) (v :: rest) (fl ++ [c]) /\
       forall f o, parse_loop (S f) posix o st = parse_loop (S f) posix o st1).
    { destruct fl as [|b fl]; cbn [app] in *; apply enter; auto.
      - intros ->; destruct H0 as [X | [X | []]]; discriminate X.
      - intros ->; destruct (H 45 (or_introl eq_refl)) as [X | [X | []]]; discriminate X. }
    destruct EN as (st1 & S1 & L1). rewrite L1.
    destruct (loop_flags posix fl [c] st1 D non _ (v :: rest) o (S f - length fl)%nat H ND ltac:(discriminate) S1) as (st2 & S2 & L2).
    replace (length fl + (S f - length fl))%nat with (S f) in L2 by lia.
    rewrite L2. replace (S f - length fl)%nat with (S (S (f - length fl - 1))) by lia.
    destruct (proj1 (short_separate posix st2 D non _ (v :: rest) c (proj1 S2) H0) v rest eq_refl) as (st3 & E3 & B3).
    rewrite <- (call_inside _ _ _ _ _ _ _ _ S2 ND) in E3.
    rewrite (loop_known _ _ _ _ _ _ _ E3) by (destruct H0 as [<- | [<- | []]]; cbn; auto).
    destruct (IHR st3 (D ++ [45 :: fl ++ [c]; v]) non (settings (settings o (map (fun c => (c, None)) fl)) [(c, Some v)]) (f - length fl - 1)%nat)
      as (st' & D' & L & F & (E' & Q') & P); auto; [intros X; apply app_eq_nil in X; destruct X; discriminate|lia|].
    exists st', D'. rewrite settings_app. change ((c, Some v) :: s) with ([(c, Some v)] ++ s). rewrite settings_app.
    rewrite <- app_assoc in P, Q'. repeat split; eauto; [exact (proj1 F)|exact (proj2 F)].
  - assert (In (c, name) names) by (apply in_or_app; auto).
    rewrite chars_cons in LE. cbn [length] in LE.
    destruct (call_option _ _ _ _ _ _ _ B ltac:(destruct n; [destruct H0; congruence|discriminate]) ND) as (t & A & E).
    cbn [Z.eqb Pos.eqb] in E. unfold g_long in E.
    rewrite split_eq_none in E by (eapply short_for_no_eq; eauto).
    rewrite (find_long_known n c name false) in E by auto.
    pose proof (in_map fst _ _ H1) as I. cbn [fst] in I.
    rewrite (loop_known _ _ _ _ _ _ _ E I). replace f with (S (f - 1)) by lia.
    destruct (IHR (mkG (g_argv t) (S (g_ind t)) (g_first t) (g_last t) None) (D ++ [45 :: 45 :: n]) non (settings o [(c, None)]) (f - 1)%nat)
      as (st' & D' & L & F & (E' & Q') & P).
    + apply (at_betw posix t _ _ [45 :: 45 :: n]); cbn; auto. lia.
    + intros X; apply app_eq_nil in X; destruct X; discriminate.
    + lia.
    + exists st', D'. change ((c, None) :: s) with ([(c, None)] ++ s). rewrite settings_app.
      rewrite <- app_assoc in P, Q'. repeat split; eauto; [exact (proj1 F)|exact (proj2 F)].
  - assert (In (c, name) names) by (apply in_or_app; auto).
    rewrite chars_cons in LE. cbn [length] in LE.
    destruct (call_option _ _ _ _ _ _ _ B ltac:(destruct n; [destruct H0; congruence|discriminate]) ND) as (t & A & E).
    cbn [Z.eqb Pos.eqb] in E. unfold g_long in E.
    rewrite split_eq_some in E by (eapply short_for_no_eq; eauto).
    rewrite (find_long_known n c name true) in E by auto.
    pose proof (in_map fst _ _ H1) as I. cbn [fst] in I.
    rewrite (loop_known _ _ _ _ _ _ _ E I). replace f with (S (f - 1)) by lia.
    destruct (IHR (mkG (g_argv t) (S (g_ind t)) (g_first t) (g_last t) None) (D ++ [45 :: 45 :: n ++ 61 :: v]) non (settings o [(c, Some v)]) (f - 1)%nat)
      as (st' & D' & L & F & (E' & Q') & P).
    + apply (at_betw posix t _ _ [45 :: 45 :: n ++ 61 :: v]); cbn; auto. lia.
    + intros X; apply app_eq_nil in X; destruct X; discriminate.
    + lia.
    + exists st', D'. change ((c, Some v) :: s) with ([(c, Some v)] ++ s). rewrite settings_app.
      rewrite <- app_assoc in P, Q'. repeat split; eauto; [exact (proj1 F)|exact (proj2 F)].
  - assert (In (c, name) names) by (apply in_or_app; auto).
    rewrite !chars_cons in LE. cbn [length] in LE.
    destruct (call_option _ _ _ _ _ _ _ B ltac:(destruct n; [destruct H0; congruence|discriminate]) ND) as (t & A & E).
    cbn [Z.eqb Pos.eqb] in E. unfold g_long in E.
    rewrite split_eq_none in E by (eapply short_for_no_eq; eauto).
    rewrite (find_long_known n c name true) in E by auto.
    pose proof A as (AA & AI & _).
    assert (Q : Nat.ltb (S (g_ind t)) (length (g_argv t)) = true) by (apply Nat.ltb_lt; rewrite AA, AI, !app_length; cbn; lia).
    assert (Rv : rd (g_argv t) (S (g_ind t)) = Ok v).
    { rewrite AA. replace (D ++ non ++ (45 :: 45 :: n) :: v :: rest) with ((D ++ non ++ [45 :: 45 :: n]) ++ v :: rest) by (rewrite <- !app_assoc; reflexivity).
      apply rd_len. rewrite AI, !app_length. cbn. lia. }
    cbv zeta in E. rewrite Q, Rv in E. cbn [bind g_first g_last] in E.
    pose proof (in_map fst _ _ H1) as I. cbn [fst] in I.
    rewrite (loop_known _ _ _ _ _ _ _ E I). replace f with (S (f - 1)) by lia.
    destruct (IHR (mkG (g_argv t) (S (S (g_ind t))) (g_first t) (g_last t) None) (D ++ [45 :: 45 :: n; v]) non (settings o [(c, Some v)]) (f - 1)%nat)
      as (st' & D' & L & F & (E' & Q') & P).
    + apply (at_betw posix t _ _ [45 :: 45 :: n; v]); cbn; auto. lia.
    + intros X; apply app_eq_nil in X; destruct X; discriminate.
    + lia.
    + exists st', D'. change ((c, Some v) :: s) with ([(c, Some v)] ++ s). rewrite settings_app.
      rewrite <- app_assoc in P, Q'. repeat split; eauto; [exact (proj1 F)|exact (proj2 F)].
Qed.

(** a command line with no reading is refused *)
Theorem reads_complete : forall n posix args, (length args <= n)%nat ->
  forall st D non o f, betw posix st D non args -> D <> [] -> (chars args <= f)%nat ->
  (exists s ops, reads posix args s ops) \/ exists o' st', parse_loop (S f) posix o st = Ok (-1, o', st').
Proof.
  induction n as [|n IH]; intros posix args LN st D non o f B ND LE.
  { destruct args; [|cbn in LN; lia]. left. exists [], []. constructor. }
  destruct args as [|a r]; [left; exists [], []; constructor|]. cbn [length] in LN.
  assert (AN : forall (x : list Z) l, D ++ x :: l <> []) by (intros x l X; apply app_eq_nil in X; destruct X; discriminate).
  rewrite chars_cons in LE.
  destruct (nonopt a) eqn:NO.
  { apply nonopt_operand in NO. destruct posix.
    - left. exists [], (a :: r). apply r_first_operand; auto.
    - destruct (IH false r ltac:(lia) st D (non ++ [a]) o f) as [(s & ops & R) | R]; auto; [|lia|].
      + cbn [betw] in *. destruct B as (n0 & op & -> & Fo & B). exists n0, (op ++ [a]).
        rewrite <- !app_assoc. repeat split; auto; [apply Forall_app; auto|exact (proj1 B)|exact (proj2 B)].
      + left. exists s, (a :: ops). apply r_operand; auto. }
  destruct a as [|d [|b s]]; try discriminate. cbn [nonopt] in NO. destruct (Z.eqb_spec d 45) as [->|]; [clear NO|discriminate].
  cbn [length] in LE. destruct (Z.eq_dec b 45) as [->|Nb].
  - destruct (list_eq_dec Z.eq_dec s []) as [->|Ns]; [left; exists [], r; constructor|].
    destruct (call_option _ _ _ _ _ _ _ B ltac:(congruence) ND) as (t & A & E). cbn [Z.eqb Pos.eqb] in E.
    unfold g_long in E. destruct (split_eq s) as [nm v] eqn:SE. apply split_eq_inv in SE. destruct SE as (N61 & ES).
    assert (LEN : (1 <= length s)%nat) by (destruct s; [congruence|cbn; lia]).
    destruct (find_long nm) as [[h c]|] eqn:FL; [|right; rewrite (loop_bad _ _ _ _ _ E); eauto].
    apply find_long_some in FL. destruct FL as (name & SF & FL).
    assert (I : In c (map fst names)).
    { destruct FL as [(X & _) | (X & _)]; (assert (Y : In (c, name) names) by (apply in_or_app; auto)); exact (in_map fst _ _ Y). }
    pose proof A as (AA & AI & _).
    destruct v as [v|]; [destruct h|destruct h].
    + destruct FL as [(FL & _) | (_ & FL)]; [|discriminate].
      rewrite (loop_known _ _ _ _ _ _ _ E I). replace f with (S (f - 1)) by lia. subst s.
      destruct (IH posix r ltac:(lia) (mkG (g_argv t) (S (g_ind t)) (g_first t) (g_last t) None) (D ++ [45 :: 45 :: nm ++ 61 :: v]) non
        (settings o [(c, Some v)]) (f - 1)%nat) as [(s & ops & R) | R]; auto.
      * apply (at_betw posix t _ _ [45 :: 45 :: nm ++ 61 :: v]); cbn; auto. lia.
      * lia.
      * left. exists ((c, Some v) :: s), ops. eapply r_long_joined; eauto.
    + right. rewrite (loop_bad _ _ _ _ _ E); eauto.
    + destruct FL as [(FL & _) | (_ & FL)]; [|discriminate]. rewrite app_nil_r in ES. subst s. cbv zeta in E.
      destruct r as [|v r].
      * assert (Q : Nat.ltb (S (g_ind t)) (length (g_argv t)) = false) by (apply Nat.ltb_ge; rewrite AA, AI, !app_length; cbn; lia).
        rewrite Q in E. right. rewrite (loop_bad _ _ _ _ _ E); eauto.
      * assert (Q : Nat.ltb (S (g_ind t)) (length (g_argv t)) = true) by (apply Nat.ltb_lt; rewrite AA, AI, !app_length; cbn; lia).
        assert (Rv : rd (g_argv t) (S (g_ind t)) = Ok v).
        { rewrite AA. replace (D ++ non ++ (45 :: 45 :: nm) :: v :: r) with ((D ++ non ++ [45 :: 45 :: nm]) ++ v :: r) by (rewrite <- !app_assoc; reflexivity).
          apply rd_len. rewrite AI, !app_length. cbn. lia. }
        rewrite Q, Rv in E. cbn [bind g_first g_last] in E. rewrite chars_cons in LE.
        rewrite (loop_known _ _ _ _ _ _ _ E I). replace f with (S (f - 1)) by lia. cbn [length] in LN.
        destruct (IH posix r ltac:(lia) (mkG (g_argv t) (S (S (g_ind t))) (g_first t) (g_last t) None) (D ++ [45 :: 45 :: nm; v]) non
          (settings o [(c, Some v)]) (f - 1)%nat) as [(s & ops & R) | R]; auto.
        -- apply (at_betw posix t _ _ [45 :: 45 :: nm; v]); cbn; auto. lia.
        -- lia.
        -- left. exists ((c, Some v) :: s), ops. eapply r_long_separate; eauto.
    + destruct FL as [(_ & FL) | (FL & _)]; [discriminate|]. rewrite app_nil_r in ES. subst s.
      rewrite (loop_known _ _ _ _ _ _ _ E I). replace f with (S (f - 1)) by lia.
      destruct (IH posix r ltac:(lia) (mkG (g_argv t) (S (g_ind t)) (g_first t) (g_last t) None) (D ++ [45 :: 45 :: nm]) non
        (settings o [(c, None)]) (f - 1)%nat) as [(s & ops & R) | R]; auto.
      * apply (at_betw posix t _ _ [45 :: 45 :: nm]); cbn; auto. lia.
      * lia.
      * left. exists ((c, None) :: s), ops. eapply r_long; eauto.
  - destruct (enter _ _ _ _ _ _ _ B Nb ND) as (st1 & S1 & L1). rewrite L1.
    destruct (split_letters (b :: s)) as (fl & t & ES & I & H).
    assert (LS : length (b :: s) = (length fl + length t)%nat) by (rewrite ES, app_length; auto). cbn [length] in LS.
    destruct H as [-> | (c & v & -> & NC)].
    + rewrite app_nil_r in ES. subst fl. cbn [length] in LS.
      destruct (loop_all_flags posix (b :: s) st1 D non (45 :: b :: s) r o (S f - length (b :: s)) I ND ltac:(discriminate) S1) as (st2 & B2 & L2).
      replace (length (b :: s) + (S f - length (b :: s)))%nat with (S f) in L2 by (cbn [length] in *; lia).
      rewrite L2. replace (S f - length (b :: s))%nat with (S (f - length (b :: s))) by (cbn [length] in *; lia).
      destruct (IH posix r ltac:(lia) st2 (D ++ [45 :: b :: s]) non (settings o (map (fun c => (c, None)) (b :: s))) (f - length (b :: s))%nat)
        as [(s' & ops & R) | R]; auto; [cbn [length]; lia|].
      left. exists (map (fun c => (c, None)) (b :: s) ++ s'), ops. apply r_flags; auto. discriminate.
    + rewrite ES in S1. cbn [length] in LS.
      destruct (loop_flags posix fl (c :: v) st1 D non _ r o (S f - length fl)%nat I ND ltac:(discriminate) S1) as (st2 & S2 & L2).
      replace (length fl + (S f - length fl))%nat with (S f) in L2 by lia.
      rewrite L2. replace (S f - length fl)%nat with (S (S (f - length fl - 1))) by lia.
      destruct (in_dec Z.eq_dec c [99; 112]) as [C|NC2].
      * assert (IC : In c (map fst names)) by (destruct C as [<- | [<- | []]]; cbn; auto).
        destruct v as [|x v].
        -- destruct r as [|v r].
           ++ destruct (proj2 (short_separate posix st2 D non _ [] c (proj1 S2) C) eq_refl) as (st3 & E3).
              rewrite <- (call_inside _ _ _ _ _ _ _ _ S2 ND) in E3. right. rewrite (loop_bad _ _ _ _ _ E3); eauto.
           ++ destruct (proj1 (short_separate posix st2 D non _ (v :: r) c (proj1 S2) C) v r eq_refl) as (st3 & E3 & B3).
              rewrite <- (call_inside _ _ _ _ _ _ _ _ S2 ND) in E3. rewrite (loop_known _ _ _ _ _ _ _ E3 IC).
              rewrite chars_cons in LE. cbn [length] in LN, LS.
              destruct (IH posix r ltac:(lia) st3 (D ++ [45 :: fl ++ [c]; v]) non
                (settings (settings o (map (fun c => (c, None)) fl)) [(c, Some v)]) (f - length fl - 1)%nat) as [(s' & ops & R) | R]; auto.
              ** lia.
              ** left. rewrite ES. exists (map (fun c => (c, None)) fl ++ (c, Some v) :: s'), ops. apply r_separate; auto.
        -- destruct (short_joined posix st2 D non _ r c (x :: v) (proj1 S2) C ltac:(discriminate)) as (st3 & E3 & B3).
           rewrite <- (call_inside _ _ _ _ _ _ _ _ S2 ND) in E3. rewrite (loop_known _ _ _ _ _ _ _ E3 IC). cbn [length] in LS.
           destruct (IH posix r ltac:(lia) st3 (D ++ [45 :: fl ++ c :: x :: v]) non
             (settings (settings o (map (fun c => (c, None)) fl)) [(c, Some (x :: v))]) (f - length fl - 1)%nat) as [(s' & ops & R) | R]; auto.
           ++ lia.
           ++ left. rewrite ES. exists (map (fun c => (c, None)) fl ++ (c, Some (x :: v)) :: s'), ops. apply r_joined; auto. discriminate.
      * destruct (short_unknown st2 c v NC NC2) as (st3 & E3).
        rewrite <- (call_inside _ _ _ _ _ _ _ _ S2 ND) in E3. right. rewrite (loop_bad _ _ _ _ _ E3); eauto.
Qed.
