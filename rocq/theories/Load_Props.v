(** Property C105: loading files and texts. *)

From Coq Require Import ZArith List Bool Lia.
From Verif Require Import Base Txml_Model Txml_Spec Txml_Proof Txml_Props Load_Model Load_Spec.
Import ListNotations.
Local Open Scope Z_scope.

Lemma marked_cons : forall fin d p ps, marked fin (d :: p :: ps) = (d, false) :: marked fin (p :: ps).
Proof. reflexivity. Qed.
Definition feeds (l : list (list Z * bool)) : list act := map (fun x => Feed (fst x) (snd x)) l.

Lemma parse_small : forall X t (l : ld X) d fin, (length d <= BUFSZ)%nat ->
  parse t l d (Z.of_nat (length d)) fin =
  let '(p, evs, ok) := x_parse X (l_x l) d fin in
  s <- handle t evs (l_st l) ;; Ok (mkL p s (l_log l ++ [Feed d fin]), ok).
Proof.
  intros. unfold parse. assert (B : Z.of_nat BUFSZ = 4096) by (vm_compute; reflexivity).
  rewrite Z.mod_small by lia. destruct (Z.leb_spec (2 ^ 31) (Z.of_nat (length d))); [lia|].
  rewrite Nat2Z.id, firstn_all. reflexivity.
Qed.


(** the pieces that the loop reads from contents [c], and whether it gets to the end *)
Fixpoint chunks (fuel : nat) (bad : nat -> bool) (i : nat) (c : list Z) : list (list Z) * bool :=
  match fuel with
  | O => ([], false)
  | S fuel =>
      if bad i then ([], false)
      else if (length c <? BUFSZ)%nat then ([c], true)
      else let '(ps, fin) := chunks fuel bad (S i) (skipn BUFSZ c) in (firstn BUFSZ c :: ps, fin)
  end.

Lemma BUFSZ_pos : (0 < BUFSZ)%nat.
Proof. vm_compute. lia. Qed.

Lemma chunks_spec : forall bad fuel c i, (length c < fuel)%nat ->
  let ps := fst (chunks fuel bad i c) in let fin := snd (chunks fuel bad i c) in
  (fin = true <-> forall j, (j <= length c / BUFSZ)%nat -> bad (i + j)%nat = false) /\
  (fin = true -> concat ps = c /\ ps <> []) /\
  (exists rest, c = concat ps ++ rest) /\
  Forall (fun d => (length d <= BUFSZ)%nat) ps.
Proof.
  intros bad. pose proof BUFSZ_pos as B.
  induction fuel as [|fuel IH]; intros c i Hl; [lia|]. cbn [chunks]. destruct (bad i) eqn:Bi.
  { cbn. split; [split; [discriminate|intros H; specialize (H 0%nat ltac:(lia)); rewrite Nat.add_0_r in H; congruence]|].
    split; [discriminate|]. split; [eauto|constructor]. }
  destruct (Nat.ltb_spec (length c) BUFSZ) as [Hc|Hc].
  - cbn [fst snd concat]. split; [|split; [|split]].
    + split; [|reflexivity]. intros _ j Hj. rewrite Nat.div_small in Hj by lia.
      replace (i + j)%nat with i by lia. exact Bi.
    + intros _. split; [apply app_nil_r|discriminate].
    + exists []. rewrite !app_nil_r. reflexivity.
    + constructor; [lia|constructor].
  - specialize (IH (skipn BUFSZ c) (S i)). rewrite skipn_length in IH.
    specialize (IH ltac:(lia)). cbn zeta in IH.
    destruct (chunks fuel bad (S i) (skipn BUFSZ c)) as [ps fin]. cbn [fst snd] in *.
    destruct IH as (I1 & I2 & (r & I3) & I4). split; [|split; [|split]].
    + rewrite I1.
      replace (length c / BUFSZ)%nat with (S ((length c - BUFSZ) / BUFSZ)).
      2:{ replace (length c) with ((length c - BUFSZ) + 1 * BUFSZ)%nat at 2 by lia.
          rewrite Nat.div_add by lia. lia. }
      split; intros H j Hj.
      * destruct j as [|j]; [rewrite Nat.add_0_r; exact Bi|].
        replace (i + S j)%nat with (S i + j)%nat by lia. apply H. lia.
      * replace (S i + j)%nat with (i + S j)%nat by lia. apply H. lia.
    + intros H. destruct (I2 H) as (E & _). split; [|discriminate]. cbn [concat]. rewrite E. apply firstn_skipn.
    + exists r. cbn [concat]. rewrite <- app_assoc, <- I3. symmetry. apply firstn_skipn.
    + constructor; [rewrite firstn_length; lia|exact I4].
Qed.

Lemma loop_spec : forall X t bad fuel c i (l : ld X), (length c < fuel)%nat ->
  let ps := fst (chunks fuel bad i c) in let fin := snd (chunks fuel bad i c) in
  forall s', handle t (fst (feed X (l_x l) fin ps)) (l_st l) = Ok s' ->
  exists l' fl, read_loop fuel bad t i (mkF c false) l =
      Ok (l', if snd (feed X (l_x l) fin ps) && fin then Loaded else Thrown) /\
    l_st l' = s' /\ l_log l' = l_log l ++ feeds fl /\
    (snd (feed X (l_x l) fin ps) = true -> fl = marked fin ps).
Proof.
  intros X t bad. pose proof BUFSZ_pos as B.
  induction fuel as [|fuel IH]; intros c i l Hl; [lia|].
  cbn [read_loop f_eof chunks]. unfold fread. cbn [f_rest]. cbn zeta. destruct (bad i) eqn:Bi.
  { intros s' H. cbn [fst snd feed handle] in H. inversion H. exists l, []. cbn [feed fst snd andb].
    split; [reflexivity|]. split; [reflexivity|]. split; [rewrite app_nil_r; reflexivity|reflexivity]. }
  destruct (Nat.ltb_spec (length c) BUFSZ) as [Hc|Hc].
  - cbn [fst snd]. intros s' H. rewrite parse_small by lia. cbn [feed f_eof] in *.
    destruct (x_parse X (l_x l) c true) as [[p evs] ok].
    destruct ok; cbn [fst snd andb] in *.
    + rewrite app_nil_r in H. rewrite H. cbn [bind]. destruct fuel; cbn [read_loop f_eof];
      (eexists _, [(c, true)]; split; [reflexivity|]; split; [reflexivity|]; split; [reflexivity|reflexivity]).
    + rewrite H. cbn [bind]. eexists _, [(c, true)]; split; [reflexivity|]; split; [reflexivity|]; split; [reflexivity|discriminate].
  - assert (Hs : (length (skipn BUFSZ c) < fuel)%nat) by (rewrite skipn_length; lia).
    specialize (IH (skipn BUFSZ c) (S i)).
    pose proof (chunks_spec bad fuel (skipn BUFSZ c) (S i) Hs) as K. cbn zeta in IH, K.
    destruct (chunks fuel bad (S i) (skipn BUFSZ c)) as [ps fin]. cbn [fst snd] in *.
    assert (Hn : ps = [] -> fin = false).
    { intros ->. destruct fin; [|reflexivity]. destruct K as (_ & K & _). destruct (K eq_refl) as (_ & N). congruence. }
    intros s' H. rewrite parse_small by (rewrite firstn_length; lia). cbn [f_eof].
    assert (F : match ps with [] => fin | _ :: _ => false end = false) by (destruct ps; auto).
    cbn [feed] in *. rewrite F in *. clear F.
    destruct (x_parse X (l_x l) (firstn BUFSZ c) false) as [[p evs] ok].
    destruct ok.
    + destruct (feed X p fin ps) as [evs' ok'] eqn:Ef. cbn [fst snd] in *.
      rewrite handle_app in H. destruct (handle t evs (l_st l)) as [s1| |]; try discriminate H.
      cbn [bind] in H |- *.
      destruct (IH (mkL p s1 (l_log l ++ [Feed (firstn BUFSZ c) false])) Hs s') as (l' & fl & A1 & A2 & A3 & A4).
      { cbn [l_x l_st]. rewrite Ef. exact H. }
      cbn [l_x l_st l_log] in *. rewrite Ef in A1, A4. cbn [fst snd] in A1, A4.
      exists l', ((firstn BUFSZ c, false) :: fl). split; [exact A1|]. split; [exact A2|].
      split; [rewrite A3, <- app_assoc; reflexivity|]. intros O. rewrite (A4 O).
      destruct ps; [rewrite Hn by reflexivity; reflexivity|reflexivity].
    + cbn [fst snd andb] in *. rewrite H. cbn [bind].
      eexists _, [(_, _)]; split; [reflexivity|]; split; [reflexivity|]; split; [reflexivity|discriminate].
Qed.

Lemma tidy_feeds : forall fl rest o, tidy o true (feeds fl ++ rest) <-> tidy o true rest.
Proof. induction fl as [|[d f] fl IH]; intros rest o; [reflexivity|]. cbn. rewrite IH. tauto. Qed.
Lemma fed_feeds : forall fl rest, fed (feeds fl ++ rest) = fl ++ fed rest.
Proof. induction fl as [|[d f] fl IH]; intros rest; [reflexivity|]. cbn. rewrite IH. reflexivity. Qed.

Lemma events_nested : (forall n evs, events n evs -> forall d rest, nested d rest -> nested d (evs ++ rest)) /\
  (forall c evs, all_events c evs -> forall d rest, nested d rest -> nested d (evs ++ rest)).
Proof.
  apply events_mut.
  - intros ch. induction ch as [|x ch IH]; intros; cbn; auto.
  - intros n a c evs _ IH d rest H. cbn [app nested]. rewrite <- app_assoc. apply IH. cbn. exact H.
  - auto.
  - intros x c e evs _ IH1 _ IH2 d rest H. rewrite <- app_assoc. auto.
Qed.

Lemma understood_nested : forall X doc p, x_new X = Some p -> understands X doc ->
  forall fin ps, ps <> [] \/ fin = false -> nested 0 (fst (feed X p fin ps)).
Proof.
  intros X doc p E (p' & E' & U1 & U2) fin ps H. rewrite E in E'. injection E' as <-.
  destruct fin; [|apply U2]. destruct H as [H|]; [|discriminate]. specialize (U1 ps H).
  destruct (doc (concat ps)); [|apply U1]. destruct U1 as (_ & U1).
  pose proof (proj1 events_nested _ _ U1 0%nat [] I) as N. rewrite app_nil_r in N. exact N.
Qed.

Lemma handle_nested : forall ms vs evs, good (TObj ms) -> has_ty (VObj vs) (TObj ms) -> nested 0 evs ->
  exists s, handle (TObj ms) evs (mkSt [] [] (VObj vs)) = Ok s /\ has_ty (root s) (TObj ms).
Proof. exact C101_any_document_is_safe. Qed.

Lemma file_run : forall X doc p c bad ms vs, x_new X = Some p -> understands X doc ->
  good (TObj ms) -> has_ty (VObj vs) (TObj ms) ->
  let ps := fst (chunks (S (length c)) bad 0 c) in let fin := snd (chunks (S (length c)) bad 0 c) in
  exists s' fl, handle (TObj ms) (fst (feed X p fin ps)) (mkSt [] [] (VObj vs)) = Ok s' /\
    has_ty (root s') (TObj ms) /\
    load_from_file X (Some c) bad (TObj ms) (VObj vs) =
      Ok (if snd (feed X p fin ps) && fin then Loaded else Thrown, root s', [Create; Open] ++ feeds fl ++ [Close; Free]) /\
    (snd (feed X p fin ps) = true -> fl = marked fin ps).
Proof.
  intros X doc p c bad ms vs E U G T ps fin.
  pose proof (chunks_spec bad (S (length c)) c 0 ltac:(lia)) as K. cbn zeta in K. fold ps fin in K.
  destruct (handle_nested ms vs (fst (feed X p fin ps)) G T) as (s' & Hs & T').
  { eapply understood_nested; eauto. destruct fin; [left|right; reflexivity]. apply K. reflexivity. }
  unfold load_from_file, parser_new. rewrite E. cbn [bind].
  destruct (loop_spec X (TObj ms) bad (S (length c)) c 0 (note (mkL p (mkSt [] [] (VObj vs)) [Create]) Open) ltac:(lia) s')
    as (l' & fl & A1 & A2 & A3 & A4).
  { cbn [note l_x l_st]. fold ps fin. exact Hs. }
  cbn [note l_x l_st l_log] in A1, A3, A4. fold ps fin in A1, A4.
  exists s', fl. split; [exact Hs|]. split; [exact T'|]. split; [|exact A4].
  cbn zeta. rewrite A1. cbn [bind]. unfold leave, note. cbn [l_st l_log].
  rewrite A2, A3. cbn [app]. rewrite <- !app_assoc. reflexivity.
Qed.

(** Whatever the file, whichever reads fail and whatever the document says: the load ends,
    the object is well formed, the file is closed and the parser freed, and it succeeds
    exactly when the file could be opened and read and is a document. *)
Theorem C105_files : forall X doc file bad ms vs,
  good (TObj ms) -> has_ty (VObj vs) (TObj ms) -> understands X doc ->
  exists o v log, load_from_file X file bad (TObj ms) (VObj vs) = Ok (o, v, log) /\
    has_ty v (TObj ms) /\ tidy false false log /\
    (o = Loaded <-> exists c n, file = Some c /\ doc c = Some n /\
                      forall j, (j <= length c / BUFSZ)%nat -> bad j = false).
Proof.
  intros X doc file bad ms vs G T U. pose proof U as U'. destruct U as (p & E & U). destruct file as [c|].
  - destruct (file_run X doc p c bad ms vs E U' G T) as (s' & fl & H1 & H2 & H3 & H4).
    rewrite H3. eexists _, _, _. split; [reflexivity|]. split; [exact H2|]. split.
    { cbn. split; [reflexivity|]. split; [reflexivity|]. apply tidy_feeds. cbn. auto. }
    pose proof (chunks_spec bad (S (length c)) c 0 ltac:(lia)) as K. cbn zeta in K.
    set (ps := fst (chunks (S (length c)) bad 0 c)) in *. set (fin := snd (chunks (S (length c)) bad 0 c)) in *.
    destruct K as (K1 & K2 & _). cbn [Nat.add] in K1. split.
    + intros O. destruct fin eqn:Ef; [|rewrite andb_false_r in O; discriminate]. destruct (K2 eq_refl) as (C & N).
      destruct U as (U & _). specialize (U ps N). rewrite C in U.
      destruct (doc c) as [n|] eqn:D.
      * exists c, n. split; [reflexivity|]. split; [exact D|]. apply K1. reflexivity.
      * destruct U as (U & _). rewrite U in O. discriminate.
    + intros (c' & n & Q & D & R). injection Q as <-. apply K1 in R. rewrite R in *.
      destruct (K2 eq_refl) as (C & N). destruct U as (U & _). specialize (U ps N). rewrite C, D in U.
      destruct U as (-> & _). reflexivity.
  - unfold load_from_file, parser_new. rewrite E. cbn [bind]. unfold leave. cbn [l_st l_log root app].
    eexists _, _, _. split; [reflexivity|]. split; [exact T|]. split; [cbn; auto|].
    split; [discriminate|]. intros (c & n & Q & _). discriminate.
Qed.
Print Assumptions C105_files.

Lemma marked_map : forall fin ps, ps <> [] ->
  map fst (marked fin ps) = ps /\ map snd (marked fin ps) = repeat false (pred (length ps)) ++ [fin].
Proof.
  induction ps as [|d ps IH]; intros H; [congruence|]. destruct ps as [|d' ps]; [split; reflexivity|].
  rewrite marked_cons. destruct IH as (A & B); [discriminate|]. cbn [map fst snd]. rewrite A, B. split; reflexivity.
Qed.

(** A document that fits is loaded into the object.  The parser gets the contents of the file
    in pieces of at most 4096 bytes; the last piece, and no other, is marked as the last. *)
Theorem C105_file_is_loaded : forall X doc c bad n ms vs,
  good (TObj ms) -> has_ty (VObj vs) (TObj ms) -> understands X doc ->
  doc c = Some n -> fits n ms -> (forall j, (j <= length c / BUFSZ)%nat -> bad j = false) ->
  exists log, load_from_file X (Some c) bad (TObj ms) (VObj vs) = Ok (Loaded, VObj (load n ms vs), log) /\
    tidy false false log /\ concat (map fst (fed log)) = c /\
    Forall (fun d => (length d <= 4096)%nat) (map fst (fed log)) /\
    exists k, map snd (fed log) = repeat false k ++ [true].
Proof.
  intros X doc c bad n ms vs G T U D F R. pose proof U as U'. destruct U as (p & E & U).
  destruct (file_run X doc p c bad ms vs E U' G T) as (s' & fl & H1 & H2 & H3 & H4).
  pose proof (chunks_spec bad (S (length c)) c 0 ltac:(lia)) as K. cbn zeta in K.
  set (ps := fst (chunks (S (length c)) bad 0 c)) in *. set (fin := snd (chunks (S (length c)) bad 0 c)) in *.
  destruct K as (K1 & K2 & _ & K4). cbn [Nat.add] in K1. apply K1 in R. rewrite R in *.
  destruct (K2 eq_refl) as (C & N). destruct U as (U & _). specialize (U ps N). rewrite C, D in U.
  destruct U as (O & Ev). rewrite O in *. rewrite (H4 eq_refl) in *. clear H4.
  destruct (C76_loads_the_document ms vs n _ G T F Ev) as (cv & L). unfold load_events in L.
  rewrite H1 in L. injection L as ->. cbn [root andb] in H3. rewrite H3.
  destruct (marked_map true ps N) as (M1 & M2).
  assert (Fd : fed ([Create; Open] ++ feeds (marked true ps) ++ [Close; Free]) = marked true ps).
  { cbn [app fed]. rewrite fed_feeds. cbn [fed]. apply app_nil_r. }
  eexists. split; [reflexivity|]. split; [|split; [|split]].
  - cbn. split; [reflexivity|]. split; [reflexivity|]. apply tidy_feeds. cbn. auto.
  - rewrite Fd, M1. exact C.
  - rewrite Fd, M1. replace 4096%nat with BUFSZ by (vm_compute; reflexivity). exact K4.
  - exists (pred (length ps)). rewrite Fd. exact M2.
Qed.
Print Assumptions C105_file_is_loaded.

(** Texts of less than 2 GB *)
Theorem C105_texts_partial : forall X doc s ms vs,
  good (TObj ms) -> has_ty (VObj vs) (TObj ms) -> understands X doc -> Z.of_nat (length s) < 2 ^ 31 ->
  exists o v log, load_from_string_n X (TObj ms) (VObj vs) s (Z.of_nat (length s)) = Ok (o, v, log) /\
    has_ty v (TObj ms) /\ log = [Create; Feed s true; Free] /\
    (o = Loaded <-> doc s <> None) /\
    (forall n, doc s = Some n -> fits n ms -> v = VObj (load n ms vs)).
Proof.
  intros X doc s ms vs G T U Hl. pose proof U as U'. destruct U as (p & E & U).
  destruct (handle_nested ms vs (fst (feed X p true [s])) G T) as (s' & Hs & T').
  { eapply understood_nested; eauto. left. discriminate. }
  unfold load_from_string_n, parser_new. rewrite E. cbn [bind]. unfold parse. rewrite Z.mod_small by lia.
  destruct (Z.leb_spec (2 ^ 31) (Z.of_nat (length s))); [lia|]. rewrite Nat2Z.id, firstn_all. cbn [l_x l_st l_log].
  destruct U as (U & _). specialize (U [s] ltac:(discriminate)). cbn [concat] in U. rewrite app_nil_r in U.
  cbn [feed] in Hs, U. destruct (x_parse X p s true) as [[p' evs] ok].
  assert (X1 : fst (if ok then (evs ++ [], true) else (evs, false)) = evs) by (destruct ok; cbn; rewrite ?app_nil_r; reflexivity).
  assert (X2 : snd (if ok then (evs ++ [], true) else (evs, false)) = ok) by (destruct ok; reflexivity).
  rewrite X1, ?X2 in *. rewrite Hs. cbn [bind]. unfold leave. cbn [l_st l_log].
  eexists _, _, _. split; [reflexivity|]. split; [exact T'|]. split; [reflexivity|].
  destruct (doc s) as [n|].
  - destruct U as (-> & Ev). split; [split; [discriminate|reflexivity]|].
    intros n' Q F. injection Q as <-. destruct (C76_loads_the_document ms vs n _ G T F Ev) as (cv & L).
    unfold load_events in L. rewrite Hs in L. injection L as ->. reflexivity.
  - destruct U as (-> & _). split; [split; [discriminate|congruence]|]. discriminate.
Qed.
Print Assumptions C105_texts_partial.

Lemma strlen_ok : forall s r, ~ In 0 s -> strlen (s ++ 0 :: r) = Ok (Z.of_nat (length s)).
Proof.
  induction s as [|c s IH]; intros r H; [reflexivity|]. cbn [app strlen]. destruct (Z.eqb_spec c 0) as [->|].
  - exfalso. apply H. left. reflexivity.
  - rewrite IH by (intros X; apply H; right; exact X). cbn [bind length]. f_equal. lia.
Qed.
(** a terminated text: the terminator and what follows it are not given to the parser *)
Theorem C105_terminated_texts : forall X t v s r, ~ In 0 s -> Z.of_nat (length s) < 2 ^ 31 ->
  load_from_string X t v (s ++ 0 :: r) = load_from_string_n X t v s (Z.of_nat (length s)).
Proof.
  intros X t v s r H Hl. unfold load_from_string. rewrite strlen_ok by auto. cbn [bind]. unfold load_from_string_n.
  destruct (parser_new X v); cbn [bind]; auto. unfold parse. rewrite Z.mod_small by lia.
  rewrite Nat2Z.id, firstn_app, Nat.sub_diag. cbn [firstn]. rewrite app_nil_r. reflexivity.
Qed.
Print Assumptions C105_terminated_texts.

(** a file and a text with the same document give the same object *)
Theorem C105_file_as_text : forall X doc c bad n ms vs,
  good (TObj ms) -> has_ty (VObj vs) (TObj ms) -> understands X doc -> doc c = Some n -> fits n ms ->
  Z.of_nat (length c) < 2 ^ 31 -> (forall j, bad j = false) ->
  exists v log log', load_from_file X (Some c) bad (TObj ms) (VObj vs) = Ok (Loaded, v, log) /\
    load_from_string_n X (TObj ms) (VObj vs) c (Z.of_nat (length c)) = Ok (Loaded, v, log').
Proof.
  intros X doc c bad n ms vs G T U D F L R.
  destruct (C105_file_is_loaded X doc c bad n ms vs G T U D F) as (log & A & _); [auto|].
  destruct (C105_texts_partial X doc c ms vs G T U L) as (o & v & log' & B & _ & _ & O & V).
  rewrite (V n D F) in B. rewrite (proj2 O) in B by congruence. eauto.
Qed.
Print Assumptions C105_file_as_text.

(** *** A small expat

    Its documents are <xyz>, the bytes between the brackets being the text of an element r.
    It works byte by byte, as expat does. *)

Inductive tst := T0 | T1 | T2 | T3.       (* before, inside, after, error *)
Definition tbyte (s : tst) (c : Z) : tst * list event :=
  match s with
  | T0 => if c =? 60 then (T1, [Beg (zs "r") []]) else (T3, [])
  | T1 => if c =? 62 then (T2, [End]) else (T1, [Chars [c]])
  | _ => (T3, [])
  end.
Fixpoint tbytes (s : tst) (d : list Z) : tst * list event :=
  match d with
  | [] => (s, [])
  | c :: d => let '(s, e) := tbyte s c in let '(s, es) := tbytes s d in (s, e ++ es)
  end.
Definition tok (s : tst) (fin : bool) : bool :=
  match s with T2 => true | T3 => false | _ => negb fin end.
Definition toy : expat :=
  mkX tst (Some T0) (fun s d fin => let '(s, es) := tbytes s d in (s, es, tok s fin)).
Definition toy_doc (c : list Z) : option node :=
  match c with
  | 60 :: c => match rev c with
               | 62 :: t => if existsb (Z.eqb 62) t then None
                            else Some (Elem (zs "r") [] (map (fun b => Text [b]) (rev t)))
               | _ => None
               end
  | _ => None
  end.

Lemma tbytes_app : forall a b s, tbytes s (a ++ b) =
  let '(s1, e1) := tbytes s a in let '(s2, e2) := tbytes s1 b in (s2, e1 ++ e2).
Proof.
  induction a as [|c a IH]; intros b s; [cbn; destruct (tbytes s b); reflexivity|]. cbn [app tbytes].
  destruct (tbyte s c) as [s1 e1]. rewrite IH. destruct (tbytes s1 a) as [s2 e2]. destruct (tbytes s2 b) as [s3 e3].
  rewrite app_assoc. reflexivity.
Qed.
Lemma t3_stays : forall d, tbytes T3 d = (T3, []).
Proof. induction d as [|c d IH]; [reflexivity|]. cbn. rewrite IH. reflexivity. Qed.

(** whatever the pieces, the result is that of the bytes *)
Lemma toy_feed : forall ps s fin, ps <> [] ->
  fst (feed toy s fin ps) = snd (tbytes s (concat ps)) /\
  snd (feed toy s fin ps) = tok (fst (tbytes s (concat ps))) fin.
Proof.
  induction ps as [|d ps IH]; intros s fin H; [congruence|].
  cbn [feed toy x_parse concat]. rewrite tbytes_app. destruct (tbytes s d) as [s1 e1] eqn:E1.
  destruct ps as [|d' ps].
  - cbn [feed concat tbytes fst snd]. rewrite app_nil_r. destruct (tok s1 fin) eqn:K; cbn; rewrite ?app_nil_r, ?K; auto.
  - destruct (tok s1 false) eqn:K.
    + specialize (IH s1 fin ltac:(discriminate)). change (x_st toy) with tst in *.
      destruct (feed toy s1 fin (d' :: ps)) as [es ok]. destruct (tbytes s1 (concat (d' :: ps))) as [s2 e2].
      cbn [fst snd] in *. destruct IH as (-> & ->). auto.
    + destruct s1; try discriminate K. rewrite t3_stays. cbn. rewrite app_nil_r. auto.
Qed.

Lemma toy_inside : forall d, (forall c, In c d -> c <> 62) ->
  forall rest, tbytes T1 (d ++ rest) = let '(s, e) := tbytes T1 rest in (s, map Chars (map (fun b => [b]) d) ++ e).
Proof.
  induction d as [|c d IH]; intros H rest; [cbn; destruct (tbytes T1 rest); reflexivity|].
  cbn [app tbytes tbyte]. destruct (Z.eqb_spec c 62) as [->|]; [exfalso; apply (H 62); [left|]; reflexivity|].
  rewrite IH by (intros; apply H; right; auto). destruct (tbytes T1 rest). reflexivity.
Qed.
Lemma toy_events : forall d, all_events (map (fun b => Text [b]) d) (map Chars (map (fun b => [b]) d)).
Proof.
  induction d as [|c d IH]; [constructor|]. cbn [map].
  change (Chars [c] :: map Chars (map (fun b => [b]) d)) with (map Chars [[c]] ++ map Chars (map (fun b => [b]) d)).
  constructor; [|exact IH]. apply (ev_text [[c]]).
Qed.
Lemma first62 : forall d : list Z, (forall c, In c d -> c <> 62) \/
  exists a b, d = a ++ 62 :: b /\ forall c, In c a -> c <> 62.
Proof.
  induction d as [|x d IH]; [left; intros c []|]. destruct (Z.eq_dec x 62) as [->|N].
  - right. exists [], d. split; [reflexivity|intros c []].
  - destruct IH as [H|(a & b & -> & H)].
    + left. intros c [<-|I]; auto.
    + right. exists (x :: a), b. split; [reflexivity|]. intros c [<-|I]; auto.
Qed.
Lemma nested_chars : forall d n rest, nested n rest -> nested n (map Chars (map (fun b : Z => [b]) d) ++ rest).
Proof. induction d; cbn; auto. Qed.

Lemma toy_understands : understands toy toy_doc.
Proof.
  exists T0. split; [reflexivity|].
  assert (N : forall c, nested 0 (snd (tbytes T0 c))).
  { intros [|x c]; [exact I|]. cbn [tbytes tbyte]. destruct (x =? 60); [|rewrite t3_stays; exact I].
    destruct (first62 c) as [H|(a & b & -> & H)].
    - pose proof (toy_inside c H []) as E. rewrite app_nil_r in E. rewrite E. cbn.
      apply nested_chars. exact I.
    - rewrite (toy_inside a H). cbn [tbytes tbyte]. change (62 =? 62) with true. cbn match.
      destruct b as [|y b]; [|cbn [tbytes tbyte]; rewrite t3_stays]; cbn; apply nested_chars; cbn; exact I. }
  split.
  - intros ps Hp. destruct (toy_feed ps T0 true Hp) as (-> & ->). set (c := concat ps). clearbody c.
    destruct c as [|x c]; [split; [reflexivity|exact I]|].
    destruct (Z.eq_dec x 60) as [->|Nx].
    2:{ assert (D : toy_doc (x :: c) = None).
        { unfold toy_doc. destruct x as [|p|p]; try reflexivity.
          do 6 (destruct p; try reflexivity). congruence. }
        rewrite D. split; [|apply N]. cbn [tbytes tbyte]. destruct (Z.eqb_spec x 60); [congruence|].
        rewrite t3_stays. reflexivity. }
    destruct (first62 c) as [H|(a & b & -> & H)].
    + assert (D : toy_doc (60 :: c) = None).
      { cbn [toy_doc]. destruct (rev c) as [|y t] eqn:R; [reflexivity|].
        assert (I : In y c) by (apply in_rev; rewrite R; left; reflexivity). apply H in I.
        destruct y as [|p|p]; try reflexivity. do 6 (destruct p; try reflexivity). congruence. }
      rewrite D. split; [|apply N]. cbn [tbytes tbyte]. change (60 =? 60) with true. cbn match.
      pose proof (toy_inside c H []) as E. rewrite app_nil_r in E. rewrite E. reflexivity.
    + destruct b as [|y b].
      * assert (D : toy_doc (60 :: a ++ [62]) = Some (Elem (zs "r") [] (map (fun b => Text [b]) a))).
        { cbn [toy_doc]. rewrite rev_app_distr. cbn [rev app].
          assert (X : existsb (Z.eqb 62) (rev a) = false).
          { apply not_true_is_false. intros X. apply existsb_exists in X. destruct X as (z & I & Q).
            apply Z.eqb_eq in Q. subst. apply in_rev in I. apply (H 62 I). reflexivity. }
          rewrite X, rev_involutive. reflexivity. }
        rewrite D. cbn [tbytes tbyte]. change (60 =? 60) with true. cbn match. rewrite (toy_inside a H).
        cbn. split; [reflexivity|]. apply ev_elem. apply toy_events.
      * assert (D : toy_doc (60 :: a ++ 62 :: y :: b) = None).
        { cbn [toy_doc]. rewrite rev_app_distr. cbn [rev]. rewrite <- !app_assoc. cbn [app].
          destruct (rev b) as [|z t]; cbn [app].
          - destruct y as [|p|p]; try reflexivity. do 6 (destruct p; try reflexivity).
          - assert (X : existsb (Z.eqb 62) (t ++ y :: 62 :: rev a) = true).
            { apply existsb_exists. exists 62. split; [|reflexivity]. apply in_or_app. right. right. left. reflexivity. }
            destruct z as [|p|p]; try reflexivity. do 6 (destruct p; try reflexivity). rewrite X. reflexivity. }
        rewrite D. split; [|apply N]. cbn [tbytes tbyte]. change (60 =? 60) with true. cbn match.
        rewrite (toy_inside a H). cbn [tbytes tbyte]. change (62 =? 62) with true. cbn match. cbn [tbytes tbyte]. rewrite t3_stays. reflexivity.
  - intros ps. destruct ps as [|d ps]; [exact I|]. destruct (toy_feed (d :: ps) T0 false ltac:(discriminate)) as (-> & _).
    apply N.
Qed.

Definition page : list (list Z * ty) := [(zs "r", TScal KStr)].
Definition blank : list val := [VScal (SStr [])].
Lemma page_good : good (TObj page) /\ has_ty (VObj blank) (TObj page).
Proof. split; repeat constructor; intros H; cbn in H; [contradiction|destruct H as [H|[]]; discriminate]. Qed.
Definition letters (n : nat) : node := Elem (zs "r") [] (map (fun b => Text [b]) (repeat 97 n)).
Lemma letters_doc : forall n, toy_doc (60 :: repeat 97 n ++ [62]) = Some (letters n) /\ fits (letters n) page.
Proof.
  intros n. split.
  - cbn [toy_doc]. rewrite rev_app_distr. cbn [rev app].
    assert (X : existsb (Z.eqb 62) (rev (repeat 97 n)) = false).
    { apply not_true_is_false. intros X. apply existsb_exists in X. destruct X as (z & I & Q).
      apply Z.eqb_eq in Q. subst. apply in_rev in I. apply repeat_spec in I. discriminate. }
    rewrite X, rev_involutive. reflexivity.
  - intros t [H|[]]. injection H as <-. cbn [item]. apply Forall_forall. intros x Hx.
    apply in_map_iff in Hx. destruct Hx as (b & <- & _). eauto.
Qed.
(** files of any number of pieces, an incomplete one, one that cannot be read, and a text *)
Example C105_ex :
  understands toy toy_doc /\ good (TObj page) /\ has_ty (VObj blank) (TObj page) /\
  (forall k, exists v log, load_from_file toy (Some (60 :: repeat 97 k ++ [62])) (fun _ => false) (TObj page) (VObj blank) =
    Ok (Loaded, v, log)) /\
  load_from_file toy (Some (zs "<ab>")) (fun _ => false) (TObj page) (VObj blank) =
    Ok (Loaded, VObj [VScal (SStr (zs "ab"))], [Create; Open; Feed (zs "<ab>") true; Close; Free]) /\
  load_from_file toy (Some (zs "<ab")) (fun _ => false) (TObj page) (VObj blank) =
    Ok (Thrown, VObj [VScal (SStr [])], [Create; Open; Feed (zs "<ab") true; Close; Free]) /\
  load_from_file toy (Some (zs "<ab>")) (fun _ => true) (TObj page) (VObj blank) =
    Ok (Thrown, VObj [VScal (SStr [])], [Create; Open; Close; Free]) /\
  load_from_string toy (TObj page) (VObj blank) (zs "<ab>" ++ [0; 1]) =
    Ok (Loaded, VObj [VScal (SStr (zs "ab"))], [Create; Feed (zs "<ab>") true; Free]).
Proof.
  split; [apply toy_understands|]. split; [apply page_good|]. split; [apply page_good|]. split.
  - intros k. destruct (letters_doc k) as (D & F). destruct page_good as (G & T).
    destruct (C105_file_is_loaded toy toy_doc _ (fun _ => false) _ page blank G T toy_understands D F) as (log & E & _); eauto.
  - repeat split; vm_compute; reflexivity.
Qed.

(** The length of a text is cut to 32 bits: a text of more than 4 GB is taken for its
    beginning, whatever follows. *)
Theorem C105_long_texts_refuted : forall X doc d n junk ms vs,
  good (TObj ms) -> has_ty (VObj vs) (TObj ms) -> understands X doc -> doc d = Some n -> fits n ms ->
  Z.of_nat (length d) < 2 ^ 31 -> Z.of_nat (length junk) = 2 ^ 32 ->
  exists log, load_from_string_n X (TObj ms) (VObj vs) (d ++ junk) (Z.of_nat (length (d ++ junk))) =
    Ok (Loaded, VObj (load n ms vs), log).
Proof.
  intros X doc d n junk ms vs G T U D F L J.
  destruct (C105_texts_partial X doc d ms vs G T U L) as (o & v & log & A & _ & _ & O & V).
  rewrite (V n D F) in A. rewrite (proj2 O) in A by congruence. exists log. rewrite <- A.
  unfold load_from_string_n. destruct (parser_new X (VObj vs)); cbn [bind]; auto. unfold parse.
  rewrite app_length, Nat2Z.inj_add, J. replace (Z.of_nat (length d) + 2 ^ 32) with (Z.of_nat (length d) + 1 * 2 ^ 32) by lia.
  rewrite Z.mod_add by lia. rewrite Z.mod_small by lia.
  rewrite Nat2Z.id, firstn_app, Nat.sub_diag. cbn [firstn]. rewrite app_nil_r. reflexivity.
Qed.
Print Assumptions C105_long_texts_refuted.
(** and a text of 2 to 4 GB has a negative length *)
Theorem C105_negative_length_refuted : forall X p t v s, x_new X = Some p ->
  2 ^ 31 <= Z.of_nat (length s) < 2 ^ 32 ->
  load_from_string_n X t v s (Z.of_nat (length s)) = Ub BadLib.
Proof.
  intros. unfold load_from_string_n, parser_new. rewrite H. cbn [bind]. unfold parse.
  rewrite Z.mod_small by lia. destruct (Z.leb_spec (2 ^ 31) (Z.of_nat (length s))); [reflexivity|lia].
Qed.
Print Assumptions C105_negative_length_refuted.
(** exactly what is loaded, whatever the length: the length modulo 2^32 decides *)
Theorem C105_texts_exact : forall X p t v s, x_new X = Some p ->
  let k := Z.of_nat (length s) mod 2 ^ 32 in
  load_from_string_n X t v s (Z.of_nat (length s)) =
    if 2 ^ 31 <=? k then Ub BadLib
    else load_from_string_n X t v (firstn (Z.to_nat k) s) (Z.of_nat (length (firstn (Z.to_nat k) s))).
Proof.
  intros X p t v s H k. unfold load_from_string_n, parser_new. rewrite H. cbn [bind]. unfold parse. fold k.
  destruct (Z.leb_spec (2 ^ 31) k) as [K|K]; [reflexivity|].
  assert (B : 0 <= k < 2 ^ 32) by (apply Z.mod_pos_bound; lia).
  assert (L : k <= Z.of_nat (length s)) by (apply Z.mod_le; lia).
  assert (E : Z.of_nat (length (firstn (Z.to_nat k) s)) = k) by (rewrite firstn_length; lia).
  rewrite E. rewrite (Z.mod_small k) by lia.
  destruct (Z.leb_spec (2 ^ 31) k) as [K'|_]; [lia|].
  rewrite firstn_firstn, Nat.min_id. reflexivity.
Qed.
Print Assumptions C105_texts_exact.
Lemma text_of : forall z, 0 < z -> exists s, Z.of_nat (length s) = z /\ exists w, rev s = 33 :: w.
Proof.
  intros z H. destruct (Z_of_nat_complete z) as (n & ->); [lia|]. exists (repeat 33 n).
  split; [rewrite repeat_length; reflexivity|].
  destruct n as [|n]; [lia|]. exists (rev (repeat 33 n)).
  change (33 :: rev (repeat 33 n)) with (rev [33] ++ rev (repeat 33 n)). rewrite <- rev_app_distr. f_equal.
  clear. induction n as [|n IH]; [reflexivity|]. cbn [repeat app] in *. rewrite <- IH. reflexivity.
Qed.
(** such texts exist: one of 4 GB and some bytes is loaded although it is no document, and one
    of 2 GB is undefined *)
Theorem C105_lengths_refuted :
  (exists s o, toy_doc s = None /\ fst (fst o) = Loaded /\
     load_from_string_n toy (TObj page) (VObj blank) s (Z.of_nat (length s)) = Ok o) /\
  (exists s, load_from_string_n toy (TObj page) (VObj blank) s (Z.of_nat (length s)) = Ub BadLib).
Proof.
  split.
  - destruct (text_of (2 ^ 32)) as (big & J & w & W); [reflexivity|].
    destruct (letters_doc 1) as (D & F). destruct page_good as (G & T).
    assert (Q : Z.of_nat (length (60 :: repeat 97 1 ++ [62])) < 2 ^ 31) by reflexivity.
    destruct (C105_long_texts_refuted toy toy_doc _ _ big _ _ G T toy_understands D F Q J) as (log & E).
    exists ((60 :: repeat 97 1 ++ [62]) ++ big), (Loaded, VObj (load (letters 1) page blank), log).
    split; [|split; [reflexivity|exact E]].
    cbn [repeat app toy_doc]. cbn [rev]. rewrite W. reflexivity.
  - destruct (text_of (2 ^ 31)) as (big & J & _); [reflexivity|]. exists big.
    apply (C105_negative_length_refuted toy T0 (TObj page) (VObj blank) big); [reflexivity|].
    rewrite J. split; [apply Z.le_refl|reflexivity].
Qed.
Print Assumptions C105_lengths_refuted.
(** a parser that could not be created is used all the same *)
Theorem C105_no_parser_refuted : forall X file bad t v, x_new X = None ->
  load_from_file X file bad t v = Ub NullDeref.
Proof. intros. unfold load_from_file, parser_new. rewrite H. reflexivity. Qed.
Print Assumptions C105_no_parser_refuted.
