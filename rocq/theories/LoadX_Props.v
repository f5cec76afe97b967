(** C132: exceptions while XML is loaded. *)

From Coq Require Import ZArith List Bool Lia.
From Verif Require Import Base Txml_Model Txml_Spec Txml_Proof Txml_Props Load_Model Load_Spec Load_Props LoadX_Model LoadX_Spec LoadX_Proof.
Import ListNotations.
Local Open Scope Z_scope.

Lemma start_sound : forall ms vs, has_ty (VObj vs) (TObj ms) -> sound (TObj ms) (mkSt [] [] (VObj vs)) 0.
Proof. intros ms vs T. split; [exact T|]. split; [constructor | reflexivity]. Qed.
Lemma obj_not_list : forall ms, not_list (TObj ms).
Proof. intros ms t d. discriminate. Qed.

(** the pieces and events of a file *)
Lemma file_x_run : forall thr X doc p c bad ms vs, x_new X = Some p -> understands X doc ->
  good (TObj ms) -> has_ty (VObj vs) (TObj ms) ->
  let ps := fst (chunks (S (length c)) bad 0 c) in let fin := snd (chunks (S (length c)) bad 0 c) in
  exists o v fl, load_from_file_x thr X (Some c) bad (TObj ms) (VObj vs) =
      (if thr 0%nat then Ok (Thrown, VObj vs, [Create; Free]) else Ok (o, v, [Create; Open] ++ feeds fl ++ [Close; Free])) /\
    nested 0 (fst (feed X p fin ps)) /\
    (load_from_file X (Some c) bad (TObj ms) (VObj vs) = Ok (o, v, [Create; Open] ++ feeds fl ++ [Close; Free]) \/
     o = Thrown /\ (exists j, thr j = true) /\ cut_off (TObj ms) (fst (feed X p fin ps)) (mkSt [] [] (VObj vs)) v).
Proof.
  intros thr X doc p c bad ms vs E U G T ps fin.
  pose proof (chunks_spec bad (S (length c)) c 0 ltac:(lia)) as K. cbn zeta in K. fold ps fin in K.
  assert (N : nested 0 (fst (feed X p fin ps))).
  { eapply understood_nested; eauto. destruct fin; [left|right; reflexivity]. apply K. reflexivity. }
  destruct (handle_nested ms vs _ G T N) as (s' & Hs & T').
  unfold load_from_file_x, load_from_file, parser_new. rewrite E. cbn [bind].
  destruct (loop_x_spec thr X (TObj ms) bad (S (length c)) c 0 (note (mkL p (mkSt [] [] (VObj vs)) [Create]) Open) 1 ltac:(lia) s')
    as (l' & o & fl & A1 & A2 & A3).
  { cbn [note l_x l_st]. fold ps fin. exact Hs. }
  cbn [note l_x l_st l_log] in A1, A2, A3. fold ps fin in A3. cbn [note]. cbn zeta. rewrite A1. cbn [bind].
  exists o, (root (l_st l')), fl. split; [|split; [exact N|]].
  - destruct (thr 0%nat); [reflexivity|]. unfold leave, note. cbn [l_st l_log]. rewrite A2. cbn [app]. rewrite <- !app_assoc. reflexivity.
  - destruct A3 as [A3 | (A3 & J & C)]; [left | right; auto].
    rewrite A3. cbn [bind]. unfold leave, note. cbn [l_st l_log]. rewrite A2. cbn [app]. rewrite <- !app_assoc. reflexivity.
Qed.

(** Whatever throws and wherever: the load ends, by returning or with an exception, the object
    is well formed, the file is closed and the parser freed.  A load that returns did what it
    does when nothing throws, and so does a load during which nothing throws. *)
Theorem C132_files : forall thr X doc file bad ms vs,
  good (TObj ms) -> has_ty (VObj vs) (TObj ms) -> understands X doc ->
  exists o v log, load_from_file_x thr X file bad (TObj ms) (VObj vs) = Ok (o, v, log) /\
    has_ty v (TObj ms) /\ tidy false false log /\
    (o = Loaded \/ calm thr -> load_from_file X file bad (TObj ms) (VObj vs) = Ok (o, v, log)).
Proof.
  intros thr X doc file bad ms vs G T U. pose proof U as U'. destruct U as (p & E & _). destruct file as [c|].
  - destruct (file_x_run thr X doc p c bad ms vs E U' G T) as (o & v & fl & A & N & B). rewrite A.
    destruct (thr 0%nat) eqn:E0.
    { eexists _, _, _. split; [reflexivity|]. split; [exact T|]. split; [cbn; auto|]. intros [Q|Q]; [discriminate|]. rewrite Q in E0. discriminate. }
    eexists _, _, _. split; [reflexivity|]. split; [|split].
    + destruct B as [B | (_ & _ & C)].
      * destruct (C105_files X doc (Some c) bad ms vs G T U') as (o2 & v2 & log2 & X1 & X2 & _). rewrite B in X1. injection X1 as _ <- _. exact X2.
      * exact (cut_off_ty _ _ _ _ _ G (obj_not_list ms) (start_sound _ _ T) N C).
    + cbn. split; [reflexivity|]. split; [reflexivity|]. apply tidy_feeds. cbn. auto.
    + intros [Q|Q]; (destruct B as [B | (Q2 & (j & J) & _)]; [exact B|]); [congruence|]. rewrite Q in J. discriminate.
  - unfold load_from_file_x, load_from_file, parser_new. rewrite E. cbn [bind]. unfold leave. cbn [l_st l_log root app].
    destruct (thr 0%nat); (eexists _, _, _; split; [reflexivity|]; split; [exact T|]; split; [cbn; auto | reflexivity]).
Qed.
Print Assumptions C132_files.

(** After an exception during the load of a document, the object is what a load of the same
    document without exceptions makes of it on the way: what the events before some event of
    the document say, except that the values stored at that event may be stored in part. *)
Theorem C132_what_is_left : forall thr X doc c n bad ms vs v log,
  good (TObj ms) -> has_ty (VObj vs) (TObj ms) -> understands X doc -> doc c = Some n ->
  (forall j, (j <= length c / BUFSZ)%nat -> bad j = false) ->
  load_from_file_x thr X (Some c) bad (TObj ms) (VObj vs) = Ok (Thrown, v, log) ->
  (exists j, thr j = true) /\ exists evs, events n evs /\ cut_off (TObj ms) evs (mkSt [] [] (VObj vs)) v.
Proof.
  intros thr X doc c n bad ms vs v log G T U D R H. pose proof U as U'. destruct U as (p & E & U).
  destruct (file_x_run thr X doc p c bad ms vs E U' G T) as (o & w & fl & A & N & B). rewrite A in H.
  pose proof (chunks_spec bad (S (length c)) c 0 ltac:(lia)) as K. cbn zeta in K.
  set (ps := fst (chunks (S (length c)) bad 0 c)) in *. set (fin := snd (chunks (S (length c)) bad 0 c)) in *.
  destruct K as (K1 & K2 & _). cbn [Nat.add] in K1. pose proof (proj2 K1 R) as Kf. rewrite Kf in *.
  destruct (K2 eq_refl) as (C & Ne). destruct U as (U & _). specialize (U ps Ne). rewrite C, D in U. destruct U as (O & Ev).
  destruct (thr 0%nat) eqn:E0.
  - injection H as <- <-. split; [eauto|]. exists (fst (feed X p true ps)). split; [exact Ev|].
    left. exists [], (fst (feed X p true ps)), (mkSt [] [] (VObj vs)). auto.
  - injection H as -> -> <-. destruct B as [B | (_ & J & Cu)]; [|eauto]. exfalso.
    destruct (C105_files X doc (Some c) bad ms vs G T U') as (o2 & v2 & log2 & X1 & _ & _ & X2). rewrite B in X1. injection X1 as <- _ _.
    destruct X2 as (_ & X2). discriminate X2. eauto.
Qed.
Print Assumptions C132_what_is_left.

(** The same for texts of less than 2 GB *)
Theorem C132_texts : forall thr X doc s ms vs,
  good (TObj ms) -> has_ty (VObj vs) (TObj ms) -> understands X doc -> Z.of_nat (length s) < 2 ^ 31 ->
  exists o v, load_from_string_n_x thr X (TObj ms) (VObj vs) s (Z.of_nat (length s)) = Ok (o, v, [Create; Feed s true; Free]) /\
    has_ty v (TObj ms) /\
    (o = Loaded \/ calm thr -> load_from_string_n X (TObj ms) (VObj vs) s (Z.of_nat (length s)) = Ok (o, v, [Create; Feed s true; Free])) /\
    (forall n, doc s = Some n -> o = Thrown ->
      (exists j, thr j = true) /\ exists evs, events n evs /\ cut_off (TObj ms) evs (mkSt [] [] (VObj vs)) v).
Proof.
  intros thr X doc s ms vs G T U Hl. pose proof U as U'. destruct U as (p & E & U).
  assert (N : nested 0 (fst (feed X p true [s]))) by (eapply understood_nested; eauto; left; discriminate).
  destruct (handle_nested ms vs (fst (feed X p true [s])) G T N) as (s' & Hs & T').
  unfold load_from_string_n_x, load_from_string_n, parser_new. rewrite E. cbn [bind]. unfold parse, parse_x. rewrite Z.mod_small by lia.
  destruct (Z.leb_spec (2 ^ 31) (Z.of_nat (length s))); [lia|]. rewrite Nat2Z.id, firstn_all. cbn [l_x l_st l_log].
  destruct U as (U & _). specialize (U [s] ltac:(discriminate)). cbn [concat] in U. rewrite app_nil_r in U.
  cbn [feed] in Hs, U, N. destruct (x_parse X p s true) as [[p' evs] ok].
  assert (X1 : fst (if ok then (evs ++ [], true) else (evs, false)) = evs) by (destruct ok; cbn; rewrite ?app_nil_r; reflexivity).
  assert (X2 : snd (if ok then (evs ++ [], true) else (evs, false)) = ok) by (destruct ok; reflexivity).
  rewrite X1, ?X2 in *. rewrite Hs. cbn [bind].
  destruct (handle_x_spec thr (TObj ms) evs _ _ 0 Hs) as (w & n' & e & Ex & A & C). rewrite Ex. cbn [bind]. unfold leave. cbn [l_st l_log app].
  eexists _, _. split; [reflexivity|]. destruct e.
  - destruct (C eq_refl) as (J & Cu). split; [exact (cut_off_ty _ _ _ _ _ G (obj_not_list ms) (start_sound _ _ T) N Cu)|].
    rewrite andb_false_r. split; [intros [Q|Q]; [discriminate|]; destruct J as (j & J); rewrite Q in J; discriminate|].
    intros n D _. rewrite D in U. destruct U as (_ & Ev). eauto.
  - rewrite (A eq_refl). rewrite andb_true_r. split; [exact T'|]. split; [reflexivity|].
    intros n D Q. rewrite D in U. destruct U as (-> & _). discriminate.
Qed.
Print Assumptions C132_texts.

(** The object can be used again after an exception: a later load of a document that fits puts
    the document into it. *)
Theorem C132_load_again : forall thr X doc file bad ms vs v log c2 bad2 n2,
  good (TObj ms) -> has_ty (VObj vs) (TObj ms) -> understands X doc ->
  load_from_file_x thr X file bad (TObj ms) (VObj vs) = Ok (Thrown, v, log) ->
  doc c2 = Some n2 -> fits n2 ms -> (forall j, (j <= length c2 / BUFSZ)%nat -> bad2 j = false) ->
  exists vs' log2, v = VObj vs' /\ length vs' = length vs /\
    load_from_file X (Some c2) bad2 (TObj ms) v = Ok (Loaded, VObj (load n2 ms vs'), log2).
Proof.
  intros thr X doc file bad ms vs v log c2 bad2 n2 G T U H D F R.
  destruct (C132_files thr X doc file bad ms vs G T U) as (o & v' & log' & A & B & _). rewrite H in A. injection A as <- <- <-.
  inversion B as [| |vs' ? Fv]; subst. destruct (C105_file_is_loaded X doc c2 bad2 n2 ms vs' G B U D F R) as (log2 & E & _).
  exists vs', log2. split; [reflexivity|]. split; [|exact E]. inversion T as [| |? ? Ft]; subst.
  apply Forall2_len in Fv. apply Forall2_len in Ft. lia.
Qed.
Print Assumptions C132_load_again.

(** a list of texts *)
Definition lines : list (list Z * ty) := [(zs "r", TList (TScal KStr) (VScal (SStr [])))].
Lemma lines_good : good (TObj lines) /\ forall l, Forall (fun v => exists s, v = VScal (SStr s)) l -> has_ty (VObj [VList l]) (TObj lines).
Proof.
  split.
  - constructor.
    + repeat constructor. intros [].
    + intros [H|[]]; discriminate.
    + constructor; [|constructor]. apply g_list; [constructor | discriminate | constructor].
  - intros l F. constructor. constructor; [|constructor]. constructor. eapply Forall_impl; [|exact F]. cbn. intros v (s & ->). constructor.
Qed.
(** Loading is not all or nothing: the list can be left with an item that is neither what was
    there nor what the document says. *)
Theorem C132_all_or_nothing_refuted : exists thr X doc c n ms vs v log,
  good (TObj ms) /\ has_ty (VObj vs) (TObj ms) /\ understands X doc /\ doc c = Some n /\ fits n ms /\
  load_from_file_x thr X (Some c) (fun _ => false) (TObj ms) (VObj vs) = Ok (Thrown, v, log) /\
  v <> VObj vs /\ v <> VObj (load n ms vs).
Proof.
  exists (fun i => i =? 9)%nat, toy, toy_doc, (zs "<ab>"), (Elem (zs "r") [] [Text (zs "a"); Text (zs "b")]), lines, [VList [VScal (SStr (zs "x"))]],
    (VObj [VList [VScal (SStr (zs "x")); VScal (SStr [])]]), [Create; Open; Feed (zs "<ab>") true; Close; Free].
  split; [apply lines_good|]. split; [apply lines_good; repeat constructor; eauto|]. split; [apply toy_understands|]. split; [reflexivity|]. split.
  { intros t [H|[]]. injection H as <-. cbn [item]. repeat constructor; eauto. }
  split; [vm_compute; reflexivity|]. split; intros H; vm_compute in H; discriminate.
Qed.
Print Assumptions C132_all_or_nothing_refuted.

(** every place of this load throws in turn; after it there is none left *)
Example C132_example :
  understands toy toy_doc /\ good (TObj lines) /\ has_ty (VObj [VList []]) (TObj lines) /\
  map (fun i => load_from_file_x (Nat.eqb i) toy (Some (zs "<a>")) (fun _ => false) (TObj lines) (VObj [VList []])) (seq 0 10) =
  map Ok
  [ (Thrown, VObj [VList []], [Create; Free]);
    (Thrown, VObj [VList []], [Create; Open; Feed (zs "<a>") true; Close; Free]);
    (Thrown, VObj [VList []], [Create; Open; Feed (zs "<a>") true; Close; Free]);
    (Thrown, VObj [VList []], [Create; Open; Feed (zs "<a>") true; Close; Free]);
    (Thrown, VObj [VList []], [Create; Open; Feed (zs "<a>") true; Close; Free]);
    (Thrown, VObj [VList [VScal (SStr [])]], [Create; Open; Feed (zs "<a>") true; Close; Free]);
    (Thrown, VObj [VList [VScal (SStr [])]], [Create; Open; Feed (zs "<a>") true; Close; Free]);
    (Thrown, VObj [VList [VScal (SStr [])]], [Create; Open; Feed (zs "<a>") true; Close; Free]);
    (Thrown, VObj [VList [VScal (SStr [])]], [Create; Open; Feed (zs "<a>") true; Close; Free]);
    (Loaded, VObj [VList [VScal (SStr (zs "a"))]], [Create; Open; Feed (zs "<a>") true; Close; Free]) ] /\
  load_from_string_n_x (Nat.eqb 3) toy (TObj lines) (VObj [VList []]) (zs "<a>") 3 =
    Ok (Thrown, VObj [VList []], [Create; Feed (zs "<a>") true; Free]).
Proof.
  split; [apply toy_understands|]. split; [apply lines_good|]. split; [apply lines_good; constructor|]. split; vm_compute; reflexivity.
Qed.
