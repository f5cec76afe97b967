(** C76, C77, C100, C101: objects loaded from XML documents. *)

From Coq Require Import ZArith List Bool Lia.
From Verif Require Import Base Txml_Model Txml_Spec Txml_Proof.
From Verif Require Flt_Model Flt_Spec Flt_Proof Flt_Props.
Import ListNotations.
Local Open Scope Z_scope.

(** C76: the object holds what the document says, and the levels are back where they were *)
Theorem C76_loads_the_document : forall ms vs n evs,
  good (TObj ms) -> has_ty (VObj vs) (TObj ms) -> fits n ms -> events n evs ->
  exists cv, load_events (TObj ms) (VObj vs) evs = Ok (mkSt [] cv (VObj (load n ms vs))).
Proof.
  intros ms vs n evs G T F E. apply (proj1 load_run n evs E (TObj ms) (VObj vs) [] ms vs (fun x => x) []); auto. constructor.
Qed.
(** the pieces in which expat reports text do not matter *)
Theorem C76_any_pieces : forall ms vs n evs1 evs2 s1 s2,
  good (TObj ms) -> has_ty (VObj vs) (TObj ms) -> fits n ms -> events n evs1 -> events n evs2 ->
  load_events (TObj ms) (VObj vs) evs1 = Ok s1 -> load_events (TObj ms) (VObj vs) evs2 = Ok s2 -> root s1 = root s2.
Proof.
  intros ms vs n evs1 evs2 s1 s2 G T F E1 E2 H1 H2.
  destruct (C76_loads_the_document ms vs n evs1 G T F E1) as [c1 X1]. destruct (C76_loads_the_document ms vs n evs2 G T F E2) as [c2 X2].
  rewrite X1 in H1. rewrite X2 in H2. injection H1 as <-. injection H2 as <-. reflexivity.
Qed.

(** <r><k>t1</k>...<k>tn</k></r> into an object r with a list k: the items in order,
    behind those that were there *)
Lemma list_in_order : forall r k kd d items texts,
  load (Elem r [] (map (fun t => Elem k [] [Text t]) texts)) [(r, TObj [(k, TList (TScal kd) d)])] [VObj [VList items]] =
  [VObj [VList (items ++ map (fun t => VScal (conv kd t)) texts)]].
Proof.
  intros r k kd d items texts. cbn [load member enter]. destruct (key_eqb_spec r r); [|congruence].
  unfold load_attrs. cbn [fold_left]. f_equal. f_equal. clear e. revert items. induction texts as [|t texts IH]; intros items; cbn [map fold_left].
  - rewrite app_nil_r. reflexivity.
  - cbn [load member enter]. destruct (key_eqb_spec k k); [|congruence]. cbn [text flat_map]. rewrite app_nil_r, IH, <- app_assoc. reflexivity.
Qed.
Theorem C76_lists_in_order : forall r k kd d items texts evs, r <> [] -> k <> [] -> (exists s, d = VScal s) ->
  Forall (fun v => exists s, v = VScal s) items ->
  events (Elem r [] (map (fun t => Elem k [] [Text t]) texts)) evs ->
  exists cv, load_events (TObj [(r, TObj [(k, TList (TScal kd) d)])]) (VObj [VObj [VList items]]) evs =
    Ok (mkSt [] cv (VObj [VObj [VList (items ++ map (fun t => VScal (conv kd t)) texts)]])).
Proof.
  intros r k kd d items texts evs Nr Nk [s ->] Fi E. rewrite <- (list_in_order r k kd (VScal s)). apply C76_loads_the_document; auto.
  - constructor; cbn; [repeat constructor; auto | intros [X|[]]; auto |]. repeat constructor; cbn; auto; try (intros [X|[]]; auto); discriminate.
  - repeat constructor. induction Fi as [|v items [s1 ->] Fi IH]; constructor; auto. constructor.
  - cbn [fits]. intros t [X|[]]. injection X as <-. cbn [item]. clear E. induction texts as [|tx texts IH]; cbn; [exact I|]. split; [|exact IH].
    intros t [X|[]]. injection X as <-. repeat constructor. eauto.
Qed.

Definition port := [(zs "host", TScal KStr); (zs "port", TScal KU32); (zs "name", TList (TScal KStr) (VScal (SStr [])))].
Definition config := [(zs "config", TObj [(zs "debug", TScal KBool); (zs "server", TList (TObj port) (VObj [VScal (SStr []); VScal (SNum 0); VList []]))])].
Definition fresh := [VObj [VScal (SBool false); VList []]].
Definition document :=
  Elem (zs "config") [(zs "debug", zs "On")]
    [Text (zs " "); Elem (zs "server") [(zs "host", zs "a"); (zs "port", zs "80")] [Elem (zs "name") [] [Text (zs "x")]; Elem (zs "name") [] [Text (zs "y")]];
     Elem (zs "other") [(zs "host", zs "zz")] [Elem (zs "debug") [] [Text (zs "no")]];
     Elem (zs "server") [] [Elem (zs "port") [] [Text (zs "81")]; Text (zs "..."); Elem (zs "host") [] [Text (zs "b")]]].
Definition loaded := [VObj [VScal (SBool true); VList
  [VObj [VScal (SStr (zs "a")); VScal (SNum 80); VList [VScal (SStr (zs "x")); VScal (SStr (zs "y"))]];
   VObj [VScal (SStr (zs "b")); VScal (SNum 81); VList []]]]].
Example C76_example :
  good (TObj config) /\ has_ty (VObj fresh) (TObj config) /\ fits document config /\ load document config fresh = loaded /\
  events document
    [Beg (zs "config") [(zs "debug", zs "On")]; Chars (zs " ");
     Beg (zs "server") [(zs "host", zs "a"); (zs "port", zs "80")]; Beg (zs "name") []; Chars (zs "x"); End; Beg (zs "name") []; Chars (zs "y"); End; End;
     Beg (zs "other") [(zs "host", zs "zz")]; Beg (zs "debug") []; Chars (zs "n"); Chars (zs "o"); End; End;
     Beg (zs "server") []; Beg (zs "port") []; Chars (zs "8"); Chars []; Chars (zs "1"); End; Chars (zs ".."); Chars (zs "."); Beg (zs "host") []; Chars (zs "b"); End; End;
     End].
Proof.
  split; [|split; [|split; [|split]]].
  - unfold config, port. repeat (constructor || cbn); try (intros H; repeat (destruct H as [H|H]; [discriminate|]); exact H); try discriminate.
  - unfold fresh, config. repeat constructor.
  - unfold document, config. cbn [fits]. intros t [X|[]]. injection X as <-. cbn [item].
    repeat match goal with
    | |- _ /\ _ => split
    | |- True => exact I
    | |- Forall _ _ => repeat constructor; eauto
    | |- forall t, _ -> _ => intros t H; cbn in H; repeat destruct H as [H|H]; try discriminate H; try contradiction; injection H as <-; cbn [item port]
    end.
  - vm_compute. reflexivity.
  - assert (E : forall x c e evs l, events x e -> all_events c evs -> l = e ++ evs -> all_events (x :: c) l) by (intros; subst; constructor; auto).
    assert (B : forall n a c evs l, all_events c evs -> l = Beg n a :: evs ++ [End] -> events (Elem n a c) l) by (intros; subst; constructor; auto).
    assert (X : forall chunks s l, s = concat chunks -> l = map Chars chunks -> events (Text s) l) by (intros; subst; constructor).
    unfold document.
    eapply B; [eapply E; [apply (X [zs " "]); reflexivity | eapply E; [eapply B; [eapply E; [eapply B; [eapply E; [apply (X [zs "x"]); reflexivity | constructor | reflexivity] | reflexivity]
      | eapply E; [eapply B; [eapply E; [apply (X [zs "y"]); reflexivity | constructor | reflexivity] | reflexivity] | constructor | reflexivity] | reflexivity] | reflexivity]
      | eapply E; [eapply B; [eapply E; [eapply B; [eapply E; [apply (X [zs "n"; zs "o"]); reflexivity | constructor | reflexivity] | reflexivity] | constructor | reflexivity] | reflexivity]
      | eapply E; [eapply B; [eapply E; [eapply B; [eapply E; [apply (X [zs "8"; []; zs "1"]); reflexivity | constructor | reflexivity] | reflexivity]
        | eapply E; [apply (X [zs ".."; zs "."]); reflexivity | eapply E; [eapply B; [eapply E; [apply (X [zs "b"]); reflexivity | constructor | reflexivity] | reflexivity] | constructor | reflexivity] | reflexivity] | reflexivity] | reflexivity]
      | constructor | reflexivity] | reflexivity] | reflexivity] | reflexivity] | reflexivity].
Qed.

(** a list of lists: the item of the inner list is taken before there is one *)
Theorem C76_list_of_lists_refuted : exists ms vs n evs,
  has_ty (VObj vs) (TObj ms) /\ fits n ms /\ events n evs /\ load_events (TObj ms) (VObj vs) evs = Ub OobRead.
Proof.
  exists [(zs "row", TList (TList (TScal KI32) (VScal (SNum 0))) (VList []))], [VList []], (Elem (zs "row") [] []), [Beg (zs "row") []; End].
  split; [repeat constructor|]. split; [cbn; intros t [X|[]]; injection X as <-; constructor|]. split; [apply (ev_elem _ _ [] []); constructor|]. reflexivity.
Qed.
(** two list members under one name: the second takes the item that only the first has *)
Theorem C76_same_name_refuted : exists ms vs n evs,
  has_ty (VObj vs) (TObj ms) /\ fits n ms /\ events n evs /\ load_events (TObj ms) (VObj vs) evs = Ub OobRead.
Proof.
  exists [(zs "a", TList (TScal KI32) (VScal (SNum 0))); (zs "a", TList (TScal KI32) (VScal (SNum 0)))], [VList []; VList []], (Elem (zs "a") [] []), [Beg (zs "a") []; End].
  split; [repeat constructor|]. split; [cbn; intros t [X|[X|[]]]; injection X as <-; constructor|]. split; [apply (ev_elem _ _ [] []); constructor|]. reflexivity.
Qed.

(** C101: whatever the document, and however much of it expat reports before an error *)
Theorem C101_any_document_is_safe : forall ms vs evs,
  good (TObj ms) -> has_ty (VObj vs) (TObj ms) -> nested 0 evs ->
  exists s, load_events (TObj ms) (VObj vs) evs = Ok s /\ has_ty (root s) (TObj ms).
Proof.
  intros ms vs evs G T N. unfold load_events. eapply (sound_handle evs (TObj ms) _ 0); auto; [discriminate|].
  split; [exact T|]. split; [constructor | reflexivity].
Qed.
(** the type without its hypotheses *)
Example C101_example :
  good (TObj config) /\ has_ty (VObj fresh) (TObj config) /\
  nested 0 [Beg (zs "config") []; Beg (zs "debug") []; Beg (zs "server") []; Beg (zs "name") [(zs "x", zs "1")]; End; End; Chars (zs "yes"); End; Beg (zs "server") []] /\
  load_events (TObj config) (VObj fresh)
    [Beg (zs "config") []; Beg (zs "debug") []; Beg (zs "server") []; Beg (zs "name") [(zs "x", zs "1")]; End; End; Chars (zs "yes"); End; Beg (zs "server") []] =
  Ok (mkSt [(zs "config", false); (zs "server", true)] [] (VObj [VObj [VScal (SBool true); VList [VObj [VScal (SStr []); VScal (SNum 0); VList []]]]])).
Proof. split; [apply C76_example|]. split; [apply C76_example|]. split; [cbn; exact I | vm_compute; reflexivity]. Qed.

(** C77 *)
Theorem C77_true_iff : forall s, strtobool s = true <->
  strtol s <> 0 \/ (s <> [] /\ exists w rest, In w [zs "true"; zs "on"; zs "yes"] /\ same_word (s ++ rest) w).
Proof.
  intros s. unfold strtobool. destruct (Z.eqb_spec 0 (strtol s)) as [E|E]; cbn [negb].
  2:{ split; [intros _; left; auto | reflexivity]. }
  assert (K : (exists w rest, In w [zs "true"; zs "on"; zs "yes"] /\ same_word (s ++ rest) w) <->
              nocase s (zs "true") = true \/ nocase s (zs "on") = true \/ nocase s (zs "yes") = true).
  { rewrite !nocase_spec. split.
    - intros (w & rest & [<-|[<-|[<-|[]]]] & H); [left | right; left | right; right]; exists rest; exact H.
    - intros [[rest H]|[[rest H]|[rest H]]]; [exists (zs "true"), rest | exists (zs "on"), rest | exists (zs "yes"), rest]; (split; [cbn [In]; auto | exact H]). }
  rewrite K. clear K. destruct s as [|c s].
  - cbn. split; [discriminate | intros [H|[H _]]; congruence].
  - assert (D : forall d e w w', nocase (c :: s) (d :: w) = true -> nocase (c :: s) (e :: w') = true -> tolower d = tolower e).
    { intros d e w w' H1 H2. cbn [nocase] in *. apply andb_prop in H1. apply andb_prop in H2. destruct H1 as [H1 _], H2 as [H2 _].
      apply Z.eqb_eq in H1. apply Z.eqb_eq in H2. congruence. }
    cbn [zs map] in *.
    destruct (nocase (c :: s) (zs "0")) eqn:N0.
    { split; [discriminate|]. intros [H|[_ [H|[H|H]]]]; [congruence | | |]; exfalso; generalize (D _ _ _ _ N0 H); vm_compute; discriminate. }
    destruct (nocase (c :: s) (zs "true")) eqn:N1; [split; [right; split; [discriminate | left; reflexivity] | reflexivity]|].
    destruct (nocase (c :: s) (zs "false")) eqn:N2.
    { split; [discriminate|]. intros [H|[_ [H|[H|H]]]]; [congruence | discriminate | |]; exfalso; generalize (D _ _ _ _ N2 H); vm_compute; discriminate. }
    destruct (nocase (c :: s) (zs "on")) eqn:N3; [split; [right; split; [discriminate | right; left; reflexivity] | reflexivity]|].
    destruct (nocase (c :: s) (zs "off")) eqn:N4.
    { split; [discriminate|]. intros [H|[_ [H|[H|H]]]]; [congruence | discriminate | discriminate |]; exfalso; generalize (D _ _ _ _ N4 H); vm_compute; discriminate. }
    destruct (nocase (c :: s) (zs "yes")) eqn:N5; [split; [right; split; [discriminate | right; right; reflexivity] | reflexivity]|].
    destruct (nocase (c :: s) (zs "no")); (split; [discriminate | intros [H|[_ [H|[H|H]]]]; congruence]).
Qed.
Theorem C77_integers : forall s n, integer s n -> strtobool s = negb (n =? 0).
Proof.
  intros s n H. destruct (strtobool s) eqn:B; destruct (Z.eqb_spec n 0) as [E|E]; try reflexivity; exfalso.
  - apply C77_true_iff in B. rewrite (strtol_integer s n H) in B. destruct B as [B|(_ & w & rest & I & S)]; [subst; apply B; reflexivity|].
    assert (X : exists c s', s = c :: s' /\ (digit c \/ c = 45)).
    { destruct H as [[|d ds] NE F | ds NE F]; [congruence | inversion F; subst; eauto | eauto]. }
    destruct X as (c & s' & -> & C). unfold same_word in S. cbn [app map] in S.
    assert (L : low c = c). { unfold low. destruct (Z.leb_spec 65 c); [|reflexivity]. exfalso. unfold digit in C. lia. }
    destruct I as [<-|[<-|[<-|[]]]]; vm_compute zs in S; cbn [map] in S; injection S as S _; vm_compute (low _) in S at 2; rewrite L in S; unfold digit in C; lia.
  - assert (T : strtobool s = true); [|congruence]. apply C77_true_iff. left. rewrite (strtol_integer s n H). lia.
Qed.
Theorem C77_words : forall s,
  (In (map low s) [zs "true"; zs "on"; zs "yes"] -> strtobool s = true) /\
  (In (map low s) [zs "false"; zs "off"; zs "no"; zs "0"; []] -> strtobool s = false).
Proof.
  intros s.
  assert (L : forall c, low (low c) = low c).
  { intros c. unfold low at 2 3. destruct ((65 <=? c) && (c <=? 90)) eqn:E; [|unfold low; rewrite E; reflexivity].
    unfold low. apply andb_prop in E. destruct E as [E1 E2]. apply Z.leb_le in E1. apply Z.leb_le in E2. destruct (Z.leb_spec (c + 32) 90); [lia|]. rewrite andb_false_r. reflexivity. }
  assert (Sp : forall c, is_space (low c) = is_space c).
  { intros c. unfold low. destruct ((65 <=? c) && (c <=? 90)) eqn:E; [|reflexivity]. apply andb_prop in E. destruct E as [E1 E2]. apply Z.leb_le in E1. apply Z.leb_le in E2.
    unfold is_space. destruct (Z.eqb_spec c 32); [lia|]. destruct (Z.eqb_spec (c + 32) 32); [lia|]. destruct (Z.leb_spec c 13); [lia|]. destruct (Z.leb_spec (c + 32) 13); [lia|]. rewrite !andb_false_r. reflexivity. }
  assert (Nc : forall w, nocase s w = nocase (map low s) w).
  { clear Sp. induction s as [|c s IH]; intros [|d w]; cbn [nocase map]; try reflexivity. rewrite !tolower_low, L, IH. reflexivity. }
  assert (St : forall w, map low s = w -> (forall c t, w = c :: t -> 97 <= c <= 122) -> strtol s = 0).
  { intros w E H. destruct s as [|c s']; [reflexivity|]. cbn [map] in E. subst w. specialize (H _ _ eq_refl).
    assert (C : 65 <= c <= 90 \/ 97 <= c <= 122). { unfold low in H. destruct (Z.leb_spec 65 c); cbn [andb] in H; [|lia]. destruct (Z.leb_spec c 90); lia. }
    unfold strtol, number. cbn [skip_space]. assert (X : is_space c = false).
    { unfold is_space. destruct (Z.eqb_spec c 32); [lia|]. destruct (Z.leb_spec c 13); [lia|]. rewrite andb_false_r. reflexivity. }
    rewrite X.
    assert (D : digits 0 (c :: s') = 0). { cbn [digits]. unfold is_digit. destruct (Z.leb_spec c 57); [lia|]. rewrite andb_false_r. reflexivity. }
    destruct c as [|p|p]; try lia.
    assert (Y : Z.pos p <> 45 /\ Z.pos p <> 43) by lia.
    repeat (destruct p as [p|p|]; try (rewrite D; reflexivity)); exfalso; lia. }
  unfold strtobool. rewrite !Nc. split; intros H.
  - assert (S0 : strtol s = 0).
    { destruct H as [H|[H|[H|[]]]]; (eapply St; [symmetry; exact H|]); vm_compute zs; intros c t E; injection E as <- _; lia. }
    rewrite S0. destruct H as [H|[H|[H|[]]]]; rewrite <- H; reflexivity.
  - assert (S0 : strtol s = 0).
    { destruct H as [H|[H|[H|[H|[H|[]]]]]].
      1-3: (eapply St; [symmetry; exact H|]); vm_compute zs; intros c t E; injection E as <- _; lia.
      - destruct s as [|c [|? ?]]; try discriminate H. cbn [map] in H. vm_compute zs in H. injection H as H. unfold low in H.
        destruct ((65 <=? c) && (c <=? 90)) eqn:E; [apply andb_prop in E; destruct E as [E1 E2]; apply Z.leb_le in E1; lia|]. subst c. reflexivity.
      - destruct s; [reflexivity | discriminate]. }
    rewrite S0. destruct H as [H|[H|[H|[H|[H|[]]]]]]; rewrite <- H; reflexivity.
Qed.
(** abbreviations count as well, an abbreviation of both on and off as on; a fraction is no number *)
Theorem C77_abbreviation_refuted : exists s, nocase s (zs "off") = true /\ s <> [] /\ strtobool s = true.
Proof. exists (zs "O"). split; [reflexivity|]. split; [discriminate | reflexivity]. Qed.
Theorem C77_fraction_refuted : exists s, s = zs "0.5" /\ strtobool s = false.
Proof. exists (zs "0.5"). split; reflexivity. Qed.
Example C77_example :
  map strtobool [zs "TrUe"; zs "ON"; zs "Yes"; zs "1"; zs "-7"; zs "0010"; zs " 5"] = repeat true 7 /\
  map strtobool [zs "FALSE"; zs "Off"; zs "No"; zs "0"; []; zs "000"; zs "maybe"] = repeat false 7 /\
  integer (zs "-7") (-7) /\ integer (zs "99999999999999999999") 99999999999999999999 /\ strtobool (zs "99999999999999999999") = true.
Proof.
  split; [vm_compute; reflexivity|]. split; [vm_compute; reflexivity|]. split; [|split].
  - apply (int_neg (zs "7")); [discriminate | repeat constructor; vm_compute; discriminate].
  - apply (int_pos (zs "99999999999999999999")); [discriminate | repeat constructor; vm_compute; discriminate].
  - vm_compute. reflexivity.
Qed.

(** C100 *)
Theorem C100_integers_in_range : forall k s n lo hi, range k = Some (lo, hi) -> integer s n -> lo <= n <= hi -> conv k s = SNum n.
Proof.
  intros k s n lo hi R H B. destruct k; inversion R; subst; cbn [conv]; f_equal.
  - rewrite (strtol_integer s n H). unfold i32. assert (E : Z.max (- 2 ^ 63) (Z.min (2 ^ 63 - 1) n) = n) by lia. rewrite E.
    rewrite Z.mod_small by lia. lia.
  - rewrite (strtoul_integer s n H) by lia. rewrite Z.min_r by lia. apply Z.mod_small. lia.
  - rewrite (strtol_integer s n H). lia.
  - rewrite (strtoul_integer s n H) by lia. lia.
  - rewrite (strtoul_integer s n H) by lia. rewrite Z.min_r by lia. apply Z.mod_small. lia.
Qed.
(** white space before the number and anything but a digit after it are passed over *)
Theorem C100_around_the_number : forall k sp s n rest, range k <> None -> integer s n ->
  Forall (fun c => c = 32 \/ 9 <= c <= 13) sp -> match rest with c :: _ => ~ digit c | [] => True end ->
  conv k (sp ++ s ++ rest) = conv k s.
Proof.
  intros k sp s n rest R H SP RE.
  assert (E : number (sp ++ s ++ rest) = number s).
  { assert (Dg : forall ds acc, Forall digit ds -> digits acc (ds ++ rest) = digits acc ds).
    { induction ds as [|d ds IH]; intros acc F; cbn [app digits].
      - destruct rest as [|c rest]; [reflexivity|]. cbn [digits]. unfold is_digit, digit in *.
        destruct (Z.leb_spec 48 c), (Z.leb_spec c 57); cbn [andb]; try reflexivity. exfalso. apply RE. lia.
      - inversion F; subst. destruct (is_digit d); auto. }
    assert (SK : forall t, skip_space (sp ++ t) = skip_space t).
    { intros t. induction SP as [|c sp C SP IH]; [reflexivity|]. cbn [app skip_space]. unfold is_space at 1.
      destruct (Z.eqb_spec c 32); cbn [orb]; [exact IH|]. destruct (Z.leb_spec 9 c); [|lia]. destruct (Z.leb_spec c 13); [|lia]. exact IH. }
    unfold number. rewrite SK. destruct H as [ds NE F | ds NE F].
    - destruct ds as [|d ds]; [congruence|]. pose proof F as F0. inversion F as [|? ? D F']; subst. unfold digit in D.
      assert (S1 : forall l, skip_space (d :: l) = d :: l).
      { intros l. cbn [skip_space]. unfold is_space. destruct (Z.eqb_spec d 32); [lia|]. destruct (Z.leb_spec d 13); [lia|]. rewrite andb_false_r. reflexivity. }
      cbn [app]. rewrite !S1.
      assert (E : digits 0 (d :: ds ++ rest) = digits 0 (d :: ds)) by (apply (Dg (d :: ds)); auto).
      assert (Hd : d = 48 \/ d = 49 \/ d = 50 \/ d = 51 \/ d = 52 \/ d = 53 \/ d = 54 \/ d = 55 \/ d = 56 \/ d = 57) by lia.
      decompose [or] Hd; subst; rewrite E; reflexivity.
    - cbn [app skip_space is_space Z.eqb Pos.eqb orb]. change ((9 <=? 45) && (45 <=? 13)) with false. cbn iota. rewrite Dg by auto. reflexivity. }
  destruct k; cbn [range] in R; try congruence; cbn [conv]; unfold strtol, strtoul; rewrite E; reflexivity.
Qed.
Example C100_around_example : conv KI32 (9 :: 10 :: 13 :: zs " -42 km") = SNum (-42).
Proof. reflexivity. Qed.
Print Assumptions C100_around_the_number.

(** the result is always in the range of the member *)
Theorem C100_always_in_range : forall k s lo hi, range k = Some (lo, hi) -> exists n, conv k s = SNum n /\ lo <= n <= hi.
Proof.
  assert (Dg : forall s acc, 0 <= acc -> 0 <= digits acc s).
  { induction s as [|c s IH]; intros acc A; cbn [digits]; [lia|]. destruct (is_digit c) eqn:D; [|lia]. apply IH.
    unfold is_digit in D. apply andb_prop in D. destruct D as [D _]. apply Z.leb_le in D. lia. }
  assert (Nn : forall s, 0 <= snd (number s)).
  { intros s. unfold number. destruct (skip_space s) as [|c t]; [cbn; lia|].
    destruct c as [|p|p]; try (cbn [snd]; apply Dg; lia).
    repeat (destruct p as [p|p|]; try (cbn [snd]; apply Dg; lia)). }
  assert (Ul : forall s, 0 <= strtoul s <= 2 ^ 64 - 1).
  { intros s. unfold strtoul. specialize (Nn s). destruct (number s) as [neg a]. cbn [snd] in Nn.
    destruct (Z.ltb_spec (2 ^ 64 - 1) a); [lia|]. destruct neg; [|lia]. pose proof (Z.mod_pos_bound (- a) (2 ^ 64)). lia. }
  intros k s lo hi R. destruct k; inversion R; subst; cbn [conv]; eexists; (split; [reflexivity|]).
  - unfold i32. pose proof (Z.mod_pos_bound (strtol s + 2 ^ 31) (2 ^ 32)). lia.
  - pose proof (Z.mod_pos_bound (strtoul s) (2 ^ 32)). lia.
  - unfold strtol. specialize (Nn s). destruct (number s) as [neg a]. cbn [snd] in Nn. destruct neg; lia.
  - auto.
  - change (2 ^ 8) with 256. pose proof (Z.mod_pos_bound (strtoul s) 256). lia.
Qed.
(** out of range: another number, without an error *)
Theorem C100_out_of_range_refuted :
  (exists s n, integer s n /\ 255 < n /\ conv KU8 s = SNum 0) /\
  (exists s n, integer s n /\ 2 ^ 31 - 1 < n /\ conv KI32 s = SNum (- 2 ^ 31)) /\
  (exists s n, integer s n /\ n < 0 /\ conv KU32 s = SNum (2 ^ 32 - 1)) /\
  (exists s, conv KU32 s = SNum 0 /\ s = zs "abc").
Proof.
  split; [|split; [|split]].
  - exists (zs "256"), 256. split; [apply (int_pos (zs "256")); [discriminate | repeat constructor; vm_compute; discriminate]|]. split; [lia | reflexivity].
  - exists (zs "2147483648"), 2147483648. split; [apply (int_pos (zs "2147483648")); [discriminate | repeat constructor; vm_compute; discriminate]|]. split; [lia | reflexivity].
  - exists (zs "-1"), (-1). split; [apply (int_neg (zs "1")); [discriminate | repeat constructor; vm_compute; discriminate]|]. split; [lia | reflexivity].
  - exists (zs "abc"). split; reflexivity.
Qed.
Example C100_example :
  conv KI32 (zs "-2147483648") = SNum (-2147483648) /\ conv KU64 (zs "18446744073709551615") = SNum 18446744073709551615 /\
  conv KI64 (zs "9223372036854775808") = SNum 9223372036854775807 /\
  integer (zs "18446744073709551615") 18446744073709551615.
Proof.
  split; [reflexivity|]. split; [reflexivity|]. split; [reflexivity|].
  apply (int_pos (zs "18446744073709551615")); [discriminate | repeat constructor; vm_compute; discriminate].
Qed.

Print Assumptions C76_loads_the_document.
Print Assumptions C76_any_pieces.
Print Assumptions C76_lists_in_order.
Print Assumptions C76_list_of_lists_refuted.
Print Assumptions C76_same_name_refuted.
Print Assumptions C101_any_document_is_safe.
Print Assumptions C77_true_iff.
Print Assumptions C77_integers.
Print Assumptions C77_words.
Print Assumptions C77_abbreviation_refuted.
Print Assumptions C77_fraction_refuted.
Print Assumptions C100_integers_in_range.
Print Assumptions C100_always_in_range.
Print Assumptions C100_out_of_range_refuted.

(** ** C116: floating-point members *)

(** <r><k>t1</k>...<k>tn</k></r> into an object r with a list k of floating-point numbers: the
    items are those nearest to the numbers in the document, in order *)
Theorem C116_loaded_lists : forall r k f dp d items texts nums evs, r <> [] -> k <> [] -> (exists s, d = VScal s) ->
  Forall (fun v => exists s, v = VScal s) items -> Flt_Spec.good_fmt f -> Flt_Spec.good_point dp ->
  Forall2 (fun t '(neg, v, b, e) => exists w s, t = w ++ s /\ Forall Flt_Spec.blank w /\ Flt_Spec.numeral dp s neg v b e) texts nums ->
  events (Elem r [] (map (fun t => Elem k [] [Text t]) texts)) evs ->
  exists cv xs, load_events (TObj [(r, TObj [(k, TList (TScal (KFlt f dp)) d)])]) (VObj [VObj [VList items]]) evs =
    Ok (mkSt [] cv (VObj [VObj [VList (items ++ map (fun x => VScal (SFlt x)) xs)]])) /\
    Forall2 (fun x '(neg, v, b, e) => Flt_Spec.nearest f neg (Flt_Spec.numerator v b e) (Flt_Spec.denominator b e) x) xs nums.
Proof.
  intros r k f dp d items texts nums evs Nr Nk Hd Fi Hf Hdp H E.
  destruct (C76_lists_in_order r k (KFlt f dp) d items texts evs Nr Nk Hd Fi E) as [cv R].
  exists cv, (map (Flt_Model.strtox f dp) texts). rewrite map_map. split; [exact R|]. clear R E.
  induction H as [|t [[[neg v] b] e] texts nums [w [s [-> [Hw Hs]]]] H IH]; constructor; [|exact IH].
  rewrite <- (app_nil_r s). apply Flt_Props.C116_nearest; auto. exact I.
Qed.
Print Assumptions C116_loaded_lists.

Example C116_loaded_example :
  exists cv, load_events (TObj [(zs "r", TObj [(zs "k", TScal (KFlt Flt_Model.f64 46))])]) (VObj [VObj [VScal (SFlt Flt_Model.FNan)]])
    [Beg (zs "r") []; Beg (zs "k") []; Chars (zs " 1"); Chars (zs ".5 "); End; End] =
  Ok (mkSt [] cv (VObj [VObj [VScal (SFlt (Flt_Model.FNum false 6755399441055744 1022))]])).
Proof. eexists. vm_compute. reflexivity. Qed.
