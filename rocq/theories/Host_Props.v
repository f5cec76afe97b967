(** Theorems about the addresses coda_listen and coda_connect use. *)

From Coq Require Import ZArith List Bool Lia.
From Verif Require Import Base Fd_Model Net_Model Net_Spec Net_Proof Net_Props Host_Model Host_Spec Host_Proof.
Import ListNotations.
Local Open Scope Z_scope.

Lemma inet_reads : forall h v, ~ In 0 h -> host_text h v ->
  0 <= v < 2 ^ 32 /\ inet_addr_libc (h ++ [0]) = Ok (net_bytes v).
Proof.
  intros h v N H.
  assert (E : exists s c rest, h ++ [0] = s ++ c :: rest /\ notation s v /\ (c = 0 \/ white c)).
  { destruct H as [H|(s & c & t & -> & W & H)].
    - exists h, 0, []. auto.
    - exists s, c, (t ++ [0]). rewrite <- app_assoc. auto. }
  destruct E as (s & c & rest & E & Hs & Hc). apply notation_parts in Hs.
  destruct Hs as (t & l & u & n & -> & Ht & Hl & Hu & Hn & ->).
  pose proof (parts_nonneg t l Ht) as P. pose proof (c_number_nonneg u n Hu) as N0. split.
  - clear - Hl P N0 Hn. change (2 ^ 32) with 4294967296.
    destruct l as [|a [|b [|d [|]]]]; cbn [length] in Hl; try lia; cbn [length aton_max addr_of] in *;
      repeat match goal with H : Forall _ (_ :: _) |- _ => inversion H as [|? ? ? ?]; subst; clear H end;
      change (2 ^ 24) with 16777216; change (2 ^ (24 - 8)) with 65536; change (2 ^ (24 - 8 - 8)) with 256; lia.
  - unfold inet_addr_libc. rewrite E, <- app_assoc.
    assert (M : n <= 4294967295) by (destruct l as [|a [|b [|d [|]]]]; cbn [length aton_max] in Hn; lia).
    rewrite (aton_reads t l Ht _ u n c rest [] Hu M Hc); [|cbn [length]; lia|rewrite !app_length; lia].
    cbn [app bind rd nth_error].
    assert (C : negb (c =? 0) && negb (is_space c) = false).
    { apply andb_false_iff. rewrite !negb_false_iff. destruct Hc as [->|Hc]; [left; reflexivity|right].
      unfold is_space, white in *. rewrite orb_true_iff, andb_true_iff, !Z.leb_le, Z.eqb_eq. tauto. }
    rewrite C. rewrite (proj2 (Z.ltb_ge _ _) Hn). now rewrite assemble.
Qed.

Lemma host_loop : forall h v, host_text h v -> exists l n c rest,
  aton_loop (length (h ++ [0])) (h ++ [0]) [] = Ok (Some (l, n, c :: rest)) /\
  negb (c =? 0) && negb (is_space c) = false /\ (aton_max (length l) <? n) = false.
Proof.
  intros h v H.
  assert (E : exists s c rest, h ++ [0] = s ++ c :: rest /\ notation s v /\ (c = 0 \/ white c)).
  { destruct H as [H|(s & c & t & -> & W & H)].
    - exists h, 0, []. auto.
    - exists s, c, (t ++ [0]). rewrite <- app_assoc. auto. }
  destruct E as (s & c & rest & E & Hs & Hc). apply notation_parts in Hs.
  destruct Hs as (t & l & u & n & -> & Ht & Hl & Hu & Hn & ->).
  assert (M : n <= 4294967295) by (destruct l as [|a [|b [|d [|]]]]; cbn [length aton_max] in Hn; lia).
  exists l, n, c, rest. rewrite E, <- app_assoc.
  rewrite (aton_reads t l Ht _ u n c rest [] Hu M Hc); [|cbn [length]; lia|rewrite !app_length; lia].
  split; [reflexivity|]. split; [|apply Z.ltb_ge; exact Hn].
  apply andb_false_iff. rewrite !negb_false_iff. destruct Hc as [->|Hc]; [left; reflexivity|right].
  unfold is_space, white in *. rewrite orb_true_iff, andb_true_iff, !Z.leb_le, Z.eqb_eq. tauto.
Qed.

(** *** C129: the address and the port that were asked for *)

(** The four bytes of the address for every host argument: the number in the notation, or
    255.255.255.255 for all other texts. *)
Theorem C129_host_exact : forall h, ~ In 0 h ->
  (exists v, host_text h v /\ 0 <= v < 2 ^ 32 /\ inet_addr_libc (h ++ [0]) = Ok (net_bytes v)) \/
  ((forall v, ~ host_text h v) /\ inet_addr_libc (h ++ [0]) = Ok [255; 255; 255; 255]).
Proof.
  intros h N.
  assert (D : ((forall v, ~ host_text h v) /\ inet_addr_libc (h ++ [0]) = Ok [255; 255; 255; 255]) \/ exists v, host_text h v).
  { unfold inet_addr_libc.
    destruct (aton_total (length (h ++ [0])) h []) as [E|(u & l & s & n & c & rest & E1 & E2 & E3 & E4 & E5 & E6 & E7)].
    - rewrite app_length. cbn [length]. lia.
    - cbn. lia.
    - left. rewrite E. split; [|reflexivity]. intros v H. destruct (host_loop h v H) as (l & n & c & r & E' & _). congruence.
    - rewrite E7. cbn [app bind rd nth_error].
      destruct (negb (c =? 0) && negb (is_space c)) eqn:C.
      { left. split; [|reflexivity]. intros v H. destruct (host_loop h v H) as (l' & n' & c' & r & E' & E'' & _).
        rewrite E7 in E'. injection E' as <- <- <- <-. congruence. }
      destruct (aton_max (length l) <? n) eqn:L.
      { left. split; [|reflexivity]. intros v H. destruct (host_loop h v H) as (l' & n' & c' & r & E' & _ & E'').
        rewrite E7 in E'. injection E' as <- <- <- <-. cbn [app] in E''. congruence. }
      apply Z.ltb_ge in L. right.
      assert (Hn : notation (u ++ s) (addr_of l 24 n)).
      { apply notation_parts. exists u, l, s, n. cbn [length] in E6. repeat split; auto; lia. }
      exists (addr_of l 24 n). apply andb_false_iff in C. rewrite !negb_false_iff in C. destruct C as [C|C].
      + apply Z.eqb_eq in C. subst c. left.
        assert (R : rest = []).
        { destruct rest as [|y rest _] using rev_ind; [reflexivity|]. exfalso. apply N.
          replace (u ++ s ++ 0 :: rest ++ [y]) with ((u ++ s ++ 0 :: rest) ++ [y]) in E1 by (rewrite <- !app_assoc; reflexivity).
          apply app_inj_tail in E1. destruct E1 as [-> _]. rewrite !in_app_iff. cbn. auto. }
        subst rest. rewrite app_assoc in E1. apply app_inj_tail in E1. destruct E1 as [-> _]. exact Hn.
      + right. assert (W : white c).
        { unfold is_space, white in *. rewrite orb_true_iff, andb_true_iff, !Z.leb_le, Z.eqb_eq in C. tauto. }
        destruct rest as [|y rest _] using rev_ind.
        { exfalso. rewrite app_assoc in E1. apply app_inj_tail in E1. destruct E1 as [_ <-]. unfold white in W. lia. }
        exists (u ++ s), c, rest. split; [|split; [exact W|exact Hn]].
        replace (u ++ s ++ c :: rest ++ [y]) with (((u ++ s) ++ c :: rest) ++ [y]) in E1 by (rewrite <- !app_assoc; reflexivity).
        apply app_inj_tail in E1. tauto. }
  destruct D as [D|(v & D)]; [right; exact D|]. left. exists v. split; [exact D|]. now apply inet_reads.
Qed.
Print Assumptions C129_host_exact.
(** "0x7f.1 x" and "127.0.0.1" are the same address, "localhost" is none *)
Example C129_ex_host : host_text (zs "0x7f.1 x") 2130706433 /\ inet_addr_libc (zs "0x7f.1 x" ++ [0]) = Ok [127; 0; 0; 1] /\
  inet_addr_libc (zs "127.0.0.1" ++ [0]) = Ok [127; 0; 0; 1] /\ inet_addr_libc (zs "localhost" ++ [0]) = Ok [255; 255; 255; 255].
Proof.
  split; [|vm_compute; auto]. right. exists (zs "0x7f.1"), 32, (zs "x"). split; [reflexivity|]. split; [right; reflexivity|].
  change (zs "0x7f.1") with ([48; 120; 55; 102] ++ [46] ++ [49]). change 2130706433 with (127 * 2 ^ 24 + 1). apply A_2; try lia.
  - apply N_hex; [auto|]. change (digits 16 ([55] ++ [102]) (7 * 16 + 15)). apply D_more; [|exact (Dig_af 102 ltac:(lia))|lia].
    apply D_one; [exact (Dig_09 55 ltac:(lia))|lia].
  - apply N_dec; [lia|]. apply D_one; [exact (Dig_09 49 ltac:(lia))|lia].
Qed.

Lemma digits_decimal : forall s, s <> [] -> Forall digit s -> digits 10 s (decimal s).
Proof.
  intros s N F. induction s as [|c s IH] using rev_ind; [congruence|]. apply Forall_app in F. destruct F as [F C].
  inversion C as [|? ? Hc _]; subst. unfold digit in Hc. unfold decimal. rewrite fold_left_app. cbn [fold_left].
  destruct s as [|d s].
  - apply (D_one 10 c (c - 48)); [apply Dig_09; lia|lia].
  - apply D_more; [apply IH; [discriminate|exact F]|apply Dig_09; lia|lia].
Qed.
Lemma plain_number : forall s v, octet s v -> plain s -> c_number s v.
Proof.
  intros s v (N & F & <- & _) P. pose proof (digits_decimal s N F) as D. destruct P as [->|(c & t & -> & P)].
  - apply N_oct. apply (D_one 8 48 (48 - 48)); [apply Dig_09; lia|lia].
  - apply N_dec; [|exact D]. inversion F as [|? ? Hc _]; subst. unfold digit in Hc. lia.
Qed.
Lemma plain_host : forall h a b c d, plain_quad h a b c d ->
  ~ In 0 h /\ host_text h (a * 2 ^ 24 + b * 2 ^ 16 + c * 2 ^ 8 + d) /\
  net_bytes (a * 2 ^ 24 + b * 2 ^ 16 + c * 2 ^ 8 + d) = network_order a b c d.
Proof.
  intros h a b c d (s1 & s2 & s3 & s4 & -> & O1 & O2 & O3 & O4 & P1 & P2 & P3 & P4).
  assert (Z0 : forall s v, octet s v -> ~ In 0 s).
  { intros s v (_ & F & _ & _) I. rewrite Forall_forall in F. specialize (F 0 I). unfold digit in F. lia. }
  assert (R : forall s v, octet s v -> plain s -> 0 <= v < 256).
  { intros s v O P. split; [eapply c_number_nonneg, plain_number; eauto|apply O]. }
  split; [|split].
  - rewrite !in_app_iff. cbn. intros [I|[[I|[]]|[I|[[I|[]]|[I|[[I|[]]|I]]]]]]; try lia; (eapply Z0; [|exact I]; eassumption).
  - left. apply A_4; try (now apply plain_number); apply R in O1, O2, O3, O4; auto; lia.
  - apply R in O1, O2, O3, O4; auto. unfold net_bytes, network_order. change (2 ^ 24) with 16777216. change (2 ^ 16) with 65536.
    change (2 ^ 8) with 256. f_equal; [dm|]. f_equal; [dm|]. f_equal; [dm|]. f_equal. dm.
Qed.

(** For a text of four plain decimal numbers the C library and coda_inet_addr agree. *)
Theorem C129_agree : forall h a b c d, plain_quad h a b c d ->
  inet_addr_libc (h ++ [0]) = Ok (network_order a b c d) /\
  exists x, inet_addr h (length h) = Ok x /\ mem32 x = network_order a b c d.
Proof.
  intros h a b c d H. destruct (plain_host h a b c d H) as (N & T & E). split.
  - rewrite <- E. now apply inet_reads.
  - apply C69_accepts_quads. destruct H as (s1 & s2 & s3 & s4 & D & O1 & O2 & O3 & O4 & _). exists s1, s2, s3, s4. auto.
Qed.
Print Assumptions C129_agree.

(** Not in the code: a call that takes an address takes this one. *)
Definition uses (sa : sockaddr) (c : acall) : Prop :=
  match fst c with KBind _ | KConnect _ => snd c = Some sa | _ => snd c = None end.
Definition good (a : ans) : Prop := 0 <= rc a.
(** Not in the code: the calls before bind and connect. *)
Definition before (n nonblock : Z) : list acall :=
  (KSocket, None) :: (if nonblock =? 0 then [] else [(KNonblk n nonblock, None)]).

Lemma arun_call : forall A c (k : ans -> aprog A) l r cs, arun (ACall c k) l = Some (r, cs) ->
  exists x l' cs', l = x :: l' /\ cs = c :: cs' /\ arun (k x) l' = Some (r, cs').
Proof.
  intros A c k [|x l] r cs H; cbn [arun] in H; [discriminate|]. destruct (arun (k x) l) as [[a cs']|] eqn:E; [|discriminate].
  injection H as <- <-. eauto 6.
Qed.
Lemma arun_ret : forall A (a : A) l r cs, arun (ARet a) l = Some (r, cs) -> l = [] /\ r = a /\ cs = [].
Proof. intros A a [|x l] r cs H; cbn [arun] in H; [|discriminate]. injection H as <- <-. auto. Qed.
Ltac call H x := let l := fresh "l" in let cs := fresh "cs" in
  apply arun_call in H; destruct H as (x & l & cs & -> & -> & H).
Ltac ret H := apply arun_ret in H; destruct H as (-> & -> & ->).
Ltac uses_all := repeat (apply Forall_cons; [first [reflexivity | exact eq_refl]|]); apply Forall_nil.

(** What coda_listen does when the texts give the address [sa]. *)
Lemma listen_runs : forall host port backlog nonblock sa, fill_addr host port = Ok sa ->
  forall l r cs, arun (listen_at host port backlog nonblock) l = Some (r, cs) ->
  exists n, r = Ok n /\ Forall (uses sa) cs /\
    (n = -1 /\ ~ Forall good l \/ 0 <= n /\ Forall good l /\
      cs = before n nonblock ++ [(KReuse n, None); (KBind n, Some sa); (KListen n backlog, None)]).
Proof.
  intros host port backlog nonblock sa E l r cs H. unfold listen_at, before in *. rewrite E in H. cbv zeta in H. unfold fail in H.
  assert (Bad : forall x l1 l2, rc x < 0 -> ~ Forall good (l1 ++ x :: l2)).
  { intros x l1 l2 L F. apply Forall_app in F. destruct F as [_ F]. inversion F as [|? ? G _]; subst. unfold good in G. lia. }
  call H x. destruct (Z.ltb_spec (rc x) 0) as [L|L].
  { ret H. exists (-1). split; [reflexivity|]. split; [uses_all|]. left. split; [reflexivity|]. now apply (Bad x []). }
  destruct (Z.eqb_spec nonblock 0) as [E0|E0].
  - call H y. destruct (Z.ltb_spec (rc y) 0) as [Ly|Ly].
    { call H z. ret H. exists (-1). split; [reflexivity|]. split; [uses_all|]. left. split; [reflexivity|]. now apply (Bad y [x]). }
    call H z. destruct (Z.ltb_spec (rc z) 0) as [Lz|Lz].
    { call H w. ret H. exists (-1). split; [reflexivity|]. split; [uses_all|]. left. split; [reflexivity|]. now apply (Bad z [x; y]). }
    call H w. destruct (Z.ltb_spec (rc w) 0) as [Lw|Lw].
    { call H w2. ret H. exists (-1). split; [reflexivity|]. split; [uses_all|]. left. split; [reflexivity|]. now apply (Bad w [x; y; z]). }
    ret H. exists (rc x). split; [reflexivity|]. split; [uses_all|]. right. split; [exact L|]. split; [repeat constructor; exact L || assumption|reflexivity].
  - call H v. destruct (Z.ltb_spec (rc v) 0) as [Lv|Lv].
    { call H z. ret H. exists (-1). split; [reflexivity|]. split; [uses_all|]. left. split; [reflexivity|]. now apply (Bad v [x]). }
    call H y. destruct (Z.ltb_spec (rc y) 0) as [Ly|Ly].
    { call H z. ret H. exists (-1). split; [reflexivity|]. split; [uses_all|]. left. split; [reflexivity|]. now apply (Bad y [x; v]). }
    call H z. destruct (Z.ltb_spec (rc z) 0) as [Lz|Lz].
    { call H w. ret H. exists (-1). split; [reflexivity|]. split; [uses_all|]. left. split; [reflexivity|]. now apply (Bad z [x; v; y]). }
    call H w. destruct (Z.ltb_spec (rc w) 0) as [Lw|Lw].
    { call H w2. ret H. exists (-1). split; [reflexivity|]. split; [uses_all|]. left. split; [reflexivity|]. now apply (Bad w [x; v; y; z]). }
    ret H. exists (rc x). split; [reflexivity|]. split; [uses_all|]. right. split; [exact L|]. split; [repeat constructor; assumption|reflexivity].
Qed.

(** What coda_connect does when the texts give the address [sa]. *)
Lemma connect_runs : forall host port nonblock sa, fill_addr host port = Ok sa ->
  forall l r cs, arun (connect_to host port nonblock) l = Some (r, cs) ->
  exists n, r = Ok n /\ Forall (uses sa) cs /\
    (n = -1 /\ ~ Forall good l \/ 0 <= n /\ cs = before n nonblock ++ [(KConnect n, Some sa)] /\
      exists l' x, l = l' ++ [x] /\ Forall good l' /\ (0 <= rc x \/ errno x = EINPROGRESS)).
Proof.
  intros host port nonblock sa E l r cs H. unfold connect_to, before in *. rewrite E in H. cbv zeta in H. unfold fail in H.
  assert (Bad : forall x l1 l2, rc x < 0 -> ~ Forall good (l1 ++ x :: l2)).
  { intros x l1 l2 L F. apply Forall_app in F. destruct F as [_ F]. inversion F as [|? ? G _]; subst. unfold good in G. lia. }
  call H x. destruct (Z.ltb_spec (rc x) 0) as [L|L].
  { ret H. exists (-1). split; [reflexivity|]. split; [uses_all|]. left. split; [reflexivity|]. now apply (Bad x []). }
  destruct (Z.eqb_spec nonblock 0) as [E0|E0].
  - call H y. destruct ((rc y <? 0) && negb (EINPROGRESS =? errno y)) eqn:Ly.
    { apply andb_prop in Ly. destruct Ly as [Ly _]. apply Z.ltb_lt in Ly.
      call H z. ret H. exists (-1). split; [reflexivity|]. split; [uses_all|]. left. split; [reflexivity|]. now apply (Bad y [x]). }
    ret H. exists (rc x). split; [reflexivity|]. split; [uses_all|]. right. split; [exact L|]. split; [reflexivity|].
    exists [x], y. split; [reflexivity|]. split; [repeat constructor; assumption|].
    apply andb_false_iff in Ly. rewrite Z.ltb_ge, negb_false_iff, Z.eqb_eq in Ly. destruct Ly; auto.
  - call H v. destruct (Z.ltb_spec (rc v) 0) as [Lv|Lv].
    { call H z. ret H. exists (-1). split; [reflexivity|]. split; [uses_all|]. left. split; [reflexivity|]. now apply (Bad v [x]). }
    call H y. destruct ((rc y <? 0) && negb (EINPROGRESS =? errno y)) eqn:Ly.
    { apply andb_prop in Ly. destruct Ly as [Ly _]. apply Z.ltb_lt in Ly.
      call H z. ret H. exists (-1). split; [reflexivity|]. split; [uses_all|]. left. split; [reflexivity|]. now apply (Bad y [x; v]). }
    ret H. exists (rc x). split; [reflexivity|]. split; [uses_all|]. right. split; [exact L|]. split; [reflexivity|].
    exists [x; v], y. split; [reflexivity|]. split; [repeat constructor; assumption|].
    apply andb_false_iff in Ly. rewrite Z.ltb_ge, negb_false_iff, Z.eqb_eq in Ly. destruct Ly; auto.
Qed.

(** the address that the texts ask for *)
Definition wanted (a b c d p : Z) : sockaddr := mkSa 2 [p / 256; p mod 256] (network_order a b c d).

Lemma fill_wanted : forall h a b c d ds, plain_quad h a b c d -> ds <> [] -> Forall digit ds -> decimal ds < 65536 ->
  fill_addr (h ++ [0]) (ds ++ [0]) = Ok (wanted a b c d (decimal ds)).
Proof.
  intros h a b c d ds H N F L. unfold fill_addr, wanted. rewrite (proj1 (C129_agree h a b c d H)). cbn [bind].
  rewrite (proj1 (C90_port_partial ds N F L)). reflexivity.
Qed.

(** For a host of four plain decimal numbers and a port below 65536, whatever the kernel
    answers, coda_listen binds to no other address; when it returns a socket it was bound to
    that address and listens, and otherwise it returns -1 and some call had failed.  Missing
    to the full claim: hosts and ports that mean nothing are not refused, see the
    refutations. *)
Theorem C129_listen_partial : forall h a b c d ds backlog nonblock l r cs,
  plain_quad h a b c d -> ds <> [] -> Forall digit ds -> decimal ds < 65536 ->
  arun (listen_at (h ++ [0]) (ds ++ [0]) backlog nonblock) l = Some (r, cs) ->
  exists n, r = Ok n /\ Forall (uses (wanted a b c d (decimal ds))) cs /\
    (n = -1 /\ ~ Forall good l \/ 0 <= n /\ Forall good l /\
      cs = before n nonblock ++ [(KReuse n, None); (KBind n, Some (wanted a b c d (decimal ds))); (KListen n backlog, None)]).
Proof. intros. eapply listen_runs; [|eassumption]. now apply fill_wanted. Qed.
Print Assumptions C129_listen_partial.

(** The same for coda_connect, which also returns the socket when the connection is not yet
    made. *)
Theorem C129_connect_partial : forall h a b c d ds nonblock l r cs,
  plain_quad h a b c d -> ds <> [] -> Forall digit ds -> decimal ds < 65536 ->
  arun (connect_to (h ++ [0]) (ds ++ [0]) nonblock) l = Some (r, cs) ->
  exists n, r = Ok n /\ Forall (uses (wanted a b c d (decimal ds))) cs /\
    (n = -1 /\ ~ Forall good l \/
     0 <= n /\ cs = before n nonblock ++ [(KConnect n, Some (wanted a b c d (decimal ds)))] /\
      exists l' x, l = l' ++ [x] /\ Forall good l' /\ (0 <= rc x \/ errno x = EINPROGRESS)).
Proof. intros. eapply connect_runs; [|eassumption]. now apply fill_wanted. Qed.
Print Assumptions C129_connect_partial.

Lemma octet_by : forall s v, negb (Nat.eqb (length s) 0) && forallb (fun c => (48 <=? c) && (c <=? 57)) s && (decimal s =? v) && (v <? 256) = true ->
  octet s v.
Proof.
  intros s v H. apply andb_prop in H. destruct H as [H H4]. apply andb_prop in H. destruct H as [H H3]. apply andb_prop in H.
  destruct H as [H1 H2]. split; [intros ->; discriminate|]. split; [|split; [now apply Z.eqb_eq|now apply Z.ltb_lt]].
  apply Forall_forall. intros c Hc. rewrite forallb_forall in H2. specialize (H2 c Hc). apply andb_prop in H2.
  rewrite !Z.leb_le in H2. exact H2.
Qed.
Example C129_ex_quad : plain_quad (zs "10.0.200.1") 10 0 200 1.
Proof.
  exists (zs "10"), (zs "0"), (zs "200"), (zs "1"). split; [reflexivity|].
  split; [|split; [|split; [|split; [|split; [|split; [|split]]]]]].
  1-4: apply octet_by; reflexivity.
  - right. exists 49, (zs "0"). split; [reflexivity|lia].
  - left. reflexivity.
  - right. exists 50, (zs "00"). split; [reflexivity|lia].
  - right. exists 49, []. split; [reflexivity|lia].
Qed.
Example C129_ex_listen : arun (listen_at (zs "10.0.200.1" ++ [0]) (zs "8080" ++ [0]) 5 1)
    [mkA 3 0 0; mkA 0 0 0; mkA 0 0 0; mkA 0 0 0; mkA 0 0 0] =
  Some (Ok 3, [(KSocket, None); (KNonblk 3 1, None); (KReuse 3, None); (KBind 3, Some (wanted 10 0 200 1 8080)); (KListen 3 5, None)]).
Proof. vm_compute. reflexivity. Qed.

(** Refuted: a host that is no address, such as a name, is not refused.  Whatever the text,
    if the kernel answers every call with success, coda_listen returns a socket bound to
    255.255.255.255, and coda_connect one connected to it. *)
Theorem C129_bad_host_refuted : forall h ds backlog, ~ In 0 h -> (forall v, ~ host_text h v) ->
  ds <> [] -> Forall digit ds -> decimal ds < 65536 ->
  let sa := wanted 255 255 255 255 (decimal ds) in
  arun (listen_at (h ++ [0]) (ds ++ [0]) backlog 0) [mkA 3 0 0; mkA 0 0 0; mkA 0 0 0; mkA 0 0 0] =
    Some (Ok 3, [(KSocket, None); (KReuse 3, None); (KBind 3, Some sa); (KListen 3 backlog, None)]) /\
  arun (connect_to (h ++ [0]) (ds ++ [0]) 0) [mkA 3 0 0; mkA 0 0 0] =
    Some (Ok 3, [(KSocket, None); (KConnect 3, Some sa)]).
Proof.
  intros h ds backlog N B N1 F L sa.
  assert (E : fill_addr (h ++ [0]) (ds ++ [0]) = Ok sa).
  { unfold fill_addr. destruct (C129_host_exact h N) as [(v & H & _)|(_ & ->)]; [exfalso; eapply B; eauto|]. cbn [bind].
    rewrite (proj1 (C90_port_partial ds N1 F L)). reflexivity. }
  unfold listen_at, connect_to. rewrite E. split; reflexivity.
Qed.
Print Assumptions C129_bad_host_refuted.
Example C129_ex_bad_host : ~ In 0 (zs "localhost") /\ forall v, ~ host_text (zs "localhost") v.
Proof.
  split; [cbn; lia|]. intros v H. destruct (host_loop _ _ H) as (l & n & c & rest & E & _). vm_compute in E. discriminate.
Qed.

(** Refuted: numbers with zeros in front are octal for coda_listen and coda_connect, and
    decimal for coda_inet_addr. *)
Theorem C129_octal_refuted : exists h a b c d, quad h a b c d /\
  (exists x, inet_addr h (length h) = Ok x /\ mem32 x = network_order a b c d) /\
  exists a', a' <> a /\ fill_addr (h ++ [0]) (zs "80" ++ [0]) = Ok (wanted a' b c d 80).
Proof.
  exists (zs "010.0.0.1"), 10, 0, 0, 1.
  assert (Q : quad (zs "010.0.0.1") 10 0 0 1).
  { exists (zs "010"), (zs "0"), (zs "0"), (zs "1"). split; [reflexivity|].
    split; [|split; [|split]]; apply octet_by; reflexivity. }
  split; [exact Q|]. split; [apply (C69_accepts_quads _ _ _ _ _ Q)|]. exists 8. split; [lia|]. vm_compute. reflexivity.
Qed.
Print Assumptions C129_octal_refuted.

(** The calls are those of the model without addresses: what is proved there about
    descriptors holds here. *)
Lemma fill_total : forall h p, ~ In 0 h -> ~ In 0 p -> exists sa, fill_addr (h ++ [0]) (p ++ [0]) = Ok sa.
Proof.
  intros h p Nh Np. unfold fill_addr.
  assert (A : exists x, inet_addr_libc (h ++ [0]) = Ok x).
  { destruct (C129_host_exact h Nh) as [(v & _ & _ & ->)|(_ & ->)]; eauto. }
  destruct A as (x & ->). cbn [bind]. destruct (C90_every_text p Np) as (sp & sign & ds & c & rest & -> & H1 & H2 & H3 & H4 & H5).
  rewrite (proj1 (C90_exact sp sign ds c rest H1 H2 H3 H4 H5)). cbn [bind]. eauto.
Qed.
Theorem C129_same_calls : forall h p backlog nonblock l s r s', ~ In 0 h -> ~ In 0 p ->
  (run (coda_listen backlog nonblock) l s = Some (r, s') ->
   exists cs, arun (listen_at (h ++ [0]) (p ++ [0]) backlog nonblock) l = Some (Ok r, cs) /\
     hist s' = rev (combine (map fst cs) (map rc l)) ++ hist s) /\
  (run (coda_connect nonblock) l s = Some (r, s') ->
   exists cs, arun (connect_to (h ++ [0]) (p ++ [0]) nonblock) l = Some (Ok r, cs) /\
     hist s' = rev (combine (map fst cs) (map rc l)) ++ hist s).
Proof.
  intros h p backlog nonblock l s r s' Nh Np. destruct (fill_total h p Nh Np) as (sa & E).
  assert (K : forall s0 c a s1, kernel s0 c a = Some s1 -> hist s1 = (c, rc a) :: hist s0).
  { intros s0 c a s1 K. unfold kernel in K. destruct (effect s0 c a) as [[t m]|]; [|discriminate]. injection K as <-. reflexivity. }
  unfold listen_at, connect_to, fail, coda_listen, coda_connect, sys. rewrite E. cbv zeta. cbn [pbind].
  Ltac kstep H := match type of H with
    | run (Call ?c ?k) ?l ?s0 = _ =>
        let x := fresh "x" in let K' := fresh "K" in
        destruct l as [|x l]; cbn [run] in H; [discriminate H|];
        destruct (kernel s0 c x) as [?s|] eqn:K'; [|discriminate H];
        match goal with K0 : forall s0 c a s1, kernel s0 c a = Some s1 -> _ |- _ => apply K0 in K' end; cbn beta in H
    | match ?l with [] => _ | _ :: _ => None end = _ => destruct l as [|? ?]; [|discriminate H]; injection H as ? ?; subst
    | run (Ret _) ?l _ = _ => destruct l as [|? ?]; cbn [run] in H; [|discriminate H]; injection H as ? ?; subst
    | run (if ?b then _ else _) _ _ = _ => destruct b eqn:?; cbn [pbind] in H; try discriminate
    | run (pbind (if ?b then _ else _) _) _ _ = _ => destruct b eqn:?; cbn [pbind] in H
    | run (pbind _ _) _ _ = _ => progress cbn [pbind] in H
    end.
  split; intros H.
  all: repeat kstep H.
  all: eexists; split; [cbn [arun];
    repeat (match goal with B : ?b = _ |- context [if ?b then _ else _] => rewrite B end; cbn [arun]); reflexivity|].
  all: repeat match goal with K0 : hist _ = _ :: hist _ |- _ => rewrite K0; clear K0 end; reflexivity.
Qed.
Print Assumptions C129_same_calls.
