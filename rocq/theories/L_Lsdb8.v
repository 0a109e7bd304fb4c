(** Interests for LSAs: what the name designates and what is answered. *)
From Verif Require Import Base M_Nexthop M_Tlv M_Adj M_Lsa M_Lsdb S_Lsdb L_Lsdb L_Lsdb2 L_Lsdb3 L_Lsdb4 L_Lsdb5 L_Lsdb6 L_Lsdb7.
Open Scope Z_scope.
Set Implicit Arguments.

Lemma is_prefix_app (p r : name) : is_prefix p (p ++ r) = true.
Proof. induction p as [|a p IH]; [reflexivity|]. simpl. now rewrite eqb_refl. Qed.
Lemma is_prefix_true (p n : name) : is_prefix p n = true -> exists r, n = p ++ r.
Proof.
  revert n. induction p as [|a p IH]; intros n H; [now exists n|]. destruct n as [|b n]; [discriminate|].
  simpl in H. apply andb_true_iff in H. destruct H as [H1 H2]. apply (proj1 (eqb_eq _ _)) in H1. subst b.
  destruct (IH _ H2) as [r ->]. now exists r.
Qed.

Lemma comp_pos_app a (u v : name) : ~ In a u -> comp_pos a (u ++ a :: v) = Some (length u).
Proof.
  induction u as [|b u IH]; intros H; simpl; [now rewrite eqb_refl|].
  eqb_case a b; [exfalso; apply H; now left|]. rewrite IH; [reflexivity|]. intros X. apply H. now right.
Qed.

Definition plen (c : conf) : nat := length (c_network c) + 2.
Lemma lsa_pos c rest : lsa_conf c -> comp_pos (gen "LSA"%string) (c_lsaprefix c ++ rest) = Some (plen c).
Proof.
  intros [E H]. rewrite E.
  replace (([gen "localhop"%string] ++ c_network c ++ [gen "nlsr"%string; gen "LSA"%string]) ++ rest)
    with ((gen "localhop"%string :: c_network c ++ [gen "nlsr"%string]) ++ gen "LSA"%string :: rest).
  - rewrite comp_pos_app.
    + f_equal. simpl. rewrite app_length. simpl. unfold plen. lia.
    + intros [X|X]; [discriminate|]. apply in_app_iff in X. destruct X as [X|[X|[]]]; [auto|discriminate].
  - simpl. rewrite <- !app_assoc. reflexivity.
Qed.
Lemma prefix_len c : lsa_conf c -> length (c_lsaprefix c) = S (plen c).
Proof. intros [-> _]. simpl. rewrite app_length. simpl. unfold plen. lia. Qed.

Lemma name_origin_app c site a b : lsa_conf c -> sane (c_lsaprefix c ++ site ++ [a; b]) ->
  name_origin c (c_lsaprefix c ++ site ++ [a; b]) = Some (c_network c ++ site).
Proof.
  intros H Hs. unfold name_origin. rewrite lsa_pos by exact H. f_equal. f_equal.
  unfold sane in Hs. rewrite !app_length in Hs. cbn [length] in Hs.
  pose proof (prefix_len H) as L. unfold sub_name. rewrite !app_length, L. cbn [length].
  replace (Z.of_nat (S (plen c) + (length site + 2)) - Z.of_nat (plen c) - 3) with (Z.of_nat (length site)) by lia.
  rewrite Z.mod_small by lia.
  destruct (Z.eqb_spec (Z.of_nat (length site)) (2 ^ 64 - 1)); [lia|].
  rewrite Z.mod_small by lia. rewrite Z.min_r by lia.
  rewrite <- L. rewrite skipn_app, skipn_all, Nat.sub_diag. cbn [app skipn].
  replace (Z.to_nat _ - _)%nat with (length site) by lia.
  rewrite firstn_app, Nat.sub_diag, firstn_all. simpl. now rewrite app_nil_r.
Qed.

Lemma snoc2 (l : name) : l = [] \/ (exists x, l = [x]) \/ exists u a b, l = u ++ [a; b].
Proof.
  destruct l as [|y l] using rev_ind; [auto|]. clear IHl.
  destruct l as [|z l] using rev_ind; [right; left; now exists y|]. clear IHl.
  right; right. exists l, z, y. now rewrite <- app_assoc.
Qed.

Lemma back1_app2 (u : name) a b : back 1 (u ++ [a; b]) = Some b.
Proof. replace (u ++ [a; b]) with ((u ++ [a]) ++ [b]) by now rewrite <- app_assoc. apply back1_snoc. Qed.
Lemma back2_app2 (u : name) a b : back 2 (u ++ [a; b]) = Some a.
Proof.
  replace (u ++ [a; b]) with ((u ++ [a]) ++ [b]) by now rewrite <- app_assoc. rewrite back2_snoc. apply back1_snoc.
Qed.

Lemma prefix_tail c : lsa_conf c -> exists u, c_lsaprefix c = u ++ [gen "nlsr"%string; gen "LSA"%string].
Proof. intros [-> _]. exists (gen "localhop"%string :: c_network c). reflexivity. Qed.

(** What a name under the LSA prefix designates. *)
Lemma designates c (i : name) cq ct t : lsa_conf c -> sane i -> is_prefix (c_lsaprefix c) i = true ->
  name_origin c i = Some (c_self c) -> back 1 i = Some cq -> back 2 i = Some ct -> comp_type ct = Some t ->
  exists site, c_self c = c_network c ++ site /\ i = c_lsaprefix c ++ site ++ [type_comp t; cq].
Proof.
  intros H Hs Hp Ho H1 H2 Ht. apply is_prefix_true in Hp. destruct Hp as [r ->].
  destruct (prefix_tail H) as [u Hu]. destruct (snoc2 r) as [->|[[x ->]|(site & a & b & ->)]].
  - rewrite app_nil_r, Hu, back2_app2 in H2. injection H2 as <-. discriminate.
  - rewrite Hu, <- app_assoc in H2. cbn [app] in H2.
    replace (u ++ [gen "nlsr"%string; gen "LSA"%string; x]) with ((u ++ [gen "nlsr"%string]) ++ [gen "LSA"%string; x]) in H2
      by now rewrite <- app_assoc.
    rewrite back2_app2 in H2. injection H2 as <-. discriminate.
  - rewrite name_origin_app in Ho by assumption. injection Ho as Ho.
    rewrite app_assoc, back1_app2 in H1. rewrite app_assoc, back2_app2 in H2. injection H1 as ->. injection H2 as ->.
    apply comp_type_inv in Ht. subst ct. exists site. split; [now rewrite Ho|reflexivity].
Qed.

Lemma back2_split (i : name) cv : back 2 i = Some cv -> exists u x, i = u ++ [cv; x].
Proof.
  intros H. destruct (snoc2 i) as [->|[[x ->]|(u & a & b & ->)]]; try discriminate.
  rewrite back2_app2 in H. injection H as ->. eauto.
Qed.
Lemma drop_last_app2 (u : name) a b : drop_last 2 (u ++ [a; b]) = u.
Proof. exact (drop_last_app u [a; b]). Qed.

Lemma sane_app_l (u v : name) : sane (u ++ v) -> sane u.
Proof. unfold sane. rewrite app_length. lia. Qed.

(** A name of [asks], split as processInterest does. *)
Definition base (i : name) : name :=
  match back 2 i with Some cv => if is_version cv then drop_last 2 i else i | None => i end.

(** The prefix is at least four components long unless the network is empty. *)
Lemma base_prefix c (i : name) : lsa_conf c -> is_prefix (c_lsaprefix c) i = true ->
  (forall v, is_version v = true -> v <> gen "LSA"%string /\ v <> gen "nlsr"%string) ->
  is_prefix (c_lsaprefix c) (base i) = true.
Proof.
  intros H Hp Hv. unfold base. destruct (back 2 i) as [cv|] eqn:E2; [|exact Hp].
  destruct (is_version cv) eqn:Ev; [|exact Hp]. destruct (back2_split _ E2) as (u & x & ->).
  rewrite drop_last_app2. apply is_prefix_true in Hp. destruct Hp as [r Hr].
  destruct (Hv _ Ev) as [V1 V2].
  destruct (snoc2 r) as [->|[[y ->]|(site & a & b & ->)]].
  - exfalso. destruct (prefix_tail H) as [w Hw]. rewrite app_nil_r, Hw in Hr.
    apply app_inj_tail_iff in Hr || idtac.
    assert (E : back 2 (u ++ [cv; x]) = back 2 (w ++ [gen "nlsr"%string; gen "LSA"%string])) by now rewrite Hr.
    rewrite !back2_app2 in E. injection E as E. now apply V2.
  - exfalso. destruct (prefix_tail H) as [w Hw]. rewrite Hw, <- app_assoc in Hr. cbn [app] in Hr.
    assert (E : back 2 (u ++ [cv; x]) = back 2 ((w ++ [gen "nlsr"%string]) ++ [gen "LSA"%string; y]))
      by now rewrite Hr, <- app_assoc.
    rewrite !back2_app2 in E. injection E as E. now apply V1.
  - rewrite app_assoc in Hr. assert (E : drop_last 2 (u ++ [cv; x]) = drop_last 2 ((c_lsaprefix c ++ site) ++ [a; b])) by now rewrite Hr.
    rewrite !drop_last_app2 in E. subst u. apply is_prefix_app.
Qed.
Lemma version_not_marker v : is_version v = true -> v <> gen "LSA"%string /\ v <> gen "nlsr"%string.
Proof. intros H. split; intros ->; discriminate. Qed.

(** Packet [n] carries segment [j] of [l], an LSA of this router designated by [i]. *)
Definition answer (c : conf) (i : name) (k : nat) (v : N) (n : name) (l : lsa) (j : N) : Prop :=
  l_origin l = c_self c /\ asks c i (l_type l) (l_seq l) /\
  n = i ++ [version_comp v; segment_comp j] /\ (j < N.of_nat k)%N.

Lemma base_asks c (i : name) cq ct t q : lsa_conf c -> sane i -> is_prefix (c_lsaprefix c) i = true ->
  name_origin c (base i) = Some (c_self c) -> back 1 (base i) = Some cq -> back 2 (base i) = Some ct ->
  comp_type ct = Some t -> to_number cq = Some q -> asks c i t q.
Proof.
  intros H Hs Hp Ho H1 H2 Ht Hq. pose proof (base_prefix _ H Hp version_not_marker) as Hb.
  assert (Hsb : sane (base i)).
  { unfold base. destruct (back 2 i) as [cv|] eqn:E; [|exact Hs]. destruct (is_version cv); [|exact Hs].
    destruct (back2_split _ E) as (u & x & ->). rewrite drop_last_app2. now apply sane_app_l in Hs. }
  destruct (designates H Hsb Hb Ho H1 H2 Ht) as (site & E1 & E2).
  exists site, cq. unfold base in E2. destruct (back 2 i) as [cv|] eqn:E; [destruct (is_version cv) eqn:Ev|].
  - destruct (back2_split _ E) as (u & x & ->). rewrite drop_last_app2 in E2. exists [cv; x].
    split; [exact E1|]. split; [exact Hq|]. split; [|right; eauto]. rewrite E2, <- !app_assoc. reflexivity.
  - exists []. split; [exact E1|]. split; [exact Hq|]. split; [|now left]. exact E2.
  - exists []. split; [exact E1|]. split; [exact Hq|]. split; [|now left]. exact E2.
Qed.

Lemma in_segments i v k l n l' j : In (n, (l', j)) (segments i v k l) ->
  l' = l /\ n = i ++ [version_comp v; segment_comp j] /\ (j < N.of_nat k)%N.
Proof.
  unfold segments. intros H. apply in_map_iff in H. destruct H as (x & E & H). injection E as <- <- <-.
  apply in_seq in H. split; [reflexivity|]. split; [reflexivity|lia].
Qed.
Lemma fifo_insert_in c e s x : In x (s_fifo (fifo_insert c e s)) -> In x (s_fifo s) \/ x = e.
Proof.
  unfold fifo_insert, schedule. cbn [fst s_fifo w_fifo w_timers]. intros H. apply in_app_iff in H. destruct H as [H|[<-|[]]]; [left|now right].
  destruct (Nat.leb _ _); [|exact H]. destruct (s_fifo s); [exact H|now right].
Qed.
Lemma fifo_inserts_in c es s x : In x (s_fifo (fold_left (fun s e => fifo_insert c e s) es s)) -> In x (s_fifo s) \/ In x es.
Proof.
  revert s. induction es as [|e es IH]; intros s H; [now left|]. cbn [fold_left] in H. apply IH in H.
  destruct H as [H|H]; [|right; now right]. apply fifo_insert_in in H. destruct H as [H| ->]; [now left|right; now left].
Qed.

Definition fresh (c : conf) (s : st) (i : name) (t : ltype) (q : N) (k : nat) (v : N) (n : name) (l : lsa) (j : N) : Prop :=
  holds s l /\ l_origin l = c_self c /\ l_type l = t /\ l_seq l = q /\
  n = i ++ [version_comp v; segment_comp j] /\ (j < N.of_nat k)%N.

Lemma interest_for_lsa_out c s i t q k v : invS None s ->
  let r := interest_for_lsa c i (c_self c) t q k v s in
  (forall n l j, In (OData n l j) (snd r) -> fresh c s i t q k v n l j) /\
  (forall n l j, In (n, (l, j)) (s_fifo (fst r)) -> In (n, (l, j)) (s_fifo s) \/ fresh c s i t q k v n l j) /\
  alive (snd r) /\ s_dead (fst r) = s_dead s.
Proof.
  intros Is r. unfold r, interest_for_lsa. clear r.
  assert (Id : (forall n l j, In (OData n l j) (snd (s, @nil out)) -> fresh c s i t q k v n l j) /\
    (forall n l j, In (n, (l, j)) (s_fifo (fst (s, @nil out))) -> In (n, (l, j)) (s_fifo s) \/ fresh c s i t q k v n l j) /\
     alive (snd (s, @nil out)) /\ s_dead (fst (s, @nil out)) = s_dead s).
  { split; [intros n l j []|]. split; [auto|]. split; [intros y []|reflexivity]. }
  destruct (find_lsa (c_self c, t) s) as [l0|] eqn:Ef; [|exact Id].
  destruct (N.eqb_spec (l_seq l0) q) as [Eq|]; [|exact Id]. clear Id.
  assert (Hk : l_key l0 = (c_self c, t)) by (eapply find_key; eassumption).
  assert (Hh : holds s l0) by (apply (holds_find l0 Is); rewrite Hk; exact Ef).
  assert (Ho : l_origin l0 = c_self c) by (injection Hk as X _; exact X).
  assert (Ht : l_type l0 = t) by (injection Hk as _ X; exact X).
  set (segs := segments i v k l0). set (sn := match back 1 i with Some _ => _ | None => _ end).
  rewrite !andthen_fst, !andthen_snd. cbn [upd fst snd app].
  set (s1 := fold_left _ segs s).
  assert (S1 : fst (match nth_error segs (N.to_nat sn) with Some (n, (l, k0)) => emit (OData n l k0) | None => ret end s1) = s1).
  { destruct (nth_error segs _) as [[n [l j]]|]; reflexivity. }
  rewrite S1. cbn [emit fst snd app].
  assert (G : forall n l j, In (n, (l, j)) segs -> fresh c s i t q k v n l j).
  { intros n l j Hin. apply in_segments in Hin. destruct Hin as (-> & A & B). unfold fresh. auto 10. }
  split; [|split; [|split]].
  - intros n l j. destruct (nth_error segs _) as [[n' [l' j']]|] eqn:En; cbn [emit ret snd app].
    + intros [X|[X|[X|[]]]]; try discriminate. injection X as <- <- <-. apply nth_error_In in En. now apply G.
    + intros [X|[X|[]]]; discriminate.
  - intros n l j H. apply fifo_inserts_in in H. destruct H as [H|H]; [now left|right; now apply G].
  - intros x Hx. destruct (nth_error segs _) as [[n' [l' j']]|]; cbn in Hx;
      intuition (subst; discriminate).
  - unfold s1. apply fifo_inserts_dead.
Qed.

Lemma holds_same s s' l : s_store s' = s_store s -> s_heap s' = s_heap s -> (holds s' l <-> holds s l).
Proof. intros A B. unfold holds, contents. rewrite A, B. reflexivity. Qed.

(** Everything processInterest does. *)
Lemma interest_out c s i p k v : invS None s -> lsa_conf c -> sane i -> is_prefix (c_lsaprefix c) i = true ->
  let r := process_interest c i p k v s in
  (forall n l j, In (OData n l j) (snd r) ->
     In (n, (l, j)) (s_fifo s) /\ is_prefix i n = true \/ holds s l /\ answer c i k v n l j) /\
  (forall n l j, In (n, (l, j)) (s_fifo (fst r)) ->
     In (n, (l, j)) (s_fifo s) \/ holds s l /\ answer c i k v n l j) /\
  ~ In OUb (snd r) /\
  (In OThrow (snd r) -> exists cq, back 1 (base i) = Some cq /\ to_number cq = None /\
     name_origin c (base i) = Some (c_self c)) /\
  (~ In OThrow (snd r) -> s_dead (fst r) = s_dead s).
Proof.
  intros Is Hc Hs Hp r. unfold r. clear r.
  assert (Hb2 : exists a b, back 1 (base i) = Some a /\ back 2 (base i) = Some b).
  { pose proof (base_prefix _ Hc Hp version_not_marker) as Hb. apply is_prefix_true in Hb. destruct Hb as [r Hr].
    rewrite Hr. destruct (prefix_tail Hc) as [u ->]. destruct (snoc2 r) as [->|[[x ->]|(w & a & b & ->)]].
    - rewrite app_nil_r, back1_app2, back2_app2. eauto.
    - replace ((u ++ [gen "nlsr"%string; gen "LSA"%string]) ++ [x]) with ((u ++ [gen "nlsr"%string]) ++ [gen "LSA"%string; x])
        by (rewrite <- !app_assoc; reflexivity). rewrite back1_app2, back2_app2. eauto.
    - rewrite app_assoc, back1_app2, back2_app2. eauto. }
  destruct Hb2 as (a1 & b1 & B1 & B2).
  unfold process_interest.
  destruct (back 2 i) as [cv|] eqn:E2.
  2: { exfalso. unfold base in B2. rewrite E2 in B2. congruence. }
  assert (Eb : (if is_version cv then drop_last 2 i else i) = base i) by (unfold base; now rewrite E2).
  rewrite Eb.
  destruct (if is_version cv then find_prefix i (s_fifo s) else None) as [[n [l j]]|] eqn:Ef.
  - destruct (is_version cv); [|discriminate]. apply find_some in Ef. destruct Ef as [F1 F2]. cbn [fst snd].
    split; [|split; [|split; [|split]]]; auto.
    + intros n' l' j' [X|[]]. injection X as <- <- <-. now left.
    + intros [X|[]]. discriminate.
    + intros [X|[]]. discriminate.
  - rewrite andthen_fst, andthen_snd. cbn [emit fst snd app].
    assert (Stored : forall P : Prop,
      (forall n l j, In (OData n l j) (OStat RcvInt :: snd (serve_stored i p s)) ->
         In (n, (l, j)) (s_fifo s) /\ is_prefix i n = true \/ holds s l /\ answer c i k v n l j) /\
      (forall n l j, In (n, (l, j)) (s_fifo (fst (serve_stored i p s))) ->
         In (n, (l, j)) (s_fifo s) \/ holds s l /\ answer c i k v n l j) /\
      ~ In OUb (OStat RcvInt :: snd (serve_stored i p s)) /\
      (In OThrow (OStat RcvInt :: snd (serve_stored i p s)) -> P) /\
      (~ In OThrow (OStat RcvInt :: snd (serve_stored i p s)) -> s_dead (fst (serve_stored i p s)) = s_dead s)).
    { intros P. unfold serve_stored. destruct (find _ _) as [[n d]|]; cbn [fst snd].
      - split; [|split; [|split; [|split]]]; auto; try (intros n' l j [X|[X|[]]]; discriminate); intros [X|[X|[]]]; discriminate.
      - split; [|split; [|split; [|split]]]; auto; try (intros n' l j [X|[]]; discriminate); intros [X|[]]; discriminate. }
    destruct (name_origin c (base i)) as [o|] eqn:Eo; [|apply Stored].
    eqb_case o (c_self c); [|apply Stored]. clear Stored.
    rewrite B1, B2. destruct (to_number a1) as [q|] eqn:Eq.
    + destruct (comp_type b1) as [t|] eqn:Et.
      * rewrite andthen_fst, andthen_snd. cbn [emit fst snd app].
        destruct (@interest_for_lsa_out c s i t q k v Is) as (A & B & Cc & D).
        pose proof (base_asks Hc Hs Hp Eo B1 B2 Et Eq) as Ha.
        assert (F : forall n l j, fresh c s i t q k v n l j -> holds s l /\ answer c i k v n l j).
        { intros n l j (F1 & F2 & F3 & F4 & F5 & F6). split; [exact F1|]. unfold answer. subst t q. auto. }
        split; [|split; [|split; [|split]]].
        -- intros n l j [X|[X|X]]; try discriminate. right. apply F. now apply A.
        -- intros n l j X. apply B in X. destruct X as [X|X]; [now left|right; now apply F].
        -- intros [X|[X|X]]; try discriminate. now apply Cc in X.
        -- intros [X|[X|X]]; try discriminate. apply Cc in X. now destruct X.
        -- intros _. exact D.
      * cbn [ret fst snd]. split; [|split; [|split; [|split]]]; auto; try (intros n' l j [X|[]]; discriminate); intros [X|[]]; discriminate.
    + cbn [throw fst snd]. split; [|split; [|split; [|split]]]; auto; try (intros n' l j [X|[X|[]]]; discriminate).
      * intros [X|[X|[]]]; discriminate.
      * intros _. eauto.
      * intros X. exfalso. apply X. right. now left.
Qed.

(** The other events leave the segment cache alone or empty it. *)
Lemma fifo_other c s o x : invF c s o -> (forall i p k v, snd x <> EInterest i p k v) ->
  forall e, In e (s_fifo (fst (step c s x))) -> In e (s_fifo s).
Proof.
  intros H Hx e0. unfold step. destruct (s_dead s) eqn:Ed; [auto|]. destruct x as [e v].
  assert (Q : forall a, quietF a -> In e0 (s_fifo (fst (a s))) -> In e0 (s_fifo s)).
  { intros a Ha. destruct (Ha s) as [[] _]. now rewrite sF_fifo. }
  destruct v; cbn [step_live].
  - auto.
  - pose proof (@invF_sync c s o e u (q mod 2 ^ 64)%N face H ltac:(apply N.mod_lt; discriminate)) as (_ & (_ & A & _) & _).
    now rewrite A.
  - unfold fire. destruct (get tid (s_timers s)) as [[due a]|] eqn:Et; [|auto].
    cbn [t_due t_act]. destruct (due <=? s_now s); [|auto].
    set (s1 := w_timers (del tid (s_timers s)) (s_ntid s) s).
    assert (S1 : subF s s1) by (destruct (filter_del_len is_express tid (s_timers s)); constructor; auto).
    assert (Q1 : forall a, quietF a -> In e0 (s_fifo (fst (a s1))) -> In e0 (s_fifo s)).
    { intros b Hb. destruct (Hb s1) as [[] _]. rewrite sF_fifo. auto. }
    destruct a as [oid| |i n d|n|n].
    + apply Q1, quietF_expire.
    + apply Q1, quietF_build_adj.
    + assert (Hin : In (tid, Timer due (AExpress i n d)) (exp s)).
      { apply filter_In. split; [now apply get_In|reflexivity]. }
      destruct (iF_exp H _ _ _ _ _ Hin) as (u & q & -> & Hq & Hu & _ & Hdd).
      pose proof (@invF_sub c s s1 o [] S1 eq_refl H) as H1.
      destruct (@invF_express c s1 _ u q n 0%N (Some d) H1 Hu Hq) as (_ & _ & _ & E0 & _).
      { intros dd X. injection X as <-. exact Hdd. }
      rewrite E0. auto.
    + cbn. intros X. apply filter_In in X. tauto.
    + auto.
  - pose proof (@invF_fetch_done c s o (e_sys e) fid content H) as (_ & (_ & A & _) & _). now rewrite A.
  - pose proof (@invF_fetch_err c s o fid timeout H) as (_ & (_ & A & _) & _). now rewrite A.
  - apply Q, quietF_segment.
  - exfalso. eapply Hx. reflexivity.
  - apply Q, quietF_build_name.
  - apply Q, quietF_schedule_adj_build.
Qed.

(** A sequence number is never mistaken for a segment number: the shortest encoding of a number does
    not start with a zero octet unless the number is zero. *)
Lemma number_not_segment q : is_segment (number_comp q) = false.
Proof.
  unfold is_segment, is_conv, number_comp, gen. cbn [ctype cval].
  assert (eqb 8%N 50%N = false) as -> by reflexivity. assert (eqb 8%N 8%N = true) as -> by reflexivity. cbn [andb orb].
  unfold nni_enc, is_number_str, nni_dec. destruct (N.ltb_spec q (2 ^ 8)).
  - cbn [be_enc String.length]. now rewrite andb_false_r.
  - destruct (N.ltb_spec q (2 ^ 16)) as [Hlt|].
    + cbn [be_enc String.length]. rewrite andb_true_r. apply eqb_neq.
      rewrite N_ascii_embedding by (apply N.mod_lt; discriminate).
      change (N.of_nat 1) with 1%N. rewrite N.pow_1_r. intros E.
      assert (1 <= q / 256)%N by (apply N.div_le_lower_bound; lia).
      assert (q / 256 < 256)%N by (apply N.div_lt_upper_bound; lia).
      rewrite N.mod_small in E by assumption. lia.
    + destruct (N.ltb_spec q (2 ^ 32)); cbn [be_enc String.length]; now rewrite andb_false_r.
Qed.
