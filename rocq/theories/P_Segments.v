(** C90: the segments of LSAs that a router keeps and sends. *)
From Verif Require Import Base M_Nexthop M_Tlv M_Adj M_Lsa M_Lsdb S_Lsdb L_Lsdb L_Lsdb2 L_Lsdb3 L_Lsdb4 L_Lsdb5 L_Lsdb6 L_Lsdb7 L_Lsdb8 L_Lsdb9 L_Lsdb11 L_Lsdb12 L_Lsdb13
  S_Segments X_Lsdb P_Lsdb P_Lsdb2.
Open Scope Z_scope.
Set Implicit Arguments.

Lemma is_prefix_refl n : is_prefix n n = true.
Proof. pose proof (is_prefix_app n []) as X. now rewrite app_nil_r in X. Qed.

Section C90.
Variables (c : conf) (f : option seqs) (now : Z) (e0 : env).
Notation after := (after c f now e0).
Notation validated := (validated c f now e0).
Notation superseded := (superseded c f now e0).

Lemma after_snoc a x : after (a ++ [x]) = fst (step c (after a) x).
Proof. exact (proj1 (exec_snoc c f now e0 a x)). Qed.
Lemma after_inv a : invS None (after a).
Proof. apply (@reachable_inv c). exists f, now, e0, a. reflexivity. Qed.
Lemma validated_snoc evs a n d x : validated evs a n d -> validated (evs ++ [x]) a n d.
Proof. intros (e & fid & b & -> & H). exists e, fid, (b ++ [x]). split; [now rewrite <- app_assoc|exact H]. Qed.

(** A timer that drops [n] and the validation that started it. *)
Definition cause (evs : list (env * ev)) (t : nat) (due : Z) (n : name) : Prop :=
  exists a d, validated evs a n d /\ due = s_now (after a) + 1800 * SEC.
Record invK (evs : list (env * ev)) : Prop := InvK
  { iK_sto : forall n d, In (n, d) (s_sto (after evs)) -> exists a t, validated evs a n d /\
      get t (s_timers (after evs)) = Some (Timer (s_now (after a) + 1800 * SEC) (ASto n));
    iK_timer : forall t due n, get t (s_timers (after evs)) = Some (Timer due (ASto n)) -> cause evs t due n }.

Lemma invK_still evs x : invK evs -> still true (after evs) (after (evs ++ [x])) -> invK (evs ++ [x]).
Proof.
  intros [A B] [V T]. unfold seen in V. constructor.
  - intros n d H. rewrite V in H. destruct (A _ _ H) as (a & t & X & Y). exists a, t. split; [now apply validated_snoc|]. apply T; [reflexivity|exact Y].
  - intros t due n H. apply T in H; [|reflexivity]. destruct (B _ _ _ H) as (a & d & X & Y). exists a, d. split; [now apply validated_snoc|exact Y].
Qed.

Lemma init_caches : s_sto (after []) = [] /\ s_fifo (after []) = [] /\ forall t tm, get t (s_timers (after [])) = Some tm -> drops true (t_act tm) = false /\ drops false (t_act tm) = false.
Proof.
  unfold S_Segments.after. rewrite exec_fst. cbn [run fst]. unfold init. set (b := St _ _ _ _ _ _ _ _ _ _ _ _ _ _ _ _).
  assert (I0 : invS None b) by (constructor; cbn; try (intros; discriminate); constructor).
  assert (Q : forall k, quietC k (build_name c e0 ;; (if eqb (c_hyp c) HOff then ret else build_coord c e0))).
  { intros k. apply quietC_andthen; [now apply quietC_build_name with (sys := e_sys e0)|]. destruct (eqb _ _); [apply quietC_ret|now apply quietC_build_coord with (sys := e_sys e0)]. }
  destruct (Q true b I0) as [_ [A1 B1 _]]. destruct (Q false b I0) as [_ [A2 B2 _]]. split; [exact A1|]. split; [exact A2|].
  intros t tm H. split; [destruct (drops true (t_act tm)) eqn:E; [|reflexivity]; apply B1 in H; [discriminate H|exact E]|
    destruct (drops false (t_act tm)) eqn:E; [|reflexivity]; apply B2 in H; [discriminate H|exact E]].
Qed.

Lemma invK_all evs : invK evs.
Proof.
  induction evs as [|x evs IH] using rev_ind.
  - destruct init_caches as (E1 & _ & E2). constructor.
    + intros n d H. rewrite E1 in H. destruct H.
    + intros t due n H. apply E2 in H as [H _]. discriminate H.
  - pose proof (after_inv evs) as I. pose proof (after_snoc evs x) as Es.
    assert (Sm : after (evs ++ [x]) = after evs -> invK (evs ++ [x])).
    { intros E. apply invK_still; [exact IH|]. rewrite E. apply still_refl. }
    assert (Oth : ~ touches true (after evs) (snd x) -> invK (evs ++ [x])).
    { intros T. apply invK_still; [exact IH|]. rewrite Es. now apply step_still. }
    destruct x as [e v]. destruct v as [d|u q face|tid|fid content|fid timeout|fid n d|i p k v| |]; try (apply Oth; cbn; tauto).
    + destruct (get tid (s_timers (after evs))) as [[due a]|] eqn:Et.
      2: { apply Oth. cbn. intros (tm & X & _). congruence. }
      destruct a as [oid| |i n d|n|n]; try (apply Oth; cbn; rewrite Et; intros (tm & X & Y); injection X as <-; discriminate Y).
      destruct (@step_fire_sto c _ e _ _ _ Et) as [E|(L & V & T)]; [apply Sm; now rewrite Es|]. rewrite <- Es in V, T. constructor.
      * intros n' d H. rewrite V in H. apply in_erase in H as [H N]. cbn [fst] in N. destruct (iK_sto IH _ _ H) as (a & t & X & Y).
        exists a, t. split; [now apply validated_snoc|]. apply T. split; [|exact Y]. intros ->. rewrite Et in Y. injection Y as _ Y. subst.
        rewrite is_prefix_refl in N. discriminate N.
      * intros t due' n' H. apply T in H as [_ H]. destruct (iK_timer IH _ H) as (a & d & X & Y). exists a, d. split; [now apply validated_snoc|exact Y].
    + destruct (@step_done c _ e fid content I) as [E|((g & Eg & V) & T)]; [apply Sm; now rewrite Es|]. rewrite <- Es in V, T. constructor.
      * intros n' d H. rewrite V in H. apply in_erase in H as [H _]. destruct (iK_sto IH _ _ H) as (a & t & X & Y).
        exists a, t. split; [now apply validated_snoc|]. now apply T.
      * intros t due' n' H. apply T in H; [|reflexivity]. destruct (iK_timer IH _ H) as (a & d & X & Y). exists a, d. split; [now apply validated_snoc|exact Y].
    + destruct (s_dead (after evs)) eqn:D; [apply Sm; rewrite Es; unfold step; now rewrite D|].
      destruct (get fid (s_fetch (after evs))) as [g|] eqn:Eg; [|apply Sm; rewrite Es; now apply step_no_segment].
      destruct (@step_segment c _ e fid n d g I D Eg) as (V & _ & _ & T). rewrite <- Es in V, T.
      assert (Vn : validated (evs ++ [(e, ESegment fid n d)]) evs n d) by (exists e, fid, []; split; [reflexivity|split; [exact D|congruence]]).
      constructor.
      * intros n' d' H. rewrite V in H. destruct H as [H|H].
        -- injection H as <- <-. exists evs, (s_ntid (after evs)). split; [exact Vn|]. apply T. now right.
        -- destruct (iK_sto IH _ _ H) as (a & t & X & Y). exists a, t. split; [now apply validated_snoc|]. apply T. now left.
      * intros t due' n' H. apply T in H as [H|[-> H]].
        -- destruct (iK_timer IH _ H) as (a & d' & X & Y). exists a, d'. split; [now apply validated_snoc|exact Y].
        -- injection H as -> ->. exists evs, d. split; [exact Vn|reflexivity].
    + apply Oth. cbn. discriminate.
Qed.

(** A packet of another router's LSA that the router sends is a segment it received and validated, unchanged, under its own name, which is
    the name asked for or, if that is allowed, starts with it. It is at most half an hour old if callbacks are on time. *)
Theorem C90_relayed evs e i p k v n d : let s := after evs in
  In (OStored n d) (snd (step c s (e, EInterest i p k v))) ->
  (if p then exists r, n = i ++ r else n = i) /\
  exists a, validated evs a n d /\ (prompt s -> s_now s <= s_now (after a) + 1800 * SEC).
Proof.
  intros s H. assert (St : forall s', In (OStored n d) (snd (serve_stored i p s')) -> (if p then exists r, n = i ++ r else n = i) /\ In (n, d) (s_sto s')).
  { intros s'. unfold serve_stored. destruct (find _ _) as [[n' d']|] eqn:Ef; [|intros []]. intros [X|[]]. injection X as -> ->. apply find_some in Ef as [Hin E]. split; [|exact Hin].
    cbn [fst] in E. destruct p; [now apply is_prefix_true|]. now apply (proj1 (eqb_eq _ _)) in E. }
  assert (G : (if p then exists r, n = i ++ r else n = i) /\ In (n, d) (s_sto s)).
  { revert H. unfold step. destruct (s_dead s); [intros []|]. cbn [step_live]. destruct (is_prefix (c_lsaprefix c) i); [|intros []].
    unfold process_interest. destruct (back 2 i) as [cv|]; [|intros [X|[]]; discriminate X].
    destruct (if is_version cv then _ else _) as [[n' [l k']]|]; [intros [X|[]]; discriminate X|].
    rewrite andthen_snd. cbn [emit snd app fst]. intros [X|H]; [discriminate X|]. revert H.
    destruct (name_origin _ _) as [or|]; [|apply St]. destruct (eqb _ _); [|apply St].
    destruct (back 1 _) as [cq|]; [|intros [X|[]]; discriminate X]. destruct (back 2 _) as [ct|]; [|intros [X|[]]; discriminate X].
    destruct (to_number cq); [|intros [X|[]]; discriminate X]. destruct (comp_type ct); [|intros []].
    rewrite andthen_snd. cbn [emit snd app fst]. intros [X|H]; [discriminate X|]. revert H.
    unfold interest_for_lsa. destruct (find_lsa _ s) as [l0|]; [|intros []]. destruct (_ =? _)%N; [|intros []].
    rewrite !andthen_snd. cbn [upd emit snd app]. destruct (nth_error _ _) as [[n' [l' k']]|]; cbn [emit ret snd app];
      intros H; repeat (destruct H as [X|H]; [discriminate X|]); destruct H. }
  destruct G as [G1 G2]. split; [exact G1|]. destruct (iK_sto (invK_all evs) _ _ G2) as (a & t & V & T). exists a. split; [exact V|].
  intros P. exact (P _ _ T).
Qed.

Lemma dropped_spec g evs fid : get fid (s_fetch (after evs)) = Some g ->
  exists (u : name) q, (q < 2 ^ 64)%N /\ f_iname g = u ++ [number_comp ((q + 1) mod 2 ^ 64)%N] /\ dropped g = u ++ [number_comp q].
Proof.
  intros E. destruct (iF_fetch (invF_exec c f now e0 evs) _ E) as (u & q & Ei & Hq & _).
  exists u, ((q + (2 ^ 64 - 1)) mod 2 ^ 64)%N. split; [apply N.mod_lt; discriminate|]. split.
  - rewrite Ei. f_equal. f_equal. f_equal. rewrite N.add_mod_idemp_l by discriminate. replace (q + (2 ^ 64 - 1) + 1)%N with (q + 1 * 2 ^ 64)%N by lia.
    rewrite N.mod_add by discriminate. symmetry. now apply N.mod_small.
  - unfold dropped. rewrite Ei, drop_last_snoc, back1_snoc, to_number_comp by exact Hq. reflexivity.
Qed.

Lemma now_mono a b : s_now (after a) <= s_now (after (a ++ b)).
Proof.
  induction b as [|x b IH] using rev_ind; [rewrite app_nil_r; lia|]. rewrite app_assoc, after_snoc.
  pose proof (proj2 (proj2 (proj2 (@step_fetches c _ x (invX_exec c f now e0 (a ++ b)))))). unfold S_Segments.after in *. lia.
Qed.

(** A validated segment is kept for half an hour, unless a retrieval of the next number ends before. *)
Theorem C90_kept a e fid n d b : let evs := a ++ (e, ESegment fid n d) :: b in
  s_dead (after a) = false -> get fid (s_fetch (after a)) <> None ->
  s_now (after evs) < s_now (after a) + 1800 * SEC -> ~ superseded (a ++ [(e, ESegment fid n d)]) b n ->
  (forall a' n' d', validated evs a' n' d' -> (exists r, n = n' ++ r) -> a' = a) ->
  In (n, d) (s_sto (after evs)).
Proof.
  cbv zeta. intros D F. induction b as [|x b IH] using rev_ind; intros T S U.
  - rewrite after_snoc. destruct (get fid (s_fetch (after a))) as [g|] eqn:Eg; [|congruence].
    destruct (@step_segment c _ e fid n d g (after_inv a) D Eg) as (V & _). rewrite V. now left.
  - set (evs := a ++ (e, ESegment fid n d) :: b) in *.
    assert (Ev : a ++ (e, ESegment fid n d) :: b ++ [x] = evs ++ [x]) by (unfold evs; rewrite <- app_assoc; reflexivity).
    rewrite Ev in T, U |- *. assert (Hin : In (n, d) (s_sto (after evs))).
    { apply IH.
      - pose proof (now_mono evs [x]). lia.
      - intros (b1 & e1 & fid1 & ct & b2 & g & u & q & -> & H). apply S. exists b1, e1, fid1, ct, (b2 ++ [x]), g, u, q. split; [now rewrite <- app_assoc|exact H].
      - intros a' n' d' V. apply U with (d' := d'). now apply validated_snoc. }
    clear IH. pose proof (after_inv evs) as I. pose proof (after_snoc evs x) as Es.
    assert (Sm : after (evs ++ [x]) = after evs -> In (n, d) (s_sto (after (evs ++ [x])))) by (intros ->; exact Hin).
    assert (Oth : ~ touches true (after evs) (snd x) -> In (n, d) (s_sto (after (evs ++ [x])))).
    { intros Tc. rewrite Es. destruct (@step_still c true _ x I Tc) as [V _]. unfold seen in V. now rewrite V. }
    destruct x as [e' v]. destruct v as [dd|u q face|tid|fid' content|fid' timeout|fid' n' d'|i p k v| |]; try (apply Oth; cbn; tauto).
    + destruct (get tid (s_timers (after evs))) as [[due aa]|] eqn:Et.
      2: { apply Oth. cbn. intros (tm & X & _). congruence. }
      destruct aa as [oid| |i n' dl|n'|n']; try (apply Oth; cbn; rewrite Et; intros (tm & X & Y); injection X as <-; discriminate Y).
      destruct (@step_fire_sto c _ e' _ _ _ Et) as [E|(L & V & _)]; [apply Sm; now rewrite Es|]. rewrite <- Es in V. rewrite V. apply in_erase. split; [exact Hin|]. cbn [fst].
      destruct (is_prefix n' n) eqn:P; [|reflexivity]. exfalso. destruct (iK_timer (invK_all evs) _ Et) as (a' & d' & Vd & Ed). apply is_prefix_true in P.
      pose proof (U _ _ _ (validated_snoc _ Vd) P) as ->. pose proof (now_mono evs [(e', EFire tid)]). lia.
    + destruct (@step_done c _ e' fid' content I) as [E|((g & Eg & V) & _)]; [apply Sm; now rewrite Es|]. rewrite <- Es in V. rewrite V. apply in_erase. split; [exact Hin|]. cbn [fst].
      destruct (is_prefix (dropped g) n) eqn:P; [|reflexivity]. exfalso. destruct (@dropped_spec g evs fid' Eg) as (u & q & Q & Ei & Ed). apply S.
      exists b, e', fid', content, [], g, u, q. split; [reflexivity|]. rewrite <- app_assoc. cbn [app]. fold evs. split; [exact Eg|]. split; [exact Q|]. split; [exact Ei|].
      rewrite <- Ed. now apply is_prefix_true.
    + destruct (s_dead (after evs)) eqn:Dd; [apply Sm; rewrite Es; unfold step; now rewrite Dd|].
      destruct (get fid' (s_fetch (after evs))) as [g|] eqn:Eg; [|apply Sm; rewrite Es; now apply step_no_segment].
      destruct (@step_segment c _ e' fid' n' d' g I Dd Eg) as (V & _). rewrite <- Es in V. rewrite V. now right.
    + apply Oth. cbn. discriminate.
Qed.

(** And so long the router answers for the other: an Interest for exactly this segment gets it. *)
Theorem C90_answered a e fid n d b site t q ver j e' k v : let evs := a ++ (e, ESegment fid n d) :: b in
  lsa_conf c -> sane n -> n = c_lsaprefix c ++ site ++ [type_comp t; number_comp q; version_comp ver; segment_comp j] -> (ver < 2 ^ 64)%N ->
  c_network c ++ site <> c_self c ->
  s_dead (after evs) = false -> get fid (s_fetch (after a)) <> None ->
  s_now (after evs) < s_now (after a) + 1800 * SEC -> ~ superseded (a ++ [(e, ESegment fid n d)]) b n ->
  (forall a' n' d', validated evs a' n' d' -> (exists r, n = n' ++ r) -> a' = a) ->
  (forall m y, In (m, y) (s_fifo (after evs)) -> is_prefix n m = false) ->
  snd (step c (after evs) (e', EInterest n false k v)) = [OStat RcvInt; OStored n d].
Proof.
  cbv zeta. intros Hc Hs En Hv Hn D F T S U Ff. set (evs := a ++ (e, ESegment fid n d) :: b) in *.
  assert (Da : s_dead (after a) = false).
  { destruct (s_dead (after a)) eqn:X; [|reflexivity]. exfalso. assert (K : forall m, s_dead (after (a ++ m)) = true).
    { induction m as [|y m IHm] using rev_ind; [now rewrite app_nil_r|]. rewrite app_assoc, after_snoc. unfold step. now rewrite IHm. }
    unfold evs in D. rewrite K in D. discriminate D. }
  pose proof (@C90_kept a e fid n d b Da F T S U) as Hin. fold evs in Hin.
  assert (Un : forall n' d', In (n', d') (s_sto (after evs)) -> n' = n -> d' = d).
  { intros n' d' H ->. destruct (iK_sto (invK_all evs) _ _ H) as (a' & tt & V & _). pose proof (U _ _ _ V (ex_intro _ [] (eq_sym (app_nil_r n)))) as ->.
    destruct V as (e2 & fid2 & b2 & E & _). unfold evs in E. apply app_inv_head in E. congruence. }
  unfold step. rewrite D. cbn [step_live].
  assert (Ep : is_prefix (c_lsaprefix c) n = true) by (rewrite En; apply is_prefix_app). rewrite Ep. unfold process_interest.
  assert (Eb : n = (c_lsaprefix c ++ site ++ [type_comp t; number_comp q]) ++ [version_comp ver; segment_comp j]) by (rewrite En, <- !app_assoc; reflexivity).
  assert (B2 : back 2 n = Some (version_comp ver)) by (rewrite Eb; apply back2_app2). rewrite B2.
  assert (is_version (version_comp ver) = true) as ->.
  { assert (X : is_number_str (nni_enc ver) = true) by (unfold is_number_str; now rewrite (@nni_dec_enc ver Hv)).
    unfold is_version, is_conv, version_comp. cbn [ctype cval]. now rewrite X. }
  assert (find_prefix n (s_fifo (after evs)) = None) as ->.
  { unfold find_prefix. destruct (find _ _) as [[m y]|] eqn:E; [|reflexivity]. apply find_some in E as [E1 E2]. cbn [fst] in E2. rewrite (Ff _ _ E1) in E2. discriminate E2. }
  assert (Edl : drop_last 2 n = c_lsaprefix c ++ site ++ [type_comp t; number_comp q]) by (rewrite Eb; apply drop_last_app2). rewrite Edl.
  rewrite andthen_snd. cbn [emit snd app fst]. f_equal.
  rewrite name_origin_app; [|exact Hc|]. 2: { rewrite Eb in Hs. now apply sane_app_l in Hs. }
  match goal with |- snd ((if ?b then _ else _) _) = _ => destruct b eqn:E end; [apply (proj1 (eqb_eq _ _)) in E; contradiction|]. unfold serve_stored. cbv iota.
  destruct (find (fun e1 => eqb n (fst e1)) (s_sto (after evs))) as [[n' d']|] eqn:Ef.
  - apply find_some in Ef as [E1 E2]. cbn [fst] in E2. apply (proj1 (eqb_eq _ _)) in E2. subst n'. now rewrite (Un _ _ E1 eq_refl).
  - exfalso. pose proof (find_none _ _ Ef _ Hin) as X. cbn [fst] in X. rewrite eqb_refl in X. discriminate X.
Qed.

(** ** This router's own segments *)

Lemma own_fresh evs : forall n l j, In (n, (l, j)) (s_fifo (after evs)) -> exists a b t, evs = a ++ b /\ holds (after a) l /\
  get t (s_timers (after evs)) = Some (Timer (s_now (after a) + c_refresh c * SEC) (AFifo n)).
Proof.
  induction evs as [|x evs IH] using rev_ind.
  - destruct init_caches as (_ & E1 & _). intros n l j H. rewrite E1 in H. destruct H.
  - pose proof (after_inv evs) as I. pose proof (after_snoc evs x) as Es.
    assert (Up : forall n l j, In (n, (l, j)) (s_fifo (after evs)) ->
      (forall due t, get t (s_timers (after evs)) = Some (Timer due (AFifo n)) -> get t (s_timers (after (evs ++ [x]))) = Some (Timer due (AFifo n))) ->
      exists a b t, evs ++ [x] = a ++ b /\ holds (after a) l /\ get t (s_timers (after (evs ++ [x]))) = Some (Timer (s_now (after a) + c_refresh c * SEC) (AFifo n))).
    { intros n l j H T. destruct (IH _ _ _ H) as (a & b & t & E & Hl & Ht). exists a, (b ++ [x]), t. split; [rewrite E, <- app_assoc; reflexivity|]. split; [exact Hl|now apply T]. }
    assert (Oth : ~ touches false (after evs) (snd x) -> forall n l j, In (n, (l, j)) (s_fifo (after (evs ++ [x]))) ->
      exists a b t, evs ++ [x] = a ++ b /\ holds (after a) l /\ get t (s_timers (after (evs ++ [x]))) = Some (Timer (s_now (after a) + c_refresh c * SEC) (AFifo n))).
    { intros T n l j H. destruct (@step_still c false _ x I T) as [V W]. rewrite <- Es in V, W. unfold seen in V. rewrite V in H.
      apply (Up _ _ _ H). intros due t. apply W. reflexivity. }
    destruct x as [e v]. destruct v as [d|u q face|tid|fid content|fid timeout|fid n d|i p k v| |]; try (apply Oth; cbn; intuition discriminate).
    + destruct (get tid (s_timers (after evs))) as [[due a]|] eqn:Et.
      2: { apply Oth. cbn. intros (tm & X & _). congruence. }
      destruct a as [oid| |i n d|n|n]; try (apply Oth; cbn; rewrite Et; intros (tm & X & Y); injection X as <-; discriminate Y).
      destruct (@step_fire_fifo c _ e _ _ _ Et) as [E|(L & V & T)].
      * intros n' l j H. rewrite Es, E in H. apply (Up _ _ _ H). intros due' t. now rewrite Es, E.
      * rewrite <- Es in V, T. intros n' l j H. rewrite V in H. apply in_erase in H as [H N]. cbn [fst] in N. apply (Up _ _ _ H). intros due' t Ht. apply T. split; [|exact Ht].
        intros ->. rewrite Et in Ht. injection Ht as _ Ht. subst. rewrite is_prefix_refl in N. discriminate N.
    + destruct (@step_interest_C c _ e i p k v I) as [T F]. rewrite <- Es in T, F. intros n l j H. destruct (F _ _ _ H) as [H1|(H1 & t & H2)].
      * apply (Up _ _ _ H1). auto.
      * exists evs, [(e, EInterest i p k v)], t. auto.
Qed.

(** A packet of an own LSA carries an LSA that the router held, at most one refresh interval ago if callbacks are on time. *)
Theorem C90_own_fresh evs e i p k v n l j : lsa_conf c -> sane i -> 0 <= c_refresh c -> let s := after evs in
  In (OData n l j) (snd (step c s (e, EInterest i p k v))) ->
  exists a b, evs = a ++ b /\ holds (after a) l /\ (prompt s -> s_now s <= s_now (after a) + c_refresh c * SEC).
Proof.
  intros Hc Hs Hr s H. assert (R : reachable c s) by (exists f, now, e0, evs; reflexivity).
  destruct (@C11_exact c s e i p k v n l j R Hc Hs H) as [[H1 _]|(H1 & _)].
  - destruct (@own_fresh evs _ _ _ H1) as (a & b & t & E & Hl & Ht). exists a, b. split; [exact E|]. split; [exact Hl|]. intros P. exact (P _ _ Ht).
  - exists evs, []. split; [now rewrite app_nil_r|]. split; [exact H1|]. intros _. assert (0 < SEC) by (unfold SEC; lia). fold s. nia.
Qed.

(** An Interest for a segment of an own LSA that is not cached, or no more, is answered with exactly this segment of the stored LSA, if it has the number
    asked for and has such a segment (under a name that is longer than the one asked for). *)
Theorem C90_own_number evs e p k v site l cv cs j : let s := after evs in
  lsa_conf c -> s_dead s = false -> c_self c = c_network c ++ site -> holds s l -> l_origin l = c_self c -> (l_seq l < 2 ^ 64)%N ->
  is_version cv = true -> segment_no cs j -> (j < 2 ^ 64)%N ->
  let i := c_lsaprefix c ++ site ++ [type_comp (l_type l); number_comp (l_seq l); cv; cs] in
  sane i -> (forall m y, In (m, y) (s_fifo s) -> is_prefix i m = false) ->
  forall n l' j', In (OData n l' j') (snd (step c s (e, EInterest i p k v))) <->
    (j < N.of_nat k)%N /\ n = i ++ [version_comp v; segment_comp j] /\ l' = l /\ j' = j.
Proof.
  intros s Hc D Hsite Hh Ho Hq Hcv Hcs Hj i Hs Ff n l' j'.
  unfold step. rewrite D. cbn [step_live].
  assert (Ep : is_prefix (c_lsaprefix c) i = true) by apply is_prefix_app. rewrite Ep. unfold process_interest.
  assert (Eb : i = (c_lsaprefix c ++ site ++ [type_comp (l_type l); number_comp (l_seq l)]) ++ [cv; cs]) by (unfold i; rewrite <- !app_assoc; reflexivity).
  assert (B2 : back 2 i = Some cv) by (rewrite Eb; apply back2_app2). rewrite B2, Hcv.
  assert (find_prefix i (s_fifo s) = None) as ->.
  { unfold find_prefix. destruct (find _ _) as [[m y]|] eqn:E; [|reflexivity]. apply find_some in E as [E1 E2]. cbn [fst] in E2. rewrite (Ff _ _ E1) in E2. discriminate E2. }
  assert (Edl : drop_last 2 i = c_lsaprefix c ++ site ++ [type_comp (l_type l); number_comp (l_seq l)]) by (rewrite Eb; apply drop_last_app2). rewrite Edl.
  rewrite andthen_snd. cbn [emit snd app fst].
  rewrite name_origin_app; [|exact Hc|]. 2: { rewrite Eb in Hs. now apply sane_app_l in Hs. }
  rewrite <- Hsite, eqb_refl. rewrite app_assoc, back1_app2, back2_app2, (to_number_comp Hq), (proj2 (comp_type_inv _ _) eq_refl).
  rewrite andthen_snd. cbn [emit snd app fst]. unfold interest_for_lsa.
  assert (El : find_lsa (c_self c, l_type l) s = Some l) by (rewrite <- Ho; exact (proj1 (holds_find l (after_inv evs)) Hh)).
  rewrite El, N.eqb_refl.
  assert (B1 : back 1 i = Some cs) by (rewrite Eb; apply back1_app2). rewrite B1.
  assert (is_segment cs = true /\ to_segment cs = Some j) as [-> ->].
  { assert (X : is_number_str (nni_enc j) = true) by (unfold is_number_str; now rewrite (@nni_dec_enc j Hj)).
    destruct Hcs as [-> | ->].
    - unfold is_segment, is_conv, segment_comp, to_segment. cbn [ctype cval]. rewrite X. split; [reflexivity|]. rewrite eqb_refl. now apply nni_dec_enc.
    - unfold is_segment, is_conv, to_segment. cbn [ctype cval]. change (eqb 8%N 50%N) with false. change (eqb 8%N 8%N) with true. cbn [andb orb].
      change (Ascii.N_of_ascii (Ascii.ascii_of_N 0)) with 0%N. rewrite eqb_refl, X. split; [reflexivity|]. now apply nni_dec_enc. }
  rewrite !andthen_snd. cbn [upd emit snd app fst].
  assert (Nth : nth_error (segments i v k l) (N.to_nat j) = if (j <? N.of_nat k)%N then Some (i ++ [version_comp v; segment_comp j], (l, j)) else None).
  { unfold segments. destruct (N.ltb_spec j (N.of_nat k)) as [L|L].
    - rewrite nth_error_map. assert (X : nth_error (seq 0 k) (N.to_nat j) = Some (N.to_nat j)).
      { rewrite (nth_error_nth' _ 0%nat) by (rewrite seq_length; lia). rewrite seq_nth by lia. reflexivity. }
      rewrite X. cbn [option_map]. now rewrite N2Nat.id.
    - apply nth_error_None. rewrite map_length, seq_length. lia. }
  rewrite Nth. destruct (N.ltb_spec j (N.of_nat k)) as [L|L]; cbn [emit ret snd app In].
  - split.
    + intros H. repeat (destruct H as [X|H]; [try discriminate X; injection X as <- <- <-; auto|]). destruct H.
    + intros (_ & -> & -> & ->). auto.
  - split; [|lia]. intros H. repeat (destruct H as [X|H]; [discriminate X|]). destruct H.
Qed.
End C90.

Unset Implicit Arguments.
(** ** Examples *)

Definition nG : name := syncX "r2" TName ++ [number_comp 5; version_comp 3; segment_comp 0].
Definition segG : env * ev := (envX, ESegment 0 nG "octets"%string).
Definition restG : list (env * ev) := [(envX, EFetchDone 0 (Some (nlsaX 5 [(pX, 7)]))); (envX, ETick (1000 * SEC))].
Definition syncG : list (env * ev) := [(envX, ESync (syncX "r2" TName) 5 300)].

(** r2's LSA 5 was retrieved 1000 s ago: the hypotheses of [C90_answered] are met, so its segment is sent on. *)
Example C90_answered_example : let c := confX HOff in let evs := syncG ++ segG :: restG in
  lsa_conf c /\ sane nG /\ s_dead (after c None 0 envX evs) = false /\ get 0%nat (s_fetch (after c None 0 envX syncG)) <> None /\
  s_now (after c None 0 envX evs) < s_now (after c None 0 envX syncG) + 1800 * SEC /\
  ~ superseded c None 0 envX (syncG ++ [segG]) restG nG /\
  (forall a' n' d', validated c None 0 envX evs a' n' d' -> (exists r, nG = n' ++ r) -> a' = syncG) /\
  s_fifo (after c None 0 envX evs) = [].
Proof.
  cbv zeta. split; [split; [reflexivity|intros [H|[]]; discriminate]|]. split; [reflexivity|]. split; [vm_compute; reflexivity|].
  split; [vm_compute; discriminate|]. split; [vm_compute; reflexivity|]. split; [|split; [|vm_compute; reflexivity]].
  - intros (b1 & e & fid & ct & b2 & g & u & q & E & G & Q & Ei & r & En).
    destruct b1 as [|y b1]; cbn [app restG] in E.
    + injection E as <- <- <- _.
      assert (G' : get 0%nat (s_fetch (after (confX HOff) None 0 envX ((syncG ++ [segG]) ++ []))) = Some (Fetch (syncX "r2" TName ++ [number_comp 5]) 0 (7200 * SEC))) by (vm_compute; reflexivity).
      rewrite G' in G. injection G as <-. change (syncX "r2" TName ++ [number_comp 5] = u ++ [number_comp ((q + 1) mod 2 ^ 64)]) in Ei.
      apply app_inj_tail in Ei as [E1 X]. symmetry in E1, X.
      subst u. unfold nG in En. rewrite <- app_assoc in En. apply app_inv_head in En. cbn [app] in En. injection En as En _.
      apply nni_enc_inj in En; [|reflexivity|exact Q]. subst q. vm_compute in X. discriminate X.
    + injection E as _ E. destruct b1 as [|z b1]; [discriminate E|]. injection E as _ E. destruct b1; discriminate E.
  - intros a' n' d' (e & fid & b & E & _) _. unfold syncG, segG, restG in E. cbn [app] in E.
    destruct a' as [|s1 a']; [discriminate E|]. injection E as E1 E. subst s1.
    destruct a' as [|t1 a']; [reflexivity|]. injection E as _ E.
    destruct a' as [|u1 a']; [discriminate E|]. injection E as _ E.
    destruct a' as [|v1 a']; [discriminate E|]. injection E as _ E. destruct a'; discriminate E.
Qed.
Example C90_relayed_example : In (OStored nG "octets"%string) (snd (step (confX HOff) (after (confX HOff) None 0 envX (syncG ++ segG :: restG)) (envX, EInterest nG false 1 1))).
Proof. vm_compute. auto. Qed.

(** A segment that is validated again, 1000 s later, is dropped half an hour after the first time. *)
Theorem C90_again_refuted : let c := confX HOff in let s := after c None 0 envX in
  exists a b n d, validated c None 0 envX (a ++ b) a n d /\ s_dead (s (a ++ b)) = false /\ s_now (s (a ++ b)) < s_now (s a) + 1800 * SEC /\
    s_sto (s (a ++ b)) = [] /\ forall x, In x b -> match snd x with EFetchDone _ _ => False | _ => True end.
Proof.
  cbv zeta. exists (syncG ++ [segG; (envX, ETick (1000 * SEC))]), [segG; (envX, ETick (800 * SEC)); (envX, EFire 1)], nG, "octets"%string.
  split; [|split; [vm_compute; reflexivity|split; [vm_compute; reflexivity|split; [vm_compute; reflexivity|]]]].
  - exists envX, 0%nat, [(envX, ETick (800 * SEC)); (envX, EFire 1)]. split; [reflexivity|]. split; [vm_compute; reflexivity|vm_compute; discriminate].
  - intros x [<-|[<-|[<-|[]]]]; exact Logic.I.
Qed.

(** The Interest for a segment that is no more cached, sent twice: the second answer is another segment. *)
Definition i1G : name := iX ++ [version_comp 7; segment_comp 1].
Theorem C90_repeat_refuted : let c := confX HOff in let s := after c None 0 envX [] in let x := (envX, EInterest i1G false 2 9) in
  exists l n n', holds s l /\ In (OData n l 1) (snd (step c s x)) /\ snd (step c (fst (step c s x)) x) = [OData n' l 0].
Proof.
  cbv zeta. do 3 eexists. split; [vm_compute; left; reflexivity|]. split; [vm_compute; right; right; left; reflexivity|]. vm_compute. reflexivity.
Qed.
Example C90_own_number_example : let c := confX HOff in let s := after c None 0 envX [] in
  s_dead s = false /\ s_fifo s = [] /\ sane i1G /\ exists l, holds s l /\ l_origin l = c_self c /\ l_seq l = 1%N /\ l_type l = TName /\
  i1G = c_lsaprefix c ++ nm ["site"; "r1"]%string ++ [type_comp TName; number_comp 1; version_comp 7; segment_comp 1].
Proof.
  cbv zeta. split; [vm_compute; reflexivity|]. split; [vm_compute; reflexivity|]. split; [reflexivity|]. eexists. split; [vm_compute; left; reflexivity|].
  repeat split; vm_compute; reflexivity.
Qed.

Print Assumptions C90_relayed.
Print Assumptions C90_kept.
Print Assumptions C90_answered.
Print Assumptions C90_own_fresh.
Print Assumptions C90_own_number.
Print Assumptions C90_again_refuted.
Print Assumptions C90_repeat_refuted.
