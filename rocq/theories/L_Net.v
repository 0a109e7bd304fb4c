(** Lemmas about the network. *)
From Verif Require Import Base M_Nexthop M_Tlv M_Adj M_Lsa M_Lsdb M_Codec M_Sync S_Lsdb S_Codec M_Net S_Net
  L_Lsdb L_Lsdb2 L_Lsdb3 L_Lsdb4 L_Lsdb5 L_Lsdb6 L_Lsdb7 L_Lsdb8 L_Lsdb9 L_Codec P_Codec P_Lsdb P_Lsdb2.
Open Scope Z_scope.
Set Implicit Arguments.

(** ** Own LSAs *)

(** No event of the run speaks about this router's own LSAs. *)
Definition undisturbed (c : conf) (evs : list (env * ev)) : Prop :=
  no_forged_own c evs /\ forall e u q f, In (e, ESync u q f) evs -> update_origin u <> Some (c_self c).
Lemma undisturbed_app c (a b : list (env * ev)) : undisturbed c (a ++ b) -> undisturbed c a.
Proof. intros [H1 H2]. split; [intros e fid l H; apply (H1 e fid)|intros e u q f H; apply (H2 e u q f)]; apply in_or_app; auto. Qed.
Lemma undisturbed_last c (a : list (env * ev)) x : undisturbed c (a ++ [x]) ->
  (forall fid l, snd x = EFetchDone fid (Some l) -> l_origin l <> c_self c) /\
  (forall u q f, snd x = ESync u q f -> update_origin u <> Some (c_self c)).
Proof.
  intros [H1 H2]. destruct x as [e v]. split; cbn [snd].
  - intros fid l ->. apply (H1 e fid). apply in_or_app. right. now left.
  - intros u q f ->. apply (H2 e u q f). apply in_or_app. right. now left.
Qed.

Definition own_num (c : conf) (s : st) (o : list out) : Prop := forall t,
  (forall l, find_lsa (c_self c, t) s = Some l -> l_seq l = seq_get t (s_seqs s) /\ (publishes (c_hyp c) t = true -> In (l_seq l) (announced t o))) /\
  (forall q, In q (announced t o) -> (q <= seq_get t (s_seqs s))%N).

Lemma seq_get_set t t' q s : seq_get t (seq_set t' q s) = if eqb t t' then q else seq_get t s.
Proof. now destruct t, t', s. Qed.

Lemma own_num_step c s x s' o o' : invS None s -> own_num c s o -> eff c s x s' o' ->
  (forall fid l, snd x = EFetchDone fid (Some l) -> l_origin l <> c_self c) ->
  (forall u q f, snd x = ESync u q f -> update_origin u <> Some (c_self c)) -> own_num c s' (o ++ o').
Proof.
  intros I H E F S t. destruct (H t) as [H1 H2]. rewrite announced_app. destruct E as [E1 E2|fid f cq q origin ct t' l Ex Ef _ _ _ _ _ _ _ _ Eo Es|t' q0 b Q Eb _ _ _ Es Eo|l tid Ex El Eo Ef Es|l tid Ex El Eo Ef Es|l tid Ex El Ea Ef Es].
  - rewrite E2. cbn [announced]. rewrite app_nil_r. split; [intros l; rewrite E1; apply H1|apply H2].
  - rewrite Es, announced_offer, app_nil_r. split; [|exact H2]. intros l' Hl. rewrite Eo in Hl.
    destruct (eqb (c_self c, t) (l_key l)) eqn:K; [|now apply H1]. exfalso. apply eqb_eq in K. apply (F _ _ Ex). now injection K.
  - assert (E0 : q0 = seq_get t' (s_seqs s)).
    { destruct Q as [[Q _]|(u & q & f & Ex & Eu & _)]; [exact Q|]. now destruct (S _ _ _ Ex). }
    rewrite Es, seq_get_set. rewrite !announced_app, announced_offer, app_nil_r.
    change (announced t [OTmp (seq_set t' (q0 + 1) (s_seqs s)); ORename]) with (@nil N). cbn [app].
    assert (K : l_key (own c t' (q0 + 1) (e_sys (fst x)) b) = (c_self c, t')) by (unfold l_key, l_type, own; cbn; now rewrite Eb).
    split.
    + intros l Hl. rewrite Eo, K in Hl. destruct (eq_dec t t') as [->|N].
      * rewrite eqb_refl in Hl. rewrite eqb_refl. injection Hl as <-. unfold offer.
        assert (Q' : l_seq (offer (find_lsa (c_self c, t') s) (own c t' (q0 + 1) (e_sys (fst x)) b)) = (q0 + 1)%N).
        { unfold offer. destruct (find_lsa (c_self c, t') s) as [o1|] eqn:E1; [|reflexivity]. destruct (H1 _ eq_refl) as [H3 _].
          destruct (N.ltb_spec (l_seq o1) (l_seq (own c t' (q0 + 1) (e_sys (fst x)) b))); [reflexivity|]. exfalso. cbn [own l_seq] in *. lia. }
        unfold offer in Q'. rewrite Q'. split; [reflexivity|]. intros P. rewrite P. apply in_or_app. right. cbn [announced]. rewrite eqb_refl. now left.
      * assert (Nk : eqb (c_self c, t) (c_self c, t') = false) by (apply eqb_neq; congruence). rewrite Nk in Hl.
        assert (Nt : eqb t t' = false) by (apply eqb_neq; exact N). rewrite Nt. destruct (H1 _ Hl) as [A B]. split; [exact A|]. intros P. apply in_or_app. left. auto.
    + intros q Hq. apply in_app_or in Hq as [Hq|Hq].
      * specialize (H2 _ Hq). destruct (eq_dec t t') as [->|N]; [rewrite eqb_refl; lia|].
        assert (Nt : eqb t t' = false) by (apply eqb_neq; exact N). now rewrite Nt.
      * destruct (publishes (c_hyp c) t'); [|destruct Hq]. cbn [announced] in Hq. destruct (eqb t t') eqn:Et; [|destruct Hq]. destruct Hq as [<-|[]]. lia.
  - rewrite Es, seq_get_set. set (t' := l_type l) in *.
    assert (Kl : l_key l = (c_self c, t')) by (unfold l_key; now rewrite Eo).
    assert (Q0 : l_seq l = seq_get t' (s_seqs s)) by (rewrite Kl in El; exact (proj1 (proj1 (H t') _ El))).
    replace (announced t [OTmp (seq_set t' (l_seq l + 1) (s_seqs s)); ORename; OPublish t' (l_seq l + 1)]) with (if eqb t t' then [(l_seq l + 1)%N] else []) by reflexivity.
    split.
    + intros l' Hl. rewrite Ef, Kl in Hl. destruct (eq_dec t t') as [->|N].
      * rewrite eqb_refl in Hl. rewrite eqb_refl. injection Hl as <-. cbn [refreshed l_seq]. split; [reflexivity|]. intros _. apply in_or_app. right. now left.
      * assert (Nk : eqb (c_self c, t) (c_self c, t') = false) by (apply eqb_neq; congruence). rewrite Nk in Hl.
        assert (Nt : eqb t t' = false) by (apply eqb_neq; exact N). rewrite Nt, app_nil_r. now apply H1.
    + intros q Hq. apply in_app_or in Hq as [Hq|Hq].
      * specialize (H2 _ Hq). destruct (eq_dec t t') as [->|N]; [rewrite eqb_refl; lia|].
        assert (Nt : eqb t t' = false) by (apply eqb_neq; exact N). now rewrite Nt.
      * destruct (eqb t t') eqn:Et; [|destruct Hq]. destruct Hq as [<-|[]]. lia.
  - rewrite Es. cbn [announced]. rewrite app_nil_r. split; [|exact H2]. intros l' Hl. rewrite Ef in Hl. destruct (eqb _ _); [discriminate|now apply H1].
  - rewrite Es. cbn [announced]. rewrite app_nil_r. split; [|exact H2]. intros l' Hl. rewrite Ef in Hl. destruct (eqb _ _); [discriminate|now apply H1].
Qed.

Lemma own_num_rel c s o : own_num c s (filter rel o) <-> own_num c s o.
Proof. unfold own_num. split; intros H t; specialize (H t); rewrite announced_rel in *; exact H. Qed.
Lemma own_num_exec c f now e0 evs : undisturbed c evs -> own_num c (fst (exec c f now e0 evs)) (snd (exec c f now e0 evs)).
Proof.
  intros U. apply own_num_rel. revert U.
  apply (@exec_eff_ind c f now e0 (fun evs s o => undisturbed c evs -> own_num c s o)); clear evs.
  - intros _ t. split; [discriminate|intros q []].
  - intros s o s' o' I H E _ U. eapply own_num_step; [exact I|exact (H U)|exact E|discriminate|discriminate].
  - intros evs s o x s' o' _ _ I H E U. destruct (undisturbed_last _ _ U). eapply own_num_step; [exact I|exact (H (undisturbed_app _ _ U))|exact E|assumption|assumption].
Qed.

(** What a number stands for never changes. *)
Lemma own_unique c f now e0 evs l t : undisturbed c evs -> was_held c f now e0 evs l -> l_key l = (c_self c, t) ->
  (l_seq l <= seq_get t (s_seqs (fst (exec c f now e0 evs))))%N /\
  (l_seq l = seq_get t (s_seqs (fst (exec c f now e0 evs))) -> forall l', find_lsa (c_self c, t) (fst (exec c f now e0 evs)) = Some l' -> l' = l).
Proof.
  induction evs as [|x evs IH] using rev_ind; intros U (a & b & E & Hh) K.
  - symmetry in E. apply app_eq_nil in E as [-> ->]. apply (holds_find l (invS_exec c f now e0 [])) in Hh. rewrite K in Hh.
    destruct (own_num_exec f now e0 U t) as [N _]. destruct (N _ Hh) as [-> _]. split; [lia|]. intros _ l' Hl. congruence.
  - assert (C : b = [] \/ exists b', b = b' ++ [x] /\ evs = a ++ b').
    { destruct b as [|y b _] using rev_ind; [now left|right]. rewrite app_assoc in E. apply app_inj_tail in E as [-> ->]. eauto. }
    destruct C as [->|(b' & -> & ->)].
    + rewrite app_nil_r in E. subst a. apply (holds_find l (invS_exec c f now e0 (evs ++ [x]))) in Hh. rewrite K in Hh.
      destruct (own_num_exec f now e0 U t) as [N _]. destruct (N _ Hh) as [-> _]. split; [lia|]. intros _ l' Hl. congruence.
    + clear E. destruct (undisturbed_last _ _ U) as [F S]. apply undisturbed_app in U.
      destruct IH as [A B]; [exact U|exists a, b'; auto|exact K|]. pose proof (own_num_exec f now e0 U) as Nm.
      destruct (exec_snoc c f now e0 (a ++ b') x) as [-> _]. set (s := fst (exec c f now e0 (a ++ b'))) in *.
      pose proof (invS_exec c f now e0 (a ++ b')) as I. pose proof (step_eff c x I) as Ef. fold s in Ef, I.
      remember (filter rel (snd (step c s x))) as o'. clear Heqo'. set (s' := fst (step c s x)) in *. clearbody s'.
      destruct Ef as [E1 E2|fid ff cq q origin ct t' d Ex Ef _ _ _ _ _ _ _ _ Eo Es|t' q0 bb Q Eb _ _ _ Es Eo|d tid Ex El Eo Ef Es|d tid Ex El Eo Ef Es|d tid Ex El Ea Ef Es].
      * rewrite E2. split; [exact A|]. intros Q l'. rewrite E1. now apply B.
      * rewrite Es. split; [exact A|]. intros Q l' Hl. rewrite Eo in Hl. destruct (eqb (c_self c, t) (l_key d)) eqn:Kd; [|now apply B].
        exfalso. apply eqb_eq in Kd. apply (F _ _ Ex). now injection Kd.
      * assert (E0 : q0 = seq_get t' (s_seqs s)).
        { destruct Q as [[Q _]|(u & q & g & Ex & Eu & _)]; [exact Q|]. now destruct (S _ _ _ Ex). }
        assert (Ko : l_key (own c t' (q0 + 1) (e_sys (fst x)) bb) = (c_self c, t')) by (unfold l_key, l_type, own; cbn; now rewrite Eb).
        rewrite Es, seq_get_set. destruct (eq_dec t t') as [->|N].
        -- rewrite eqb_refl. split; [lia|]. intros X. lia.
        -- assert (Nt : eqb t t' = false) by (apply eqb_neq; exact N). rewrite Nt. split; [exact A|]. intros X l' Hl. rewrite Eo, Ko in Hl.
           assert (Nk : eqb (c_self c, t) (c_self c, t') = false) by (apply eqb_neq; congruence). rewrite Nk in Hl. now apply B.
      * rewrite Es, seq_get_set. assert (Kl : l_key d = (c_self c, l_type d)) by (unfold l_key; now rewrite Eo).
        destruct (eq_dec t (l_type d)) as [->|N].
        -- rewrite eqb_refl. rewrite Kl in El. destruct (proj1 (Nm (l_type d)) _ El) as [Qd _]. split; [lia|]. intros X. lia.
        -- assert (Nt : eqb t (l_type d) = false) by (apply eqb_neq; exact N). rewrite Nt. split; [exact A|]. intros X l' Hl. rewrite Ef, Kl in Hl.
           assert (Nk : eqb (c_self c, t) (c_self c, l_type d) = false) by (apply eqb_neq; congruence). rewrite Nk in Hl. now apply B.
      * rewrite Es. split; [exact A|]. intros Q l' Hl. rewrite Ef in Hl. destruct (eqb _ _); [discriminate|now apply B].
      * rewrite Es. split; [exact A|]. intros Q l' Hl. rewrite Ef in Hl. destruct (eqb _ _); [discriminate|now apply B].
Qed.
Lemma held_unique c f now e0 evs l l' t : undisturbed c evs -> was_held c f now e0 evs l -> was_held c f now e0 evs l' ->
  l_key l = (c_self c, t) -> l_key l' = (c_self c, t) -> l_seq l = l_seq l' -> l = l'.
Proof.
  induction evs as [|x evs IH] using rev_ind; intros U (a & b & E & Hh) (a' & b' & E' & Hh') K K' Q.
  - symmetry in E. apply app_eq_nil in E as [-> ->]. symmetry in E'. apply app_eq_nil in E' as [-> ->].
    apply (holds_find _ (invS_exec c f now e0 [])) in Hh. apply (holds_find _ (invS_exec c f now e0 [])) in Hh'. congruence.
  - assert (C : forall a b, evs ++ [x] = a ++ b -> b = [] \/ exists b', b = b' ++ [x] /\ evs = a ++ b').
    { clear. intros a b E. destruct b as [|y b _] using rev_ind; [now left|right]. rewrite app_assoc in E. apply app_inj_tail in E as [-> ->]. eauto. }
    pose proof (own_num_exec f now e0 U t) as [N _].
    assert (G : forall l, holds (fst (exec c f now e0 (evs ++ [x]))) l -> l_key l = (c_self c, t) ->
      find_lsa (c_self c, t) (fst (exec c f now e0 (evs ++ [x]))) = Some l /\ l_seq l = seq_get t (s_seqs (fst (exec c f now e0 (evs ++ [x]))))).
    { intros y Hy Ky. apply (holds_find _ (invS_exec c f now e0 (evs ++ [x]))) in Hy. rewrite Ky in Hy. split; [exact Hy|now apply N]. }
    destruct (C _ _ E) as [->|(b1 & -> & E1)].
    + rewrite app_nil_r in E. subst a. destruct (G _ Hh K) as [G1 G2].
      assert (W : was_held c f now e0 (evs ++ [x]) l') by (exists a', b'; auto). destruct (own_unique U W K') as [_ O]. apply O; [congruence|exact G1].
    + destruct (C _ _ E') as [->|(b2 & -> & E2)].
      * rewrite app_nil_r in E'. subst a'. destruct (G _ Hh' K') as [G1 G2].
        assert (W : was_held c f now e0 (evs ++ [x]) l) by (exists a, (b1 ++ [x]); auto). destruct (own_unique U W K) as [_ O].
        symmetry. apply O; [congruence|exact G1].
      * apply IH; [exact (undisturbed_app _ _ U)|exists a, b1; auto|exists a', b2; auto|exact K|exact K'|exact Q].
Qed.

(** ** Schedules *)

Lemma hist_app i a b : hist i (a ++ b) = hist i a ++ hist i b.
Proof. unfold hist. now rewrite filter_app, map_app. Qed.
Lemma hist_snoc i s x : hist i (s ++ [x]) = hist i s ++ (if Nat.eqb (fst x) i then [snd x] else []).
Proof. rewrite hist_app. f_equal. unfold hist. cbn [filter]. now destruct (Nat.eqb _ _). Qed.
Lemma hist_split i s a b : hist i s = a ++ b -> exists s1 s2, s = s1 ++ s2 /\ hist i s1 = a.
Proof.
  revert a b. induction s as [|x s IH] using rev_ind; intros a b E.
  - symmetry in E. apply app_eq_nil in E as [-> ->]. exists [], []. auto.
  - destruct b as [|y b _] using rev_ind.
    + rewrite app_nil_r in E. exists (s ++ [x]), []. now rewrite app_nil_r.
    + rewrite hist_snoc in E. destruct (Nat.eqb (fst x) i).
      * rewrite app_assoc in E. apply app_inj_tail in E as [E _]. destruct (IH _ _ E) as (s1 & s2 & -> & H). exists s1, (s2 ++ [x]). now rewrite <- app_assoc.
      * rewrite app_nil_r in E. destruct (IH _ _ E) as (s1 & s2 & -> & H). exists s1, (s2 ++ [x]). now rewrite <- app_assoc.
Qed.
Lemma nrun_app n i a b : nstate n i (a ++ b) = fst (run (step (n_conf n)) (nstate n i a) (hist i b)) /\
  nouts n i (a ++ b) = nouts n i a ++ snd (run (step (n_conf n)) (nstate n i a) (hist i b)).
Proof. unfold nstate, nouts, nrun. rewrite hist_app. apply exec_app. Qed.
Lemma nrun_other n i a x : fst x <> i -> nstate n i (a ++ [x]) = nstate n i a /\ nouts n i (a ++ [x]) = nouts n i a.
Proof.
  intros H. unfold nstate, nouts, nrun. rewrite hist_snoc. apply Nat.eqb_neq in H. rewrite H, app_nil_r. auto.
Qed.
Lemma nrun_step n i a x : nstate n i (a ++ [(i, x)]) = fst (step (n_conf n) (nstate n i a) x) /\
  nouts n i (a ++ [(i, x)]) = nouts n i a ++ snd (step (n_conf n) (nstate n i a) x).
Proof. unfold nstate, nouts, nrun. rewrite hist_snoc. cbn [fst snd]. rewrite Nat.eqb_refl. apply exec_snoc. Qed.
Lemma nstate_reach n i s : reachable (n_conf n) (nstate n i s).
Proof. unfold nstate, nrun. repeat eexists. Qed.
Lemma nstate_inv n i s : invS None (nstate n i s).
Proof. unfold nstate, nrun. apply invS_exec. Qed.

Section Net.
Variables (time_str : Z -> string) (time_parse : string -> option Z) (uri_parse : string -> option uri).
Variable w : net.
Notation allowed := (allowed time_str time_parse uri_parse w).
Notation possible := (possible time_str time_parse uri_parse w).
Notation sendable := (sendable time_str time_parse uri_parse w).
Hypothesis W : one_net w.

Lemma possible_app a b : possible (a ++ b) -> possible a.
Proof using.
  induction b as [|x b IH] using rev_ind; [now rewrite app_nil_r|]. rewrite app_assoc. intros H. inversion H as [E|s y P A E].
  - now destruct (a ++ b).
  - apply app_inj_tail in E as [-> _]. auto.
Qed.
Lemma possible_last a x : possible (a ++ [x]) -> allowed a x.
Proof using.
  intros H. inversion H as [E|s y P A E]; [now destruct a|]. apply app_inj_tail in E as [-> ->]. exact A.
Qed.
Lemma possible_in s i e v : possible s -> In (e, v) (hist i s) -> exists s1 s2, s = s1 ++ (i, (e, v)) :: s2 /\ allowed s1 (i, (e, v)).
Proof using.
  intros P H. unfold hist in H. apply in_map_iff in H as ([i' y] & E & H). cbn in E. subst y. apply filter_In in H as [H E]. cbn in E.
  apply Nat.eqb_eq in E. subst i'. apply in_split in H as (s1 & s2 & ->). exists s1, s2. split; [reflexivity|].
  apply possible_last. apply (possible_app _ s2). now rewrite <- app_assoc.
Qed.
Lemma sendable_app a b : sendable (a ++ b) -> sendable a.
Proof using.
  intros H j m n l k Hm Hd. apply (H j m n l k Hm). rewrite (proj2 (nrun_app m j a b)). apply in_or_app. now left.
Qed.
Lemma sane_hist s i : possible s -> forall e n p k v, In (e, EInterest n p k v) (hist i s) -> sane n.
Proof using.
  intros P e n p k v H. destruct (possible_in _ _ _ P H) as (s1 & s2 & _ & m & _ & A). exact A.
Qed.
Lemma node_conf i n : nth_error w i = Some n -> lsa_conf (n_conf n) /\ ~ In (gen "nlsr"%string) (c_network (n_conf n)) /\
  c_self (n_conf n) = c_network (n_conf n) ++ n_site n.
Proof using W.
  destruct W as (net & N1 & N2 & H). intros E. apply nth_error_In in E. destruct (H _ E) as (A & B & C & D). rewrite A, B, <- A. unfold lsa_conf. rewrite C, A. auto.
Qed.
Lemma node_sane i n a b : nth_error w i = Some n -> sane (c_lsaprefix (n_conf n) ++ n_site n ++ [a; b]) /\ sane (c_lsaprefix (n_conf n) ++ n_site n ++ [a]).
Proof using W.
  destruct W as (net & N1 & N2 & H). intros E. apply nth_error_In in E. destruct (H _ E) as (_ & _ & C & D). unfold sane. rewrite C. rewrite !app_length in *. cbn [length]. lia.
Qed.
Lemma user_origin i n t : nth_error w i = Some n -> update_origin (user n t) = Some (c_self (n_conf n)).
Proof using W.
  intros E. destruct (node_conf _ E) as (A & B & C). unfold user, lsa_user_prefix. rewrite <- app_assoc, C. apply update_origin_own; [exact A|exact B|].
  apply (node_sane _ (type_comp t) (type_comp t) E).
Qed.
Lemma same_prefix i n j m : nth_error w i = Some n -> nth_error w j = Some m ->
  c_lsaprefix (n_conf n) = c_lsaprefix (n_conf m) /\ c_network (n_conf n) = c_network (n_conf m).
Proof using W.
  destruct W as (net & N1 & N2 & H). intros E E'. apply nth_error_In in E, E'. destruct (H _ E) as (A & _ & B & _), (H _ E') as (A' & _ & B' & _). split; congruence.
Qed.

Lemma type_not_version t : is_version (type_comp t) = false.
Proof. destruct t; reflexivity. Qed.

(** What a Data packet carries. *)
Lemma data_spec s j m (i : name) a b l k t : possible s -> nth_error w j = Some m -> In (OData (i ++ [a; b]) l k) (nouts m j s) ->
  asked_type i = Some t -> produced w s j m l /\ t = l_type l /\
  exists cq, i = c_lsaprefix (n_conf m) ++ n_site m ++ [type_comp t; cq] /\ to_number cq = Some (l_seq l).
Proof using W.
  intros P E H T. destruct (node_conf _ E) as (Lc & _ & Cs).
  destruct (@C11_history (n_conf m) (n_file m) (n_now m) (n_env m) (hist j s) (i ++ [a; b]) l k Lc (sane_hist j P) (or_introl H))
    as ((h1 & h2 & Eh & Hh) & O & i' & v & Ei & site & cq & tl & Es & Eq & Ea & Et).
  assert (X : i' = i).
  { assert (L : length (i ++ [a; b]) = length (i' ++ [version_comp v; segment_comp k])) by now rewrite Ei.
    rewrite !app_length in L. cbn [length] in L. assert (L2 : length i = length i') by lia. clear L.
    symmetry. revert Ei L2. generalize [version_comp v; segment_comp k] as z. generalize [a; b] as y. clear. revert i'. induction i as [|x i IH]; intros [|x' i'] y z Ei L2; try discriminate; [reflexivity|]. cbn in *. injection Ei as <- Ei. f_equal. apply (IH i' y z); [exact Ei|lia]. }
  rewrite X in Ea. clear X Ei. assert (Si : site = n_site m) by (rewrite Cs in Es; apply app_inv_head in Es; now symmetry). subst site.
  assert (Tl : tl = []).
  { destruct Et as [Et|(v' & x & V & Et)]; [exact Et|exfalso]. unfold asked_type in T. rewrite Ea, Et in T. cbn [app] in T.
    replace (c_lsaprefix (n_conf m) ++ n_site m ++ [type_comp (l_type l); cq; v'; x]) with ((c_lsaprefix (n_conf m) ++ n_site m ++ [type_comp (l_type l); cq]) ++ [v'; x]) in T
      by (rewrite <- !app_assoc; reflexivity).
    rewrite back2_app2 in T. apply comp_type_inv in T. subst v'. now rewrite type_not_version in V. }
  subst tl. cbn [app] in Ea. assert (Tt : t = l_type l).
  { unfold asked_type in T. rewrite Ea in T. rewrite app_assoc, back2_app2 in T. apply comp_type_inv in T. now destruct t, (l_type l). }
  subst t. split; [|split; [reflexivity|eauto]]. split; [exact E|]. split; [exact O|].
  destruct (hist_split _ _ _ _ Eh) as (s1 & s2 & -> & <-). exists s1, s2. auto.
Qed.

(** What a retrieval ends with. *)
Lemma fetched_spec s i n e fid d : possible s -> sendable s -> nth_error w i = Some n -> allowed s (i, (e, EFetchDone fid (Some d))) ->
  exists j m l f cq, produced w s j m l /\ d = advertised l /\ c_self (n_conf m) <> c_self (n_conf n) /\
    get fid (s_fetch (nstate n i s)) = Some f /\ to_number cq = Some (l_seq l) /\
    f_iname f = c_lsaprefix (n_conf m) ++ n_site m ++ [type_comp (l_type l); cq] /\ encodable time_str time_parse uri_parse l.
Proof using W.
  intros P Sd En (n' & En' & A). cbn [fst snd] in *. assert (n' = n) by congruence. subst n'. destruct A as [A|(j & m & f & a & b & l & k & Em & Ef & Hd & Ec)]; [discriminate|].
  destruct (asked_type (f_iname f)) as [t|] eqn:T; [|discriminate].
  destruct (data_spec _ _ _ _ _ _ P Em Hd T) as (Pr & -> & cq & Ei & Eq). destruct (Sd _ _ _ _ _ Em Hd) as [S1 S2].
  rewrite (C41_roundtrip S1 S2) in Ec. injection Ec as ->. exists j, m, l, f, cq. split; [exact Pr|]. split; [reflexivity|].
  split; [|split; [exact Ef|split; [exact Eq|split; [exact Ei|exact S1]]]].
  destruct (iF_fetch (invF_exec (n_conf n) (n_file n) (n_now n) (n_env n) (hist i s)) _ Ef) as (u & q & Eu & _ & (_ & o & Ho & No) & _).
  rewrite Ei in Eu. replace (c_lsaprefix (n_conf m) ++ n_site m ++ [type_comp (l_type l); cq]) with ((c_lsaprefix (n_conf m) ++ n_site m ++ [type_comp (l_type l)]) ++ [cq]) in Eu
    by (rewrite <- !app_assoc; reflexivity).
  apply app_inj_tail in Eu as [<- _]. pose proof (user_origin _ (l_type l) Em) as U. unfold user, lsa_user_prefix in U. rewrite <- app_assoc in U. congruence.
Qed.

Lemma only_undisturbed s j m : possible s -> sendable s -> only w j m -> undisturbed (n_conf m) (hist j s).
Proof using W.
  intros P Sd [E U]. split.
  - intros e fid l H. destruct (possible_in _ _ _ P H) as (s1 & s2 & -> & A). pose proof (possible_app _ _ P) as P1. pose proof (sendable_app _ _ Sd) as S1.
    destruct (fetched_spec P1 S1 E A) as (j' & m' & l' & f & cq & (Em & O & _) & -> & Ne & _). cbn [advertised l_origin]. congruence.
  - intros e u q f H. destruct (possible_in _ _ _ P H) as (s1 & s2 & -> & n & En & j' & m' & t & Em & Nj & -> & _). cbn [fst] in *.
    rewrite (user_origin _ t Em). intros X. injection X as X. apply Nj. now apply (U _ m').
Qed.

Lemma produced_app s s' j m l : produced w s j m l -> produced w (s ++ s') j m l.
Proof using. intros (A & B & s1 & s2 & -> & H). split; [exact A|]. split; [exact B|]. exists s1, (s2 ++ s'). now rewrite app_assoc. Qed.
Lemma produced_held s j m l : produced w s j m l -> was_held (n_conf m) (n_file m) (n_now m) (n_env m) (hist j s) l.
Proof using. intros (A & B & s1 & s2 & -> & H). exists (hist j s1), (hist j s2). rewrite hist_app. auto. Qed.
End Net.
