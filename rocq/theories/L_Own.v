(** The own Adjacency LSA and the neighbours, when no build is scheduled. *)
From Verif Require Import Base M_Nexthop M_Tlv M_Adj M_Lsa M_Lsdb S_Lsdb L_Lsdb L_Lsdb2 L_Lsdb3 L_Lsdb4 L_Lsdb5 L_Lsdb6 L_Lsdb7 L_Lsdb9 P_Lsdb2.
Open Scope Z_scope.
Set Implicit Arguments.

(** The own Adjacency LSA in the database lists [n]. *)
Definition listed (c : conf) (s : st) (n : name) : Prop :=
  exists l al, find_lsa (c_self c, TAdj) s = Some l /\ l_body l = BAdj al /\ In n (map a_name al).
Definition actives (l : adl) (n : name) : Prop := exists a, In a l /\ a_status a = SActive /\ a_name a = n.
Definition exactly (c : conf) (s : st) (l : adl) : Prop := forall n, listed c s n <-> actives l n.

Lemma exactly_same c s s' l : find_lsa (c_self c, TAdj) s' = find_lsa (c_self c, TAdj) s -> exactly c s l -> exactly c s' l.
Proof. intros E H n. rewrite <- (H n). unfold listed. now rewrite E. Qed.

Lemma eqb_off A (D : EqDec A) (k k' : A) : k <> k' -> eqb k k' = false.
Proof. apply eqb_neq. Qed.

(** Only the end of a build ends the wait for one. *)
Lemma step_sched c s x : invS None s -> c_hyp c <> HOn -> s_sched (fst (step c s x)) = false ->
  fst (step c s x) = s \/ s_sched s = false /\ (forall tid due, snd x = EFire tid -> get tid (s_timers s) <> Some (Timer due ABuild)) \/
  exists tid due, snd x = EFire tid /\ s_dead s = false /\ get tid (s_timers s) = Some (Timer due ABuild) /\ due <= s_now s /\
    is_buildable (c_retry c) (e_adl (fst x)) = true.
Proof.
  intros I Hy. unfold step. destruct (s_dead s) eqn:D; [now left|]. destruct x as [e v]. cbn [fst snd].
  assert (Q : forall a, quietB a -> s_sched (fst (a s)) = false -> s_sched s = false).
  { intros a Ha E. destruct (Ha s I) as [_ K]. now rewrite (kB_sched K) in E. }
  destruct v; cbn [step_live]; intros H.
  - right. left. split; [exact H|discriminate].
  - right. left. split; [eapply Q; [|exact H]; apply quietB_sync|discriminate].
  - unfold fire in *. destruct (get tid (s_timers s)) as [[due a]|] eqn:Et; [|now left].
    cbn [t_due t_act] in *. destruct (Z.leb_spec due (s_now s)); [|now left].
    set (s1 := w_timers (del tid (s_timers s)) (s_ntid s) s) in *.
    assert (N : a <> ABuild -> s_sched s = false ->
      s_sched s = false /\ (forall tid0 due0, EFire tid = EFire tid0 -> get tid0 (s_timers s) <> Some (Timer due0 ABuild))).
    { intros Na E. split; [exact E|]. intros t0 d0 [= <-]. rewrite Et. congruence. }
    destruct a as [oid| |i n d|n|n].
    + right. left. apply N; [discriminate|].
      assert (K : keepB s1 (fst (expire_or_refresh c (e_sys e) oid s1))).
      { apply keepB_expire. apply invS_del_timer; [now apply invS_weaken|]. intros oid' tm X Y. rewrite Et in X. injection X as <-. cbn in Y. congruence. }
      rewrite (kB_sched K) in H. exact H.
    + right. right. exists tid, due. repeat (split; [first [reflexivity|exact Et|assumption]|]).
      unfold build_adj in H. destruct (is_buildable _ _); [reflexivity|]. cbn [fst] in H. unfold schedule_build in H.
      destruct (schedule _ _ _) as [z t]. discriminate H.
    + right. left. apply N; [discriminate|]. destruct (@quietB_express i n 0 (Some d) s1) as [_ K].
      { apply invS_del_timer; [exact I|]. intros oid tm X Y. rewrite Et in X. injection X as <-. discriminate. }
      rewrite (kB_sched K) in H. exact H.
    + right. left. apply N; [discriminate|exact H].
    + right. left. apply N; [discriminate|exact H].
  - right. left. split; [eapply Q; [|exact H]; apply quietB_fetch_done|discriminate].
  - right. left. split; [eapply Q; [|exact H]; apply quietB_fetch_err|discriminate].
  - right. left. split; [eapply Q; [|exact H]; apply quietB_segment|discriminate].
  - destruct (is_prefix _ _); [|now left]. right. left. split; [eapply Q; [|exact H]; apply quietB_interest|discriminate].
  - right. left. split; [eapply Q; [|exact H]; apply quietB_build_name|discriminate].
  - unfold schedule_adj_build in H. eqb_case (c_hyp c) HOn; [contradiction|]. cbn [fst] in H. unfold schedule_build in H.
    destruct (schedule _ _ _) as [z t]. discriminate H.
Qed.

(** A build of the own Adjacency LSA lists the neighbours that are up. *)
Lemma offered_exact c s s' q e : own_ok c s -> invS None s ->
  (forall o, find_lsa (c_self c, TAdj) s = Some o -> (l_seq o <? q)%N = true) ->
  offered s (own c TAdj q (e_sys e) (BAdj (own_adl (e_adl e)))) s' -> exactly c s' (e_adl e).
Proof.
  intros O I Hq Of n. specialize (Of (c_self c, TAdj)). change (l_key (own c TAdj q (e_sys e) (BAdj (own_adl (e_adl e))))) with (c_self c, TAdj) in Of.
  rewrite eqb_refl in Of. unfold actives. rewrite <- own_adl_names. unfold offer in Of.
  assert (G : forall y al, find_lsa (c_self c, TAdj) s' = Some y -> l_body y = BAdj al -> (In n (map a_name al) <-> In n (map a_name (own_adl (e_adl e)))) ->
    (listed c s' n <-> In n (map a_name (own_adl (e_adl e))))).
  { intros y al Fy By <-. split.
    - intros (l & al' & F & B & H). rewrite Fy in F. injection F as <-. rewrite By in B. injection B as <-. exact H.
    - intros H. exists y, al. auto. }
  destruct (find_lsa (c_self c, TAdj) s) as [o|] eqn:Eo; [|eapply G; [exact Of|reflexivity|tauto]].
  cbn [own l_seq] in Of. rewrite (Hq o eq_refl) in Of. destruct (O _ _ Eo) as [_ O2].
  pose proof (@find_key _ _ _ _ I Eo) as Ko. injection Ko as _ Ko. unfold l_type in Ko.
  unfold merged in Of. cbn [l_body own] in Of. destruct (l_body o) as [al| |] eqn:Ebo; try discriminate.
  cbn [update_body] in Of. cbn [body_adl] in O2. destruct (adl_eqb al (own_adl (e_adl e))) eqn:Eq; cbn [fst snd] in Of.
  - eapply G; [exact Of|reflexivity|]. apply (@adl_eqb_names _ _ O2 (own_adl_nodup _) Eq).
  - eapply G; [exact Of|reflexivity|]. destruct (adl_of_list_spec (own_adl (e_adl e))) as (_ & _ & H). now rewrite H.
Qed.

Lemma none_active l n : num_active l = O -> ~ actives l n.
Proof.
  unfold num_active. intros E (a & Ha & S & _). assert (H : In a (filter (fun a => eqb (a_status a) SActive) l)) by (apply filter_In; split; [exact Ha|rewrite S; reflexivity]).
  destruct (filter _ _); [destruct H|discriminate].
Qed.

Lemma step_exact c f now e0 evs x : c_hyp c <> HOn -> no_forged_own c (evs ++ [x]) ->
  let s := fst (exec c f now e0 evs) in let s' := fst (step c s x) in
  (s_sched s = false -> exactly c s (e_adl (fst x))) -> s_sched s' = false -> exactly c s' (e_adl (fst x)).
Proof.
  intros Hy Nf s s' P Hs.
  assert (Nf1 : no_forged_own c evs) by (intros e fid l H; apply (Nf e fid l), in_or_app; now left).
  pose proof (invS_exec c f now e0 evs) as I. fold s in I. pose proof (own_ok_exec f now e0 Nf1) as O. fold s in O.
  destruct (@step_sched c s x I Hy Hs) as [E|[[E Nb]|(tid & due & Ev & D & Et & Hd & Hb)]].
  - unfold s'. rewrite E. apply P. unfold s' in Hs. now rewrite E in Hs.
  - specialize (P E). pose proof (step_eff c x I) as Ef. fold s' in Ef. destruct Ef.
    + now apply exactly_same with s.
    + apply exactly_same with s; [|exact P]. rewrite (H9 (c_self c, TAdj)). rewrite eqb_off; [reflexivity|].
      intros K. apply (Nf (fst x) fid l); [apply in_or_app; right; left; destruct x; cbn in *; now subst|]. unfold l_key in K. congruence.
    + destruct (eq_dec t TAdj) as [Ht|Ht].
      * pose proof (H2 Ht) as Eb. clear H0 H1 H2 H3. subst t b. apply offered_exact with (s := s) (q := (q0 + 1)%N); [exact O|exact I| |exact H5].
        intros o Fo. apply N.ltb_lt. destruct H as [[_ Ob]|(u & q & face & X1 & X2 & X3 & X4 & X5 & _)].
        -- unfold own_build in Ob. destruct (snd x) eqn:Ex; try contradiction; [|destruct Ob as [Ob|[Ob _]]; congruence].
           destruct Ob as [_ (due & Eg)]. exfalso. now apply (Nb tid due).
        -- unfold is_new in X5. rewrite Fo in X5. apply N.ltb_lt in X5. lia.
      * apply exactly_same with s; [|exact P]. rewrite (H5 (c_self c, TAdj)). rewrite eqb_off; [reflexivity|]. unfold l_key. cbn [own l_origin]. unfold l_type. cbn [own l_body].
        intros K. injection K as K. congruence.
    + intros n. rewrite <- (P n). unfold listed. rewrite (H2 (c_self c, TAdj)). destruct (eq_dec (c_self c, TAdj) (l_key l)) as [K|K].
      * rewrite K, eqb_refl, H0. split; intros (l0 & al & F & B & J); injection F as <-; [exists l, al|exists (refreshed c (e_sys (fst x)) l), al]; auto.
      * rewrite eqb_off by exact K. tauto.
    + apply exactly_same with s; [|exact P]. rewrite (H2 (c_self c, TAdj)). rewrite eqb_off; [reflexivity|]. intros K. unfold l_key in K. congruence.
    + intros n. split; [|intros A; now apply none_active in A]. intros (l0 & al & F & _). rewrite (H2 (c_self c, TAdj)), eqb_refl in F. discriminate.
  - destruct x as [e v]. cbn [fst snd] in *. subst v.
    destruct (@C14_completed c f now e0 evs e tid due Nf1 D Et Hd Hb) as (_ & A & B). fold s in A, B. fold s' in A, B.
    assert (I' : invS None s') by (apply invS_step; exact I).
    intros n. destruct (existsb (fun a => eqb (a_status a) SActive) (e_adl e)) eqn:Ex.
    + apply existsb_exists in Ex as (a & Ha & Sa). apply eqb_eq in Sa. destruct A as (l & al & H1 & H2 & H3 & H4 & _); [now exists a|].
      apply (holds_find l I') in H1. unfold l_key, l_type in H1. rewrite H2, H3 in H1. cbn [body_type] in H1. unfold actives. rewrite <- (H4 n). split.
      * intros (l0 & al0 & F & Bo & H). rewrite H1 in F. injection F as <-. rewrite H3 in Bo. injection Bo as <-. exact H.
      * intros H. exists l, al. auto.
    + assert (No : forall a, In a (e_adl e) -> a_status a <> SActive).
      { intros a Ha Sa. assert (X : existsb (fun a => eqb (a_status a) SActive) (e_adl e) = true) by (apply existsb_exists; exists a; rewrite Sa; auto). congruence. }
      split.
      * intros (l & al & F & _). exfalso. pose proof (find_key I' F) as K. apply (B No l); [apply (holds_find l I'); now rewrite K|]. injection K as K1 K2. auto.
      * intros (a & Ha & Sa & _). now destruct (No a Ha).
Qed.

Lemma exec_snoc_fst c f now e0 evs y : fst (exec c f now e0 (evs ++ [y])) = fst (step c (fst (exec c f now e0 evs)) y).
Proof.
  rewrite !exec_fst, run_snoc. destruct (run _ _ evs) as [s1 o1]. cbn [fst]. now destruct (step c s1 y).
Qed.
Lemma run_exact c f now e0 evs ys a : c_hyp c <> HOn -> no_forged_own c (evs ++ ys) -> (forall e v, In (e, v) ys -> e_adl e = a) ->
  let s := fst (exec c f now e0 evs) in let s' := fst (exec c f now e0 (evs ++ ys)) in
  (s_sched s = false -> exactly c s a) -> s_sched s' = false -> exactly c s' a.
Proof.
  intros Hy. revert evs. induction ys as [|y ys IH]; intros evs Nf Ha s s' P; [unfold s'; rewrite app_nil_r; exact P|].
  unfold s'. change (evs ++ y :: ys) with (evs ++ [y] ++ ys). rewrite app_assoc. apply IH.
  - now rewrite <- app_assoc.
  - intros e v H. apply (Ha e v). now right.
  - assert (Ey : e_adl (fst y) = a) by (destruct y as [e v]; apply (Ha e v); now left).
    rewrite <- Ey in *. intros Hs. rewrite exec_snoc_fst in *. apply step_exact; auto.
    intros e fid l H. apply (Nf e fid l). apply in_app_or in H as [H|[H|[]]]; apply in_or_app; [now left|right; now left].
Qed.
