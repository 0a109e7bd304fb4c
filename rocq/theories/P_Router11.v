(** C97: the own Adjacency LSA and the neighbours that are up, in runs of the whole router. *)
From Coq Require Import Sorting.Permutation.
From Verif Require Import Base M_Nexthop M_Tlv M_Adj M_Lsa M_Lsdb S_Lsdb L_Lsdb L_Lsdb2 L_Lsdb3 L_Lsdb4 L_Lsdb6 L_Lsdb9 M_LinkState M_Hyperbolic M_RoutingTable
  S_Graph S_LinkState L_LsTable L_Forward P_LinkState M_Npt S_Npt L_Npt4 M_Fib S_Fib S_Pipe M_Prefix M_Hello S_Hello L_Hello M_Router S_Router L_Router L_Router2 L_Router3 L_Router4 L_Router5 L_Router6 L_Router7
  L_Router8 P_Hello X_Lsdb X_Router P_Router P_Router2 P_Router3 P_Router6 P_Router8 L_Own.
Open Scope Z_scope.
Set Implicit Arguments.

Section P.
Variables (c : gconf) (uri_of : name -> string) (ang : list Z -> list Z -> Z) (dst : Z -> Z -> Z -> Z).
Notation self := (c_self (gc c)).
Notation hy := (c_hyp (gc c)).
Notation gstate := (S_Router.gstate c uri_of ang dst).
Notation gstep := (M_Router.gstep c uri_of ang dst).
Notation up := (P_Router.up c uri_of ang dst).
Notation db := (P_Router.db c uri_of ang dst).

(** ** Outside the hello protocol the database sees the adjacency list as it is *)

Definition ownP (A : adl) (x : glog) : Prop :=
  match x with
  | CHello _ => False
  | CPre (PvDb _ a _) | CPre (PvCmd _ a _ _) => a = A
  | _ => True
  end.
Lemma fib_ownP A x : fibP x -> ownP A x. Proof. destruct x; cbn; auto; contradiction. Qed.
Lemma rt_ownP A i e : all (ownP A) (call_rt c ang dst i e).
Proof.
  apply all_live. intros g _. destruct rt_step as [[r o]| |]; [|intros y [<-|[]]; exact I|intros y [<-|[]]; exact I].
  apply seq_all; [apply in_cons_map; cbn; auto|]. apply all_each. intros []. eapply weaken; [apply fib_ownP|apply npt_fibP].
Qed.
Lemma pre_ownP A i x : ownP A (CPre x) -> all (ownP A) (call_pre c uri_of ang dst i x).
Proof.
  intros Hx. apply all_live. intros g _. destruct pstep as [p o]. apply seq_all; [apply in_cons_map; [exact Hx|cbn; auto]|].
  apply all_each. intros [[]|]; cbn [pre_out]; try apply all_ret; try apply all_dead.
  - apply all_live. intros g1 _. apply seq_all; [apply rt_ownP|]. eapply weaken; [apply fib_ownP|apply npt_fibP].
  - apply all_live. intros g1 _. destruct existsb; [intros y []|]. eapply weaken; [apply fib_ownP|]. apply all_each. intros. apply fib_fibP.
Qed.
Lemma step_own g x : (forall y, In y (snd (gstep g x)) -> ownP (h_adl (g_h g)) y) \/ (forall y, In y (snd (gstep g x)) -> buildP y).
Proof.
  unfold M_Router.gstep, live. destruct (g_dead g); [left; intros y []|]. destruct x as [i v]. cbn [fst snd]. destruct v as [d|x|m w|x|x|k]; cbn [gstep_live].
  - left. apply seq_all; [apply pre_ownP; reflexivity|]. intros g1. eapply weaken; [apply fib_ownP|apply fib_fibP].
  - left. destruct x; try (intros y []); apply pre_ownP; reflexivity.
  - left. apply pre_ownP. reflexivity.
  - right. destruct x; try (intros y []); apply hello_buildP.
  - right. destruct x; try (intros y []); try (eapply weaken; [apply fib_build|apply fib_fibP]).
    destruct get; [|intros y []]. apply seq_all; [eapply weaken; [apply fib_build|apply fib_fibP]|]. apply all_seq; apply hello_buildP.
  - left. destruct nth_error; [|intros y []]. destruct (_ <=? _); [apply rt_ownP|intros y []].
Qed.

Lemma active_actives s n : active s n <-> actives (h_adl s) n.
Proof. split; [intros (a & [H1 H2] & H3); exists a; auto|intros (a & H1 & H2 & H3); exists a; repeat split; auto]. Qed.

(** Nobody else publishes LSAs under the name of this router. *)
Definition genuine (r : grun) : Prop := forall l, fetched r l -> l_origin l <> self.

Lemma own_run r : hy <> HOn -> up r -> genuine r ->
  exists ys, no_forged_own (gc c) ys /\
    fst (exec (gc c) (u_seqs r) (u_now r) (Env (u_sys r) (pl_info (u_list r)) (conf_adl (u_nbs r))) ys) = db r /\
    (s_sched (db r) = false -> exactly (gc c) (db r) (h_adl (g_h (gstate r)))).
Proof.
  intros Hy. destruct r as [q now sys nbs pl file evs]. induction evs as [|x evs IH] using rev_ind.
  - intros U _. set (r := GRun q now sys nbs pl file []) in *. exists []. split; [intros ? ? ? []|]. unfold P_Router.db.
    destruct (gexec_shape c uri_of ang dst r) as [E _]. change (u_evs r) with (@nil (inp * gev)) in E. cbn [run fst] in E. rewrite E.
    unfold g_db. destruct (g1_same c r) as (E1 & E2 & _). rewrite E1, E2. cbn [g0 g_pre g_h p_db]. split; [rewrite exec_fst; reflexivity|].
    intros _ n. split.
    + intros (l & al & F & _). rewrite init_adj in F. discriminate F.
    + intros (a & Ha & Sa & _). apply conf_inactive in Ha. congruence.
  - set (r := GRun q now sys nbs pl file evs) in *. change (GRun q now sys nbs pl file (evs ++ [x])) with (extend r [x]).
    intros U G. pose proof (extend_alive c uri_of ang dst r [x] U) as U0.
    assert (G0 : genuine r).
    { intros l (i & fid & H). apply G. exists i, fid. change (u_evs (extend r [x])) with (u_evs r ++ [x]). apply in_or_app. now left. }
    destruct (IH U0 G0) as (ys & Nf & Ex & P). clear IH.
    change (u_seqs (extend r [x])) with (u_seqs r). change (u_now (extend r [x])) with (u_now r). change (u_sys (extend r [x])) with (u_sys r).
    change (u_list (extend r [x])) with (u_list r). change (u_nbs (extend r [x])) with (u_nbs r).
    assert (Ns : s_sched (db (extend r [x])) = false -> forall n, actives (h_adl (g_h (gstate r))) n <-> actives (h_adl (g_h (gstate (extend r [x])))) n).
    { intros Hs n. rewrite <- !active_actives.
      assert (N : ~ status_changed (g_h (gstate r)) (g_h (gstate (extend r [x])))).
      { intros X. destruct (C70_status c uri_of ang dst r x U X) as [X' _]. rewrite (X' Hy) in Hs. discriminate Hs. }
      destruct (active_dec (g_h (gstate r)) n) as [A|A], (active_dec (g_h (gstate (extend r [x]))) n) as [B|B]; try tauto; exfalso; apply N; exists n; auto. }
    pose proof (db_up c uri_of ang dst _ U) as Ud. set (e0 := Env _ _ _) in *.
    unfold P_Router.up, P_Router.db in *. destruct (extend_one c uri_of ang dst r x) as [E _]. rewrite E in *. clear E.
    pose proof (good_step c uri_of ang dst x (gstate r)) as T.
    pose proof (step_own (gstate r) x) as K. pose proof (fun s a fid l => @step_fetch c uri_of ang dst (gstate r) x s a fid l) as Sf.
    destruct (gstep (gstate r) x) as [g' u]. cbn [fst snd] in *.
    destruct (prun_steps (gc c) uri_of (pres u) (g_pre (gstate r))) as (y1 & R & Fy & Ay).
    rewrite (t_pre T) in R. cbn [fst snd] in R. change (p_db (g_pre (gstate r))) with (g_db (gstate r)) in R.
    assert (Pr : forall e, In e (pres u) -> In (CPre e) u).
    { intros e He. unfold pres in He. apply in_flat_map in He as (z & Hz & He). destruct z; try (destruct He; fail). destruct He as [->|[]]. exact Hz. }
    assert (Ex' : fst (exec (gc c) (u_seqs r) (u_now r) e0 (ys ++ y1)) = g_db g').
    { rewrite exec_fst, run_app. rewrite exec_fst in Ex. destruct (run (step (gc c)) _ ys) as [s1 o1]. cbn [fst] in *. subst s1. rewrite R. reflexivity. }
    assert (Nf' : no_forged_own (gc c) (ys ++ y1)).
    { intros e fid l H. apply in_app_or in H as [H|H]; [now apply (Nf e fid l)|]. destruct (Fy _ _ _ H) as (s & a & Hp). apply G.
      apply Pr, Sf in Hp. exists (fst x), fid. change (u_evs (extend r [x])) with (u_evs r ++ [x]). apply in_or_app. right. left. destruct x as [i v]. cbn in *. now subst. }
    exists (ys ++ y1). split; [exact Nf'|]. split; [exact Ex'|]. intros Hs.
    assert (Gl : exactly (gc c) (g_db g') (h_adl (g_h (gstate r)))); [|intros n; now rewrite <- (Ns Hs n)].
    destruct K as [K|K].
    + rewrite <- Ex'. apply run_exact; auto.
      * intros e v H. destruct (Ay _ _ H) as (z & Hz & ->). apply Pr, K in Hz. destruct z; exact Hz.
      * rewrite Ex. exact P.
      * now rewrite Ex'.
    + assert (Z : pres u = []).
      { destruct (pres u) as [|e es] eqn:Ep; [reflexivity|exfalso].
        assert (X : s_sched (p_db (fst (run (pstep uri_of (gc c)) (g_pre (gstate r)) (e :: es)))) = true).
        { apply builds_run; auto.
          - intros e' He. apply Pr, K in He. exact He.
          - rewrite <- Ep, (t_pre T). exact Ud.
          - left. discriminate. }
        rewrite <- Ep, (t_pre T) in X. cbn [fst] in X. unfold g_db in Hs. congruence. }
      pose proof (t_pre T) as Tp. rewrite Z in Tp. cbn [run] in Tp. injection Tp as Tp _. unfold g_db in *. rewrite <- Tp in *. now apply P.
Qed.

(** C97.  With link-state or dry-run routing, whenever no build of the own Adjacency LSA is scheduled, that
    LSA lists exactly the neighbours that are up. *)
Theorem C97_own r n : hy <> HOn -> up r -> genuine r -> s_sched (db r) = false ->
  (active (g_h (gstate r)) n <->
   exists l al, holds (db r) l /\ l_origin l = self /\ l_body l = BAdj al /\ In n (map a_name al)).
Proof.
  intros Hy U G S. destruct (own_run Hy U G) as (ys & Nf & Ex & P). specialize (P S n). rewrite active_actives, <- P.
  pose proof (j_db (J_exec c uri_of ang dst r U)) as I. unfold P_Router.db in *. unfold listed. split.
  - intros (l & al & F & B & H). pose proof (find_key I F) as K. exists l, al. split; [|injection K as K1 _; auto].
    apply (holds_find l I). now rewrite K.
  - intros (l & al & F & O & B & H). exists l, al. split; [|auto]. apply (holds_find l I) in F. unfold l_key, l_type in F. now rewrite O, B in F.
Qed.

(** So, with no build scheduled, the faces that the FIB holds for a prefix of other routers are faces of
    neighbours that are up: nothing is forwarded towards a neighbour that is down. *)
Theorem C97_faces r p f : hy <> HOn -> up r -> genuine r -> s_sched (db r) = false ->
  scheduled c uri_of ang dst r = [] -> S_Router.calm self (gtrace c uri_of ang dst r) = true ->
  sane_names r -> sane_links (db r) -> ordinary c uri_of ang dst r p -> In f (faces_for c uri_of ang dst r p) ->
  exists n a, In a (h_adl (g_h (gstate r))) /\ a_name a = n /\ a_status a = SActive /\ f = face c uri_of ang dst r n.
Proof.
  intros Hy U G Sc Sd Ca S1 S2 Or Hf.
  destruct (rt_own (g_rt (gstate r))) eqn:Eo.
  2: { exfalso. assert (Ow : ~ own_adj c uri_of ang dst r) by (rewrite (own_adj_present c uri_of ang dst r U), Eo; discriminate).
    destruct (C30_table_partial c uri_of ang dst r Hy U Sd Ca) as [_ X]. specialize (X Ow).
    destruct (many_hops U S1 Hy Or) as (hops & ch & H1 & _ & _ & _ & (_ & rest & C2 & _) & Pm). rewrite X in H1.
    apply (Permutation_in _ Pm), in_map_iff in Hf as (h & _ & Hh).
    assert (Hin : In h hops) by (apply (Permutation_in _ (Permutation_sym C2)), in_or_app; now left).
    destruct (proj1 (H1 (nh_uri h) (nh_cost h))) as ((d & h' & _ & Hn & _) & _); [exists h; auto|]. destruct Hn. }
  assert (St : settled c uri_of ang dst r) by (repeat split; auto; now apply (own_adj_present c uri_of ang dst r U)).
  assert (L : forall nb k, usable (topology c uri_of ang dst r) self nb k -> active (g_h (gstate r)) nb).
  { intros nb k (a & b & (l & Hl & Ho & Hi) & _). apply (C97_own nb Hy U G Sc).
    unfold topology, adj_view in Hl. apply in_flat_map in Hl as (l0 & H0 & Hl). apply In_adj_lsas in H0 as [H0 _].
    destruct (l_body l0) as [al| |] eqn:B; try (destruct Hl; fail). destruct Hl as [<-|[]]. cbn [al_origin al_links] in *.
    exists l0, al. split; [exact H0|]. split; [exact Ho|]. split; [exact B|].
    apply in_map_iff in Hi as (z & Ez & Hz). injection Ez as Ez _. apply in_map_iff. now exists z. }
  assert (X : exists nb k, usable (topology c uri_of ang dst r) self nb k /\ f = face c uri_of ang dst r nb).
  { destruct (N.eq_dec (gc_max c) 1) as [M|M].
    - destruct (nearest_dec M U St S1 S2 Or) as [(cost & nb & k & d & _ & _ & _ & _ & Us & _ & E)|[_ E]]; rewrite E in Hf; [|destruct Hf].
      destruct Hf as [<-|[]]. exists nb, k. auto.
    - destruct (C82_nearest_multipath M U St S1 S2 Or) as (hops & ch & H & _ & (_ & rest & C2 & _) & Pm).
      apply (Permutation_in _ Pm), in_map_iff in Hf as (h & Eh & Hh).
      assert (Hin : In h hops) by (apply (Permutation_in _ (Permutation_sym C2)), in_or_app; now left).
      destruct (proj1 (H f (nh_cost h))) as (cost & _ & _ & (d & _ & nb & k & w & _ & Us & _ & _ & Ef) & _); [exists h; auto|].
      exists nb, k. auto. }
  destruct X as (nb & k & Us & ->). destruct (L _ _ Us) as (a & [H1 H2] & H3). exists nb, a. auto.
Qed.
End P.

(** ** Cases *)

(** After [nameR] both neighbours are up.  Then the face to r3 goes away and the LSA is built again. *)
Definition downR : list (inp * gev) :=
  nameR ++ map at_ [GvHello (HvDestroyed 301); GvTick (10 * SEC); GvDb (EFire 7); GvTick (15 * SEC); GvCalc 0].
Notation rD := (runR HOff downR).
Definition genuineb (self : name) (evs : list (inp * gev)) : bool :=
  forallb (fun x => match snd x with GvDb (EFetchDone _ (Some l)) => negb (eqb (l_origin l) self) | _ => true end) evs.
Lemma genuineb_ok c r : genuineb (c_self (gc c)) (u_evs r) = true -> genuine c r.
Proof.
  intros H l (i & fid & Hi) E. unfold genuineb in H. rewrite forallb_forall in H. specialize (H _ Hi). cbn [snd] in H.
  rewrite E, eqb_refl in H. discriminate H.
Qed.
Lemma ex_down : caseb (gcM 2) rD X_Lsdb.pX thirdX = true /\ genuineb selfX downR = true /\
  s_sched (db (gcM 2) uriR angR dstR rD) = false /\
  map (fun a => (a_name a, a_status a)) (h_adl (g_h (S_Router.gstate (gcM 2) uriR angR dstR rD))) = [(farX, SActive); (thirdX, SInactive)] /\
  map (fun l => match l_body l with BAdj al => map a_name al | _ => [] end)
    (filter (fun l => eqb (l_key l) (selfX, TAdj)) (contents (db (gcM 2) uriR angR dstR rD))) = [[farX]] /\
  faces_for (gcM 2) uriR angR dstR rD X_Lsdb.pX = [uri2].
Proof. repeat split; vm_compute; reflexivity. Qed.

(** The hypotheses hold with one neighbour up and one down; the LSA lists r2 only, and the prefix of r3,
    which had both faces ([C82_multipath_example]), is reached through r2 alone. *)
Example C97_own_example : c_hyp (gc (gcM 2)) <> HOn /\ up (gcM 2) uriR angR dstR rD /\ genuine (gcM 2) rD /\
  s_sched (db (gcM 2) uriR angR dstR rD) = false /\
  map (fun a => (a_name a, a_status a)) (h_adl (g_h (S_Router.gstate (gcM 2) uriR angR dstR rD))) = [(farX, SActive); (thirdX, SInactive)] /\
  map (fun l => match l_body l with BAdj al => map a_name al | _ => [] end)
    (filter (fun l => eqb (l_key l) (selfX, TAdj)) (contents (db (gcM 2) uriR angR dstR rD))) = [[farX]].
Proof.
  destruct ex_down as (E1 & E2 & E3 & E4 & E5 & _). destruct (caseb_ok _ _ _ _ E1) as (A1 & _).
  split; [discriminate|]. split; [exact A1|]. split; [exact (@genuineb_ok (gcM 2) rD E2)|]. auto.
Qed.
Example C97_faces_example : c_hyp (gc (gcM 2)) <> HOn /\ up (gcM 2) uriR angR dstR rD /\ genuine (gcM 2) rD /\
  s_sched (db (gcM 2) uriR angR dstR rD) = false /\ scheduled (gcM 2) uriR angR dstR rD = [] /\
  S_Router.calm selfX (gtrace (gcM 2) uriR angR dstR rD) = true /\ sane_names rD /\ sane_links (db (gcM 2) uriR angR dstR rD) /\
  ordinary (gcM 2) uriR angR dstR rD X_Lsdb.pX /\
  faces_for (gcM 2) uriR angR dstR rD X_Lsdb.pX = [uri2].
Proof.
  destruct ex_down as (E1 & E2 & E3 & _ & _ & E6). destruct (caseb_ok _ _ _ _ E1) as (A1 & A2 & A3 & A4 & A5 & A6).
  destruct A2 as (B1 & _ & B3 & B4). split; [exact B1|]. split; [exact A1|]. split; [exact (@genuineb_ok (gcM 2) rD E2)|]. auto 10.
Qed.

Print Assumptions C97_own.
Print Assumptions C97_faces.
