(** C70: the modules of the router are connected, and a change of a neighbour's status is followed up. *)
From Verif Require Import Base M_Nexthop M_Tlv M_Adj M_Lsa M_Lsdb L_Lsdb S_Lsdb M_LinkState M_Hyperbolic M_RoutingTable
  M_Npt S_Npt M_Fib S_Pipe M_Prefix M_Hello S_Hello L_Hello M_Router S_Router L_Router L_Router2 L_Router3 L_Router4 L_Router5 L_Router6 L_Router7
  L_Lsdb10 P_Hello X_Lsdb X_Router P_Router.
Open Scope Z_scope.

Section P.
Variables (c : gconf) (uri_of : name -> string) (ang : list Z -> list Z -> Z) (dst : Z -> Z -> Z -> Z).
Notation self := (c_self (gc c)).
Notation hy := (c_hyp (gc c)).
Notation gstate := (gstate c uri_of ang dst).
Notation gtrace := (gtrace c uri_of ang dst).
Notation gstep := (gstep c uri_of ang dst).
Notation up := (up c uri_of ang dst).
Notation scheduled := (scheduled c uri_of ang dst).
Notation db := (db c uri_of ang dst).

(** In every step the router survives, each module receives what the others put out for it, once and in
    order: the two tables the notifications of the database, the prefix table the announced routes, the
    FIB the calls of the prefix table, and the hello protocol's requests are all carried out. *)
Theorem C70_passed r x : up (extend r [x]) ->
  let t := snd (gstep (gstate r) x) in
  in_notes (npts t) = out_notes (db_outs t) /\
  rt_notes (rtevs t) = map (fun n => fst (fst n)) (out_notes (db_outs t)) /\
  routes_in (npts t) = tables (rtouts t) /\
  fib_calls (fibs t) = nouts t /\
  granted t = asked (houts t).
Proof.
  intros U t. unfold P_Router.up in U. destruct (extend_one c uri_of ang dst r x) as [E _]. rewrite E in U.
  pose proof (@conn_live (gstep_live c uri_of ang dst (fst x) (snd x)) qnil qnil (fun g _ => @conn_step_live c uri_of ang dst (fst x) (snd x) g) (gstate r) U) as [Y1 Y2 Y3 Y4 Y5].
  change (live (gstep_live c uri_of ang dst (fst x) (snd x)) (gstate r)) with (gstep (gstate r) x) in *. fold t in Y1, Y2, Y3, Y4, Y5.
  cbn [qnil q_n q_r q_t q_o q_h app] in *. rewrite app_nil_r in Y1, Y2, Y3, Y4, Y5.
  split; [now symmetry|]. split; [exact (eq_sym Y2)|]. split; [now symmetry|]. split; now symmetry.
Qed.

(** The database is asked for nothing but builds when the hello protocol is called. *)
Definition buildP (x : glog) : Prop := match x with CPre e => exists s l, e = PvDb s l EScheduleBuild | _ => True end.
Lemma fib_build x : fibP x -> buildP x. Proof. destruct x; cbn; auto; contradiction. Qed.
Lemma rt_buildP i e : all buildP (call_rt c ang dst i e).
Proof.
  apply all_live. intros g _. destruct rt_step as [[r o]| |]; [|intros y [<-|[]]; exact I|intros y [<-|[]]; exact I].
  apply seq_all; [apply in_cons_map; cbn; auto|]. apply all_each. intros []. eapply weaken; [apply fib_build|apply npt_fibP].
Qed.
Lemma strategy_buildP o : all buildP (register_strategy c o).
Proof.
  apply all_live. intros g _. destruct existsb; [intros y []|]. eapply weaken; [apply fib_build|].
  apply all_each. intros. apply fib_fibP.
Qed.
Lemma pre_buildP i s l : all buildP (call_pre c uri_of ang dst i (PvDb s l EScheduleBuild)).
Proof.
  apply all_live. intros g _. destruct pstep as [p o]. apply seq_all; [apply in_cons_map; cbn; eauto|].
  apply all_each. intros [[]|]; cbn [pre_out]; try apply all_ret; try apply all_dead; try apply strategy_buildP.
  apply all_live. intros g1 _. apply seq_all; [apply rt_buildP|]. eapply weaken; [apply fib_build|apply npt_fibP].
Qed.
Lemma hello_buildP i x : all buildP (call_hello c uri_of ang dst i x).
Proof.
  apply all_live. intros g _. destruct hstep as [h o]. apply seq_all; [apply in_cons_map; cbn; auto|].
  apply all_seq; [eapply weaken; [apply fib_build|apply fib_fibP]|].
  apply all_each. intros []; cbn [hello_out]; try apply all_ret; try apply all_dead.
  - apply all_live. intros g1 _. apply pre_buildP.
  - apply all_live. intros g1 _. apply rt_buildP.
  - eapply weaken; [apply fib_build|apply fib_fibP].
Qed.

(** The other events do not call the hello protocol. *)
Definition noH (x : glog) : Prop := match x with CHello _ => False | _ => True end.
Lemma fib_noH x : fibP x -> noH x. Proof. destruct x; cbn; auto; contradiction. Qed.
Lemma rt_noH i e : all noH (call_rt c ang dst i e).
Proof.
  apply all_live. intros g _. destruct rt_step as [[r o]| |]; [|intros y [<-|[]]; exact I|intros y [<-|[]]; exact I].
  apply seq_all; [apply in_cons_map; cbn; auto|]. apply all_each. intros []. eapply weaken; [apply fib_noH|apply npt_fibP].
Qed.
Lemma pre_noH i x : all noH (call_pre c uri_of ang dst i x).
Proof.
  apply all_live. intros g _. destruct pstep as [p o]. apply seq_all; [apply in_cons_map; cbn; auto|].
  apply all_each. intros [[]|]; cbn [pre_out]; try apply all_ret; try apply all_dead.
  - apply all_live. intros g1 _. apply seq_all; [apply rt_noH|]. eapply weaken; [apply fib_noH|apply npt_fibP].
  - apply all_live. intros g1 _. destruct existsb; [intros y []|]. eapply weaken; [apply fib_noH|]. apply all_each. intros. apply fib_fibP.
Qed.

Lemma step_kind g x : (forall y, In y (snd (gstep g x)) -> noH y) \/ (forall y, In y (snd (gstep g x)) -> buildP y).
Proof.
  unfold M_Router.gstep, live. destruct (g_dead g); [left; intros y []|]. destruct x as [i v]. cbn [fst snd]. destruct v as [d|x|m w|x|x|k]; cbn [gstep_live].
  - left. apply seq_all; [apply pre_noH|]. intros g1. eapply weaken; [apply fib_noH|apply fib_fibP].
  - left. destruct x; try (intros y []); apply pre_noH.
  - left. apply pre_noH.
  - right. destruct x; try (intros y []); apply hello_buildP.
  - right. destruct x; try (intros y []); try (eapply weaken; [apply fib_build|apply fib_fibP]).
    destruct get; [|intros y []]. apply seq_all; [eapply weaken; [apply fib_build|apply fib_fibP]|]. apply all_seq; apply hello_buildP.
  - left. destruct nth_error; [|intros y []]. destruct (_ <=? _); [apply rt_noH|intros y []].
Qed.

(** Hello events that change whether some neighbour is ACTIVE put out a request. *)
Lemma active_dec s n : active s n \/ ~ active s n.
Proof.
  destruct (existsb (fun a => eqb (a_name a) n && eqb (a_status a) SActive) (h_adl s)) eqn:E.
  - left. apply existsb_exists in E as (a & H & K). apply andb_prop in K as [K1 K2]. apply eqb_eq in K1, K2. exists a. repeat split; auto.
  - right. intros (a & [H Hn] & Hs). assert (X : true = false); [|discriminate X]. rewrite <- E. symmetry.
    apply existsb_exists. exists a. split; [exact H|]. rewrite Hn, Hs, !eqb_refl. reflexivity.
Qed.
Lemma changed_later s s1 s2 : status_changed s s2 -> ~ status_changed s s1 -> status_changed s1 s2.
Proof.
  intros (n & H) N. exists n. destruct (active_dec s1 n) as [A|A]; destruct H as [[B B']|[B B']]; auto.
  - exfalso. apply N. exists n. auto.
  - exfalso. apply N. exists n. auto.
Qed.
Lemma run_status l evs1 evs2 :
  let s := hstate (hconf_of c) l evs1 in
  status_changed s (fst (run (hstep (hconf_of c)) s evs2)) ->
  In (recompute (hconf_of c)) (snd (run (hstep (hconf_of c)) s evs2)).
Proof.
  revert evs1. induction evs2 as [|e evs IH]; intros evs1 s; cbn [run].
  - intros (n & [[A B]|[A B]]); cbn in *; contradiction.
  - pose proof (C19_recompute (hconf_of c) l evs1 e) as R. cbv zeta in R. fold s in R.
    specialize (IH (evs1 ++ [e])). cbv zeta in IH. rewrite hstate_snoc in IH. fold s in IH.
    destruct (hstep (hconf_of c) s e) as [s1 o1]. cbn [fst snd] in *.
    destruct (run (hstep (hconf_of c)) s1 evs) as [s2 o2]. cbn [fst snd] in *. intros C. apply in_or_app.
    destruct R as [[_ F]|[N _]].
    + left. assert (H : In (recompute (hconf_of c)) (filter is_sched o1)) by (rewrite F; now left). apply filter_In in H. apply H.
    + right. apply IH. eapply changed_later; eauto.
Qed.

Lemma hello_state r : g_h (gstate r) = hstate (hconf_of c) (u_nbs r) (hellos (snd (start c (g0 c r)) ++ later c uri_of ang dst r)).
Proof.
  pose proof (t_h (tracks_exec c uri_of ang dst r)) as T. unfold hstate, hexec. cbn [g0 g_h] in T.
  destruct (hinit (hconf_of c) (u_nbs r)) as [s o]. cbn [fst] in T. now rewrite T.
Qed.

(** A router that is up has a database that is up: its exceptions end the process. *)
Definition fatal (o : pout) : bool := match o with PDb OThrow | PDb OUb => true | _ => false end.
Definition fine (x : glog) : Prop := match x with XPre o => fatal o = false | _ => True end.
Lemma fib_fine x : fibP x -> fine x. Proof. destruct x; cbn; auto; contradiction. Qed.
Definition lethal (f : gact) : Prop := forall g, g_dead (fst (f g)) = false -> forall x, In x (snd (f g)) -> fine x.
Lemma all_lethal f : all fine f -> lethal f.
Proof. intros A g _. apply A. Qed.
Lemma lethal_seq f h : lethal f -> lethal h -> stays h -> lethal (gseq f h).
Proof.
  intros F H S g. unfold gseq. specialize (F g). destruct (f g) as [g1 o1]. specialize (H g1). specialize (S g1). destruct (h g1) as [g2 o2].
  cbn [fst snd] in *. intros D x Hx. apply in_app_or in Hx as [Hx|Hx]; [|now apply H].
  apply F; [|exact Hx]. destruct (g_dead g1); [|reflexivity]. now rewrite S in D.
Qed.
Lemma rt_fine i e : all fine (call_rt c ang dst i e).
Proof.
  apply all_live. intros g _. destruct rt_step as [[r o]| |]; [|intros y [<-|[]]; exact I|intros y [<-|[]]; exact I].
  apply seq_all; [apply in_cons_map; cbn; auto|]. apply all_each. intros []. eapply weaken; [apply fib_fine|apply npt_fibP].
Qed.
Lemma pre_out_fine i o : all fine (pre_out c ang dst i o).
Proof.
  destruct o as [[]|]; cbn [pre_out]; try apply all_ret; try apply all_dead.
  - apply all_live. intros g1 _. apply seq_all; [apply rt_fine|]. eapply weaken; [apply fib_fine|apply npt_fibP].
  - apply all_live. intros g1 _. destruct existsb; [intros y []|]. eapply weaken; [apply fib_fine|]. apply all_each. intros. apply fib_fibP.
Qed.
Lemma pre_each_dead i os o g : In o os -> fatal o = true -> g_dead (fst (geach (pre_out c ang dst i) os g)) = true.
Proof.
  intros H F. revert g. induction os as [|y os IH]; intros g; [destruct H|]. cbn [geach]. unfold gseq.
  assert (St : forall g, g_dead g = true -> g_dead (fst (geach (pre_out c ang dst i) os g)) = true).
  { intros g1. apply (t_dead (good_each (pre_out c ang dst i) os (good_pre_out c uri_of ang dst i) g1)). }
  destruct H as [->|H].
  - assert (D : g_dead (fst (pre_out c ang dst i o g)) = true) by (destruct o as [[]|]; try discriminate F; reflexivity).
    destruct (pre_out c ang dst i o g) as [g1 o1]. specialize (St g1 D). destruct (geach _ os g1). exact St.
  - destruct (pre_out c ang dst i y g) as [g1 o1]. specialize (IH H g1). destruct (geach _ os g1). exact IH.
Qed.
Lemma pre_lethal i x : lethal (call_pre c uri_of ang dst i x).
Proof.
  intros g. unfold call_pre, live. destruct (g_dead g); [intros _ y []|]. destruct pstep as [p o].
  unfold gseq. pose proof (fun y H F => pre_each_dead i o y (gw_pre p g) H F) as D.
  pose proof (all_each (P := fine) (pre_out c ang dst i) o (pre_out_fine i) (gw_pre p g)) as A.
  destruct (geach (pre_out c ang dst i) o (gw_pre p g)) as [g1 o1]. cbn [fst snd] in *. intros U y Hy.
  apply in_app_or in Hy as [[<-|Hy]|Hy]; [exact I| |now apply A].
  apply in_map_iff in Hy as (q & <- & Hq). cbn. destruct (fatal q) eqn:F; [|reflexivity]. now rewrite (D q Hq F) in U.
Qed.
Lemma lethal_live f : (forall g, g_dead (fst (f g)) = false -> forall x, In x (snd (f g)) -> fine x) -> lethal (live f).
Proof. intros F g. unfold live. destruct (g_dead g); [intros _ y []|apply F]. Qed.
Lemma lethal_each A (f : A -> gact) l : (forall x, lethal (f x)) -> (forall x, stays (f x)) -> lethal (geach f l).
Proof.
  intros F S. induction l as [|x l IH]; [intros g _ y []|]. cbn [geach]. apply lethal_seq; [apply F|exact IH|].
  clear - S. induction l as [|x l IH]; [intros g H; exact H|]. intros g H. cbn [geach]. unfold gseq.
  specialize (S x g H). destruct (f x g) as [g1 o1]. specialize (IH g1 S). destruct (geach f l g1). exact IH.
Qed.
Lemma hello_lethal i x : lethal (call_hello c uri_of ang dst i x).
Proof.
  apply lethal_live. intros g. destruct hstep as [h o]. revert g.
  assert (G : forall o, stays (hello_out c uri_of ang dst i o)).
  { intros o'. apply (@good_stays c uri_of ang dst), good_hello_out. }
  apply lethal_seq.
  - intros g _ y. cbn [snd]. intros [<-|Hy]; [exact I|]. apply in_map_iff in Hy as (q & <- & _). exact I.
  - apply lethal_seq.
    + apply all_lethal. eapply weaken; [apply fib_fine|apply fib_fibP].
    + apply lethal_each; [|exact G]. intros []; cbn [hello_out]; try (apply all_lethal; first [apply all_ret|apply all_dead]).
      * apply lethal_live. intros g. apply pre_lethal.
      * apply lethal_live. intros g _. apply rt_fine.
      * apply all_lethal. eapply weaken; [apply fib_fine|apply fib_fibP].
    + apply (@good_stays c uri_of ang dst). apply good_each. intros. apply good_hello_out.
  - apply (@good_stays c uri_of ang dst). apply good_seq; [apply good_fib|]. apply good_each. intros. apply good_hello_out.
Qed.
Lemma step_lethal x : lethal (fun g => gstep g x).
Proof.
  apply lethal_live. intros g. destruct x as [i v]. cbn [fst snd]. destruct v as [d|x|m w|x|x|k]; cbn [gstep_live].
  - apply lethal_seq; [apply pre_lethal|intros g1 _; eapply weaken; [apply fib_fine|apply fib_fibP]|].
    apply (@good_stays c uri_of ang dst), good_now_fib.
  - destruct x; try (intros _ y []; fail); apply pre_lethal.
  - apply pre_lethal.
  - destruct x; try (intros _ y []; fail); apply hello_lethal.
  - destruct x; try (intros _ y []; fail); try (intros _; eapply weaken; [apply fib_fine|apply fib_fibP]; fail).
    destruct get; [|intros _ y []]. apply lethal_seq; [apply all_lethal; eapply weaken; [apply fib_fine|apply fib_fibP]| |].
    + apply lethal_seq; [apply hello_lethal|apply hello_lethal|]. apply (@good_stays c uri_of ang dst), good_hello.
    + apply (@good_stays c uri_of ang dst). apply good_seq; apply good_hello.
  - destruct nth_error; [|intros _ y []]. destruct (_ <=? _); [intros _; apply rt_fine|intros _ y []].
Qed.
Lemma pre_run_told es s : s_dead (p_db (fst (run (pstep uri_of (gc c)) s es))) = true ->
  s_dead (p_db s) = true \/ exists o, In o (snd (run (pstep uri_of (gc c)) s es)) /\ fatal o = true.
Proof.
  revert s. induction es as [|e es IH]; intros s; [now left|]. cbn [run].
  destruct (@pstep_steps (gc c) uri_of s e) as (ys & R & _). pose proof (@told_run (gc c) ys (p_db s)) as T. rewrite R in T. unfold told in T. cbn [fst snd] in T.
  destruct (pstep uri_of (gc c) s e) as [s1 o1]. specialize (IH s1). destruct (run _ s1 es) as [s2 o2]. cbn [fst snd] in *. intros D.
  assert (M : forall o, In o (dbo o1) -> In (PDb o) o1).
  { intros o H. unfold dbo in H. apply in_flat_map in H as (q & Hq & H). destruct q; [|destruct H]. destruct H as [<-|[]]. exact Hq. }
  destruct (IH D) as [D1|(o & Ho & F)].
  - destruct (T D1) as [A|[A|A]]; [now left|right..]; (eexists; split; [apply in_or_app; left; apply M, A|reflexivity]).
  - right. exists o. split; [apply in_or_app; now right|exact F].
Qed.
Lemma db_up r : up r -> s_dead (db r) = false.
Proof.
  unfold P_Router.up, P_Router.db. destruct (gexec_shape c uri_of ang dst r) as [-> _].
  assert (X : forall evs g, s_dead (g_db g) = false -> g_dead (fst (run gstep g evs)) = false -> s_dead (g_db (fst (run gstep g evs))) = false).
  { induction evs as [|x evs IH]; intros g D; [auto|]. cbn [run].
    pose proof (step_lethal x g) as L. pose proof (t_pre (good_step c uri_of ang dst x g)) as T.
    pose proof (pre_run_told (pres (snd (gstep g x))) (g_pre g)) as P. rewrite T in P. cbn [fst snd] in P.
    destruct (gstep g x) as [g1 o1]. specialize (IH g1). pose proof (t_dead (good_run c uri_of ang dst evs g1)) as Td.
    destruct (run gstep g1 evs) as [g2 o2]. cbn [fst snd] in *. intros U.
    assert (U1 : g_dead g1 = false) by (destruct (g_dead g1); [now rewrite Td in U|reflexivity]).
    apply IH; [|exact U]. destruct (s_dead (g_db g1)) eqn:D1; [exfalso|reflexivity].
    destruct (P D1) as [A|(o & Ho & F)]; [unfold g_db in D; congruence|].
    unfold pouts in Ho. apply in_flat_map in Ho as (y & Hy & Ho). destruct y; try (destruct Ho; fail). destruct Ho as [->|[]].
    specialize (L U1 _ Hy). cbn in L. congruence. }
  intros U. apply X; [|exact U]. unfold g_db. destruct (g1_same c r) as (-> & _). cbn [g0 g_pre p_db]. apply init_alive.
Qed.

(** Scheduling builds leaves a build scheduled. *)
Lemma builds_run es s : hy <> HOn -> (forall e, In e es -> exists z l, e = PvDb z l EScheduleBuild) ->
  s_dead (p_db (fst (run (pstep uri_of (gc c)) s es))) = false ->
  (es <> [] \/ s_sched (p_db s) = true) -> s_sched (p_db (fst (run (pstep uri_of (gc c)) s es))) = true.
Proof.
  intros Hy. revert s. induction es as [|e es IH]; intros s P D H; [destruct H as [H|H]; [contradiction|exact H]|].
  destruct (P e (or_introl eq_refl)) as (z & l & ->). cbn [run] in *.
  unfold pstep at 1 in D. unfold pstep at 1. destruct (s_dead (p_db s)) eqn:Ds.
  { exfalso. assert (X : forall es s, s_dead (p_db s) = true -> fst (run (pstep uri_of (gc c)) s es) = s).
    { clear. induction es as [|e es IH]; intros s D; [reflexivity|]. cbn [run]. unfold pstep at 1. rewrite D.
      specialize (IH s D). destruct (run _ s es). cbn [fst] in *. exact IH. }
    specialize (X es s Ds). destruct (run _ s es) as [s2 o2]. cbn [fst] in *. subst s2. rewrite Ds in D. discriminate D. }
  cbn [pstep_live] in *. unfold step in *. rewrite Ds in *. cbn [step_live] in *. unfold schedule_adj_build in *.
  assert (E : eqb hy HOn = false) by (now apply eqb_neq). rewrite E in *.
  match goal with |- context[run _ ?s1 es] => specialize (IH s1); destruct (run _ s1 es) as [s2 o2] end.
  cbn [fst] in *. apply IH; [intros e He; apply P; now right|exact D|right; reflexivity].
Qed.

Lemma asked_sched o : (In HBuild o -> In QBuild (asked o)) /\ (In HRecalc o -> In QRecalc (asked o)).
Proof. split; intros H; unfold asked; apply in_flat_map; eexists; (split; [exact H|now left]). Qed.

Definition grant (x : glog) : list hreq :=
  match x with
  | CPre (PvDb _ _ EScheduleBuild) => [QBuild]
  | CRt (RvSchedule _) => [QRecalc]
  | CFib (FvRegister n u k _ _) => [QReg n u k]
  | _ => [] end.
Lemma granted_build y : In QBuild (grant y) -> exists z l, y = CPre (PvDb z l EScheduleBuild).
Proof.
  destruct y as [x|x|x|x|x|o|o|o|o|o|]; cbn [grant]; try (intros []; fail).
  - destruct x as [z l v|z l m w]; [|intros []]. destruct v; try (intros []; fail). eauto.
  - destruct x; try (intros []; fail). intros [H|[]]. discriminate H.
  - destruct x; try (intros []; fail). intros [H|[]]. discriminate H.
Qed.
Lemma granted_recalc y : In QRecalc (grant y) -> exists z, y = CRt (RvSchedule z).
Proof.
  destruct y as [x|x|x|x|x|o|o|o|o|o|]; cbn [grant]; try (intros []; fail).
  - destruct x as [z l v|z l m w]; [|intros []]. destruct v; try (intros []; fail). intros [H|[]]. discriminate H.
  - destruct x; try (intros []; fail). eauto.
  - destruct x; try (intros []; fail). intros [H|[]]. discriminate H.
Qed.

(** C70: after an event that changes whether some neighbour is ACTIVE, a build of the own Adjacency LSA is
    scheduled; with hyperbolic routing, a routing table calculation is. *)
Theorem C70_status r x : up (extend r [x]) ->
  status_changed (g_h (gstate r)) (g_h (gstate (extend r [x]))) ->
  (hy <> HOn -> s_sched (db (extend r [x])) = true) /\
  (hy = HOn -> scheduled (extend r [x]) <> []).
Proof.
  intros U C. pose proof (db_up _ U) as Ud. pose proof (C70_passed r x U) as (_ & _ & _ & _ & G). cbv zeta in G.
  pose proof (extend_alive c uri_of ang dst r [x] U) as U0. pose proof (J_exec c uri_of ang dst r U0) as I.
  unfold P_Router.up, P_Router.db, P_Router.scheduled in *. destruct (extend_one c uri_of ang dst r x) as [E _]. rewrite E in *. clear E.
  pose proof (good_step c uri_of ang dst x (gstate r)) as T.
  assert (R : In (recompute (hconf_of c)) (houts (snd (gstep (gstate r) x)))).
  { pose proof (t_h T) as Th. rewrite hello_state in Th.
    pose proof (run_status (u_nbs r) (hellos (snd (start c (g0 c r)) ++ later c uri_of ang dst r)) (hellos (snd (gstep (gstate r) x)))) as Rs.
    cbv zeta in Rs. rewrite Th in Rs. cbn [fst snd] in Rs. apply Rs. rewrite <- hello_state. exact C. }
  assert (Nh : ~ forall y, In y (snd (gstep (gstate r) x)) -> noH y).
  { intros N. assert (Z : hellos (snd (gstep (gstate r) x)) = []).
    { clear - N. induction (snd (gstep (gstate r) x)) as [|y l IH]; [reflexivity|]. unfold hellos in *. cbn [flat_map].
      rewrite IH by (intros; apply N; now right). specialize (N y (or_introl eq_refl)). destruct y; cbn in *; auto; contradiction. }
    pose proof (t_h T) as Th. rewrite Z in Th. cbn [run] in Th. injection Th as _ Eo. rewrite <- Eo in R. destruct R. }
  destruct (step_kind (gstate r) x) as [K|K]; [contradiction|].
  destruct (asked_sched (houts (snd (gstep (gstate r) x)))) as [A1 A2].
  unfold recompute in R. cbn [hconf_of hc_hyp] in R. split; intros Hy.
  - assert (R' : In HBuild (houts (snd (gstep (gstate r) x)))).
    { destruct hy; first [exact R|contradiction]. }
    specialize (A1 R'). rewrite <- G in A1. unfold granted in A1. apply in_flat_map in A1 as (y & Hy1 & Hy2).
    pose proof (t_pre T) as Tp. pose proof (builds_run (pres (snd (gstep (gstate r) x))) (g_pre (gstate r)) Hy) as B.
    rewrite Tp in B. cbn [fst] in B. apply B; auto.
    + intros e He. unfold pres in He. apply in_flat_map in He as (z & Hz & He). specialize (K z Hz). destruct z; try (destruct He; fail).
      destruct He as [<-|[]]. exact K.
    + left. intros Z. destruct (granted_build _ Hy2) as (z & l & ->).
      assert (X : In (PvDb z l EScheduleBuild) (pres (snd (gstep (gstate r) x)))).
      { unfold pres. apply in_flat_map. eexists. split; [exact Hy1|now left]. }
      rewrite Z in X. destruct X.
  - assert (R' : In HRecalc (houts (snd (gstep (gstate r) x)))) by (rewrite Hy in R; exact R).
    specialize (A2 R'). rewrite <- G in A2. unfold granted in A2. apply in_flat_map in A2 as (y & Hy1 & Hy2).
    destruct (@step_cases c uri_of ang dst (gstate r) x U0) as [Cc|(k & d & Ex & Nk & Hd & Es)].
    + destruct (@step_quiet c uri_of ang dst _ _ _ _ I U Cc) as (_ & Q & _). apply Q.
      destruct (granted_recalc _ Hy2) as (z & ->). apply existsb_exists. exists (RvSchedule z). split; [|reflexivity].
      unfold rtevs. apply in_flat_map. eexists. split; [exact Hy1|now left].
    + exfalso. apply Nh. intros y' Hy'. destruct x as [i v]. cbn in Ex. subst v. rewrite Es in Hy'. exact (rt_noH _ _ _ _ Hy').
Qed.
End P.

(** The hypotheses hold in the run of [X_Router]: the reply of r2 makes it ACTIVE. *)
Definition beforeR : list (inp * gev) := firstn 3 upR.
Definition replyR : inp * gev := at_ (GvHello (HvData 0 (dataR farX))).
Example C70_example h : h = HOff \/ h = HOn ->
  up (gcX h) uriR angR dstR (extend (runR h beforeR) [replyR]) /\
  status_changed (g_h (stR h beforeR)) (g_h (gstate (gcX h) uriR angR dstR (extend (runR h beforeR) [replyR]))) /\
  (h = HOff -> In QBuild (asked (houts (snd (gstep (gcX h) uriR angR dstR (stR h beforeR) replyR))))) /\
  (h = HOn -> In QRecalc (asked (houts (snd (gstep (gcX h) uriR angR dstR (stR h beforeR) replyR))))).
Proof.
  assert (X : forall s s', existsb (fun a => eqb (a_name a) farX && eqb (a_status a) SActive) (h_adl s) = false ->
                           existsb (fun a => eqb (a_name a) farX && eqb (a_status a) SActive) (h_adl s') = true -> status_changed s s').
  { intros s s' A B. exists farX. right. split.
    - intros (a & [Ha Hn] & Hs). assert (Y : true = false); [|discriminate Y]. rewrite <- A. symmetry. apply existsb_exists. exists a.
      split; [exact Ha|]. now rewrite Hn, Hs, !eqb_refl.
    - apply existsb_exists in B as (a & Ha & K). apply andb_prop in K as [K1 K2]. apply eqb_eq in K1, K2. exists a. repeat split; auto. }
  intros [-> | ->]; (split; [vm_compute; reflexivity|]; split; [apply X; vm_compute; reflexivity|]); split; intros E; try discriminate E; vm_compute; now left.
Qed.

Print Assumptions C70_passed.
Print Assumptions C70_status.
