(** C83: forwarding strategies. *)
From Verif Require Import Base M_Nexthop M_Tlv M_Adj M_Lsa M_Lsdb S_Lsdb L_Lsdb M_LinkState M_Hyperbolic M_RoutingTable
  M_Npt S_Npt M_Fib S_Pipe M_Prefix M_Hello M_Router S_Router L_Router L_Router2 L_Router5 L_Router6 L_Router9 X_Lsdb X_Router P_Router P_Router3 P_Cert2.
Open Scope Z_scope.
Set Implicit Arguments.

(** ** Runs of the FIB *)

Definition asked_for (evs : list fev) : list (name * name) :=
  flat_map (fun e => match e with FvSetStrategy n s => [(n, s)] | _ => [] end) evs.
Definition chosen (o : list fout) : list (name * name) :=
  flat_map (fun x => match x with FStrategy _ n s => [(n, s)] | _ => [] end) o.
Definition no_fail (e : fev) : Prop := match e with FvStratFail _ => False | _ => True end.

Lemma chosen_app a b : chosen (a ++ b) = chosen a ++ chosen b. Proof. apply flat_map_app. Qed.
Lemma chosen_none o : (forall x, In x o -> match x with FStrategy _ _ _ => False | _ => True end) -> chosen o = [].
Proof.
  intros H. induction o as [|x o IH]; [reflexivity|]. cbn. fold (chosen o). rewrite IH by (intros y Y; apply H; now right).
  specialize (H x (or_introl eq_refl)). destruct x; try reflexivity. contradiction.
Qed.
Definition no_strat (s : fib) (r : fib * list fout) : Prop := f_scmds (fst r) = f_scmds s /\ chosen (snd r) = [].
Lemma no_register n u cost ttl flags times s : no_strat s (register n u cost ttl flags times s).
Proof. unfold register. destruct (_ <? _)%N; now split. Qed.
Lemma no_unregs n s l : chosen (flat_map (fun h => unregister n (nh_uri h) s) l) = [].
Proof.
  induction l as [|h l IH]; [reflexivity|]. cbn [flat_map]. rewrite chosen_app, IH, app_nil_r.
  unfold unregister. now destruct (_ <? _)%N.
Qed.
Lemma no_remove n s : no_strat s (fib_remove n s).
Proof.
  unfold fib_remove. destruct get as [e|]; [|now split]. destruct (not_neighbor n s); [|now split].
  split; [reflexivity|apply no_unregs].
Qed.
Lemma no_add c n reg flags hops set0 s : let '(_, s', o) := add_fib_hops c n reg flags hops set0 s in f_scmds s' = f_scmds s /\ chosen o = [].
Proof.
  revert set0 s. induction hops as [|h hops IH]; intros set0 s; cbn [add_fib_hops]; [now split|].
  assert (R : no_strat s (if reg then register n (nh_uri h) (adj_int h) (fib_ttl c) flags 0 s else (s, []))) by (destruct reg; [apply no_register|now split]).
  destruct (if reg then _ else _) as [s1 o1]. destruct R as [R1 R2]. cbn [fst snd] in *. specialize (IH (nhl_addu h set0) s1).
  destruct add_fib_hops as [[st s2] o2]. destruct IH as [I1 I2]. rewrite chosen_app, R2, I2. split; [congruence|reflexivity].
Qed.
Lemma no_ensure c n flags s : f_scmds (ensure_refresh c n flags s) = f_scmds s.
Proof.
  unfold ensure_refresh. destruct (get n (f_tab s)) as [e|]; [|reflexivity]. destruct (fe_refresh e); [reflexivity|].
  now destruct (not_neighbor n s).
Qed.
Lemma no_update c n hops flags s : no_strat s (fib_update c n hops flags s).
Proof.
  unfold fib_update. destruct (get n (f_tab s)) as [e|]; destruct (hops_to_add c hops) as [|h l]; try apply no_remove.
  - pose proof (no_add c n (not_neighbor n s) flags (h :: l) (fe_hops e) s) as A. destruct add_fib_hops as [[st s1] o1]. destruct A as [A1 A2].
    split; cbn [fst snd]; [rewrite no_ensure; exact A1|]. rewrite chosen_app, A2. destruct (not_neighbor n s); [apply no_unregs|reflexivity].
  - pose proof (no_add c n (not_neighbor n s) flags (h :: l) [] s) as A. destruct add_fib_hops as [[st s1] o1]. destruct A as [A1 A2].
    split; cbn [fst snd]; [rewrite no_ensure; exact A1|exact A2].
Qed.
Lemma no_refresh c n s : no_strat s (fib_refresh c n s).
Proof.
  unfold fib_refresh. destruct (get n (f_tab s)) as [e|]; [|now split]. destruct (fe_refresh e) as [[due flags]|]; [|now split].
  destruct (due <=? f_now s); [|now split].
  assert (R : forall hops s, no_strat s (refresh_hops c n flags hops s)).
  { clear. induction hops as [|h hops IH]; intros s; cbn [refresh_hops]; [now split|].
    pose proof (no_register n (nh_uri h) (adj_int h) (fib_ttl c) flags 0 s) as R. destruct register as [s1 o1]. destruct R as [R1 R2].
    specialize (IH s1). destruct (refresh_hops c n flags hops s1) as [s2 o2]. destruct IH as [I1 I2]. cbn [fst snd] in *.
    split; cbn [fst snd]; [congruence|]. now rewrite chosen_app, R2, I2. }
  specialize (R (fe_hops e) s). destruct refresh_hops as [s1 o]. destruct R as [R1 R2]. now split.
Qed.
(** What the steps that are not about strategies, and those that are, send and keep. *)
Lemma fstep_strat c s e :
  match e with
  | FvSetStrategy _ _ | FvStratOk _ | FvStratFail _ => True
  | _ => no_strat s (fstep c s e)
  end.
Proof.
  destruct e; try exact I; cbn [fstep].
  - apply no_update.
  - apply no_remove.
  - apply no_register.
  - apply no_refresh.
  - unfold on_reg_ok. destruct get; now split.
  - unfold on_reg_fail. destruct get as [r|]; [|now split]. destruct (_ <? 3)%N; [|now split].
    pose proof (no_register (rc_name r) (rc_uri r) (rc_cost r) (rc_ttl r) (rc_flags r) (rc_times r + 1) (wf_cmds (del id (f_cmds s)) (f_next s) s)) as [R1 R2].
    split; [exact R1|exact R2].
  - now split.
  - now split.
Qed.
Lemma fstep_chosen c s e : no_fail e -> chosen (snd (fstep c s e)) = asked_for [e].
Proof.
  intros N. pose proof (fstep_strat c s e) as H. destruct e; try (exact (proj2 H)); try reflexivity. contradiction.
Qed.
Lemma frun_chosen c s evs : Forall no_fail evs -> chosen (snd (run (fstep c) s evs)) = asked_for evs.
Proof.
  revert s. induction evs as [|e evs IH]; intros s N; [reflexivity|]. inversion_clear N. cbn [run].
  pose proof (fstep_chosen c s e H) as E. destruct (fstep c s e) as [s1 o1]. specialize (IH s1 H0). destruct (run (fstep c) s1 evs) as [s2 o2].
  cbn [snd] in *. rewrite chosen_app, E, IH. cbn [asked_for flat_map]. now rewrite app_nil_r.
Qed.

(** Commands that await an answer were asked for. *)
Definition pendS (evs : list fev) (s : fib) : Prop :=
  forall id k, get id (f_scmds s) = Some k -> In (sc_name k, sc_strategy k) (asked_for evs).
Lemma frun_asked c l t0 evs x : In x (chosen (snd (run (fstep c) (fib_init l t0) evs))) <-> In x (asked_for evs).
Proof.
  assert (G : pendS evs (fst (run (fstep c) (fib_init l t0) evs)) /\
              (forall x, In x (chosen (snd (run (fstep c) (fib_init l t0) evs))) <-> In x (asked_for evs))); [|apply G].
  clear x. induction evs as [|e evs IH] using rev_ind; [split; [intros id k H; discriminate H|reflexivity]|].
  rewrite run_snoc. destruct (run (fstep c) (fib_init l t0) evs) as [s o]. cbn [fst snd] in IH. destruct IH as [P Q].
  pose proof (fstep_strat c s e) as H. destruct (fstep c s e) as [s1 o1] eqn:E. cbn [fst snd]. unfold pendS. unfold asked_for at 1 2. rewrite flat_map_app.
  fold (asked_for evs). change (flat_map (fun e0 => match e0 with FvSetStrategy n s0 => [(n, s0)] | _ => [] end) [e]) with (asked_for [e]).
  assert (Plain : no_strat s (s1, o1) -> asked_for [e] = [] ->
     (forall id k, get id (f_scmds s1) = Some k -> In (sc_name k, sc_strategy k) (asked_for evs ++ asked_for [e])) /\
     (forall x, In x (chosen (o ++ o1)) <-> In x (asked_for evs ++ asked_for [e]))).
  { intros [N1 N2] A. cbn [fst snd] in *. rewrite A, app_nil_r, chosen_app, N2, app_nil_r, N1. split; [exact P|exact Q]. }
  destruct e; try (apply Plain; [exact H|reflexivity]).
  - cbn [fstep set_strategy] in E. injection E as <- <-. cbn [asked_for flat_map app chosen]. split.
    + intros id k. cbn [f_scmds wf_scmds]. rewrite get_set. destruct (eqb id (f_next s)); [intros X; injection X as <-; apply in_or_app; right; now left|].
      intros X. apply in_or_app. left. exact (P _ _ X).
    + intros x. rewrite chosen_app. cbn [chosen flat_map app]. rewrite !in_app_iff, Q. reflexivity.
  - cbn [fstep on_strat_ok] in E. injection E as <- <-. cbn [asked_for flat_map app]. rewrite !app_nil_r. split; [|exact Q].
    intros i k X. cbn [f_scmds wf_scmds] in X. rewrite get_del in X. destruct (eqb i id); [discriminate X|]. exact (P _ _ X).
  - cbn [fstep] in E. unfold on_strat_fail in E. cbn [asked_for flat_map app]. rewrite app_nil_r.
    destruct (get id (f_scmds s)) as [r|] eqn:Er; [|injection E as <- <-; rewrite app_nil_r; split; [exact P|exact Q]].
    pose proof (P _ _ Er) as Pr.
    assert (Dl : forall i k, get i (f_scmds (wf_scmds (del id (f_scmds s)) (f_next s) s)) = Some k -> In (sc_name k, sc_strategy k) (asked_for evs)).
    { intros i k X. cbn [f_scmds wf_scmds] in X. rewrite get_del in X. destruct (eqb i id); [discriminate X|]. exact (P _ _ X). }
    destruct (sc_count r <? 3)%N.
    + unfold set_strategy in E. injection E as <- <-. split.
      * intros i k X. cbn [f_scmds wf_scmds] in X. rewrite get_set in X. destruct (eqb i _); [injection X as <-; exact Pr|exact (Dl _ _ X)].
      * intros x. rewrite chosen_app, in_app_iff, Q. cbn [chosen flat_map app In]. split; [intros [X|[<-|[]]]; [exact X|exact Pr]|now left].
    + injection E as <- <-. rewrite app_nil_r. split; [exact Dl|exact Q].
Qed.

(** ** C83 *)

(** The commands that choose the strategy [s] for the prefix [n], in a trace of the router. *)
Definition sent (t : list glog) (n s : name) : Prop := exists id, In (XFib (FStrategy id n s)) t.
(** The database learnt through sync of a new LSA of router [o]. *)
Definition announced (t : list glog) (o : name) : Prop := exists u q f, In (XPre (PDb (ONewLsa u q o f))) t.
(** The site of a router: its name up to the component <0xC1>.Router. *)
Definition ROUTER_MARK : comp := Comp 8 (String (Ascii.ascii_of_N 193) ".Router")%string.
Definition site (o p : name) : Prop :=
  ~ In ROUTER_MARK p /\ (o = p \/ exists rest, o = p ++ ROUTER_MARK :: rest).
(** The prefixes of the keys of a router, of its NLSR process and of its site, and the prefix meant for those of the operator. *)
Definition key_prefixes (o p : name) : list name :=
  [o ++ [gen "KEY"%string]; o ++ [gen "nlsr"%string; gen "KEY"%string]; p ++ [gen "KEY"%string]; p ++ [gen "%C1.Operator"%string]].

Lemma site_of_spec o : site o (site_of o).
Proof.
  induction o as [|x o IH]; cbn [site_of]; [split; [intros []|now left]|].
  change C1_ROUTER with ROUTER_MARK. destruct (eqb x ROUTER_MARK) eqn:E.
  - apply (proj1 (eqb_eq _ _)) in E. subst x. split; [intros []|]. right. now exists o.
  - destruct IH as [I1 I2]. split.
    + intros [H|H]; [|contradiction]. apply eqb_neq in E. congruence.
    + destruct I2 as [<-|(rest & I2)]; [now left|]. right. exists rest. cbn [app]. congruence.
Qed.
Lemma site_unique o p : site o p -> p = site_of o.
Proof.
  intros [N H]. revert o H. induction p as [|x p IH]; intros o H.
  - destruct H as [->|(rest & ->)]; [reflexivity|]. cbn [app site_of]. change C1_ROUTER with ROUTER_MARK. now rewrite eqb_refl.
  - assert (X : eqb x ROUTER_MARK = false) by (apply eqb_neq; intros ->; apply N; now left).
    assert (Np : ~ In ROUTER_MARK p) by (intros Z; apply N; now right).
    destruct H as [->|(rest & ->)]; cbn [app site_of]; change C1_ROUTER with ROUTER_MARK; rewrite X; f_equal; apply (IH Np); [now left|]. right. now exists rest.
Qed.

Section G.
Variables (c : gconf) (uri_of : name -> string) (ang : list Z -> list Z -> Z) (dst : Z -> Z -> Z -> Z).
Notation gstate := (S_Router.gstate c uri_of ang dst).
Notation gtrace := (S_Router.gtrace c uri_of ang dst).
Notation up := (P_Router.up c uri_of ang dst).

Lemma sets_asked t : sets t = asked_for (S_Router.fibs t).
Proof.
  unfold sets, asked_for, S_Router.fibs. induction t as [|x t IH]; [reflexivity|]. cbn [flat_map]. rewrite flat_map_app, IH.
  destruct x; try reflexivity. cbn [flat_map app]. now rewrite app_nil_r.
Qed.
Lemma sent_chosen t n s : sent t n s <-> In (n, s) (chosen (S_Router.fouts t)).
Proof.
  unfold sent, chosen, S_Router.fouts. rewrite in_flat_map. split.
  - intros (id & H). exists (FStrategy id n s). split; [|now left]. apply in_flat_map. eexists. split; [exact H|now left].
  - intros (x & H & E). apply in_flat_map in H as (y & H & F). destruct y; try destruct F; [|contradiction]. subst o.
    destruct x; try destruct E; [|contradiction]. injection H0 as -> ->. now exists id.
Qed.
Lemma anns_In t o : In o (anns t) <-> announced t o.
Proof.
  unfold anns, announced. rewrite in_flat_map. split.
  - intros (x & H & E). destruct x; try destruct E. destruct o0 as [[]|]; try destruct E; [|contradiction]. subst. now exists u, q, face.
  - intros (u & q & f & H). eexists. split; [exact H|now left].
Qed.
Lemma fib_run r : chosen (S_Router.fouts (gtrace r)) =
  chosen (snd (run (fstep (fconf_of c)) (fib_init (h_adl (fst (hinit (hconf_of c) (u_nbs r)))) (u_now r)) (S_Router.fibs (gtrace r)))).
Proof.
  pose proof (t_fib (tracks_exec c uri_of ang dst r)) as T.
  assert (F : S_Router.fibs (gtrace r) = S_Router.fibs (snd (start c (g0 c r)) ++ later c uri_of ang dst r)) by (unfold S_Router.fibs; now apply proj_start).
  assert (O : S_Router.fouts (gtrace r) = S_Router.fouts (snd (start c (g0 c r)) ++ later c uri_of ang dst r)) by (unfold S_Router.fouts; now apply proj_start).
  rewrite F, O. change (g_fib (g0 c r)) with (fib_init (h_adl (fst (hinit (hconf_of c) (u_nbs r)))) (u_now r)) in T. now rewrite T.
Qed.

(** Refusals of strategy commands come from NFD only. *)
Definition failc (x : glog) : Prop := match x with CFib (FvStratFail _) => False | _ => True end.
Lemma fib_failc e : failc (CFib e) -> all failc (call_fib c e).
Proof. intros F. apply all_live. intros g _. destruct fstep. apply in_cons_map; cbn; auto. Qed.
Lemma npt_failc e : all failc (call_npt c e).
Proof.
  apply all_live. intros g _. destruct nstep as [[n o]| |]; try (intros x [<-|[]]; exact I).
  apply seq_all; [apply in_cons_map; cbn; auto|]. apply all_each. intros []; apply fib_failc; exact I.
Qed.
Lemma rt_failc i e : all failc (call_rt c ang dst i e).
Proof.
  apply all_live. intros g _. destruct rt_step as [[r o]| |]; [|intros y [<-|[]]; exact I|intros y [<-|[]]; exact I].
  apply seq_all; [apply in_cons_map; cbn; auto|]. apply all_each. intros []. apply npt_failc.
Qed.
Lemma strategy_failc o : all failc (register_strategy c o).
Proof. apply all_live. intros g _. destruct existsb; [intros y []|]. apply all_each. intros. apply fib_failc. exact I. Qed.
Lemma pre_failc i x : all failc (call_pre c uri_of ang dst i x).
Proof.
  apply all_live. intros g _. destruct pstep as [p o]. apply seq_all; [apply in_cons_map; cbn; auto|].
  apply all_each. intros [[]|]; cbn [pre_out]; try apply all_ret; try apply all_dead; try apply strategy_failc.
  apply all_live. intros g1 _. apply seq_all; [apply rt_failc|]. apply npt_failc.
Qed.
Lemma hello_failc i x : all failc (call_hello c uri_of ang dst i x).
Proof.
  apply all_live. intros g _. destruct hstep as [h o]. apply seq_all; [apply in_cons_map; cbn; auto|]. apply all_seq.
  - apply all_live. intros g1 _. destruct fstep. apply in_cons_map; cbn; auto.
  - apply all_each. intros []; cbn [hello_out]; try apply all_ret; try apply all_dead.
    + apply all_live. intros g1 _. apply pre_failc.
    + apply all_live. intros g1 _. apply rt_failc.
    + apply fib_failc. exact I.
Qed.
Lemma step_fail g x : (forall id, snd x <> GvFib (FvStratFail id)) -> forall y, In y (snd (gstep c uri_of ang dst g x)) -> failc y.
Proof.
  intros N. unfold M_Router.gstep, live. destruct (g_dead g); [intros y []|]. destruct x as [i v]. cbn [fst snd] in *. destruct v as [d|z|m w|z|z|k]; cbn [gstep_live].
  - apply all_seq; [apply pre_failc|]. intros g1. apply fib_failc. exact I.
  - destruct z; try (intros y []; fail); apply pre_failc.
  - apply pre_failc.
  - destruct z; try (intros y []; fail); now apply hello_failc.
  - destruct z; try (intros y []; fail); try (apply fib_failc; exact I); [|now destruct (N id)].
    destruct get as [rc|]; [|intros y []]. apply all_seq; [apply fib_failc; exact I|]. apply all_seq; apply hello_failc.
  - destruct nth_error as [due|]; [|intros y []]. destruct (_ <=? _); [|intros y []]. apply rt_failc.
Qed.
Lemma run_fail evs g : (forall i id, ~ In (i, GvFib (FvStratFail id)) evs) -> forall y, In y (snd (run (gstep c uri_of ang dst) g evs)) -> failc y.
Proof.
  revert g. induction evs as [|x evs IH]; intros g N; [intros y []|]. cbn [run].
  assert (F : forall y, In y (snd (gstep c uri_of ang dst g x)) -> failc y).
  { apply step_fail. intros id E. destruct x as [i v]. apply (N i id). left. now rewrite <- E. }
  destruct (gstep c uri_of ang dst g x) as [g1 o1]. specialize (IH g1 (fun i id H => N i id (or_intror H))). destruct (run _ g1 evs) as [g2 o2]. cbn [snd] in *.
  intros y H. apply in_app_or in H as [H|H]; [now apply F|now apply IH].
Qed.
Lemma trace_fail r : (forall i id, ~ In (i, GvFib (FvStratFail id)) (u_evs r)) -> Forall no_fail (S_Router.fibs (gtrace r)).
Proof.
  intros N. assert (E : S_Router.fibs (gtrace r) = S_Router.fibs (snd (start c (g0 c r)) ++ later c uri_of ang dst r)) by (unfold S_Router.fibs; now apply proj_start).
  rewrite E. apply Forall_forall. intros e H. apply in_flat_map in H as (y & H & F).
  assert (Y : failc y).
  { apply in_app_or in H as [H|H]; [|revert H; now apply run_fail].
    revert H. unfold start. apply all_each. intros. apply fib_failc. exact I. }
  destruct y; cbn in F; try contradiction. destruct F as [<-|[]]. exact Y.
Qed.

(** ** The theorems *)

(** C83: the router asks NFD for the multicast strategy on the LSA prefix and on the sync prefix, and for
    the best-route strategy on the key prefixes of every router that sync announced, of its NLSR process and
    of its site, and on the prefix that is meant for its operator.  It chooses nothing else. *)
Theorem C83_sent r n s : up r ->
  (sent (gtrace r) n s <->
   s = MULTICAST /\ (n = c_lsaprefix (gc c) \/ n = gc_sync c) \/
   s = BEST_ROUTE /\ exists o p, announced (gtrace r) o /\ site o p /\ In n (key_prefixes o p)).
Proof.
  intros U. rewrite sent_chosen, fib_run, frun_asked, <- sets_asked, run_strat by exact U. rewrite in_app_iff, process_In. split.
  - intros [[E|[E|[]]]|(o & A & _ & F)].
    + injection E as <- <-. left. auto.
    + injection E as <- <-. left. auto.
    + right. unfold four in F. apply in_map_iff in F as (m & E & F). injection E as -> <-. split; [reflexivity|].
      exists o, (site_of o). split; [now apply anns_In|]. split; [apply site_of_spec|exact F].
  - intros [(-> & [->| ->])|(-> & o & p & A & S & F)].
    + left. now left.
    + left. right. now left.
    + right. exists o. split; [now apply anns_In|]. split; [intros []|]. apply site_unique in S. subst p.
      unfold four. apply in_map_iff. exists n. split; [reflexivity|exact F].
Qed.

(** C83: once per router: unless NFD refuses a command, nothing is sent again. *)
Definition commands (t : list glog) : nat :=
  length (flat_map (fun x => match x with XFib (FStrategy id n s) => [(n, s)] | _ => [] end) t).
Theorem C83_once r routers : up r -> (forall i id, ~ In (i, GvFib (FvStratFail id)) (u_evs r)) ->
  NoDup routers -> (forall o, In o routers <-> announced (gtrace r) o) ->
  commands (gtrace r) = (2 + 4 * length routers)%nat.
Proof.
  intros U N Nd A.
  assert (E : flat_map (fun x => match x with XFib (FStrategy id n s) => [(n, s)] | _ => [] end) (gtrace r) = chosen (S_Router.fouts (gtrace r))).
  { unfold chosen, S_Router.fouts. generalize (gtrace r). induction l as [|x t IH]; [reflexivity|]. cbn [flat_map]. rewrite flat_map_app, IH.
    destruct x; try reflexivity. destruct o; try reflexivity. }
  unfold commands. rewrite E, fib_run, frun_chosen by now apply trace_fail. rewrite <- sets_asked, run_strat by exact U.
  rewrite app_length. cbn [length]. rewrite (process_length _ _ Nd); [reflexivity|]. intros o. rewrite A, anns_In. intuition.
Qed.
End G.

(** ** A run *)

(** Sync announces two LSAs of the router /ndn/site/<0xC1>.Router/r9 and one of /ndn/site/r2. *)
Definition markedX : name := nm ["ndn"; "site"]%string ++ ROUTER_MARK :: nm ["r9"]%string.
Definition sync9 (t : ltype) : name := lsaX ++ nm ["site"]%string ++ ROUTER_MARK :: nm ["r9"]%string ++ [type_comp t].
Definition stratR : list (inp * gev) :=
  upR ++ map at_ [GvDb (ESync (sync9 TAdj) 1 300); GvDb (ESync (sync9 TName) 4 300); GvDb (ESync (syncX "r2" TAdj) 1 300)].
Definition anns_l (t : list glog) : list name := flat_map (fun x => match x with XPre (PDb (ONewLsa u q o f)) => [o] | _ => [] end) t.
Lemma anns_l_In t o : In o (anns_l t) <-> announced t o.
Proof.
  unfold anns_l, announced. rewrite in_flat_map. split.
  - intros (x & H & E). destruct x as [| | | | |[[]|]| | | | |]; cbn in E; try contradiction. destruct E as [<-|[]]. eauto.
  - intros (u & q & f & H). eexists. split; [exact H|now left].
Qed.
Lemma nodup_names (l : list name) : nodupb l = true -> NoDup l. Proof. apply nodupb_ok. Qed.
Lemma same_names (a b : list name) : forallb (fun x => existsb (eqb x) b) a && forallb (fun x => existsb (eqb x) a) b = true -> forall o, In o a <-> In o b.
Proof.
  intros H o. apply andb_true_iff in H as [H1 H2]. rewrite forallb_forall in H1, H2.
  split; intros I; [apply H1 in I|apply H2 in I]; apply existsb_exists in I as (y & I & E); apply (proj1 (eqb_eq _ _)) in E; now subst.
Qed.
Definition no_failb (evs : list (inp * gev)) : bool := forallb (fun x => match snd x with GvFib (FvStratFail _) => false | _ => true end) evs.
Lemma no_failb_ok evs : no_failb evs = true -> forall i id, ~ In (i, GvFib (FvStratFail id)) evs.
Proof. intros H i id X. unfold no_failb in H. rewrite forallb_forall in H. now specialize (H _ X). Qed.

Notation trS := (S_Router.gtrace (gcX HOff) uriR angR dstR (runR HOff stratR)).
Lemma ex_strat : anns_l trS = [markedX; markedX; farX] /\ g_dead (S_Router.gstate (gcX HOff) uriR angR dstR (runR HOff stratR)) = false.
Proof. vm_compute. split; reflexivity. Qed.

(** Ten commands, among them one for the keys of the site, which is read off the router's name. *)
Example C83_example : up (gcX HOff) uriR angR dstR (runR HOff stratR) /\ (forall i id, ~ In (i, GvFib (FvStratFail id)) (u_evs (runR HOff stratR))) /\
  NoDup [markedX; farX] /\ (forall o, In o [markedX; farX] <-> announced trS o) /\ site markedX (nm ["ndn"; "site"]%string) /\
  commands trS = 10%nat /\ sent trS (nm ["ndn"; "site"; "KEY"]%string) BEST_ROUTE /\
  ~ sent trS (nm ["ndn"; "site"]%string) BEST_ROUTE.
Proof.
  destruct ex_strat as [A D]. assert (U : up (gcX HOff) uriR angR dstR (runR HOff stratR)) by exact D.
  assert (N : forall i id, ~ In (i, GvFib (FvStratFail id)) (u_evs (runR HOff stratR))) by (apply no_failb_ok; vm_compute; reflexivity).
  assert (Nd : NoDup [markedX; farX]) by (apply nodup_names; vm_compute; reflexivity).
  assert (An : forall o, In o [markedX; farX] <-> announced trS o).
  { intros o. rewrite <- anns_l_In, A. apply same_names. vm_compute. reflexivity. }
  assert (S : site markedX (nm ["ndn"; "site"]%string)).
  { split; [intros [H|[H|[]]]; discriminate H|]. right. now exists (nm ["r9"]%string). }
  split; [exact U|]. split; [exact N|]. split; [exact Nd|]. split; [exact An|]. split; [exact S|].
  split; [rewrite (C83_once U N Nd An); reflexivity|]. split.
  - apply (C83_sent _ _ U). right. split; [reflexivity|]. exists markedX, (nm ["ndn"; "site"]%string). split; [apply An; now left|]. split; [exact S|].
    right. right. now left.
  - intros H. apply (C83_sent _ _ U) in H as [[H _]|(_ & o & p & Ho & Hp & H)]; [discriminate H|].
    apply site_unique in Hp. subst p. apply An in Ho as [<-|[<-|[]]]; repeat (destruct H as [H|H]; [discriminate H|]); destruct H.
Qed.

(** The keys of the operator, which the trust schema of NLSR names <site>/<0xC1>.Operator/..., get no
    strategy: the router asks for one on the twelve characters "%C1.Operator" instead. *)
Theorem C83_operator_refuted : exists c uri_of ang dst r o p,
  up c uri_of ang dst r /\ announced (S_Router.gtrace c uri_of ang dst r) o /\ site o p /\
  forall n s, sent (S_Router.gtrace c uri_of ang dst r) n s -> is_prefix n (p ++ [OPERATOR]) = false.
Proof.
  exists (gcX HOff), uriR, angR, dstR, (runR HOff stratR), markedX, (nm ["ndn"; "site"]%string).
  destruct C83_example as (U & _ & _ & An & S & _). split; [exact U|]. split; [apply An; now left|]. split; [exact S|].
  intros n s H. apply (C83_sent _ _ U) in H as [[_ [-> | ->]]|(_ & o & p & Ho & Hp & H)]; [vm_compute; reflexivity|vm_compute; reflexivity|].
  apply site_unique in Hp. subst p. apply An in Ho as [<-|[<-|[]]]; repeat (destruct H as [<-|H]; [vm_compute; reflexivity|]); destruct H.
Qed.

Print Assumptions C83_sent.
Print Assumptions C83_once.
Print Assumptions C83_operator_refuted.
