(** Runs of the whole router from its start. *)
From Coq Require Import Sorting.Permutation.
From Verif Require Import Base M_Nexthop M_Tlv M_Adj M_Lsa M_Lsdb L_Lsdb S_Lsdb L_Lsdb2 L_Lsdb3 L_Lsdb4 L_Lsdb6 M_LinkState M_Hyperbolic M_RoutingTable
  M_Npt S_Npt L_Npt4 M_Fib S_Pipe M_Prefix M_Hello S_Hello L_Hello M_Router S_Router L_Router L_Router2 L_Router3 L_Router4 L_Router5.
Open Scope Z_scope.
Set Implicit Arguments.

Lemma init_adj c q now e : find_lsa (c_self c, TAdj) (fst (init c q now e)) = None.
Proof.
  unfold init. change (St (seqs_from_file c q) [] [] 0 [] 0 false 0 None [] [] 0 [] [] now false) with (blank (seqs_from_file c q) now).
  rewrite andthen_fst. assert (H0 : invS None (blank (seqs_from_file c q) now)) by apply invS_blank.
  assert (P1 : forall s t, t <> TAdj -> invS None s -> find_lsa (c_self c, TAdj) (fst (build c e t s)) = find_lsa (c_self c, TAdj) s).
  { intros s t Ht Hs. unfold build.
    pose proof (@build_find c t (e_sys e) (own c t (seq_get t (s_seqs s) + 1) (e_sys e) (own_body c e t))
                 (publishes (c_hyp c) t) s (c_self c, TAdj) Hs) as B.
    rewrite B, L_Lsdb3.own_key. destruct (eqb (c_self c, TAdj) (c_self c, t)) eqn:E; [|reflexivity].
    apply eqb_eq in E. congruence. }
  rewrite build_name_build. assert (H1 : invS None (fst (build c e TName (blank (seqs_from_file c q) now)))).
  { rewrite <- build_name_build. now apply pres_build_name. }
  destruct (eqb (c_hyp c) HOff).
  - cbn [ret fst]. rewrite P1 by (discriminate || assumption). reflexivity.
  - rewrite build_coord_build, P1, P1 by (discriminate || assumption). reflexivity.
Qed.

Lemma rt_ok_init : rt_ok rt_init.
Proof. split; [reflexivity|]. cbn. split; [lia|]. split; [discriminate|intros H; contradiction]. Qed.

Section L.
Variables (c : gconf) (uri_of : name -> string) (ang : list Z -> list Z -> Z) (dst : Z -> Z -> Z -> Z).
Notation self := (c_self (gc c)).
Notation hy := (c_hyp (gc c)).
Notation gstate := (gstate c uri_of ang dst).
Notation gtrace := (gtrace c uri_of ang dst).

(** The router before the first calls of the FIB. *)
Definition g0 (r : grun) : router :=
  Router (Pst (fst (init (gc c) (u_seqs r) (u_now r) (Env (u_sys r) (pl_info (u_list r)) (conf_adl (u_nbs r))))) (u_list r) (u_file r))
         (fst (hinit (hconf_of c) (u_nbs r))) rt_init npt_init
         (fib_init (h_adl (fst (hinit (hconf_of c) (u_nbs r)))) (u_now r)) [] false.
Definition start_outs (r : grun) : list out :=
  snd (init (gc c) (u_seqs r) (u_now r) (Env (u_sys r) (pl_info (u_list r)) (conf_adl (u_nbs r)))).
Definition start : gact := geach (fun n => call_fib c (FvSetStrategy n MULTICAST)) [c_lsaprefix (gc c); gc_sync c].
Definition g1 (r : grun) : router := fst (start (g0 r)).
(** What happened after the start. *)
Definition later (r : grun) : list glog := snd (run (gstep c uri_of ang dst) (g1 r) (u_evs r)).

Lemma gexec_shape r :
  gstate r = fst (run (gstep c uri_of ang dst) (g1 r) (u_evs r)) /\
  gtrace r = (map XPre (map PDb (start_outs r)) ++ [XHello HFetch] ++ snd (start (g0 r))) ++ later r.
Proof.
  unfold gstate, gtrace, gexec, ginit, pinit, hinit. unfold later, g1, start, g0, start_outs, hinit.
  destruct (init _ _ _ _) as [d o]. cbn [fst snd].
  cbn [h_adl fst]. destruct (geach _ _ _) as [g o1] eqn:E. cbn [fst snd].
  destruct (run (gstep c uri_of ang dst) g (u_evs r)) as [g2 o2]. cbn [fst snd map app]. auto.
Qed.

Lemma start_good : good c uri_of ang dst start.
Proof. apply good_each. intros. apply good_fib. Qed.
Lemma start_fibP r : forall y, In y (snd (start (g0 r))) -> fibP y.
Proof. apply (all_each (P := fibP)). intros. apply fib_fibP. Qed.

Lemma g1_same r : g_pre (g1 r) = g_pre (g0 r) /\ g_h (g1 r) = g_h (g0 r) /\ g_rt (g1 r) = rt_init /\ g_npt (g1 r) = npt_init /\ g_dead (g1 r) = false.
Proof.
  unfold g1, start. cbn [geach]. unfold gseq, gret, call_fib, live. cbn [g0 g_dead].
  repeat match goal with |- context[fstep ?a ?b ?e] => destruct (fstep a b e) as [? ?] end.
  cbn. repeat match goal with |- context[fstep ?a ?b ?e] => destruct (fstep a b e) as [? ?] end. cbn. auto.
Qed.

Lemma J_init r t : J c (h_adl (fst (hinit (hconf_of c) (u_nbs r)))) (g1 r) t.
Proof.
  destruct (g1_same r) as (E1 & E2 & E3 & E4 & _). unfold g_db.
  assert (P : present (gc c) (p_db (g_pre (g1 r))) = false).
  { unfold present. rewrite E1. cbn [g0 g_pre p_db]. now rewrite init_adj. }
  split; rewrite ?E2, ?E3, ?E4.
  - unfold g_db. rewrite E1. apply invS_init.
  - apply hinit_inv.
  - reflexivity.
  - split; [reflexivity|]. cbn. split; [lia|]. split; [discriminate|intros H; contradiction].
  - unfold g_db. now rewrite P.
  - reflexivity.
  - discriminate.
Qed.

Lemma J_run evs g nbs t : J c nbs g t -> g_dead (fst (run (gstep c uri_of ang dst) g evs)) = false ->
  J c nbs (fst (run (gstep c uri_of ang dst) g evs)) (t ++ snd (run (gstep c uri_of ang dst) g evs)).
Proof.
  revert g t. induction evs as [|x evs IH]; intros g t I; [cbn; now rewrite app_nil_r|]. cbn [run].
  pose proof (@J_step c uri_of ang dst nbs g t x I) as Js. destruct (gstep c uri_of ang dst g x) as [g2 o2]. cbn [fst snd] in Js.
  pose proof (t_dead (good_run c uri_of ang dst evs g2)) as Td. specialize (IH g2 (t ++ o2)).
  destruct (run (gstep c uri_of ang dst) g2 evs) as [g3 o3]. cbn [fst snd] in *. intros D.
  assert (D2 : g_dead g2 = false) by (destruct (g_dead g2); [now rewrite Td in D|reflexivity]).
  rewrite app_assoc. auto.
Qed.

Lemma J_exec r : g_dead (gstate r) = false -> J c (h_adl (fst (hinit (hconf_of c) (u_nbs r)))) (gstate r) (gtrace r).
Proof.
  destruct (gexec_shape r) as [-> ->]. intros D. apply J_run; [apply J_init|exact D].
Qed.

(** The modules' own runs. *)
Lemma tracks_exec r : tracks c uri_of ang dst (g0 r) (gstate r) (snd (start (g0 r)) ++ later r).
Proof.
  destruct (gexec_shape r) as [-> _]. eapply tracks_app; [apply start_good|]. apply good_run.
Qed.

Lemma run_alive evs g : g_dead g = true -> g_dead (fst (run (gstep c uri_of ang dst) g evs)) = true.
Proof. apply (t_dead (good_run c uri_of ang dst evs g)). Qed.
Lemma extend_alive r evs : g_dead (gstate (extend r evs)) = false -> g_dead (gstate r) = false.
Proof.
  destruct (gexec_shape (extend r evs)) as [-> _]. destruct (gexec_shape r) as [-> _]. cbn [extend u_evs].
  change (g1 (extend r evs)) with (g1 r). rewrite run_app. destruct (run _ (g1 r) (u_evs r)) as [g t].
  pose proof (run_alive evs g) as A. destruct (run _ g evs) as [g' t']. cbn [fst] in *. intros D.
  destruct (g_dead g); [now rewrite A in D|reflexivity].
Qed.
Lemma extend_one r x : gstate (extend r [x]) = fst (gstep c uri_of ang dst (gstate r) x) /\
  gtrace (extend r [x]) = gtrace r ++ snd (gstep c uri_of ang dst (gstate r) x).
Proof.
  destruct (gexec_shape (extend r [x])) as [-> ->]. destruct (gexec_shape r) as [-> ->]. unfold later. cbn [extend u_evs].
  change (g1 (extend r [x])) with (g1 r). change (g0 (extend r [x])) with (g0 r). change (start_outs (extend r [x])) with (start_outs r).
  rewrite run_snoc. destruct (run _ (g1 r) (u_evs r)) as [g t]. cbn [fst snd].
  destruct (gstep c uri_of ang dst g x) as [g' t']. cbn [fst snd]. rewrite <- !app_assoc. auto.
Qed.

Lemma proj_start A (p : glog -> list A) r : (forall o, p (XPre o) = []) -> p (XHello HFetch) = [] ->
  flat_map p (gtrace r) = flat_map p (snd (start (g0 r)) ++ later r).
Proof.
  intros H1 H2. destruct (gexec_shape r) as [_ ->]. rewrite !flat_map_app. cbn [flat_map app]. rewrite H2.
  replace (flat_map p (map XPre _)) with (@nil A); [reflexivity|]. symmetry. rewrite (@map_flat _ _ XPre p _ (fun _ => [])); [apply flat_none|auto].
Qed.

Lemma fifo_later r : g_dead (gstate r) = false -> fifo qnil qnil (later r).
Proof. destruct (gexec_shape r) as [-> _]. intros D. apply conn_run. exact D. Qed.
Lemma fifo_all r : g_dead (gstate r) = false -> fifo qnil qnil (snd (start (g0 r)) ++ later r).
Proof.
  intros D. eapply fifo_app; [|apply (fifo_later r D)].
  apply (@conn_each _ (fun n => call_fib c (FvSetStrategy n MULTICAST)) (fun _ => qnil)).
  - intros x l. apply (@conn_fib c (FvSetStrategy x MULTICAST)).
  - intros x. apply (@good_stays c uri_of ang dst), good_fib.
  - destruct (g1_same r) as (_ & _ & _ & _ & E). exact E.
Qed.

(** The table announced last is the routing table. *)
Lemma routes_now_tab r : g_dead (gstate r) = false -> routes_now (npts (gtrace r)) = rt_tab (g_rt (gstate r)).
Proof.
  intros D. unfold npts. rewrite proj_start by reflexivity. fold (npts (snd (start (g0 r)) ++ later r)).
  destruct (@run_table (gc c) (gc_max c) (gc_calc c) ang dst _ _ _ _ rt_ok_init (t_rt (tracks_exec r))) as [_ ->].
  assert (R : forall l t, fold_left (fun t e => match e with NvRoutes rt _ _ => rt | _ => t end) l t = last_table (routes_in l) t).
  { induction l as [|e l IH]; intros t; [reflexivity|]. cbn [fold_left routes_in flat_map]. rewrite IH. destruct e; reflexivity. }
  unfold routes_now. rewrite R. pose proof (y_t (fifo_all r D)) as Y. cbn [qnil q_t app] in Y. rewrite app_nil_r in Y. now rewrite Y.
Qed.
End L.
