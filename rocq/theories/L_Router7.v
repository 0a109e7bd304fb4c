(** One step of the router: what it changes in the database and in the plan to recalculate routes. *)
From Coq Require Import Sorting.Permutation.
From Verif Require Import Base M_Nexthop M_Tlv M_Adj M_Lsa M_Lsdb L_Lsdb S_Lsdb L_Lsdb2 L_Lsdb3 L_Lsdb4 L_Lsdb6 M_LinkState M_Hyperbolic M_RoutingTable
  M_Npt S_Npt L_Npt4 M_Fib S_Pipe M_Prefix M_Hello S_Hello L_Hello M_Router S_Router L_Router L_Router2 L_Router3 L_Router4 L_Router5 L_Router6.
Open Scope Z_scope.
Set Implicit Arguments.

Definition adds (t : ltype) (x : kind * lsa) : Prop := fst x <> KRemoved /\ l_type (snd x) = t.

(** Without news of a type, the database holds no new content of that type. *)
Lemma db_new c ys s : invS None s ->
  forall t, (forall x, In x (map two (out_notes (snd (run (step c) s ys)))) -> ~ adds t x) ->
  forall n b, body_at (n, t) (fst (run (step c) s ys)) = Some b -> body_at (n, t) s = Some b.
Proof.
  revert s. induction ys as [|y ys IH]; intros s I t; [cbn; auto|]. cbn [run].
  pose proof (step_eff c y I) as E. apply (eff_notes I) in E. rewrite filter_rel_notes in E.
  pose proof (invS_step c y I) as I1. destruct (step c s y) as [s1 o1]. cbn [fst snd] in *.
  specialize (IH s1 I1 t). destruct (run (step c) s1 ys) as [s2 o2]. cbn [fst snd] in *.
  assert (App : out_notes (o1 ++ o2) = out_notes o1 ++ out_notes o2) by apply flat_map_app.
  rewrite App, map_app. intros H n b B. apply IH in B; [|intros x Hx; apply H, in_or_app; auto].
  destruct E as [[_ E]|(kd & l & a & r & En & E1 & E2)]; [now rewrite E in B|].
  destruct (eq_dec (n, t) (l_key l)) as [K|K]; [|now rewrite E1 in B].
  rewrite K in *. destruct kd.
  - exfalso. apply (H (KInstalled, l)); [rewrite En; now left|]. split; [discriminate|]. unfold l_key in K. cbn. congruence.
  - exfalso. apply (H (KUpdated, l)); [rewrite En; now left|]. split; [discriminate|]. unfold l_key in K. cbn. congruence.
  - destruct E2. congruence.
Qed.

Section L.
Variables (c : gconf) (uri_of : name -> string) (ang : list Z -> list Z -> Z) (dst : Z -> Z -> Z -> Z).
Notation self := (c_self (gc c)).
Notation hy := (c_hyp (gc c)).
Notation gstep := (gstep c uri_of ang dst).

Lemma step_alive g x : g_dead (fst (gstep g x)) = false -> g_dead g = false.
Proof.
  intros D. destruct (g_dead g) eqn:E; [|reflexivity]. now rewrite (t_dead (good_step c uri_of ang dst x g) E) in D.
Qed.
Lemma step_fifo g x : g_dead (fst (gstep g x)) = false -> fifo qnil qnil (snd (gstep g x)).
Proof.
  pose proof (@conn_run c uri_of ang dst [x] g) as F. cbn [run] in F.
  destruct (gstep g x) as [g' t']. cbn in *. rewrite app_nil_r in F. exact F.
Qed.

(** A step that runs no calculation. *)
Lemma step_quiet nbs g t x : J c nbs g t -> g_dead (fst (gstep g x)) = false ->
  (forall y, In y (snd (gstep g x)) -> calcP y) ->
  (rt_pend (g_rt g) <> [] -> rt_pend (g_rt (fst (gstep g x))) = rt_pend (g_rt g)) /\
  (existsb (asks (gc c)) (rtevs (snd (gstep g x))) = true -> rt_pend (g_rt (fst (gstep g x))) <> []) /\
  (forall y, In y (map two (out_notes (db_outs (snd (gstep g x))))) -> wants (gc c) y = true ->
     existsb (asks (gc c)) (rtevs (snd (gstep g x))) = true) /\
  (forall ty, (forall y, In y (map two (out_notes (db_outs (snd (gstep g x))))) -> ~ adds ty y) ->
     forall n b, body_at (n, ty) (g_db (fst (gstep g x))) = Some b -> body_at (n, ty) (g_db g) = Some b).
Proof.
  intros I D' C. pose proof (step_alive _ _ D') as D. pose proof (step_fifo _ _ D') as F.
  pose proof (good_step c uri_of ang dst x g) as T. destruct (gstep g x) as [g' u]. cbn [fst snd] in *.
  destruct (@run_nocalc (gc c) (gc_max c) (gc_calc c) ang dst _ _ _ _ (t_rt T) (calc_log _ C) (j_rt I)) as (A1 & A2 & A3 & A4 & A5 & A6).
  pose proof (y_r F) as Y. cbn [qnil q_r app] in Y. rewrite app_nil_r in Y.
  split; [exact A2|]. split; [exact A3|]. split.
  - intros y Hy W. apply note_asks with (x := y); [now rewrite <- Y|exact W].
  - destruct (prun_steps (gc c) uri_of (pres u) (g_pre g)) as (ys & Ry & _).
    rewrite (t_pre T) in Ry. cbn [fst snd] in Ry. rewrite <- (dbo_db u) in Ry.
    pose proof (@db_new (gc c) ys (g_db g) (j_db I)) as N. change (p_db (g_pre g)) with (g_db g) in Ry. rewrite Ry in N.
    exact N.
Qed.

(** A step that runs a calculation. *)
Lemma step_runs nbs g t x k due : J c nbs g t -> g_dead (fst (gstep g x)) = false ->
  snd x = GvCalc k -> nth_error (rt_pend (g_rt g)) k = Some due -> due <= g_now g ->
  rt_pend (g_rt (fst (gstep g x))) = [] /\ g_db (fst (gstep g x)) = g_db g /\ g_h (fst (gstep g x)) = g_h g /\
  (hy <> HOn -> s_sched (g_db g) = true \/ rt_own (g_rt g) = false ->
     rt_tab (g_rt (fst (gstep g x))) = rt_tab (g_rt g) /\ rtouts (snd (gstep g x)) = []) /\
  (hy <> HOn -> s_sched (g_db g) = false -> rt_own (g_rt g) = true ->
     calc_link_state self (gc_max c) (adl_faces (h_adl (g_h g))) (adj_view (lsas_of TAdj (i_aord (fst x)) (g_db g)))
       = Ok (rt_tab (g_rt (fst (gstep g x)))) /\ rtouts (snd (gstep g x)) = [RAnnounce (rt_tab (g_rt (fst (gstep g x))))]) /\
  (hy = HOn -> calc_hyperbolic ang dst self (h_adl (g_h g)) (coord_view (lsas_of TCoord (i_cord (fst x)) (g_db g)))
       = Ok (rt_tab (g_rt (fst (gstep g x)))) /\ rtouts (snd (gstep g x)) = [RAnnounce (rt_tab (g_rt (fst (gstep g x))))]).
Proof.
  intros I D' Ex N Hd. pose proof (step_alive _ _ D') as D. pose proof (good_step c uri_of ang dst x g) as T.
  assert (E : gstep g x = call_rt c ang dst (fst x) (RvCalc k (g_now g) (calc_view (fst x) g)) g).
  { destruct x as [i v]. cbn [snd fst] in *. subst v. unfold gstep, M_Router.gstep. unfold live at 1. rewrite D. cbn [fst snd gstep_live].
    rewrite N. destruct (Z.leb_spec due (g_now g)); [reflexivity|lia]. }
  rewrite E in *. clear E. destruct (@calc_trace c ang dst (fst x) k (g_now g) (calc_view (fst x) g) g D D') as (B1 & B2 & B3 & B4 & B5).
  destruct (call_rt c ang dst (fst x) _ g) as [g' u]. cbn [fst snd] in *.
  destruct T as [T1 T2 T3 T4 T5 _]. rewrite B1, B2 in T1. rewrite B3 in T2. cbn [run] in T1, T2. injection T1 as T1.
  assert (T2' : g_h g' = g_h g) by congruence. clear T2. rewrite B4 in T3. cbn [rt_run] in T3.
  destruct (rt_step _ _ _ _ _ _ _ (g_rt g)) as [[r' o']| |] eqn:Es; try discriminate. cbn in T3. rewrite app_nil_r in T3. injection T3 as -> T3.
  destruct (@step_calc (gc c) (gc_max c) (gc_calc c) ang dst _ _ _ _ _ _ _ Es N Hd (j_rt I)) as (A1 & A2 & A3 & A4 & A5 & A6).
  rewrite <- T3. split; [exact A2|]. split; [unfold g_db; now rewrite T1|]. split; [exact T2'|]. split; [exact A4|]. split; [exact A5|exact A6].
Qed.
End L.
