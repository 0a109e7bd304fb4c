(** The databases of a network of whole routers form a network of databases (M_Net.v). *)
From Verif Require Import Base M_Nexthop M_Tlv M_Adj M_Lsa M_Lsdb S_Lsdb L_Lsdb L_Lsdb3 L_Lsdb4 M_Codec M_Sync M_Net S_Net L_Net M_LinkState M_Hyperbolic M_RoutingTable
  M_Npt S_Npt M_Fib S_Pipe M_Prefix M_Hello S_Hello L_Hello M_Router S_Router L_Router L_Router2 L_Router3 L_Router5 L_Router6 M_Network.
Open Scope Z_scope.
Set Implicit Arguments.

Definition adl_of (x : pev) : adl := match x with PvDb _ a _ => a | PvCmd _ a _ _ => a end.
(** Events of the database that do not come from the network. *)
Definition local_ev (v : ev) : Prop := match v with ESync _ _ _ | EFetchDone _ _ | EInterest _ _ _ _ => False | _ => True end.
Definition local_pev (x : pev) : Prop := match x with PvDb _ _ v => local_ev v | PvCmd _ _ _ _ => True end.

Section Step.
Variables (c : gconf) (uri_of : name -> string) (ang : list Z -> list Z -> Z) (dst : Z -> Z -> Z -> Z).
Notation gstep := (gstep c uri_of ang dst).

(** *** Which calls of the database one event makes *)

Definition noP (x : glog) : Prop := match x with CPre _ | CHello _ => False | _ => True end.
Lemma fib_noP e : all noP (call_fib c e).
Proof. apply all_live. intros g _. destruct fstep. apply in_cons_map; cbn; auto. Qed.
Lemma npt_noP e : all noP (call_npt c e).
Proof.
  apply all_live. intros g _. destruct nstep as [[n o]| |]; try (intros x [<-|[]]; exact I).
  apply seq_all; [apply in_cons_map; cbn; auto|]. apply all_each. intros []; apply fib_noP.
Qed.
Lemma rt_noP i e : all noP (call_rt c ang dst i e).
Proof.
  apply all_live. intros g _. destruct rt_step as [[n o]| |]; try (intros x [<-|[]]; exact I).
  apply seq_all; [apply in_cons_map; cbn; auto|]. apply all_each. intros []. apply npt_noP.
Qed.
Lemma pre_out_noP i o : all noP (pre_out c ang dst i o).
Proof.
  destruct o as [[]|]; cbn [pre_out]; try apply all_ret; try apply all_dead.
  - apply all_live. intros g1 _. apply seq_all; [apply rt_noP|apply npt_noP].
  - apply all_live. intros g1 _. destruct existsb; [intros y []|]. apply (all_each (P := noP)). intros. apply fib_noP.
Qed.
Lemma noP_pres t : (forall x, In x t -> noP x) -> pres t = [].
Proof.
  induction t as [|x t IH]; intros H; [reflexivity|]. unfold pres in *. cbn [flat_map]. rewrite IH by (intros y Hy; apply H; now right).
  specialize (H x (or_introl eq_refl)). now destruct x.
Qed.
Lemma noP_hellos t : (forall x, In x t -> noP x) -> hellos t = [].
Proof.
  induction t as [|x t IH]; intros H; [reflexivity|]. unfold hellos in *. cbn [flat_map]. rewrite IH by (intros y Hy; apply H; now right).
  specialize (H x (or_introl eq_refl)). now destruct x.
Qed.

(** *** The adjacency list keeps its neighbours, faces and costs *)

Variable S0 : list (name * uri * Z).
Definition ok (g : router) : Prop := hinv (hconf_of c) (g_h g) /\ map stat (h_adl (g_h g)) = S0.
(** An action keeps that, and hands the list to the database. *)
Definition keeps (L : pev -> Prop) (f : gact) : Prop := forall g, ok g ->
  ok (fst (f g)) /\ (forall x, In x (pres (snd (f g))) -> map stat (adl_of x) = S0 /\ L x).

Lemma keeps_ret L : keeps L gret.
Proof. intros g H. split; [exact H|intros x []]. Qed.
Lemma keeps_dead L : keeps L (fun g => (gw_dead g, [])).
Proof. intros g H. split; [exact H|intros x []]. Qed.
Lemma seq_keeps (L : pev -> Prop) f h g : (ok (fst (f g)) /\ (forall x, In x (pres (snd (f g))) -> map stat (adl_of x) = S0 /\ L x)) -> keeps L h ->
  ok (fst (gseq f h g)) /\ (forall x, In x (pres (snd (gseq f h g))) -> map stat (adl_of x) = S0 /\ L x).
Proof.
  unfold gseq. destruct (f g) as [g1 o1]. cbn [fst snd]. intros [A B] H. destruct (H g1 A) as [C D]. destruct (h g1) as [g2 o2]. cbn [fst snd] in *.
  split; [exact C|]. intros x Hx. unfold pres in Hx. rewrite flat_map_app in Hx. apply in_app_or in Hx as [Hx|Hx]; auto.
Qed.
Lemma keeps_each A L (f : A -> gact) l : (forall x, keeps L (f x)) -> keeps L (geach f l).
Proof. intros F. induction l as [|x l IH]; [apply keeps_ret|]. intros g H. cbn [geach]. apply seq_keeps; [now apply F|exact IH]. Qed.
Lemma keeps_live (L : pev -> Prop) f : (forall g, g_dead g = false -> ok g -> ok (fst (f g)) /\ (forall x, In x (pres (snd (f g))) -> map stat (adl_of x) = S0 /\ L x)) -> keeps L (live f).
Proof. intros F g H. unfold live. destruct (g_dead g) eqn:E; [split; [exact H|intros x []]|now apply F]. Qed.
(** Actions without calls of the hello protocol and the database. *)
Lemma keeps_noP L f : good c uri_of ang dst f -> all noP f -> keeps L f.
Proof.
  intros T N g H. specialize (N g). pose proof (t_h (T g)) as Th. rewrite (noP_hellos _ N) in Th. cbn [run] in Th. injection Th as Th _.
  split; [unfold ok in *; now rewrite <- Th|]. rewrite (noP_pres _ N). intros x [].
Qed.
Lemma keeps_pre (L : pev -> Prop) i x : L x -> forall g, ok g -> map stat (adl_of x) = S0 ->
  ok (fst (call_pre c uri_of ang dst i x g)) /\ (forall y, In y (pres (snd (call_pre c uri_of ang dst i x g))) -> map stat (adl_of y) = S0 /\ L y).
Proof.
  intros Lx g H A. unfold call_pre, live. destruct (g_dead g); [split; [exact H|intros y []]|]. destruct pstep as [p o]. apply seq_keeps.
  - cbn [fst snd]. split; [exact H|]. intros y Hy. unfold pres in Hy. cbn [flat_map app] in Hy.
    assert (E : flat_map (fun x => match x with CPre e => [e] | _ => [] end) (map XPre o) = []) by (clear; induction o; [reflexivity|exact IHo]).
    rewrite E in Hy. destruct Hy as [<-|[]]. auto.
  - apply keeps_each. intros y. apply keeps_noP; [apply good_pre_out|apply pre_out_noP].
Qed.
Definition builds (x : pev) : Prop := exists s a, x = PvDb s a EScheduleBuild.
Lemma keeps_hello i x : keeps builds (call_hello c uri_of ang dst i x).
Proof.
  apply keeps_live. intros g _ [H1 H2]. destruct (hstep_inv x H1) as [E1 E2]. destruct (hstep (hconf_of c) (g_h g) x) as [h o]. cbn [fst] in E1, E2.
  apply seq_keeps.
  - cbn [fst snd]. split; [split; cbn [gw_h g_h]; [exact E2|congruence]|]. intros y Hy. unfold pres in Hy. cbn [flat_map app] in Hy.
    assert (E : flat_map (fun x => match x with CPre e => [e] | _ => [] end) (map XHello o) = []) by (clear; induction o; [reflexivity|exact IHo]).
    rewrite E in Hy. destruct Hy.
  - intros g1 O1. apply seq_keeps; [apply keeps_noP; [apply good_fib|apply fib_noP|exact O1]|]. clear g1 O1. apply keeps_each.
    intros []; cbn [hello_out]; try apply keeps_ret; try apply keeps_dead.
    + apply keeps_live. intros g2 _ O2. apply keeps_pre; [now repeat eexists|exact O2|]. cbn [adl_of]. apply O2.
    + apply keeps_live. intros g2 _ O2. apply (@keeps_noP builds (call_rt c ang dst i (RvSchedule (g_now g2)))); [apply good_rt|apply rt_noP|exact O2].
    + apply keeps_noP; [apply good_fib|apply fib_noP].
Qed.

Lemma weaken_keeps (L L' : pev -> Prop) f : (forall x, L x -> L' x) -> keeps L f -> keeps L' f.
Proof. intros H F g O. destruct (F g O) as [A B]. split; [exact A|]. intros x Hx. destruct (B x Hx). auto. Qed.
Lemma builds_local x : builds x -> local_pev x.
Proof. intros (s & a & ->). exact I. Qed.

(** One event: either it is handed to the database as it is, and nothing else is, or all calls of the
    database are local. *)
Lemma step_calls g x : ok g -> ok (fst (gstep g x)) /\
  (forall y, In y (pres (snd (gstep g x))) -> map stat (adl_of y) = S0) /\
  ((exists v a, snd x = GvDb v /\ pres (snd (gstep g x)) = [PvDb (i_sys (fst x)) a v]) \/ (forall y, In y (pres (snd (gstep g x))) -> local_pev y)).
Proof.
  intros O.
  assert (Loc : forall f : gact, keeps local_pev f -> ok (fst (f g)) /\ (forall y, In y (pres (snd (f g))) -> map stat (adl_of y) = S0) /\
     ((exists v a, snd x = GvDb v /\ pres (snd (f g)) = [PvDb (i_sys (fst x)) a v]) \/ (forall y, In y (pres (snd (f g))) -> local_pev y))).
  { intros f K. destruct (K g O) as [A B]. split; [exact A|]. split; [intros y Hy; now apply B|]. right. intros y Hy. now apply B. }
  assert (Hel : forall i v, keeps local_pev (call_hello c uri_of ang dst i v)) by (intros; apply (@weaken_keeps builds local_pev _ builds_local), keeps_hello).
  assert (Fib : forall e, keeps local_pev (call_fib c e)) by (intros; apply keeps_noP; [apply good_fib|apply fib_noP]).
  unfold M_Router.gstep. destruct (g_dead g) eqn:D; [unfold live; rewrite D; apply (Loc gret), keeps_ret|].
  unfold live. rewrite D. destruct x as [i [d|v|m r|v|v|k]]; cbn [fst snd gstep_live].
  - apply (Loc (fun g => gseq (call_pre c uri_of ang dst i (PvDb (i_sys i) (h_adl (g_h g)) (ETick d))) (fun g => call_fib c (FvTime (g_now g)) g) g)).
    intros g1 O1. apply seq_keeps; [|intros g2 O2; now apply Fib]. apply keeps_pre; [exact I|exact O1|]. apply O1.
  - assert (One : ok (fst (call_pre c uri_of ang dst i (PvDb (i_sys i) (h_adl (g_h g)) v) g)) /\
      (forall y, In y (pres (snd (call_pre c uri_of ang dst i (PvDb (i_sys i) (h_adl (g_h g)) v) g))) -> map stat (adl_of y) = S0) /\
      ((exists v0 a, GvDb v = GvDb v0 /\ pres (snd (call_pre c uri_of ang dst i (PvDb (i_sys i) (h_adl (g_h g)) v) g)) = [PvDb (i_sys i) a v0]) \/
       (forall y, In y (pres (snd (call_pre c uri_of ang dst i (PvDb (i_sys i) (h_adl (g_h g)) v) g))) -> local_pev y))).
    { destruct (@keeps_pre (fun _ => True) i (PvDb (i_sys i) (h_adl (g_h g)) v) I g O (proj2 O)) as [A B]. split; [exact A|].
      split; [intros y Hy; now apply B|]. left. exists v, (h_adl (g_h g)). split; [reflexivity|].
      unfold call_pre, live. rewrite D. destruct pstep as [p o]. unfold gseq.
      pose proof (@all_each _ noP (pre_out c ang dst i) o (pre_out_noP i) (gw_pre p g)) as N.
      destruct (geach (pre_out c ang dst i) o (gw_pre p g)) as [g2 o2]. cbn [snd] in *. unfold pres. rewrite flat_map_app.
      assert (E : flat_map (fun x => match x with CPre e => [e] | _ => [] end) (map XPre o) = []) by (clear; induction o; [reflexivity|exact IHo]).
      cbn [flat_map app]. rewrite E. cbn [app]. f_equal. exact (noP_pres _ N). }
    destruct v; try exact One; apply (Loc gret), keeps_ret.
  - apply (Loc (fun g => call_pre c uri_of ang dst i (PvCmd (i_sys i) (h_adl (g_h g)) m r) g)). intros g1 O1. apply keeps_pre; [exact I|exact O1|apply O1].
  - destruct v; try (apply (Loc gret), keeps_ret); apply Loc; apply Hel.
  - destruct v; try (apply (Loc gret), keeps_ret); try (apply Loc; apply Fib).
    destruct (get id (f_cmds (g_fib g))) as [r|]; [|apply (Loc gret), keeps_ret].
    apply Loc. intros g1 O1. apply seq_keeps; [now apply Fib|]. intros g2 O2. apply seq_keeps; [now apply Hel|]. apply Hel.
  - destruct (nth_error (rt_pend (g_rt g)) k); [|apply (Loc gret), keeps_ret]. destruct (_ <=? _); [|apply (Loc gret), keeps_ret].
    apply Loc. apply keeps_noP; [apply good_rt|apply rt_noP].
Qed.
End Step.

(** *** The events of the database behind a call *)

Lemma pstep_evs c uri_of s x : exists ys,
  run (step c) (p_db s) ys = (p_db (fst (pstep uri_of c s x)), dbo (snd (pstep uri_of c s x))) /\
  (forall e v, In (e, v) ys -> e_adl e = adl_of x) /\
  match x with PvDb _ _ v => ys = [] \/ exists e, ys = [(e, v)] | PvCmd _ _ _ _ => forall e v, In (e, v) ys -> v = EBuildName end.
Proof.
  unfold pstep. destruct (s_dead (p_db s)) eqn:D.
  { exists []. split; [reflexivity|]. split; [intros e v []|]. destruct x; [now left|intros e v []]. }
  destruct x as [sys a v|sys a m w]; cbn [pstep_live adl_of].
  - assert (X : run (step c) (p_db s) [(Env sys (pl_info (p_list s)) a, v)] = (let (d, o) := step c (p_db s) (Env sys (pl_info (p_list s)) a, v) in (d, o))).
    { cbn [run]. destruct (step c (p_db s) _). now rewrite app_nil_r. }
    assert (Y : exists ys, run (step c) (p_db s) ys = (let (d, o) := step c (p_db s) (Env sys (pl_info (p_list s)) a, v) in (d, dbo (map PDb o))) /\
      (forall e v, In (e, v) ys -> e_adl e = a) /\ (ys = [] \/ exists e, ys = [(e, v)])).
    { exists [(Env sys (pl_info (p_list s)) a, v)]. split; [rewrite X; destruct (step c (p_db s) _); now rewrite dbo_map|]. split; [|right; eauto].
      intros e v' [H|[]]. now injection H as <- _. }
    destruct v; try (destruct Y as (ys & Y1 & Y2); exists ys; split; [rewrite Y1; destruct (step c (p_db s) _); reflexivity|exact Y2]).
    exists []. split; [reflexivity|]. split; [intros e v []|now left].
  - unfold do_cmd. destruct (list_cmd m (p_list s)) as [ch p']. destruct ch.
    + exists [(Env sys (pl_info p') a, EBuildName)]. split; [|split].
      * cbn [run]. unfold step. rewrite D. cbn [step_live]. destruct (build_name c _ (p_db s)) as [d o].
        destruct (saves m); [destruct (after_cmd _ _ _ _)|]; cbn [fst snd p_db]; now rewrite dbo_app, dbo_map.
      * intros e v' [H|[]]. now injection H as <- _.
      * intros e v' [H|[]]. now injection H as _ <-.
    + exists []. split; [|split; intros; contradiction].
      cbn [run]. destruct (saves m); [destruct (after_cmd _ _ _ _)|]; reflexivity.
Qed.

Lemma prun_local c uri_of S0 xs : forall s, (forall x, In x xs -> local_pev x /\ map stat (adl_of x) = S0) -> exists ys,
  run (step c) (p_db s) ys = (p_db (fst (run (pstep uri_of c) s xs)), dbo (snd (run (pstep uri_of c) s xs))) /\
  (forall e v, In (e, v) ys -> local_ev v /\ map stat (e_adl e) = S0).
Proof.
  induction xs as [|x xs IH]; intros s H; [exists []; split; [reflexivity|intros e v []]|].
  destruct (pstep_evs c uri_of s x) as (y1 & R1 & A1 & K1). cbn [run]. destruct (pstep uri_of c s x) as [s1 o1]. cbn [fst snd] in *.
  destruct (IH s1) as (y2 & R2 & A2); [intros y Hy; apply H; now right|]. destruct (run (pstep uri_of c) s1 xs) as [s2 o2]. cbn [fst snd] in *.
  destruct (H x (or_introl eq_refl)) as [Lx Sx].
  exists (y1 ++ y2). rewrite run_app, R1, R2, dbo_app. split; [reflexivity|]. intros e v Hv. apply in_app_or in Hv as [Hv|Hv]; [|now apply A2].
  split; [|now rewrite (A1 _ _ Hv)]. destruct x as [sys a v0|sys a m w]; [|rewrite (K1 _ _ Hv); exact I].
  destruct K1 as [->|(e0 & ->)]; [destruct Hv|]. destruct Hv as [E|[]]. injection E as _ <-. exact Lx.
Qed.

(** *** Projecting a schedule *)

Definition node_of (b : box) : node :=
  let r := b_start b in Node (gc (b_conf b)) (b_site b) (u_seqs r) (u_now r) (Env (u_sys r) (pl_info (u_list r)) (conf_adl (u_nbs r))).
(** The neighbours, faces and costs the router uses. *)
Definition stat_of (b : box) : list (name * uri * Z) := map stat (h_adl (fst (hinit (hconf_of (b_conf b)) (u_nbs (b_start b))))).

Section Project.
Variables (uri_of : name -> string) (ang : list Z -> list Z -> Z) (dst : Z -> Z -> Z -> Z).
Variables (time_str : Z -> string) (time_parse : string -> option Z) (uri_parse : string -> option uri).
Variable w : list box.
Notation bstate := (bstate uri_of ang dst).
Notation btrace := (btrace uri_of ang dst).
Notation gpossible := (gpossible uri_of ang dst time_str time_parse uri_parse w).
Notation gallowed := (gallowed uri_of ang dst time_str time_parse uri_parse w).
Notation wn := (map node_of w).
Notation possible := (M_Net.possible time_str time_parse uri_parse wn).
Notation allowed := (M_Net.allowed time_str time_parse uri_parse wn).

Lemma ghist_app i a b : ghist i (a ++ b) = ghist i a ++ ghist i b.
Proof. unfold ghist. now rewrite filter_app, map_app. Qed.
Lemma b_other b i s x : fst x <> i -> bstate b i (s ++ [x]) = bstate b i s /\ btrace b i (s ++ [x]) = btrace b i s.
Proof.
  intros N. unfold M_Network.bstate, M_Network.btrace, brun. rewrite ghist_app. assert (E : ghist i [x] = []) by (unfold ghist; cbn [filter]; apply Nat.eqb_neq in N; now rewrite N).
  rewrite E, app_nil_r. auto.
Qed.
Lemma b_step b i s x : bstate b i (s ++ [(i, x)]) = fst (gstep (b_conf b) uri_of ang dst (bstate b i s) x) /\
  btrace b i (s ++ [(i, x)]) = btrace b i s ++ snd (gstep (b_conf b) uri_of ang dst (bstate b i s) x).
Proof.
  unfold M_Network.bstate, M_Network.btrace. destruct (gexec_shape (b_conf b) uri_of ang dst (brun b i (s ++ [(i, x)]))) as [-> ->].
  destruct (gexec_shape (b_conf b) uri_of ang dst (brun b i s)) as [-> ->]. unfold later, g1, g0, start_outs, brun.
  cbn [u_seqs u_now u_sys u_nbs u_list u_file u_evs]. rewrite ghist_app. assert (E : ghist i [(i, x)] = [x]) by (unfold ghist; cbn [filter fst]; now rewrite Nat.eqb_refl). rewrite E.
  set (g := fst (start _ _)). rewrite run_app. destruct (run (gstep (b_conf b) uri_of ang dst) g (ghist i s)) as [g2 o2].
  cbn [run fst snd]. destruct (gstep (b_conf b) uri_of ang dst g2 x) as [g3 o3]. cbn [fst snd]. rewrite app_nil_r. split; [reflexivity|]. now rewrite <- !app_assoc.
Qed.
Lemma b_init b i : bstate b i [] = g1 (b_conf b) (brun b i []) /\ db_outs (btrace b i []) = start_outs (b_conf b) (brun b i []).
Proof.
  unfold M_Network.bstate, M_Network.btrace. destruct (gexec_shape (b_conf b) uri_of ang dst (brun b i [])) as [-> ->]. unfold later. cbn [brun u_evs ghist filter map run fst snd].
  split; [reflexivity|]. rewrite app_nil_r. unfold db_outs, pouts. rewrite !flat_map_app.
  assert (N : forall y, In y (snd (start (b_conf b) (g0 (b_conf b) (brun b i [])))) -> noP y /\ fibP y).
  { intros y Hy. split; [|exact (@start_fibP _ _ y Hy)]. revert y Hy. apply (all_each (P := noP)). intros. apply fib_noP. }
  set (t := snd (start _ _)) in *. assert (E : flat_map (fun x => match x with XPre o => [o] | _ => [] end) t = []).
  { clear - N. induction t as [|x t IH]; [reflexivity|]. cbn [flat_map]. rewrite IH by (intros y Hy; apply N; now right). destruct (N x (or_introl eq_refl)) as [_ F]. now destruct x. }
  rewrite E. cbn [flat_map app]. rewrite app_nil_r. generalize (start_outs (b_conf b) (brun b i [])). clear. induction l as [|o l IH]; [reflexivity|]. cbn [map flat_map app]. now f_equal.
Qed.

Lemma nth_wn i b : nth_error w i = Some b -> nth_error wn i = Some (node_of b).
Proof. intros H. now apply map_nth_error. Qed.
Lemma nth_wn_inv i n : nth_error wn i = Some n -> exists b, nth_error w i = Some b /\ n = node_of b.
Proof.
  clear. revert i. induction w as [|b l IH]; intros [|i] H; cbn in H; try discriminate; [injection H as <-; exists b; auto|now apply IH].
Qed.
Lemma hist_pairs i (ys : list (env * ev)) : hist i (map (pair i) ys) = ys.
Proof. unfold hist. induction ys as [|y ys IH]; [reflexivity|]. cbn [map filter fst]. rewrite Nat.eqb_refl. cbn [map snd]. now rewrite IH. Qed.
Lemma hist_pairs_other i j (ys : list (env * ev)) : i <> j -> hist j (map (pair i) ys) = [].
Proof. intros N. apply Nat.eqb_neq in N. unfold hist. induction ys as [|y ys IH]; [reflexivity|]. cbn [map filter fst]. now rewrite N. Qed.

(** A schedule of the databases that does the same. *)
Record projects (s : gsched) (t : sched) : Prop :=
  { pj_possible : possible t;
    pj_state : forall i b, nth_error w i = Some b -> nstate (node_of b) i t = g_db (bstate b i s);
    pj_outs : forall i b, nth_error w i = Some b -> M_Net.nouts (node_of b) i t = db_outs (btrace b i s);
    pj_stat : forall i b e v, nth_error w i = Some b -> In (i, (e, v)) t -> map stat (e_adl e) = stat_of b;
    pj_ok : forall i b, nth_error w i = Some b -> ok (b_conf b) (stat_of b) (bstate b i s) }.

Lemma possible_locals t i n ys : possible t -> nth_error wn i = Some n -> (forall e v, In (e, v) ys -> local_ev v) -> possible (t ++ map (pair i) ys).
Proof.
  intros P En. revert t P. induction ys as [|[e v] ys IH]; intros t P L; [now rewrite app_nil_r|].
  cbn [map]. change ((i, (e, v)) :: map (pair i) ys) with ([(i, (e, v))] ++ map (pair i) ys). rewrite app_assoc. apply IH; [|intros e' v' H; apply (L e'); now right].
  apply possible_snoc; [exact P|]. exists n. split; [exact En|]. cbn [snd]. specialize (L e v (or_introl eq_refl)). destruct v; try exact I; destruct L.
Qed.

Lemma project s : gpossible s -> exists t, projects s t.
Proof.
  induction 1 as [|s x P (t & IH) A].
  - exists []. split; [constructor| | | |].
    + intros i b _. destruct (b_init b i) as [-> _]. unfold nstate, nrun. cbn [hist filter map]. destruct (g1_same (b_conf b) (brun b i [])) as (E & _).
      unfold g_db. rewrite E. cbn [g0 g_pre p_db brun u_seqs u_now u_sys u_nbs u_list]. unfold exec, node_of. cbn [n_conf n_file n_now n_env].
      destruct (init _ _ _ _) as [d o]. reflexivity.
    + intros i b _. destruct (b_init b i) as [_ ->]. unfold M_Net.nouts, nrun. cbn [hist filter map]. unfold start_outs, exec, node_of. cbn [n_conf n_file n_now n_env brun u_seqs u_now u_sys u_nbs u_list].
      destruct (init _ _ _ _) as [d o]. cbn [run fst snd]. now rewrite app_nil_r.
    + intros i b e v _ [].
    + intros i b _. destruct (b_init b i) as [-> _]. destruct (g1_same (b_conf b) (brun b i [])) as (_ & E & _). unfold ok. rewrite E. cbn [g0 g_h brun u_nbs].
      split; [apply hinit_inv|reflexivity].
  - destruct A as (b & Eb & A). destruct x as [i x]. cbn [fst snd] in Eb, A. pose proof (nth_wn _ Eb) as Em.
    destruct (step_calls uri_of ang dst x (pj_ok IH i Eb)) as (O1 & Ad & K).
    pose proof (good_step (b_conf b) uri_of ang dst x (bstate b i s)) as T. pose proof (t_pre T) as Tp.
    assert (Main : exists ys, run (step (gc (b_conf b))) (g_db (bstate b i s)) ys =
        (g_db (fst (gstep (b_conf b) uri_of ang dst (bstate b i s) x)), db_outs (snd (gstep (b_conf b) uri_of ang dst (bstate b i s) x))) /\
        possible (t ++ map (pair i) ys) /\ (forall e v, In (e, v) ys -> map stat (e_adl e) = stat_of b)).
    { destruct K as [(v & a & Ev & Ep)|Loc].
      - rewrite Ep in Tp, Ad. cbn [run] in Tp. destruct (pstep_evs (gc (b_conf b)) uri_of (g_pre (bstate b i s)) (PvDb (i_sys (fst x)) a v)) as (ys & R & Ea & Ky).
        destruct (pstep uri_of (gc (b_conf b)) (g_pre (bstate b i s)) (PvDb (i_sys (fst x)) a v)) as [p o]. cbn [fst snd] in R. injection Tp as Tp1 Tp2. rewrite app_nil_r in Tp2.
        exists ys. split; [unfold g_db, db_outs; rewrite <- Tp1, <- Tp2; exact R|]. split.
        + destruct Ky as [->|(e & ->)]; [cbn [map]; rewrite app_nil_r; apply IH|]. cbn [map]. apply possible_snoc; [apply IH|]. exists (node_of b). split; [exact Em|].
          cbn [fst snd]. rewrite Ev in A. destruct v; try exact I.
          * destruct A as (j & m & ty & Ej & Nj & Eu & Hp). exists j, (node_of m), ty. split; [now apply nth_wn|]. split; [exact Nj|]. split; [exact Eu|]. rewrite (pj_outs IH _ Ej). exact Hp.
          * destruct A as [A|(j & m & f & c1 & c2 & l & k & Ej & Gf & Hd & Ec)]; [now left|right]. exists j, (node_of m), f, c1, c2, l, k. split; [now apply nth_wn|].
            split; [rewrite (pj_state IH _ Eb); exact Gf|]. split; [rewrite (pj_outs IH _ Ej); exact Hd|exact Ec].
          * exact A.
        + intros e v' Hv. rewrite (Ea _ _ Hv). apply Ad. now left.
      - assert (LA : forall y, In y (pres (snd (gstep (b_conf b) uri_of ang dst (bstate b i s) x))) -> local_pev y /\ map stat (adl_of y) = stat_of b) by (intros y Hy; split; auto).
        destruct (@prun_local (gc (b_conf b)) uri_of (stat_of b) _ (g_pre (bstate b i s)) LA) as (ys & R & Ly).
        rewrite Tp in R. cbn [fst snd] in R. exists ys. split; [exact R|]. split; [|intros e v Hv; exact (proj2 (Ly e v Hv))].
        apply (@possible_locals t i _ ys (pj_possible IH) Em). intros e v Hv. now apply (Ly e v). }
    destruct Main as (ys & R & Ps & St). exists (t ++ map (pair i) ys).
    assert (Here : nstate (node_of b) i (t ++ map (pair i) ys) = g_db (bstate b i (s ++ [(i, x)])) /\ M_Net.nouts (node_of b) i (t ++ map (pair i) ys) = db_outs (btrace b i (s ++ [(i, x)]))).
    { destruct (nrun_app (node_of b) i t (map (pair i) ys)) as [-> ->]. rewrite hist_pairs. destruct (b_step b i s x) as [-> ->]. rewrite (pj_state IH _ Eb), (pj_outs IH _ Eb).
      cbn [node_of n_conf]. rewrite R. cbn [fst snd]. split; [reflexivity|]. unfold db_outs, pouts. now rewrite !flat_map_app. }
    assert (There : forall j m, j <> i -> nstate (node_of m) j (t ++ map (pair i) ys) = nstate (node_of m) j t /\ M_Net.nouts (node_of m) j (t ++ map (pair i) ys) = M_Net.nouts (node_of m) j t).
    { intros j m N. destruct (nrun_app (node_of m) j t (map (pair i) ys)) as [-> ->]. rewrite hist_pairs_other by auto. cbn [run fst snd]. now rewrite app_nil_r. }
    assert (Nx : forall j, j <> i -> fst (i, x) <> j) by (cbn; auto).
    split; [exact Ps| | | |].
    + intros j m Ej. destruct (Nat.eq_dec j i) as [->|N]; [rewrite Eb in Ej; injection Ej as <-; apply Here|].
      rewrite (proj1 (There j m N)), (proj1 (b_other m s (i, x) (Nx j N))). now apply (pj_state IH).
    + intros j m Ej. destruct (Nat.eq_dec j i) as [->|N]; [rewrite Eb in Ej; injection Ej as <-; apply Here|].
      rewrite (proj2 (There j m N)), (proj2 (b_other m s (i, x) (Nx j N))). now apply (pj_outs IH).
    + intros j m e v Ej Hi. apply in_app_or in Hi as [Hi|Hi]; [exact (pj_stat IH _ _ _ Ej Hi)|]. apply in_map_iff in Hi as ([e' v'] & E & Hi). injection E as -> -> ->.
      rewrite Eb in Ej. injection Ej as <-. exact (St _ _ Hi).
    + intros j m Ej. destruct (Nat.eq_dec j i) as [->|N]; [rewrite Eb in Ej; injection Ej as <-; rewrite (proj1 (b_step b i s x)); exact O1|].
      rewrite (proj1 (b_other m s (i, x) (Nx j N))). now apply (pj_ok IH).
Qed.
End Project.
