(** C82: from the packets the router received to the faces it forwards to. *)
From Coq Require Import Sorting.Permutation Sorting.Sorted.
From Verif Require Import Base M_Nexthop L_Nexthop M_Tlv M_Adj M_Lsa M_Lsdb L_Lsdb S_Lsdb L_Lsdb3 L_Lsdb4 L_Lsdb6 S_Graph M_LinkState S_LinkState L_Forward P_LinkState
  M_Hyperbolic M_RoutingTable M_Npt S_Npt L_Npt4 P_Npt P_Npt3 M_Fib S_Fib S_Pipe M_Prefix M_Hello S_Hello L_Hello M_Router S_Router
  L_Router L_Router2 L_Router3 L_Router4 L_Router5 L_Router6 L_Router7 L_Router8 X_Lsdb X_Router P_Router.
Open Scope Z_scope.
Set Implicit Arguments.

(** ** Vocabulary *)

(** An LSA that was fetched during the run. *)
Definition fetched (r : grun) (l : lsa) : Prop := exists i fid, In (i, GvDb (EFetchDone fid (Some l))) (u_evs r).
(** Name LSAs as the decoder yields them (each name once), with costs that are not negative. *)
Definition sane_names (r : grun) : Prop := forall l, fetched r l ->
  NoDup (keys (body_names (l_body l))) /\ forall p x, In (p, x) (body_names (l_body l)) -> 0 <= x.
(** No stored Adjacency LSA lists a neighbour twice. *)
Definition sane_links (s : st) : Prop := forall l al, holds s l -> l_body l = BAdj al -> NoDup (map a_name al).
(** Of the other routers, exactly [d] advertises [p] in the stored LSAs. *)
Definition from_only (self : name) (s : st) (p d : name) : Prop :=
  d <> self /\ (exists x, lists s d p x) /\ forall d' x, d' <> self -> lists s d' p x -> d' = d.

Lemma perm_adv L L' : Permutation L L' -> forall u v k, advertises L u v k -> advertises L' u v k.
Proof. intros P u v k (l & H & X). exists l. split; [eapply Permutation_in; eassumption|exact X]. Qed.
Lemma perm_usable L L' : Permutation L L' -> forall u v k, usable L u v k -> usable L' u v k.
Proof. intros P u v k (a & b & A & B & X). exists a, b. split; [eapply perm_adv; eassumption|]. split; [eapply perm_adv; eassumption|exact X]. Qed.
Lemma perm_walk L L' : Permutation L L' -> forall u v k, walk (usable L) u v k -> walk (usable L') u v k.
Proof. intros P. apply walk_mono. now apply perm_usable. Qed.
Lemma perm_shortest L L' : Permutation L L' -> forall u v k, shortest (usable L) u v k -> shortest (usable L') u v k.
Proof.
  intros P u v k [W M]. split; [eapply perm_walk; eassumption|]. intros k' W'. apply M. eapply perm_walk; [symmetry; exact P|exact W'].
Qed.
Lemma perm_via L L' : Permutation L L' -> forall face s d f k, via L face s d f k -> via L' face s d f k.
Proof.
  intros P face s d f k (nb & a & w & H1 & H2 & [W M] & H3). exists nb, a, w. split; [exact H1|]. split; [eapply perm_usable; eassumption|]. split; [|exact H3].
  assert (Av : forall A B, Permutation A B -> forall u v z, avoiding s (usable A) u v z -> avoiding s (usable B) u v z).
  { intros A B Q u v z [X Y]. split; [eapply perm_usable; eassumption|exact Y]. }
  split; [eapply walk_mono; [apply (Av _ _ P)|exact W]|]. intros k' W'. apply M. eapply walk_mono; [apply (Av _ _ (Permutation_sym P))|exact W'].
Qed.

Section P.
Variables (c : gconf) (uri_of : name -> string) (ang : list Z -> list Z -> Z) (dst : Z -> Z -> Z -> Z).
Notation self := (c_self (gc c)).
Notation hy := (c_hyp (gc c)).
Notation gstate := (S_Router.gstate c uri_of ang dst).
Notation gtrace := (S_Router.gtrace c uri_of ang dst).
Notation up := (P_Router.up c uri_of ang dst).
Notation scheduled := (P_Router.scheduled c uri_of ang dst).
Notation db := (P_Router.db c uri_of ang dst).
Notation own_adj := (P_Router.own_adj c uri_of ang dst).

(** The configured neighbours; the face towards one of them. *)
Definition is_neighbour (r : grun) (n : name) : Prop := neighbour (h_adl (g_h (gstate r))) n.
Definition face (r : grun) (n : name) : uri := face_of (adl_faces (h_adl (g_h (gstate r)))) n.
(** The Adjacency LSAs of the database. *)
Definition topology (r : grun) : list adj_lsa := adj_view (adj_lsas (db r)).
(** The faces the FIB holds for a prefix. *)
Definition faces_for (r : grun) (p : name) : list uri := fib_faces (g_fib (gstate r)) p.
(** An ordinary prefix: not the name of this router, of a neighbour or of a router that has LSAs. *)
Definition ordinary (r : grun) (p : name) : Prop := p <> self /\ ~ is_neighbour r p /\ no_router (db r) p.
(** The router runs link-state routing, has built its own Adjacency LSA, has no calculation pending and
    its last calculation was not skipped nor followed by the removal of an Adjacency LSA. *)
Definition settled (r : grun) : Prop := hy <> HOn /\ own_adj r /\ scheduled r = [] /\ S_Router.calm self (gtrace r) = true.

Lemma wf_topology r : up r -> sane_links (db r) -> wf_lsdb (topology r).
Proof.
  intros U S. pose proof (j_db (J_exec c uri_of ang dst r U)) as I. unfold topology. fold (db r) in I. split.
  - pose proof (NoDup_adj_lsas I) as N. revert N. unfold adj_view.
    assert (T : forall l, In l (adj_lsas (db r)) -> l_type l = TAdj) by (intros l H; now apply In_adj_lsas in H).
    revert T. generalize (adj_lsas (db r)). induction l as [|x l IH]; [constructor|]. intros T N. cbn [map] in N. inversion N as [|? ? H1 H2]; subst. clear N.
    cbn [flat_map]. rewrite map_app. specialize (IH (fun y H => T y (or_intror H)) H2). destruct (l_body x) as [al|? ?|?]; [|exact IH..].
    cbn [map app al_origin]. constructor; [|exact IH]. intros H. apply H1.
    apply in_map_iff in H as (a & E & H). apply in_flat_map in H as (y & Hy & H). destruct (l_body y) as [al'|? ?|?]; [|destruct H..].
    destruct H as [<-|[]]. cbn [al_origin] in E. apply in_map_iff. exists y. split; [|exact Hy]. unfold l_key. rewrite E.
    now rewrite (T x (or_introl eq_refl)), (T y (or_intror Hy)).
  - intros a H. unfold adj_view in H. apply in_flat_map in H as (l & Hl & H). apply In_adj_lsas in Hl as [Hl _].
    destruct (l_body l) as [al|? ?|?] eqn:B; try (destruct H; fail). destruct H as [<-|[]]. cbn [al_links]. rewrite map_map. cbn.
    exact (S l al Hl B).
Qed.

(** The run of the router, as the modules see it. *)
Lemma pieces r : up r -> sane_names r -> exists levs nevs t outs,
  name_maps levs /\ fst (exec (gc c) (u_seqs r) (u_now r) (Env (u_sys r) (pl_info (u_list r)) (conf_adl (u_nbs r))) levs) = db r /\
  subscribed nevs (snd (exec (gc c) (u_seqs r) (u_now r) (Env (u_sys r) (pl_info (u_list r)) (conf_adl (u_nbs r))) levs)) /\
  (hy <> HOn -> announced ls_table nevs) /\ (forall d p x, d <> self -> ever nevs d p x -> 0 <= x) /\
  nexec self nevs = Ok (t, outs) /\ routes_now nevs = routes_now (npts (gtrace r)) /\
  exists l fevs, fib_calls fevs = outs /\ Forall (keeps_names (map a_name l)) fevs /\ (forall n, neighbour l n <-> is_neighbour r n) /\
    g_fib (gstate r) = fstate (fconf_of c) l (u_now r) fevs.
Proof.
  intros U S. set (e0 := Env _ _ _).
  pose proof (tracks_exec c uri_of ang dst r) as T. pose proof (fifo_all c uri_of ang dst r U) as F.
  set (tr := snd (start c (g0 c r)) ++ later c uri_of ang dst r) in *.
  pose proof (t_pre T) as Tp. destruct (prun_steps (gc c) uri_of (pres tr) (g_pre (g0 c r))) as (ys & R & Fy & _).
  rewrite Tp in R. cbn [fst snd] in R. change (p_db (g_pre (g0 c r))) with (fst (init (gc c) (u_seqs r) (u_now r) e0)) in R.
  assert (Ex : exec (gc c) (u_seqs r) (u_now r) e0 ys = (db r, start_outs c r ++ dbo (pouts tr))).
  { unfold exec. unfold start_outs. fold e0. destruct (init (gc c) (u_seqs r) (u_now r) e0) as [s0 o0]. cbn [fst] in R. rewrite R. reflexivity. }
  assert (Fetch : forall e fid l, In (e, EFetchDone fid (Some l)) ys -> fetched r l).
  { intros e fid l H. destruct (Fy _ _ _ H) as (sys & a & Hp). unfold pres in Hp. apply in_flat_map in Hp as (g & Hg & Hp).
    destruct g as [x|x|x|x|x|o|o|o|o|o|]; try (destruct Hp; fail). destruct Hp as [->|[]]. unfold tr in Hg. apply in_app_or in Hg as [Hg|Hg].
    - apply start_fibP in Hg. destruct Hg.
    - unfold later in Hg. apply run_fetch in Hg as (i & Hi). now exists i, fid. }
  set (pre := map (fun x : kind * lsa * npl * npl => let '(k, l, a, d) := x in NvNotify k l a d) (out_notes (start_outs c r))).
  assert (Pi : in_notes pre = out_notes (start_outs c r)).
  { unfold pre. generalize (out_notes (start_outs c r)). induction l as [|[[[k l0] a] d] l IH]; [reflexivity|]. unfold in_notes in *. cbn [map flat_map app]. now rewrite IH. }
  assert (Po : forall e, In e pre -> exists k l a d, e = NvNotify k l a d /\ l_origin l = self).
  { intros e H. unfold pre in H. apply in_map_iff in H as ([[[k l] a] d] & <- & H). exists k, l, a, d. split; [reflexivity|]. eapply init_note. exact H. }
  assert (Pn : forall s, neach (nstep self) pre s = Ok (s, [])).
  { clear Pi. revert Po. generalize pre. induction pre0 as [|e l IH]; intros Po s; [reflexivity|]. cbn [neach].
    destruct (Po e (or_introl eq_refl)) as (k & l0 & a & d & -> & Q). cbn [nstep]. unfold from_lsdb. rewrite Q, eqb_refl. cbn [nbind].
    rewrite (IH (fun e H => Po e (or_intror H))). reflexivity. }
  assert (Np : npts (gtrace r) = npts tr) by (apply (proj_start c uri_of ang dst); reflexivity).
  pose proof (y_n F) as Yn. cbn [q_n qnil app] in Yn. rewrite app_nil_r in Yn.
  pose proof (y_t F) as Yt. cbn [q_t qnil app] in Yt. rewrite app_nil_r in Yt.
  pose proof (y_o F) as Yo. cbn [q_o qnil app] in Yo. rewrite app_nil_r in Yo.
  assert (Sub : subscribed (pre ++ npts tr) (snd (exec (gc c) (u_seqs r) (u_now r) e0 ys))).
  { unfold subscribed. rewrite Ex. cbn [snd]. unfold in_notes, out_notes in *. rewrite !flat_map_app. rewrite Pi. f_equal. symmetry. exact Yn. }
  exists ys, (pre ++ npts tr), (g_npt (gstate r)), (nouts tr). split; [|split; [|split; [exact Sub|split; [|split; [|split; [|split]]]]]].
  - intros [e v] fid l H E. cbn [snd] in E. subst v. exact (proj1 (S l (Fetch _ _ _ H))).
  - now rewrite Ex.
  - intros Hy rt po no H. apply in_app_or in H as [H|H]; [destruct (Po _ H) as (k & l & a & d & Q & _); discriminate Q|].
    apply ls_list_table. pose proof (t_rt T) as Tr. apply (@run_tables self (gc_max c) hy (gc_calc c) ang dst Hy _ _ _ _ Tr).
    rewrite Yt. unfold routes_in. apply in_flat_map. exists (NvRoutes rt po no). split; [exact H|now left].
  - intros d p x Hd (k & l & a & m & H & Ho & Hk & Hin).
    assert (Hn : In (k, l, a, m) (out_notes (snd (exec (gc c) (u_seqs r) (u_now r) e0 ys)))).
    { rewrite <- Sub. unfold in_notes. apply in_flat_map. exists (NvNotify k l a m). split; [exact H|now left]. }
    apply exec_note in Hn as (e & fid & l0 & H1 & H2); [|exact Hk|congruence]. exact (proj2 (S l0 (Fetch _ _ _ H1)) p x (H2 _ Hin)).
  - unfold nexec. rewrite neach_app, Pn. cbn [nbind]. pose proof (t_npt T) as Tn. cbn [g0 g_npt] in Tn. rewrite Tn. reflexivity.
  - rewrite Np. unfold routes_now. rewrite fold_left_app. f_equal. clear - Po. revert Po. generalize (@nil (name * nhl)). generalize pre.
    induction pre0 as [|e l IH]; intros z Po; [reflexivity|]. cbn [fold_left]. destruct (Po e (or_introl eq_refl)) as (k & l0 & a & d & -> & _).
    apply IH. intros; apply Po; now right.
  - destruct (@hinit_inv (hconf_of c) (u_nbs r)) as [Hi _].
    assert (Nm : map a_name (h_adl (g_h (gstate r))) = map a_name (h_adl (fst (hinit (hconf_of c) (u_nbs r))))).
    { apply names_of_stat. exact (j_adl (J_exec c uri_of ang dst r U)). }
    exists (h_adl (fst (hinit (hconf_of c) (u_nbs r)))), (fibs tr). split; [symmetry; exact Yo|]. split; [|split].
    + apply Forall_forall. intros e He. unfold fibs in He. apply in_flat_map in He as (g & Hg & He).
      destruct g as [x|x|x|x|x|o|o|o|o|o|]; try (destruct He; fail). destruct He as [<-|[]].
      assert (A : adlP (map a_name (h_adl (fst (hinit (hconf_of c) (u_nbs r))))) (CFib x)).
      { unfold tr in Hg. apply in_app_or in Hg as [Hg|Hg].
        - apply fibc_adlP. revert Hg. apply (@all_each _ fibc). intros n. apply fib_fibc. exact Logic.I.
        - unfold later in Hg. destruct (g1_same c r) as (_ & E2 & _). revert Hg. apply run_adl; rewrite E2; [exact Hi|reflexivity]. }
      destruct x; exact A || exact Logic.I.
    + intros n. unfold neighbour, is_neighbour. unfold neighbour. now rewrite Nm.
    + pose proof (t_fib T) as Tf. cbn [g0 g_fib] in Tf. unfold fstate, fexec. now rewrite Tf.
Qed.

Lemma fib_hops r p d : up r -> sane_names r -> hy <> HOn -> ordinary r p -> from_only self (db r) p d ->
  exists chosen, cheapest (gc_max c) (hops_to (routes_now (npts (gtrace r))) d) chosen /\ Permutation (faces_for r p) (map nh_uri chosen).
Proof.
  intros U S Hy (O1 & O2 & O3) (D1 & (x & D2) & D3).
  destruct (pieces U S) as (levs & nevs & t & outs & N1 & N2 & N3 & N4 & N5 & N6 & N7 & l & fevs & F1 & F2 & F3 & F4).
  set (e0 := Env _ _ _) in *.
  destruct (@C31_mirror_partial (gc c) (u_seqs r) (u_now r) e0 levs nevs N1 N3) as (t' & outs' & E & M1 & M2 & M3 & _).
  rewrite N6 in E. injection E as <- <-. rewrite N2 in M1, M2.
  assert (Hd : p <> d). { destruct D2 as (l0 & H1 & H2 & _). intros ->. exact (O3 l0 H1 H2). }
  assert (R : routers t p = [d]).
  { assert (In1 : In d (routers t p)) by (apply M1; [exact Hd|split; [exact D1|split; [exact O1|now exists x]]]).
    assert (All : forall d', In d' (routers t p) -> d' = d).
    { intros d' H. destruct (eq_dec p d') as [<-|Q].
      - exfalso. destruct (M2 p H) as (_ & l0 & H1 & H2). exact (O3 l0 H1 H2).
      - apply M1 in H as (H1 & _ & x' & H2); [|exact Q]. exact (D3 d' x' H1 H2). }
    pose proof (M3 p) as Nd. destruct (routers t p) as [|a [|b rs]]; [destruct In1|now rewrite (All a (or_introl eq_refl))|].
    exfalso. inversion Nd as [|? ? Hn _]. apply Hn. left. rewrite (All a (or_introl eq_refl)). now apply All; right; left. }
  destruct (@C40_linkstate_partial (gc c) (u_seqs r) (u_now r) e0 levs nevs t outs (fconf_of c) l (u_now r) fevs p d N1 N3 (N4 Hy)
              (fun d' x' => N5 d' p x') N6 R F1 F2) as (ch & C1 & C2 & _); [now rewrite F3|].
  exists ch. rewrite N7 in C1. split; [exact C1|]. unfold faces_for. rewrite F4. exact C2.
Qed.

Lemma hops_rt t d : hops_to t d = rt_hops t d. Proof. reflexivity. Qed.

(** With one face per prefix: if the advertising router is reachable, the FIB holds the face towards a
    neighbour on a shortest path to it; if not, the FIB holds nothing for the prefix. *)
Theorem C82_single r p d : gc_max c = 1%N -> up r -> settled r -> sane_names r -> sane_links (db r) ->
  ordinary r p -> from_only self (db r) p d ->
  (forall cost, shortest (usable (topology r)) self d cost -> cost < INF_DISTANCE ->
     exists nb k, nb <> self /\ usable (topology r) self nb k /\ walk (usable (topology r)) nb d (cost - k) /\
       faces_for r p = [face r nb]) /\
  ((forall cost, walk (usable (topology r)) self d cost -> INF_DISTANCE <= cost) -> faces_for r p = []).
Proof.
  intros M U (Hy & Ow & Sc & Ca) S1 S2 Or Fo. pose proof (wf_topology U S2) as W.
  destruct (fib_hops U S1 Hy Or Fo) as (ch & C & Pm).
  destruct (C30_table_partial c uri_of ang dst r Hy U Sc Ca) as [X _]. destruct (X Ow) as (L & Pl & E). clear X.
  assert (Pl' : Permutation (topology r) L) by (symmetry; exact Pl). pose proof (wf_perm Pl' W) as WL.
  assert (Hd : d <> self) by apply Fo. rewrite M in E, C. rewrite hops_rt in C. split.
  - intros cost Sh Lt. destruct (@C24_next_hop_on_shortest_path L self (adl_faces (h_adl (g_h (gstate r)))) WL) as (t & Et & H).
    rewrite E in Et. injection Et as <-.
    destruct (H d cost Hd (perm_shortest Pl' Sh) Lt) as (nb & k & H1 & H2 & H3 & H4). exists nb, k.
    split; [exact H1|]. split; [exact (perm_usable Pl H2)|]. split; [exact (perm_walk Pl H3)|].
    rewrite H4 in C. destruct C as (C1 & rest & C2 & _). cbn in C1.
    destruct ch as [|h [|h' ch]]; try discriminate C1. apply Permutation_length_1_inv in C2 as C2'.
    cbn [app] in C2'. injection C2' as E1 _. subst h. cbn [map nh_uri mk_nh] in Pm. symmetry in Pm. now apply Permutation_length_1_inv in Pm.
  - intros No. destruct (@C23_route_costs L self (adl_faces (h_adl (g_h (gstate r)))) WL) as (t & Et & H).
    rewrite E in Et. injection Et as <-. destruct (H d Hd) as (_ & H2 & _).
    rewrite H2 in C by (intros cost Wk; apply No; exact (perm_walk Pl Wk)).
    destruct C as (_ & rest & C2 & _). apply Permutation_nil in C2. apply app_eq_nil in C2 as [-> _]. cbn in Pm. now apply Permutation_sym, Permutation_nil in Pm.
Qed.

(** With several faces per prefix: the FIB holds the cheapest faces, as many as configured, where the cost
    of a face is that of the best path to the advertising router that begins with a usable link to a
    neighbour behind that face and does not come back. *)
Theorem C82_multipath r p d : gc_max c <> 1%N -> up r -> settled r -> sane_names r -> sane_links (db r) ->
  ordinary r p -> from_only self (db r) p d ->
  exists hops chosen : nhl,
    (forall f k, (exists h, In h hops /\ nh_uri h = f /\ nh_cost h = k) <->
       exists cost, k = of_int cost /\ cost < INF_DISTANCE /\
         via (topology r) (face r) self d f cost /\ forall cost', via (topology r) (face r) self d f cost' -> cost <= cost') /\
    NoDup (map nh_uri hops) /\ cheapest (gc_max c) hops chosen /\ Permutation (faces_for r p) (map nh_uri chosen).
Proof.
  intros M U (Hy & Ow & Sc & Ca) S1 S2 Or Fo. pose proof (wf_topology U S2) as W.
  destruct (fib_hops U S1 Hy Or Fo) as (ch & C & Pm).
  destruct (C30_table_partial c uri_of ang dst r Hy U Sc Ca) as [X _]. destruct (X Ow) as (L & Pl & E). clear X.
  assert (Pl' : Permutation (topology r) L) by (symmetry; exact Pl). pose proof (wf_perm Pl' W) as WL.
  assert (Hd : d <> self) by apply Fo.
  destruct (@C25_multipath_costs L self (adl_faces (h_adl (g_h (gstate r)))) (gc_max c) WL M) as (t & Et & _ & H).
  rewrite E in Et. injection Et as <-. destruct (H d Hd) as [H1 H2].
  exists (hops_to (routes_now (npts (gtrace r))) d), ch. split; [|split; [exact H1|split; [exact C|exact Pm]]].
  intros f k. rewrite hops_rt, H2. split; intros (cost & K1 & K2 & K3 & K4); exists cost; (split; [exact K1|]); (split; [exact K2|]).
  - split; [exact (perm_via Pl K3)|]. intros cost' V. apply K4. exact (perm_via Pl' V).
  - split; [exact (perm_via Pl' K3)|]. intros cost' V. apply K4. exact (perm_via Pl V).
Qed.

(** A prefix that no other router advertises is not in the FIB; this needs no condition on the routing
    calculation. *)
Theorem C82_gone r p : up r -> sane_names r -> ordinary r p ->
  (forall d x, d <> self -> ~ lists (db r) d p x) -> get p (f_tab (g_fib (gstate r))) = None.
Proof.
  intros U S (O1 & O2 & O3) No.
  destruct (pieces U S) as (levs & nevs & t & outs & N1 & N2 & N3 & N4 & N5 & N6 & N7 & l & fevs & F1 & F2 & F3 & F4).
  set (e0 := Env _ _ _) in *.
  destruct (@C31_mirror_partial (gc c) (u_seqs r) (u_now r) e0 levs nevs N1 N3) as (t' & outs' & E & M1 & M2 & M3 & _).
  rewrite N6 in E. injection E as <- <-. rewrite N2 in M1, M2. rewrite F4.
  apply (@C40_gone (gc c) (u_seqs r) (u_now r) e0 levs nevs t outs (fconf_of c) l (u_now r) fevs p N1 N3 N6); [|exact F1|exact F2|now rewrite F3].
  destruct (routers t p) as [|d rs] eqn:R; [reflexivity|]. exfalso. assert (H : In d (routers t p)) by (rewrite R; now left).
  destruct (eq_dec p d) as [<-|Q].
  - destruct (M2 p H) as (_ & l0 & H1 & H2). exact (O3 l0 H1 H2).
  - apply M1 in H as (H1 & _ & x & H2); [|exact Q]. exact (No d x H1 H2).
Qed.

(** Without an Adjacency LSA of this router (no active neighbour) nothing is forwarded. *)
Theorem C82_alone r p d : up r -> hy <> HOn -> ~ own_adj r -> scheduled r = [] -> S_Router.calm self (gtrace r) = true -> sane_names r ->
  ordinary r p -> from_only self (db r) p d -> faces_for r p = [].
Proof.
  intros U Hy Ow Sc Ca S1 Or Fo. destruct (fib_hops U S1 Hy Or Fo) as (ch & C & Pm).
  destruct (C30_table_partial c uri_of ang dst r Hy U Sc Ca) as [_ X]. rewrite (X Ow) in C. destruct C as (_ & rest & C2 & _). cbn in C2.
  apply Permutation_nil in C2. apply app_eq_nil in C2 as [-> _]. cbn in Pm. now apply Permutation_sym, Permutation_nil in Pm.
Qed.
End P.

(** ** A concrete run *)

(** r3 advertises a prefix before the calculation of [calcR] runs. *)
Definition nameR : list (inp * gev) :=
  linkedR ++ map at_ [GvDb (ESync (syncX "r3" TName) 1 301);
                      GvDb (EFetchDone 2 (Some (Lsa thirdX 1 (T0 + 3600 * SEC) (BName [(X_Lsdb.pX, of_int 7)]))));
                      GvTick (15 * SEC); GvCalc 0].
Definition gcM (m : N) : gconf := GConf (confX HOff) (gc_sync (gcX HOff)) 3 m 15.

Fixpoint nodupb (l : list name) : bool := match l with [] => true | x :: l' => negb (existsb (eqb x) l') && nodupb l' end.
Lemma not_inb (p : name) l : negb (existsb (eqb p) l) = true -> ~ In p l.
Proof.
  intros H Hi. assert (X : existsb (eqb p) l = true) by (apply existsb_exists; exists p; split; [exact Hi|apply eqb_refl]).
  rewrite X in H. discriminate H.
Qed.
Lemma nodupb_ok l : nodupb l = true -> NoDup l.
Proof.
  induction l as [|x l IH]; [constructor|]. cbn [nodupb]. intros H. apply andb_prop in H as [H1 H2].
  constructor; [exact (not_inb _ _ H1)|now apply IH].
Qed.
Definition sane_evs (evs : list (inp * gev)) : bool :=
  forallb (fun x => match snd x with
                    | GvDb (EFetchDone _ (Some l)) =>
                        nodupb (keys (body_names (l_body l))) &&
                        forallb (fun y => 0 <=? snd y) (body_names (l_body l))
                    | _ => true
                    end) evs.
Lemma sane_evs_ok r : sane_evs (u_evs r) = true -> sane_names r.
Proof.
  intros H l (i & fid & Hi). unfold sane_evs in H. rewrite forallb_forall in H. specialize (H _ Hi). cbn [snd] in H.
  apply andb_prop in H as [N H]. split; [now apply nodupb_ok|]. intros p x Hp. rewrite forallb_forall in H.
  specialize (H _ Hp). cbn [snd] in H. now apply Z.leb_le.
Qed.

Definition sane_dbb (s : st) : bool :=
  forallb (fun l => match l_body l with BAdj al => nodupb (map a_name al) | _ => true end) (contents s).
Lemma sane_dbb_ok s : sane_dbb s = true -> sane_links s.
Proof.
  intros H l al Hl B. unfold sane_dbb in H. rewrite forallb_forall in H. specialize (H l Hl). rewrite B in H. now apply nodupb_ok.
Qed.

Definition onlyb (self : name) (s : st) (p d : name) : bool :=
  negb (eqb d self) &&
  existsb (fun l => eqb (l_origin l) d && match get p (body_names (l_body l)) with Some _ => true | None => false end) (contents s) &&
  forallb (fun l => eqb (l_origin l) d || eqb (l_origin l) self || match get p (body_names (l_body l)) with Some _ => false | None => true end) (contents s).
Lemma onlyb_ok self s p d : onlyb self s p d = true -> from_only self s p d.
Proof.
  unfold onlyb. intros H. apply andb_prop in H as [H H3]. apply andb_prop in H as [H1 H2]. split; [|split].
  - intros ->. rewrite eqb_refl in H1. discriminate H1.
  - apply existsb_exists in H2 as (l & Hl & H2). apply andb_prop in H2 as [E H2]. apply (proj1 (eqb_eq _ _)) in E.
    destruct (get p (body_names (l_body l))) as [x|] eqn:G; [|discriminate H2]. exists x, l. auto.
  - intros d' x N (l & Hl & <- & G). rewrite forallb_forall in H3. specialize (H3 l Hl). rewrite G in H3.
    destruct (eqb (l_origin l) d) eqn:E; [now apply (proj1 (eqb_eq _ _)) in E|].
    destruct (eqb (l_origin l) self) eqn:E2; [apply (proj1 (eqb_eq _ _)) in E2; contradiction|discriminate H3].
Qed.

Definition ordb (self : name) (s : st) (l : adl) (p : name) : bool :=
  negb (eqb p self) && negb (existsb (eqb p) (map a_name l)) && negb (existsb (eqb p) (map l_origin (contents s))).
Section E.
Variables (c : gconf) (r : grun) (p d : name).
Notation g := (S_Router.gstate c uriR angR dstR r).
Definition caseb : bool :=
  negb (g_dead g) && negb (eqb (c_hyp (gc c)) HOn) && existsb (fun l => eqb (l_key l) (c_self (gc c), TAdj)) (contents (g_db g)) &&
  match rt_pend (g_rt g) with [] => true | _ => false end && S_Router.calm (c_self (gc c)) (S_Router.gtrace c uriR angR dstR r) &&
  sane_evs (u_evs r) && sane_dbb (g_db g) && ordb (c_self (gc c)) (g_db g) (h_adl (g_h g)) p && onlyb (c_self (gc c)) (g_db g) p d.
Lemma caseb_ok : caseb = true ->
  up c uriR angR dstR r /\ settled c uriR angR dstR r /\ sane_names r /\ sane_links (db c uriR angR dstR r) /\
  ordinary c uriR angR dstR r p /\ from_only (c_self (gc c)) (db c uriR angR dstR r) p d.
Proof.
  unfold caseb. intros H. repeat (apply andb_prop in H as [H ?]).
  rename H into A1. rename H7 into A2. rename H6 into A3. rename H5 into A4. rename H4 into A5. rename H3 into A6. rename H2 into A7. rename H1 into A8. rename H0 into A9.
  split; [|split; [|split; [|split; [|split]]]].
  - unfold up. destruct (g_dead g); [discriminate A1|reflexivity].
  - split; [|split; [|split]].
    + intros E. rewrite E in A2. discriminate A2.
    + apply existsb_exists in A3 as (l & Hl & K). apply (proj1 (eqb_eq _ _)) in K. exists l. split; [exact Hl|exact K].
    + unfold scheduled. destruct (rt_pend (g_rt g)); [reflexivity|discriminate A4].
    + exact A5.
  - now apply sane_evs_ok.
  - now apply sane_dbb_ok.
  - unfold ordb in A8. apply andb_prop in A8 as [A8 B3]. apply andb_prop in A8 as [B1 B2]. split; [|split].
    + intros E. rewrite E, eqb_refl in B1. discriminate B1.
    + exact (not_inb _ _ B2).
    + intros l Hl E. apply (not_inb _ _ B3). rewrite <- E. now apply in_map.
  - now apply onlyb_ok.
Qed.
End E.

(** One face per prefix: the route to r3 costs 15 through r2 and 25 through the direct link. *)
Lemma ex_single : caseb (gcM 1) (runR HOff nameR) X_Lsdb.pX thirdX = true /\
  faces_for (gcM 1) uriR angR dstR (runR HOff nameR) X_Lsdb.pX = [uri2].
Proof. split; vm_compute; reflexivity. Qed.
Lemma ex_multi : caseb (gcM 2) (runR HOff nameR) X_Lsdb.pX thirdX = true /\
  faces_for (gcM 2) uriR angR dstR (runR HOff nameR) X_Lsdb.pX = [uri2; uri3].
Proof. split; vm_compute; reflexivity. Qed.

Notation rN := (runR HOff nameR).
Example C82_single_example : gc_max (gcM 1) = 1%N /\ up (gcM 1) uriR angR dstR rN /\ settled (gcM 1) uriR angR dstR rN /\ sane_names rN /\
  sane_links (db (gcM 1) uriR angR dstR rN) /\ ordinary (gcM 1) uriR angR dstR rN X_Lsdb.pX /\
  from_only selfX (db (gcM 1) uriR angR dstR rN) X_Lsdb.pX thirdX /\
  (exists cost, shortest (usable (topology (gcM 1) uriR angR dstR rN)) selfX thirdX cost /\ cost < INF_DISTANCE) /\
  faces_for (gcM 1) uriR angR dstR rN X_Lsdb.pX = [uri2] /\ face (gcM 1) uriR angR dstR rN farX = uri2.
Proof.
  destruct ex_single as [E1 E2]. destruct (caseb_ok _ _ _ _ E1) as (A1 & A2 & A3 & A4 & A5 & A6).
  split; [reflexivity|]. split; [exact A1|]. split; [exact A2|]. split; [exact A3|]. split; [exact A4|]. split; [exact A5|]. split; [exact A6|].
  split; [|split; [exact E2|vm_compute; reflexivity]].
  pose proof (wf_topology A1 A4) as W. set (T := topology (gcM 1) uriR angR dstR rN) in *.
  assert (ET : exists o1 o2 o3 l3, T = [o1; o2; o3] /\
     o1 = AdjLsa selfX [(farX, 10); (thirdX, 25)] /\ o2 = AdjLsa farX [(selfX, 10); (thirdX, 5)] /\ o3 = AdjLsa thirdX l3 /\ l3 = [(selfX, 25); (farX, 5)]).
  { do 4 eexists. split; [vm_compute; reflexivity|]. split; [reflexivity|]. split; [reflexivity|]. split; reflexivity. }
  destruct ET as (o1 & o2 & o3 & l3 & ET & -> & -> & -> & ->). clearbody T. subst T.
  destruct (@shortest_exists _ selfX thirdX 15 W) as (k & Hk & Le).
  - change 15 with (10 + (5 + 0)). apply walk_cons with (v := farX); [|apply walk_cons with (v := thirdX); [|constructor]].
    + exists 10, 10. split; [|split; [|lia]].
      * eexists. split; [left; reflexivity|]. split; [reflexivity|]. now left.
      * eexists. split; [right; left; reflexivity|]. split; [reflexivity|]. now left.
    + exists 5, 5. split; [|split; [|lia]].
      * eexists. split; [right; left; reflexivity|]. split; [reflexivity|]. right. now left.
      * eexists. split; [right; right; left; reflexivity|]. split; [reflexivity|]. right. now left.
  - unfold INF_DISTANCE. lia.
  - exists k. split; [exact Hk|]. unfold INF_DISTANCE. lia.
Qed.

Example C82_multipath_example : gc_max (gcM 2) <> 1%N /\ up (gcM 2) uriR angR dstR rN /\ settled (gcM 2) uriR angR dstR rN /\ sane_names rN /\
  sane_links (db (gcM 2) uriR angR dstR rN) /\ ordinary (gcM 2) uriR angR dstR rN X_Lsdb.pX /\
  from_only selfX (db (gcM 2) uriR angR dstR rN) X_Lsdb.pX thirdX /\
  faces_for (gcM 2) uriR angR dstR rN X_Lsdb.pX = [uri2; uri3].
Proof.
  destruct ex_multi as [E1 E2]. destruct (caseb_ok _ _ _ _ E1) as (A1 & A2 & A3 & A4 & A5 & A6).
  split; [discriminate|]. split; [exact A1|]. split; [exact A2|]. split; [exact A3|]. split; [exact A4|]. split; [exact A5|]. split; [exact A6|exact E2].
Qed.

(** r3 withdraws the prefix again: the entry that was there is gone. *)
Definition withdrawR : list (inp * gev) :=
  nameR ++ map at_ [GvDb (ESync (syncX "r3" TName) 2 301);
                    GvDb (EFetchDone 3 (Some (Lsa thirdX 2 (T0 + 3600 * SEC) (BName []))))].
Definition goneb (c : gconf) (r : grun) (p : name) : bool :=
  let g := S_Router.gstate c uriR angR dstR r in
  negb (g_dead g) && sane_evs (u_evs r) && ordb (c_self (gc c)) (g_db g) (h_adl (g_h g)) p &&
  forallb (fun l => eqb (l_origin l) (c_self (gc c)) || match get p (body_names (l_body l)) with Some _ => false | None => true end) (contents (g_db g)).
Lemma goneb_ok c r p : goneb c r p = true -> up c uriR angR dstR r /\ sane_names r /\ ordinary c uriR angR dstR r p /\
  forall d x, d <> c_self (gc c) -> ~ lists (db c uriR angR dstR r) d p x.
Proof.
  unfold goneb. cbv zeta. intros H. repeat (apply andb_prop in H as [H ?]). rename H into A1. rename H2 into A6. rename H1 into A8. rename H0 into A9.
  split; [|split; [|split]].
  - unfold up. destruct (g_dead _); [discriminate A1|reflexivity].
  - now apply sane_evs_ok.
  - unfold ordb in A8. apply andb_prop in A8 as [A8 B3]. apply andb_prop in A8 as [B1 B2]. split; [|split].
    + intros E. rewrite E, eqb_refl in B1. discriminate B1.
    + exact (not_inb _ _ B2).
    + intros l Hl E. apply (not_inb _ _ B3). rewrite <- E. now apply in_map.
  - intros d x N (l & Hl & <- & G). rewrite forallb_forall in A9. specialize (A9 l Hl). rewrite G in A9.
    destruct (eqb (l_origin l) (c_self (gc c))) eqn:E2; [apply (proj1 (eqb_eq _ _)) in E2; contradiction|discriminate A9].
Qed.
Lemma ex_gone : goneb (gcM 2) (runR HOff withdrawR) X_Lsdb.pX = true.
Proof. vm_compute. reflexivity. Qed.
Example C82_gone_example : up (gcM 2) uriR angR dstR (runR HOff withdrawR) /\ sane_names (runR HOff withdrawR) /\
  ordinary (gcM 2) uriR angR dstR (runR HOff withdrawR) X_Lsdb.pX /\
  forall d x, d <> selfX -> ~ lists (db (gcM 2) uriR angR dstR (runR HOff withdrawR)) d X_Lsdb.pX x.
Proof. exact (goneb_ok _ _ _ ex_gone). Qed.

(** r3's prefix is known, but no neighbour has answered yet. *)
Definition aloneR : list (inp * gev) :=
  map at_ [GvDb (ESync (syncX "r3" TName) 1 301);
           GvDb (EFetchDone 0 (Some (Lsa thirdX 1 (T0 + 3600 * SEC) (BName [(X_Lsdb.pX, of_int 7)]))))].
Lemma no_own c r :
  existsb (fun l => eqb (l_key l) (c_self (gc c), TAdj)) (contents (db c uriR angR dstR r)) = false -> ~ own_adj c uriR angR dstR r.
Proof.
  intros E2 (l & Hl & K). assert (X : true = false); [|discriminate X]. rewrite <- E2. symmetry. apply existsb_exists. exists l. split; [exact Hl|].
  rewrite K. apply eqb_refl.
Qed.
Lemma ord_ok c r p : ordb (c_self (gc c)) (db c uriR angR dstR r) (h_adl (g_h (S_Router.gstate c uriR angR dstR r))) p = true -> ordinary c uriR angR dstR r p.
Proof.
  unfold ordb. intros A8. apply andb_prop in A8 as [A8 B3]. apply andb_prop in A8 as [B1 B2]. split; [|split].
  - intros E. rewrite E, eqb_refl in B1. discriminate B1.
  - exact (not_inb _ _ B2).
  - intros l Hl E. apply (not_inb _ _ B3). rewrite <- E. now apply in_map.
Qed.
Lemma ex_alone : let g := S_Router.gstate (gcM 2) uriR angR dstR (runR HOff aloneR) in
  g_dead g = false /\ existsb (fun l => eqb (l_key l) (selfX, TAdj)) (contents (g_db g)) = false /\ rt_pend (g_rt g) = [] /\
  S_Router.calm selfX (S_Router.gtrace (gcM 2) uriR angR dstR (runR HOff aloneR)) = true /\ sane_evs aloneR = true /\
  ordb selfX (g_db g) (h_adl (g_h g)) X_Lsdb.pX = true /\ onlyb selfX (g_db g) X_Lsdb.pX thirdX = true.
Proof. cbv zeta. split; [|split; [|split; [|split; [|split; [|split]]]]]; vm_compute; reflexivity. Qed.
Example C82_alone_example : up (gcM 2) uriR angR dstR (runR HOff aloneR) /\ ~ own_adj (gcM 2) uriR angR dstR (runR HOff aloneR) /\
  scheduled (gcM 2) uriR angR dstR (runR HOff aloneR) = [] /\
  S_Router.calm selfX (S_Router.gtrace (gcM 2) uriR angR dstR (runR HOff aloneR)) = true /\
  sane_names (runR HOff aloneR) /\ ordinary (gcM 2) uriR angR dstR (runR HOff aloneR) X_Lsdb.pX /\
  from_only selfX (db (gcM 2) uriR angR dstR (runR HOff aloneR)) X_Lsdb.pX thirdX.
Proof.
  destruct ex_alone as (E1 & E2 & E3 & E4 & E5 & E6 & E7).
  split; [exact E1|]. split; [exact (@no_own (gcM 2) _ E2)|].
  split; [exact E3|]. split; [exact E4|]. split; [now apply sane_evs_ok|]. split; [exact (@ord_ok (gcM 2) _ _ E6)|exact (@onlyb_ok _ _ _ _ E7)].
Qed.

Print Assumptions C82_single.
Print Assumptions C82_multipath.
Print Assumptions C82_gone.
Print Assumptions C82_alone.
