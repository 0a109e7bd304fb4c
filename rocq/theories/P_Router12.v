(** C98: which LSAs of its own a router has, in runs of the whole router. *)
From Verif Require Import Base M_Nexthop M_Tlv M_Adj M_Lsa M_Lsdb S_Lsdb L_Lsdb L_Lsdb2 L_Lsdb3 L_Lsdb4 L_Lsdb6 L_Lsdb9 M_LinkState M_Hyperbolic M_RoutingTable
  M_Npt S_Npt M_Fib S_Pipe M_Prefix M_Hello S_Hello L_Hello M_Router S_Router L_Router L_Router2 L_Router3 L_Router4 L_Router5 L_Router6 L_Router7
  L_Router8 X_Lsdb X_Router P_Router P_Router3 P_Router8 L_Own P_Router11.
Open Scope Z_scope.
Set Implicit Arguments.

(** ** The database *)

(** Own Name and Coordinate LSAs stay. *)
Lemma step_stays c s x t l : invS None s -> t <> TAdj -> find_lsa (c_self c, t) s = Some l -> find_lsa (c_self c, t) (fst (step c s x)) <> None.
Proof.
  intros I Ht F X. pose proof (step_eff c x I) as E. destruct E.
  - congruence.
  - specialize (H9 (c_self c, t)). rewrite X in H9. destruct (eqb _ _) in H9; congruence.
  - specialize (H5 (c_self c, t)). rewrite X in H5. destruct (eqb _ _) in H5; congruence.
  - specialize (H2 (c_self c, t)). rewrite X in H2. destruct (eqb _ _) in H2; congruence.
  - specialize (H2 (c_self c, t)). rewrite X in H2. rewrite eqb_off in H2; [congruence|]. intros K. unfold l_key in K. congruence.
  - specialize (H2 (c_self c, t)). rewrite X in H2. rewrite eqb_off in H2; [congruence|]. intros K. congruence.
Qed.
Lemma exec_stays c f now e0 evs t : t = TName \/ t = TCoord /\ c_hyp c <> HOff -> exists l, find_lsa (c_self c, t) (fst (exec c f now e0 evs)) = Some l.
Proof.
  intros Ht. assert (Na : t <> TAdj) by (destruct Ht as [->|[-> _]]; discriminate).
  induction evs as [|x evs IH] using rev_ind.
  - rewrite exec_fst. cbn [run fst]. destruct (init_effs c f now e0) as (s1 & o1 & I1 & _ & _ & (l & F) & M).
    destruct (eq_dec (c_hyp c) HOff) as [Hy|Hy].
    + rewrite Hy in M. change (eqb HOff HOff) with true in M. destruct M as [-> _]. destruct Ht as [->|[_ Ht]]; [eauto|contradiction].
    + rewrite (eqb_off _ Hy) in M. destruct M as (o2 & E & _ & _ & l2 & F2). destruct Ht as [->|[-> _]]; [|eauto].
      destruct (find_lsa (c_self c, TName) (fst (init c f now e0))) as [l'|] eqn:X; [eauto|exfalso]. inversion E; subst; cbn [snd] in *; try discriminate; try congruence.
      match goal with O : offered _ _ _ |- _ => specialize (O (c_self c, TName)); rewrite X in O; destruct (eqb _ _) in O; congruence end.
  - destruct IH as (l & F). rewrite exec_snoc_fst.
    pose proof (@step_stays c _ x t l (invS_exec c f now e0 evs) Na F) as S. destruct (find_lsa _ (fst (step _ _ x))) as [l'|]; [eauto|contradiction].
Qed.

(** Own Coordinate LSAs say what is configured, and there are none without hyperbolic routing. *)
Definition coord_ok (c : conf) (s : st) : Prop :=
  forall l, find_lsa (c_self c, TCoord) s = Some l -> c_hyp c <> HOff /\ l_body l = BCoord (c_radius c) (c_angles c).
Lemma eff_coord c s x s' o : coord_ok c s -> (forall fid l, snd x = EFetchDone fid (Some l) -> l_origin l <> c_self c) -> eff c s x s' o -> coord_ok c s'.
Proof.
  intros O Nf E l F. destruct E.
  - rewrite H in F. now apply O.
  - rewrite (H9 (c_self c, TCoord)), eqb_off in F; [now apply O|]. intros K. apply (Nf _ _ H). unfold l_key in K. congruence.
  - destruct (eq_dec t TCoord) as [Ht|Ht].
    + assert (Hy : c_hyp c <> HOff).
      { destruct H as [[_ Ob]|(u & q & face & _ & _ & _ & _ & _ & _ & Hc)]; [|rewrite (Hc Ht); discriminate].
        unfold own_build in Ob. destruct (snd x); try contradiction; [destruct Ob as [Ob _]; congruence|destruct Ob as [Ob|[_ Ob]]; [congruence|exact Ob]]. }
      split; [exact Hy|]. pose proof (H3 Ht) as Eb. clear H0 H1 H2 H3 H4 H. subst t b. rewrite (H5 (c_self c, TCoord)) in F.
      change (l_key (own c TCoord (q0 + 1) (e_sys (fst x)) (BCoord (c_radius c) (c_angles c)))) with (c_self c, TCoord) in F. rewrite eqb_refl in F. injection F as <-.
      unfold offer. destruct (find_lsa (c_self c, TCoord) s) as [l0|] eqn:F0; [|reflexivity]. destruct (O _ F0) as [_ B0].
      destruct (_ <? _)%N; [|exact B0]. unfold merged. cbn [l_body own]. rewrite B0. cbn [update_body]. now destruct (_ && _).
    + rewrite (H5 (c_self c, TCoord)), eqb_off in F; [now apply O|]. unfold l_key, l_type. cbn [own l_origin l_body]. congruence.
  - rewrite (H2 (c_self c, TCoord)) in F. destruct (eq_dec (c_self c, TCoord) (l_key l0)) as [K|K].
    + rewrite <- K, eqb_refl in F. injection F as <-. rewrite <- K in H0. exact (O _ H0).
    + rewrite (eqb_off _ K) in F. now apply O.
  - rewrite (H2 (c_self c, TCoord)) in F. destruct (eqb _ _) in F; [discriminate|now apply O].
  - rewrite (H2 (c_self c, TCoord)) in F. destruct (eqb _ _) in F; [discriminate|now apply O].
Qed.
Lemma exec_coord c f now e0 evs : no_forged_own c evs -> coord_ok c (fst (exec c f now e0 evs)).
Proof.
  pose proof (@exec_eff_ind c f now e0 (fun evs s _ => no_forged_own c evs -> coord_ok c s)) as Ind. apply Ind; clear Ind evs.
  - intros _ l F. discriminate F.
  - intros s o s' o' I P E _ _. apply (@eff_coord c s (e0, EBuildName) s' o'); [apply P; intros ? ? ? []|discriminate|exact E].
  - intros evs s o x s' o' _ _ I P E Nf. apply (@eff_coord c s x s' o'); [apply P; intros e fid l H; apply (Nf e fid l), in_or_app; now left| |exact E].
    intros fid l H. apply (Nf (fst x) fid l). apply in_or_app. right. left. destruct x. cbn in *. now subst.
Qed.

(** With hyperbolic routing there is no own Adjacency LSA. *)
Lemma exec_noadj c f now e0 evs : c_hyp c = HOn -> no_forged_own c evs -> find_lsa (c_self c, TAdj) (fst (exec c f now e0 evs)) = None.
Proof.
  intros Hy. induction evs as [|x evs IH] using rev_ind; intros Nf; [rewrite exec_fst; apply init_adj|].
  rewrite exec_snoc_fst. assert (N0 : no_forged_own c evs) by (intros e fid l H; apply (Nf e fid l), in_or_app; now left). specialize (IH N0).
  pose proof (invS_exec c f now e0 evs) as I. pose proof (invB_exec c f now e0 evs) as B. set (s := fst (exec c f now e0 evs)) in *.
  pose proof (step_eff c x I) as E. set (s' := fst (step c s x)) in *. destruct E.
  - congruence.
  - rewrite (H9 (c_self c, TAdj)), eqb_off; [exact IH|]. intros K.
    apply (Nf (fst x) fid l); [apply in_or_app; right; left; destruct x; cbn in *; now subst|]. unfold l_key in K. congruence.
  - rewrite (H5 (c_self c, TAdj)), eqb_off; [exact IH|]. unfold l_key. cbn [own l_origin]. unfold l_type. cbn [own l_body]. intros K. injection K as K.
    assert (Ht : t = TAdj) by congruence. destruct H as [[_ Ob]|(u & q & face & _ & _ & _ & _ & _ & Ha & _)]; [|rewrite (Ha Ht) in Hy; discriminate Hy].
    unfold own_build in Ob. destruct (snd x) eqn:Ex; try contradiction; [|destruct Ob as [Ob|[Ob _]]; congruence].
    destruct Ob as [_ (due & Eg)]. exact (iB_on B Hy Eg).
  - rewrite (H2 (c_self c, TAdj)). destruct (eq_dec (c_self c, TAdj) (l_key l)) as [K|K]; [congruence|]. now rewrite (eqb_off _ K).
  - rewrite (H2 (c_self c, TAdj)). destruct (eqb _ _); [reflexivity|exact IH].
  - congruence.
Qed.

(** ** The router *)
Section P.
Variables (c : gconf) (uri_of : name -> string) (ang : list Z -> list Z -> Z) (dst : Z -> Z -> Z -> Z).
Notation self := (c_self (gc c)).
Notation hy := (c_hyp (gc c)).
Notation gstate := (S_Router.gstate c uri_of ang dst).
Notation db := (P_Router.db c uri_of ang dst).

Lemma db_exec r : exists ys,
  fst (exec (gc c) (u_seqs r) (u_now r) (Env (u_sys r) (pl_info (u_list r)) (conf_adl (u_nbs r))) ys) = db r /\
  (genuine c r -> no_forged_own (gc c) ys).
Proof.
  pose proof (tracks_exec c uri_of ang dst r) as T. set (e0 := Env _ _ _).
  set (tr := snd (start c (g0 c r)) ++ later c uri_of ang dst r) in *.
  pose proof (t_pre T) as Tp. destruct (prun_steps (gc c) uri_of (pres tr) (g_pre (g0 c r))) as (ys & R & Fy & _).
  rewrite Tp in R. cbn [fst snd] in R. change (p_db (g_pre (g0 c r))) with (fst (init (gc c) (u_seqs r) (u_now r) e0)) in R.
  exists ys. split; [rewrite exec_fst, R; reflexivity|]. intros G e fid l H. apply G.
  destruct (Fy _ _ _ H) as (sys & a & Hp). unfold pres in Hp. apply in_flat_map in Hp as (g & Hg & Hp).
  destruct g as [x|x|x|x|x|o|o|o|o|o|]; try (destruct Hp; fail). destruct Hp as [->|[]]. unfold tr in Hg. apply in_app_or in Hg as [Hg|Hg].
  - apply start_fibP in Hg. destruct Hg.
  - unfold later in Hg. apply run_fetch in Hg as (i & Hi). now exists i, fid.
Qed.

(** C98.  From the start on, the router always has a Name LSA of its own. *)
Theorem C98_name r : exists l ns, holds (db r) l /\ l_origin l = self /\ l_body l = BName ns.
Proof.
  destruct (db_exec r) as (ys & E & _). rewrite <- E. set (e0 := Env _ _ _).
  pose proof (invS_exec (gc c) (u_seqs r) (u_now r) e0 ys) as I.
  destruct (@exec_stays (gc c) (u_seqs r) (u_now r) e0 ys TName) as (l & F); [now left|].
  pose proof (find_key I F) as K. injection K as K1 K2. unfold l_type in K2. destruct (l_body l) as [al|ra an|ns] eqn:B; try discriminate K2.
  exists l, ns. split; [|auto]. apply (holds_find l I). unfold l_key, l_type. now rewrite K1, B.
Qed.

(** With hyperbolic routing, or its dry run, it always has a Coordinate LSA of its own; every such LSA says
    what is configured.  Without, it never has one. *)
Theorem C98_coord r : genuine c r ->
  (hy <> HOff -> exists l, holds (db r) l /\ l_origin l = self /\ l_body l = BCoord (c_radius (gc c)) (c_angles (gc c))) /\
  forall l ra an, holds (db r) l -> l_origin l = self -> l_body l = BCoord ra an ->
    hy <> HOff /\ ra = c_radius (gc c) /\ an = c_angles (gc c).
Proof.
  intros G. destruct (db_exec r) as (ys & E & Nf). rewrite <- E. set (e0 := Env _ _ _).
  pose proof (invS_exec (gc c) (u_seqs r) (u_now r) e0 ys) as I. pose proof (@exec_coord (gc c) (u_seqs r) (u_now r) e0 ys (Nf G)) as O. split.
  - intros Hy. destruct (@exec_stays (gc c) (u_seqs r) (u_now r) e0 ys TCoord) as (l & F); [now right|]. exists l.
    pose proof (find_key I F) as K. destruct (O _ F) as [_ B]. split; [apply (holds_find l I); now rewrite K|]. injection K as K _. auto.
  - intros l ra an H Ho B. apply (holds_find l I) in H. unfold l_key, l_type in H. rewrite Ho, B in H. cbn [body_type] in H.
    destruct (O _ H) as [Hy B']. rewrite B in B'. injection B' as -> ->. auto.
Qed.

(** With hyperbolic routing it never has an Adjacency LSA of its own. *)
Theorem C98_adj r l al : genuine c r -> holds (db r) l -> l_origin l = self -> l_body l = BAdj al -> hy <> HOn.
Proof.
  intros G H Ho B Hy. destruct (db_exec r) as (ys & E & Nf). rewrite <- E in H. set (e0 := Env _ _ _) in *.
  pose proof (invS_exec (gc c) (u_seqs r) (u_now r) e0 ys) as I. apply (holds_find l I) in H. unfold l_key, l_type in H. rewrite Ho, B in H. cbn [body_type] in H.
  rewrite (@exec_noadj (gc c) (u_seqs r) (u_now r) e0 ys Hy (Nf G)) in H. discriminate H.
Qed.
End P.

(** ** Cases *)

(** The own LSAs in the database: their types. *)
Definition own_types (h : hyp) (evs : list (inp * gev)) : list ltype :=
  map l_type (filter (fun l => eqb (l_origin l) selfX) (contents (db (gcX h) uriR angR dstR (runR h evs)))).
Definition dryR : list (inp * gev) := upR ++ map at_ [GvTick (10 * SEC); GvDb (EFire 3)].
(** Both neighbours are up and the time for a build has passed, in each of the three modes. *)
Example C98_example :
  genuine (gcX HOff) (runR HOff calcR) /\ own_types HOff calcR = [TName; TAdj] /\
  genuine (gcX HDry) (runR HDry dryR) /\ own_types HDry dryR = [TName; TCoord; TAdj] /\
  genuine (gcX HOn) (runR HOn dryR) /\ own_types HOn dryR = [TName; TCoord].
Proof.
  split; [apply genuineb_ok; vm_compute; reflexivity|]. split; [vm_compute; reflexivity|].
  split; [apply genuineb_ok; vm_compute; reflexivity|]. split; [vm_compute; reflexivity|].
  split; [apply genuineb_ok; vm_compute; reflexivity|]. vm_compute; reflexivity.
Qed.

Print Assumptions C98_name.
Print Assumptions C98_coord.
Print Assumptions C98_adj.
