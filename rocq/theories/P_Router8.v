(** C30 with hyperbolic routing: the routes in use between calculations. *)
From Coq Require Import Sorting.Permutation.
From Verif Require Import Base M_Nexthop M_Tlv M_Adj M_Lsa M_Lsdb L_Lsdb S_Lsdb L_Lsdb2 L_Lsdb3 L_Lsdb4 L_Lsdb6 L_Lsdb9 M_LinkState M_Hyperbolic M_RoutingTable
  M_Npt S_Npt L_Npt4 M_Fib S_Pipe M_Prefix M_Hello S_Hello L_Hello M_Router S_Router L_Router L_Router2 L_Router3 L_Router4 L_Router5 L_Router6 L_Router7
  P_Hello X_Lsdb X_Router P_Router P_Router2.
Open Scope Z_scope.
Set Implicit Arguments.

(** The Coordinate LSAs of the database. *)
Definition coord_lsas (s : st) : list lsa := filter (fun l => eqb (l_type l) TCoord) (contents s).

(** Since the last calculation, if any, no Coordinate LSA was removed from the database. *)
Definition calm_hyp1 (b : bool) (x : glog) : bool :=
  match x with
  | CRt (RvCalc _ _ _) => true
  | XPre (PDb (ONotify KRemoved l _ _)) => b && negb (eqb (l_type l) TCoord)
  | _ => b
  end.
Definition calm_hyp (t : list glog) : bool := fold_left calm_hyp1 t true.

(** ** With hyperbolic routing the database removes no LSA of the router itself *)

Lemma offer_not_removed o l x : In x (map two (out_notes (offer_outs o l))) -> fst x <> KRemoved.
Proof.
  unfold offer_outs. destruct o as [o|].
  - destruct (_ <? _)%N; [|intros []]. unfold upd_notify. destruct (update_body _ _) as [[[u b] ad] rm]. destruct u; [|intros []].
    intros [<-|[]]. discriminate.
  - intros [<-|[]]. discriminate.
Qed.
Lemma fire_keeps_own c e tid s t l : (forall t due, ~ armed s t due) -> invS None s ->
  find_lsa (c_self c, t) s = Some l -> find_lsa (c_self c, t) (fst (fire c e tid s)) <> None.
Proof.
  intros Na I F X. pose proof (eff_fire c e tid I) as E.
  remember (filter rel (snd (fire c e tid s))) as o eqn:Eo. remember (e, EFire tid) as x eqn:Ex. destruct E.
  - congruence.
  - subst. discriminate.
  - specialize (H5 (c_self c, t)). rewrite X in H5. destruct (eqb _ _) in H5; [|congruence]. unfold offer in H5. destruct (find_lsa _ s) as [o|] in H5; [destruct (_ <? _)%N in H5|]; discriminate.
  - specialize (H2 (c_self c, t)). rewrite X in H2. destruct (eqb _ _) in H2; congruence.
  - specialize (H2 (c_self c, t)). rewrite X in H2. destruct (eq_dec (c_self c, t) (l_key l0)) as [K|K]; [unfold l_key in K; congruence|]. eqb_case (c_self c, t) (l_key l0); congruence.
  - clear Ex. unfold fire in Eo. destruct (get tid (s_timers s)) as [[due a]|] eqn:Et; [|discriminate].
    cbn [t_due t_act] in Eo. destruct (due <=? s_now s); [|discriminate]. destruct a as [oid| |n k d|n|n].
    + unfold expire_or_refresh in Eo. set (s1 := w_timers _ _ s) in *.
      destruct (get oid (s_heap s1)) as [ob|]; [|discriminate]. destruct (find_oid _ s1) as [oid'|] eqn:Fo; [|discriminate].
      destruct (get oid' (s_heap s1)) as [ob'|] eqn:Go; [|discriminate]. destruct (_ =? _)%N; [|discriminate].
      destruct (eq_dec (l_origin (o_lsa ob')) (c_self c)) as [Q|Q]; [rewrite Q, eqb_refl in Eo; discriminate|].
      eqb_case (l_origin (o_lsa ob')) (c_self c); [contradiction|]. unfold remove in Eo.
      assert (Fl : find_lsa (l_key (o_lsa ob)) s1 = Some (o_lsa ob')) by (unfold find_lsa; rewrite Fo, Go; reflexivity).
      rewrite Fl in Eo. injection Eo as Eo. apply Q. rewrite <- Eo. pose proof (find_key I H0) as K. injection K as K _. exact K.
    + now apply (Na tid due).
    + destruct (@quiet_express n k 0 (Some d) (w_timers (del tid (s_timers s)) (s_ntid s) s)) as (_ & _ & C). rewrite C in Eo. discriminate.
    + discriminate.
    + discriminate.
Qed.
Lemma step_removed c s y l : c_hyp c = HOn -> invS None s -> invB c s ->
  In (KRemoved, l) (map two (out_notes (snd (step c s y)))) -> l_origin l <> c_self c.
Proof.
  intros Hy I B H. rewrite <- filter_rel_notes in H. pose proof (step_eff c y I) as E.
  remember (filter rel (snd (step c s y))) as o eqn:Eo. destruct E.
  - destruct H.
  - now apply offer_not_removed in H.
  - exfalso. cbn [app] in H. unfold out_notes in H. cbn [flat_map app] in H. destruct (publishes _ _) in H; cbn [flat_map app] in H; now apply offer_not_removed in H.
  - destruct H.
  - destruct H as [H|[]]. cbn in H. injection H as <-. assumption.
  - exfalso. revert H3. unfold step. destruct (s_dead s).
    { intros H3. specialize (H3 (c_self c, TAdj)). rewrite eqb_refl in H3. cbn [fst] in H3. congruence. }
    destruct y as [e v]. cbn [snd] in H0. subst v. unfold step_live. intros H3. specialize (H3 (c_self c, TAdj)). rewrite eqb_refl in H3.
    revert H3. exact (@fire_keeps_own c e tid s TAdj l0 (iB_on B Hy) I H1).
Qed.
Lemma run_removed c ys s l : c_hyp c = HOn -> invS None s -> invB c s ->
  In (KRemoved, l) (map two (out_notes (snd (run (step c) s ys)))) -> l_origin l <> c_self c.
Proof.
  intros Hy. revert s. induction ys as [|y ys IH]; intros s I B; [intros []|]. cbn [run].
  pose proof (@step_removed c s y l Hy I B) as S. pose proof (invS_step c y I) as I1. pose proof (@invB_step c s y I B) as B1.
  destruct (step c s y) as [s1 o1]. cbn [fst snd] in *. specialize (IH s1 I1 B1). destruct (run (step c) s1 ys) as [s2 o2]. cbn [snd] in *.
  intros H. unfold out_notes in *. rewrite flat_map_app, map_app in H. apply in_app_or in H as [H|H]; auto.
Qed.

(** ** The calculation does not depend on more than is kept *)

Definition hview (a : adjacent) := (a_name a, a_uri a, eqb (a_status a) SInactive).

Section Calc.
Variables (ang : list Z -> list Z -> Z) (dst : Z -> Z -> Z -> Z) (self : name) (cs : coords).

Lemma hyp_dest_ext m this a a' src o d : a_name a = a_name a' -> a_uri a = a_uri a' ->
  hyp_dest ang dst m cs this a src o d = hyp_dest ang dst m cs this a' src o d.
Proof. intros E1 E2. unfold hyp_dest. now rewrite E1, E2. Qed.
Lemma hyp_adj_ext m o a a' : hview a = hview a' -> hyp_adj ang dst self m cs o a = hyp_adj ang dst self m cs o a'.
Proof.
  intros E. unfold hview in E. injection E as E1 E2 E3. unfold hyp_adj. rewrite E3, E1, E2. destruct o as [t| |]; try reflexivity.
  destruct (eqb (a_status a') SInactive); [reflexivity|]. destruct (eqb (a_name a') self); [reflexivity|].
  cbv zeta. destruct (nm_num m (a_name a')) as [src|]; [|reflexivity].
  generalize (Ok (rt_add t (a_name a') (hyp_nh (a_uri a') 0))). induction (seq 0 (length m)) as [|d ds IH]; intros o; [reflexivity|].
  cbn [fold_left]. rewrite (@hyp_dest_ext m _ a a' src o d E1 E2). apply IH.
Qed.
Lemma calc_ext l l' : map hview l = map hview l' -> calc_hyperbolic ang dst self l cs = calc_hyperbolic ang dst self l' cs.
Proof.
  unfold calc_hyperbolic. cbv zeta. intros E. set (m := nm_from_coord (keys cs)). clearbody m.
  enough (H : forall o, fold_left (hyp_adj ang dst self m cs) l o = fold_left (hyp_adj ang dst self m cs) l' o) by apply H.
  intros o. revert l' o E. induction l as [|a l IH]; intros [|a' l'] o E; try discriminate; [reflexivity|].
  cbn [map] in E. injection E as E1 E2 E3 E. cbn [fold_left]. rewrite (@hyp_adj_ext _ o a a'); [now apply IH|]. unfold hview. now rewrite E1, E2, E3.
Qed.
Lemma calc_inactive l : (forall a, In a l -> a_status a = SInactive) -> calc_hyperbolic ang dst self l cs = Ok [].
Proof.
  unfold calc_hyperbolic. cbv zeta. induction l as [|a l IH]; intros H; [reflexivity|]. cbn [fold_left]. unfold hyp_adj at 2.
  rewrite (H a (or_introl eq_refl)), eqb_refl. apply IH. intros b Hb. apply H. now right.
Qed.
End Calc.

(** ** The Coordinate LSAs, up to order *)

Lemma In_coord_view s L x : invS None s -> (forall l, In l L <-> In l (contents s) /\ l_type l = TCoord) ->
  (In x (coord_view L) <-> body_at (fst x, TCoord) s = Some (BCoord (fst (snd x)) (snd (snd x)))).
Proof.
  intros I HL. unfold coord_view. rewrite in_flat_map. split.
  - intros (l & H1 & H2). apply HL in H1 as [H1 H3]. apply (In_contents l I) in H1.
    destruct (l_body l) as [al|r th|m] eqn:B; [destruct H2| |destruct H2]. destruct H2 as [<-|[]]. cbn [fst snd].
    unfold l_key in H1. rewrite H3 in H1. unfold body_at. rewrite H1. cbn. now rewrite B.
  - intros H1. unfold body_at in H1. destruct (find_lsa (fst x, TCoord) s) as [l|] eqn:F; [|discriminate].
    injection H1 as H1. pose proof (find_key I F) as K. exists l. split.
    + apply HL. injection K as K1 K2. split; [|exact K2]. apply (In_contents l I). unfold l_key. now rewrite K1, K2.
    + rewrite H1. left. injection K as K1 _. destruct x as [n [r th]]. cbn in *. now subst.
Qed.
Lemma NoDup_keys_coord L : NoDup (map l_key L) -> NoDup (map fst (coord_view L)).
Proof.
  induction L as [|l L IH]; [constructor|]. cbn [map]. intros N. inversion N as [|? ? H1 H2]; subst. clear N.
  unfold coord_view. cbn [flat_map]. fold (coord_view L). destruct (l_body l) as [al|r th|m] eqn:B; [now apply IH| |now apply IH].
  cbn [map fst app]. constructor; [|now apply IH]. intros H. apply H1.
  apply in_map_iff in H as (a & E & H). unfold coord_view in H. apply in_flat_map in H as (l' & Hl & H).
  apply in_map_iff. exists l'. split; [|exact Hl]. destruct (l_body l') eqn:B'; [destruct H| |destruct H].
  destruct H as [<-|[]]. cbn in E. unfold l_key, l_type. now rewrite B, B', E.
Qed.
Lemma coord_same s s' L L' : invS None s -> invS None s' -> (forall n, body_at (n, TCoord) s' = body_at (n, TCoord) s) ->
  (forall l, In l L <-> In l (contents s) /\ l_type l = TCoord) -> NoDup (map l_key L) ->
  (forall l, In l L' <-> In l (contents s') /\ l_type l = TCoord) -> NoDup (map l_key L') ->
  Permutation (coord_view L) (coord_view L').
Proof.
  intros I I' B H1 N1 H2 N2. apply NoDup_Permutation.
  - eapply NoDup_map_inv, NoDup_keys_coord, N1.
  - eapply NoDup_map_inv, NoDup_keys_coord, N2.
  - intros a. rewrite (@In_coord_view s L a I H1), (@In_coord_view s' L' a I' H2). now rewrite B.
Qed.
Lemma In_coord_lsas s l : In l (coord_lsas s) <-> In l (contents s) /\ l_type l = TCoord.
Proof.
  unfold coord_lsas. rewrite filter_In. split; intros [H E]; (split; [exact H|]); [apply eqb_eq in E; exact E|rewrite E; apply eqb_refl].
Qed.
Lemma NoDup_coord_lsas s : invS None s -> NoDup (map l_key (coord_lsas s)).
Proof. intros I. apply NoDup_filter_map. rewrite (contents_keys I). apply (iS_nodup I). Qed.

Lemma calm_hyp_true t b : (forall y, In y t -> calcP y) -> fold_left (calm_hyp1) t b = true ->
  b = true /\ forall l, In (KRemoved, l) (map two (out_notes (db_outs t))) -> l_type l <> TCoord.
Proof.
  revert b. induction t as [|x t IH]; intros b Hc H; [split; [exact H|intros l []]|].
  cbn [fold_left] in H. apply IH in H as [H1 H2]; [|intros y Hy; apply Hc; now right].
  specialize (Hc x (or_introl eq_refl)).
  assert (Skip : calm_hyp1 b x = b -> out_notes (db_outs [x]) = [] ->
    b = true /\ forall l, In (KRemoved, l) (map two (out_notes (db_outs (x :: t)))) -> l_type l <> TCoord).
  { intros E1 E2. rewrite E1 in H1. split; [exact H1|]. intros l Hl. apply H2.
    change (x :: t) with ([x] ++ t) in Hl. unfold db_outs, pouts, out_notes in *. rewrite !flat_map_app in Hl. rewrite E2 in Hl. exact Hl. }
  destruct x as [| |e| | |o| | | | |]; try (apply Skip; reflexivity).
  - destruct e; try (apply Skip; reflexivity). discriminate.
  - destruct o as [o|]; [|apply Skip; reflexivity]. destruct o; try (apply Skip; reflexivity).
    destruct k; cbn [calm_hyp1] in H1.
    + split; [exact H1|]. intros l' [Hl|Hl]; [discriminate|]. now apply H2.
    + split; [exact H1|]. intros l' [Hl|Hl]; [discriminate|]. now apply H2.
    + apply Bool.andb_true_iff in H1 as [H1 H3]. split; [exact H1|]. intros l' [Hl|Hl]; [|now apply H2].
      cbn in Hl. injection Hl as <-. intros X. rewrite X in H3; rewrite eqb_refl in H3; discriminate.
Qed.

Section P.
Variables (c : gconf) (uri_of : name -> string) (ang : list Z -> list Z -> Z) (dst : Z -> Z -> Z -> Z).
Notation self := (c_self (gc c)).
Notation hy := (c_hyp (gc c)).
Notation gstate := (gstate c uri_of ang dst).
Notation gtrace := (gtrace c uri_of ang dst).
Notation gstep := (gstep c uri_of ang dst).
Notation up := (up c uri_of ang dst).
Notation scheduled := (scheduled c uri_of ang dst).
Notation db := (db c uri_of ang dst).

(** The routes in use are those calculated from the Coordinate LSAs of the database and the neighbours that
    are now up. *)
Definition routes_hyp (r : grun) : Prop :=
  exists L, Permutation L (coord_view (coord_lsas (db r))) /\
    calc_hyperbolic ang dst self (h_adl (g_h (gstate r))) L = Ok (routes_now (npts (gtrace r))).

Lemma same_hview s s' : hinv (hconf_of c) s -> hinv (hconf_of c) s' -> map stat (h_adl s') = map stat (h_adl s) ->
  ~ status_changed s s' -> map hview (h_adl s') = map hview (h_adl s).
Proof.
  intros I I' E N.
  assert (H : forall k, nth_error (map hview (h_adl s')) k = nth_error (map hview (h_adl s)) k).
  { intros k. rewrite !nth_error_map. assert (Ek : nth_error (map stat (h_adl s')) k = nth_error (map stat (h_adl s)) k) by now rewrite E.
    rewrite !nth_error_map in Ek. destruct (nth_error (h_adl s') k) as [a'|] eqn:K', (nth_error (h_adl s) k) as [a|] eqn:K; try discriminate; [|reflexivity].
    cbn [option_map] in *. injection Ek as E1 E2 E3. f_equal. unfold hview. rewrite E1, E2. f_equal.
    apply nth_error_In in K, K'.
    assert (A : forall q b, hinv (hconf_of c) q -> In b (h_adl q) -> (active q (a_name b) <-> a_status b = SActive)).
    { intros q b Iq Hb. split.
      - intros (b' & [Hb' En] & Es). now rewrite <- (nodup_name (iv_nodup Iq) Hb' Hb En).
      - intros Es. exists b. split; [split; auto|exact Es]. }
    pose proof (A s a I K) as A1. pose proof (A s' a' I' K') as A2. rewrite E1 in A2.
    destruct (iv_status I a K) as [S1|S1], (iv_status I' a' K') as [S2|S2]; rewrite S1, S2; try reflexivity; exfalso; apply N; exists (a_name a).
    - left. split; [now apply A1|]. rewrite A2, S2. discriminate.
    - right. split; [rewrite A1, S1; discriminate|now apply A2]. }
  revert H. generalize (map hview (h_adl s')) (map hview (h_adl s)). clear.
  induction l as [|x l IH]; intros [|y l'] H; try reflexivity; try (specialize (H O); discriminate).
  pose proof (H O) as H0. injection H0 as ->. f_equal. apply IH. intros k. exact (H (S k)).
Qed.

Lemma conf_inactive l a : In a (h_adl (fst (hinit (hconf_of c) l))) -> a_status a = SInactive.
Proof.
  assert (H : forall l acc, (forall a, In a acc -> a_status a = SInactive) ->
    forall a, In a (fold_left (fun acc x => if eqb (fst (fst x)) [] then acc
      else snd (adl_insert (Adj (fst (fst x)) (snd (fst x)) (snd x) SInactive 0 0) acc)) l acc) -> a_status a = SInactive).
  { clear. induction l as [|x l IH]; intros acc H a; [apply H|]. cbn [fold_left]. apply IH. destruct (eqb (fst (fst x)) []); [exact H|].
    unfold adl_insert. destruct (adl_find _ acc); cbn [snd]; [exact H|]. intros b Hb. apply in_app_or in Hb as [Hb|[<-|[]]]; [now apply H|reflexivity]. }
  unfold hinit. cbn [fst h_adl]. unfold nlsr_adl. destruct (eqb _ HOn).
  - intros Ha. apply in_map_iff in Ha as (b & <- & Hb). cbn [a_status]. apply (H l []); [intros ? []|exact Hb].
  - apply (H l []). intros ? [].
Qed.

Lemma db_invB r : invB (gc c) (g_db (gstate r)).
Proof.
  set (e0 := Env (u_sys r) (pl_info (u_list r)) (conf_adl (u_nbs r))). pose proof (tracks_exec c uri_of ang dst r) as T.
  set (tr := snd (start c (g0 c r)) ++ later c uri_of ang dst r) in *.
  pose proof (t_pre T) as Tp. destruct (prun_steps (gc c) uri_of (pres tr) (g_pre (g0 c r))) as (ys & R & _).
  rewrite Tp in R. cbn [fst snd] in R. change (p_db (g_pre (g0 c r))) with (fst (init (gc c) (u_seqs r) (u_now r) e0)) in R.
  pose proof (invB_exec (gc c) (u_seqs r) (u_now r) e0 ys) as B. rewrite exec_fst, R in B. exact B.
Qed.

Lemma tab_hyp r : hy = HOn -> up r -> scheduled r = [] -> calm_hyp (gtrace r) = true ->
  exists L, Permutation L (coord_view (coord_lsas (db r))) /\
    calc_hyperbolic ang dst self (h_adl (g_h (gstate r))) L = Ok (rt_tab (g_rt (gstate r))).
Proof.
  intros Hy. destruct r as [q now sys nbs pl file evs]. induction evs as [|x evs IH] using rev_ind.
  - intros U _ _. set (r := GRun q now sys nbs pl file []) in *. unfold P_Router.db. destruct (gexec_shape c uri_of ang dst r) as [E _].
    change (u_evs r) with (@nil (inp * gev)) in E. cbn [run fst] in E. rewrite E. destruct (g1_same c r) as (_ & E2 & E3 & _).
    eexists. split; [apply Permutation_refl|]. rewrite E2, E3. apply calc_inactive. intros a Ha. now apply conf_inactive in Ha.
  - set (r := GRun q now sys nbs pl file evs) in *. change (GRun q now sys nbs pl file (evs ++ [x])) with (extend r [x]).
    intros U Sc Cm. pose proof (extend_alive c uri_of ang dst r [x] U) as U0. pose proof (J_exec c uri_of ang dst r U0) as I.
    pose proof (J_exec c uri_of ang dst (extend r [x]) U) as I'. change (u_nbs (extend r [x])) with (u_nbs r) in I'.
    assert (Ns : ~ status_changed (g_h (gstate r)) (g_h (gstate (extend r [x])))).
    { intros X. destruct (C70_status c uri_of ang dst r x U X) as [_ X']. now apply (X' Hy). }
    pose proof (same_hview (j_h I) (j_h I') (eq_trans (j_adl I') (eq_sym (j_adl I))) Ns) as Hv. clear Ns.
    specialize (IH U0). unfold P_Router.up, P_Router.db, P_Router.scheduled in *. destruct (extend_one c uri_of ang dst r x) as [E Et]. rewrite E in *. rewrite Et in Cm. clear E Et.
    pose proof (j_db I') as Db1. clear I'.
    destruct (@step_cases c uri_of ang dst (gstate r) x U0) as [C|(k & due & Ex & Nk & Hd & Es)].
    + unfold calm_hyp in Cm. rewrite fold_left_app in Cm. apply calm_hyp_true in Cm as [Cm1 Cm2]; [|exact C].
      pose proof (good_step c uri_of ang dst x (gstate r)) as T. pose proof (step_fifo c uri_of ang dst _ _ U) as F.
      destruct (gstep (gstate r) x) as [g' u]. cbn [fst snd] in *.
      destruct (prun_steps (gc c) uri_of (pres u) (g_pre (gstate r))) as (ys & Ry & _).
      rewrite (t_pre T) in Ry. cbn [fst snd] in Ry. rewrite <- (dbo_db u) in Ry.
      pose proof (@db_run (gc c) ys (g_db (gstate r)) (j_db I)) as Db. change (p_db (g_pre (gstate r))) with (g_db (gstate r)) in Ry. rewrite Ry in Db. cbn [fst snd] in Db.
      destruct Db as (_ & _ & Db3).
      destruct (@run_nocalc (gc c) (gc_max c) (gc_calc c) ang dst _ _ _ _ (t_rt T) (calc_log _ C) (j_rt I)) as (A1 & A2 & A3 & A4 & A5 & A6).
      pose proof (y_r F) as Y. cbn [qnil q_r app] in Y. rewrite app_nil_r in Y.
      assert (As : existsb (asks (gc c)) (rtevs u) = false).
      { destruct (existsb (asks (gc c)) (rtevs u)) eqn:X; [|reflexivity]. exfalso. now apply A3. }
      rewrite (A4 As) in Sc. destruct (IH Sc Cm1) as (L & PL & EL).
      exists L. rewrite (@calc_ext ang dst self L _ _ Hv), A6, <- Y.
      assert (Nd : existsb (drops (gc c)) (map two (out_notes (db_outs u))) = false).
      { destruct (existsb (drops (gc c)) (map two (out_notes (db_outs u)))) eqn:X; [|reflexivity]. exfalso. apply existsb_exists in X as ([kd l] & Hl & X). unfold drops in X. cbn [fst snd] in X.
           destruct kd; try discriminate. apply eqb_eq in X. apply (@run_removed (gc c) ys (g_db (gstate r)) l Hy (j_db I) (db_invB r)); [rewrite Ry; exact Hl|].
        unfold l_key in X. congruence. }
      rewrite Nd. split; [|exact EL]. etransitivity; [exact PL|]. apply coord_same with (s := g_db (gstate r)) (s' := g_db g').
      * exact (j_db I).
      * exact Db1.
      * apply Db3. intros [kd l] Hl Tl. cbn [snd] in Tl.
        assert (W : wants (gc c) (kd, l) = false).
        { destruct (wants (gc c) (kd, l)) eqn:X; [|reflexivity]. rewrite (@note_asks c (kd, l) (rtevs u)) in As; [discriminate| |exact X]. now rewrite <- Y. }
        unfold wants in W. cbn [fst snd] in W. rewrite Tl, Hy in W. destruct kd; try discriminate W. now apply (Cm2 l Hl).
      * intros l. apply In_coord_lsas.
      * exact (NoDup_coord_lsas (j_db I)).
      * intros l. apply In_coord_lsas.
      * exact (NoDup_coord_lsas Db1).
    + destruct (@step_runs c uri_of ang dst _ _ _ _ _ _ I U Ex Nk Hd) as (_ & Ed & Eh & _ & _ & R). rewrite Eh, Ed in *.
      destruct (R Hy) as [Ec _]. eexists. split; [|exact Ec].
      apply coord_same with (s := g_db (gstate r)) (s' := g_db (gstate r)); try exact (j_db I); auto.
      * intros l. apply In_lsas_of. exact (j_db I).
      * apply NoDup_lsas_of. exact (j_db I).
      * intros l. apply In_coord_lsas.
      * exact (NoDup_coord_lsas (j_db I)).
Qed.

(** Between calculations, with hyperbolic routing.  No calculation is scheduled, and since the last one
    no Coordinate LSA was removed: the routes in use are those of the Coordinate LSAs now in the database
    and of the neighbours that are now up.  Missing for the full property: that condition, which
    [C30_removed_hyperbolic_refuted] shows to be needed. *)
Theorem C30_hyperbolic_partial r : hy = HOn -> up r -> scheduled r = [] -> calm_hyp (gtrace r) = true -> routes_hyp r.
Proof.
  intros Hy U S Cm. unfold routes_hyp. rewrite (routes_now_tab c uri_of ang dst _ U). now apply tab_hyp.
Qed.
End P.

(** ** A concrete run: r2 and r3 come up, their coordinates are fetched, and the calculation runs. *)

Definition angH (a b : list Z) : Z := of_int 1.
Definition clsaH (o : name) (r : Z) : lsa := Lsa o 1 (T0 + 3600 * SEC) (BCoord (of_int r) [of_int 1]).
Definition placedH : list (inp * gev) :=
  upR ++ map at_ [GvDb (ESync (syncX "r2" TCoord) 1 300); GvDb (EFetchDone 0 (Some (clsaH farX 2)));
                  GvDb (ESync (syncX "r3" TCoord) 1 301); GvDb (EFetchDone 1 (Some (clsaH thirdX 5)))].
Definition calcH : list (inp * gev) := placedH ++ map at_ [GvTick (15 * SEC); GvCalc 0].
(** r2's coordinates expire. *)
Definition expireH : list (inp * gev) :=
  calcH ++ map at_ [GvTick (1795 * SEC); GvDb (EFire 0); GvDb (EFire 1); GvTick (1800 * SEC); GvDb (EFire 2)].
Notation rH := (runR HOn).
Notation stH evs := (gstate (gcX HOn) uriR angH dstR (rH evs)).
Notation trH evs := (gtrace (gcX HOn) uriR angH dstR (rH evs)).
Definition shown (t : rtable) := map (fun x => (fst x, map (fun h => (nh_uri h, nh_cost h / UNIT)) (snd x))) t.

(** The hypotheses of the theorem hold in this run, and the routes are not trivial. *)
Example C30_hyperbolic_example :
  up (gcX HOn) uriR angH dstR (rH calcH) /\ scheduled (gcX HOn) uriR angH dstR (rH placedH) = [15 * SEC] /\
  scheduled (gcX HOn) uriR angH dstR (rH calcH) = [] /\ calm_hyp (trH calcH) = true /\
  shown (routes_now (npts (trH calcH))) = [(farX, [(uri2, 0); (uri3, 7)]); (thirdX, [(uri3, 0); (uri2, 7)])].
Proof. unfold up, scheduled. split; [|split; [|split; [|split]]]; vm_compute; reflexivity. Qed.

Definition shown_of (o : outcome rtable) := match o with Ok t => Some (shown t) | _ => None end.
Definition both_orders (g : router) : bool :=
  match coord_view (coord_lsas (g_db g)) with
  | [x; y] =>
      let old := Some (shown (rt_tab (g_rt g))) in
      negb (eqb (shown_of (calc_hyperbolic angH dstR selfX (h_adl (g_h g)) [x; y])) old) &&
      negb (eqb (shown_of (calc_hyperbolic angH dstR selfX (h_adl (g_h g)) [y; x])) old)
  | _ => false
  end.
Lemma both_orders_ok g : both_orders g = true ->
  ~ exists L, Permutation L (coord_view (coord_lsas (g_db g))) /\ calc_hyperbolic angH dstR selfX (h_adl (g_h g)) L = Ok (rt_tab (g_rt g)).
Proof.
  unfold both_orders. destruct (coord_view (coord_lsas (g_db g))) as [|x [|y [|z v]]]; try discriminate. intros B (L & P & E).
  apply Bool.andb_true_iff in B as [B1 B2]. apply Permutation_sym, Permutation_length_2_inv in P as [-> | ->]; rewrite E in *; cbn [shown_of] in *.
  - rewrite eqb_refl in B1. discriminate.
  - rewrite eqb_refl in B2. discriminate.
Qed.
Lemma ex_expireH : both_orders (stH expireH) = true.
Proof. vm_compute. reflexivity. Qed.

(** C30, refuted in general with hyperbolic routing: the removal of an expired Coordinate LSA schedules no
    calculation, and the routes in use are still those of the coordinates that are gone. *)
Theorem C30_removed_hyperbolic_refuted : exists c uri_of ang dst r,
  up c uri_of ang dst r /\ c_hyp (gc c) = HOn /\ scheduled c uri_of ang dst r = [] /\ s_sched (db c uri_of ang dst r) = false /\
  ~ routes_hyp c uri_of ang dst r.
Proof.
  exists (gcX HOn), uriR, angH, dstR, (rH expireH).
  assert (U : up (gcX HOn) uriR angH dstR (rH expireH)) by (unfold up; vm_compute; reflexivity).
  split; [exact U|]. split; [reflexivity|]. split; [unfold scheduled; vm_compute; reflexivity|]. split; [unfold db; vm_compute; reflexivity|].
  unfold routes_hyp. rewrite (routes_now_tab (gcX HOn) uriR angH dstR _ U). exact (@both_orders_ok _ ex_expireH).
Qed.

Print Assumptions C30_hyperbolic_partial.
Print Assumptions C30_hyperbolic_example.
Print Assumptions C30_removed_hyperbolic_refuted.
