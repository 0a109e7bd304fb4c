(** C30: routing table calculations, in the whole router. *)
From Coq Require Import Sorting.Permutation.
From Verif Require Import Base M_Nexthop M_Tlv M_Adj M_Lsa M_Lsdb L_Lsdb S_Lsdb L_Lsdb2 L_Lsdb3 L_Lsdb4 L_Lsdb6 M_LinkState M_Hyperbolic M_RoutingTable
  M_Npt S_Npt L_Npt4 M_Fib S_Pipe M_Prefix M_Hello S_Hello L_Hello M_Router S_Router L_Router L_Router2 L_Router3 L_Router4 L_Router5 L_Router6 L_Router7
  X_Lsdb X_Router.
Open Scope Z_scope.

Section P.
Variables (c : gconf) (uri_of : name -> string) (ang : list Z -> list Z -> Z) (dst : Z -> Z -> Z -> Z).
Notation self := (c_self (gc c)).
Notation hy := (c_hyp (gc c)).
Notation gstate := (gstate c uri_of ang dst).
Notation gtrace := (gtrace c uri_of ang dst).

(** The process has not ended. *)
Definition up (r : grun) : Prop := g_dead (gstate r) = false.
(** The calculations that the scheduler holds, by due time. *)
Definition scheduled (r : grun) : list Z := rt_pend (g_rt (gstate r)).
Definition db (r : grun) : st := g_db (gstate r).
(** The database holds this router's Adjacency LSA. *)
Definition own_adj (r : grun) : Prop := exists l, holds (db r) l /\ l_key l = (self, TAdj).

Lemma own_adj_present r : up r -> (own_adj r <-> rt_own (g_rt (gstate r)) = true).
Proof.
  intros U. pose proof (J_exec c uri_of ang dst r U) as I. rewrite (j_own I). unfold own_adj, present, db. split.
  - intros (l & H & K). apply (holds_find l (j_db I)) in H. now rewrite <- K, H.
  - destruct (find_lsa (self, TAdj) (g_db (gstate r))) as [l|] eqn:F; [|discriminate]. intros _.
    pose proof (find_key (j_db I) F) as K. exists l. split; [|exact K]. apply (holds_find l (j_db I)). now rewrite K.
Qed.

(** At most one calculation is scheduled. *)
Theorem C30_one r : up r -> (length (scheduled r) <= 1)%nat.
Proof. intros U. apply (j_rt (J_exec c uri_of ang dst r U)). Qed.

Lemma news r x l : up (extend r [x]) -> holds (db (extend r [x])) l ->
  (forall l', holds (db r) l' -> l_key l' = l_key l -> l_body l' <> l_body l) ->
  (forall k, wants (gc c) (KInstalled, Lsa (l_origin l) k 0 (l_body l)) = true) -> scheduled (extend r [x]) <> [].
Proof.
  intros U H N W. pose proof (extend_alive c uri_of ang dst r [x] U) as U0. pose proof (J_exec c uri_of ang dst r U0) as I.
  pose proof (J_exec c uri_of ang dst (extend r [x]) U) as I'.
  apply (holds_find l (j_db I')) in H. unfold scheduled, db, up in *. destruct (extend_one c uri_of ang dst r x) as [E _]. rewrite E in *. clear E I'.
  destruct (@step_cases c uri_of ang dst (gstate r) x U0) as [C|(k & due & Ex & Nk & Hd & _)].
  - destruct (@step_quiet c uri_of ang dst _ _ _ _ I U C) as (_ & A & B & D).
    intros P. apply (fun X => A X P). clear A P.
    destruct (existsb (asks (gc c)) (rtevs (snd (gstep c uri_of ang dst (gstate r) x)))) eqn:As; [reflexivity|]. exfalso.
    assert (X : body_at (l_origin l, l_type l) (g_db (fst (gstep c uri_of ang dst (gstate r) x))) = Some (l_body l)).
    { unfold body_at. unfold l_key in H. now rewrite H. }
    apply D in X.
    + unfold body_at in X. destruct (find_lsa (l_origin l, l_type l) (g_db (gstate r))) as [l'|] eqn:F; [|discriminate].
      pose proof (find_key (j_db I) F) as K. cbn in X. apply (N l'); [apply (holds_find l' (j_db I)); now rewrite K|exact K|congruence].
    + intros [kd m] Hy [K1 K2]. cbn [fst snd] in *. assert (X0 : false = true); [|discriminate]. apply (B (kd, m) Hy).
      specialize (W 0%N). unfold wants in *. cbn [fst snd] in *. rewrite K2. change (l_type (Lsa _ _ _ _)) with (l_type l) in W. destruct kd; auto; contradiction.
  - exfalso. destruct (@step_runs c uri_of ang dst _ _ _ _ _ _ I U Ex Nk Hd) as (_ & Ed & _). rewrite Ed in H.
    apply (N l); auto. now apply (holds_find l (j_db I)).
Qed.

(** New content of an Adjacency LSA, with link-state routing: a calculation is scheduled when the event
    has been handled. *)
Theorem C30_scheduled r x l : hy <> HOn -> up (extend r [x]) ->
  holds (db (extend r [x])) l -> l_type l = TAdj ->
  (forall l', holds (db r) l' -> l_key l' = l_key l -> l_body l' <> l_body l) ->
  scheduled (extend r [x]) <> [].
Proof.
  intros Hy U H T N. apply (@news r x l U H N). intros k. unfold wants. cbn [fst snd]. change (l_type (Lsa _ _ _ _)) with (l_type l).
  rewrite T, eqb_refl. destruct (eqb hy HOn) eqn:E; [apply eqb_eq in E; contradiction|reflexivity].
Qed.
(** The same for Coordinate LSAs with hyperbolic routing. *)
Theorem C30_scheduled_hyperbolic r x l : hy <> HOff -> up (extend r [x]) ->
  holds (db (extend r [x])) l -> l_type l = TCoord ->
  (forall l', holds (db r) l' -> l_key l' = l_key l -> l_body l' <> l_body l) ->
  scheduled (extend r [x]) <> [].
Proof.
  intros Hy U H T N. apply (@news r x l U H N). intros k. unfold wants. cbn [fst snd]. change (l_type (Lsa _ _ _ _)) with (l_type l).
  rewrite T, eqb_refl. destruct (eqb hy HOff) eqn:E; [apply eqb_eq in E; contradiction|].
  apply Bool.orb_true_r.
Qed.

(** A scheduled calculation stays scheduled, at its time, until the scheduler runs it when due. *)
Theorem C30_kept r x due : up (extend r [x]) -> scheduled r = [due] ->
  scheduled (extend r [x]) = [due] \/
  (snd x = GvCalc 0 /\ due <= g_now (gstate r) /\ scheduled (extend r [x]) = [] /\
   In (CRt (RvCalc 0 (g_now (gstate r)) (calc_view (fst x) (gstate r)))) (snd (gstep c uri_of ang dst (gstate r) x))).
Proof.
  intros U S. pose proof (extend_alive c uri_of ang dst r [x] U) as U0. pose proof (J_exec c uri_of ang dst r U0) as I.
  unfold scheduled, db, up in *. destruct (extend_one c uri_of ang dst r x) as [E _]. rewrite E in *. clear E.
  destruct (@step_cases c uri_of ang dst (gstate r) x U0) as [C|(k & d & Ex & Nk & Hd & Es)].
  - left. destruct (@step_quiet c uri_of ang dst _ _ _ _ I U C) as (A & _). rewrite A; [exact S|]. rewrite S. discriminate.
  - right. rewrite S in Nk. destruct k as [|k]; [|cbn in Nk; destruct k; discriminate]. injection Nk as <-.
    split; [exact Ex|]. split; [exact Hd|].
    destruct (@step_runs c uri_of ang dst _ _ _ _ _ _ I U Ex (eq_trans (f_equal (fun l => nth_error l 0) S) eq_refl) Hd) as (A & _).
    split; [exact A|]. rewrite Es in *. unfold call_rt, live in *. unfold gstate, S_Router.gstate in *. rewrite U0 in *.
    destruct (rt_step _ _ _ _ _ _ _ _) as [[r' o']| |]; try discriminate.
    unfold gseq. destruct (geach _ _ _). cbn [snd]. now left.
Qed.

Lemma view_perm ord s : invS None s -> Permutation (adj_view (lsas_of TAdj ord s)) (adj_view (adj_lsas s)).
Proof.
  intros I. apply adj_same with (s := s) (s' := s); auto.
  - intros l. now apply In_lsas_of.
  - now apply NoDup_lsas_of.
  - intros l. apply In_adj_lsas.
  - now apply NoDup_adj_lsas.
Qed.

(** A calculation that the scheduler runs reads the database as it is then: with link-state routing and
    no build of the own Adjacency LSA scheduled, the table it announces is calculated from the
    Adjacency LSAs of the database; with hyperbolic routing, from its Coordinate LSAs. *)
Theorem C30_reads r i due : up (extend r [(i, GvCalc 0)]) -> scheduled r = [due] -> due <= g_now (gstate r) ->
  (hy <> HOn -> own_adj r -> s_sched (db r) = false ->
     exists L t, Permutation L (adj_view (adj_lsas (db r))) /\
       calc_link_state self (gc_max c) (adl_faces (h_adl (g_h (gstate r)))) L = Ok t /\
       rtouts (snd (gstep c uri_of ang dst (gstate r) (i, GvCalc 0))) = [RAnnounce t] /\
       routes_now (npts (gtrace (extend r [(i, GvCalc 0)]))) = t) /\
  (hy = HOn ->
     exists L t, (forall l, In l L <-> holds (db r) l /\ l_type l = TCoord) /\ NoDup (map l_key L) /\
       calc_hyperbolic ang dst self (h_adl (g_h (gstate r))) (coord_view L) = Ok t /\
       rtouts (snd (gstep c uri_of ang dst (gstate r) (i, GvCalc 0))) = [RAnnounce t] /\
       routes_now (npts (gtrace (extend r [(i, GvCalc 0)]))) = t).
Proof.
  intros U S Hd. pose proof (extend_alive c uri_of ang dst r _ U) as U0. pose proof (J_exec c uri_of ang dst r U0) as I.
  rewrite (routes_now_tab c uri_of ang dst _ U).
  unfold scheduled, db, up in *. destruct (extend_one c uri_of ang dst r (i, GvCalc 0)) as [E _]. rewrite E in *. clear E.
  destruct (@step_runs c uri_of ang dst _ _ _ (i, GvCalc 0) 0 due I U eq_refl (eq_trans (f_equal (fun l => nth_error l 0) S) eq_refl) Hd) as (A1 & A2 & A3 & A4 & A5 & A6).
  split.
  - intros Hy O B. apply (own_adj_present r U0) in O. destruct (A5 Hy B O) as [C1 C2].
    do 2 eexists. split; [|split; [exact C1|split; [exact C2|reflexivity]]]. apply view_perm. exact (j_db I).
  - intros Hy. destruct (A6 Hy) as [C1 C2]. do 2 eexists. split; [|split; [|split; [exact C1|split; [exact C2|reflexivity]]]].
    + intros l. apply In_lsas_of. exact (j_db I).
    + apply NoDup_lsas_of. exact (j_db I).
Qed.

(** The routes in use are those calculated from the Adjacency LSAs of the database. *)
Definition routes_current (r : grun) : Prop :=
  exists L, Permutation L (adj_view (adj_lsas (db r))) /\
    calc_link_state self (gc_max c) (adl_faces (h_adl (g_h (gstate r)))) L = Ok (routes_now (npts (gtrace r))).

(** Between calculations.  Link-state routing, no calculation scheduled, the last calculation did not
    find a build of the own Adjacency LSA scheduled, and no Adjacency LSA of another router has been
    removed since: the routes in use are those of the Adjacency LSAs now in the database.  Missing for
    the full property: the two conditions of [calm], which [C30_skipped_refuted] and
    [C30_removed_refuted] show to be needed. *)
Theorem C30_table_partial r : hy <> HOn -> up r -> scheduled r = [] -> calm self (gtrace r) = true ->
  (own_adj r -> routes_current r) /\
  (~ own_adj r -> routes_now (npts (gtrace r)) = []).
Proof.
  intros Hy U S Cm. pose proof (J_exec c uri_of ang dst r U) as I. rewrite (routes_now_tab c uri_of ang dst _ U).
  rewrite (own_adj_present r U). split.
  - intros O. unfold routes_current. rewrite (routes_now_tab c uri_of ang dst _ U). rewrite (stat_faces _ _ (j_adl I)). apply (j_tab I Hy Cm S O).
  - intros O. apply (j_off I Hy). destruct (rt_own (g_rt (gstate r))); [contradiction|reflexivity].
Qed.
End P.

(** ** A concrete run *)

Notation upX := (up (gcX HOff) uriR angR dstR).
Notation schedX := (scheduled (gcX HOff) uriR angR dstR).
Notation rR := (runR HOff).
Definition routesR evs := map (fun x => (fst x, map (fun h => (nh_uri h, nh_cost h / UNIT)) (snd x))) (routes_now (npts (trR HOff evs))).

Lemma ex_routes : routesR calcR = [(farX, [(uri2, 10); (uri3, 30)]); (thirdX, [(uri2, 15); (uri3, 25)])].
Proof. vm_compute. reflexivity. Qed.


Definition costsR (o : outcome rtable) : list (list Z) :=
  match o with
  | Ok t => map (fun d => match get d t with Some hs => map (fun h => nh_cost h / UNIT) hs | None => [] end) [farX; thirdX]
  | _ => []
  end.
Definition viewX evs : list adj_lsa := adj_view (adj_lsas (db (gcX HOff) uriR angR dstR (rR evs))).
Notation current evs := (routes_current (gcX HOff) uriR angR dstR (rR evs)).
Fixpoint inserts {A} (x : A) (l : list A) : list (list A) :=
  match l with [] => [[x]] | y :: l' => (x :: y :: l') :: map (cons y) (inserts x l') end.
Fixpoint orders {A} (l : list A) : list (list A) :=
  match l with [] => [[]] | x :: l' => flat_map (inserts x) (orders l') end.
Lemma inserts_In {A} (x : A) a b : In (a ++ x :: b) (inserts x (a ++ b)).
Proof. induction a as [|y a IH]; cbn; [destruct b; now left|]. right. now apply in_map. Qed.
Lemma orders_In {A} (l L : list A) : Permutation L l -> In L (orders l).
Proof.
  revert L. induction l as [|x l IH]; intros L P; [apply Permutation_sym, Permutation_nil in P; subst; now left|].
  assert (H : In x L) by (apply (Permutation_in x (Permutation_sym P)); now left).
  apply in_split in H as (a & b & ->). cbn [orders]. apply in_flat_map. exists (a ++ b). split; [|apply inserts_In].
  apply IH. apply Permutation_sym in P. apply Permutation_cons_app_inv in P. now apply Permutation_sym.
Qed.
Definition staleb evs : bool :=
  let f := adl_faces (h_adl (g_h (gstate (gcX HOff) uriR angR dstR (rR evs)))) in
  let old := costsR (Ok (routes_now (npts (gtrace (gcX HOff) uriR angR dstR (rR evs))))) in
  forallb (fun L => negb (eqb (costsR (calc_link_state (c_self (gc (gcX HOff))) (gc_max (gcX HOff)) f L)) old)) (orders (viewX evs)).
Lemma staleb_ok evs : staleb evs = true -> ~ current evs.
Proof.
  unfold staleb, routes_current. cbv zeta. intros H (L & P & E). rewrite forallb_forall in H. specialize (H L (orders_In _ _ P)).
  rewrite E, eqb_refl in H. discriminate H.
Qed.
Definition removals (t : list glog) : list name :=
  flat_map (fun x => match x with XPre (PDb (ONotify KRemoved l _ _)) => [l_origin l] | _ => [] end) t.

(** The state after [evs], for the facts below: process ended, calculations, time, build scheduled,
    [calm], what was removed. *)
Definition facts evs :=
  let g := stR HOff evs in let t := trR HOff evs in
  (g_dead g, rt_pend (g_rt g), g_now g, s_sched (g_db g), calm selfX t, removals t, existsb (fun l => eqb (l_key l) (selfX, TAdj)) (contents (g_db g))).
Lemma facts_ok evs d p n b cm rm h : facts evs = (d, p, n, b, cm, rm, h) ->
  g_dead (stR HOff evs) = d /\ rt_pend (g_rt (stR HOff evs)) = p /\ g_now (stR HOff evs) = n /\ s_sched (g_db (stR HOff evs)) = b /\
  calm selfX (trR HOff evs) = cm /\ removals (trR HOff evs) = rm /\
  existsb (fun l => eqb (l_key l) (selfX, TAdj)) (contents (g_db (stR HOff evs))) = h.
Proof.
  unfold facts. cbv zeta. generalize (stR HOff evs) (trR HOff evs). intros g t E. injection E as <- <- <- <- <- <- <-. auto 10.
Qed.
Lemma ex_linked : facts linkedR = (false, [25 * SEC], 10 * SEC, false, true, [], true).
Proof. vm_compute. reflexivity. Qed.
Lemma ex_due : facts (removelast calcR) = (false, [25 * SEC], 25 * SEC, false, true, [], true).
Proof. vm_compute. reflexivity. Qed.
Lemma ex_calc : facts calcR = (false, [], 25 * SEC, false, true, [], true).
Proof. vm_compute. reflexivity. Qed.
Lemma ex_lost : facts lostR = (false, [], 50 * SEC, false, false, [], true).
Proof. vm_compute. reflexivity. Qed.
Lemma ex_lost_stale : staleb lostR = true.
Proof. vm_compute. reflexivity. Qed.
Lemma ex_expire : facts expireR = (false, [], 3625 * SEC, false, false, [farX], true).
Proof. vm_compute. reflexivity. Qed.
Lemma ex_expire_stale : staleb expireR = true.
Proof. vm_compute. reflexivity. Qed.

(** C30, refuted in general: a calculation that finds a build of the own Adjacency LSA scheduled is
    dropped, and if the build changes nothing no other follows.  No calculation and no build is
    scheduled, nothing was removed, and the routes in use are not those of the database. *)
Theorem C30_skipped_refuted : exists c uri_of ang dst r,
  up c uri_of ang dst r /\ c_hyp (gc c) = HOff /\ scheduled c uri_of ang dst r = [] /\ s_sched (db c uri_of ang dst r) = false /\
  own_adj c uri_of ang dst r /\ removals (gtrace c uri_of ang dst r) = [] /\
  ~ routes_current c uri_of ang dst r.
Proof.
  exists (gcX HOff), uriR, angR, dstR, (rR lostR). destruct (facts_ok _ _ _ _ _ _ _ _ ex_lost) as (E1 & E2 & _ & E3 & _ & E4 & E5).
  apply existsb_exists in E5 as (l & H & K). apply eqb_eq in K.
  split; [exact E1|]. split; [reflexivity|]. split; [exact E2|]. split; [exact E3|].
  split; [exists l; split; [exact H|exact K]|]. split; [exact E4|]. exact (staleb_ok _ ex_lost_stale).
Qed.

(** C30, refuted in general: the removal of another router's expired Adjacency LSA schedules no
    calculation.  Every calculation found no build scheduled, and the routes in use still cross r2. *)
Theorem C30_removed_refuted : exists c uri_of ang dst r,
  up c uri_of ang dst r /\ c_hyp (gc c) = HOff /\ scheduled c uri_of ang dst r = [] /\ s_sched (db c uri_of ang dst r) = false /\
  own_adj c uri_of ang dst r /\
  (forall k now v, In (RvCalc k now v) (rtevs (gtrace c uri_of ang dst r)) -> v_build v = false) /\
  ~ routes_current c uri_of ang dst r.
Proof.
  exists (gcX HOff), uriR, angR, dstR, (rR expireR). destruct (facts_ok _ _ _ _ _ _ _ _ ex_expire) as (E1 & E2 & _ & E3 & _ & E4 & E5).
  apply existsb_exists in E5 as (l & H & K). apply eqb_eq in K.
  split; [exact E1|]. split; [reflexivity|]. split; [exact E2|]. split; [exact E3|].
  split; [exists l; split; [exact H|exact K]|]. split; [|exact (staleb_ok _ ex_expire_stale)].
  clear - E1. assert (B : forallb (fun e => match e with RvCalc _ _ v => negb (v_build v) | _ => true end) (rtevs (trR HOff expireR)) = true)
    by (vm_compute; reflexivity).
  intros k now v Hv. rewrite forallb_forall in B. specialize (B _ Hv). cbv beta iota in B. clear - B. destruct (v_build v); [discriminate B|reflexivity].
Qed.

(** The hypotheses of the theorems above hold in the run: a calculation is scheduled by r3's Adjacency
    LSA, runs when due, and leaves the routes of the database. *)
Example C30_example :
  schedX (rR linkedR) = [25 * SEC] /\ own_adj (gcX HOff) uriR angR dstR (rR (removelast calcR)) /\
  upX (rR calcR) /\ schedX (rR (removelast calcR)) = [25 * SEC] /\ schedX (rR calcR) = [] /\
  calm selfX (gtrace (gcX HOff) uriR angR dstR (rR calcR)) = true /\
  routesR calcR = [(farX, [(uri2, 10); (uri3, 30)]); (thirdX, [(uri2, 15); (uri3, 25)])].
Proof.
  destruct (facts_ok _ _ _ _ _ _ _ _ ex_linked) as (_ & A & _). destruct (facts_ok _ _ _ _ _ _ _ _ ex_due) as (_ & B & _ & _ & _ & _ & B7).
  destruct (facts_ok _ _ _ _ _ _ _ _ ex_calc) as (E1 & E2 & _ & _ & E5 & _).
  apply existsb_exists in B7 as (l & H & K). apply eqb_eq in K.
  split; [exact A|]. split; [exists l; split; [exact H|exact K]|]. split; [exact E1|]. split; [exact B|]. split; [exact E2|].
  split; [exact E5|exact ex_routes].
Qed.
(** The event that brings r3's Adjacency LSA is one to which [C30_scheduled] applies. *)
Definition third (evs : list (inp * gev)) : bool :=
  existsb (fun l => eqb (l_key l) (thirdX, TAdj)) (contents (db (gcX HOff) uriR angR dstR (rR evs))).
Lemma third_no evs l : third evs = false -> holds (db (gcX HOff) uriR angR dstR (rR evs)) l -> l_key l <> (thirdX, TAdj).
Proof.
  unfold third, holds. intros E H K. assert (X : true = false); [|discriminate X].
  rewrite <- E. symmetry. apply existsb_exists. exists l. split; [exact H|]. rewrite K. apply eqb_refl.
Qed.
Lemma third_yes evs : third evs = true -> exists l, holds (db (gcX HOff) uriR angR dstR (rR evs)) l /\ l_key l = (thirdX, TAdj).
Proof. unfold third, holds. intros E. apply existsb_exists in E as (l & H & K). apply eqb_eq in K. eauto. Qed.
Lemma ex_old : third (removelast linkedR) = false.
Proof. vm_compute. reflexivity. Qed.
Lemma ex_new : third linkedR = true.
Proof. vm_compute. reflexivity. Qed.
Example C30_scheduled_example : exists l,
  holds (db (gcX HOff) uriR angR dstR (rR linkedR)) l /\ l_type l = TAdj /\
  forall l', holds (db (gcX HOff) uriR angR dstR (rR (removelast linkedR))) l' -> l_key l' = l_key l -> l_body l' <> l_body l.
Proof.
  destruct (third_yes _ ex_new) as (l & H & K). exists l. split; [exact H|]. split; [exact (f_equal snd K)|].
  intros l' H' K' _. apply (third_no _ l' ex_old H'). rewrite K'. exact K.
Qed.

Print Assumptions C30_one.
Print Assumptions C30_scheduled.
Print Assumptions C30_scheduled_hyperbolic.
Print Assumptions C30_kept.
Print Assumptions C30_reads.
Print Assumptions C30_table_partial.
Print Assumptions C30_skipped_refuted.
Print Assumptions C30_removed_refuted.
