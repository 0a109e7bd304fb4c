(** C91: the forwarder's routes are those of the FIB, and packets are delivered over them. *)
From Verif Require Import Base M_Nexthop L_Nexthop M_Tlv M_Adj M_Lsa M_Lsdb L_Lsdb M_Codec M_Sync S_Lsdb S_Codec P_Codec S_Graph M_LinkState S_LinkState M_Hyperbolic M_RoutingTable
  M_Npt S_Npt M_Fib S_Fib L_Fib M_Prefix M_Hello L_Hello M_Router S_Router S_Live L_Router L_Router5 L_Router6 P_Fib4 L_Live L_Live2 S_Delivery
  X_Lsdb X_Router P_Router P_Router3 P_Router5 P_Router6 P_Router7 M_Network S_Network P_Network P_Network2 S_Forward.
Open Scope Z_scope.
Set Implicit Arguments.

Section P.
Variables (c : gconf) (uri_of : name -> string) (ang : list Z -> list Z -> Z) (dst : Z -> Z -> Z -> Z).
Notation gstate := (gstate c uri_of ang dst).
Notation gtrace := (gtrace c uri_of ang dst).
Notation up := (P_Router.up c uri_of ang dst).
Notation fib_of r := (g_fib (gstate r)).
Notation now r := (g_now (gstate r)).
Notation adjs r := (h_adl (g_h (gstate r))).
Hypothesis Hms : fits_field c.

Lemma steady_both r n u f : up r -> ~ neighbour (adjs r) n -> not_own c n -> steady c uri_of ang dst r n u f ->
  (route_end (u_now r) (gtrace r) n f <> None <-> In u (fib_faces (fib_of r) n)) /\
  (forall e, route_end (u_now r) (gtrace r) n f = Some e -> exists due, refresh_due (fib_of r) n = Some due /\ due + 10 * SEC <= e).
Proof.
  intros U Nn [Hl Hs] (r0 & b & t & -> & Et & So & Nf & W0 & L0).
  assert (U0 : up r0) by exact (extend_alive c uri_of ang dst r0 b U).
  set (names := map a_name (h_adl (fst (hinit (hconf_of c) (u_nbs r0))))).
  assert (Hn : ~ In n names) by (unfold neighbour in Nn; rewrite (k_names (@K_exec c uri_of ang dst Hms (extend r0 b) U)) in Nn; exact Nn).
  assert (Nn0 : ~ neighbour (adjs r0) n) by (unfold neighbour; rewrite (k_names (@K_exec c uri_of ang dst Hms r0 U0)); exact Hn).
  assert (V : forall b, up (extend r0 b) -> (forall b1 b2, b = b1 ++ b2 -> sole_face (adjs (extend r0 b1)) u f) ->
    (forall i id, ~ In (i, GvFib (FvRegFail id)) b) ->
    exists t, gtrace (extend r0 b) = gtrace r0 ++ t /\
      WV names n u f (fib_of (extend r0 b)) (snd (ends (u_now r0) (gtrace (extend r0 b)))) /\
      LV (fconf_of c) names n u f (fib_of (extend r0 b)) (snd (ends (u_now r0) (gtrace (extend r0 b))))
        ((In u (fib_faces (fib_of r0) n) -> registered t n f))).
  { clear b t U So Nf Nn Et L0. induction b as [|x b IH] using rev_ind; intros U So Nf.
    - exists []. replace (extend r0 []) with r0 by (destruct r0; unfold extend; cbn; now rewrite app_nil_r).
      split; [now rewrite app_nil_r|]. pose proof (@K_exec c uri_of ang dst Hms r0 U0) as K.
      split; [split; [apply (k_base K)|exact W0]|]. split; [apply (k_base K)|apply (k_due K)|].
      intros R Hu. destruct (R Hu) as (id & k & ttl & fl & []).
    - assert (Ex : extend r0 (b ++ [x]) = extend (extend r0 b) [x]) by (unfold extend; cbn; now rewrite app_assoc).
      rewrite Ex in *. assert (Ub : up (extend r0 b)) by exact (extend_alive c uri_of ang dst _ _ U).
      destruct IH as (t & E & V & L); [exact Ub| | |].
      { intros b1 b2 ->. apply (So b1 (b2 ++ [x])). now rewrite app_assoc. }
      { intros i id H. apply (Nf i id). apply in_or_app. now left. }
      destruct (extend_one c uri_of ang dst (extend r0 b) x) as [E1 E2].
      assert (Nx : forall id, snd x <> GvFib (FvRegFail id)).
      { intros id H. destruct x as [i v]. cbn in H. subst v. apply (Nf i id). apply in_or_app. right. now left. }
      assert (S1 : sole_face (adjs (extend r0 b)) u f) by (apply (So b [x]); reflexivity).
      assert (S2 : sole_face (adjs (extend (extend r0 b) [x])) u f) by (rewrite <- Ex; apply (So (b ++ [x]) []); now rewrite app_nil_r).
      exists (t ++ snd (gstep c uri_of ang dst (gstate (extend r0 b)) x)). split; [now rewrite E2, E, app_assoc|].
      change (u_now r0) with (u_now (extend r0 b)). rewrite (@lives_fibs c uri_of ang dst (extend r0 b) x Ub).
      pose proof (@K_exec c uri_of ang dst Hms (extend r0 b) Ub) as Kb. split.
      + exact (@WV_step c uri_of ang dst Hms (extend r0 b) x names n u f _ Hn Hl Hs Kb U Nx S1 S2 V).
      + rewrite E1 in *. assert (D' : g_dead (fst (gstep c uri_of ang dst (gstate (extend r0 b)) x)) = false) by (rewrite <- E1; exact U).
        pose proof (@LV_step c uri_of ang dst Hms names n u f _ x _ _ Hn Kb D' Nx S1 S2 L) as L1.
        destruct (In_dec eq_dec u (fib_faces (fib_of r0) n)) as [H0|H0].
        * eapply lv_weaken; [|exact L1]. intros R. destruct (R H0) as (id & k & ttl & fl & H).
          apply in_app_or in H as [H|H]; [left; intros _|right]; exists id, k, ttl, fl; exact H.
        * eapply lv_weaken; [|exact L1]. intros _. left. intros H. contradiction. }
  destruct (V b U So Nf) as (t' & E & [B W] & [_ D L]). rewrite Et in E. apply app_inv_head in E. subst t'. specialize (L L0).
  unfold route_end in *. cbn [u_now extend] in *. split; [split|].
  - exact W.
  - intros H. destruct (L H) as (e & E1 & _). congruence.
  - intros e He. assert (Hu : In u (fib_faces (fib_of (extend r0 b)) n)) by (apply W; congruence).
    destruct (L Hu) as (e' & E1 & E2). rewrite He in E1. injection E1 as <-.
    assert (G : get n (f_tab (fib_of (extend r0 b))) <> None) by (intros Z; unfold fib_faces in Hu; rewrite Z in Hu; destruct Hu).
    destruct (@C87_pending c uri_of ang dst Hms _ _ U Nn G) as (due & P1 & _). exists due. split; [exact P1|]. exact (E2 due P1).
Qed.

(** When a neighbour has had its face for some time, the forwarder has a route for a prefix over this face
    exactly when the FIB entry of the prefix holds it. *)
Theorem C91_routes r n u f : up r -> ~ neighbour (adjs r) n -> not_own c n -> steady c uri_of ang dst r n u f ->
  route_end (u_now r) (gtrace r) n f <> None <-> In u (fib_faces (fib_of r) n).
Proof. intros U Nn No S. exact (proj1 (@steady_both r n u f U Nn No S)). Qed.

(** And it has not ended if refreshes are made in time. *)
Theorem C91_live r n u f : up r -> ~ neighbour (adjs r) n -> not_own c n -> steady c uri_of ang dst r n u f -> timely c uri_of ang dst r n ->
  live_route c uri_of ang dst r n f <-> In u (fib_faces (fib_of r) n).
Proof.
  intros U Nn No S T. destruct (@steady_both r n u f U Nn No S) as [A B]. split.
  - intros (e & E & _). apply A. congruence.
  - intros H. apply A in H. destruct (route_end (u_now r) (gtrace r) n f) as [e|] eqn:E; [|contradiction]. exists e. split; [exact E|].
    destruct (B e eq_refl) as (due & D1 & D2). specialize (T due D1). lia.
Qed.
End P.

Section N.
Variables (uri_of : name -> string) (ang : list Z -> list Z -> Z) (dst : Z -> Z -> Z -> Z).
Variables (time_str : Z -> string) (time_parse : string -> option Z) (uri_parse : string -> option uri).
Variable w : list box.
Notation gpossible := (gpossible uri_of ang dst time_str time_parse uri_parse w).
Notation good_sent := (good_sent uri_of ang dst time_str time_parse uri_parse w).
Notation all_settled := (all_settled uri_of ang dst w).
Notation all_current := (all_current uri_of ang dst w).
Notation all_steady := (all_steady uri_of ang dst w).
Notation link := (link uri_of ang dst w).
Notation origin_of := (origin_of uri_of ang dst w).
Notation hands := (hands uri_of ang dst w).
Notation relays := (relays uri_of ang dst w).

Lemma not_neighbour i b s p : nth_error w i = Some b -> up (b_conf b) uri_of ang dst (brun b i s) -> fits_field (b_conf b) -> plain w p ->
  ~ neighbour (h_adl (g_h (bstate uri_of ang dst b i s))) p.
Proof.
  intros E U F Pl. unfold neighbour, bstate. rewrite (k_names (@K_exec (b_conf b) uri_of ang dst F (brun b i s) U)).
  intros H. destruct (Pl b (nth_error_In _ _ E)) as [_ Pn]. cbn [brun u_nbs] in H.
  apply in_map_iff in H as (a & Ea & Ha). 
  assert (X : forall l a, In a (conf_adl l) -> exists u k, In (a_name a, u, k) l).
  { clear. unfold conf_adl. intros l. 
    assert (Y : forall l acc a, In a (fold_left (fun acc x => if eqb (fst (fst x)) [] then acc else snd (adl_insert (Adj (fst (fst x)) (snd (fst x)) (snd x) SInactive 0 0) acc)) l acc) ->
      In a acc \/ exists u k, In (a_name a, u, k) l).
    { clear. induction l as [|x l IH]; intros acc a H; [now left|]. cbn [fold_left] in H. apply IH in H as [H|(u & k & H)]; [|right; exists u, k; now right].
      destruct (eqb (fst (fst x)) []); [now left|]. unfold adl_insert in H. destruct (adl_find _ acc); [now left|]. cbn [snd] in H.
      apply in_app_or in H as [H|[<-|[]]]; [now left|]. right. destruct x as [[n u] k]. exists u, k. now left. }
    intros a H. apply Y in H as [[]|H]. exact H. }
  unfold hinit, nlsr_adl in Ha. cbn [fst h_adl] in Ha. destruct (eqb _ HOn).
  - apply in_map_iff in Ha as (a0 & E0 & Ha). destruct (X _ _ Ha) as (u & k & Hu). subst a. cbn in Ea. subst p. exact (Pn u k Hu).
  - destruct (X _ _ Ha) as (u & k & Hu). subst p. exact (Pn u k Hu).
Qed.

(** In such a network the forwarders send packets exactly where the FIBs of the routers say. *)
Theorem C91_relays s p u v : all_settled s -> all_steady s p -> plain w p -> relays s p u v <-> hands s p u v.
Proof.
  intros St Sd Pl. split; intros (i & b & E & En & X).
  - destruct X as (x & k & Hx & Lv). exists i, b. split; [exact E|]. split; [exact En|]. exists x, k. split; [exact Hx|].
    destruct (Sd i b E) as (F & No & Ti & S). destruct (S v x k Hx) as (f & Sf). destruct (St i b E) as (_ & U & _).
    pose proof (@not_neighbour i b s p E U F Pl) as Nn. apply (@C91_live (b_conf b) uri_of ang dst F _ _ _ _ U Nn No Sf Ti).
    replace f with (get_face_id x (h_adl (g_h (bstate uri_of ang dst b i s)))); [exact Lv|].
    destruct Sf as (r0 & e & t & Er & _ & So & _). destruct (So e [] ltac:(now rewrite app_nil_r)) as (_ & G & _). unfold bstate. now rewrite Er.
  - destruct X as (x & k & Hx & Hf). exists i, b. split; [exact E|]. split; [exact En|]. exists x, k. split; [exact Hx|].
    destruct (Sd i b E) as (F & No & Ti & S). destruct (S v x k Hx) as (f & Sf). destruct (St i b E) as (_ & U & _).
    pose proof (@not_neighbour i b s p E U F Pl) as Nn.
    replace (get_face_id x (h_adl (g_h (bstate uri_of ang dst b i s)))) with f.
    + apply (@C91_live (b_conf b) uri_of ang dst F _ _ _ _ U Nn No Sf Ti). exact Hf.
    + destruct Sf as (r0 & e & t & Er & _ & So & _). destruct (So e [] ltac:(now rewrite app_nil_r)) as (_ & G & _). unfold bstate. now rewrite Er.
Qed.

(** So C89 holds of the forwarders: a packet that starts at a router from which an advertising router can be
    reached over the links both ends report gets to an advertising router, whichever live route every forwarder
    takes, without visiting a router twice, and over a path of least cost. *)
Theorem C91_delivered s p i b d cost : one_network w -> good_links w -> gpossible s -> good_sent s -> all_settled s -> all_current s -> plain w p -> all_steady s p ->
  nth_error w i = Some b -> origin_of s p d -> walk (link s) (bname b) d cost -> cost < INF_DISTANCE ->
  arrives (relays s p) (origin_of s p) (bname b) /\
  (forall l, trail (relays s p) (origin_of s p) (bname b) l -> NoDup (bname b :: l)) /\
  (forall v c, travels (relays s p) (origin_of s p) (link s) (bname b) v c -> nearest (link s) (origin_of s p) (bname b) c).
Proof.
  intros N1 N2 P Sd St Cu Pl Sy E D W Lt.
  destruct (@C89_delivered uri_of ang dst time_str time_parse uri_parse w s p i b d cost N1 N2 P Sd St Cu Pl E D W Lt) as (A1 & A2 & A3).
  pose proof (fun x y => @C91_relays s p x y St Sy Pl) as R. split; [|split].
  - eapply arrives_iff; [| |exact A1]; [intros; symmetry; apply R|reflexivity].
  - intros l T. apply A2. eapply trail_iff; [| |exact T]; [apply R|reflexivity].
  - intros v k T. apply (A3 v k). eapply travels_iff; [| | |exact T]; [apply R|reflexivity|reflexivity].
Qed.
End N.

(** ** A concrete network: the three routers of C89 *)
Unset Implicit Arguments.
Lemma extend_app c uri_of ang dst r b : exists t, S_Router.gtrace c uri_of ang dst (extend r b) = S_Router.gtrace c uri_of ang dst r ++ t.
Proof.
  induction b as [|x b [t IH]] using rev_ind.
  - exists []. rewrite app_nil_r. f_equal. destruct r. unfold extend. cbn. now rewrite app_nil_r.
  - replace (extend r (b ++ [x])) with (extend (extend r b) [x]) by (unfold extend; cbn; now rewrite app_assoc).
    destruct (extend_one c uri_of ang dst (extend r b) x) as [_ ->]. rewrite IH. eexists. now rewrite <- app_assoc.
Qed.
Definition cut (r : grun) (k : nat) : grun := GRun (u_seqs r) (u_now r) (u_sys r) (u_nbs r) (u_list r) (u_file r) (firstn k (u_evs r)).
Lemma cut_extend r k : r = extend (cut r k) (skipn k (u_evs r)).
Proof. destruct r. unfold extend, cut. cbn. now rewrite firstn_skipn. Qed.
Section B.
Variables (c : gconf) (r : grun) (k : nat) (n : name) (u : uri) (f : N).
Notation gs r := (S_Router.gstate c uriR angR dstR r).
Notation gt r := (S_Router.gtrace c uriR angR dstR r).
Definition steadyb : bool :=
  let r0 := cut r k in let b := skipn k (u_evs r) in
  forallb (fun b1 => solb (h_adl (g_h (gs (extend r0 b1)))) u f) (prefixes b) && negb (existsb failb b) &&
  match route_end (u_now r0) (gt r0) n f with None => true | Some _ => false end && negb (existsb (eqb u) (fib_faces (g_fib (gs r0)) n)).
Lemma steadyb_ok : steadyb = true -> steady c uriR angR dstR r n u f.
Proof.
  unfold steadyb. cbv zeta. intros H. apply andb_prop in H as [H H4]. apply andb_prop in H as [H H3]. apply andb_prop in H as [H1 H2].
  destruct (extend_app c uriR angR dstR (cut r k) (skipn k (u_evs r))) as [t Et]. rewrite <- cut_extend in Et.
  exists (cut r k), (skipn k (u_evs r)), t. split; [apply cut_extend|]. split; [exact Et|]. split; [|split; [|split]].
  - intros b1 b2 E. rewrite forallb_forall in H1. exact (solb_ok _ _ _ (H1 b1 (in_prefixes _ _ E))).
  - intros i id X. assert (Y : existsb failb (skipn k (u_evs r)) = true) by (apply existsb_exists; eexists; split; [exact X|reflexivity]).
    rewrite Y in H2. discriminate H2.
  - destruct (route_end _ _ n f); [discriminate H3|]. intros X. now destruct X.
  - intros X. exfalso. apply negb_true_iff in H4. assert (Y : existsb (eqb u) (fib_faces (g_fib (gs (cut r k))) n) = true).
    { apply existsb_exists. exists u. split; [exact X|]. now apply eqb_eq. }
    rewrite Y in H4. discriminate H4.
Qed.
Definition timelyb : bool := match refresh_due (g_fib (gs r)) n with Some d => g_now (gs r) <? d + 10 * SEC | None => true end.
Lemma timelyb_ok : timelyb = true -> timely c uriR angR dstR r n.
Proof. unfold timelyb, timely. intros H due E. rewrite E in H. now apply Z.ltb_lt. Qed.
End B.
Definition allb (p : name) (b : box) (i : nat) : bool :=
  ((2 * c_refresh (gc (b_conf b)) + 10) * 1000 <=? MS_MAX) && negb (eqb p (c_lsaprefix (gc (b_conf b)))) && negb (eqb p (gc_sync (b_conf b))) &&
  timelyb (b_conf b) (brun b i sN) p &&
  match u_nbs (b_start b) with
  | [(_, x, _); (_, y, _)] => steadyb (b_conf b) (brun b i sN) 1 p x 300 && steadyb (b_conf b) (brun b i sN) 1 p y 301
  | _ => false end.
Lemma sN_steady : allb X_Lsdb.pX box1 0 && allb X_Lsdb.pX box2 1 && allb X_Lsdb.pX box3 2 = true.
Proof. vm_cast_no_check (eq_refl true). Qed.
Lemma allb_ok p b i : allb p b i = true ->
  fits_field (b_conf b) /\ not_own (b_conf b) p /\ timely (b_conf b) uriR angR dstR (brun b i sN) p /\
  forall v x k, In (v, x, k) (u_nbs (b_start b)) -> exists f, steady (b_conf b) uriR angR dstR (brun b i sN) p x f.
Proof.
  unfold allb. intros H. apply andb_prop in H as [H H5]. apply andb_prop in H as [H H4]. apply andb_prop in H as [H H3]. apply andb_prop in H as [H1 H2].
  apply Z.leb_le in H1. apply negb_true_iff in H2, H3. split; [exact H1|]. split; [|split; [exact (timelyb_ok _ _ _ H4)|]].
  - split; intros E; [rewrite (proj2 (eqb_eq _ _) E) in H2|rewrite (proj2 (eqb_eq _ _) E) in H3]; discriminate.
  - destruct (u_nbs (b_start b)) as [|[[n1 x] k1] [|[[n2 y] k2] [|? ?]]]; try discriminate H5. apply andb_prop in H5 as [A B].
    intros v z k [[= <- <- <-]|[[= <- <- <-]|[]]]; [exists 300%N; exact (steadyb_ok _ _ _ _ _ _ A)|exists 301%N; exact (steadyb_ok _ _ _ _ _ _ B)].
Qed.
Example C91_delivered_example : all_steady uriR angR dstR wN sN X_Lsdb.pX /\
  one_network wN /\ good_links wN /\ gpossible uriR angR dstR ts8 tp8 Some wN sN /\ good_sent uriR angR dstR ts8 tp8 Some wN sN /\
  all_settled uriR angR dstR wN sN /\ all_current uriR angR dstR wN sN /\ S_Network.plain wN X_Lsdb.pX.
Proof.
  split; [|destruct C89_delivered_example as (A1 & A2 & A3 & A4 & A5 & A6 & A7 & _); auto 10].
  pose proof sN_steady as H. apply andb_prop in H as [H H3]. apply andb_prop in H as [H1 H2].
  intros i b E. destruct i as [|[|[|i]]]; cbn in E; [| | |now destruct i]; injection E as <-; apply allb_ok; assumption.
Qed.
(** The forwarder of r1 has the route to r2, and none to r3. *)
Lemma sN_face1 : faces_for (b_conf box1) uriR angR dstR (brun box1 0 sN) X_Lsdb.pX = [uri2].
Proof. vm_cast_no_check (eq_refl [uri2]). Qed.
Lemma names_differ : selfX <> farX /\ selfX <> thirdX /\ farX <> thirdX /\ uri3 <> uri2.
Proof. repeat split; intros E; vm_compute in E; discriminate E. Qed.
Lemma box_named i b : nth_error wN i = Some b -> bname b = selfX -> i = 0%nat /\ b = box1.
Proof.
  destruct names_differ as (N1 & N2 & _). intros E En. destruct i as [|[|[|i]]].
  - split; [reflexivity|]. change (Some box1 = Some b) in E. now injection E.
  - change (Some box2 = Some b) in E. injection E as <-. change (farX = selfX) in En. congruence.
  - change (Some box3 = Some b) in E. injection E as <-. change (thirdX = selfX) in En. congruence.
  - change (nth_error (@nil box) i = Some b) in E. now destruct i.
Qed.
Lemma box1_nbs : u_nbs (b_start box1) = [(farX, uri2, of_int 10); (thirdX, uri3, of_int 25)].
Proof. vm_cast_no_check (eq_refl (u_nbs (b_start box1))). Qed.
Example C91_relays_case : relays uriR angR dstR wN sN X_Lsdb.pX selfX farX /\ ~ relays uriR angR dstR wN sN X_Lsdb.pX selfX thirdX.
Proof.
  destruct C91_delivered_example as (Sy & _ & _ & _ & _ & St & _ & Pl). destruct names_differ as (N1 & N2 & N3 & N4). split.
  - apply (proj2 (@C91_relays uriR angR dstR wN sN X_Lsdb.pX selfX farX St Sy Pl)). exists 0%nat, box1. split; [reflexivity|]. split; [reflexivity|].
    exists uri2, (of_int 10). rewrite box1_nbs, sN_face1. split; now left.
  - intros R. apply (proj1 (@C91_relays uriR angR dstR wN sN X_Lsdb.pX selfX thirdX St Sy Pl)) in R as (i & b & E & En & f & k & Hn & Hf).
    destruct (box_named _ _ E En) as [-> ->]. rewrite sN_face1 in Hf. rewrite box1_nbs in Hn. destruct Hf as [<-|[]].
    destruct Hn as [Hn|[Hn|[]]]; [exact (N3 (f_equal (fun z => fst (fst z)) Hn))|exact (N4 (f_equal (fun z => snd (fst z)) Hn))].
Qed.

Print Assumptions C91_routes.
Print Assumptions C91_live.
Print Assumptions C91_relays.
Print Assumptions C91_delivered.
