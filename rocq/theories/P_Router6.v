(** C82 for prefixes that several routers advertise. *)
From Coq Require Import Sorting.Permutation Sorting.Sorted.
From Verif Require Import Base M_Nexthop L_Nexthop M_Tlv M_Adj M_Lsa M_Lsdb L_Lsdb S_Lsdb L_Lsdb3 L_Lsdb4 L_Lsdb6 S_Graph M_LinkState S_LinkState L_LsTable L_Forward P_LinkState
  M_Hyperbolic M_RoutingTable M_Npt S_Npt L_Npt4 L_Npt8 L_LinkState P_Npt P_Npt3 P_Npt4 M_Fib S_Fib S_Pipe M_Prefix M_Hello S_Hello L_Hello M_Router S_Router
  L_Router L_Router2 L_Router3 L_Router4 L_Router5 L_Router6 L_Router7 L_Router8 X_Lsdb X_Router P_Router P_Router3.
Open Scope Z_scope.
Set Implicit Arguments.

(** ** Vocabulary *)

(** The other routers that advertise [p] in the stored LSAs. *)
Definition advertiser (self : name) (s : st) (p d : name) : Prop := d <> self /\ exists x, lists s d p x.

(** [cost] is the cost of a cheapest walk from [s] to one of the [goals]. *)
Definition nearest {V} (link : V -> V -> Z -> Prop) (goals : V -> Prop) (s : V) (cost : Z) : Prop :=
  (exists d, goals d /\ walk link s d cost) /\ forall d cost', goals d -> walk link s d cost' -> cost <= cost'.

Lemma min_exists (L : list Z) : L <> [] -> exists x, In x L /\ forall y, In y L -> x <= y.
Proof.
  induction L as [|a [|b L] IH]; intros H; [congruence|exists a; split; [now left|intros y [<-|[]]; lia]|].
  destruct IH as (x & X1 & X2); [discriminate|]. destruct (Z.le_gt_cases a x) as [Q|Q].
  - exists a. split; [now left|]. intros y [<-|Hy]; [lia|]. specialize (X2 y Hy). lia.
  - exists x. split; [now right|]. intros y [<-|Hy]; [lia|now apply X2].
Qed.

Section P.
Variables (c : gconf) (uri_of : name -> string) (ang : list Z -> list Z -> Z) (dst : Z -> Z -> Z -> Z).
Notation self := (c_self (gc c)).
Notation hy := (c_hyp (gc c)).
Notation gstate := (S_Router.gstate c uri_of ang dst).
Notation gtrace := (S_Router.gtrace c uri_of ang dst).
Notation up := (P_Router.up c uri_of ang dst).
Notation scheduled := (P_Router.scheduled c uri_of ang dst).
Notation db := (P_Router.db c uri_of ang dst).
Notation own_adj := (P_Router.own_adj c uri_of ang dst).
Notation face := (P_Router3.face c uri_of ang dst).
Notation topology := (P_Router3.topology c uri_of ang dst).
Notation faces_for := (P_Router3.faces_for c uri_of ang dst).
Notation ordinary := (P_Router3.ordinary c uri_of ang dst).
Notation settled := (P_Router3.settled c uri_of ang dst).
Notation adv r p := (advertiser self (db r) p).

Lemma many_hops r p : up r -> sane_names r -> hy <> HOn -> ordinary r p ->
  exists hops chosen : nhl,
    (forall u x, offers hops u x <->
       least (fun y => exists d h, adv r p d /\ In h (hops_to (routes_now (npts (gtrace r))) d) /\ nh_uri h = u /\ y = nh_cost h) x) /\
    (forall d h, adv r p d -> In h (hops_to (routes_now (npts (gtrace r))) d) -> exists h', In h' hops /\ nh_uri h' = nh_uri h /\ nh_cost h' <= nh_cost h) /\
    NoDup (map nh_uri hops) /\ (forall h, In h hops -> nh_hyp h = false /\ exists k, nh_cost h = of_int k) /\
    cheapest (gc_max c) hops chosen /\ Permutation (faces_for r p) (map nh_uri chosen).
Proof.
  intros U S Hy (O1 & O2 & O3).
  destruct (pieces U S) as (levs & nevs & t & outs & N1 & N2 & N3 & N4 & N5 & N6 & N7 & l & fevs & F1 & F2 & F3 & F4).
  set (e0 := Env _ _ _) in *.
  destruct (@C31_mirror_partial (gc c) (u_seqs r) (u_now r) e0 levs nevs N1 N3) as (t' & outs' & E & M1 & M2 & M3 & _).
  rewrite N6 in E. injection E as <- <-. rewrite N2 in M1, M2.
  assert (Rts : forall d, In d (routers t p) <-> adv r p d).
  { intros d. destruct (eq_dec p d) as [<-|Q].
    - split; intros H; exfalso.
      + destruct (M2 p H) as (_ & l0 & H1 & H2). exact (O3 l0 H1 H2).
      + destruct H as (_ & x & l0 & H1 & H2 & _). exact (O3 l0 H1 H2).
    - rewrite (M1 p d Q). unfold advertiser. tauto. }
  destruct (@C40_many_partial (gc c) (u_seqs r) (u_now r) e0 levs nevs t outs (fconf_of c) l (u_now r) fevs p N1 N3 (N4 Hy)
              (fun d' x' => N5 d' p x') N6 F1 F2) as (hops & ch & C1 & C2 & C3 & C4 & C5 & _); [now rewrite F3|].
  exists hops, ch. rewrite N7 in C1.
  assert (Off : forall u x, offers hops u x <->
       least (fun y => exists d h, adv r p d /\ In h (hops_to (routes_now (npts (gtrace r))) d) /\ nh_uri h = u /\ y = nh_cost h) x).
  { intros u x. rewrite C1. unfold least. split; intros [(d & h & H1 & H2) Le]; (split; [exists d, h; split; [now apply Rts|exact H2]|]);
      intros y (d' & h' & Q1 & Q2); apply Le; exists d', h'; (split; [now apply Rts|exact Q2]). }
  split; [exact Off|]. split; [|split; [exact C2|split; [exact C3|split; [exact C4|]]]].
  - intros d h Hd Hh.
    set (cs := flat_map (fun d => map nh_cost (filter (fun h0 => String.eqb (nh_uri h0) (nh_uri h)) (hops_to (routes_now (npts (gtrace r))) d))) (routers t p)).
    assert (Cs : forall y, In y cs <-> exists d0 h0, adv r p d0 /\ In h0 (hops_to (routes_now (npts (gtrace r))) d0) /\ nh_uri h0 = nh_uri h /\ y = nh_cost h0).
    { intros y. unfold cs. rewrite in_flat_map. split.
      - intros (d0 & H1 & H2). apply in_map_iff in H2 as (h0 & <- & H2). apply filter_In in H2 as [H2 H3]. apply String.eqb_eq in H3.
        exists d0, h0. rewrite <- Rts. auto.
      - intros (d0 & h0 & H1 & H2 & H3 & ->). exists d0. split; [now apply Rts|]. apply in_map. apply filter_In. split; [exact H2|now apply String.eqb_eq]. }
    destruct (@min_exists cs) as (x & X1 & X2).
    { intros E0. assert (X : In (nh_cost h) cs) by (apply Cs; exists d, h; auto). rewrite E0 in X. destruct X. }
    assert (Ox : offers hops (nh_uri h) x).
    { apply Off. split; [now apply Cs|]. intros y Hy'. apply X2. now apply Cs. }
    destruct Ox as (h' & H1 & H2 & H3). exists h'. split; [exact H1|]. split; [exact H2|]. rewrite H3. apply X2. apply Cs. exists d, h. auto.
  - unfold P_Router3.faces_for. rewrite F4. exact C5.
Qed.

(** What the FIB of a settled router holds with one face per prefix. *)
Lemma nearest_dec r p : gc_max c = 1%N -> up r -> settled r -> sane_names r -> sane_links (db r) -> ordinary r p ->
  (exists cost nb k d, nearest (usable (topology r)) (adv r p) self cost /\ cost < INF_DISTANCE /\ adv r p d /\ nb <> self /\
     usable (topology r) self nb k /\ walk (usable (topology r)) nb d (cost - k) /\ faces_for r p = [face r nb]) \/
  ((forall d cost, adv r p d -> walk (usable (topology r)) self d cost -> INF_DISTANCE <= cost) /\ faces_for r p = []).
Proof.
  intros M U (Hy & Ow & Sc & Ca) S1 S2 Or. pose proof (wf_topology U S2) as W.
  destruct (many_hops U S1 Hy Or) as (hops & ch & H1 & H2 & H3 & H4 & C & Pm).
  destruct (C30_table_partial c uri_of ang dst r Hy U Sc Ca) as [X _]. destruct (X Ow) as (L & Pl & E). clear X.
  assert (Pl' : Permutation (topology r) L) by (symmetry; exact Pl). pose proof (wf_perm Pl' W) as WL. rewrite M in E, C.
  destruct (@calc_single L WL self (adl_faces (h_adl (g_h (gstate r))))) as (t & Et & _ & T). rewrite E in Et. injection Et as Et. rewrite <- Et in T. clear t Et.
  assert (T' : forall d, adv r p d -> (exists dd nb k, shortest (usable (topology r)) self d dd /\ dd < INF_DISTANCE /\ nb <> self /\
       usable (topology r) self nb k /\ walk (usable (topology r)) nb d (dd - k) /\
       hops_to (routes_now (npts (gtrace r))) d = [mk_nh (face r nb) (of_int dd)]) \/
       ((forall dd, walk (usable (topology r)) self d dd -> INF_DISTANCE <= dd) /\ hops_to (routes_now (npts (gtrace r))) d = [])).
  { intros d Hd. destruct (T d) as [(dd & nb & k & Q1 & Q2 & Q3 & Q4 & Q5 & Q6)|(Q1 & Q2)]; [apply Hd| |].
    - left. exists dd, nb, k. split; [exact (perm_shortest Pl Q1)|]. split; [exact Q2|]. split; [exact Q3|]. split; [exact (perm_usable Pl Q4)|].
      split; [exact (perm_walk Pl Q5)|exact Q6].
    - right. split; [|exact Q2]. intros dd Wk. apply Q1. exact (perm_walk Pl' Wk). }
  clear T. destruct C as (C1 & rest & C2 & C3). unfold wanted in C1. change (1 =? 0)%N with false in C1. cbv iota in C1. change (N.to_nat 1) with 1%nat in C1.
  destruct hops as [|h0 hops0] eqn:Eh.
  - right. destruct ch as [|? ?]; [|discriminate C1]. split; [|cbn in Pm; now apply Permutation_sym, Permutation_nil in Pm].
    intros d cost Hd Wk. destruct (T' d Hd) as [(dd & nb & k & _ & _ & _ & _ & _ & Q6)|(Q1 & _)]; [|now apply Q1].
    exfalso. destruct (H2 d (mk_nh (face r nb) (of_int dd)) Hd) as (h' & [] & _). rewrite Q6. now left.
  - left. rewrite <- Eh in *. assert (Ln : length ch = 1%nat) by (rewrite C1, Eh; cbn [length]; lia). clear C1.
    destruct ch as [|h [|h' ch]]; try discriminate Ln. clear Ln. cbn [app] in C2.
    assert (Hh : In h hops) by (eapply Permutation_in; [symmetry; exact C2|now left]).
    assert (Oh : offers hops (nh_uri h) (nh_cost h)) by (exists h; auto).
    apply H1 in Oh as [(d & h1 & D1 & D2 & D3 & D4) _].
    destruct (T' d D1) as [(dd & nb & k & Q1 & Q2 & Q3 & Q4 & Q5 & Q6)|(_ & Q2)]; [|rewrite Q2 in D2; destruct D2].
    rewrite Q6 in D2. destruct D2 as [<-|[]]. cbn [nh_uri nh_cost mk_nh] in D3, D4.
    exists dd, nb, k, d. split; [|split; [exact Q2|split; [exact D1|split; [exact Q3|split; [exact Q4|split; [exact Q5|]]]]]].
    + split; [exists d; split; [exact D1|apply Q1]|]. intros d' cost' Hd' Wk.
      destruct (T' d' Hd') as [(dd' & nb' & k' & Q1' & Q2' & _ & _ & _ & Q6')|(Q1' & _)]; [|specialize (Q1' _ Wk); lia].
      destruct (H2 d' (mk_nh (face r nb') (of_int dd')) Hd') as (h2 & I2 & _ & Le2); [rewrite Q6'; now left|]. cbn [nh_cost mk_nh] in Le2.
      assert (Le : nh_cost h <= nh_cost h2).
      { assert (X : In h2 (h :: rest)) by (eapply Permutation_in; [exact C2|exact I2]). destruct X as [<-|X]; [lia|].
        specialize (C3 h h2 (or_introl eq_refl) X). destruct (H4 h Hh) as (A1 & k1 & A2). destruct (H4 h2 I2) as (B1 & k2 & B2).
        rewrite (@adj_of_int h k1 A1 A2), (@adj_of_int h2 k2 B1 B2) in C3. rewrite A2, B2. now apply (proj2 (of_int_le _ _)). }
      rewrite D4 in Le. assert (Y : of_int dd <= of_int dd') by exact (Z.le_trans _ _ _ Le Le2). apply (proj1 (of_int_le _ _)) in Y. destruct Q1' as [_ Q1']. specialize (Q1' _ Wk). exact (Z.le_trans _ _ _ Y Q1').
    + cbn [map] in Pm. rewrite <- D3 in Pm. symmetry in Pm. now apply Permutation_length_1_inv in Pm.
Qed.

(** With one face per prefix: if some advertising router is reachable, the FIB holds the face towards a
    neighbour on a shortest path to a nearest one; if none is, the FIB holds nothing for the prefix. *)
Theorem C82_nearest r p : gc_max c = 1%N -> up r -> settled r -> sane_names r -> sane_links (db r) -> ordinary r p ->
  (forall cost, nearest (usable (topology r)) (adv r p) self cost -> cost < INF_DISTANCE ->
     exists nb k d, adv r p d /\ nb <> self /\ usable (topology r) self nb k /\ walk (usable (topology r)) nb d (cost - k) /\
       faces_for r p = [face r nb]) /\
  ((forall d cost, adv r p d -> walk (usable (topology r)) self d cost -> INF_DISTANCE <= cost) -> faces_for r p = []).
Proof.
  intros M U S S1 S2 Or. destruct (nearest_dec M U S S1 S2 Or) as [(cost & nb & k & d & [N1 N2] & Lt & D & Q1 & Q2 & Q3 & Q4)|[No E]].
  - split.
    + intros cost' [(d' & D' & Wk) Mn] Lt'. assert (cost' = cost).
      { destruct N1 as (d0 & D0 & W0). pose proof (Mn _ _ D0 W0). pose proof (N2 _ _ D' Wk). lia. } subst cost'. exists nb, k, d. auto 10.
    + intros No. exfalso. destruct N1 as (d0 & D0 & W0). specialize (No _ _ D0 W0). lia.
  - split; [|intros _; exact E]. intros cost [(d' & D' & Wk) _] Lt. specialize (No _ _ D' Wk). lia.
Qed.

(** With several faces per prefix: the cheapest faces, where the cost of a face is that of the best path
    to any advertising router that begins behind that face and does not come back. *)
Theorem C82_nearest_multipath r p : gc_max c <> 1%N -> up r -> settled r -> sane_names r -> sane_links (db r) -> ordinary r p ->
  exists hops chosen : nhl,
    (forall f k, (exists h, In h hops /\ nh_uri h = f /\ nh_cost h = k) <->
       exists cost, k = of_int cost /\ cost < INF_DISTANCE /\
         (exists d, adv r p d /\ via (topology r) (face r) self d f cost) /\
         forall d cost', adv r p d -> via (topology r) (face r) self d f cost' -> cost <= cost') /\
    NoDup (map nh_uri hops) /\ cheapest (gc_max c) hops chosen /\ Permutation (faces_for r p) (map nh_uri chosen).
Proof.
  intros M U (Hy & Ow & Sc & Ca) S1 S2 Or. pose proof (wf_topology U S2) as W.
  destruct (many_hops U S1 Hy Or) as (hops & ch & H1 & H2 & H3 & H4 & C & Pm).
  destruct (C30_table_partial c uri_of ang dst r Hy U Sc Ca) as [X _]. destruct (X Ow) as (L & Pl & E). clear X.
  assert (Pl' : Permutation (topology r) L) by (symmetry; exact Pl). pose proof (wf_perm Pl' W) as WL.
  destruct (@calc_multi L WL self (adl_faces (h_adl (g_h (gstate r)))) (gc_max c) M) as (t & Et & _ & T). rewrite E in Et. injection Et as Et. rewrite <- Et in T. clear t Et.
  assert (Fw : forall d h, adv r p d -> In h (hops_to (routes_now (npts (gtrace r))) d) ->
     exists cost, nh_cost h = of_int cost /\ via (topology r) (face r) self d (nh_uri h) cost /\ cost < INF_DISTANCE).
  { intros d h Hd Hh. destruct (T d (proj1 Hd)) as (_ & T2 & _). destruct (T2 h Hh) as (_ & cost & Q1 & Q2 & Q3).
    exists cost. split; [exact Q1|]. split; [exact (perm_via Pl Q2)|exact Q3]. }
  assert (Bw : forall d f cost, adv r p d -> via (topology r) (face r) self d f cost -> cost < INF_DISTANCE ->
     exists h, In h hops /\ nh_uri h = f /\ nh_cost h <= of_int cost).
  { intros d f cost Hd V Lt. destruct (T d (proj1 Hd)) as (_ & _ & T3). destruct (T3 f cost (perm_via Pl' V) Lt) as (h & Q1 & Q2 & Q3).
    destruct (H2 d h Hd Q1) as (h' & R1 & R2 & R3). exists h'. split; [exact R1|]. split; [congruence|lia]. }
  assert (One : forall h h', In h hops -> In h' hops -> nh_uri h = nh_uri h' -> h = h').
  { clear - H3. induction hops as [|x hops IH]; [intros ? ? []|]. cbn [map] in H3. inversion H3 as [|? ? Hn Hd]; subst.
    intros h h' [<-|Hh] [<-|Hh'] Eq; auto; exfalso; apply Hn; [rewrite Eq|rewrite <- Eq]; now apply in_map. }
  assert (Src : forall h, In h hops -> exists d cost, adv r p d /\ nh_cost h = of_int cost /\ via (topology r) (face r) self d (nh_uri h) cost /\ cost < INF_DISTANCE).
  { intros h Hh. assert (Oh : offers hops (nh_uri h) (nh_cost h)) by (exists h; auto). apply H1 in Oh as [(d & h1 & D1 & D2 & D3 & D4) _].
    destruct (Fw d h1 D1 D2) as (cost & Q1 & Q2 & Q3). exists d, cost. rewrite D4, <- D3. auto. }
  exists hops, ch. split; [|split; [exact H3|split; [exact C|exact Pm]]]. intros f k. split.
  - intros (h & Hh & <- & <-). destruct (Src h Hh) as (d & cost & Q1 & Q2 & Q3 & Q4). exists cost. split; [exact Q2|]. split; [exact Q4|].
    split; [now exists d|]. intros d' cost' Hd' V. destruct (Z.lt_ge_cases cost' INF_DISTANCE) as [Lt|Ge]; [|lia].
    destruct (Bw d' _ cost' Hd' V Lt) as (h' & R1 & R2 & R3). rewrite (One h' h R1 Hh R2), Q2 in R3. exact (proj1 (of_int_le _ _) R3).
  - intros (cost & -> & Lt & (d & Hd & V) & Mn). destruct (Bw d f cost Hd V Lt) as (h & R1 & R2 & R3). exists h. split; [exact R1|]. split; [exact R2|].
    destruct (Src h R1) as (d' & cost' & Q1 & Q2 & Q3 & Q4). rewrite R2 in Q3. specialize (Mn d' cost' Q1 Q3). rewrite Q2 in R3 |- *.
    apply (proj1 (of_int_le _ _)) in R3. f_equal. lia.
Qed.
End P.

(** ** A concrete run *)

(** The link between r2 and r3 costs 40, so that each is reached over its own face; r2 advertises the
    prefix at cost 100, r3 at cost 0. *)
Definition bothR : list (inp * gev) :=
  upR ++ map at_ [GvTick (10 * SEC); GvDb (EFire 2);
                  GvDb (ESync (syncX "r2" TAdj) 1 300); GvDb (EFetchDone 0 (Some (alsaR farX 1 [adjR selfX 10; adjR thirdX 40])));
                  GvDb (ESync (syncX "r3" TAdj) 1 301); GvDb (EFetchDone 1 (Some (alsaR thirdX 1 [adjR selfX 25; adjR farX 40])));
                  GvDb (ESync (syncX "r2" TName) 1 300); GvDb (EFetchDone 2 (Some (Lsa farX 1 (T0 + 3600 * SEC) (BName [(X_Lsdb.pX, of_int 100)]))));
                  GvDb (ESync (syncX "r3" TName) 1 301); GvDb (EFetchDone 3 (Some (Lsa thirdX 1 (T0 + 3600 * SEC) (BName [(X_Lsdb.pX, 0)]))));
                  GvTick (15 * SEC); GvCalc 0].
Notation rB := (runR HOff bothR).

Section E.
Variables (c : gconf) (r : grun) (p : name).
Notation g := (S_Router.gstate c uriR angR dstR r).
Definition caseb2 : bool :=
  negb (g_dead g) && negb (eqb (c_hyp (gc c)) HOn) && existsb (fun l => eqb (l_key l) (c_self (gc c), TAdj)) (contents (g_db g)) &&
  match rt_pend (g_rt g) with [] => true | _ => false end && S_Router.calm (c_self (gc c)) (S_Router.gtrace c uriR angR dstR r) &&
  sane_evs (u_evs r) && sane_dbb (g_db g) && ordb (c_self (gc c)) (g_db g) (h_adl (g_h g)) p.
Lemma caseb2_ok : caseb2 = true ->
  up c uriR angR dstR r /\ settled c uriR angR dstR r /\ sane_names r /\ sane_links (db c uriR angR dstR r) /\ ordinary c uriR angR dstR r p.
Proof.
  unfold caseb2. intros H. repeat (apply andb_prop in H as [H ?]).
  rename H into A1. rename H6 into A2. rename H5 into A3. rename H4 into A4. rename H3 into A5. rename H2 into A6. rename H1 into A7. rename H0 into A8.
  split; [|split; [|split; [|split]]].
  - unfold up. destruct (g_dead g); [discriminate A1|reflexivity].
  - split; [|split; [|split]].
    + intros E. rewrite E in A2. discriminate A2.
    + apply existsb_exists in A3 as (l & Hl & K). apply (proj1 (eqb_eq _ _)) in K. exists l. split; [exact Hl|exact K].
    + unfold scheduled. destruct (rt_pend (g_rt g)); [reflexivity|discriminate A4].
    + exact A5.
  - now apply sane_evs_ok.
  - now apply sane_dbb_ok.
  - exact (@ord_ok c r p A8).
Qed.
Definition listb (d : name) (x : Z) : bool :=
  existsb (fun l => eqb (l_origin l) d && match get p (body_names (l_body l)) with Some y => x =? y | None => false end) (contents (g_db g)).
Lemma listb_ok d x : listb d x = true -> lists (db c uriR angR dstR r) d p x.
Proof.
  unfold listb. intros H. apply existsb_exists in H as (l & Hl & H). apply andb_prop in H as [E H]. apply (proj1 (eqb_eq _ _)) in E.
  destruct (get p (body_names (l_body l))) as [y|] eqn:G; [|discriminate H]. apply Z.eqb_eq in H. subst y. exists l. auto.
Qed.
End E.

(** Finding implicit arguments would unfold the runs below. *)
Unset Implicit Arguments.

Definition topoB : list adj_lsa :=
  [AdjLsa selfX [(farX, 10); (thirdX, 25)]; AdjLsa farX [(selfX, 10); (thirdX, 40)]; AdjLsa thirdX [(selfX, 25); (farX, 40)]].
Lemma topo_both m : m = 1%N \/ m = 2%N -> topology (gcM m) uriR angR dstR rB = topoB.
Proof. intros [->| ->]; vm_compute; reflexivity. Qed.
Lemma ex_both : caseb2 (gcM 1) rB X_Lsdb.pX = true /\ caseb2 (gcM 2) rB X_Lsdb.pX = true /\
  listb (gcM 1) rB X_Lsdb.pX farX (of_int 100) = true /\ listb (gcM 1) rB X_Lsdb.pX thirdX 0 = true /\
  faces_for (gcM 1) uriR angR dstR rB X_Lsdb.pX = [uri2] /\ faces_for (gcM 2) uriR angR dstR rB X_Lsdb.pX = [uri2; uri3] /\
  face (gcM 1) uriR angR dstR rB farX = uri2 /\ face (gcM 1) uriR angR dstR rB thirdX = uri3.
Proof. repeat match goal with |- _ /\ _ => split end; vm_compute; reflexivity. Qed.

(** The usable links. *)
Definition cost3 (u v : name) : option Z := match get u [(selfX, [(farX, 10); (thirdX, 25)]); (farX, [(selfX, 10); (thirdX, 40)]); (thirdX, [(selfX, 25); (farX, 40)])] with
  | Some l => get v l | None => None end.
Lemma links_both u v k : usable topoB u v k <-> cost3 u v = Some k.
Proof.
  split.
  - intros (a & b & (l & Hl & Ho & Hin) & (l' & Hl' & Ho' & Hin') & Ha & Hb & ->). subst u v. unfold topoB in Hl, Hl'.
    destruct Hl as [<-|[<-|[<-|[]]]]; destruct Hl' as [<-|[<-|[<-|[]]]]; cbn [al_origin al_links] in *;
      destruct Hin as [Hin|[Hin|[]]]; try discriminate (f_equal fst Hin); destruct Hin' as [Hin'|[Hin'|[]]]; try discriminate (f_equal fst Hin');
      injection Hin as <-; injection Hin' as <-; vm_compute; reflexivity.
  - intros H.
    assert (X : forall i j la lb a b, nth_error topoB i = Some la -> nth_error topoB j = Some lb -> al_origin la = u -> al_origin lb = v ->
               In (v, a) (al_links la) -> In (u, b) (al_links lb) -> 0 <= a -> 0 <= b -> k = Z.max a b -> usable topoB u v k).
    { intros i j la lb a b H1 H2 <- <- H3 H4 H5 H6 H7. apply nth_error_In in H1, H2. exists a, b. split; [exists la; auto|]. split; [exists lb; auto|auto]. }
    unfold cost3 in H. cbn [get] in H.
    destruct (eqb u selfX) eqn:E1; [apply (proj1 (eqb_eq _ _)) in E1; subst u|].
    { cbn [get] in H. destruct (eqb v farX) eqn:F1; [apply (proj1 (eqb_eq _ _)) in F1; subst v; injection H as <-|].
      - refine (X 0%nat 1%nat _ _ 10 10 eq_refl eq_refl eq_refl eq_refl _ _ _ _ eq_refl); [now left|now left|lia|lia].
      - destruct (eqb v thirdX) eqn:F2; [apply (proj1 (eqb_eq _ _)) in F2; subst v; injection H as <-|discriminate H].
        refine (X 0%nat 2%nat _ _ 25 25 eq_refl eq_refl eq_refl eq_refl _ _ _ _ eq_refl); [right; now left|now left|lia|lia]. }
    destruct (eqb u farX) eqn:E2; [apply (proj1 (eqb_eq _ _)) in E2; subst u|].
    { cbn [get] in H. destruct (eqb v selfX) eqn:F1; [apply (proj1 (eqb_eq _ _)) in F1; subst v; injection H as <-|].
      - refine (X 1%nat 0%nat _ _ 10 10 eq_refl eq_refl eq_refl eq_refl _ _ _ _ eq_refl); [now left|now left|lia|lia].
      - destruct (eqb v thirdX) eqn:F2; [apply (proj1 (eqb_eq _ _)) in F2; subst v; injection H as <-|discriminate H].
        refine (X 1%nat 2%nat _ _ 40 40 eq_refl eq_refl eq_refl eq_refl _ _ _ _ eq_refl); [right; now left|right; now left|lia|lia]. }
    destruct (eqb u thirdX) eqn:E3; [apply (proj1 (eqb_eq _ _)) in E3; subst u|discriminate H].
    { cbn [get] in H. destruct (eqb v selfX) eqn:F1; [apply (proj1 (eqb_eq _ _)) in F1; subst v; injection H as <-|].
      - refine (X 2%nat 0%nat _ _ 25 25 eq_refl eq_refl eq_refl eq_refl _ _ _ _ eq_refl); [now left|right; now left|lia|lia].
      - destruct (eqb v farX) eqn:F2; [apply (proj1 (eqb_eq _ _)) in F2; subst v; injection H as <-|discriminate H].
        refine (X 2%nat 1%nat _ _ 40 40 eq_refl eq_refl eq_refl eq_refl _ _ _ _ eq_refl); [right; now left|right; now left|lia|lia]. }
Qed.

(** A walk costs at least the difference of a potential that no link exceeds. *)
Lemma walk_potential {V} (link : V -> V -> Z -> Prop) (phi : V -> Z) :
  (forall u v k, link u v k -> phi u - phi v <= k) -> forall u v k, walk link u v k -> phi u - phi v <= k.
Proof. intros H u v k W. induction W as [|u v w a b L W IH]; [lia|]. specialize (H _ _ _ L). lia. Qed.
Lemma far_third w : walk (usable topoB) farX thirdX w -> 35 <= w.
Proof.
  intros W. set (phi := fun n => if eqb n farX then 35 else if eqb n selfX then 25 else 0).
  assert (X : phi farX - phi thirdX <= w).
  { eapply walk_potential; [|exact W]. intros u v k H. apply links_both in H. unfold cost3 in H. cbn [get] in H. unfold phi.
    destruct (eqb u selfX) eqn:E1; [apply (proj1 (eqb_eq _ _)) in E1; subst u|].
    { cbn [get] in H. destruct (eqb v farX) eqn:F1; [apply (proj1 (eqb_eq _ _)) in F1; subst v; injection H as <-; vm_compute; discriminate|].
      destruct (eqb v thirdX) eqn:F2; [apply (proj1 (eqb_eq _ _)) in F2; subst v; injection H as <-; vm_compute; discriminate|discriminate H]. }
    destruct (eqb u farX) eqn:E2; [apply (proj1 (eqb_eq _ _)) in E2; subst u|].
    { cbn [get] in H. destruct (eqb v selfX) eqn:F1; [apply (proj1 (eqb_eq _ _)) in F1; subst v; injection H as <-; vm_compute; discriminate|].
      destruct (eqb v thirdX) eqn:F2; [apply (proj1 (eqb_eq _ _)) in F2; subst v; injection H as <-; vm_compute; discriminate|discriminate H]. }
    destruct (eqb u thirdX) eqn:E3; [apply (proj1 (eqb_eq _ _)) in E3; subst u|discriminate H].
    cbn [get] in H. destruct (eqb v selfX) eqn:F1; [apply (proj1 (eqb_eq _ _)) in F1; subst v; injection H as <-; vm_compute; discriminate|].
    destruct (eqb v farX) eqn:F2; [apply (proj1 (eqb_eq _ _)) in F2; subst v; injection H as <-; vm_compute; discriminate|discriminate H]. }
  vm_compute in X. revert X. destruct w; intros X; try (exfalso; apply X; reflexivity); exact X.
Qed.

Definition amongb (s : st) (p : name) (L : list (name * Z)) : bool :=
  forallb (fun l => match get p (body_names (l_body l)) with Some y => existsb (fun z => eqb (l_origin l) (fst z) && (y =? snd z)) L | None => true end) (contents s).
Lemma lists_among s p L : amongb s p L = true -> forall d x, lists s d p x -> In (d, x) L.
Proof.
  unfold amongb. intros B d x (l & Hl & Ho & G). rewrite forallb_forall in B. specialize (B l Hl). rewrite G in B. apply existsb_exists in B as ([d' y] & H & E).
  cbn [fst snd] in E. apply andb_prop in E as [E1 E2]. apply (proj1 (eqb_eq _ _)) in E1. apply Z.eqb_eq in E2. subst. exact H.
Qed.
Definition whoB : list (name * Z) := [(selfX, 0); (farX, of_int 100); (thirdX, 0)].
Lemma amongB : amongb (db (gcM 1) uriR angR dstR rB) X_Lsdb.pX whoB = true.
Proof. vm_compute. reflexivity. Qed.
Lemma listsB d x : lists (db (gcM 1) uriR angR dstR rB) d X_Lsdb.pX x -> In (d, x) whoB.
Proof. exact (@lists_among (db (gcM 1) uriR angR dstR rB) X_Lsdb.pX whoB amongB d x). Qed.
Lemma advB d : advertiser selfX (db (gcM 1) uriR angR dstR rB) X_Lsdb.pX d -> d = farX \/ d = thirdX.
Proof.
  intros (N & x & Ls). apply listsB in Ls. destruct Ls as [E|[E|[E|[]]]]; apply (f_equal fst) in E; cbn [fst] in E; [exfalso; now apply N|left|right]; now symmetry.
Qed.

Example C82_nearest_example : gc_max (gcM 1) = 1%N /\ up (gcM 1) uriR angR dstR rB /\ settled (gcM 1) uriR angR dstR rB /\ sane_names rB /\
  sane_links (db (gcM 1) uriR angR dstR rB) /\ ordinary (gcM 1) uriR angR dstR rB X_Lsdb.pX /\
  advertiser selfX (db (gcM 1) uriR angR dstR rB) X_Lsdb.pX farX /\ advertiser selfX (db (gcM 1) uriR angR dstR rB) X_Lsdb.pX thirdX /\
  nearest (usable (topology (gcM 1) uriR angR dstR rB)) (advertiser selfX (db (gcM 1) uriR angR dstR rB) X_Lsdb.pX) selfX 10 /\
  faces_for (gcM 1) uriR angR dstR rB X_Lsdb.pX = [uri2].
Proof.
  destruct ex_both as (E1 & _ & E3 & E4 & E5 & _). destruct (caseb2_ok _ _ _ E1) as (A1 & A2 & A3 & A4 & A5).
  split; [reflexivity|]. split; [exact A1|]. split; [exact A2|]. split; [exact A3|]. split; [exact A4|]. split; [exact A5|].
  assert (L2 : advertiser selfX (db (gcM 1) uriR angR dstR rB) X_Lsdb.pX farX) by (split; [discriminate|exists (of_int 100); exact (@listb_ok _ _ _ _ _ E3)]).
  split; [exact L2|]. split; [split; [discriminate|exists 0; exact (@listb_ok _ _ _ _ _ E4)]|]. split; [|exact E5].
  rewrite (@topo_both 1%N (or_introl eq_refl)). split.
  - exists farX. split; [exact L2|]. change 10 with (10 + 0). apply walk_cons with (v := farX); [|constructor]. apply links_both. reflexivity.
  - intros d cost Hd W. apply advB in Hd. inversion W as [|? v ? k1 k2 H1 H2]; subst; [destruct Hd as [Hd|Hd]; discriminate Hd|].
    assert (P2 : 0 <= k2) by (eapply walk_nonneg; [|exact H2]; intros; eapply usable_nonneg; eassumption).
    apply links_both in H1. unfold cost3 in H1. cbn [get] in H1. change (eqb selfX selfX) with true in H1. cbv iota in H1. cbn [get] in H1.
    destruct (eqb v farX); [injection H1 as <-; lia|]. destruct (eqb v thirdX); [injection H1 as <-; lia|discriminate H1].
Qed.
Example C82_nearest_multipath_example : gc_max (gcM 2) <> 1%N /\ up (gcM 2) uriR angR dstR rB /\ settled (gcM 2) uriR angR dstR rB /\ sane_names rB /\
  sane_links (db (gcM 2) uriR angR dstR rB) /\ ordinary (gcM 2) uriR angR dstR rB X_Lsdb.pX /\
  faces_for (gcM 2) uriR angR dstR rB X_Lsdb.pX = [uri2; uri3].
Proof.
  destruct ex_both as (_ & E1 & _ & _ & _ & E2 & _). destruct (caseb2_ok _ _ _ E1) as (A1 & A2 & A3 & A4 & A5).
  split; [discriminate|]. split; [exact A1|]. split; [exact A2|]. split; [exact A3|]. split; [exact A4|]. split; [exact A5|exact E2].
Qed.

(** The costs that routers give a prefix do not take part in the choice between them: r3 offers the prefix
    at a total of 25, every way over r2 costs more, and the FIB holds the face towards r2. *)
Theorem C82_prefix_cost_refuted : exists c uri_of ang dst r p nb d cost x,
  let usable_links := usable (topology c uri_of ang dst r) in
  gc_max c = 1%N /\ up c uri_of ang dst r /\ settled c uri_of ang dst r /\ sane_names r /\
  sane_links (db c uri_of ang dst r) /\ ordinary c uri_of ang dst r p /\
  faces_for c uri_of ang dst r p = [face c uri_of ang dst r nb] /\
  face c uri_of ang dst r nb <> face c uri_of ang dst r d /\
  d <> c_self (gc c) /\ lists (db c uri_of ang dst r) d p x /\ usable_links (c_self (gc c)) d cost /\
  forall d' x' k w, d' <> c_self (gc c) -> lists (db c uri_of ang dst r) d' p x' -> usable_links (c_self (gc c)) nb k -> walk usable_links nb d' w ->
    of_int cost + x < of_int (k + w) + x'.
Proof.
  exists (gcM 1), uriR, angR, dstR, rB, X_Lsdb.pX, farX, thirdX, 25, 0. cbv zeta. rewrite (@topo_both 1%N (or_introl eq_refl)).
  destruct ex_both as (E1 & _ & E3 & E4 & E5 & _ & E7 & E8). destruct (caseb2_ok _ _ _ E1) as (A1 & A2 & A3 & A4 & A5).
  split; [reflexivity|]. split; [exact A1|]. split; [exact A2|]. split; [exact A3|]. split; [exact A4|]. split; [exact A5|].
  split; [rewrite E7; exact E5|]. split; [rewrite E7, E8; discriminate|]. split; [discriminate|]. split; [exact (@listb_ok _ _ _ _ _ E4)|].
  split; [apply links_both; reflexivity|]. intros d' x' k w N Ls Hk Wk.
  apply links_both in Hk. vm_compute in Hk. assert (k = 10) by congruence. subst k. clear Hk.
  apply listsB in Ls. destruct Ls as [E|[E|[E|[]]]].
  - exfalso. apply N. now apply (f_equal fst) in E.
  - pose proof (f_equal fst E) as Ed. pose proof (f_equal snd E) as Ex. cbn [fst snd] in Ed, Ex. clear E. subst d' x'.
    assert (P2 : 0 <= w) by (eapply walk_nonneg; [|exact Wk]; intros; eapply usable_nonneg; eassumption).
    unfold of_int. pose proof UNIT_pos. nia.
  - pose proof (f_equal fst E) as Ed. pose proof (f_equal snd E) as Ex. cbn [fst snd] in Ed, Ex. clear E. subst d' x'.
    pose proof (far_third w Wk). unfold of_int. pose proof UNIT_pos. nia.
Qed.

Print Assumptions C82_nearest.
Print Assumptions C82_nearest_multipath.
Print Assumptions C82_prefix_cost_refuted.
