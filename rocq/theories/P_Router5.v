(** C87: a running router keeps its routes alive at the forwarder. *)
From Verif Require Import Base M_Nexthop L_Nexthop M_Tlv M_Adj M_Lsa M_Lsdb L_Lsdb M_LinkState M_Hyperbolic M_RoutingTable
  M_Npt M_Fib S_Fib L_Fib M_Prefix M_Hello L_Hello M_Router S_Router S_Live L_Router L_Router5 L_Router6 P_Fib4 L_Live X_Lsdb X_Router P_Router P_Router3.
Open Scope Z_scope.
Set Implicit Arguments.

Section P.
Variables (c : gconf) (uri_of : name -> string) (ang : list Z -> list Z -> Z) (dst : Z -> Z -> Z -> Z).
Notation gstate := (gstate c uri_of ang dst).
Notation gtrace := (gtrace c uri_of ang dst).
Notation up := (P_Router.up c uri_of ang dst).
Notation fib_of r := (g_fib (gstate r)).
Notation now r := (g_now (gstate r)).
(** The adjacency list; the name is that of a configured neighbour. *)
Notation adjs r := (h_adl (g_h (gstate r))).
(** Twice the configured refresh time, in seconds; the lifetime of a route in milliseconds. *)
Notation period := (2 * c_refresh (gc c)).
Notation lifetime := ((2 * c_refresh (gc c) + 10) * 1000).

(** The largest lifetime a command can express. *)
Hypothesis Hms : lifetime <= MS_MAX.

(** The FIB's clock is the router's. *)
Theorem C87_clock r : up r -> f_now (fib_of r) = now r /\ fst (ends (u_now r) (gtrace r)) = now r.
Proof.
  intros U. pose proof (@K_exec c uri_of ang dst Hms r U) as K. rewrite ends_exec. cbn [fst]. split; apply (k_now K).
Qed.

Lemma names_same r r' : u_nbs r' = u_nbs r -> up r -> up r' -> map a_name (adjs r') = map a_name (adjs r).
Proof. intros E U U'. rewrite (k_names (@K_exec c uri_of ang dst Hms r U)), (k_names (@K_exec c uri_of ang dst Hms r' U')), E. reflexivity. Qed.

(** Every prefix in the FIB, other than the neighbours' own names, has a refresh pending. *)
Theorem C87_pending r n : up r -> ~ neighbour (adjs r) n -> get n (f_tab (fib_of r)) <> None ->
  exists due, refresh_due (fib_of r) n = Some due /\ due <= now r + period * SEC.
Proof.
  intros U Nn G. pose proof (@K_exec c uri_of ang dst Hms r U) as K. destruct (get n (f_tab (fib_of r))) as [e|] eqn:E; [|contradiction].
  destruct (k_base K) as (_ & _ & Hnb). unfold refresh_due. rewrite E. destruct (fe_refresh e) as [[due fl]|] eqn:Er.
  - exists due. split; [reflexivity|]. rewrite <- (k_now K). exact (k_due K _ E Er).
  - exfalso. apply Nn. unfold neighbour. rewrite (k_names K). now apply (Hnb n e E).
Qed.

(** A refresh that is due registers the prefix over exactly the faces of its entry that exist, and the next
    one is due a period later; before that, nothing happens. *)
Theorem C87_refresh r i n due : up r -> refresh_due (fib_of r) n = Some due ->
  let r' := extend r [(i, GvFib (FvRefresh n))] in
  up r' /\ exists t, gtrace r' = gtrace r ++ t /\
    (now r < due -> (forall o, ~ In (XFib o) t) /\ refresh_due (fib_of r') n = Some due) /\
    (due <= now r ->
       (forall f, registered t n f <-> (0 < f)%N /\ exists u, In u (fib_faces (fib_of r) n) /\ get_face_id u (adjs r) = f) /\
       (forall o, In (XFib o) t -> exists id f k fl, o = FReg id n f k lifetime fl) /\
       fib_faces (fib_of r') n = fib_faces (fib_of r) n /\ refresh_due (fib_of r') n = Some (now r + period * SEC)).
Proof.
  intros U Hd r'. pose proof (@K_exec c uri_of ang dst Hms r U) as K. destruct (extend_one c uri_of ang dst r (i, GvFib (FvRefresh n))) as [E1 E2].
  unfold r', P_Router.up in *. rewrite E1, E2. unfold gstep, live in *. rewrite U in *. cbn [fst snd gstep_live] in *. unfold call_fib, live in *. rewrite U in *.
  cbn [fstep] in *. pose proof (refresh_spec (fconf_of c) n (fib_of r)) as (_ & _ & _ & R).
  destruct (fib_refresh (fconf_of c) n (fib_of r)) as [s o]. cbn [fst snd g_fib g_dead gw_fib] in *. split; [exact U|].
  eexists. split; [reflexivity|]. rewrite <- (k_now K), <- (k_same K).
  assert (Xo : forall y, In (XFib y) (CFib (FvRefresh n) :: map XFib o) <-> In y o).
  { intros y. split; [intros [H|H]; [discriminate|]|intros H; right; now apply in_map]. apply in_map_iff in H as (z & [= ->] & H). exact H. }
  unfold refresh_due, fib_faces in *. destruct (get n (f_tab (fib_of r))) as [e|] eqn:Eg; [|discriminate].
  destruct (fe_refresh e) as [[d fl]|] eqn:Er; [|discriminate]. cbn in Hd. injection Hd as ->.
  destruct R as [(-> & -> & R)|(e1 & d1 & fl1 & R1 & R2 & R3 & R4 & R5)].
  - specialize (R e due fl eq_refl Er). split; [|intros; lia]. intros _. split; [intros y Hy; now apply Xo in Hy|]. now rewrite Eg, Er.
  - injection R1 as <-. rewrite Er in R2. injection R2 as <- <-. split; [intros; lia|]. intros _. split; [|split; [|split]].
    + intros f. unfold registered. split.
      * intros (id & k & ttl & fl' & H). apply Xo, in_anon in H. rewrite R5 in H. cbn [anon] in H.
        apply in_regs_iff in H as (h & Hh & Hf & [= -> _ _ _]). split; [exact Hf|]. exists (nh_uri h). split; [now apply in_map|reflexivity].
      * intros (Hf & u & Hu & Ef). apply in_map_iff in Hu as (h & Eh & Hh).
        assert (Q : In (FReg 0 n f (adj_int h) (fib_ttl (fconf_of c)) fl) (map anon o)).
        { rewrite R5. apply in_regs_iff. exists h. rewrite Eh, Ef. auto. }
        apply in_map_iff in Q as (x & Ex & Hx). destruct x; try discriminate Ex. cbn [anon] in Ex. injection Ex as -> -> -> -> ->.
        exists id, (adj_int h), (fib_ttl (fconf_of c)), fl. now apply Xo.
    + intros y Hy. apply Xo, in_anon in Hy. rewrite R5 in Hy. apply in_regs_iff in Hy as (h & _ & _ & Ex).
      destruct y; try discriminate Ex. cbn [anon] in Ex. injection Ex as -> -> -> -> ->. unfold fib_ttl, refresh_time, FIB_GRACE. eauto.
    + rewrite R4. reflexivity.
    + rewrite R4. reflexivity.
Qed.

(** While a neighbour keeps its face and the forwarder accepts the registrations, a route registered over
    this face for a prefix that the FIB still wants there ends at least ten seconds after the next refresh is
    due. *)
Theorem C87_alive r b t n u f :
  up (extend r b) -> ~ neighbour (adjs r) n ->
  (forall b1 b2, b = b1 ++ b2 -> sole_face (adjs (extend r b1)) u f) ->
  (forall i id, ~ In (i, GvFib (FvRegFail id)) b) ->
  gtrace (extend r b) = gtrace r ++ t -> registered t n f ->
  In u (fib_faces (fib_of (extend r b)) n) ->
  exists due e, refresh_due (fib_of (extend r b)) n = Some due /\ due <= now (extend r b) + period * SEC /\
    route_end (u_now r) (gtrace (extend r b)) n f = Some e /\ due + 10 * SEC <= e.
Proof.
  intros U Nn So Nf Et Rg Hu.
  assert (U0 : up r) by exact (extend_alive c uri_of ang dst r b U).
  set (names := map a_name (h_adl (fst (hinit (hconf_of c) (u_nbs r))))).
  assert (Hn : ~ In n names) by (unfold neighbour in Nn; rewrite (k_names (@K_exec c uri_of ang dst Hms r U0)) in Nn; exact Nn).
  assert (V : forall b, up (extend r b) -> (forall b1 b2, b = b1 ++ b2 -> sole_face (adjs (extend r b1)) u f) ->
    (forall i id, ~ In (i, GvFib (FvRegFail id)) b) ->
    exists t, gtrace (extend r b) = gtrace r ++ t /\
      LV (fconf_of c) names n u f (fib_of (extend r b)) (snd (ends (u_now r) (gtrace (extend r b)))) (registered t n f)).
  { clear b t U So Nf Et Rg Hu. induction b as [|x b IH] using rev_ind; intros U So Nf.
    - exists []. replace (extend r []) with r by (destruct r; unfold extend; cbn; now rewrite app_nil_r).
      split; [now rewrite app_nil_r|]. pose proof (@K_exec c uri_of ang dst Hms r U0) as K. split; [apply (k_base K)|apply (k_due K)|].
      intros (id & k & ttl & fl & []).
    - assert (Ex : extend r (b ++ [x]) = extend (extend r b) [x]) by (unfold extend; cbn; now rewrite app_assoc).
      rewrite Ex in *. assert (Ub : up (extend r b)) by exact (extend_alive c uri_of ang dst _ _ U).
      destruct IH as (t & E & V); [exact Ub| | |].
      { intros b1 b2 ->. apply (So b1 (b2 ++ [x])). now rewrite app_assoc. }
      { intros i id H. apply (Nf i id). apply in_or_app. now left. }
      destruct (extend_one c uri_of ang dst (extend r b) x) as [E1 E2].
      exists (t ++ snd (gstep c uri_of ang dst (gstate (extend r b)) x)). split; [now rewrite E2, E, app_assoc|].
      change (u_now r) with (u_now (extend r b)). rewrite (@lives_fibs c uri_of ang dst (extend r b) x Ub), E1.
      assert (D' : g_dead (fst (gstep c uri_of ang dst (gstate (extend r b)) x)) = false) by (rewrite <- E1; exact U).
      eapply lv_weaken; [|refine (@LV_step c uri_of ang dst Hms names n u f _ x _ _ Hn _ D' _ _ _ V)].
      + intros (id & k & ttl & fl & H). apply in_app_or in H as [H|H]; [left|right]; exists id, k, ttl, fl; exact H.
      + exact (@K_exec c uri_of ang dst Hms (extend r b) Ub).
      + intros id H. destruct x as [i v]. cbn in H. subst v. apply (Nf i id). apply in_or_app. right. now left.
      + apply (So b [x]). reflexivity.
      + rewrite <- E1, <- Ex. apply (So (b ++ [x]) []). now rewrite app_nil_r. }
  destruct (V b U So Nf) as (t' & E & [B D L]). rewrite Et in E. apply app_inv_head in E. subst t'.
  destruct (L Rg Hu) as (e & E1 & E2).
  assert (Nn' : ~ neighbour (adjs (extend r b)) n).
  { unfold neighbour in *. now rewrite (@names_same r (extend r b) eq_refl U0 U). }
  assert (G : get n (f_tab (fib_of (extend r b))) <> None) by (unfold fib_faces in Hu; destruct get; [discriminate|destruct Hu]).
  destruct (C87_pending _ U Nn' G) as (due & P1 & P2). exists due, e. split; [exact P1|]. split; [exact P2|]. split; [exact E1|]. exact (E2 due P1).
Qed.
End P.

(** ** A concrete run *)

Definition solb (l : adl) (u : uri) (f : N) : bool :=
  (0 <? f)%N && (get_face_id u l =? f)%N && forallb (fun a => negb (a_face a =? f)%N || eqb (a_uri a) u) l.
Lemma find_uri_in v l a : adl_find_uri v l = Some a -> In a l /\ a_uri a = v.
Proof.
  induction l as [|b l IH]; [discriminate|]. cbn [adl_find_uri]. destruct (eqb (a_uri b) v) eqn:E.
  - intros [= <-]. apply (proj1 (eqb_eq _ _)) in E. split; [now left|exact E].
  - intros H. destruct (IH H). split; [now right|assumption].
Qed.
Lemma solb_ok l u f : solb l u f = true -> sole_face l u f.
Proof.
  unfold solb. intros H. apply andb_prop in H as [H H3]. apply andb_prop in H as [H1 H2].
  apply N.ltb_lt in H1. apply N.eqb_eq in H2. split; [exact H1|]. split; [exact H2|]. intros v E.
  unfold get_face_id in E. destruct (adl_find_uri v l) as [a|] eqn:F; [|lia]. apply find_uri_in in F as [F1 F2].
  rewrite forallb_forall in H3. specialize (H3 a F1). rewrite E, N.eqb_refl in H3. cbn in H3.
  apply (proj1 (eqb_eq _ _)) in H3. congruence.
Qed.
Fixpoint prefixes {A} (l : list A) : list (list A) := [] :: match l with [] => [] | x :: l' => map (cons x) (prefixes l') end.
Lemma in_prefixes A (l b1 b2 : list A) : l = b1 ++ b2 -> In b1 (prefixes l).
Proof.
  revert b1. induction l as [|x l IH]; intros b1 E.
  - destruct b1; [now left|discriminate].
  - destruct b1 as [|y b1]; [now left|]. injection E as -> E. right. apply in_map. now apply IH.
Qed.

(** After the neighbours have come up, r3's prefix is learnt and the routes are calculated; the refresh is due
    an hour later. *)
Definition laterR : list (inp * gev) :=
  map at_ [GvTick (10 * SEC); GvDb (EFire 2);
           GvDb (ESync (syncX "r2" TAdj) 1 300); GvDb (EFetchDone 0 (Some (alsaR farX 1 [adjR selfX 10; adjR thirdX 5])));
           GvDb (ESync (syncX "r3" TAdj) 1 301); GvDb (EFetchDone 1 (Some (alsaR thirdX 1 [adjR selfX 25; adjR farX 5])));
           GvDb (ESync (syncX "r3" TName) 1 301);
           GvDb (EFetchDone 2 (Some (Lsa thirdX 1 (T0 + 3600 * SEC) (BName [(X_Lsdb.pX, of_int 7)]))));
           GvTick (15 * SEC); GvCalc 0; GvTick (3600 * SEC)].
Notation r0 := (runR HOff upR).
Notation upX b := (extend (runR HOff upR) b).
Notation gX b := (S_Router.gstate (gcM 1) uriR angR dstR (upX b)).
Notation tX b := (S_Router.gtrace (gcM 1) uriR angR dstR (upX b)).
Definition failb (x : inp * gev) : bool := match snd x with GvFib (FvRegFail _) => true | _ => false end.
Definition regb (n : name) (f : N) (y : glog) : bool := match y with XFib (FReg _ m g _ _ _) => eqb m n && (g =? f)%N | _ => false end.

Lemma ex_alive : let b := laterR ++ [at_ (GvFib (FvRefresh X_Lsdb.pX))] in
  g_dead (gX b) = false /\ negb (existsb (eqb X_Lsdb.pX) (map a_name (h_adl (g_h (gX []))))) = true /\
  forallb (fun b1 => solb (h_adl (g_h (gX b1))) uri2 300) (prefixes b) = true /\ existsb failb b = false /\
  existsb (regb X_Lsdb.pX 300) (skipn (length (tX [])) (tX laterR)) = true /\
  fib_faces (g_fib (gX laterR)) X_Lsdb.pX = [uri2] /\
  refresh_due (g_fib (gX laterR)) X_Lsdb.pX = Some (25 * SEC + 3600 * SEC) /\
  g_now (gX laterR) = 3625 * SEC /\
  route_end 0 (tX laterR) X_Lsdb.pX 300 = Some (25 * SEC + 3610 * SEC) /\
  refresh_due (g_fib (gX b)) X_Lsdb.pX = Some (3625 * SEC + 3600 * SEC) /\
  route_end 0 (tX b) X_Lsdb.pX 300 = Some (3625 * SEC + 3610 * SEC).
Proof. cbv zeta. do 10 (split; [vm_compute; reflexivity|]). vm_compute. reflexivity. Qed.

Example C87_alive_example : let b := laterR ++ [at_ (GvFib (FvRefresh X_Lsdb.pX))] in
  (2 * c_refresh (gc (gcM 1)) + 10) * 1000 <= MS_MAX /\ P_Router.up (gcM 1) uriR angR dstR (upX b) /\
  ~ neighbour (h_adl (g_h (gX []))) X_Lsdb.pX /\
  (forall b1 b2, b = b1 ++ b2 -> sole_face (h_adl (g_h (gX b1))) uri2 300) /\
  (forall i id, ~ In (i, GvFib (FvRegFail id)) b) /\
  registered (skipn (length (tX [])) (tX laterR)) X_Lsdb.pX 300 /\
  In uri2 (fib_faces (g_fib (gX laterR)) X_Lsdb.pX).
Proof.
  destruct ex_alive as (E1 & E2 & E3 & E4 & E5 & E6 & _). cbv zeta in *.
  split; [vm_compute; discriminate|]. split; [exact E1|]. split; [exact (not_inb _ _ E2)|]. split; [|split; [|split]].
  - intros b1 b2 E. rewrite forallb_forall in E3. exact (solb_ok _ _ _ (E3 b1 (in_prefixes _ _ E))).
  - intros i id H. assert (X : existsb failb (laterR ++ [at_ (GvFib (FvRefresh X_Lsdb.pX))]) = true).
    { apply existsb_exists. eexists. split; [exact H|reflexivity]. }
    rewrite X in E4. discriminate E4.
  - apply existsb_exists in E5 as (y & Hy & R). destruct y as [| | | | | | | | |o|]; try discriminate R. destruct o; try discriminate R.
    cbn [regb] in R. apply andb_prop in R as [R1 R2]. apply (proj1 (eqb_eq _ _)) in R1. apply N.eqb_eq in R2. subst.
    exists id, cost, ttl, flags. exact Hy.
  - rewrite E6. now left.
Qed.
(** Without the refresh the route ends ten seconds after it was due. *)
Example C87_refresh_example :
  refresh_due (g_fib (gX laterR)) X_Lsdb.pX = Some (3625 * SEC) /\ g_now (gX laterR) = 3625 * SEC /\
  route_end 0 (tX laterR) X_Lsdb.pX 300 = Some (3635 * SEC) /\
  route_end 0 (tX (laterR ++ [at_ (GvFib (FvRefresh X_Lsdb.pX))])) X_Lsdb.pX 300 = Some (7235 * SEC).
Proof. destruct ex_alive as (_ & _ & _ & _ & _ & _ & E7 & E8 & E9 & _ & E11). cbv zeta in *. auto. Qed.

Print Assumptions C87_clock.
Print Assumptions C87_pending.
Print Assumptions C87_refresh.
Print Assumptions C87_alive.
