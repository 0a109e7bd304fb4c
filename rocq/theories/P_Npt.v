(** Name prefix table properties C31, C32, C33. *)
From Coq Require Import Sorting.Permutation.
From Verif Require Import Base M_Nexthop M_Tlv M_Adj M_Lsa M_Lsdb L_Lsdb S_Lsdb L_Lsdb2 L_Lsdb3 L_Lsdb4 L_Lsdb6 M_LinkState M_Npt S_Npt
  L_Npt L_Npt2 L_Npt3 L_Npt4 L_Npt5 L_Npt6 L_Npt7 L_Npt8 X_Lsdb.
Open Scope Z_scope.
Set Implicit Arguments.

(** ** The database drives the table as expected *)
Lemma subscribed_ok c f now e0 levs nevs : name_maps levs -> subscribed nevs (snd (exec c f now e0 levs)) ->
  notes_ok [] nevs /\ sees (noted nevs) (fst (exec c f now e0 levs)).
Proof. intros D S. destruct (@lsdb_notes c f now e0 levs) as [H1 H2]; [intros x Hx fid l Hl; eapply D; eauto|].
  split.
  - apply notes_ok_notes. unfold subscribed in S. rewrite S. exact H1.
  - unfold noted. rewrite noted_notes. unfold subscribed in S. rewrite S. exact H2. Qed.

Lemma lists_adv c f now e0 levs v r p : sees v (fst (exec c f now e0 levs)) ->
  (exists x, lists (fst (exec c f now e0 levs)) r p x) <-> advertised v r p <> None.
Proof. intros [V1 V2]. pose proof (invS_exec c f now e0 levs) as I. set (s := fst (exec c f now e0 levs)) in *.
  unfold advertised. rewrite V1. split.
  - intros (x & l & H1 & H2 & H3). apply (holds_find l I) in H1.
    assert (T : l_type l = TName).
    { unfold l_type. destruct (l_body l); cbn in *; congruence. }
    unfold l_key in H1. rewrite H2, T in H1. rewrite H1, H3. discriminate.
  - destruct (find_lsa (r, TName) s) as [l|] eqn:F; [|congruence]. intros H. destruct (get p (body_names (l_body l))) as [x|] eqn:G; [|congruence].
    exists x, l. pose proof (find_key I F) as K. injection K as K1 K2. repeat split; auto.
    apply (holds_find l I). unfold l_key. now rewrite K1, K2. Qed.

Lemma lists_cost c f now e0 levs v r p x : sees v (fst (exec c f now e0 levs)) ->
  lists (fst (exec c f now e0 levs)) r p x <-> advertised v r p = Some x.
Proof. intros [V1 V2]. pose proof (invS_exec c f now e0 levs) as I. set (s := fst (exec c f now e0 levs)) in *.
  unfold advertised. rewrite V1. split.
  - intros (l & H1 & H2 & H3). apply (holds_find l I) in H1.
    assert (T : l_type l = TName). { unfold l_type. destruct (l_body l); cbn in *; congruence. }
    unfold l_key in H1. rewrite H2, T in H1. now rewrite H1.
  - destruct (find_lsa (r, TName) s) as [l|] eqn:F; [|congruence]. intros H.
    exists l. pose proof (find_key I F) as K. injection K as K1 K2. repeat split; auto.
    apply (holds_find l I). unfold l_key. now rewrite K1, K2. Qed.

Lemma known_holds c f now e0 levs v r : sees v (fst (exec c f now e0 levs)) -> known v r ->
  exists l, holds (fst (exec c f now e0 levs)) l /\ l_origin l = r.
Proof. intros [V1 V2] (t & m & G). pose proof (invS_exec c f now e0 levs) as I. rewrite V1 in G.
  destruct (find_lsa (r, t) _) as [l|] eqn:F; [|discriminate]. exists l. pose proof (find_key I F) as K. injection K as K1 K2.
  split; [|exact K1]. apply (holds_find l I). unfold l_key. now rewrite K1, K2. Qed.

(** The generic run: no condition on costs. *)
Definition allK (c : name -> name -> Z) (n : name) (k : Z) : Prop := True.
Lemma run_any self nevs : notes_ok [] nevs ->
  exists s out, nexec self nevs = Ok (s, out) /\ ginv self (fun _ _ => True) (fun _ _ => True) allK (noted nevs) s out /\ n_rt s = routes_now nevs.
Proof. intros H. apply exec_ginv; try (unfold allK; auto; fail). intros [k l a r|rt po no] _; cbn; auto. Qed.

(** ** C31 *)

(** After any run of the database the table refers to router [r] for prefix [p] (other than the
    router's own name) exactly when the database holds an LSA of [r] that lists [p]; an entry exists
    exactly when some router is referred to.  Missing from the full claim: for the router's own name
    ([p] = [r]) only one direction holds, see [C31_router_name] and [C31_router_name_refuted]. *)
Theorem C31_mirror_partial c f now e0 levs nevs :
  name_maps levs -> subscribed nevs (snd (exec c f now e0 levs)) ->
  exists t outs, nexec (c_self c) nevs = Ok (t, outs) /\
    (forall p r, p <> r ->
       (In r (routers t p) <->
        r <> c_self c /\ p <> c_self c /\ exists x, lists (fst (exec c f now e0 levs)) r p x)) /\
    (forall r, In r (routers t r) -> r <> c_self c /\ exists l, holds (fst (exec c f now e0 levs)) l /\ l_origin l = r) /\
    (forall p, NoDup (routers t p)) /\
    (forall p, entry t p = None <-> routers t p = []).
Proof. intros D S. destruct (subscribed_ok c f now e0 D S) as [N V].
  destruct (run_any (c_self c) nevs N) as (t & outs & E & [G [M1 M2]] & _). exists t, outs. split; [exact E|].
  split; [|split; [|split]].
  - intros p r Hne. rewrite routers_dests, M1 by exact Hne. now rewrite (lists_adv c f now e0 levs r p V).
  - intros r. rewrite routers_dests. intros H. destruct (M2 r H) as [X Y]. split; [exact X|]. now apply (known_holds c f now e0 levs V).
  - intros p. rewrite routers_dests. apply dests_NoDup. exact (g_p G).
  - intros p. rewrite routers_dests, entry_ent. symmetry. apply dests_nil. exact (g_p G). Qed.

(** The router's own name has an entry once an LSA of the router was installed, as long as none of its
    LSAs is removed and it does not withdraw its own name as a prefix. *)
Theorem C31_router_name c f now e0 levs a b l ad rm r :
  name_maps levs -> subscribed (a ++ NvNotify KInstalled l ad rm :: b) (snd (exec c f now e0 levs)) ->
  l_origin l = r -> r <> c_self c ->
  (forall k l' ad' rm', In (NvNotify k l' ad' rm') b -> l_origin l' = r -> k <> KRemoved /\ (k = KUpdated -> ~ In r (keys rm'))) ->
  exists t outs, nexec (c_self c) (a ++ NvNotify KInstalled l ad rm :: b) = Ok (t, outs) /\ In r (routers t r).
Proof. intros D S Ho Hr Hb. destruct (subscribed_ok c f now e0 D S) as [N V].
  destruct (run_any (c_self c) _ N) as (t & outs & E & _ & _). exists t, outs. split; [exact E|]. rewrite routers_dests.
  apply notes_ok_app in N as [N1 N2]. cbn [notes_ok] in N2. destruct N2 as [N2 N3].
  destruct (run_any (c_self c) a N1) as (s1 & o1 & E1 & G1 & _).
  assert (App : forall x y s, neach (nstep (c_self c)) (x ++ y) s = nbind (neach (nstep (c_self c)) x s) (neach (nstep (c_self c)) y)).
  { clear. induction x as [|e x IH]; intros y s; cbn [app neach].
    - cbn. destruct (neach _ y s) as [[]| |]; reflexivity.
    - destruct (nstep (c_self c) e s) as [[s1 o1]| |]; cbn [nbind]; [|reflexivity..]. rewrite IH.
      destruct (neach _ x s1) as [[s2 o2]| |]; cbn [nbind]; [|reflexivity..].
      destruct (neach _ y s2) as [[s3 o3]| |]; cbn [nbind]; [now rewrite app_assoc|reflexivity..]. }
  unfold nexec in E, E1. rewrite App, E1 in E. cbn [nbind neach] in E.
  assert (G2 : forall e, ev_ok (c_self c) (fun _ _ => True) (fun _ _ => True) e) by (intros [? ? ? ?|? ? ?]; cbn; auto).
  destruct (@event_ginv (c_self c) (fun _ _ => True) (fun _ _ => True) allK) with (e := NvNotify KInstalled l ad rm) (v := noted a) (s := s1) (outs := o1)
    as (s2 & o2 & E2 & G3 & _); try (unfold allK; auto; fail).
  rewrite E2 in E. cbn [nbind] in E. destruct (neach (nstep (c_self c)) b s2) as [[s3 o3]| |] eqn:E3; try discriminate.
  injection E as <- _. eapply stays; [exact (g_p (proj1 G3))| |exact Hb|exact E3].
  cbn [nstep] in E2. unfold from_lsdb in E2. destruct (eqb (l_origin l) (c_self c)) eqn:Q; [apply eqb_eq in Q; congruence|].
  apply nbind_Ok in E2 as (s4 & o4 & o5 & E4 & E5 & _).
  destruct (add_entry_eff (l_origin l) (l_origin l) CAPTURE (g_p (proj1 G1))) as (s5 & o6 & E6 & I6 & A6).
  rewrite E6 in E4. injection E4 as <- <-. assert (H5 : In r (dests s5 r)) by (apply (added_dests A6); right; auto).
  assert (X : pinv s2 /\ In r (dests s2 r)); [|tauto]. revert E5.
  apply (@neach_inv _ (fun s => pinv s /\ In r (dests s r))); [|auto].
  intros x s6 s7 o7 _ [I7 H7]. unfold add_prefix. destruct (eqb (fst x) (c_self c)); [now intros [= <- <-]|].
  match goal with |- add_entry ?n ?d ?fl ?s = _ -> _ => destruct (@add_entry_eff n d fl s) as (s8 & o8 & E8 & I8 & A8); [now apply pinv_wn_cost|rewrite E8] end.
  intros [= <- <-]. split; [exact I8|]. apply (added_dests A8). left. exact H7. Qed.

(** ** C32 *)

Lemma pinv_counts t : pinv t -> counts_exact t.
Proof. intros I. split; [|split].
  - intros d. rewrite get_Some_keys. pose proof (pool_used d I) as H. rewrite poolh_None in H.
    setoid_rewrite routers_dests. rewrite <- H. destruct (get d (n_pool t)); split; eauto; try congruence. intros [? ?]; discriminate.
  - intros d o G. destruct (pi_pool I _ G) as (q & Q1 & Q2 & Q3 & Q4 & Q5 & Q6). exists q. split; [exact Q1|]. split; [exact Q2|].
    rewrite Q5. f_equal. rewrite <- (map_length fst (pe_names q)). fold (keys (pe_names q)).
    set (F := fun e => if in_dec Nat.eq_dec o (ne_rtes e) then true else false).
    rewrite <- (map_length ne_name (filter F (map snd (n_table t)))). apply Permutation_length. apply NoDup_Permutation; [exact Q3| |].
    + assert (X : forall tb : amap nat npte, NoDup (keys tb) -> (forall k k' e e', In (k, e) tb -> In (k', e') tb -> ne_name e = ne_name e' -> k = k') ->
        NoDup (map ne_name (filter F (map snd tb)))).
      { induction tb as [|[k e] tb IH]; intros Hk Hn; [constructor|]. cbn [map snd filter]. inversion Hk as [|? ? Hni Hk']; subst.
        assert (IH' : NoDup (map ne_name (filter F (map snd tb)))) by (apply IH; [exact Hk'|intros; eapply Hn; eauto; now right]).
        destruct (F e); [|exact IH']. cbn [map]. constructor; [|exact IH']. intros C. apply in_map_iff in C as (e' & C1 & C2).
        apply filter_In in C2 as [C2 _]. apply in_map_iff in C2 as ([k' e''] & <- & C2). cbn [snd] in C1.
        apply Hni. assert (k = k') by (eapply Hn; [now left|right; exact C2|auto]). subst k'. apply (in_map fst) in C2. exact C2. }
      apply X; [exact (pi_tk I)|]. intros k k' e e' K1 K2. apply In_get in K1; [|exact (pi_tk I)]. apply In_get in K2; [|exact (pi_tk I)].
      apply (pi_tn I); assumption.
    + intros n. rewrite get_Some_keys. split.
      * intros [k Gk]. apply Q6 in Gk as (e & E1 & E2 & E3). apply in_map_iff. exists e. split; [exact E2|]. apply filter_In. split.
        -- apply get_In in E1. apply (in_map snd) in E1. exact E1.
        -- unfold F. now destruct (in_dec Nat.eq_dec o (ne_rtes e)).
      * intros H. apply in_map_iff in H as (e & E1 & E2). apply filter_In in E2 as [E2 E3]. apply in_map_iff in E2 as ([k e'] & <- & E2).
        exists k. apply Q6. exists e'. cbn [snd] in *. split; [apply In_get; [exact (pi_tk I)|exact E2]|]. split; [exact E1|].
        unfold F in E3. now destruct (in_dec Nat.eq_dec o (ne_rtes e')).
  - intros e o He Ho. apply in_map_iff in He as ([k e'] & <- & He). cbn [snd] in Ho. apply In_get in He; [|exact (pi_tk I)].
    pose proof (@pinv_rte t k e' o I He Ho) as G. exists (dest_of (n_heap t) o).
    destruct (pi_pool I _ G) as (q & Q1 & Q2 & _). exists q. auto. Qed.

(** Whatever the table is told, in whatever order. *)
Theorem C32_history self nevs t outs : nexec self nevs = Ok (t, outs) -> counts_exact t.
Proof. intros E. apply pinv_counts. eapply (@shaped_exec self (fun _ => True)); eauto. Qed.

(** Direct calls always succeed and keep the counts exact. *)
Theorem C32_calls l : exists t outs, ncalls l = Ok (t, outs) /\ counts_exact t.
Proof. assert (G : forall s, pinv s -> exists t outs, neach ncall_do l s = Ok (t, outs) /\ pinv t).
  { induction l as [|x l IH]; intros s I; cbn [neach]; [eauto|].
    assert (X : exists s' o', ncall_do x s = Ok (s', o') /\ pinv s').
    { destruct x as [n d fl|n d|rt po no]; cbn [ncall_do].
      - destruct (add_entry_eff n d fl I) as (s' & o' & E & I' & _). eauto.
      - destruct (remove_entry_eff n d I) as (s' & o' & E & I' & _). eauto.
      - unfold new_routes. assert (R : forall L s, pinv s -> (forall d, In d L -> In d (keys (n_pool s))) -> 
          exists s' o', neach (reroute rt no) L s = Ok (s', o') /\ pinv s').
        { induction L as [|d L IHL]; intros s0 I0 H0; cbn [neach]; [eauto|].
          destruct (proj1 (get_Some_keys d (n_pool s0)) (H0 d (or_introl eq_refl))) as [o Go].
          destruct (@reroute_eff rt no d s0 o I0 Go) as (s1 & o1 & E1 & I1 & R1). rewrite E1. cbn [nbind].
          destruct (IHL s1 I1) as (s2 & o2 & E2 & I2); [intros; rewrite (rr_keys R1); apply H0; now right|]. rewrite E2. eauto. }
        apply R; [now apply pinv_rt|]. intros d. now rewrite In_arrange. }
    destruct X as (s1 & o1 & E1 & I1). rewrite E1. cbn [nbind]. destruct (IH s1 I1) as (s2 & o2 & E2 & I2). rewrite E2. eauto. }
  destruct (G npt_init pinv_init) as (t & outs & E & I). exists t, outs. split; [exact E|]. now apply pinv_counts. Qed.

(** ** C33 *)

(** No run of the database, with routing table announcements at any point and any iteration order of
    the hash tables, makes the table do anything undefined. *)
Theorem C33_defined c f now e0 levs nevs :
  name_maps levs -> subscribed nevs (snd (exec c f now e0 levs)) ->
  nexec (c_self c) nevs <> Ub /\ nexec (c_self c) nevs <> Diverge.
Proof. intros D S. destruct (subscribed_ok c f now e0 D S) as [N V].
  destruct (run_any (c_self c) nevs N) as (t & outs & E & _). rewrite E. split; discriminate. Qed.

(** ** Cases *)
Definition adjlX (q : N) : lsa := Lsa farX q (T0 + 3600 * SEC) (BAdj [adjX selfX SActive 0]).
(** r2's Name LSA and Adjacency LSA arrive; the Name LSA changes; then the Adjacency LSA expires (its
    timer fires; it is not the own LSA). *)
Definition levsN : list (env * ev) :=
  evsX ++ [(envX, ESync (syncX "r2" TAdj) 3 300); (envX, EFetchDone 2 (Some (adjlX 3)))].
Definition outsN : list out := snd (exec (confX HOff) None 0 envX levsN).
Definition nevsN : list nev := map (fun x => let '(k, l, a, r) := x in NvNotify k l a r) (out_notes outsN).

Lemma name_maps_N : name_maps levsN.
Proof. intros x fid l H E. cbn [levsN evsX app In] in H.
  repeat (destruct H as [<-|H]; [cbn [snd] in E; first [discriminate|injection E as <- <-]|]); [..|destruct H];
    cbn [nlsaX adjlX l_body body_names keys map fst];
    repeat (constructor; [cbn [In]; intros C; repeat (destruct C as [C|C]; [discriminate|]); exact C|]); constructor. Qed.

(** Two prefixes of r2 and r2's own name. *)
Example C31_case : name_maps levsN /\ subscribed nevsN outsN /\
  exists t outs, nexec selfX nevsN = Ok (t, outs) /\ routers t pX = [farX] /\ routers t p2X = [farX] /\ routers t farX = [farX] /\
    lists (fst (exec (confX HOff) None 0 envX levsN)) farX p2X 1.
Proof. split; [exact name_maps_N|]. split; [vm_compute; reflexivity|].
  destruct (nexec selfX nevsN) as [[t o]| |] eqn:E; [|vm_compute in E; discriminate|vm_compute in E; discriminate].
  exists t, o. split; [reflexivity|]. vm_compute in E. injection E as <- <-.
  split; [reflexivity|]. split; [reflexivity|]. split; [reflexivity|].
  eexists. split; [apply (nth_error_In _ 1); vm_compute; reflexivity|]. split; vm_compute; reflexivity. Qed.

(** r2's Adjacency LSA expires 100 s before its Name LSA: from then on no entry refers to r2 for the
    name of r2, although the database holds an LSA of r2. *)
Definition levsN2 : list (env * ev) :=
  [(envX, ESync (syncX "r2" TAdj) 3 300); (envX, EFetchDone 0 (Some (adjlX 3))); (envX, ETick (100 * SEC));
   (envX, ESync (syncX "r2" TName) 5 300); (envX, EFetchDone 1 (Some (nlsaX 5 [(pX, 7)])));
   (envX, ETick (3510 * SEC)); (envX, EFire 1)].
Lemma name_maps_N2 : name_maps levsN2.
Proof. intros x fid l H E'. cbn [levsN2 In] in H.
    repeat (destruct H as [<-|H]; [cbn [snd] in E'; first [discriminate|injection E' as <- <-]|]); [..|destruct H];
    cbn [nlsaX adjlX l_body body_names keys map fst];
    repeat (constructor; [cbn [In]; intros C; repeat (destruct C as [C|C]; [discriminate|]); exact C|]); constructor. Qed.
Theorem C31_router_name_refuted : exists c levs nevs r t outs,
  name_maps levs /\ subscribed nevs (snd (exec c None 0 envX levs)) /\ nexec (c_self c) nevs = Ok (t, outs) /\
  r <> c_self c /\ (exists l, holds (fst (exec c None 0 envX levs)) l /\ l_origin l = r) /\
  In (NvNotify KInstalled (nlsaX 5 [(pX, 7)]) [] []) nevs /\ In r (routers t pX) /\ ~ In r (routers t r).
Proof. exists (confX HOff), levsN2, (map nev_of (out_notes (snd (exec (confX HOff) None 0 envX levsN2)))), farX.
  destruct (nexec (c_self (confX HOff)) (map nev_of (out_notes (snd (exec (confX HOff) None 0 envX levsN2))))) as [[t o]| |] eqn:E;
    [|vm_compute in E; discriminate|vm_compute in E; discriminate].
  exists t, o. split.
  - exact name_maps_N2.
  - split; [vm_compute; reflexivity|]. split; [reflexivity|]. vm_compute in E. injection E as <- <-.
    split; [vm_compute; discriminate|]. split.
    { eexists. split; [apply (nth_error_In _ 1); vm_compute; reflexivity|vm_compute; reflexivity]. }
    split; [vm_compute; auto 10|]. split; [vm_compute; auto|]. vm_compute. tauto. Qed.

(** The hypotheses of [C31_router_name]: r2's Adjacency LSA is installed last and nothing is removed. *)
Example C31_router_name_case : exists a ad rm,
  subscribed (a ++ NvNotify KInstalled (adjlX 3) ad rm :: []) (snd (exec (confX HOff) None 0 envX levsN)).
Proof. exists (firstn (length nevsN - 1) nevsN), [], []. vm_compute. reflexivity. Qed.

(** Calls that share a router between two prefixes, remove one and change the routes. *)
Example C32_case : exists t outs q o,
  ncalls [CAdd pX farX CHILD_INHERIT; CAdd p2X farX CHILD_INHERIT; CAdd p2X selfX CHILD_INHERIT; CRemove pX farX;
          CRoutes [(farX, [mk_nh "udp4://1"%string (of_int 2)])] [] []] = Ok (t, outs) /\
  get farX (n_pool t) = Some o /\ get o (n_heap t) = Some q /\ pe_use q = 1%N /\ routers t p2X = [farX; selfX] /\ routers t pX = [].
Proof. eexists _, _, _, _. split; [vm_compute; reflexivity|]. split; [vm_compute; reflexivity|]. split; [vm_compute; reflexivity|].
  split; [reflexivity|]. split; reflexivity. Qed.

(** The contract matters: a withdrawal of a prefix that was never advertised erases end(). *)
Example C33_contract_needed :
  nexec selfX [NvNotify KInstalled (nlsaX 5 [(pX, 7)]) [] []; NvNotify KUpdated (nlsaX 6 [(pX, 7)]) [] [(p2X, 1)]] = Ub.
Proof. vm_compute. reflexivity. Qed.

Print Assumptions C31_mirror_partial.
Print Assumptions C31_router_name.
Print Assumptions C31_router_name_refuted.
Print Assumptions C32_history.
Print Assumptions C32_calls.
Print Assumptions C33_defined.
