(** Name prefix table: effect of new routes. *)
From Verif Require Import Base M_Nexthop M_Lsa M_Lsdb M_LinkState M_Npt L_Npt L_Npt2 L_Npt3.
Open Scope Z_scope.
Set Implicit Arguments.

Lemma In_arrange ord ks x : In x (arrange ord ks) <-> In x ks.
Proof. unfold arrange. rewrite in_app_iff, !filter_In, nodup_In. split.
  - intros [[_ H]|[H _]]; [|exact H]. destruct (in_dec eq_dec x ks); [assumption|discriminate].
  - intros H. destruct (in_dec eq_dec x ord) as [Ho|Ho].
    + left. split; [exact Ho|]. destruct (in_dec eq_dec x ks); [reflexivity|contradiction].
    + right. auto. Qed.

(** ** set_hops *)
Lemma set_hops_eff s d o hops : pinv s -> get d (n_pool s) = Some o ->
  pinv (set_hops o hops s) /\
  (forall d', poolh (set_hops o hops s) d' = if eqb d' d then Some hops else poolh s d') /\
  (forall n, ent (set_hops o hops s) n = ent s n) /\
  n_cost (set_hops o hops s) = n_cost s /\ n_rt (set_hops o hops s) = n_rt s /\
  n_pool (set_hops o hops s) = n_pool s.
Proof. intros I G. destruct (pi_pool I _ G) as (p & P1 & P2 & P3 & P4 & P5 & P6).
  unfold set_hops. rewrite P1. set (q := PEnt _ _ _ _). set (s' := wn_heap _ s).
  split; [|split; [|split; [|auto]]].
  - constructor; try (apply I; fail).
    + intros o' p'. cbn [s' n_heap wn_heap n_next]. rewrite get_set. eqc o' o; [intros _; exact (pi_bp I _ G)|apply (pi_bh I)].
    + intros d' o' G'. cbn [s' n_heap wn_heap n_pool n_table] in *. rewrite get_set. eqc o' o.
      * assert (d' = d) by (eapply (pi_pi I); eauto). subst d'. exists q. cbn [q pe_dest pe_names pe_use]. auto 10.
      * exact (pi_pool I _ G').
  - intros d'. unfold poolh, hops_of. cbn [s' n_heap wn_heap n_pool]. eqc d' d; [now rewrite G, get_set_eq|].
    destruct (get d' (n_pool s)) as [o'|] eqn:G'; [|reflexivity]. rewrite get_set. eqc o' o; [|reflexivity].
    exfalso. apply E. eapply (pi_pi I); eauto.
  - intros n. unfold ent. cbn [s' n_table wn_heap n_heap]. destruct (find_npte n (n_table s)) as [[k e]|]; [|reflexivity].
    do 3 f_equal. apply map_ext. intros o'. unfold dest_of. rewrite get_set. eqc o' o; [now rewrite P1|reflexivity]. Qed.

(** ** Recomputing the entries of one router *)
Definition refreshed (L : list name) (s s' : npt) : Prop :=
  forall n, ent s' n = if in_dec eq_dec n L
                       then match ent s n with Some (f, ds, _) => Some (f, ds, agen (poolh s) ds) | None => None end
                       else ent s n.

Definition refresh_word (s : npt) (d n : name) : list nout :=
  match ent s n with Some (f, ds, _) => [word n (costof s d n) f (agen (poolh s) ds)] | None => [] end.

Lemma poolh_names s d o p : pinv s -> get d (n_pool s) = Some o -> get o (n_heap s) = Some p ->
  forall n, In n (keys (pe_names p)) <-> In d (dests s n).
Proof. intros I G H n. destruct (pi_pool I _ G) as (p1 & P1 & P2 & P3 & P4 & P5 & P6).
  assert (p1 = p) by congruence. subst p1. rewrite get_Some_keys. split.
  - intros [k K]. apply P6 in K as (e & E1 & E2 & E3).
    apply (proj2 (@in_dests s n k e d o I (proj2 (find_npte_Some n k e (pinv_uniq I)) (conj E1 E2)) G)). exact E3.
  - intros H'. unfold dests, ent in H'. destruct (find_npte n (n_table s)) as [[k e]|] eqn:F; [|destruct H'].
    exists k. apply P6. exists e. pose proof F as F'. apply find_npte_Some in F' as [F1 F2]; [|now apply pinv_uniq].
    repeat split; auto. apply (proj1 (@in_dests s n k e d o I F G)). unfold dests, ent. now rewrite F. Qed.

Lemma readd_eff o d n s : pinv s -> get d (n_pool s) = Some o -> In d (dests s n) ->
  exists s', readd o d n s = Ok (s', refresh_word s d n) /\ pinv s' /\ refreshed [n] s s' /\
    n_pool s' = n_pool s /\ n_heap s' = n_heap s /\ same_cost s s' /\ n_rt s' = n_rt s.
Proof. intros I G Hin. destruct (pi_pool I _ G) as (p & P1 & P2 & P3 & P4 & P5 & P6).
  pose proof (proj2 (@poolh_names s d o p I G P1 n) Hin) as K. apply get_Some_keys in K as [k K].
  unfold readd. rewrite P1, K. pose proof (proj1 (P6 n k) K) as (e & E1 & E2 & E3). rewrite E1, E2.
  destruct (add_entry_eff n d (ne_flags e) I) as (s' & out & -> & I' & A).
  destruct (ad_again A Hin) as [Q1 Q2].
  cbv beta. rewrite Q1, Q2, ?P1, !eqb_refl. cbn [andb].
  assert (En : ent s n = Some (ne_flags e, dests s n, ne_nhl e)).
  { unfold dests, ent. now rewrite (proj2 (find_npte_Some n k e (pinv_uniq I)) (conj E1 E2)). }
  assert (Ed : add_dest d (dests s n) = dests s n) by (unfold add_dest; destruct (in_dec _ _ _); [reflexivity|contradiction]).
  assert (Ef : new_flags (ent s n) (ne_flags e) = ne_flags e).
  { rewrite En. cbn [new_flags]. destruct (negb (eqb (ne_flags e) (ne_flags e)) && _); reflexivity. }
  assert (Ep : forall ds, agen (poolh s') ds = agen (poolh s) ds).
  { intros ds. apply agen_ext. intros x _. unfold poolh. now rewrite Q1, Q2. }
  exists s'. split; [|split; [exact I'|split; [|split; [exact Q1|split; [exact Q2|split; [exact (ad_cost A)|exact (ad_rt A)]]]]]].
  - rewrite (ad_out A), Ef, Ed, Ep. unfold refresh_word. rewrite En. reflexivity.
  - intros n'. rewrite (ad_ent A), Ef, Ed, Ep. destruct (in_dec eq_dec n' [n]) as [[<-|[]]|C].
    + rewrite eqb_refl, En. reflexivity.
    + eqc n' n; [exfalso; apply C; now left|reflexivity]. Qed.

Lemma refreshed_dests L s s' n : refreshed L s s' -> dests s' n = dests s n.
Proof. intros R. unfold dests. rewrite (R n). destruct (in_dec _ _ _); [|reflexivity].
  destruct (ent s n) as [[[? ?] ?]|]; reflexivity. Qed.

Lemma readds_eff o d L : forall s, pinv s -> get d (n_pool s) = Some o -> (forall n, In n L -> In d (dests s n)) ->
  exists s', neach (readd o d) L s = Ok (s', flat_map (refresh_word s d) L) /\ pinv s' /\ refreshed L s s' /\
    n_pool s' = n_pool s /\ n_heap s' = n_heap s /\ same_cost s s' /\ n_rt s' = n_rt s.
Proof. induction L as [|n L IH]; intros s I G H; cbn [neach flat_map].
  - exists s. split; [reflexivity|]. split; [exact I|]. split; [|auto using same_cost_refl].
    intros n. destruct (in_dec eq_dec n []) as [[]|_]. reflexivity.
  - destruct (@readd_eff o d n s I G (H n (or_introl eq_refl))) as (s1 & -> & I1 & R1 & Q1 & H1 & C1 & T1). cbn [nbind].
    destruct (IH s1) as (s2 & E2 & I2 & R2 & Q2 & H2 & C2 & T2); [exact I1|now rewrite Q1| |].
    { intros m M. rewrite (refreshed_dests m R1). apply H. now right. }
    rewrite E2. exists s2.
    assert (Ep : forall ds, agen (poolh s1) ds = agen (poolh s) ds).
    { intros ds. apply agen_ext. intros x _. unfold poolh. now rewrite Q1, H1. }
    split; [|split; [exact I2|split; [|split; [congruence|split; [congruence|split; [|congruence]]]]]].
    + do 2 f_equal. f_equal. apply flat_map_ext. intros m. unfold refresh_word. rewrite (R1 m).
      destruct (in_dec eq_dec m [n]); destruct (ent s m) as [[[f ds] h]|]; auto; rewrite Ep; now rewrite (proj1 C1).
    + intros m. rewrite (R2 m), (R1 m).
      destruct (in_dec eq_dec m L) as [A|A]; destruct (in_dec eq_dec m [n]) as [B|B]; destruct (in_dec eq_dec m (n :: L)) as [C|C];
        try reflexivity; try (exfalso; simpl in *; tauto); destruct (ent s m) as [[[f ds] h]|]; auto; now rewrite Ep.
    + split; [intros; rewrite (proj1 C2); apply C1|intros; now apply C2, C1]. Qed.

(** ** Rerouting one router *)
Record rerouted (rt : rtable) (d : name) (s s' : npt) (out : list nout) : Prop := Rerouted
  { rr_pool : forall d', d' <> d -> poolh s' d' = poolh s d';
    rr_pool_d : poolh s' d = Some (route d rt) \/
                (exists l, poolh s d = Some l /\ poolh s' d = Some l /\ nhl_eqb l (route d rt) = true);
    rr_keys : n_pool s' = n_pool s;
    rr_cost : same_cost s s';
    rr_rt : n_rt s' = n_rt s;
    rr_ent : forall n, ent s' n = ent s n \/
                       exists f ds h, ent s n = Some (f, ds, h) /\ In d ds /\ ent s' n = Some (f, ds, agen (poolh s') ds);
    rr_ent_d : (forall n, ent s' n = ent s n) /\ (forall d', poolh s' d' = poolh s d') /\ out = [] \/
               (forall n f ds h, ent s n = Some (f, ds, h) -> In d ds -> ent s' n = Some (f, ds, agen (poolh s') ds)) /\
               (forall x, In x out -> exists n f ds h, ent s' n = Some (f, ds, h) /\ In d ds /\ x = word n (costof s d n) f h) /\
               (forall n f ds h, ent s' n = Some (f, ds, h) -> In d ds -> In (word n (costof s d n) f h) out) }.

Lemma reroute_eff rt nord d s o : pinv s -> get d (n_pool s) = Some o ->
  exists s' out, reroute rt nord d s = Ok (s', out) /\ pinv s' /\ rerouted rt d s s' out.
Proof. intros I G. destruct (pi_pool I _ G) as (p & P1 & P2 & P3 & P4 & P5 & P6).
  unfold reroute. rewrite G, P1, P2.
  set (L := arrange nord (keys (pe_names p))).
  assert (HL : forall n, In n L <-> In d (dests s n)).
  { intros n. unfold L. rewrite In_arrange. apply (@poolh_names s d o p I G P1). }
  assert (Do : forall hops, route d rt = hops ->
    exists s' out, neach (readd o d) L (set_hops o hops s) = Ok (s', out) /\ pinv s' /\ rerouted rt d s s' out).
  { intros hops Hr. destruct (@set_hops_eff s d o hops I G) as (I1 & Q1 & E1 & C1 & R1 & K1).
    set (s1 := set_hops o hops s) in *.
    assert (D1 : forall n, dests s1 n = dests s n) by (intros n; unfold dests; now rewrite E1).
    destruct (@readds_eff o d L s1 I1) as (s2 & E2 & I2 & R2 & Q2 & H2 & C2 & T2).
    { now rewrite K1. }
    { intros n Hn. rewrite D1. now apply HL. }
    exists s2, (flat_map (refresh_word s1 d) L). split; [exact E2|]. split; [exact I2|].
    assert (Pe : forall d', poolh s2 d' = poolh s1 d') by (intros; unfold poolh; now rewrite Q2, H2).
    assert (Pg : forall ds, agen (poolh s1) ds = agen (poolh s2) ds) by (intros; apply agen_ext; auto).
    assert (Co : forall a b, costof s1 a b = costof s a b) by (intros; unfold costof; now rewrite C1).
    assert (En : forall n f ds h, ent s n = Some (f, ds, h) -> In d ds -> ent s2 n = Some (f, ds, agen (poolh s2) ds)).
    { intros n f ds h E Hd. rewrite (R2 n), E1, E. destruct (in_dec eq_dec n L) as [A|A]; [now rewrite Pg|].
      exfalso. apply A, HL. unfold dests. now rewrite E. }
    constructor.
    - intros d' Hd. rewrite Pe, Q1. eqc d' d; [congruence|reflexivity].
    - left. rewrite Pe, Q1, eqb_refl. now rewrite Hr.
    - congruence.
    - split; [intros; rewrite (proj1 C2); apply Co|]. intros a b v Ga. apply C2. now rewrite C1.
    - congruence.
    - intros n. destruct (in_dec eq_dec n L) as [A|A].
      + right. pose proof (proj1 (HL n) A) as Hd. unfold dests in Hd. destruct (ent s n) as [[[f ds] h]|] eqn:E; [|destruct Hd].
        exists f, ds, h. split; [reflexivity|]. split; [exact Hd|]. eapply En; eauto.
      + left. rewrite (R2 n). destruct (in_dec eq_dec n L); [contradiction|apply E1].
    - right. split; [exact En|]. split.
      + intros x Hx. apply in_flat_map in Hx as (n & Hn & Hx). unfold refresh_word in Hx. rewrite E1 in Hx.
        pose proof (proj1 (HL n) Hn) as Hd. unfold dests in Hd.
        destruct (ent s n) as [[[f ds] h]|] eqn:E; [|destruct Hd]. destruct Hx as [<-|[]].
        exists n, f, ds, (agen (poolh s2) ds). rewrite Pg, Co. split; [eapply En; eauto|]. auto.
      + intros n f ds h E Hd. apply in_flat_map. exists n.
        assert (Hn : In n L). { apply HL. rewrite <- D1, <- (refreshed_dests n R2). unfold dests. now rewrite E. }
        split; [exact Hn|]. rewrite (R2 n) in E. destruct (in_dec eq_dec n L); [|contradiction].
        unfold refresh_word. destruct (ent s1 n) as [[[f' ds'] h']|]; [|discriminate]. injection E as -> -> <-.
        rewrite Co. now left. }
  destruct (find_rte d rt) as [hops|] eqn:Fr.
  - destruct (nhl_eqb (pe_nhl p) hops) eqn:Eq.
    + exists s, []. split; [reflexivity|]. split; [exact I|]. constructor; auto using same_cost_refl.
      right. exists (pe_nhl p). unfold poolh, route, hops_of. rewrite G, P1, Fr. auto.
    + apply Do. unfold route. now rewrite Fr.
  - apply Do. unfold route. now rewrite Fr. Qed.
