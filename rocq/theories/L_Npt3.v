(** Name prefix table: effect of removing an entry. *)
From Verif Require Import Base M_Nexthop M_Lsa M_Lsdb M_LinkState M_Npt L_Npt L_Npt2.
Open Scope Z_scope.
Set Implicit Arguments.

Lemma remove1_In o l x : NoDup l -> In x (remove1 o l) <-> In x l /\ x <> o.
Proof. induction l as [|y l IH]; simpl; intros Hnd; [tauto|]. inversion Hnd as [|? ? Hni Hnd']; subst.
  destruct (Nat.eqb y o) eqn:E.
  - apply Nat.eqb_eq in E. subst y. split.
    + intros H. split; [auto|]. intros ->. contradiction.
    + intros [[->|H] Hne]; [congruence|exact H].
  - apply Nat.eqb_neq in E. simpl. rewrite IH by exact Hnd'. split.
    + intros [->|[H1 H2]]; auto.
    + tauto. Qed.

Lemma remove1_NoDup o l : NoDup l -> NoDup (remove1 o l).
Proof. induction 1 as [|y l Hni Hnd IH]; simpl; [constructor|]. destruct (Nat.eqb y o); [exact Hnd|].
  constructor; [|exact IH]. intros H. apply remove1_In in H; tauto. Qed.

Definition rem_dest (d : name) (ds : list name) : list name := filter (fun x => negb (eqb x d)) ds.

Lemma rem_dest_In d ds x : In x (rem_dest d ds) <-> In x ds /\ x <> d.
Proof. unfold rem_dest. rewrite filter_In, negb_true_iff, eqb_neq. tauto. Qed.

Lemma rem_dest_notin d ds : ~ In d ds -> rem_dest d ds = ds.
Proof. induction ds as [|x ds IH]; simpl; intros H; [reflexivity|].
  eqc x d; [exfalso; apply H; now left|]. cbn [negb]. f_equal. apply IH. tauto. Qed.

Lemma remove1_map (f : nat -> name) o l : NoDup l -> In o l ->
  (forall x, In x l -> f x = f o -> x = o) -> map f (remove1 o l) = rem_dest (f o) (map f l).
Proof. induction l as [|y l IH]; simpl; intros Hnd Hin Hinj; [destruct Hin|].
  inversion Hnd as [|? ? Hni Hnd']; subst. destruct (Nat.eqb y o) eqn:E.
  - apply Nat.eqb_eq in E. subst y. rewrite eqb_refl. cbn [negb]. symmetry. apply rem_dest_notin.
    intros H. apply in_map_iff in H as (x & X1 & X2). apply Hni. rewrite <- (Hinj x (or_intror X2) X1). exact X2.
  - apply Nat.eqb_neq in E. destruct (eqb (f y) (f o)) eqn:E'.
    + apply eqb_eq in E'. exfalso. apply E. apply Hinj; auto.
    + cbn [negb map]. f_equal. apply IH; auto. destruct Hin; [congruence|assumption]. Qed.

(** ** A reference disappears *)
Section DelRef.
Variables (s s' : npt) (d n : name) (o k : nat) (e0 : npte) (p : pent) (fl : N) (h : nhl).
Hypothesis I : pinv s.
Hypothesis Gd : get d (n_pool s) = Some o.
Hypothesis Gk : get k (n_table s) = Some e0.
Hypothesis Hn : ne_name e0 = n.
Hypothesis Ho : In o (ne_rtes e0).
Hypothesis Go : get o (n_heap s) = Some p.
Let rtes := remove1 o (ne_rtes e0).
Let names := del n (pe_names p).
Hypothesis Ht : n_table s' = match rtes with [] => del k (n_table s) | _ => set k (Npte n fl rtes h) (n_table s) end.
Hypothesis Hp : n_pool s' = match names with [] => del d (n_pool s) | _ => n_pool s end.
Hypothesis Hh : n_heap s' = set o (PEnt d (pe_nhl p) (N.pred (pe_use p)) names) (n_heap s).
Hypothesis Hx : n_next s' = n_next s.

Lemma dr_nd : NoDup (ne_rtes e0).
Proof. exact (proj1 (pi_tab I _ Gk)). Qed.

Lemma dr_uniq : uniq (n_table s').
Proof. rewrite Ht. destruct rtes; [apply uniq_del; now apply pinv_uniq|].
  apply uniq_set; [now apply pinv_uniq|]. cbn [ne_name]. intros k' e' Hne G E. apply Hne.
  eapply (pi_tn I); eauto. congruence. Qed.

Lemma dr_get k' : get k' (n_table s') =
  if eqb k' k then match rtes with [] => None | _ => Some (Npte n fl rtes h) end else get k' (n_table s).
Proof. rewrite Ht. destruct rtes; [apply get_del|apply get_set]. Qed.

Lemma dr_refs o' n' k' : refs (n_table s') o' n' k' <-> refs (n_table s) o' n' k' /\ ~ (o' = o /\ n' = n).
Proof. unfold refs. setoid_rewrite dr_get. eqc k' k.
  - split.
    + intros (e & G & N & O). destruct rtes as [|r rs] eqn:Er; [discriminate|]. injection G as <-. cbn [ne_rtes ne_name] in *.
      rewrite <- Er in O. unfold rtes in O. apply remove1_In in O; [|exact dr_nd]. destruct O as [O1 O2].
      split; [exists e0; repeat split; [exact Gk|congruence|exact O1]|tauto].
    + intros ((e & G & N & O) & Hno). assert (e = e0) by congruence. subst e.
      assert (R : In o' rtes). { unfold rtes. apply remove1_In; [exact dr_nd|]. split; [exact O|]. intros ->. apply Hno. split; congruence. }
      destruct rtes as [|r rs] eqn:Er; [destruct R|].
      eexists. split; [reflexivity|]. cbn [ne_name ne_rtes]. split; [congruence|exact R].
  - split; [|tauto]. intros (e & G & N & O). split; [eauto|]. intros (-> & ->).
    apply E. eapply (pi_tn I); eauto. congruence. Qed.

Lemma dr_pp : exists p', p' = p /\ pe_dest p = d /\ NoDup (keys (pe_names p)) /\ pe_names p <> [] /\
   pe_use p = N.of_nat (length (pe_names p)) /\ forall n k, get n (pe_names p) = Some k <-> refs (n_table s) o n k.
Proof. destruct (pi_pool I _ Gd) as (p1 & P1 & P2 & P3 & P4 & P5 & P6). assert (p1 = p) by congruence. subst p1.
  exists p. repeat (split; [assumption || reflexivity|]). exact P6. Qed.

Lemma dr_pool_sub d' o' : get d' (n_pool s') = Some o' -> get d' (n_pool s) = Some o'.
Proof. rewrite Hp. destruct names; [|auto]. rewrite get_del. eqc d' d; [discriminate|auto]. Qed.

Lemma dr_pool_ne d' : d' <> d -> get d' (n_pool s') = get d' (n_pool s).
Proof. intros H. rewrite Hp. destruct names; [|auto]. now rewrite get_del_ne. Qed.

Lemma dr_names_nil : names = [] <-> forall n' k', ~ refs (n_table s') o n' k'.
Proof. destruct dr_pp as (_ & _ & P2 & P3 & P4 & P5 & P6). split.
  - intros E n' k' R. apply dr_refs in R as [R Hno]. apply P6 in R.
    assert (X : get n' names = Some k'). { unfold names. rewrite get_del_ne; [exact R|]. intros ->. apply Hno. auto. }
    rewrite E in X. discriminate.
  - intros H. destruct names as [|[n' k'] l] eqn:En; [reflexivity|]. exfalso. apply (H n' k'). apply dr_refs.
    assert (X : get n' names = Some k') by (rewrite En; simpl; now rewrite eqb_refl).
    unfold names in X. rewrite get_del in X. eqc n' n; [discriminate|]. split; [now apply P6|]. tauto. Qed.

Lemma dr_pinv : pinv s'.
Proof. destruct dr_pp as (_ & _ & P2 & P3 & P4 & P5 & P6). constructor.
  - exact (proj1 dr_uniq).
  - exact (proj2 dr_uniq).
  - rewrite Hp. destruct names; [apply NoDup_del|]; exact (pi_pk I).
  - intros d1 d2 o' G1 G2. apply dr_pool_sub in G1, G2. eapply (pi_pi I); eauto.
  - intros k' e'. rewrite dr_get, Hx. eqc k' k; [intros _; exact (pi_bt I _ Gk)|apply (pi_bt I)].
  - intros d' o' G. rewrite Hx. apply dr_pool_sub in G. exact (pi_bp I _ G).
  - intros o' p'. rewrite Hh, Hx, get_set. eqc o' o; [intros _; exact (pi_bp I _ Gd)|apply (pi_bh I)].
  - intros d' o' G. pose proof G as G'. apply dr_pool_sub in G. rewrite Hh, get_set. eqc o' o.
    + assert (d' = d) by (eapply (pi_pi I); eauto). subst d'. eexists. split; [reflexivity|].
      cbn [pe_dest pe_names pe_use]. split; [reflexivity|]. split; [now apply NoDup_del|].
      split. { intros En. rewrite Hp, En, get_del_eq in G'. discriminate. }
      assert (Gn : get n (pe_names p) = Some k). { apply P6. exists e0. auto. }
      pose proof (length_del _ _ P3 Gn). split; [rewrite P5; unfold names; lia|].
      intros n' k'. unfold names. rewrite get_del, dr_refs, <- P6. eqc n' n; [|tauto].
      split; [discriminate|tauto].
    + destruct (pi_pool I _ G) as (p1 & Q1 & Q2 & Q3 & Q4 & Q5 & Q6). exists p1. repeat (split; [assumption|]).
      intros n' k'. rewrite dr_refs, <- Q6. tauto.
  - intros k' e' G. pose proof G as G'. rewrite dr_get in G.
    assert (L2 : forall o', In o' (ne_rtes e') -> (exists d', get d' (n_pool s) = Some o') -> exists d', get d' (n_pool s') = Some o').
    { intros o' O' [d' D']. destruct (eq_dec d' d) as [->|Hne].
      - exists d. assert (o' = o) by congruence. subst o'.
        assert (R : refs (n_table s') o (ne_name e') k') by (exists e'; auto).
        assert (En : names <> []) by (intros En; exact (proj1 dr_names_nil En _ _ R)).
        rewrite Hp. destruct names; [congruence|exact Gd].
      - exists d'. now rewrite dr_pool_ne. }
    eqc k' k.
    + destruct rtes as [|r rs] eqn:Er; [discriminate|]. injection G as <-. cbn [ne_rtes] in *.
      rewrite <- Er in *. split; [unfold rtes; apply remove1_NoDup, dr_nd|]. split; [congruence|].
      intros o' O'. apply L2; [exact O'|]. unfold rtes in O'. apply remove1_In in O'; [|exact dr_nd].
      apply (pi_tab I _ Gk). tauto.
    + destruct (pi_tab I _ G) as (T1 & T2 & T3). split; [exact T1|]. split; [exact T2|]. intros o' O'. apply L2; auto. Qed.

Lemma dr_dest o' : dest_of (n_heap s') o' = dest_of (n_heap s) o'.
Proof. unfold dest_of. rewrite Hh, get_set. eqc o' o; [|reflexivity]. rewrite Go.
  destruct dr_pp as (_ & _ & P2 & _). now rewrite P2. Qed.

Lemma dr_map : map (dest_of (n_heap s')) rtes = rem_dest d (dests s n).
Proof. rewrite (map_ext (dest_of (n_heap s')) (dest_of (n_heap s)) dr_dest).
  unfold dests, ent. rewrite (proj2 (find_npte_Some n k e0 (pinv_uniq I))) by auto.
  assert (D : dest_of (n_heap s) o = d). { unfold dest_of. rewrite Go. destruct dr_pp as (_ & _ & P2 & _). exact P2. }
  rewrite <- D. unfold rtes. apply remove1_map; [exact dr_nd|exact Ho|].
  intros x X1 X2. eapply dest_inj; [| |exact X2]; eapply pinv_rte; eauto. Qed.

Lemma dr_ent n' : ent s' n' = if eqb n' n
  then match rem_dest d (dests s n) with [] => None | _ => Some (fl, rem_dest d (dests s n), h) end
  else ent s n'.
Proof. rewrite <- dr_map. pose proof dr_uniq as U. pose proof dr_get as DG. unfold ent. eqc n' n.
  - destruct rtes as [|r rs] eqn:Er; cbn [map].
    + rewrite Ht. rewrite (find_del k n (e := e0)); [|now apply pinv_uniq|exact Gk]. rewrite Hn, eqb_refl. reflexivity.
    + rewrite (proj2 (find_npte_Some n k (Npte n fl (r :: rs) h) U)); [reflexivity|].
      split; [|reflexivity]. rewrite DG, eqb_refl. reflexivity.
  - assert (X : find_npte n' (n_table s') = find_npte n' (n_table s)).
    { destruct (find_npte n' (n_table s)) as [[k' e']|] eqn:F.
      - apply find_npte_Some in F as [F1 F2]; [|now apply pinv_uniq]. apply find_npte_Some; [exact dr_uniq|].
        split; [|exact F2]. rewrite dr_get. eqc k' k; [congruence|exact F1].
      - apply find_npte_None; [exact dr_uniq|]. intros k' e' G'. rewrite dr_get in G'. eqc k' k.
        + destruct rtes; [discriminate|]. injection G' as <-. cbn. congruence.
        + eapply find_npte_None; [apply pinv_uniq; exact I|exact F|exact G']. }
    rewrite X. destruct (find_npte n' (n_table s)) as [[k' e']|]; [|reflexivity].
    do 3 f_equal. apply map_ext. exact dr_dest. Qed.

Lemma dr_poolh d' : poolh s' d' = if eqb d' d then match names with [] => None | _ => poolh s d end else poolh s d'.
Proof. unfold poolh. eqc d' d.
  - rewrite Hp. destruct names; [now rewrite get_del_eq|]. rewrite Gd. f_equal. unfold hops_of.
    now rewrite Hh, get_set_eq, Go.
  - rewrite dr_pool_ne by exact E. destruct (get d' (n_pool s)) as [o'|] eqn:G; [|reflexivity]. f_equal.
    unfold hops_of. rewrite Hh, get_set. eqc o' o; [|reflexivity]. exfalso. apply E. eapply (pi_pi I); eauto. Qed.
End DelRef.

(** ** removeEntry *)
Record removed (n d : name) (s s' : npt) (out : list nout) : Prop := Removed
  { rm_ent : forall n', ent s' n' =
      if eqb n' n
      then match ent s n, poolh s d with
           | Some (f, ds, h), Some _ =>
               match rem_dest d ds with
               | [] => None
               | ds' => Some (f, ds', agen (poolh s) ds')
               end
           | x, _ => x
           end
      else ent s n';
    rm_pool : forall d', d' <> d -> poolh s' d' = poolh s d';
    rm_pool_d : poolh s' d = poolh s d \/ poolh s' d = None;
    rm_cost : same_cost s s';
    rm_rt : n_rt s' = n_rt s;
    rm_out : out = match ent s n, poolh s d with
           | Some (f, ds, h), Some _ =>
               match rem_dest d ds with
               | [] => [NRemove n]
               | ds' => [NUpdate n (shift (costof s d n) (agen (poolh s) ds')) f]
               end
           | _, _ => []
           end }.

Lemma agen_rem s s' d ds : (forall d', d' <> d -> poolh s' d' = poolh s d') ->
  agen (poolh s') (rem_dest d ds) = agen (poolh s) (rem_dest d ds).
Proof. intros H. apply agen_ext. intros x X. apply rem_dest_In in X. apply H. tauto. Qed.

Lemma remove_entry_eff n d s : pinv s ->
  exists s' out, remove_entry n d s = Ok (s', out) /\ pinv s' /\ removed n d s s' out.
Proof. intros I. unfold remove_entry.
  destruct (get d (n_pool s)) as [o|] eqn:Gd.
  2:{ exists s, []. split; [reflexivity|]. split; [exact I|].
      assert (Pn : poolh s d = None) by now apply poolh_None.
      constructor; auto using same_cost_refl; rewrite ?Pn.
      - intros n'. eqc n' n; [|reflexivity]. destruct (ent s n) as [[[? ?] ?]|]; reflexivity.
      - destruct (ent s n) as [[[? ?] ?]|]; reflexivity. }
  assert (Pn : poolh s d = Some (hops_of (n_heap s) o)) by (unfold poolh; now rewrite Gd).
  destruct (find_npte n (n_table s)) as [[k e]|] eqn:F.
  2:{ exists s, []. split; [reflexivity|]. split; [exact I|].
      assert (En : ent s n = None) by (unfold ent; now rewrite F).
      constructor; auto using same_cost_refl; rewrite ?En; auto.
      intros n'. eqc n' n; auto. }
  pose proof F as F'. apply find_npte_Some in F' as [F1 F2]; [|now apply pinv_uniq].
  assert (En : ent s n = Some (ne_flags e, dests s n, ne_nhl e)) by (unfold dests, ent; now rewrite F).
  destruct (pi_pool I _ Gd) as (p & P1 & P2 & P3 & P4 & P5 & P6).
  unfold rem_rte. destruct (in_dec eq_dec o (ne_rtes e)) as [Ho|Ho].
  - (* the reference exists *)
    rewrite P1. cbn [n_heap wn_heap]. rewrite get_set_eq. cbn [pe_use].
    set (rtes := remove1 o (ne_rtes e)). set (names := del n (pe_names p)).
    set (s1 := wn_heap _ s).
    assert (Gn : get n (pe_names p) = Some k) by (apply P6; exists e; auto).
    pose proof (length_del _ _ P3 Gn) as Ln. fold names in Ln.
    assert (Eu : (N.pred (pe_use p) =? 0)%N = match names with [] => true | _ => false end).
    { rewrite P5. destruct names; simpl in *; [apply N.eqb_eq|apply N.eqb_neq]; lia. }
    rewrite Eu. set (s2 := if match names with [] => true | _ => false end then _ else s1).
    assert (H2 : n_table s2 = n_table s /\ n_heap s2 = set o (PEnt d (pe_nhl p) (N.pred (pe_use p)) names) (n_heap s) /\
                 n_pool s2 = match names with [] => del d (n_pool s) | _ => n_pool s end /\ n_cost s2 = n_cost s /\ n_rt s2 = n_rt s /\ n_next s2 = n_next s).
    { unfold s2, s1. rewrite P2. destruct names; repeat split. }
    destruct H2 as (T2 & H2 & Q2 & C2 & R2 & X2).
    assert (SC2 : forall s3, n_cost s3 = n_cost s -> same_cost s s3).
    { intros s3 E3. unfold same_cost, costof. rewrite E3. auto. }
    destruct rtes as [|r rs] eqn:Er.
    + set (s3 := wn_table (del k (n_table s2)) s2). exists s3, [NRemove n]. split; [reflexivity|].
      assert (Ht3 : n_table s3 = match remove1 o (ne_rtes e) with [] => del k (n_table s)
               | _ => set k (Npte n (ne_flags e) (remove1 o (ne_rtes e)) []) (n_table s) end).
      { unfold rtes in Er. rewrite Er. cbn. now rewrite T2. }
      assert (I3 : pinv s3) by (apply (@dr_pinv s s3 d n o k e p (ne_flags e) []); auto).
      assert (Er' : rem_dest d (dests s n) = []).
      { rewrite <- (@dr_map s s3 d n o k e p); auto. unfold rtes in Er. now rewrite Er. }
      assert (Eh : forall d', d' <> d -> poolh s3 d' = poolh s d').
      { intros d' Hd. rewrite (@dr_poolh s s3 d n o p I Gd P1 Q2 H2). eqc d' d; [congruence|reflexivity]. }
      split; [exact I3|]. constructor.
      * intros n'. rewrite (@dr_ent s s3 d n o k e p (ne_flags e) []); auto. rewrite Er', En, Pn, Er'. reflexivity.
      * exact Eh.
      * rewrite (@dr_poolh s s3 d n o p I Gd P1 Q2 H2), eqb_refl. destruct (del n (pe_names p)); auto.
      * apply SC2. exact C2.
      * exact R2.
      * rewrite En, Pn, Er'. reflexivity.
    + set (e' := Npte n (ne_flags e) (r :: rs) (gen_nhl (n_heap s2) (r :: rs))).
      set (s3 := wn_table (set k e' (n_table s2)) s2).
      destruct (adjust_eff (ne_nhl e') n d s3) as (c & -> & SC).
      set (s4 := wn_cost c s3). eexists s4, _. split; [reflexivity|].
      assert (Ht3 : n_table s3 = match remove1 o (ne_rtes e) with [] => del k (n_table s)
               | _ => set k (Npte n (ne_flags e) (remove1 o (ne_rtes e)) (ne_nhl e')) (n_table s) end).
      { unfold rtes in Er. rewrite Er. cbn. now rewrite T2. }
      assert (I3 : pinv s3) by (apply (@dr_pinv s s3 d n o k e p (ne_flags e) (ne_nhl e')); auto).
      assert (Er' : map (dest_of (n_heap s3)) (r :: rs) = rem_dest d (dests s n)).
      { rewrite <- (@dr_map s s3 d n o k e p); auto. unfold rtes in Er. now rewrite Er. }
      assert (Eh : forall d', d' <> d -> poolh s3 d' = poolh s d').
      { intros d' Hd. rewrite (@dr_poolh s s3 d n o p I Gd P1 Q2 H2). eqc d' d; [congruence|reflexivity]. }
      assert (K3 : get k (n_table s3) = Some e') by (unfold s3; cbn; rewrite T2; apply get_set_eq).
      assert (Eg : ne_nhl e' = agen (poolh s) (rem_dest d (dests s n))).
      { cbn [e' ne_nhl]. rewrite <- (@agen_rem s s3 d (dests s n) Eh), <- Er'. change (n_heap s2) with (n_heap s3).
        apply gen_agen. intros o' O'. apply (@pinv_rte s3 k e' o' I3 K3). exact O'. }
      assert (Enil : exists x y, rem_dest d (dests s n) = x :: y) by (rewrite <- Er'; cbn; eauto).
      destruct Enil as (x & y & Exy).
      assert (Ec : costof s3 d n = costof s d n) by (unfold costof; replace (n_cost s3) with (n_cost s); auto).
      split; [now apply pinv_wn_cost|]. constructor.
      * intros n'. change (ent s4 n') with (ent s3 n').
        rewrite (@dr_ent s s3 d n o k e p (ne_flags e) (ne_nhl e')); auto. rewrite En, Pn, Eg, Exy. reflexivity.
      * exact Eh.
      * change (poolh s4 d) with (poolh s3 d).
        rewrite (@dr_poolh s s3 d n o p I Gd P1 Q2 H2), eqb_refl. destruct (del n (pe_names p)); auto.
      * destruct SC as [S1 S2]. split.
        -- intros a b. unfold s4. rewrite S1. unfold costof. replace (n_cost s3) with (n_cost s); auto.
        -- intros a b v G. apply S2. replace (n_cost s3) with (n_cost s); auto.
      * exact R2.
      * rewrite En, Pn, Eg, Ec, Exy. reflexivity.
  - (* another router's entry: only regenerated *)
    assert (Hnin : ~ In d (dests s n)).
    { intros C. apply Ho. apply (proj1 (@in_dests s n k e d o I F Gd) C). }
    rewrite P1. assert (Eu : (pe_use p =? 0)%N = false).
    { rewrite P5. apply N.eqb_neq. destruct (pe_names p); [congruence|simpl; lia]. }
    rewrite Eu. pose proof (pi_tab I _ F1) as (T1 & T2 & T3).
    destruct (ne_rtes e) as [|r rs] eqn:Er; [congruence|].
    set (e' := Npte n (ne_flags e) (r :: rs) (gen_nhl (n_heap s) (r :: rs))).
    set (s3 := wn_table (set k e' (n_table s)) s).
    destruct (adjust_eff (ne_nhl e') n d s3) as (c & -> & SC).
    set (s4 := wn_cost c s3). eexists s4, _. split; [reflexivity|].
    assert (I3 : pinv s3). { apply (@rt_pinv s s3 k e' e); auto. }
    assert (Ed : dests s n = map (dest_of (n_heap s)) (r :: rs)) by (unfold dests, ent; rewrite F, Er; reflexivity).
    assert (Eg : ne_nhl e' = agen (poolh s) (dests s n)).
    { cbn [e' ne_nhl]. rewrite Ed. apply gen_agen. intros. apply (@pinv_rte s k e o0 I F1). now rewrite Er. }
    assert (Er' : rem_dest d (dests s n) = dests s n) by now apply rem_dest_notin.
    assert (Exy : exists x y, dests s n = x :: y) by (rewrite Ed; cbn; eauto). destruct Exy as (x & y & Exy).
    split; [now apply pinv_wn_cost|]. constructor.
    * intros n'. change (ent s4 n') with (ent s3 n'). rewrite (@rt_ent s s3 k e' e); auto.
      rewrite F2, En, Pn, Er'. eqc n' n; [|reflexivity]. rewrite Exy. cbn [ne_flags e']. rewrite Eg, Er, <- Ed, Exy. reflexivity.
    * auto.
    * auto.
    * exact SC.
    * reflexivity.
    * rewrite En, Pn, Er', Exy, Eg, Exy. reflexivity. Qed.
