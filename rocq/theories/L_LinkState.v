(** From the matrix-level facts to routing tables. *)
From Coq Require Import Permutation.
From Verif Require Import Base M_Nexthop M_LinkState S_Graph S_LinkState L_Vec L_Dijkstra L_Matrix L_Nexthop.
Open Scope Z_scope.
Set Implicit Arguments.

Lemma UNIT_pos : 0 < UNIT.
Proof. reflexivity. Qed.
Lemma of_int_le a b : of_int a <= of_int b <-> a <= b.
Proof. unfold of_int. pose proof UNIT_pos. nia. Qed.
Lemma of_int_inj a b : of_int a = of_int b -> a = b.
Proof. intros H. apply Z.le_antisymm; apply of_int_le; lia. Qed.

Lemma rt_hops_add t d nh x :
  rt_hops (rt_add t d nh) x = if eqb x d then nhl_addc nh (rt_hops t d) else rt_hops t x.
Proof. unfold rt_hops. induction t as [|[y l] t IH]; simpl.
  - eqb_case x d; rewrite ?eqb_refl; [reflexivity|]. eqb_case x d; [contradiction|reflexivity].
  - eqb_case y d; simpl.
    + rewrite ?eqb_refl. eqb_case x d; simpl; rewrite ?eqb_refl; reflexivity.
    + eqb_case x y.
      * eqb_case y d; [contradiction|reflexivity].
      * rewrite IH. eqb_case x d; [|reflexivity]. eqb_case d y; [congruence|reflexivity]. Qed.

(** ** One Dijkstra run *)
Lemma dijkstra_shortest m s t : (s < length m)%nat -> (t < length m)%nat ->
  let d := dget (snd (dijkstra m s)) t in
  (d < INF_DISTANCE -> shortest (mlink m) s t d) /\
  (d = INF_DISTANCE -> forall c, walk (mlink m) s t c -> INF_DISTANCE <= c) /\
  0 <= d <= INF_DISTANCE.
Proof. intros Hs Ht d. pose proof (dijkstra_final m Hs) as F.
  pose proof (f_1 F Ht) as H1. fold d in H1.
  split; [|split].
  - intros Hlt. destruct (f_4 F) as (rank & Hr1 & Hr2).
    destruct (@final_parent_walk m s Hs _ _ F (length m) t None rank Hr1 Hr2 Ht) as (h & _ & Hw & _).
    + specialize (Hr1 t Ht). lia.
    + exact Hlt.
    + split; [exact Hw|]. intros d' Hw'. destruct (Z.lt_ge_cases d' INF_DISTANCE) as [Hl|Hl]; [|lia].
      exact (final_lower Hs F Hw' Hl).
  - intros He c Hw. destruct (Z.lt_ge_cases c INF_DISTANCE) as [Hl|Hl]; [|lia].
    pose proof (final_lower Hs F Hw Hl) as Hle. fold d in Hle. lia.
  - exact H1. Qed.

Lemma get_next_hop_spec m s t : (s < length m)%nat -> (t < length m)%nat -> t <> s ->
  let pd := dijkstra m s in
  (dget (snd pd) t < INF_DISTANCE /\
   exists h, get_next_hop (fst pd) t s = Some (Some h) /\ h <> s /\
     mlink m s h (mget m s h) /\ walk (mlink m) h t (dget (snd pd) t - mget m s h)) \/
  (dget (snd pd) t = INF_DISTANCE /\ get_next_hop (fst pd) t s = Some None).
Proof. intros Hs Ht Hts pd. pose proof (dijkstra_final m Hs) as F. fold pd in F.
  pose proof (f_1 F Ht) as H1.
  destruct (Z.eq_dec (dget (snd pd) t) INF_DISTANCE) as [He|Hne].
  - right. split; [exact He|]. unfold get_next_hop.
    assert (Hp : pget (fst pd) t = None).
    { destruct (f_4 F) as (rank & Hr1 & Hr2). exact (final_noparent Hs F Ht He). }
    destruct (length (fst pd)); simpl; rewrite Hp; destruct (Nat.eqb_spec t s); auto; contradiction.
  - left. split; [lia|].
    destruct (f_4 F) as (rank & Hr1 & Hr2).
    destruct (@final_parent_walk m s Hs _ _ F (length (fst pd)) t None rank Hr1 Hr2 Ht) as (h & Hl & _ & Hc).
    + rewrite (f_p F). specialize (Hr1 t Ht). lia.
    + lia.
    + destruct Hc as [[? _]|(hv & -> & _ & Hph & Hml & Hw)]; [contradiction|].
      exists hv. unfold get_next_hop. rewrite Hl, Nat.eqb_refl. split; [reflexivity|].
      split; [|auto]. intros ->. destruct (f_2 F) as [_ H0]. congruence. Qed.

(** ** addNextHopsToRoutingTable *)
Section AddHops.
  Variable map : namemap.
  Hypothesis Hnd : NoDup map.
  Variable m : matrix.
  Hypothesis Hlen : length m = length map.
  Variable s : nat.
  Hypothesis Hs : (s < length m)%nat.
  Variable adjs : list (name * uri).
  Let pd := dijkstra m s.
  Let d := fun t => dget (snd pd) t.

  Definition hop_for (i : nat) (t t' : rtable) (x : name) : Prop :=
    (d i < INF_DISTANCE /\ exists h hn, nm_name map h = Some hn /\ h <> s /\
       mlink m s h (mget m s h) /\ walk (mlink m) h i (d i - mget m s h) /\
       rt_hops t' x = nhl_addc (mk_nh (face_of adjs hn) (of_int (d i))) (rt_hops t x)) \/
    (d i = INF_DISTANCE /\ rt_hops t' x = rt_hops t x).

  Lemma add_hops_list l : NoDup l -> (forall i, In i l -> (i < length m)%nat) ->
    forall t, exists t', fold_left (add_hop map s adjs pd) l (Ok t) = Ok t' /\
      (forall x, (forall i, In i l -> i <> s -> nm_name map i <> Some x) -> rt_hops t' x = rt_hops t x) /\
      (forall i x, In i l -> i <> s -> nm_name map i = Some x -> hop_for i t t' x).
  Proof. induction l as [|i l IH]; intros Hl Hlt t; cbn [fold_left].
    - exists t. split; [reflexivity|]. split; [auto|]. intros i x [].
    - inversion Hl as [|? ? Hni Hl']; subst.
      assert (Hi : (i < length m)%nat) by (apply Hlt; now left).
      assert (Hlt' : forall j, In j l -> (j < length m)%nat) by (intros j Hj; apply Hlt; now right).
      assert (Hother : forall j x, In j l -> nm_name map i = Some x -> nm_name map j <> Some x).
      { intros j x Hj Hx Hjx. apply (nm_name_num _ Hnd) in Hx. apply (nm_name_num _ Hnd) in Hjx.
        assert (i = j) by congruence. subst. contradiction. }
      unfold add_hop at 2. destruct (Nat.eqb_spec i s) as [->|His].
      + destruct (IH Hl' Hlt' t) as (t' & Hf & H1 & H2). exists t'. split; [exact Hf|]. split.
        * intros x Hx. apply H1. intros j Hj. apply Hx. now right.
        * intros j x [<-|Hj] Hjs; [contradiction|]. now apply H2.
      + destruct (@get_next_hop_spec m s i Hs Hi His) as [(Hd & h & Hg & Hhs & Hml & Hw)|(Hd & Hg)].
        * fold pd in Hg, Hd, Hw. rewrite Hg.
          assert (Hhm : exists hn, nm_name map h = Some hn).
          { apply nm_name_lt. rewrite <- Hlen. apply Hml. }
          assert (Him : exists dn, nm_name map i = Some dn).
          { apply nm_name_lt. rewrite <- Hlen. exact Hi. }
          destruct Hhm as (hn & Hhn). destruct Him as (dn & Hdn). rewrite Hhn, Hdn.
          set (nh := mk_nh _ _).
          destruct (IH Hl' Hlt' (rt_add t dn nh)) as (t' & Hf & H1 & H2). exists t'. split; [exact Hf|]. split.
          -- intros x Hx. rewrite H1 by (intros j Hj; apply Hx; now right).
             rewrite rt_hops_add. eqb_case x dn; [|reflexivity].
             exfalso. apply (Hx i (or_introl eq_refl) His). exact Hdn.
          -- intros j x [<-|Hj] Hjs Hjx.
             ++ left. split; [exact Hd|]. exists h, hn. repeat (split; [assumption|]).
                assert (x = dn) by congruence. subst x.
                rewrite H1 by (intros j Hj _; now apply (Hother j)).
                rewrite rt_hops_add, eqb_refl. reflexivity.
             ++ specialize (H2 j x Hj Hjs Hjx). unfold hop_for in *.
                assert (Hne : x <> dn) by (intros ->; exact (Hother j dn Hj Hdn Hjx)).
                rewrite !rt_hops_add in H2. eqb_case x dn; [contradiction|]. exact H2.
        * fold pd in Hg, Hd. rewrite Hg.
          destruct (IH Hl' Hlt' t) as (t' & Hf & H1 & H2). exists t'. split; [exact Hf|]. split.
          -- intros x Hx. apply H1. intros j Hj. apply Hx. now right.
          -- intros j x [<-|Hj] Hjs Hjx; [|now apply H2].
             right. split; [exact Hd|]. apply H1. intros k Hk _. now apply (Hother k).
  Qed.

  Lemma add_hops_spec t : exists t', add_hops map s adjs pd t = Ok t' /\
      (forall x, nm_name map s = Some x \/ ~ In x map -> rt_hops t' x = rt_hops t x) /\
      (forall i x, i <> s -> nm_name map i = Some x -> hop_for i t t' x).
  Proof. unfold add_hops.
    destruct (@add_hops_list (seq 0 (length map)) (seq_NoDup _ _)) with (t := t) as (t' & Hf & H1 & H2).
    - intros i Hi. apply in_seq in Hi. lia.
    - exists t'. split; [exact Hf|]. split.
      + intros x Hx. apply H1. intros i Hi His Hix. destruct Hx as [Hx|Hx].
        * apply (nm_name_num _ Hnd) in Hx. apply (nm_name_num _ Hnd) in Hix. congruence.
        * apply Hx. eapply nth_error_In. exact Hix.
      + intros i x His Hix. apply H2; auto. apply in_seq.
        assert (i < length map)%nat by (apply nm_name_lt; eauto). lia. Qed.
End AddHops.

(** ** Multipath: the simulated matrix *)
Section Sim.
  Variable n : nat.
  Variable m : matrix.
  Hypothesis Hm : shape n m.
  Variable s : nat.
  Hypothesis Hs : (s < n)%nat.

  (** [m'] agrees with [m] outside row [s]. *)
  Definition agrees (m' : matrix) : Prop :=
    shape n m' /\ forall i j, i <> s -> mget m' i j = mget m i j.

  Lemma sim_fold nb c l : (forall i, In i l -> (i < n)%nat) -> forall m', shape n m' ->
    let r := fold_left (fun m i => mset m s i (if Nat.eqb i nb then c else NON_ADJACENT_COST)) l m' in
    shape n r /\ (forall i j, i <> s -> mget r i j = mget m' i j) /\
    (forall j, In j l -> mget r s j = if Nat.eqb j nb then c else NON_ADJACENT_COST) /\
    (forall j, ~ In j l -> mget r s j = mget m' s j).
  Proof. induction l as [|i l IH]; intros Hlt m' Hm'; simpl.
    - split; [exact Hm'|]. split; [auto|]. split; [tauto|auto].
    - assert (Hi : (i < n)%nat) by (apply Hlt; now left).
      set (v := if Nat.eqb i nb then c else NON_ADJACENT_COST).
      destruct (IH (fun j H => Hlt j (or_intror H)) (mset m' s i v) (mset_shape i v Hs Hm')) as (I1 & I2 & I3 & I4).
      split; [exact I1|]. split; [|split].
      + intros a b Ha. rewrite I2 by assumption. rewrite (mget_mset v a b Hm' Hs Hi).
        destruct (Nat.eqb_spec a s); [contradiction|reflexivity].
      + intros j Hj. destruct (in_dec Nat.eq_dec j l) as [Hjl|Hjl].
        * now apply I3.
        * destruct Hj as [<-|Hj]; [|contradiction].
          rewrite (I4 i Hjl), (mget_mset v s i Hm' Hs Hi), !Nat.eqb_refl. reflexivity.
      + intros j Hj. rewrite I4 by tauto. rewrite (mget_mset v s j Hm' Hs Hi), Nat.eqb_refl.
        destruct (Nat.eqb_spec j i) as [->|]; [exfalso; apply Hj; now left|reflexivity]. Qed.

  Lemma simulate_one_spec m' nb c : agrees m' ->
    agrees (simulate_one m' s (nb, c)) /\
    forall j, (j < n)%nat -> mget (simulate_one m' s (nb, c)) s j = if Nat.eqb j nb then c else NON_ADJACENT_COST.
  Proof. intros [Hm' Ha]. unfold simulate_one. simpl fst; simpl snd.
    destruct (@sim_fold nb c (seq 0 (length m'))) with (m' := m') as (I1 & I2 & I3 & I4).
    - intros i Hi. apply in_seq in Hi. destruct Hm'. lia.
    - exact Hm'.
    - split.
      + split; [exact I1|]. intros i j Hi. rewrite I2 by assumption. now apply Ha.
      + intros j Hj. apply I3. apply in_seq. destruct Hm'. lia. Qed.

  Variables (nb : nat) (c : Z).
  Hypothesis Hnb : (nb < n)%nat.
  Hypothesis Hnbs : nb <> s.
  Hypothesis Hc : 0 <= c.
  Variable m' : matrix.
  Hypothesis Ha : agrees m'.
  Hypothesis Hrow : forall j, (j < n)%nat -> mget m' s j = if Nat.eqb j nb then c else NON_ADJACENT_COST.

  Lemma sim_link u v x : mlink m' u v x <-> (u = s /\ v = nb /\ x = c) \/ (u <> s /\ mlink m u v x).
  Proof. destruct Ha as [[Hl' _] Hag]. destruct Hm as [Hl _]. unfold mlink. rewrite Hl', Hl. split.
    - intros (Hu & Hv & -> & H0). destruct (Nat.eq_dec u s) as [->|Hne].
      + left. rewrite Hrow in H0 |- * by assumption.
        destruct (Nat.eqb_spec v nb); [auto|unfold NON_ADJACENT_COST in H0; lia].
      + right. rewrite Hag in H0 |- * by assumption. auto.
    - intros [(-> & -> & ->)|(Hne & Hu & Hv & -> & H0)].
      + rewrite Hrow, Nat.eqb_refl by assumption. auto.
      + rewrite Hag by assumption. auto. Qed.

  Lemma sim_walk_avoid t x w : t <> s -> walk (mlink m') x t w ->
    (x <> s -> (exists w', walk (avoiding s (mlink m)) x t w' /\ w' <= w) \/
               (exists w', walk (avoiding s (mlink m)) nb t w' /\ c + w' <= w)) /\
    (x = s -> exists w', walk (avoiding s (mlink m)) nb t w' /\ c + w' <= w).
  Proof. intros Hts Hw. induction Hw as [u|u v w c1 c2 Hl Hw IH].
    - split; [|intros; contradiction]. intros _. left. exists 0. split; [constructor|lia].
    - specialize (IH Hts). destruct IH as [IH1 IH2]. apply sim_link in Hl as [(-> & -> & ->)|(Hne & Hl)].
      + split; [congruence|]. intros _. destruct (IH1 Hnbs) as [(w' & Hw' & Hle)|(w' & Hw' & Hle)];
          exists w'; (split; [exact Hw'|lia]).
      + split; [|contradiction]. intros _. pose proof (mlink_nonneg Hl) as H0.
        destruct (Nat.eq_dec v s) as [->|Hvs].
        * destruct (IH2 eq_refl) as (w' & Hw' & Hle). right. exists w'. split; [exact Hw'|lia].
        * destruct (IH1 Hvs) as [(w' & Hw' & Hle)|(w' & Hw' & Hle)].
          -- left. exists (c1 + w'). split; [|lia]. econstructor; [|exact Hw']. split; auto.
          -- right. exists w'. split; [exact Hw'|lia]. Qed.

  Lemma sim_avoid_walk t w : walk (avoiding s (mlink m)) nb t w -> walk (mlink m') s t (c + w).
  Proof. intros Hw. apply walk_cons with (v := nb).
    - apply sim_link. auto.
    - revert Hw. apply walk_mono. intros u v x (Hl & Hu & _). apply sim_link. auto. Qed.

  Lemma sim_shortest t d : t <> s -> shortest (mlink m') s t d <-> shortest (avoiding s (mlink m)) nb t (d - c).
  Proof. intros Hts. split.
    - intros [Hw Hmin]. destruct (sim_walk_avoid Hts Hw) as [_ H]. destruct (H eq_refl) as (w' & Hw' & Hle).
      pose proof (Hmin _ (sim_avoid_walk Hw')) as Hge. assert (w' = d - c) by lia. subst w'.
      split; [exact Hw'|]. intros d' Hd'. pose proof (Hmin _ (sim_avoid_walk Hd')). lia.
    - intros [Hw Hmin]. split.
      + replace d with (c + (d - c)) by lia. now apply sim_avoid_walk.
      + intros d' Hd'. destruct (sim_walk_avoid Hts Hd') as [_ H]. destruct (H eq_refl) as (w' & Hw' & Hle).
        pose proof (Hmin _ Hw'). lia. Qed.
End Sim.

(** ** gatherLinks *)
Lemma gather_links_In m s nb c : In (nb, c) (gather_links m s) <->
  (nb < length m)%nat /\ nb <> s /\ c = mget m s nb /\ 0 <= c.
Proof. unfold gather_links. rewrite in_flat_map. split.
  - intros (i & Hi & Hin). apply in_seq in Hi. destruct (Nat.eqb_spec i s) as [|Hne]; [destruct Hin|].
    destruct (Z.leb_spec 0 (mget m s i)); [|destruct Hin].
    destruct Hin as [[= <- <-]|[]]. repeat split; auto; lia.
  - intros (Hi & Hne & -> & H0). exists nb. split; [apply in_seq; lia|].
    destruct (Nat.eqb_spec nb s); [contradiction|].
    rewrite (proj2 (Z.leb_le _ _) H0). now left. Qed.
