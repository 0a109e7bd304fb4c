(** C29: hyperbolic routes. *)
From Verif Require Import Base M_Nexthop M_LinkState S_LinkState L_Nexthop L_Matrix L_LinkState M_Adj M_Hyperbolic S_Hyperbolic.
Open Scope Z_scope.
Set Implicit Arguments.

Definition adds (t : rtable) (l : list (name * nexthop)) : rtable :=
  fold_left (fun t p => rt_add t (fst p) (snd p)) l t.

Lemma adds_hops l : forall t d,
  rt_hops (adds t l) d =
  fold_left (fun x h => nhl_addc h x) (map snd (filter (fun p => eqb d (fst p)) l)) (rt_hops t d).
Proof. induction l as [|[x h] l IH]; intros t d; [reflexivity|].
  cbn [adds fold_left fst snd filter]. change (rt_hops (adds (rt_add t x h) l) d = 
    fold_left (fun x h => nhl_addc h x) (map snd (if eqb d x then (x, h) :: filter (fun p => eqb d (fst p)) l
       else filter (fun p => eqb d (fst p)) l)) (rt_hops t d)).
  rewrite IH, rt_hops_add. destruct (eq_dec d x) as [->|Hne].
  - rewrite eqb_refl. reflexivity.
  - destruct (eqb d x) eqn:E; [apply eqb_eq in E; contradiction|reflexivity]. Qed.

Section P.
Variable ang : list Z -> list Z -> Z.
Variable dst : Z -> Z -> Z -> Z.
Notation distance := (distance ang dst).
Notation hdist := (hdist ang dst).
Notation offer := (offer ang dst).
Notation calc := (calc_hyperbolic ang dst).

Definition has_angles (cs : coords) : Prop := forall n r v, In (n, (r, v)) cs -> v <> [].

Lemma bad_angle_false a : bad_angle a = false.
Proof. unfold bad_angle. destruct (Z.ltb_spec M_PI a) as [H|]; [|reflexivity].
  destruct (Z.ltb_spec a 0) as [H'|]; [|reflexivity]. assert (0 < M_PI) by reflexivity. lia. Qed.

Lemma last_nth (v : list Z) a : nth_error v (length v - 1) = Some a <-> last_angle v a.
Proof. split.
  - intros H. destruct (exists_last (l:=v)) as (w & b & ->); [intros ->; discriminate|].
    exists w. rewrite app_length in H. cbn [length] in H. replace (length w + 1 - 1)%nat with (length w) in H by lia.
    rewrite nth_error_app2, Nat.sub_diag in H by lia. cbn in H. injection H as ->. reflexivity.
  - intros (w & ->). rewrite app_length. cbn [length]. replace (length w + 1 - 1)%nat with (length w) by lia.
    rewrite nth_error_app2, Nat.sub_diag by lia. reflexivity. Qed.

Lemma distance_spec cs n d : has_angles cs ->
  exists k, distance cs n d = Ok k /\ (k <> UNKNOWN_DISTANCE <-> hdist cs n d k) /\
    (forall k', hdist cs n d k' -> k' = k).
Proof. intros Ha. unfold M_Hyperbolic.distance.
  assert (U : forall P : Prop, (forall k, ~ hdist cs n d k) ->
     exists k, Ok UNKNOWN_DISTANCE = Ok k /\ (k <> UNKNOWN_DISTANCE <-> hdist cs n d k) /\ (forall k', hdist cs n d k' -> k' = k)).
  { intros _ H. exists UNKNOWN_DISTANCE. split; [reflexivity|]. split.
    - split; [tauto|]. intros X. apply H in X. tauto.
    - intros k' X. apply H in X. tauto. }
  specialize (U True).
  destruct (get n cs) as [[ri vi]|] eqn:En.
  2: { apply U. intros k (ri & vi & rj & vj & H & _). congruence. }
  destruct (get d cs) as [[rj vj]|] eqn:Ed.
  2: { apply U. intros k (ri' & vi' & rj & vj & _ & H & _). congruence. }
  assert (Inj : forall k, hdist cs n d k -> length vi = length vj /\ last_in_range vi /\ 0 < ri /\ 0 < rj /\
     0 < ang vi vj /\ k = dst ri rj (ang vi vj) /\ k <> of_int (-1)).
  { intros k (ri' & vi' & rj' & vj' & H1 & H2 & H3). rewrite En in H1. rewrite Ed in H2.
    injection H1 as <- <-. injection H2 as <- <-. exact H3. }
  unfold angular. destruct (Nat.eqb_spec (length vi) (length vj)) as [El|El]; cbn [negb].
  2: { replace (_ || _) with true by (rewrite (Z.eqb_refl UNKNOWN_DISTANCE), orb_true_r; reflexivity). apply U. intros k H. apply Inj in H. tauto. }
  replace (existsb _ _) with false.
  2: { symmetry. apply not_true_is_false. intros H. apply existsb_exists in H as (p & _ & H).
       rewrite !bad_angle_false in H. discriminate H. }
  destruct (nth_error vi (length vi - 1)) as [a|] eqn:Ea.
  2: { exfalso. apply nth_error_None in Ea. apply get_In in En. apply Ha in En. destruct vi; [tauto|].
       cbn [length] in Ea. lia. }
  apply last_nth in Ea.
  destruct ((2 * M_PI <? a) || (a <? 0)) eqn:Er.
  { replace (_ || _) with true by (rewrite (Z.eqb_refl UNKNOWN_DISTANCE), orb_true_r; reflexivity). apply U.
    intros k H. apply Inj in H as (_ & H & _). specialize (H a Ea). apply orb_true_iff in Er. lia. }
  apply orb_false_iff in Er as [Er1 Er2]. apply Z.ltb_ge in Er1, Er2.
  assert (Hl : last_in_range vi).
  { intros b Hb. apply last_nth in Hb, Ea. rewrite Hb in Ea. injection Ea as ->. lia. }
  assert (Hneg : UNKNOWN_DISTANCE < 0 /\ UNKNOWN_RADIUS < 0) by (split; reflexivity).
  destruct ((ri =? UNKNOWN_RADIUS) || (rj =? UNKNOWN_RADIUS) || (ang vi vj =? UNKNOWN_DISTANCE)) eqn:Eb.
  { apply U. intros k H. apply Inj in H. rewrite !orb_true_iff, !Z.eqb_eq in Eb. lia. }
  rewrite !orb_false_iff in Eb. destruct Eb as [_ Eb]. unfold hdistance. rewrite Eb.
  destruct ((ang vi vj <=? 0) || (ri <=? 0) || (rj <=? 0)) eqn:Ec.
  { apply U. intros k H. apply Inj in H. rewrite !orb_true_iff, !Z.leb_le in Ec. lia. }
  rewrite !orb_false_iff, !Z.leb_gt in Ec.
  exists (dst ri rj (ang vi vj)). split; [reflexivity|]. split.
  - split.
    + intros Hk. exists ri, vi, rj, vj. unfold UNKNOWN_DISTANCE in Hk. tauto.
    + intros H. apply Inj in H. unfold UNKNOWN_DISTANCE. tauto.
  - intros k' H. apply Inj in H. tauto. Qed.

Definition dest_cands (map : namemap) (cs : coords) (this : option nat) (a : adjacent) (src : nat) (L : list (name * nexthop)) (ds : list nat) : Prop :=
  forall d h, In (d, h) L <->
    exists i th, In i ds /\ this = Some th /\ i <> th /\ i <> src /\ nm_name map i = Some d /\
      exists k, hdist cs (a_name a) d k /\ h = hyp_nh (a_uri a) k.

Lemma hyp_dests map cs this a src : has_angles cs -> forall ds t,
  exists L, fold_left (hyp_dest ang dst map cs this a src) ds (Ok t) = Ok (adds t L) /\ dest_cands map cs this a src L ds.
Proof. intros Ha. induction ds as [|i ds IH]; intros t.
  - exists []. split; [reflexivity|]. intros d h. split; [intros []|]. intros (i & th & [] & _).
  - cbn [fold_left].
    assert (Skip : (forall th d k, this = Some th -> i <> th -> i <> src -> nm_name map i = Some d -> ~ hdist cs (a_name a) d k) ->
      exists L, fold_left (hyp_dest ang dst map cs this a src) ds (Ok t) = Ok (adds t L) /\ dest_cands map cs this a src L (i :: ds)).
    { intros Hno. destruct (IH t) as (L & E & H). exists L. split; [exact E|]. intros d h. rewrite (H d h). split.
      - intros (j & th & Hj & X). exists j, th. split; [now right|exact X].
      - intros (j & th & [<-|Hj] & X).
        + exfalso. destruct X as (X1 & X2 & X3 & X4 & k & X5 & _). exact (@Hno th d k X1 X2 X3 X4 X5).
        + exists j, th. split; [exact Hj|exact X]. }
    unfold hyp_dest at 2. destruct this as [th|]; [|apply Skip; congruence].
    destruct (Nat.eqb_spec i th) as [->|H1]; cbn [negb andb]; [apply Skip; congruence|].
    destruct (Nat.eqb_spec i src) as [->|H2]; cbn [negb andb]; [apply Skip; congruence|].
    destruct (nm_name map i) as [dn|] eqn:En; [|apply Skip; congruence].
    destruct (distance_spec (a_name a) dn Ha) as (k & Ek & Hk & Hu). rewrite Ek.
    destruct (Z.eqb_spec k UNKNOWN_DISTANCE) as [Eq|Hne].
    + apply Skip. intros th' d k' _ _ _ Hd Hh. injection Hd as <-.
      pose proof (Hu _ Hh). subst k'. apply Hk in Hh. contradiction.
    + destruct (IH (rt_add t dn (hyp_nh (a_uri a) k))) as (L & E & H).
      exists ((dn, hyp_nh (a_uri a) k) :: L). split; [exact E|]. intros d h. split.
      * intros [X|X].
        -- injection X as <- <-. exists i, th. split; [now left|]. split; [reflexivity|]. split; [exact H1|]. split; [exact H2|].
           split; [exact En|]. exists k. split; [now apply Hk|reflexivity].
        -- apply H in X as (j & th' & Hj & X). exists j, th'. split; [now right|exact X].
      * intros (j & th' & [<-|Hj] & X).
        -- destruct X as (_ & _ & _ & X1 & k' & X2 & ->). rewrite En in X1. injection X1 as <-.
           pose proof (Hu _ X2). subst k'. now left.
        -- right. apply H. exists j, th'. split; [exact Hj|exact X]. Qed.

Lemma coord_map_In origins x : In x (nm_from_coord origins) <-> In x origins.
Proof. unfold nm_from_coord. rewrite nm_adds_In. cbn. tauto. Qed.
Lemma coord_map_NoDup origins : NoDup (nm_from_coord origins).
Proof. unfold nm_from_coord. apply nm_adds_NoDup. constructor. Qed.

Definition offer1 self a cs d h := offer self [a] cs d h.

Lemma hyp_adjs self cs : has_angles cs -> forall l t,
  exists L, fold_left (hyp_adj ang dst self (nm_from_coord (keys cs)) cs) l (Ok t) = Ok (adds t L) /\
    forall d h, In (d, h) L <-> offer self l cs d h.
Proof. intros Ha. set (mp := nm_from_coord (keys cs)).
  induction l as [|a l IH]; intros t.
  - exists []. split; [reflexivity|]. intros d h. split; [intros []|]. intros (a & [] & _).
  - cbn [fold_left].
    assert (One : exists L, hyp_adj ang dst self mp cs (Ok t) a = Ok (adds t L) /\
       forall d h, In (d, h) L <-> offer self [a] cs d h).
    { unfold hyp_adj. destruct (eq_dec (a_status a) SInactive) as [Es|Es].
      { rewrite Es, eqb_refl. exists []. split; [reflexivity|]. intros d h. split; [intros []|].
        intros (b & [<-|[]] & X & _). contradiction. }
      destruct (eqb (a_status a) SInactive) eqn:E0; [apply eqb_eq in E0; contradiction|]. clear E0.
      destruct (eq_dec (a_name a) self) as [Es2|Es2].
      { rewrite Es2, eqb_refl. exists []. split; [reflexivity|]. intros d h. split; [intros []|].
        intros (b & [<-|[]] & _ & X & _). contradiction. }
      destruct (eqb (a_name a) self) eqn:E0; [apply eqb_eq in E0; contradiction|]. clear E0.
      assert (Direct : forall d h, (d, h) = (a_name a, hyp_nh (a_uri a) 0) <->
         (nh_uri h = a_uri a /\ nh_hyp h = true /\ d = a_name a /\ nh_cost h = 0)).
      { intros d [u k b]. unfold hyp_nh. cbn [nh_uri nh_hyp nh_cost]. split; [intros H; injection H; auto|].
        intros (-> & -> & -> & ->). reflexivity. }
      destruct (nm_num mp (a_name a)) as [src|] eqn:En.
      - destruct (@hyp_dests mp cs (nm_num mp self) a src Ha (seq 0 (length mp)) (rt_add t (a_name a) (hyp_nh (a_uri a) 0)))
          as (L & E & H).
        exists ((a_name a, hyp_nh (a_uri a) 0) :: L). split; [exact E|]. intros d h.
        assert (Hn : nm_name mp src = Some (a_name a)) by now apply nm_num_Some.
        split.
        + intros [X|X].
          * symmetry in X. apply Direct in X as (X1 & X2 & X3 & X4). exists a. split; [now left|]. tauto.
          * apply H in X as (i & th & X1 & X2 & X3 & X4 & X5 & k & X6 & ->).
            exists a. split; [now left|]. split; [exact Es|]. split; [exact Es2|]. split; [reflexivity|]. split; [reflexivity|].
            right. cbn [nh_cost hyp_nh].
            assert (Hth : nm_name mp th = Some self) by now apply nm_num_Some.
            unfold nm_name in *. split; [|split; [|split; [|exact X6]]].
            -- intros ->. apply X4. apply (NoDup_nth_error mp) with (1:=coord_map_NoDup (keys cs)); [|rewrite X5; symmetry; exact Hn].
               apply nth_error_Some. rewrite X5. discriminate.
            -- intros ->. apply X3. apply (NoDup_nth_error mp) with (1:=coord_map_NoDup (keys cs)); [|rewrite X5; symmetry; exact Hth].
               apply nth_error_Some. rewrite X5. discriminate.
            -- apply coord_map_In. apply nth_error_In in Hth. exact Hth.
        + intros (b & [<-|[]] & _ & _ & Y1 & Y2 & [Y|Y]).
          * left. symmetry. apply Direct. tauto.
          * right. apply H. destruct Y as (Y3 & Y4 & Y5 & Y6).
            assert (In d (keys cs)).
            { destruct Y6 as (ri & vi & rj & vj & _ & G & _). apply get_Some_keys. eexists. exact G. }
            apply coord_map_In in H0, Y5. apply In_nth_error in H0 as (i & Hi).
            destruct (nm_num mp self) as [th|] eqn:Eth.
            2: { apply nm_num_None in Eth. contradiction. }
            exists i, th. assert (Hth : nm_name mp th = Some self) by now apply nm_num_Some.
            split; [apply in_seq; split; [lia|]; cbn; apply nth_error_Some; unfold mp; rewrite Hi; discriminate|].
            split; [reflexivity|]. unfold nm_name in *.
            split; [intros ->; unfold mp in Hth; congruence|]. split; [intros ->; unfold mp in Hn; congruence|].
            split; [exact Hi|]. exists (nh_cost h). split; [exact Y6|]. destruct h as [u k b]. cbn in *. subst. reflexivity.
      - exists [(a_name a, hyp_nh (a_uri a) 0)]. split; [reflexivity|]. intros d h. split.
        + intros [X|[]]. symmetry in X. apply Direct in X. exists a. split; [now left|]. tauto.
        + intros (b & [<-|[]] & _ & _ & Y1 & Y2 & [Y|Y]).
          * left. symmetry. apply Direct. tauto.
          * exfalso. destruct Y as (_ & _ & _ & ri & vi & _ & _ & G & _).
            apply nm_num_None in En. apply En. apply coord_map_In. apply get_Some_keys. eexists. exact G. }
    destruct One as (L1 & E1 & H1). rewrite E1. destruct (IH (adds t L1)) as (L2 & E2 & H2).
    exists (L1 ++ L2). split.
    + rewrite E2. unfold adds. rewrite fold_left_app. reflexivity.
    + intros d h. rewrite in_app_iff, H1, H2. split.
      * intros [(b & [<-|[]] & X)|(b & Hb & X)].
        -- exists a. split; [now left|exact X].
        -- exists b. split; [now right|exact X].
      * intros (b & [<-|Hb] & X); [left; exists a; split; [now left|exact X]|right; exists b; split; assumption]. Qed.

(** C29: with coordinates that have at least one angle, the calculation succeeds; every next hop of every
    destination is an offer of a neighbour that is not INACTIVE, with cost 0 for the neighbour itself and
    the hyperbolic distance otherwise; every offer is represented by a next hop over the same face that is
    at most as expensive; a face occurs once. *)
Theorem C29_hyperbolic_routes : forall self l cs, has_angles cs ->
  exists t, calc self l cs = Ok t /\
    forall d,
      (forall h, In h (rt_hops t d) -> offer self l cs d h) /\
      (forall h, offer self l cs d h ->
        exists h', In h' (rt_hops t d) /\ nh_uri h' = nh_uri h /\ nh_cost h' <= nh_cost h) /\
      NoDup (map nh_uri (rt_hops t d)).
Proof. intros self l cs Ha. destruct (@hyp_adjs self cs Ha l []) as (L & E & H).
  exists (adds [] L). split; [exact E|]. intros d.
  assert (V0 : nhl_valid nh_ltb []) by (split; constructor).
  pose proof (@nhl_adds_spec nh_ltb nh_ltb_trans nh_ltb_total (map snd (filter (fun p => eqb d (fst p)) L)) [] V0) as (V & A & B).
  assert (Hm : forall h, In h (map snd (filter (fun p => eqb d (fst p)) L)) <-> offer self l cs d h).
  { intros h. rewrite <- H. rewrite in_map_iff. split.
    - intros ([x y] & E1 & E2). apply filter_In in E2 as [E2 E3]. cbn in *. apply eqb_eq in E3. subst. exact E2.
    - intros X. exists (d, h). split; [reflexivity|]. apply filter_In. split; [exact X|]. apply eqb_refl. }
  rewrite adds_hops. cbn [rt_hops get]. split; [|split].
  - intros h Hh. apply A in Hh as [Hh|[]]. now apply Hm.
  - intros h Hh. apply Hm in Hh. apply (B h). now left.
  - exact (proj2 V). Qed.

(** C29, the clause about unknown coordinates: a destination that is no usable neighbour and whose
    coordinates are absent, have another number of angles than every neighbour's, or a radius that is not
    positive, gets no next hop. *)
Theorem C29_unknown_no_hop : forall self l cs d t, has_angles cs -> calc self l cs = Ok t ->
  (forall a, In a l -> a_status a <> SInactive -> a_name a <> d) ->
  (get d cs = None \/
   exists r v, get d cs = Some (r, v) /\
     (r <= 0 \/ forall a ra va, In a l -> get (a_name a) cs = Some (ra, va) -> length va <> length v)) ->
  rt_hops t d = [].
Proof. intros self l cs d t Ha Ht Hn Hc.
  destruct (@C29_hyperbolic_routes self l cs Ha) as (t' & Et & H). rewrite Ht in Et. injection Et as <-.
  destruct (H d) as (H1 & _). destruct (rt_hops t d) as [|h r] eqn:Er; [reflexivity|]. exfalso.
  destruct (H1 h (or_introl eq_refl)) as (a & A1 & A2 & _ & _ & _ & [[A3 _]|(_ & _ & _ & A4)]).
  - exact (@Hn a A1 A2 (eq_sym A3)).
  - destruct A4 as (ri & vi & rj & vj & B1 & B2 & B3 & _ & _ & B4 & _).
    destruct Hc as [Hc|(r' & v & Hc & [Hc'|Hc'])]; [congruence| |].
    + rewrite B2 in Hc. injection Hc as <- <-. lia.
    + rewrite B2 in Hc. injection Hc as <- <-. exact (@Hc' a ri vi A1 B1 B3). Qed.
End P.

(** ** Cases *)
Section Case.
(** Stand-ins for the trigonometric functions, enough to run the examples. *)
Definition ang0 (v w : list Z) : Z := of_int (Z.abs (hd 0 v / UNIT - hd 0 w / UNIT)).
Definition dst0 (r s d : Z) : Z := r + s + d.
Definition rA := nm ["net"; "A"]%string. Definition rB := nm ["net"; "B"]%string.
Definition rC := nm ["net"; "C"]%string. Definition rD := nm ["net"; "D"]%string.
Definition nb (n : name) (u : uri) (s : status) := Adj n u 0 s 0 0.
Definition exL : adl := [nb rB "udp4://b"%string SActive; nb rC "udp4://c"%string SInactive; nb rD "udp4://d"%string SUnknown].
Definition exC : coords :=
  [(rA, (of_int 10, [of_int 1])); (rB, (of_int 11, [of_int 2])); (rC, (of_int 12, [of_int 4])); (rD, (of_int 13, [of_int 5]))].

(** C is INACTIVE but a destination like any other: two next hops, the cheaper first. *)
Example ex_C29 :
  exists t, calc_hyperbolic ang0 dst0 rA exL exC = Ok t /\ rt_hops t rC =
    [NH "udp4://b"%string (of_int 25) true; NH "udp4://d"%string (of_int 26) true].
Proof. eexists. split; [vm_compute; reflexivity|]. vm_compute. reflexivity. Qed.
Example ex_C29_angles : has_angles exC.
Proof. intros n r v H. cbn [In exC] in H. intros ->. repeat (destruct H as [H|H]; [discriminate H|]). exact H. Qed.
(** A destination with a radius of -1 (unknown) gets no next hop. *)
Example ex_C29_unknown :
  exists t, calc_hyperbolic ang0 dst0 rA exL [(rA, (of_int 10, [of_int 1])); (rB, (of_int 11, [of_int 2])); (rC, (of_int (-1), [of_int 4]))] = Ok t /\
    rt_hops t rC = [].
Proof. eexists. split; [vm_compute; reflexivity|]. vm_compute. reflexivity. Qed.

(** C29 is refuted for malformed angles: a router whose angles are outside the ranges of spherical
    coordinates (here the last angle -3, and a first angle of 100) gets a next hop all the same. *)
Theorem C29_out_of_range_refuted :
  ~ (forall ang dst self l cs t d r v h, calc_hyperbolic ang dst self l cs = Ok t ->
       get d cs = Some (r, v) -> (forall a, In a l -> a_name a <> d) -> In h (rt_hops t d) -> in_range v).
Proof. intros H.
  pose (cs := [(rA, (of_int 10, [of_int 1; of_int 1])); (rB, (of_int 11, [of_int 2; of_int 1])); (rC, (of_int 12, [of_int 100; of_int (-3)]))] : coords).
  pose (l := [nb rB "udp4://b"%string SActive] : adl).
  assert (E : exists t, calc_hyperbolic ang0 dst0 rA l cs = Ok t /\ rt_hops t rC = [NH "udp4://b"%string (of_int 121) true]).
  { eexists. split; [vm_compute; reflexivity|]. vm_compute. reflexivity. }
  destruct E as (t & E & Hh).
  assert (G : get rC cs = Some (of_int 12, [of_int 100; of_int (-3)])) by (vm_compute; reflexivity).
  destruct (H ang0 dst0 rA l cs t rC _ _ (NH "udp4://b"%string (of_int 121) true) E G) as (w & a & E1 & E2 & _).
  - intros a [<-|[]]. cbn [a_name nb]. intros X. apply (f_equal (fun x => eqb x rC)) in X. vm_compute in X. discriminate X.
  - rewrite Hh. now left.
  - change [of_int 100; of_int (-3)] with ([of_int 100] ++ [of_int (-3)]) in E1. apply app_inj_tail in E1 as [_ <-].
    destruct E2 as [E2 _]. revert E2. vm_compute. intros X. apply X. reflexivity. Qed.

(** With two Coordinate LSAs that carry no angles the calculation reads outside the vectors. *)
Theorem C29_no_angles_refuted :
  ~ (forall ang dst self l cs, exists t, calc_hyperbolic ang dst self l cs = Ok t).
Proof. intros H.
  destruct (H ang0 dst0 rA [nb rB "udp4://b"%string SActive] [(rA, (of_int 10, [of_int 1])); (rB, (of_int 11, [])); (rC, (of_int 12, []))]) as (t & E).
  vm_compute in E. discriminate E. Qed.
End Case.

Print Assumptions C29_hyperbolic_routes.
Print Assumptions C29_unknown_no_hop.
Print Assumptions C29_out_of_range_refuted.
Print Assumptions C29_no_angles_refuted.
