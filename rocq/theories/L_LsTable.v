(** Name-level characterisation of calculateLinkStateRoutingPath. *)
From Coq Require Import Permutation.
From Verif Require Import Base M_Nexthop M_LinkState S_Graph S_LinkState L_Vec L_Dijkstra L_Matrix L_Nexthop L_LinkState.
Open Scope Z_scope.
Set Implicit Arguments.

Lemma nhl_valid_addc nh l : nhl_valid nh_ltb l -> nhl_valid nh_ltb (nhl_addc nh l).
Proof. intros H. exact (proj1 (nhl_addc_spec nh H)). Qed.

Section Transfer.
  Variable map : namemap.
  Hypothesis Hnd : NoDup map.
  Variable L1 : nat -> nat -> Z -> Prop.
  Variable L2 : name -> name -> Z -> Prop.
  Hypothesis H12 : forall i j u v c, nm_name map i = Some u -> nm_name map j = Some v -> (L1 i j c <-> L2 u v c).
  Hypothesis Hr1 : forall i j c, L1 i j c -> (j < length map)%nat.
  Hypothesis Hr2 : forall u v c, L2 u v c -> In v map.

  Lemma walk_to_names i j c : walk L1 i j c -> forall u v,
    nm_name map i = Some u -> nm_name map j = Some v -> walk L2 u v c.
  Proof. intros Hwk. induction Hwk as [i|i k j c d Hl Hwk IH]; intros u v Hi Hj.
    - rewrite Hi in Hj. injection Hj as ->. constructor.
    - pose proof (Hr1 Hl) as Hk. apply nm_name_lt in Hk as (x & Hk).
      apply walk_cons with (v := x); [|now apply IH]. now apply (H12 _ _ _ Hi Hk). Qed.

  Lemma walk_to_nums u v c : walk L2 u v c -> forall i j,
    nm_name map i = Some u -> nm_name map j = Some v -> walk L1 i j c.
  Proof. intros Hwk. induction Hwk as [u|u x v c d Hl Hwk IH]; intros i j Hi Hj.
    - assert (i = j).
      { apply (nm_name_num _ Hnd) in Hi. apply (nm_name_num _ Hnd) in Hj. congruence. }
      subst. constructor.
    - pose proof (Hr2 Hl) as Hx.
      destruct (nm_num map x) as [k|] eqn:Ek; [|apply nm_num_None in Ek; contradiction].
      apply nm_num_Some in Ek. apply walk_cons with (v := k); [|now apply IH].
      now apply (H12 _ _ _ Hi Ek). Qed.

  Lemma shortest_transfer i j u v d : nm_name map i = Some u -> nm_name map j = Some v ->
    (shortest L1 i j d <-> shortest L2 u v d).
  Proof. intros Hi Hj. split; intros [Hw Hmin]; split.
    - eapply walk_to_names; eassumption.
    - intros d' Hd'. apply Hmin. eapply walk_to_nums; eassumption.
    - eapply walk_to_nums; eassumption.
    - intros d' Hd'. apply Hmin. eapply walk_to_names; eassumption. Qed.
End Transfer.
Arguments shortest_transfer [map] Hnd [L1 L2] H12 Hr1 Hr2 [i j u v] d _ _.
Arguments walk_to_names [map L1 L2] H12 Hr1 [i j c] _ [u v] _ _.
Arguments walk_to_nums [map] Hnd [L1 L2] H12 Hr2 [u v c] _ [i j] _ _.

Section Table.
  Variable lsas : list adj_lsa.
  Hypothesis Hw : wf_lsdb lsas.
  Variable self : name.
  Variable adjs : list (name * uri).
  Let map := nm_from_adj lsas.
  Let m := make_matrix lsas map.

  Let Hnd : NoDup map := nm_from_adj_NoDup lsas.
  Let Hshape : shape (length map) m := make_matrix_shape lsas.

  Lemma tbl_link i j u v c : nm_name map i = Some u -> nm_name map j = Some v ->
    (mlink m i j c <-> usable lsas u v c).
  Proof. intros Hi Hj. exact (mlink_usable Hw _ _ _ Hi Hj). Qed.

  Arguments tbl_link [i j u v] c _ _.

  Lemma tbl_r1 i j c : mlink m i j c -> (j < length map)%nat.
  Proof. intros (_ & Hj & _). destruct Hshape as [Hl _]. lia. Qed.

  Lemma tbl_r2 u v c : usable lsas u v c -> In v map.
  Proof. intros H. apply nm_from_adj_In. now apply usable_mentioned in H. Qed.

  Lemma unmentioned_no_walk x c : ~ In self map -> x <> self -> ~ walk (usable lsas) self x c.
  Proof. intros Hn Hx Hwk. inversion Hwk as [|? v ? c1 d1 Hl Hwk']; subst; [congruence|].
    apply Hn. apply nm_from_adj_In. now apply usable_mentioned in Hl. Qed.

  Lemma walk_end_mentioned u x c : walk (usable lsas) u x c -> u <> x -> In x map.
  Proof. intros Hwk. induction Hwk as [u|u v x c d Hl Hwk IH]; intros Hux; [congruence|].
    destruct (eq_dec v x) as [->|Hvx]; [|auto]. eapply tbl_r2. exact Hl. Qed.

  Lemma calc_single : exists t, calc_link_state self 1 adjs lsas = Ok t /\
    rt_hops t self = [] /\
    forall x, x <> self ->
      (exists d nb c, shortest (usable lsas) self x d /\ d < INF_DISTANCE /\ nb <> self /\
         usable lsas self nb c /\ walk (usable lsas) nb x (d - c) /\
         rt_hops t x = [mk_nh (face_of adjs nb) (of_int d)]) \/
      ((forall d, walk (usable lsas) self x d -> INF_DISTANCE <= d) /\ rt_hops t x = []).
  Proof. unfold calc_link_state. fold map. fold m.
    destruct (nm_num map self) as [s|] eqn:Es.
    - pose proof (nm_num_lt _ _ Es) as Hs. pose proof (nm_num_Some _ _ Es) as Hsn.
      destruct Hshape as [Hlen _]. assert (Hs' : (s < length m)%nat) by lia.
      change (1 =? 1)%N with true. cbv iota.
      destruct (@add_hops_spec map Hnd m Hlen s Hs' adjs []) as (t & Ht & H1 & H2).
      exists t. split; [exact Ht|]. split; [apply H1; now left|].
      intros x Hx.
      destruct (nm_num map x) as [i|] eqn:Ei.
      + pose proof (nm_num_Some _ _ Ei) as Hin. pose proof (nm_num_lt _ _ Ei) as Hil.
        assert (His : i <> s) by (intros ->; congruence).
        assert (Hi' : (i < length m)%nat) by lia.
        destruct (@dijkstra_shortest m s i Hs' Hi') as (D1 & D2 & D3).
        destruct (H2 i x His Hin) as [(Hd & h & hn & Hh & Hhs & Hml & Hwk & Hhops)|(Hd & Hhops)].
        * left. exists (dget (snd (dijkstra m s)) i), hn, (mget m s h).
          split; [|split; [exact Hd|split; [|split; [|split]]]].
          -- apply (shortest_transfer Hnd tbl_link tbl_r1 tbl_r2 _ Hsn Hin). now apply D1.
          -- intros ->. apply Hhs. apply (nm_name_num _ Hnd) in Hh. congruence.
          -- now apply (tbl_link _ Hsn Hh).
          -- exact (walk_to_names tbl_link tbl_r1 Hwk Hh Hin).
          -- exact Hhops.
        * right. split; [|exact Hhops].
          intros d Hwk. apply (D2 Hd). exact (walk_to_nums Hnd tbl_link tbl_r2 Hwk Hsn Hin).
      + right. apply nm_num_None in Ei. split; [|rewrite H1 by (now right); reflexivity].
        intros d Hwk. exfalso. apply Ei. eapply walk_end_mentioned; [exact Hwk|]. congruence.
    - exists []. apply nm_num_None in Es. split; [reflexivity|]. split; [reflexivity|].
      intros x Hx. right. split; [|reflexivity]. intros d Hwk. exfalso.
      exact (unmentioned_no_walk Es Hx Hwk).
  Qed.

  (** Multipath *)
  Section Multi.
    Variable s : nat.
    Hypothesis Hsn : nm_name map s = Some self.

    Let Hs : (s < length map)%nat.
    Proof. apply nm_name_lt. eauto. Qed.

    Definition cand (nb : nat) (c : Z) (x : name) (h : nexthop) : Prop :=
      exists i hn w, nm_name map i = Some x /\ i <> s /\ nm_name map nb = Some hn /\
        shortest (avoiding s (mlink m)) nb i w /\ c + w < INF_DISTANCE /\
        h = mk_nh (face_of adjs hn) (of_int (c + w)).

    Lemma multi_step_spec m' t nb c :
      agrees (length map) m s m' -> (nb < length map)%nat -> nb <> s -> 0 <= c ->
      exists m2 t', multi_step map s adjs (m', Ok t) (nb, c) = (m2, Ok t') /\ agrees (length map) m s m2 /\
        rt_hops t' self = rt_hops t self /\
        forall x, x <> self ->
          (exists h, cand nb c x h /\ rt_hops t' x = nhl_addc h (rt_hops t x)) \/
          ((forall h, ~ cand nb c x h) /\ rt_hops t' x = rt_hops t x).
    Proof. intros Ha Hnb Hnbs Hc. unfold multi_step. simpl fst; simpl snd.
      destruct (simulate_one_spec Hs nb c Ha) as [Ha2 Hrow].
      set (m2 := simulate_one m' s (nb, c)) in *.
      pose proof Ha2 as [[Hlen2 _] _].
      assert (Hs2 : (s < length m2)%nat) by lia.
      destruct (@add_hops_spec map Hnd m2 Hlen2 s Hs2 adjs t) as (t' & Ht' & H1 & H2).
      exists m2, t'. rewrite Ht'. split; [reflexivity|]. split; [exact Ha2|]. split; [apply H1; now left|].
      intros x Hx. destruct (nm_num map x) as [i|] eqn:Ei.
      - pose proof (nm_num_Some _ _ Ei) as Hin. pose proof (nm_num_lt _ _ Ei) as Hil.
        assert (His : i <> s) by (intros ->; congruence).
        assert (Hi2 : (i < length m2)%nat) by lia.
        destruct (@dijkstra_shortest m2 s i Hs2 Hi2) as (D1 & D2 & D3).
        destruct (H2 i x His Hin) as [(Hd & h & hn & Hh & Hhs & Hml & Hwk & Hhops)|(Hd & Hhops)].
        + left. eexists. split; [|exact Hhops].
          apply (sim_link Hshape Hs Hnb Hnbs Hc Ha2 Hrow) in Hml as [(_ & -> & Hcc)|(Hne & _)]; [|congruence].
          exists i, hn, (dget (snd (dijkstra m2 s)) i - c).
          repeat (split; [assumption|]). split; [|split].
          * apply (sim_shortest Hshape Hs Hnb Hnbs Hc Ha2 Hrow _ His). now apply D1.
          * lia.
          * f_equal. f_equal. lia.
        + right. split; [|exact Hhops]. intros h (i' & hn & w & Hi' & _ & _ & Hsh & Hlt & _).
          assert (i' = i) by (apply (nm_name_num _ Hnd) in Hi'; congruence). subst i'.
          assert (Hsh' : shortest (mlink m2) s i (c + w)).
          { apply (sim_shortest Hshape Hs Hnb Hnbs Hc Ha2 Hrow _ His).
            replace (c + w - c) with w by lia. exact Hsh. }
          pose proof (D2 Hd _ (proj1 Hsh')). lia.
      - right. apply nm_num_None in Ei. split; [|apply H1; now right].
        intros h (i & hn & w & Hi & _). apply Ei. eapply nth_error_In. exact Hi. Qed.

    Lemma multi_fold_spec L : (forall nb c, In (nb, c) L -> (nb < length map)%nat /\ nb <> s /\ 0 <= c) ->
      forall m' t, agrees (length map) m s m' ->
      exists m2 t', fold_left (multi_step map s adjs) L (m', Ok t) = (m2, Ok t') /\
        rt_hops t' self = rt_hops t self /\
        forall x, x <> self -> nhl_valid nh_ltb (rt_hops t x) ->
          nhl_valid nh_ltb (rt_hops t' x) /\
          (forall h, In h (rt_hops t' x) -> In h (rt_hops t x) \/ exists nb c, In (nb, c) L /\ cand nb c x h) /\
          (forall h, In h (rt_hops t x) \/ (exists nb c, In (nb, c) L /\ cand nb c x h) ->
             exists h', In h' (rt_hops t' x) /\ nh_uri h' = nh_uri h /\ nh_cost h' <= nh_cost h).
    Proof. induction L as [|[nb c] L IH]; intros HL m' t Ha; cbn [fold_left].
      - exists m', t. split; [reflexivity|]. split; [reflexivity|]. intros x Hx Hv. split; [exact Hv|].
        split; [auto|]. intros h [H|(nb & c & [] & _)]. exists h. split; [exact H|]. split; [auto|lia].
      - destruct (HL nb c (or_introl eq_refl)) as (Hnb & Hnbs & Hc).
        destruct (multi_step_spec t Ha Hnb Hnbs Hc) as (m1 & t1 & -> & Ha1 & Hself1 & H1).
        destruct (IH (fun nb c H => HL nb c (or_intror H)) m1 t1 Ha1) as (m2 & t2 & E2 & Hself2 & H2).
        exists m2, t2. split; [exact E2|]. split; [congruence|].
        intros x Hx Hv.
        destruct (H1 x Hx) as [(h0 & Hc0 & E)|(Hno & E)].
        + destruct (nhl_addc_spec h0 Hv) as (V & A1 & A2 & A3 & _). rewrite <- E in V, A1, A2, A3.
          destruct (H2 x Hx V) as (V2 & B1 & B2). split; [exact V2|]. split.
          * intros h Hh. apply B1 in Hh as [Hh|(nb' & c' & Hin & Hcd)].
            -- apply A1 in Hh as [->|Hh]; [|auto]. right. exists nb, c. split; [now left|exact Hc0].
            -- right. exists nb', c'. split; [now right|exact Hcd].
          * intros h Hh.
            assert (Hcases : (exists h1, In h1 (rt_hops t1 x) /\ nh_uri h1 = nh_uri h /\ nh_cost h1 <= nh_cost h) \/
                      exists nb' c', In (nb', c') L /\ cand nb' c' x h).
            { destruct Hh as [Hh|(nb' & c' & [[= <- <-]|Hin] & Hcd)].
              - left. now apply A3.
              - left. assert (h = h0).
                { clear - Hcd Hc0 Hnd. destruct Hcd as (i & hn & w & Hi & _ & Hh & Hsh & _ & ->).
                  destruct Hc0 as (i' & hn' & w' & Hi' & _ & Hh' & Hsh' & _ & ->).
                  assert (i = i').
                  { apply (nm_name_num _ Hnd) in Hi. apply (nm_name_num _ Hnd) in Hi'. congruence. }
                  subst i'. assert (hn = hn') by congruence. subst hn'.
                  rewrite (shortest_unique Hsh Hsh'). reflexivity. }
                subst h. exact A2.
              - right. eauto. }
            destruct Hcases as [(h1 & G1 & G2 & G3)|Hcd].
            -- destruct (B2 h1 (or_introl G1)) as (h2 & K1 & K2 & K3). exists h2. split; [auto|]. split; [congruence|lia].
            -- apply B2. now right.
        + rewrite <- E in Hv |- *. destruct (H2 x Hx Hv) as (V2 & B1 & B2). split; [exact V2|]. split.
          * intros h Hh. apply B1 in Hh as [Hh|(nb' & c' & Hin & Hcd)]; [auto|].
            right. exists nb', c'. split; [now right|exact Hcd].
          * intros h Hh. apply B2. destruct Hh as [Hh|(nb' & c' & [[= <- <-]|Hin] & Hcd)]; [auto| |].
            -- exfalso. exact (Hno h Hcd).
            -- right. eauto.
    Qed.
  End Multi.

  Lemma avoid_link s i j u v c : nm_name map s = Some self -> nm_name map i = Some u -> nm_name map j = Some v ->
    (avoiding s (mlink m) i j c <-> avoiding self (usable lsas) u v c).
  Proof. intros Hsn Hi Hj. unfold avoiding. rewrite (tbl_link c Hi Hj).
    assert (Hn : forall k y, nm_name map k = Some y -> (k <> s <-> y <> self)).
    { intros k y Hk. split; intros Hne He; apply Hne.
      - subst y. apply (nm_name_num _ Hnd) in Hk. apply (nm_name_num _ Hnd) in Hsn. congruence.
      - subst k. congruence. }
    rewrite (Hn i u Hi), (Hn j v Hj). reflexivity. Qed.

  Lemma calc_multi maxf : (maxf <> 1)%N -> exists t, calc_link_state self maxf adjs lsas = Ok t /\
    rt_hops t self = [] /\
    forall x, x <> self ->
      nhl_valid nh_ltb (rt_hops t x) /\
      (forall h, In h (rt_hops t x) -> nh_hyp h = false /\ exists cost, nh_cost h = of_int cost /\
          via lsas (face_of adjs) self x (nh_uri h) cost /\ cost < INF_DISTANCE) /\
      (forall f cost, via lsas (face_of adjs) self x f cost -> cost < INF_DISTANCE ->
          exists h, In h (rt_hops t x) /\ nh_uri h = f /\ nh_cost h <= of_int cost).
  Proof. intros Hmaxf. unfold calc_link_state. fold map. fold m.
    destruct (nm_num map self) as [s|] eqn:Es.
    - pose proof (nm_num_lt _ _ Es) as Hs. pose proof (nm_num_Some _ _ Es) as Hsn.
      destruct (N.eqb_spec maxf 1) as [|_]; [contradiction|].
      assert (Ha0 : agrees (length map) m s m) by (split; auto).
      assert (HL : forall nb c, In (nb, c) (gather_links m s) -> (nb < length map)%nat /\ nb <> s /\ 0 <= c).
      { intros nb c Hin. apply gather_links_In in Hin as (H1 & H2 & _ & H3). destruct Hshape. repeat split; auto; lia. }
      destruct (@multi_fold_spec s Hsn (gather_links m s) HL m [] Ha0) as (m2 & t & E & Hself & H).
      exists t. split; [exact (f_equal snd E)|]. split; [exact Hself|].
      intros x Hx. destruct (H x Hx (nhl_valid_nil nh_ltb)) as (V & A & B). split; [exact V|]. split.
      + intros h Hh. apply A in Hh as [[]|(nb & c & Hin & i & hn & w & Hi & His & Hnbn & Hsh & Hlt & ->)].
        split; [reflexivity|]. exists (c + w). split; [reflexivity|]. split; [|exact Hlt].
        apply gather_links_In in Hin as (Hnb & Hnbs & Hc & Hc0).
        exists hn, c, w. split; [|split; [|split; [|split]]]; try reflexivity.
        * intros ->. apply Hnbs. apply (nm_name_num _ Hnd) in Hnbn. congruence.
        * apply (tbl_link c Hsn Hnbn). destruct Hshape as [Hl _]. unfold mlink.
          assert (s < length m)%nat by lia. auto.
        * refine (proj1 (shortest_transfer Hnd _ _ _ w Hnbn Hi) Hsh).
          -- intros. now apply avoid_link.
          -- intros a b z (Hz & _). exact (tbl_r1 Hz).
          -- intros a b z (Hz & _). exact (tbl_r2 Hz).
      + intros f cost (nb & c & w & Hnb & Hus & Hsh & -> & ->) Hlt.
        assert (Hnbin : In nb map) by exact (tbl_r2 Hus).
        destruct (nm_num map nb) as [k|] eqn:Ek; [|apply nm_num_None in Ek; contradiction].
        apply nm_num_Some in Ek.
        assert (Hxin : In x map).
        { destruct (eq_dec nb x) as [->|Hne]; [exact Hnbin|].
          apply walk_end_mentioned with (u := nb) (c := w); [|exact Hne].
          destruct Hsh as [Hwk _]. revert Hwk. apply walk_mono. intros a b z (Hz & _). exact Hz. }
        destruct (nm_num map x) as [i|] eqn:Ei; [|apply nm_num_None in Ei; contradiction].
        apply nm_num_Some in Ei.
        set (h0 := mk_nh (face_of adjs nb) (of_int (c + w))).
        destruct (B h0) as (h & Hh1 & Hh2 & Hh3).
        * right. exists k, c. split.
          -- apply (tbl_link c Hsn Ek) in Hus as (H1 & H2 & H3 & H4). apply gather_links_In.
             repeat split; auto. intros ->. congruence.
          -- exists i, nb, w. split; [exact Ei|]. split; [intros ->; congruence|]. split; [exact Ek|].
             split; [|split; [exact Hlt|reflexivity]].
             refine (proj2 (shortest_transfer Hnd _ _ _ w Ek Ei) Hsh).
             ++ intros. now apply avoid_link.
             ++ intros a b z (Hz & _). exact (tbl_r1 Hz).
             ++ intros a b z (Hz & _). exact (tbl_r2 Hz).
        * exists h. auto.
    - exists []. apply nm_num_None in Es. split; [reflexivity|]. split; [reflexivity|].
      intros x Hx. split; [apply nhl_valid_nil|]. split; [intros h []|].
      intros f cost (nb & c & w & _ & Hus & _). exfalso. apply Es. apply nm_from_adj_In.
      now apply usable_mentioned in Hus.
  Qed.
End Table.
