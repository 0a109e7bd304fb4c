(** Name prefix table: costs, shapes of the pooled routes, entries of router names. *)
From Coq Require Import Sorting.Permutation Sorting.Sorted.
From Verif Require Import Base M_Nexthop L_Nexthop M_Lsa M_Lsdb M_LinkState M_Npt S_Npt L_Npt L_Npt2 L_Npt3 L_Npt4 L_Npt5 L_Npt6.
Open Scope Z_scope.
Set Implicit Arguments.

(** ** The entry of a name *)
Lemma find_map_snd n (t : amap nat npte) :
  find (fun e => eqb n (ne_name e)) (map snd t) = match find_npte n t with Some (_, e) => Some e | None => None end.
Proof. unfold find_npte. induction t as [|[k e] t IH]; [reflexivity|]. cbn [map snd find]. destruct (eqb n (ne_name e)); [reflexivity|exact IH]. Qed.

Lemma routers_dests s n : routers s n = dests s n.
Proof. unfold routers, entry, dests, ent. rewrite find_map_snd. destruct (find_npte n (n_table s)) as [[k e]|]; reflexivity. Qed.

Lemma entry_ent s n : entry s n = None <-> ent s n = None.
Proof. unfold entry, ent. rewrite find_map_snd. destruct (find_npte n (n_table s)) as [[k e]|]; split; congruence. Qed.

(** ** Costs *)
Definition nvalid := nhl_valid nh_ltb.

Lemma addcs_spec hs l : nvalid l -> let r := fold_left (fun acc x => nhl_addc x acc) hs l in
  nvalid r /\ (forall h, In h r -> In h hs \/ In h l) /\
  (forall h, In h hs \/ In h l -> exists h', In h' r /\ nh_uri h' = nh_uri h /\ nh_cost h' <= nh_cost h).
Proof. intros V. apply nhl_adds_spec; [exact nh_ltb_trans|exact nh_ltb_total|exact V]. Qed.

Lemma addcs_offers hs u c : offers (fold_left (fun acc x => nhl_addc x acc) hs []) u c <->
  least (fun x => exists h, In h hs /\ nh_uri h = u /\ x = nh_cost h) c.
Proof. destruct (@addcs_spec hs [] (nhl_valid_nil nh_ltb)) as (V & S1 & S2). split.
  - intros (h & H1 & H2 & H3). destruct (S1 h H1) as [H|[]]. split; [exists h; auto|].
    intros c' (g & G1 & G2 & ->). destruct (S2 g (or_introl G1)) as (h' & X1 & X2 & X3).
    assert (h' = h) by (eapply valid_unique; [exact V|exact X1|exact H1|congruence]). subst. lia.
  - intros [(g & G1 & G2 & ->) L]. destruct (S2 g (or_introl G1)) as (h' & X1 & X2 & X3).
    exists h'. split; [exact X1|]. split; [congruence|]. destruct (S1 h' X1) as [H|[]].
    specialize (L (nh_cost h')). assert (nh_cost g <= nh_cost h'); [|lia]. apply L. exists h'. repeat split; auto. congruence. Qed.

Lemma shift_as k l : shift k l = fold_left (fun acc x => nhl_addc x acc) (map (fun h => mk_nh (nh_uri h) (nh_cost h + k)) l) [].
Proof. unfold shift. generalize (@nil nexthop). induction l as [|h l IH]; intros acc; [reflexivity|]. cbn [map fold_left]. apply IH. Qed.

Lemma shift_valid k l : nvalid (shift k l).
Proof. rewrite shift_as. apply (addcs_spec _ (nhl_valid_nil nh_ltb)). Qed.
Lemma agen_valid ph ds : nvalid (agen ph ds).
Proof. apply (addcs_spec _ (nhl_valid_nil nh_ltb)). Qed.

Lemma least_ext (S T : Z -> Prop) c : (forall x, S x <-> T x) -> least S c <-> least T c.
Proof. intros H. unfold least. rewrite H. split; intros [X Y]; split; auto; intros; apply Y, H; auto. Qed.

Lemma shift_offers k l u c : nvalid l -> offers (shift k l) u c <-> offers l u (c - k).
Proof. intros V. rewrite shift_as, addcs_offers. split.
  - intros [(h & H1 & H2 & ->) _]. apply in_map_iff in H1 as (g & <- & G). cbn [nh_uri nh_cost mk_nh] in *.
    exists g. repeat split; auto. lia.
  - intros (h & H1 & H2 & H3). split.
    + exists (mk_nh (nh_uri h) (nh_cost h + k)). split; [apply in_map_iff; eauto|]. cbn [nh_uri nh_cost mk_nh]. split; [auto|lia].
    + intros c' (g & G1 & G2 & ->). apply in_map_iff in G1 as (g' & <- & G'). cbn [nh_uri nh_cost mk_nh] in *.
      assert (g' = h) by (eapply valid_unique; [exact V|exact G'|exact H1|congruence]). subst. lia. Qed.

(** The cheapest sums: one offset for all. *)
Lemma told_offers k ph ds u c : offers (shift k (agen ph ds)) u c <->
  least (fun x => exists d l h, In d ds /\ ph d = Some l /\ In h l /\ nh_uri h = u /\ x = nh_cost h + k) c.
Proof. rewrite shift_offers by apply agen_valid. unfold agen. rewrite addcs_offers. split.
  - intros [(h & H1 & H2 & H3) L]. apply in_flat_map in H1 as (d & D1 & D2). destruct (ph d) as [l|] eqn:P; [|destruct D2]. split.
    + exists d, l, h. repeat split; auto. lia.
    + intros c' (d' & l' & h' & X1 & X2 & X3 & X4 & ->). specialize (L (nh_cost h')).
      assert (c - k <= nh_cost h'); [|lia]. apply L. exists h'. repeat split; auto. apply in_flat_map. exists d'. now rewrite X2.
  - intros [(d & l & h & D1 & D2 & D3 & D4 & ->) L]. split.
    + exists h. split; [apply in_flat_map; exists d; now rewrite D2|]. split; [auto|lia].
    + intros c' (g & G1 & G2 & ->). apply in_flat_map in G1 as (d' & X1 & X2). destruct (ph d') as [l'|] eqn:P; [|destruct X2].
      specialize (L (nh_cost g + k)). assert (nh_cost h + k <= nh_cost g + k); [|lia]. apply L. exists d', l', g. auto 10. Qed.

Lemma addcs_nil hs : fold_left (fun acc x => nhl_addc x acc) hs [] = [] <-> hs = [].
Proof. split; [|intros ->; reflexivity]. destruct hs as [|h hs]; [reflexivity|]. intros E.
  destruct (@addcs_spec (h :: hs) [] (nhl_valid_nil nh_ltb)) as (_ & _ & S2).
  destruct (S2 h) as (h' & H' & _); [left; now left|]. cbv zeta in H'. rewrite E in H'. destruct H'. Qed.
Lemma shift_nil k l : shift k l = [] <-> l = [].
Proof. rewrite shift_as, addcs_nil. destruct l; split; cbn; congruence. Qed.
Lemma agen_nil ph ds : agen ph ds = [] <-> forall d l, In d ds -> ph d = Some l -> l = [].
Proof. unfold agen. rewrite addcs_nil. split.
  - intros E d l D P. destruct l as [|h l]; [reflexivity|]. exfalso.
    assert (In h (flat_map (fun d => match ph d with Some l => l | None => [] end) ds)) by (apply in_flat_map; exists d; rewrite P; split; [exact D|now left]).
    rewrite E in H. destruct H.
  - intros H. induction ds as [|d ds IH]; [reflexivity|]. cbn [flat_map]. rewrite IH by (intros d' l' D'; apply H; now right).
    destruct (ph d) as [l|] eqn:P; [|reflexivity]. rewrite (H d l (or_introl eq_refl) P). reflexivity. Qed.

(** ** Integral lists *)
Definition intl (l : nhl) : Prop := forall h, In h l -> nh_hyp h = false /\ exists c, nh_cost h = of_int c.

Lemma UNIT_pos : 0 < UNIT.
Proof. unfold UNIT. apply Z.pow_pos_nonneg; lia. Qed.
Lemma adj_of_int h c : nh_hyp h = false -> nh_cost h = of_int c -> adj_int h = c.
Proof. intros H1 H2. unfold adj_int. rewrite H1, H2, whole_part_eq. unfold of_int. apply Z.quot_mul. pose proof UNIT_pos. lia. Qed.

Lemma intl_eqb a : forall b, intl a -> intl b -> nhl_eqb a b = true -> a = b.
Proof. induction a as [|x a IH]; intros [|y b] Ha Hb; cbn [nhl_eqb]; try discriminate; [reflexivity|].
  intros H. apply andb_true_iff in H as [H1 H2]. f_equal.
  - apply andb_true_iff in H1 as [H1 H3]. apply Z.eqb_eq in H1. apply eqb_eq in H3.
    destruct (Ha x (or_introl eq_refl)) as [X1 [c X2]]. destruct (Hb y (or_introl eq_refl)) as [Y1 [c' Y2]].
    rewrite (@adj_of_int x c X1 X2), (@adj_of_int y c' Y1 Y2) in H1. subst c'.
    destruct x as [xu xc xh], y as [yu yc yh]; cbn [nh_uri nh_cost nh_hyp] in *. congruence.
  - apply IH; [intros h H; apply Ha; now right|intros h H; apply Hb; now right|exact H2]. Qed.

Lemma route_intl t d : integral t -> intl (route d t).
Proof. intros H h. unfold route, find_rte. destruct (get d t) as [l|] eqn:G; [|intros []]. intros Hin.
  apply get_In in G. eapply H; eauto. Qed.

(** ** Invariants kept by every operation *)
Lemma nbind_Ok r f s' o : nbind r f = Ok (s', o) -> exists s1 o1 o2, r = Ok (s1, o1) /\ f s1 = Ok (s', o2) /\ o = o1 ++ o2.
Proof. unfold nbind. destruct r as [[s1 o1]| |]; try discriminate. destruct (f s1) as [[s2 o2]| |] eqn:E; try discriminate.
  intros [= <- <-]. exists s1, o1, o2. auto. Qed.

Lemma neach_inv A (P : npt -> Prop) (f : A -> npt -> nres) l :
  forall s s' o, (forall x s s' o, In x l -> P s -> f x s = Ok (s', o) -> P s') -> P s -> neach f l s = Ok (s', o) -> P s'.
Proof. induction l as [|x l IH]; intros s s' o H Ps; cbn [neach].
  - now intros [= <- <-].
  - intros E. apply nbind_Ok in E as (s1 & o1 & o2 & E1 & E2 & _). eapply IH; [|eapply H; [now left|exact Ps|exact E1]|exact E2].
    intros; eapply H; eauto. now right. Qed.

Section Inv.
Variable self : name.
Variable P : npt -> Prop.
Variable addable : name -> name -> Prop.
Variable remable : name -> name -> Prop.
Hypothesis P_pinv : forall s, P s -> pinv s.
Hypothesis P_cost : forall c s, P s -> P (wn_cost c s).
Hypothesis P_add : forall n d fl s s' out, P s -> pinv s' -> added n d fl s s' out -> addable n d -> P s'.
Hypothesis P_rem : forall n d s s' out, P s -> pinv s' -> removed n d s s' out -> remable n d -> P s'.

Lemma add_entry_inv n d fl s s' o : P s -> addable n d -> add_entry n d fl s = Ok (s', o) -> P s'.
Proof. intros H A E. destruct (add_entry_eff n d fl (P_pinv H)) as (s1 & o1 & E1 & I1 & AD).
  rewrite E1 in E. injection E as <- <-. eapply P_add; eauto. Qed.
Lemma remove_entry_inv n d s s' o : P s -> remable n d -> remove_entry n d s = Ok (s', o) -> P s'.
Proof. intros H A E. destruct (remove_entry_eff n d (P_pinv H)) as (s1 & o1 & E1 & I1 & AD).
  rewrite E1 in E. injection E as <- <-. eapply P_rem; eauto. Qed.

Lemma notify_inv k l adds rems s s' o : P s ->
  (k = KInstalled -> addable (l_origin l) (l_origin l)) ->
  (forall p, In p (keys (match k with KInstalled => body_names (l_body l) | KUpdated => adds | KRemoved => [] end)) -> addable p (l_origin l)) ->
  (k = KRemoved -> remable (l_origin l) (l_origin l)) ->
  (forall p, In p (keys (match k with KRemoved => body_names (l_body l) | KUpdated => rems | KInstalled => [] end)) -> remable p (l_origin l)) ->
  from_lsdb self k l adds rems s = Ok (s', o) -> P s'.
Proof. intros H A1 A2 R1 R2. unfold from_lsdb. eqb_case (l_origin l) self; [now intros [= <- <-]|].
  assert (Ap : forall L : npl, (forall p, In p (keys L) -> addable p (l_origin l)) -> forall s s' o, P s ->
    neach (add_prefix self (l_origin l)) L s = Ok (s', o) -> P s').
  { intros L HL s0 s0' o0 H0. apply neach_inv; [|exact H0]. intros x s1 s2 o1 Hx H1. unfold add_prefix.
    eqb_case (fst x) self; [now intros [= <- <-]|]. apply add_entry_inv; [now apply P_cost|]. apply HL. now apply in_map. }
  assert (Rp : forall L : list name, (forall p, In p L -> remable p (l_origin l)) -> forall s s' o, P s ->
    neach (rem_prefix self (l_origin l)) L s = Ok (s', o) -> P s').
  { intros L HL s0 s0' o0 H0. apply neach_inv; [|exact H0]. intros x s1 s2 o1 Hx H1. unfold rem_prefix.
    eqb_case x self; [now intros [= <- <-]|]. intros E'. apply nbind_Ok in E' as (s3 & o3 & o4 & E1 & E2 & _).
    unfold erase_cost in E1. destruct (get (l_origin l, x) (n_cost s1)); [|discriminate]. injection E1 as <- <-.
    eapply remove_entry_inv; [|apply HL; exact Hx|exact E2]. now apply P_cost. }
  destruct k.
  - intros E'. apply nbind_Ok in E' as (s3 & o3 & o4 & E1 & E2 & _). eapply Ap; [exact A2| |exact E2].
    eapply add_entry_inv; [exact H| |exact E1]. now apply A1.
  - destruct (l_type l); try (now intros [= <- <-]).
    intros E'. apply nbind_Ok in E' as (s3 & o3 & o4 & E1 & E2 & _). eapply Rp; [exact R2| |exact E2]. eapply Ap; [exact A2|exact H|exact E1].
  - intros E'. apply nbind_Ok in E' as (s3 & o3 & o4 & E1 & E2 & _). eapply Rp; [exact R2| |exact E2].
    eapply remove_entry_inv; [exact H| |exact E1]. now apply R1. Qed.

Lemma routes_inv rt pord nord s s' o : P (wn_rt rt s) ->
  (forall d s s' out, P s -> n_rt s = rt -> pinv s' -> rerouted rt d s s' out -> P s') ->
  new_routes rt pord nord s = Ok (s', o) -> P s'.
Proof. intros H Hr. unfold new_routes.
  intros E. cut (P s' /\ n_rt s' = rt); [tauto|]. revert E. apply neach_inv with (P := fun s => P s /\ n_rt s = rt); [|auto].
  intros d s1 s2 o1 _ [H1 R1] E. destruct (get d (n_pool s1)) as [ob|] eqn:G; [|unfold reroute in E; rewrite G in E; discriminate].
  destruct (@reroute_eff rt nord d s1 ob (P_pinv H1) G) as (s3 & o3 & E3 & I3 & R). rewrite E3 in E. injection E as <- <-.
  split; [eapply Hr; eauto|]. rewrite (rr_rt R). exact R1. Qed.
End Inv.

(** ** Shapes of the pooled routes *)
Definition shaped (Q : nhl -> Prop) (s : npt) : Prop :=
  pinv s /\ (forall d l, poolh s d = Some l -> Q l) /\ (forall d, Q (route d (n_rt s))).

Lemma pinv_rt rt s : pinv s -> pinv (wn_rt rt s).
Proof. intros []; constructor; assumption. Qed.

Lemma shaped_run self (Q : nhl -> Prop) evs : Q [] -> forall s s' o,
  (forall rt po no d, In (NvRoutes rt po no) evs -> Q (route d rt)) -> shaped Q s ->
  neach (nstep self) evs s = Ok (s', o) -> shaped Q s'.
Proof. intros Q0 s s' o HQ. apply neach_inv. intros e s1 s2 o1 Hin H E. destruct e as [k l ad rm|rt po no]; cbn [nstep] in E.
  - apply (@notify_inv self (shaped Q) (fun _ _ => True) (fun _ _ => True)) in E; auto.
    + intros s3 [? _]. assumption.
    + intros c s3 (X & Y & Z'). split; [now apply pinv_wn_cost|]. split; [exact Y|exact Z'].
    + intros n d fl s3 s4 out (X & Y & Z') I' A _. split; [exact I'|]. split.
      * intros d' l'. rewrite (ad_pool A). eqb_case d' d; [|apply Y]. intros [= <-]. destruct (poolh s3 d) eqn:Pd; [eapply Y; exact Pd|apply Z'].
      * intros d'. rewrite (ad_rt A). apply Z'.
    + intros n d s3 s4 out (X & Y & Z') I' R _. split; [exact I'|]. split.
      * intros d' l' P'. destruct (eq_dec d' d) as [->|Hne]; [|rewrite (rm_pool R) in P' by exact Hne; eapply Y; exact P'].
        destruct (rm_pool_d R) as [F|F]; [rewrite F in P'; eapply Y; exact P'|congruence].
      * intros d'. rewrite (rm_rt R). apply Z'.
  - destruct H as (X & Y & Z'). apply (@routes_inv (shaped Q)) in E; auto.
    + intros s3 [? _]. assumption.
    + split; [now apply pinv_rt|]. split; [exact Y|]. intros d. cbn [n_rt wn_rt]. eapply HQ; exact Hin.
    + intros d s3 s4 out (X3 & Y3 & Z3) Rt I' R. split; [exact I'|]. split.
      * intros d' l' P'. destruct (eq_dec d' d) as [->|Hne]; [|rewrite (rr_pool R) in P' by exact Hne; eapply Y3; exact P'].
        destruct (rr_pool_d R) as [F|(l0 & F1 & F2 & _)]; [|rewrite F2 in P'; injection P' as <-; eapply Y3; exact F1].
        rewrite F in P'. injection P' as <-. rewrite <- Rt. apply Z3.
      * intros d'. rewrite (rr_rt R). apply Z3. Qed.

Lemma shaped_exec self (Q : nhl -> Prop) evs s o : Q [] ->
  (forall rt po no d, In (NvRoutes rt po no) evs -> Q (route d rt)) -> nexec self evs = Ok (s, o) -> shaped Q s.
Proof. intros Q0 HQ. apply shaped_run; auto. split; [exact pinv_init|]. split; [discriminate|]. intros d. exact Q0. Qed.

(** ** A reference stays until it is removed *)
Lemma stays self r evs : forall s s' o, pinv s -> In r (dests s r) ->
  (forall k l ad rm, In (NvNotify k l ad rm) evs -> l_origin l = r -> k <> KRemoved /\ (k = KUpdated -> ~ In r (keys rm))) ->
  neach (nstep self) evs s = Ok (s', o) -> In r (dests s' r).
Proof. intros s s' o I H Hno E. cut (pinv s' /\ In r (dests s' r)); [tauto|]. revert E.
  apply (@neach_inv _ (fun s => pinv s /\ In r (dests s r))); [|auto]. intros e s1 s2 o1 Hin [I1 H1] E. destruct e as [k l ad rm|rt po no]; cbn [nstep] in E.
  - specialize (Hno k l ad rm Hin).
    apply (@notify_inv self (fun s => pinv s /\ In r (dests s r)) (fun _ _ => True) (fun n d => ~ (r = n /\ r = d))) in E; auto.
    + intros s3 [? _]. assumption.
    + intros c s3 [X Y]. split; [now apply pinv_wn_cost|]. exact Y.
    + intros n d fl s3 s4 out [X Y] I' A _. split; [exact I'|]. apply (added_dests A). now left.
    + intros n d s3 s4 out [X Y] I' R Hne. split; [exact I'|]. apply (removed_dests X R). auto.
    + intros -> [X _]. destruct (Hno (eq_sym X)) as [C _]. congruence.
    + intros p Hp [X1 X2]. destruct (Hno (eq_sym X2)) as [C1 C2]. subst p. destruct k; [destruct Hp|exact (C2 eq_refl Hp)|congruence].
  - apply (@routes_inv (fun s => pinv s /\ In r (dests s r))) in E; auto.
    + intros s3 [? _]. assumption.
    + split; [now apply pinv_rt|exact H1].
    + intros d s3 s4 out [X Y] _ I' R. split; [exact I'|]. now rewrite (rerouted_dests r R). Qed.
