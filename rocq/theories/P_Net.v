(** C54, C55: networks of routers. *)
From Verif Require Import Base M_Nexthop M_Tlv M_Adj M_Lsa M_Lsdb M_Codec M_Sync S_Lsdb S_Codec M_Net S_Net
  L_Lsdb L_Lsdb2 L_Lsdb3 L_Lsdb4 L_Lsdb5 L_Lsdb6 L_Lsdb7 L_Lsdb8 L_Lsdb9 L_Codec P_Codec P_Lsdb P_Lsdb2 P_Sync L_Net L_Net2.
Open Scope Z_scope.
Set Implicit Arguments.

(** ** Contents *)

Lemma similar_refl b : (forall a, b = BAdj a -> NoDup (map a_name a)) -> similar b b.
Proof.
  destruct b as [a|r a|p]; cbn [similar]; intros H.
  - split; [reflexivity|]. split; [now apply H|]. intros x Hx. exists x. unfold near_cost. auto.
  - split; [now left|]. clear. induction a; constructor; [now left|assumption].
  - reflexivity.
Qed.
Lemma similar_adv b : (forall a, b = BAdj a -> NoDup (map a_name a)) -> similar (advertised_body b) b.
Proof.
  destruct b as [a|r a|p]; intros H; [|now apply similar_refl|now apply similar_refl]. cbn [advertised_body similar].
  rewrite map_length, map_map. cbn [a_name advertised_adj]. split; [reflexivity|]. split; [now apply H|].
  intros x Hx. apply in_map_iff in Hx as (y & <- & Hy). exists y. unfold near_cost. cbn. auto.
Qed.
Lemma similar_nodup x y a : similar x y -> x = BAdj a -> NoDup (map a_name a).
Proof. intros H ->. destruct y; try contradiction. apply H. Qed.
Lemma encodable_nodup ts tp up l a : encodable ts tp up l -> l_body l = BAdj a -> NoDup (map a_name a).
Proof. intros (_ & _ & _ & H) E. rewrite E in H. apply H. Qed.
Lemma angles_near x y : angles_eqb x y = true -> Forall2 near x y.
Proof.
  revert y. induction x as [|a x IH]; intros [|b y] H; cbn in H; try discriminate; [constructor|]. apply andb_true_iff in H as [H1 H2].
  constructor; [|now apply IH]. right. unfold diff_eps in H1. now apply Z.ltb_lt in H1.
Qed.
Lemma similar_merged o l : l_type o = l_type l -> (forall a, l_body o = BAdj a -> NoDup (map a_name a)) -> (forall a, l_body l = BAdj a -> NoDup (map a_name a)) ->
  similar (l_body (merged o (advertised l))) (l_body l).
Proof.
  unfold l_type, merged. cbn [l_body advertised]. intros T No Nl.
  destruct (l_body o) as [ao|ro ao|po], (l_body l) as [al|rl al|pl]; try discriminate; cbn [advertised_body update_body].
  - specialize (No _ eq_refl). specialize (Nl _ eq_refl). destruct (adl_eqb _ _) eqn:E; cbn [fst snd].
    + unfold adl_eqb in E. apply andb_true_iff in E as [E1 E2]. apply Nat.eqb_eq in E1. rewrite map_length in E1. split; [exact E1|]. split; [exact No|].
      intros x Hx. rewrite forallb_forall in E2. apply E2 in Hx. apply existsb_exists in Hx as (y & Hy & E). apply in_map_iff in Hy as (z & <- & Hz).
      exists z. split; [exact Hz|]. unfold adj_eqb in E. apply andb_true_iff in E as [E E4]. apply andb_true_iff in E as [E3 E5].
      apply eqb_eq in E3. apply eqb_eq in E5. split; [exact E3|]. split; [exact E5|]. right. unfold diff_eps in E4. apply Z.ltb_lt in E4. rewrite link_cost_eq in E4. exact E4.
    + rewrite adl_of_list_id by (rewrite map_map; cbn [a_name advertised_adj]; exact Nl). apply (@similar_adv (BAdj al)). intros a [= <-]. exact Nl.
  - destruct (_ && _) eqn:E; cbn [fst snd].
    + apply andb_true_iff in E as [E1 E2]. split; [right; unfold diff_eps in E1; now apply Z.ltb_lt in E1|now apply angles_near].
    + apply (@similar_refl (BCoord rl al)). discriminate.
  - pose proof (update_name_keys po pl) as H. destruct (update_name po pl) as [[[u r] ad] rm]. cbn [fst snd]. exact H.
Qed.

Lemma near_int z z' : near_cost (of_int z) (of_int z') -> of_int z = of_int z'.
Proof.
  unfold near_cost, of_int. intros [H|H]; [exact H|].
  assert (E : - (- (z' * UNIT) / UNIT) = z'). { rewrite <- Z.mul_opp_l, Z.div_mul by (unfold UNIT; apply Z.pow_nonzero; lia). lia. }
  rewrite E in H. rewrite <- Z.mul_sub_distr_r, Z.abs_mul in H.
  destruct (Z.eq_dec z z') as [->|N]; [reflexivity|exfalso].
  assert (EPS < UNIT) by (vm_compute; reflexivity). assert (0 < UNIT) by (vm_compute; reflexivity). assert (1 <= Z.abs (z - z')) by lia.
  rewrite (Z.abs_eq UNIT) in H by lia. nia.
Qed.

Lemma announced_In t q o : In q (S_Lsdb.announced t o) <-> In (OPublish t q) o.
Proof.
  induction o as [|x o IH]; [reflexivity|]. cbn [In]. rewrite <- IH. destruct x as [| |t' q'| | | | | | | | |]; cbn [S_Lsdb.announced];
    try (split; [now right|intros [H|H]; [discriminate|exact H]]).
  destruct (eq_dec t t') as [<-|N].
  - rewrite eqb_refl. cbn [In]. split; (intros [H|H]; [left; congruence|now right]).
  - rewrite (proj2 (eqb_neq _ _) N). split; [now right|]. intros [H|H]; [congruence|exact H].
Qed.

Lemma own_links_offer c s t q e b : body_type b = t -> (t = TAdj -> b = BAdj (own_adl (e_adl e))) -> forall x,
  In x (links (offer (find_lsa (l_key (own c t q (e_sys e) b)) s) (own c t q (e_sys e) b))) ->
  (exists o, find_lsa (l_key (own c t q (e_sys e) b)) s = Some o /\ In x (links o)) \/ In x (links_of (e_adl e)).
Proof.
  intros Eb Ba x Hx. assert (Own : forall a, b = BAdj a -> In x (links_of (adl_of_list a)) \/ In x (links_of a) -> In x (links_of (e_adl e))).
  { intros a E X. assert (t = TAdj) by (rewrite <- Eb, E; reflexivity). rewrite (Ba H) in E. injection E as <-.
    assert (Y : forall y, In y (adl_of_list (own_adl (e_adl e))) \/ In y (own_adl (e_adl e)) -> In y (e_adl e)).
    { intros y Y. assert (In y (own_adl (e_adl e))) as Z by (destruct Y as [Y|Y]; [now apply (adl_of_list_spec _)|exact Y]).
      unfold own_adl in Z. apply (adl_of_list_spec _) in Z. now apply filter_In in Z. }
    unfold links_of in *. destruct X as [X|X]; apply in_map_iff in X as (y & <- & X); apply (in_map (fun x => (a_name x, a_uri x, a_cost x))); apply Y; auto. }
  unfold offer in Hx. destruct (find_lsa _ s) as [o|] eqn:F.
  - destruct (_ <? _)%N; [|left; eauto]. unfold links in Hx. cbn [merged l_body own] in Hx.
    destruct (l_body o) as [ao|ro ao|po] eqn:Eo, b as [al|rl al|pl]; cbn [update_body] in Hx;
      try (destruct (_ && _); destruct Hx); try (destruct (update_name _ _) as [[[u r] ad] rm]; destruct Hx); try destruct Hx.
    + destruct (adl_eqb _ _); cbn [fst snd] in Hx.
      * left. exists o. split; [reflexivity|]. unfold links. now rewrite Eo.
      * right. apply (Own al eq_refl). now left.
    + left. exists o. split; [reflexivity|]. unfold links. now rewrite Eo.
    + left. exists o. split; [reflexivity|]. unfold links. now rewrite Eo.
  - right. unfold links in Hx. cbn [l_body own] in Hx. destruct b as [al|rl al|pl]; [|destruct Hx|destruct Hx]. apply (Own al eq_refl). now right.
Qed.

Section Net.
Variables (time_str : Z -> string) (time_parse : string -> option Z) (uri_parse : string -> option uri).
Variable w : net.
Notation allowed := (allowed time_str time_parse uri_parse w).
Notation possible := (possible time_str time_parse uri_parse w).
Notation sendable := (sendable time_str time_parse uri_parse w).
Hypothesis W : one_net w.

Lemma init_own c f now e k l : find_lsa k (fst (exec c f now e [])) = Some l -> l_origin l = c_self c.
Proof using.
  intros H.
  pose proof (@exec_eff_ind c f now e (fun evs s _ => evs = [] -> forall k l, find_lsa k s = Some l -> l_origin l = c_self c)) as Ind.
  eapply Ind; [discriminate| | |reflexivity|exact H]; clear.
  - intros s o s' o' I H E _ Hn k l Hl. specialize (H Hn). destruct E as [E1 E2|? ? ? ? ? ? ? ? Ex|t q0 b Q Eb _ _ _ Es Eo|l' tid Ex|l' tid Ex|l' tid Ex]; try discriminate.
    + rewrite E1 in Hl. now apply (H k).
    + rewrite Eo in Hl. destruct (eqb k _); [|now apply (H k)]. injection Hl as <-. unfold offer. destruct (find_lsa _ s) as [o1|] eqn:E1; [|reflexivity].
      destruct (_ <? _)%N; [|now apply (H _ _ E1)]. cbn [merged l_origin]. now apply (H _ _ E1).
  - intros evs s o x s' o' _ _ _ _ _ H. now destruct evs.
Qed.

(** What holds of every LSA stored for another router: it holds of what a retrieval brings, and is kept when that is merged into a stored one. *)
Lemma foreign_ind (Q : sched -> lsa -> Prop) :
  (forall s x l, Q s l -> Q (s ++ [x]) l) ->
  (forall s j m l', possible s -> sendable s -> produced w s j m l' -> encodable time_str time_parse uri_parse l' -> Q s (advertised l')) ->
  (forall s j m l' o, possible s -> sendable s -> produced w s j m l' -> encodable time_str time_parse uri_parse l' -> Q s o ->
     l_key o = l_key l' -> (l_seq o < l_seq l')%N -> Q s (merged o (advertised l'))) ->
  forall s, possible s -> sendable s -> forall i n k l, nth_error w i = Some n -> find_lsa k (nstate n i s) = Some l ->
  l_origin l <> c_self (n_conf n) -> Q s l.
Proof using W.
  intros Mono New Merge s P. induction P as [|s x P IH A]; intros Sd i n k l En Hl No.
  { exfalso. apply No. unfold nstate, nrun, hist in Hl. cbn [filter map] in Hl. exact (init_own _ _ _ _ _ Hl). }
  pose proof (sendable_app _ _ Sd) as Sd1. specialize (IH Sd1).
  assert (Old : forall k l, find_lsa k (nstate n i s) = Some l -> l_origin l <> c_self (n_conf n) -> Q (s ++ [x]) l).
  { intros k0 l0 H0 N0. apply Mono. exact (IH _ _ _ _ En H0 N0). }
  destruct (Nat.eq_dec (fst x) i) as [Ei|Ni].
  2: { destruct (nrun_other n s x Ni) as [E _]. rewrite E in Hl. now apply (Old k). }
  destruct x as [i' y]. cbn [fst] in Ei. subst i'. destruct (nrun_step n i s y) as [E _]. rewrite E in Hl. clear E.
  pose proof (nstate_inv n i s) as I. pose proof (step_eff (n_conf n) y I) as Ef.
  remember (filter rel (snd (step (n_conf n) (nstate n i s) y))) as o' eqn:Eo'. clear Eo'.
  set (s' := fst (step (n_conf n) (nstate n i s) y)) in *. clearbody s'.
  destruct Ef as [E1 E2|fid ff cq q origin ct t' d Ex Ef _ _ _ _ _ Et _ _ Eo Es|t' q0 bb QQ Eb _ _ _ Es Eo|d tid Ex El Eo Ef Es|d tid Ex El Eo Ef Es|d tid Ex El Ea Ef Es].
  - rewrite E1 in Hl. now apply (Old k).
  - rewrite Eo in Hl. destruct (eqb k (l_key d)) eqn:Ek; [|now apply (Old k)].
    destruct y as [e v]. cbn [snd] in Ex. subst v.
    destruct (fetched_spec W P Sd1 En A) as (j & m & l' & f & cq' & Pr & -> & Ns & _ & _ & _ & S1).
    assert (Kd : l_key (advertised l') = l_key l') by (unfold l_key, l_type, advertised; cbn; now destruct (l_body l')).
    injection Hl as <-. apply eqb_eq in Ek. unfold offer in No |- *. destruct (find_lsa (l_key (advertised l')) (nstate n i s)) as [o1|] eqn:E1.
    + destruct (N.ltb_spec (l_seq o1) (l_seq (advertised l'))) as [Lt|_].
      * pose proof (find_key I E1) as K1. cbn [merged l_origin] in No. apply Mono.
        apply (Merge _ j m); try assumption; [|congruence]. exact (IH _ _ _ _ En E1 No).
      * now apply (Old _ _ E1).
    + apply Mono. now apply (New _ j m).
  - assert (Ko : l_key (own (n_conf n) t' (q0 + 1) (e_sys (fst y)) bb) = (c_self (n_conf n), t')) by (unfold l_key, l_type, own; cbn; now rewrite Eb).
    rewrite Eo, Ko in Hl. destruct (eqb k (c_self (n_conf n), t')) eqn:Ek; [|now apply (Old k)]. exfalso. apply No. injection Hl as <-.
    unfold offer. destruct (find_lsa (c_self (n_conf n), t') (nstate n i s)) as [o1|] eqn:E1; [|reflexivity].
    pose proof (find_key I E1) as K1. unfold l_key in K1. destruct (_ <? _)%N; cbn [merged l_origin]; congruence.
  - rewrite Ef in Hl. destruct (eqb k (l_key d)); [|now apply (Old k)]. exfalso. apply No. injection Hl as <-. exact Eo.
  - rewrite Ef in Hl. destruct (eqb k (l_key d)); [discriminate|now apply (Old k)].
  - rewrite Ef in Hl. destruct (eqb k _); [discriminate|now apply (Old k)].
Qed.

Lemma authentic s : possible s -> sendable s -> forall i n k l, nth_error w i = Some n -> find_lsa k (nstate n i s) = Some l ->
  l_origin l <> c_self (n_conf n) -> exists j m l', produced w s j m l' /\ copy l' l.
Proof using W.
  apply (foreign_ind (fun s l => exists j m l', produced w s j m l' /\ copy l' l)).
  - intros s0 x l (j & m & l' & Pr & Cp). exists j, m, l'. split; [now apply produced_app|exact Cp].
  - intros s0 j m l' _ _ Pr S1. exists j, m, l'. split; [exact Pr|]. repeat (split; [reflexivity|]). apply similar_adv. intros a Ea. exact (encodable_nodup S1 Ea).
  - intros s0 j m l' o _ _ Pr S1 (j1 & m1 & l1 & _ & _ & _ & _ & Si) K _. assert (Ko : l_origin o = l_origin l' /\ l_type o = l_type l') by (unfold l_key in K; split; congruence).
    destruct Ko as [Ko Kt]. exists j, m, l'. split; [exact Pr|]. split; [exact Ko|]. split; [reflexivity|]. split; [reflexivity|].
    apply similar_merged; [exact Kt| |intros a Ea; exact (encodable_nodup S1 Ea)]. intros a Ea. exact (similar_nodup _ Si Ea).
Qed.

(** The links in a router's own LSAs were configured. *)
Lemma own_links c f now e0 evs : no_forged_own c evs -> forall k l x, find_lsa k (fst (exec c f now e0 evs)) = Some l -> l_origin l = c_self c ->
  In x (links l) -> exists e, (e = e0 \/ exists v, In (e, v) evs) /\ In x (links_of (e_adl e)).
Proof using.
  pose proof (@exec_eff_ind c f now e0 (fun evs s _ => no_forged_own c evs -> forall k l x, find_lsa k s = Some l -> l_origin l = c_self c ->
    In x (links l) -> exists e, (e = e0 \/ exists v, In (e, v) evs) /\ In x (links_of (e_adl e)))) as Ind. apply Ind; clear Ind evs.
  - intros _ k l x H. discriminate.
  - intros s o s' o' I H E _ Hn k l x Hl Eo Hx. specialize (H Hn). destruct E as [E1 E2|? ? ? ? ? ? ? ? Ex|t q0 b Q Eb _ Ba _ Es Eo'|l' tid Ex|l' tid Ex|l' tid Ex]; try discriminate.
    + rewrite E1 in Hl. now apply (H k l).
    + rewrite Eo' in Hl. destruct (eqb k _); [|now apply (H k l)]. injection Hl as <-. destruct (@own_links_offer c s t (q0 + 1) e0 b Eb Ba x Hx) as [(o1 & F1 & X1)|X1].
      * apply (H _ o1 x F1); [|exact X1]. pose proof (find_key I F1) as K. unfold l_key, own in K. cbn [l_origin] in K. congruence.
      * exists e0. split; [now left|exact X1].
  - intros evs s o y s' o' _ _ I H E Hn k l x Hl Eo Hx.
    assert (Hn1 : no_forged_own c evs) by (intros e fid l0 Hi; apply (Hn e fid); apply in_or_app; now left).
    assert (Lift : (exists e, (e = e0 \/ exists v, In (e, v) evs) /\ In x (links_of (e_adl e))) -> exists e, (e = e0 \/ exists v, In (e, v) (evs ++ [y])) /\ In x (links_of (e_adl e))).
    { intros (e & He & Hi). exists e. split; [|exact Hi]. destruct He as [He|(v & He)]; [now left|]. right. exists v. apply in_or_app. now left. }
    specialize (H Hn1).
    destruct E as [E1 E2|fid ff cq q origin ct t' d Ex Ef _ _ _ _ _ Et _ _ Eo' Es|t q0 b Q Eb _ Ba _ Es Eo'|d tid Ex El Eo' Ef Es|d tid Ex El Eo' Ef Es|d tid Ex El Ea Ef Es].
    + rewrite E1 in Hl. apply Lift. now apply (H k l).
    + rewrite Eo' in Hl. destruct (eqb k _) eqn:Ek; [|apply Lift; now apply (H k l)]. exfalso. injection Hl as <-. destruct y as [e v]. cbn [snd] in Ex. subst v.
      assert (Nd : l_origin d <> c_self c) by (apply (Hn e fid); apply in_or_app; right; now left).
      unfold offer in Eo. destruct (find_lsa (l_key d) s) as [o1|] eqn:F1; [|contradiction]. pose proof (find_key I F1) as K. unfold l_key in K. destruct (_ <? _)%N; cbn [merged l_origin] in Eo; congruence.
    + rewrite Eo' in Hl. destruct (eqb k _); [|apply Lift; now apply (H k l)]. injection Hl as <-. destruct (@own_links_offer c s t (q0 + 1) (fst y) b Eb Ba x Hx) as [(o1 & F1 & X1)|X1].
      * apply Lift. apply (H _ o1 x F1); [|exact X1]. pose proof (find_key I F1) as K. unfold l_key, own in K. cbn [l_origin] in K. congruence.
      * exists (fst y). split; [|exact X1]. right. exists (snd y). apply in_or_app. right. left. now destruct y.
    + rewrite Ef in Hl. destruct (eqb k _); [|apply Lift; now apply (H k l)]. injection Hl as <-. apply Lift. exact (H _ d x El Eo' Hx).
    + rewrite Ef in Hl. destruct (eqb k _); [discriminate|apply Lift; now apply (H k l)].
    + rewrite Ef in Hl. destruct (eqb k _); [discriminate|apply Lift; now apply (H k l)].
Qed.
Lemma no_forged s i n : possible s -> sendable s -> nth_error w i = Some n -> no_forged_own (n_conf n) (hist i s).
Proof using W.
  intros P Sd En e fid l H. destruct (possible_in _ _ _ P H) as (s1 & s2 & -> & A). pose proof (possible_app _ _ P) as P1. pose proof (sendable_app _ _ Sd) as S1.
  destruct (fetched_spec W P1 S1 En A) as (j' & m' & l' & f & cq & (Em & O & _) & -> & Ne & _). cbn [advertised l_origin]. congruence.
Qed.
Lemma hist_in i s e v : In (e, v) (hist i s) -> In (i, (e, v)) s.
Proof using. unfold hist. intros H. apply in_map_iff in H as ((i' & y) & E & H). apply filter_In in H as [H X]. cbn [fst snd] in *. apply Nat.eqb_eq in X. now subst. Qed.
Lemma produced_links s j m l x : possible s -> sendable s -> produced w s j m l -> In x (links l) ->
  exists e, (e = n_env m \/ exists v, In (j, (e, v)) s) /\ In x (links_of (e_adl e)).
Proof using W.
  intros P Sd (Em & Eo & s1 & s2 & -> & H) Hx. pose proof (possible_app _ _ P) as P1. pose proof (sendable_app _ _ Sd) as S1.
  apply (holds_find l (nstate_inv m j s1)) in H. destruct (own_links (n_file m) (n_now m) (n_env m) (no_forged _ P1 S1 Em) _ x H Eo Hx) as (e & He & Hi).
  exists e. split; [|exact Hi]. destruct He as [He|(v & He)]; [now left|]. right. exists v. apply in_or_app. left. now apply hist_in.
Qed.

(** No link is invented: each stored one, with its face URI and cost, was in an LSA of the origin. *)
Lemma links_adv l : links (advertised l) = links l.
Proof using. unfold links, links_of, advertised. cbn [l_body]. destruct (l_body l); [|reflexivity|reflexivity]. cbn [advertised_body]. now rewrite map_map. Qed.

Lemma links_source s : possible s -> sendable s -> forall i n k l, nth_error w i = Some n -> find_lsa k (nstate n i s) = Some l ->
  l_origin l <> c_self (n_conf n) -> forall x, In x (links l) -> exists j m l', produced w s j m l' /\ l_origin l' = l_origin l /\ In x (links l').
Proof using W.
  apply (foreign_ind (fun s l => forall x, In x (links l) -> exists j m l', produced w s j m l' /\ l_origin l' = l_origin l /\ In x (links l'))).
  - intros s0 y l H x Hx. destruct (H x Hx) as (j & m & l' & Pr & R). exists j, m, l'. split; [now apply produced_app|exact R].
  - intros s0 j m l' _ _ Pr S1 x Hx. rewrite links_adv in Hx. exists j, m, l'. auto.
  - intros s0 j m l' o _ _ Pr S1 IH K _ x Hx. assert (Ko : l_origin o = l_origin l' /\ l_type o = l_type l') by (unfold l_key in K; split; congruence).
    destruct Ko as [Ko Kt]. cbn [merged l_origin].
    assert (D : In x (links o) \/ In x (links l')).
    { unfold links, links_of, l_type in *. cbn [merged l_body advertised] in Hx. destruct (l_body o) as [ao|ro ao|po], (l_body l') as [al|rl al|pl] eqn:El; try discriminate; cbn [advertised_body update_body] in Hx.
      - destruct (adl_eqb _ _); cbn [fst snd] in Hx; [now left|]. right. rewrite adl_of_list_id in Hx by (rewrite map_map; exact (encodable_nodup S1 El)).
        rewrite map_map in Hx. exact Hx.
      - destruct (_ && _); destruct Hx.
      - destruct (update_name po pl) as [[[u r] ad] rm]. destruct Hx. }
    destruct D as [D|D]; [now apply IH|]. exists j, m, l'. auto.
Qed.

(** ** C54 *)

(** Every LSA that a router stores for another router is a copy of an LSA that a process with that router
    name had in its own database, with the same number, expiration time and content. *)
Theorem C54_authentic_partial s i n l : possible s -> sendable s -> nth_error w i = Some n ->
  holds (nstate n i s) l -> l_origin l <> c_self (n_conf n) ->
  exists j m l', produced w s j m l' /\ copy l' l.
Proof using W.
  intros P Sd En H No. apply (holds_find l (nstate_inv n i s)) in H. exact (authentic P Sd _ _ En H No).
Qed.

(** With whole link costs, the stored links are exactly those of that LSA, costs included. *)
Theorem C54_links s i n l : possible s -> sendable s -> nth_error w i = Some n ->
  holds (nstate n i s) l -> l_origin l <> c_self (n_conf n) ->
  whole_costs w s ->
  exists j m l', produced w s j m l' /\ copy l' l /\ forall x, In x (links l) <-> In x (links l').
Proof using W.
  intros P Sd En H No Int'. apply (holds_find l (nstate_inv n i s)) in H.
  destruct (authentic P Sd _ _ En H No) as (j & m & l' & Pr & C). exists j, m, l'. split; [exact Pr|]. split; [exact C|].
  pose proof (links_source P Sd _ _ En H No) as Src. destruct C as (_ & _ & _ & C).
  assert (Int : forall j m l' x, produced w s j m l' -> In x (links l') -> exists z, snd x = of_int z).
  { intros j0 m0 l0 x Pr0 Hx. destruct (produced_links x P Sd Pr0 Hx) as (e & He & Hi). exact (Int' _ _ _ _ (proj1 Pr0) He Hi). }
  assert (Ix : forall x, In x (links l) -> exists z, snd x = of_int z).
  { intros x Hx. destruct (Src x Hx) as (j1 & m1 & l1 & P1 & _ & L1). eauto. }
  assert (Iy : forall x, In x (links l') -> exists z, snd x = of_int z) by (intros x; apply (Int j m); exact Pr).
  unfold links, links_of in *. destruct (l_body l) as [a| |], (l_body l') as [b| |]; cbn [similar] in C; try contradiction; try reflexivity.
  destruct C as (Len & Nd & C).
  assert (Inc : incl (map (fun x => (a_name x, a_uri x, a_cost x)) a) (map (fun x => (a_name x, a_uri x, a_cost x)) b)).
  { intros x Hx. destruct (Ix _ Hx) as [z Ez]. apply in_map_iff in Hx as (y & <- & Hy). cbn [snd] in Ez. destruct (C y Hy) as (y' & Hy' & -> & -> & Nc).
    apply in_map_iff. exists y'. split; [|exact Hy']. f_equal. destruct (Iy _ (in_map (fun x => (a_name x, a_uri x, a_cost x)) _ _ Hy')) as [z' Ez']. cbn [snd] in Ez'.
    symmetry. rewrite Ez, Ez' in *. exact (near_int _ _ Nc). }
  assert (Nda : NoDup (map (fun x => (a_name x, a_uri x, a_cost x)) a)).
  { apply (NoDup_map_inv (fun z => fst (fst z))). rewrite map_map. exact Nd. }
  intros x. split; [apply Inc|]. apply (NoDup_length_incl Nda); [rewrite !map_length, Len; lia|exact Inc].
Qed.

(** If the origin had a single life, the number is one it announced, and not above its current one. *)
Theorem C54_fresh_partial s i n l j m : possible s -> sendable s -> nth_error w i = Some n ->
  holds (nstate n i s) l -> only w j m -> l_origin l = c_self (n_conf m) ->
  (l_seq l <= seq_get (l_type l) (s_seqs (nstate m j s)))%N /\
  (publishes (c_hyp (n_conf m)) (l_type l) = true -> In (l_seq l) (S_Lsdb.announced (l_type l) (nouts m j s))).
Proof using W.
  intros P Sd En H Om Eo. pose proof (only_undisturbed W P Sd Om) as U.
  assert (X : exists l', produced w s j m l' /\ l_type l' = l_type l /\ l_seq l' = l_seq l).
  { destruct (eq_dec (l_origin l) (c_self (n_conf n))) as [E|No].
    - assert (i = j) by (apply (proj2 Om _ n En); congruence). subst i. assert (n = m) by (destruct Om; congruence). subst n.
      exists l. split; [|auto]. split; [apply Om|]. split; [exact Eo|]. exists s, []. now rewrite app_nil_r.
    - destruct (C54_authentic_partial _ _ P Sd En H No) as (j' & m' & l' & Pr & C1 & C2 & _ & C4). assert (Ej : j' = j).
      { apply (proj2 Om _ m'); [apply Pr|]. destruct Pr as (_ & Pr & _). congruence. }
      subst j'. assert (m' = m) by (destruct Om, Pr; congruence). subst m'. exists l'. split; [exact Pr|]. split; [|now symmetry].
      unfold l_type. destruct (l_body l), (l_body l'); cbn in C4; try contradiction; reflexivity. }
  destruct X as (l' & Pr & Tt & Tq). rewrite <- Tt, <- Tq. destruct Pr as (Em & Eo' & s1 & s2 & -> & Hh).
  assert (K : l_key l' = (c_self (n_conf m), l_type l')) by (unfold l_key; now rewrite Eo').
  assert (Wh : was_held (n_conf m) (n_file m) (n_now m) (n_env m) (hist j (s1 ++ s2)) l') by (exists (hist j s1), (hist j s2); rewrite hist_app; auto).
  split; [exact (proj1 (own_unique U Wh K))|]. intros Pb. rewrite hist_app in U. apply undisturbed_app in U.
  pose proof (own_num_exec (n_file m) (n_now m) (n_env m) U (l_type l')) as [N _]. apply (holds_find l' (nstate_inv m j s1)) in Hh. rewrite K in Hh.
  destruct (N _ Hh) as [_ Nm]. rewrite (proj2 (nrun_app m j s1 s2)), announced_app. apply in_or_app. left. now apply Nm.
Qed.

(** ** C55 *)

(** Two routers (one of them possibly the origin itself) that store an LSA of the same origin, type and number
    store the same content: both are copies of one LSA of the origin. *)
Theorem C55_agree_partial s i1 n1 l1 i2 n2 l2 j m : possible s -> sendable s ->
  nth_error w i1 = Some n1 -> nth_error w i2 = Some n2 -> holds (nstate n1 i1 s) l1 -> holds (nstate n2 i2 s) l2 ->
  l_key l1 = l_key l2 -> l_seq l1 = l_seq l2 -> only w j m -> l_origin l1 = c_self (n_conf m) ->
  exists l', produced w s j m l' /\ copy l' l1 /\ copy l' l2.
Proof using W.
  intros P Sd E1 E2 H1 H2 K Q Om Eo. pose proof (only_undisturbed W P Sd Om) as U.
  assert (X : forall i n l, nth_error w i = Some n -> holds (nstate n i s) l -> l_origin l = c_self (n_conf m) -> exists l', produced w s j m l' /\ l_key l' = l_key l /\ copy l' l).
  { intros i n l En H Eo'. destruct (eq_dec (l_origin l) (c_self (n_conf n))) as [E|No].
    - assert (i = j) by (apply (proj2 Om _ n En); congruence). subst i. assert (n = m) by (destruct Om; congruence). subst n.
      exists l. split; [|split; [reflexivity|]].
      + split; [apply Om|]. split; [exact Eo'|]. exists s, []. now rewrite app_nil_r.
      + repeat (split; [reflexivity|]). apply similar_refl. intros a Ea. pose proof (own_ok_exec (n_file m) (n_now m) (n_env m) (proj1 U)) as Ok.
        apply (holds_find l (nstate_inv m j s)) in H. unfold l_key in H. rewrite Eo' in H. destruct (Ok _ _ H) as [_ Ok']. now rewrite Ea in Ok'.
    - destruct (C54_authentic_partial _ _ P Sd En H No) as (j' & m' & l' & Pr & C). assert (Ej : j' = j).
      { apply (proj2 Om _ m'); [apply Pr|]. destruct Pr as (_ & Pr & _), C as (C & _). congruence. }
      subst j'. assert (m' = m) by (destruct Om, Pr; congruence). subst m'. exists l'. split; [exact Pr|]. split; [|exact C].
      destruct C as (C1 & _ & _ & C4). unfold l_key, l_type. rewrite C1. f_equal. destruct (l_body l), (l_body l'); cbn in C4; try contradiction; reflexivity. }
  destruct (X _ _ _ E1 H1 Eo) as (a & Pa & Ka & Ca). assert (Eo2 : l_origin l2 = c_self (n_conf m)) by (unfold l_key in K; congruence).
  destruct (X _ _ _ E2 H2 Eo2) as (b & Pb & Kb & Cb).
  assert (Eab : a = b).
  { assert (Kt : forall l', produced w s j m l' -> l_key l' = (c_self (n_conf m), l_type l')) by (intros l' (_ & Y & _); unfold l_key; now rewrite Y).
    assert (Tab : l_type a = l_type b) by (assert (l_key a = l_key b) by congruence; unfold l_key in *; congruence).
    apply (@held_unique (n_conf m) (n_file m) (n_now m) (n_env m) (hist j s) a b (l_type a) U (produced_held Pa) (produced_held Pb) (Kt _ Pa)).
    - rewrite Tab. now apply Kt.
    - destruct Ca as (_ & Ca & _), Cb as (_ & Cb & _). congruence. }
  subst b. eauto.
Qed.

(** A router that stores the number of the origin's current LSA stores its content. *)
Theorem C55_latest s i n l1 j m l : possible s -> sendable s -> nth_error w i = Some n -> only w j m ->
  holds (nstate m j s) l -> l_origin l = c_self (n_conf m) ->
  holds (nstate n i s) l1 -> l_key l1 = l_key l -> l_seq l1 = l_seq l -> copy l l1.
Proof using W.
  intros P Sd En Om Hl Eo H1 K Q. pose proof (only_undisturbed W P Sd Om) as U.
  assert (Eo1 : l_origin l1 = c_self (n_conf m)) by (unfold l_key in K; congruence).
  destruct (C55_agree_partial _ _ P Sd En (proj1 Om) H1 Hl K Q Om Eo1) as (l' & Pr & C1 & C2).
  assert (El : l' = l); [|now rewrite <- El].
  assert (Pl : produced w s j m l) by (split; [apply Om|]; split; [exact Eo|]; exists s, []; now rewrite app_nil_r).
  destruct C2 as (C21 & C22 & _ & C24). assert (Tt : l_type l' = l_type l) by (unfold l_type; destruct (l_body l), (l_body l'); cbn in C24; try contradiction; reflexivity).
  apply (@held_unique (n_conf m) (n_file m) (n_now m) (n_env m) (hist j s) l' l (l_type l) U (produced_held Pr) (produced_held Pl)).
  - unfold l_key. rewrite Tt. destruct Pr as (_ & -> & _). reflexivity.
  - unfold l_key. now rewrite Eo.
  - now symmetry.
Qed.

(** Every router stores every router's current number of every LSA. *)
Definition up_to_date (s : sched) : Prop := forall i n j m l, nth_error w i = Some n -> nth_error w j = Some m ->
  holds (nstate m j s) l -> l_origin l = c_self (n_conf m) ->
  exists l1, holds (nstate n i s) l1 /\ l_key l1 = l_key l /\ l_seq l1 = l_seq l.

Lemma holds_unique n i s l l' : holds (nstate n i s) l -> holds (nstate n i s) l' -> l_key l = l_key l' -> l = l'.
Proof using.
  intros H H' K. apply (holds_find l (nstate_inv n i s)) in H. apply (holds_find l' (nstate_inv n i s)) in H'. congruence.
Qed.

(** Then what any two routers store for a third one that runs is the same. *)
Theorem C55_converged_partial s i1 n1 i2 n2 j m l1 l : possible s -> sendable s -> up_to_date s ->
  nth_error w i1 = Some n1 -> nth_error w i2 = Some n2 -> only w j m ->
  holds (nstate m j s) l -> l_origin l = c_self (n_conf m) -> holds (nstate n1 i1 s) l1 -> l_key l1 = l_key l ->
  exists l2, holds (nstate n2 i2 s) l2 /\ l_key l2 = l_key l1 /\ copy l l1 /\ copy l l2.
Proof using W.
  intros P Sd Up E1 E2 Om Hl Eo H1 K. destruct (Up _ _ _ _ _ E1 (proj1 Om) Hl Eo) as (x & Hx & Kx & Qx).
  assert (x = l1) by (eapply holds_unique; [exact Hx|exact H1|congruence]). subst x.
  destruct (Up _ _ _ _ _ E2 (proj1 Om) Hl Eo) as (l2 & H2 & K2 & Q2).
  exists l2. split; [exact H2|]. split; [congruence|]. split; [exact (C55_latest _ P Sd E1 Om Hl Eo H1 Kx Qx)|exact (C55_latest _ P Sd E2 Om Hl Eo H2 K2 Q2)].
Qed.

(** Nobody ever asks for a number above the origin's current one. *)
Lemma newest_bound s i n j m t : possible s -> sendable s -> nth_error w i = Some n -> only w j m ->
  (newest (nstate n i s) (user m t) <= seq_get t (s_seqs (nstate m j s)))%N.
Proof using W.
  intros P Sd En Om. unfold newest. destruct (get _ _) as [h|] eqn:E; [|lia].
  destruct (high_exec _ _ _ _ _ _ E) as (e & q & face & Hi & ->).
  destruct (possible_in _ _ _ P Hi) as (s1 & s2 & -> & n' & En' & j' & m' & t' & Em' & Nj & Eu & Hp). cbn [fst] in *.
  pose proof (same_prefix W _ _ Em' (proj1 Om)) as [E1 E2].
  assert (X : n_site m' = n_site m /\ t' = t).
  { unfold user, lsa_user_prefix in Eu. rewrite E1 in Eu. apply app_inj_tail in Eu as [X1 X2]. apply app_inv_head in X1. split; [now symmetry|]. destruct t, t'; try reflexivity; discriminate. }
  destruct X as [X1 ->]. destruct (node_conf W _ Em') as (_ & _ & C1). destruct (node_conf W _ (proj1 Om)) as (_ & _ & C2).
  assert (j' = j) by (apply (proj2 Om _ m' Em'); congruence). subst j'. assert (m' = m) by (destruct Om; congruence). subst m'.
  pose proof (only_undisturbed W P Sd Om) as U. pose proof (own_num_exec (n_file m) (n_now m) (n_env m) U t) as [_ N].
  assert (Ha : In q (S_Lsdb.announced t (nouts m j (s1 ++ (i, (e, ESync (user m t) q face)) :: s2)))).
  { rewrite (proj2 (nrun_app m j s1 _)), announced_app. apply in_or_app. left. apply announced_In. exact Hp. }
  apply N in Ha. pose proof (N.mod_le q (2 ^ 64)). unfold nstate, nrun. lia.
Qed.

(** The three events, and what they leave alone. *)
Lemma reached_core s i n j m l e1 e2 e3 p k v face : possible s -> sendable s -> nth_error w i = Some n -> only w j m -> i <> j ->
  s_dead (nstate n i s) = false -> s_dead (nstate m j s) = false -> used (c_hyp (n_conf n)) (l_type l) = true ->
  holds (nstate m j s) l -> l_origin l = c_self (n_conf m) -> publishes (c_hyp (n_conf m)) (l_type l) = true ->
  (0 < l_seq l)%N -> encodable time_str time_parse uri_parse l -> fits (enc_lsa time_str l) -> (0 < k)%nat ->
  (forall l1, holds (nstate n i s) l1 -> l_key l1 = l_key l -> (l_seq l1 < l_seq l)%N) ->
  let i_name := user m (l_type l) ++ [number_comp (l_seq l)] in
  let s' := s ++ [(i, (e1, ESync (user m (l_type l)) (l_seq l) face)); (j, (e2, EInterest i_name p k v)); (i, (e3, EFetchDone (s_nfid (nstate n i s)) (Some (advertised l))))] in
  possible s' /\ (exists l1, holds (nstate n i s') l1 /\ l_key l1 = l_key l /\ copy l l1) /\
  (forall i' n', nth_error w i' = Some n' -> s_dead (nstate n' i' s') = s_dead (nstate n' i' s)) /\
  (forall i' n' key, nth_error w i' = Some n' -> (i' = i -> key <> l_key l) -> find_lsa key (nstate n' i' s') = find_lsa key (nstate n' i' s)).
Proof using W.
  intros P Sd En Om Nij Dn Dm Us Hl Eo Pb Q0 Ec Ft Hk Low i_name.
  pose proof (proj1 Om) as Em. destruct (node_conf W _ Em) as (Lm & Nm & Cm). destruct (node_conf W _ En) as (Ln & Nn & Cn).
  destruct (same_prefix W _ _ En Em) as [Ep Et]. pose proof (only_undisturbed W P Sd Om) as U.
  set (t := l_type l) in *. set (q := l_seq l) in *. set (u := user m t) in *. set (s0 := nstate n i s) in *.
  assert (Qb : (q < 2 ^ 64)%N) by apply Ec.
  assert (Eu : u = c_lsaprefix (n_conf n) ++ n_site m ++ [type_comp t]) by (unfold u, user, lsa_user_prefix; now rewrite <- app_assoc, Ep).
  assert (Ei : i_name = c_lsaprefix (n_conf m) ++ n_site m ++ [type_comp t; number_comp q]) by (unfold i_name; rewrite Eu, Ep, <- !app_assoc; reflexivity).
  pose proof (node_sane W _ (type_comp t) (number_comp q) Em) as [Sn1 Sn2].
  assert (Eseq : q = seq_get t (s_seqs (nstate m j s)) /\ In q (S_Lsdb.announced t (nouts m j s))).
  { pose proof (own_num_exec (n_file m) (n_now m) (n_env m) U t) as [N _]. pose proof (proj1 (holds_find l (nstate_inv m j s)) Hl) as Hf.
    unfold l_key in Hf. rewrite Eo in Hf. destruct (N _ Hf) as [N1 N2]. split; [exact N1|now apply N2]. }
  destruct Eseq as [Eseq Ann].
  cbv zeta.
  set (x1 := (i, (e1, ESync u q face))). set (x2 := (j, (e2, EInterest i_name p k v))). set (x3 := (i, (e3, EFetchDone (s_nfid s0) (Some (advertised l))))).
  assert (Ns : c_network (n_conf n) ++ n_site m <> c_self (n_conf n)).
  { rewrite Et, <- Cm. intros X. apply Nij. apply (proj2 Om _ n En). now symmetry. }
  assert (Nw : is_new (c_network (n_conf n) ++ n_site m) (Some t) q s0 = true).
  { apply is_new_true; [apply nstate_inv|]. intros l1 H1 K1. apply Low; [exact H1|]. rewrite K1. unfold l_key, t. now rewrite Eo, Cm, Et. }
  assert (Bk : back 1 u = Some (type_comp t)) by (rewrite Eu, app_assoc; apply back1_snoc).
  pose proof (@newest_bound s i n j m t P Sd En Om) as Nb. rewrite <- Eseq in Nb.
  (* first event *)
  assert (St1 : fst (step (n_conf n) s0 (e1, ESync u q face)) = fst (express (u ++ [number_comp q]) 0 face None s0)).
  { rewrite Eu. rewrite (@sync_step (n_conf n) (n_site m) t Ln Nn) by (try assumption; try lia; now rewrite Ep). rewrite Nw, Us. cbn [andb]. rewrite andthen_fst. reflexivity. }
  destruct (@express_state s0 u t q face Bk Qb Nb) as ((d & F1) & F2 & F3 & F4). rewrite <- St1 in F1, F2, F3, F4.
  destruct (nrun_step n i s (e1, ESync u q face)) as [R1 _]. fold s0 x1 in R1. rewrite <- R1 in F1, F2, F3, F4. clear R1 St1.
  assert (A1 : allowed s x1).
  { exists n. split; [exact En|]. cbn [snd fst x1]. exists j, m, t. split; [exact Em|]. split; [congruence|]. split; [reflexivity|]. now apply announced_In. }
  (* second event *)
  assert (Nx1 : fst x1 <> j) by exact Nij. destruct (nrun_other m s x1 Nx1) as [R2 _].
  assert (A2 : allowed (s ++ [x1]) x2).
  { exists m. split; [exact Em|]. cbn [snd fst x2]. rewrite Ei. exact Sn1. }
  assert (Dt : In (OData (i_name ++ [version_comp v; segment_comp 0]) l 0) (nouts m j ((s ++ [x1]) ++ [x2]))).
  { destruct (nrun_step m j (s ++ [x1]) (e2, EInterest i_name p k v)) as [_ R3]. fold x2 in R3. rewrite R3. apply in_or_app. right. rewrite R2, Ei.
    apply C11_answered; try assumption. apply nstate_reach. }
  assert (Nx2 : fst x2 <> i) by (cbn; congruence). destruct (nrun_other n (s ++ [x1]) x2 Nx2) as [R4 _].
  (* third event *)
  assert (Fn : forall iname, asked_type (iname ++ [type_comp t; number_comp q]) = Some t) by (intros; unfold asked_type; rewrite back2_app2; apply comp_type_comp).
  assert (Ui : u ++ [number_comp q] = i_name) by reflexivity.
  assert (A3 : allowed ((s ++ [x1]) ++ [x2]) x3).
  { exists n. split; [exact En|]. cbn [snd fst x3]. right. rewrite R4. exists j, m, (Fetch i_name 0 d), (version_comp v), (segment_comp 0), l, 0%N.
    split; [exact Em|]. split; [rewrite <- Ui; exact F1|]. split; [exact Dt|]. cbn [f_iname]. rewrite Ei, app_assoc, Fn. symmetry. exact (C41_roundtrip Ec Ft). }
  assert (Ex : s ++ [x1; x2; x3] = ((s ++ [x1]) ++ [x2]) ++ [x3]) by (rewrite <- !app_assoc; reflexivity).
  fold x1 x2 x3. rewrite Ex. split; [repeat (apply possible_snoc; [|assumption]); exact P|].
  destruct (nrun_step n i ((s ++ [x1]) ++ [x2]) (e3, EFetchDone (s_nfid s0) (Some (advertised l)))) as [R5 _]. fold x3 in R5. rewrite R4 in R5.
  set (s1 := nstate n i (s ++ [x1])) in *. assert (I1 : invS None s1) by apply nstate_inv.
  assert (Of : offered s1 (advertised l) (nstate n i (((s ++ [x1]) ++ [x2]) ++ [x3]))).
  { rewrite R5. unfold step. rewrite F4, Dn. cbn [step_live].
    apply (@fetch_done_offered (n_conf n) (e_sys e3) (s_nfid s0) (Fetch i_name 0 d) u q (c_network (n_conf n) ++ n_site m) t (advertised l) s1); trivial.
    - replace (u ++ [number_comp q]) with (c_lsaprefix (n_conf n) ++ n_site m ++ [type_comp t; number_comp q]) by (rewrite Eu, <- !app_assoc; reflexivity).
      apply name_origin_app; [exact Ln|]. now rewrite Ep.
    - unfold is_new in *. now rewrite F3.
    - unfold t, l_type, advertised. cbn. now destruct (l_body l). }
  assert (Kd : l_key (advertised l) = l_key l) by (unfold l_key, l_type, advertised; cbn; now destruct (l_body l)).
  assert (Ot : forall i' n', i' <> i -> i' <> j -> nstate n' i' (((s ++ [x1]) ++ [x2]) ++ [x3]) = nstate n' i' s).
  { intros i' n' Hi Hj. destruct (nrun_other n' ((s ++ [x1]) ++ [x2]) x3 (i := i')) as [-> _]; [cbn; congruence|].
    destruct (nrun_other n' (s ++ [x1]) x2 (i := i')) as [-> _]; [cbn; congruence|]. apply nrun_other. cbn. congruence. }
  assert (Sj : nstate m j (((s ++ [x1]) ++ [x2]) ++ [x3]) = fst (step (n_conf m) (nstate m j s) (e2, EInterest i_name p k v))).
  { destruct (nrun_other m ((s ++ [x1]) ++ [x2]) x3 Nij) as [-> _]. destruct (nrun_step m j (s ++ [x1]) (e2, EInterest i_name p k v)) as [X _]. fold x2 in X. now rewrite X, R2. }
  assert (Dd : forall i' n', nth_error w i' = Some n' -> s_dead (nstate n' i' (((s ++ [x1]) ++ [x2]) ++ [x3])) = s_dead (nstate n' i' s)).
  { intros i' n' E'. destruct (Nat.eq_dec i' i) as [->|Hi]; [|destruct (Nat.eq_dec i' j) as [->|Hj]; [|now rewrite Ot]].
    - assert (n' = n) by congruence. subst n'. rewrite R5. fold s0. rewrite <- F4.
      assert (Rs1 : reachable (n_conf n) s1) by apply nstate_reach.
      destruct (C59_only_malformed (e3, EFetchDone (s_nfid s0) (Some (advertised l))) Rs1 Ln) as [_ X]; [discriminate|].
      destruct (s_dead (fst (step (n_conf n) s1 (e3, EFetchDone (s_nfid s0) (Some (advertised l)))))) eqn:D1, (s_dead s1) eqn:D2; try reflexivity;
        (destruct X as (a1 & a2 & a3 & a4 & a5 & a6 & X & _); [right; congruence|discriminate X]).
    - assert (n' = m) by congruence. subst n'. rewrite Sj.
      destruct (C59_only_malformed (e2, EInterest i_name p k v) (nstate_reach m j s) Lm) as [_ X]; [intros i1 p1 k1 v1 [= <- _ _ _]; rewrite Ei; exact Sn1|].
      destruct (Bool.bool_dec (s_dead (fst (step (n_conf m) (nstate m j s) (e2, EInterest i_name p k v)))) (s_dead (nstate m j s))) as [Y|Y]; [exact Y|exfalso].
      destruct X as (a1 & a2 & a3 & a4 & a5 & a6 & X & X2 & X3); [now right|]. cbn [snd] in X. injection X as <- _ _ _.
      destruct X3 as [X3|(ver & y & X4 & X3)].
      + unfold i_name in X3. apply app_inj_tail in X3 as [_ <-]. rewrite to_number_comp in X2 by exact Qb. discriminate X2.
      + rewrite Ei, app_assoc in X3. change (a5 ++ [a6; ver; y]) with (a5 ++ [a6] ++ [ver; y]) in X3. rewrite app_assoc in X3.
        assert (B : back 2 ((c_lsaprefix (n_conf m) ++ n_site m) ++ [type_comp t; number_comp q]) = back 2 ((a5 ++ [a6]) ++ [ver; y])) by now rewrite X3.
        rewrite !back2_app2 in B. injection B as B. subst ver. now rewrite type_not_version in X4. }
  assert (Ff : forall i' n' key, nth_error w i' = Some n' -> (i' = i -> key <> l_key l) -> find_lsa key (nstate n' i' (((s ++ [x1]) ++ [x2]) ++ [x3])) = find_lsa key (nstate n' i' s)).
  { intros i' n' key E' Hk'. destruct (Nat.eq_dec i' i) as [->|Hi]; [|destruct (Nat.eq_dec i' j) as [->|Hj]; [|now rewrite Ot]].
    - assert (n' = n) by congruence. subst n'. rewrite (Of key), F3, Kd. assert (Nk : eqb key (l_key l) = false) by (apply eqb_neq; auto). now rewrite Nk.
    - assert (n' = m) by congruence. subst n'. rewrite Sj. destruct (step_eff (n_conf m) (e2, EInterest i_name p k v) (nstate_inv m j s)) as
        [E1 _|fid g cq q' origin ct t' l1 Exx _ _ _ _ _ _ _ _ _ _ _|t' q0 b Q _ _ _ _ _ _|l1 tid Exx _ _ _ _|l1 tid Exx _ _ _ _|l1 tid Exx _ _ _ _]; try discriminate Exx; [apply E1|].
      exfalso. destruct Q as [[_ Q]|(u' & q' & f' & Exx & _)]; [exact Q|discriminate Exx]. }
  specialize (Of (l_key l)). rewrite Kd, eqb_refl, F3 in Of. set (l1 := offer _ _) in Of.
  assert (Nl : forall a, l_body l = BAdj a -> NoDup (map a_name a)) by (intros a Ea; exact (encodable_nodup Ec Ea)).
  assert (Cp : copy l l1 /\ l_key l1 = l_key l).
  { unfold l1, offer. destruct (find_lsa (l_key l) s0) as [o|] eqn:Eo0.
    - pose proof (find_key (nstate_inv n i s) Eo0) as Ko. assert (Ho : holds s0 o) by (apply (holds_find o (nstate_inv n i s)); now rewrite Ko).
      pose proof (Low _ Ho Ko) as Lo. replace (l_seq o <? l_seq (advertised l))%N with true by (symmetry; apply N.ltb_lt; exact Lo).
      assert (Ko1 : l_origin o = l_origin l /\ l_type o = l_type l) by (unfold l_key in Ko; split; congruence). destruct Ko1 as [Ko1 Ko2].
      assert (No : l_origin o <> c_self (n_conf n)) by (rewrite Ko1, Eo, Cm, <- Et; exact Ns).
      destruct (authentic P Sd _ _ En Eo0 No) as (j1 & m1 & l2 & _ & _ & _ & _ & Si).
      assert (Sm : similar (l_body (merged o (advertised l))) (l_body l)).
      { apply similar_merged; [exact Ko2| |exact Nl]. intros a Ea. exact (similar_nodup _ Si Ea). }
      split; [split; [exact Ko1|]; split; [reflexivity|]; split; [reflexivity|exact Sm]|].
      unfold l_key, l_type. destruct (l_body (merged o (advertised l))), (l_body l); cbn in Sm; try contradiction; cbn [merged l_origin]; now rewrite Ko1.
    - split; [|exact Kd]. repeat (split; [reflexivity|]). now apply similar_adv. }
  destruct Cp as [Cp K1]. split; [|split; [exact Dd|exact Ff]]. exists l1. split; [|split; [exact K1|exact Cp]]. apply (holds_find l1 (nstate_inv n i _)). now rewrite K1.
Qed.

(** The current LSA of any running router can reach every other running router that uses that type, whatever
    happened before: three more events suffice. *)
Theorem C55_reached s i n j m l e1 e2 e3 p k v face : possible s -> sendable s -> nth_error w i = Some n -> only w j m -> i <> j ->
  s_dead (nstate n i s) = false -> s_dead (nstate m j s) = false -> used (c_hyp (n_conf n)) (l_type l) = true ->
  holds (nstate m j s) l -> l_origin l = c_self (n_conf m) -> publishes (c_hyp (n_conf m)) (l_type l) = true ->
  (0 < l_seq l)%N -> encodable time_str time_parse uri_parse l -> fits (enc_lsa time_str l) -> (0 < k)%nat ->
  (forall l1, holds (nstate n i s) l1 -> l_key l1 = l_key l -> (l_seq l1 < l_seq l)%N) ->
  let i_name := user m (l_type l) ++ [number_comp (l_seq l)] in
  exists fid content,
  let s' := s ++ [(i, (e1, ESync (user m (l_type l)) (l_seq l) face)); (j, (e2, EInterest i_name p k v)); (i, (e3, EFetchDone fid content))] in
  possible s' /\ exists l1, holds (nstate n i s') l1 /\ copy l l1.
Proof using W.
  intros P Sd En Om Nij Dn Dm Us Hl Eo Pb Q0 Ec Ft Hk Low i_name.
  destruct (@reached_core s i n j m l e1 e2 e3 p k v face P Sd En Om Nij Dn Dm Us Hl Eo Pb Q0 Ec Ft Hk Low) as (A & (l1 & B & _ & C) & _).
  exists (s_nfid (nstate n i s)), (Some (advertised l)). cbv zeta. split; [exact A|]. exists l1. auto.
Qed.
End Net.
