(** C89: packets reach the prefix in a network that has exchanged its LSAs. *)
From Verif Require Import Base M_Nexthop L_Nexthop M_Tlv M_Adj M_Lsa M_Lsdb M_Codec M_Sync S_Lsdb S_Codec
  L_Lsdb L_Lsdb2 L_Lsdb3 L_Lsdb4 L_Lsdb6 L_Lsdb9 L_Codec P_Codec P_Lsdb2 M_Net S_Net L_Net P_Net S_Graph M_LinkState S_LinkState P_LinkState
  M_Hyperbolic M_RoutingTable M_Npt S_Npt P_Npt P_Npt3 P_Npt4 M_Fib S_Fib S_Pipe M_Prefix M_Hello S_Hello L_Hello M_Router S_Router S_Delivery
  L_Router L_Router2 L_Router3 L_Router6 P_Router P_Router3 P_Router6 P_Router7 M_Network L_Network S_Network.
Open Scope Z_scope.
Set Implicit Arguments.

(** ** Databases *)

(** The own Name LSA is always there. *)
Lemma own_name c f now e0 evs : exists l, find_lsa (c_self c, TName) (fst (exec c f now e0 evs)) = Some l.
Proof.
  induction evs as [|x evs IH] using rev_ind.
  - destruct (init_effs c f now e0) as (s1 & o1 & I1 & E1 & T1 & (l & Hl) & M). rewrite exec_fst. cbn [run fst]. destruct (eqb (c_hyp c) HOff); [destruct M as [-> _]; eauto|].
    destruct M as (o2 & E2 & _ & _ & _).
    destruct E2 as [E2 _|? ? ? ? ? ? ? ? Ex|t q0 b Q Eb _ _ _ Es Eo|l' tid Ex|l' tid Ex|l' tid Ex]; try discriminate.
    + rewrite E2. eauto.
    + rewrite Eo. destruct (eqb _ _); eauto.
  - destruct IH as [l Hl]. pose proof (invS_exec c f now e0 evs) as I.
    assert (E : fst (exec c f now e0 (evs ++ [x])) = fst (step c (fst (exec c f now e0 evs)) x)) by apply exec_snoc.
    rewrite E. pose proof (step_eff c x I) as Ef. set (s' := fst (step c _ x)) in *. clearbody s'. destruct Ef as [E1 E2|fid ff cq q origin ct t' d Ex Ef _ _ _ _ _ Et _ _ Eo Es|t' q0 bb QQ Eb _ _ _ Es Eo|d tid Ex El Eo Ef Es|d tid Ex El Eo Ef Es|d tid Ex El Ea Ef Es].
    + rewrite E1. eauto.
    + rewrite Eo. destruct (eqb _ _); eauto.
    + rewrite Eo. destruct (eqb _ _); eauto.
    + rewrite Ef. destruct (eqb _ _); eauto.
    + rewrite Ef. destruct (eqb (c_self c, TName) (l_key d)) eqn:B; [|eauto]. exfalso. apply (proj1 (eqb_eq _ _)) in B. apply Eo. unfold l_key in B. congruence.
    + rewrite Ef. destruct (eqb (c_self c, TName) (c_self c, TAdj)) eqn:B; [|eauto]. exfalso. apply (proj1 (eqb_eq _ _)) in B. congruence.
Qed.

Section Db.
Variables (time_str : Z -> string) (time_parse : string -> option Z) (uri_parse : string -> option uri).
Variable w : net.
Notation possible := (M_Net.possible time_str time_parse uri_parse w).
Notation sendable := (S_Net.sendable time_str time_parse uri_parse w).
Hypothesis W : one_net w.

(** A router that stores the number of the origin's current LSA stores its links. *)
Lemma same_links s i n l1 j m l : possible s -> sendable s -> whole_costs w s -> nth_error w i = Some n -> only w j m ->
  holds (nstate m j s) l -> l_origin l = c_self (n_conf m) -> holds (nstate n i s) l1 -> l_key l1 = l_key l -> l_seq l1 = l_seq l ->
  forall x, In x (links l1) <-> In x (links l).
Proof using W.
  intros P Sd Wc En Om Hl Eo H1 K Q. assert (Eo1 : l_origin l1 = c_self (n_conf m)) by (unfold l_key in K; congruence).
  destruct (eq_dec (l_origin l1) (c_self (n_conf n))) as [E|No].
  - assert (i = j) by (apply (proj2 Om _ n En); congruence). subst i. assert (n = m) by (destruct Om; congruence). subst n.
    assert (X : l1 = l) by (eapply holds_unique; eassumption). now rewrite X.
  - destruct (@C54_links time_str time_parse uri_parse w W s i n l1 P Sd En H1 No Wc) as (j' & m' & l' & Pr & C & L).
    assert (Ej : j' = j) by (apply (proj2 Om _ m'); [apply Pr|]; destruct Pr as (_ & Pr & _), C as (C & _); congruence).
    subst j'. assert (m' = m) by (destruct Om, Pr; congruence). subst m'.
    assert (Pl : produced w s j m l) by (split; [apply Om|]; split; [exact Eo|]; exists s, []; now rewrite app_nil_r).
    assert (El : l' = l); [|now rewrite <- El].
    destruct C as (C1 & C2 & _ & C4). assert (Tt : l_type l' = l_type l1) by (unfold l_type; destruct (l_body l1), (l_body l'); cbn in C4; try contradiction; reflexivity).
    assert (T1 : l_type l1 = l_type l) by (unfold l_key in K; congruence).
    apply (@held_unique (n_conf m) (n_file m) (n_now m) (n_env m) (hist j s) l' l (l_type l) (only_undisturbed W P Sd Om) (produced_held Pr) (produced_held Pl)).
    + unfold l_key. rewrite Tt, T1. destruct Pr as (_ & -> & _). reflexivity.
    + unfold l_key. now rewrite Eo.
    + congruence.
Qed.
(** No stored Adjacency LSA lists a neighbour twice. *)
Lemma stored_nodup s i n : possible s -> sendable s -> nth_error w i = Some n -> sane_links (nstate n i s).
Proof using W.
  intros P Sd En l al H E. destruct (eq_dec (l_origin l) (c_self (n_conf n))) as [O|No].
  - pose proof (own_ok_exec (n_file n) (n_now n) (n_env n) (@no_forged time_str time_parse uri_parse w W s i n P Sd En)) as Ok. apply (holds_find l (nstate_inv n i s)) in H. unfold l_key in H. rewrite O in H.
    destruct (Ok _ _ H) as [_ Ok']. now rewrite E in Ok'.
  - destruct (@C54_authentic_partial time_str time_parse uri_parse w W s i n l P Sd En H No) as (j & m & l' & _ & _ & _ & _ & C). exact (similar_nodup _ C E).
Qed.
(** Every stored LSA is that of a router of the network. *)
Lemma stored_origin s i n l : possible s -> sendable s -> nth_error w i = Some n -> holds (nstate n i s) l ->
  exists j m, nth_error w j = Some m /\ l_origin l = c_self (n_conf m).
Proof using W.
  intros P Sd En H. destruct (eq_dec (l_origin l) (c_self (n_conf n))) as [O|No]; [eauto|].
  destruct (@C54_authentic_partial time_str time_parse uri_parse w W s i n l P Sd En H No) as (j & m & l' & (Em & Eo & _) & C & _). exists j, m. split; [exact Em|congruence].
Qed.
(** Where stored links come from. *)
Lemma stored_links s i n l x : possible s -> sendable s -> nth_error w i = Some n -> holds (nstate n i s) l -> In x (links l) ->
  exists j m e, nth_error w j = Some m /\ l_origin l = c_self (n_conf m) /\ (e = n_env m \/ exists v, In (j, (e, v)) s) /\ In x (links_of (e_adl e)).
Proof using W.
  intros P Sd En H Hx. destruct (eq_dec (l_origin l) (c_self (n_conf n))) as [O|No].
  - assert (Pr : produced w s i n l) by (split; [exact En|]; split; [exact O|]; exists s, []; now rewrite app_nil_r).
    destruct (@produced_links time_str time_parse uri_parse w W s i n l x P Sd Pr Hx) as (e & He & Hi). exists i, n, e. auto.
  - apply (holds_find l (nstate_inv n i s)) in H. destruct (@links_source time_str time_parse uri_parse w W s P Sd i n _ l En H No x Hx) as (j & m & l' & Pr & Eo & L).
    destruct (@produced_links time_str time_parse uri_parse w W s j m l' x P Sd Pr L) as (e & He & Hi). exists j, m, e. destruct Pr as (Em & Eo' & _). split; [exact Em|]. split; [congruence|auto].
Qed.
End Db.

(** ** Whole routers *)

Lemma conf_adl_in l a : In a (conf_adl l) -> In (stat a) l.
Proof.
  unfold conf_adl. assert (G : forall l acc a, In a (fold_left (fun acc x => if eqb (fst (fst x)) [] then acc
       else snd (adl_insert (Adj (fst (fst x)) (snd (fst x)) (snd x) SInactive 0 0) acc)) l acc) -> In a acc \/ In (stat a) l).
  { clear. induction l as [|[[n u] z] l IH]; intros acc a H; [now left|]. cbn [fold_left fst snd] in H. apply IH in H as [H|H]; [|right; now right].
    destruct (eqb n []); [now left|]. unfold adl_insert in H. destruct (adl_find _ _); cbn [snd] in H; [now left|].
    apply in_app_or in H as [H|[<-|[]]]; [now left|]. right. now left. }
  intros H. now destruct (G _ _ _ H) as [[]|].
Qed.
Lemma stat_in b x : c_hyp (gc (b_conf b)) <> HOn -> In x (stat_of b) -> In x (u_nbs (b_start b)).
Proof.
  intros Hy H. unfold stat_of in H. apply in_map_iff in H as (a & <- & H). cbn [hinit fst h_adl] in H. unfold nlsr_adl in H.
  destruct (eqb (hc_hyp (hconf_of (b_conf b))) HOn) eqn:B; [exfalso; apply Hy; exact (proj1 (eqb_eq _ _) B)|]. now apply conf_adl_in.
Qed.
Lemma whole_link z : - ((- of_int z) / UNIT) = z.
Proof. unfold of_int. assert (0 < UNIT) by reflexivity. rewrite Z.div_opp_l_z by (rewrite ?Z.mod_mul; lia). rewrite Z.div_mul by lia. lia. Qed.
Lemma face_stat l v f k : NoDup (map a_name l) -> In (v, f, k) (map stat l) -> face_of (adl_faces l) v = f.
Proof.
  intros N H. apply in_map_iff in H as (a & E & H). injection E as <- <- <-. unfold face_of.
  rewrite (@In_get _ _ _ (a_name a) (a_uri a)); [reflexivity| |].
  - unfold keys, adl_faces. rewrite map_map. exact N.
  - unfold adl_faces. apply in_map_iff. now exists a.
Qed.
Lemma adv_spec st u v k : advertises (adj_view (adj_lsas st)) u v k <->
  exists l al a, holds st l /\ l_origin l = u /\ l_body l = BAdj al /\ In a al /\ a_name a = v /\ link_cost a = k.
Proof.
  split.
  - intros (x & Hx & Ho & Hl). unfold adj_view in Hx. apply in_flat_map in Hx as (l & Hl' & Hx). apply In_adj_lsas in Hl' as [Hl' _].
    destruct (l_body l) as [al|? ?|?] eqn:B; [|destruct Hx..]. destruct Hx as [<-|[]]. cbn [al_origin al_links] in *.
    apply in_map_iff in Hl as (a & E & Ha). injection E as E1 E2. exists l, al, a. auto 10.
  - intros (l & al & a & Hl & Ho & B & Ha & En & Ek). exists (AdjLsa u (map (fun a => (a_name a, link_cost a)) al)).
    split; [|split; [reflexivity|]]; cbn [al_links].
    + unfold adj_view. apply in_flat_map. exists l. split; [apply In_adj_lsas; split; [exact Hl|unfold l_type; now rewrite B]|]. rewrite B, Ho. now left.
    + apply in_map_iff. exists a. split; [|exact Ha]. now rewrite En, Ek.
Qed.
Lemma moved_link l l1 al a : (forall x, In x (links l) -> In x (links l1)) -> l_body l = BAdj al -> In a al ->
  exists al1 a1, l_body l1 = BAdj al1 /\ In a1 al1 /\ a_name a1 = a_name a /\ link_cost a1 = link_cost a.
Proof.
  intros H B Ha. assert (X : In (stat a) (links l)) by (unfold links; rewrite B; now apply (in_map stat)).
  apply H in X. unfold links in X. destruct (l_body l1) as [al1|? ?|?]; [|destruct X..]. apply (in_map_iff stat) in X as (a1 & E & Ha1).
  injection E as E1 E2 E3. exists al1, a1. split; [reflexivity|]. split; [exact Ha1|]. split; [exact E1|]. rewrite !link_cost_eq. now rewrite E3.
Qed.

Section Net.
Variables (uri_of : name -> string) (ang : list Z -> list Z -> Z) (dst : Z -> Z -> Z -> Z).
Variables (time_str : Z -> string) (time_parse : string -> option Z) (uri_parse : string -> option uri).
Variable w : list box.
Notation bstate := (bstate uri_of ang dst).
Notation btrace := (btrace uri_of ang dst).
Notation bdb := (bdb uri_of ang dst).
Notation gpossible := (gpossible uri_of ang dst time_str time_parse uri_parse w).
Notation gallowed := (gallowed uri_of ang dst time_str time_parse uri_parse w).
Notation good_sent := (good_sent uri_of ang dst time_str time_parse uri_parse w).
Notation all_settled := (all_settled uri_of ang dst w).
Notation all_current := (all_current uri_of ang dst w).
Notation own_lsa := (own_lsa uri_of ang dst w).
Notation own_link := (own_link uri_of ang dst w).
Notation link := (link uri_of ang dst w).
Notation origin_of := (origin_of uri_of ang dst w).
Notation hands := (hands uri_of ang dst w).
Notation topology b i s := (P_Router3.topology (b_conf b) uri_of ang dst (brun b i s)).
Notation wn := (map node_of w).

Lemma btrace_app m j s1 s2 : exists r, btrace m j (s1 ++ s2) = btrace m j s1 ++ r.
Proof using.
  induction s2 as [|[i x] s2 IH] using rev_ind; [exists []; now rewrite !app_nil_r|]. destruct IH as [r IH]. rewrite app_assoc.
  destruct (Nat.eq_dec i j) as [->|N].
  - rewrite (proj2 (b_step uri_of ang dst m j (s1 ++ s2) x)), IH, <- app_assoc. eauto.
  - rewrite (proj2 (b_other uri_of ang dst m (s1 ++ s2) (i, x) N)). eauto.
Qed.
Lemma gpossible_in s i x : gpossible s -> In x (ghist i s) -> exists s1 s2, s = s1 ++ (i, x) :: s2 /\ gpossible s1 /\ gallowed s1 (i, x).
Proof using.
  intros P. induction P as [|s [j y] P IH A]; [intros []|]. rewrite ghist_app. intros H. apply in_app_or in H as [H|H].
  - destruct (IH H) as (s1 & s2 & -> & P1 & A1). exists s1, (s2 ++ [(j, y)]). split; [now rewrite <- app_assoc|auto].
  - unfold ghist in H. cbn [filter fst] in H. destruct (Nat.eqb j i) eqn:E; [|destruct H]. apply Nat.eqb_eq in E. subst j. destruct H as [<-|[]].
    exists s, []. auto.
Qed.

Section Facts.
Variable s : gsched.
Hypotheses (N1 : one_network w) (N2 : good_links w) (P : gpossible s) (Sd : good_sent s) (St : all_settled s) (Cu : all_current s).
Variable t : sched.
Hypothesis PJ : projects uri_of ang dst time_str time_parse uri_parse w s t.

Lemma W_n : one_net wn.
Proof using N1.
  destruct N1 as [(net & A & B & H) _]. exists net. split; [exact A|]. split; [exact B|]. intros n Hn. apply in_map_iff in Hn as (b & <- & Hb). exact (H b Hb).
Qed.
Lemma sd_n : S_Net.sendable time_str time_parse uri_parse wn t.
Proof using Sd PJ.
  intros j m n l k Em H. apply nth_wn_inv in Em as (b & Eb & ->). rewrite (pj_outs PJ _ Eb) in H. destruct (@Sd _ _ _ _ _ Eb H) as (A & B & _). auto.
Qed.
Lemma only_n i b : nth_error w i = Some b -> only wn i (node_of b).
Proof using N1.
  intros E. split; [now apply nth_wn|]. intros j n Ej X. apply nth_wn_inv in Ej as (m & Em & ->). destruct N1 as [_ U]. exact (U _ _ _ _ Em E X).
Qed.
Lemma hy_n i b : nth_error w i = Some b -> c_hyp (gc (b_conf b)) <> HOn.
Proof using St. intros E. destruct (@St _ _ E) as (_ & _ & H & _). exact H. Qed.
Lemma env_n i b e x : nth_error w i = Some b -> e = n_env (node_of b) \/ (exists v, In (i, (e, v)) t) -> In x (links_of (e_adl e)) -> In x (stat_of b).
Proof using PJ St.
  intros E [->|(v & Hv)] Hx.
  - cbn [node_of n_env e_adl] in Hx. unfold stat_of. cbn [hinit fst h_adl]. unfold nlsr_adl.
    destruct (eqb (hc_hyp (hconf_of (b_conf b))) HOn) eqn:B; [exfalso; apply (@hy_n _ _ E); exact (proj1 (eqb_eq _ _) B)|]. exact Hx.
  - pose proof (pj_stat PJ _ _ _ E Hv) as X. change (links_of (e_adl e)) with (map stat (e_adl e)) in Hx. now rewrite X in Hx.
Qed.
Lemma nbs_n i b x : nth_error w i = Some b -> In x (stat_of b) -> In x (u_nbs (b_start b)).
Proof using St. intros E. apply stat_in. exact (@hy_n _ _ E). Qed.
Lemma whole_n : whole_costs wn t.
Proof using PJ St N2.
  intros i n e x En He Hx. apply nth_wn_inv in En as (b & Eb & ->). pose proof (@nbs_n _ _ _ Eb (@env_n _ _ _ _ Eb He Hx)) as H. destruct x as [[n u] k].
  destruct (@N2 _ (nth_error_In _ _ Eb)) as [A _]. destruct (A _ _ _ H) as (z & -> & _). now exists z.
Qed.
Lemma db_n i b : nth_error w i = Some b -> bdb b i s = nstate (node_of b) i t.
Proof using PJ. intros E. symmetry. exact (pj_state PJ _ E). Qed.
Lemma adl_n i b : nth_error w i = Some b -> NoDup (map a_name (h_adl (g_h (bstate b i s)))) /\ map stat (h_adl (g_h (bstate b i s))) = stat_of b.
Proof using PJ. intros E. destruct (pj_ok PJ _ E) as [H1 H2]. split; [apply (iv_nodup H1)|exact H2]. Qed.

Lemma origin_n i b l : nth_error w i = Some b -> holds (bdb b i s) l -> exists j m, nth_error w j = Some m /\ l_origin l = bname m.
Proof using PJ N1 Sd.
  intros E H. rewrite (@db_n _ _ E) in H. destruct (@stored_origin _ _ _ _ W_n _ _ _ l (pj_possible PJ) sd_n (nth_wn _ _ E) H) as (j & n & En & Eo).
  apply nth_wn_inv in En as (m & Em & ->). exists j, m. auto.
Qed.
Lemma links_n i b l x : nth_error w i = Some b -> holds (bdb b i s) l -> In x (links l) ->
  exists j m, nth_error w j = Some m /\ l_origin l = bname m /\ In x (stat_of m).
Proof using PJ N1 Sd St.
  intros E H Hx. rewrite (@db_n _ _ E) in H. destruct (@stored_links _ _ _ _ W_n _ _ _ l x (pj_possible PJ) sd_n (nth_wn _ _ E) H Hx) as (j & n & e & En & Eo & He & Hi).
  apply nth_wn_inv in En as (m & Em & ->). exists j, m. split; [exact Em|]. split; [exact Eo|]. exact (@env_n _ _ _ _ Em He Hi).
Qed.
Lemma unique_n i b l l' : nth_error w i = Some b -> holds (bdb b i s) l -> holds (bdb b i s) l' -> l_key l = l_key l' -> l = l'.
Proof using PJ. intros E. rewrite (@db_n _ _ E). apply holds_unique. Qed.
Lemma ownadj_n i b : nth_error w i = Some b -> exists l, holds (bdb b i s) l /\ l_key l = (bname b, TAdj).
Proof using St. intros E. destruct (@St _ _ E) as (_ & _ & _ & O & _). exact O. Qed.
Lemma ownname_n i b : nth_error w i = Some b -> exists l, holds (bdb b i s) l /\ l_key l = (bname b, TName).
Proof using PJ.
  intros E. rewrite (@db_n _ _ E). destruct (own_name (n_conf (node_of b)) (n_file (node_of b)) (n_now (node_of b)) (n_env (node_of b)) (hist i t)) as [l Hl].
  pose proof (find_key (nstate_inv (node_of b) i t) Hl) as K. exists l. split; [|exact K]. apply (holds_find l (nstate_inv (node_of b) i t)). rewrite K. exact Hl.
Qed.
Lemma current_n i b j m l l1 : nth_error w i = Some b -> nth_error w j = Some m -> holds (bdb m j s) l -> l_origin l = bname m -> l_type l <> TCoord ->
  holds (bdb b i s) l1 -> l_key l1 = l_key l -> l_seq l1 = l_seq l.
Proof using PJ Cu.
  intros Ei Ej H Eo T H1 K. destruct (@Cu _ _ _ _ _ Ei Ej H Eo T) as (l2 & H2 & K2 & Q2). rewrite (@unique_n _ _ _ _ Ei H1 H2); [exact Q2|congruence].
Qed.
Lemma linked_n i b j m l l1 : nth_error w i = Some b -> nth_error w j = Some m -> holds (bdb m j s) l -> l_origin l = bname m -> l_type l <> TCoord ->
  holds (bdb b i s) l1 -> l_key l1 = l_key l -> forall x, In x (links l1) <-> In x (links l).
Proof using PJ Cu N1 N2 Sd St.
  intros Ei Ej H Eo T H1 K. pose proof (@current_n _ _ _ _ _ _ Ei Ej H Eo T H1 K) as Q. rewrite (@db_n _ _ Ej) in H. rewrite (@db_n _ _ Ei) in H1.
  exact (@same_links _ _ _ _ W_n t i (node_of b) l1 j (node_of m) l (pj_possible PJ) sd_n whole_n (nth_wn _ _ Ei) (@only_n _ _ Ej) H Eo H1 K Q).
Qed.
Lemma copied_n i b j m l l1 : nth_error w i = Some b -> nth_error w j = Some m -> holds (bdb m j s) l -> l_origin l = bname m -> l_type l <> TCoord ->
  holds (bdb b i s) l1 -> l_key l1 = l_key l -> copy l l1.
Proof using PJ Cu N1 Sd.
  intros Ei Ej H Eo T H1 K. pose proof (@current_n _ _ _ _ _ _ Ei Ej H Eo T H1 K) as Q. rewrite (@db_n _ _ Ej) in H. rewrite (@db_n _ _ Ei) in H1.
  exact (@C55_latest _ _ _ _ W_n t i (node_of b) l1 j (node_of m) l (pj_possible PJ) sd_n (nth_wn _ _ Ei) (@only_n _ _ Ej) H Eo H1 K Q).
Qed.
Lemma key_origin l n ty : l_key l = (n, ty) -> l_origin l = n /\ l_type l = ty.
Proof using. unfold l_key. intros E. injection E as E1 E2. auto. Qed.

(** The stored links are those the routers report. *)
Lemma topology_n i b u v k : nth_error w i = Some b -> advertises (topology b i s) u v k <-> own_link s u v k.
Proof using PJ Cu N1 N2 Sd St.
  intros E. unfold P_Router3.topology. rewrite adv_spec. change (P_Router.db (b_conf b) uri_of ang dst (brun b i s)) with (bdb b i s). split.
  - intros (l1 & al & a & H1 & O1 & B1 & Ha & En & Ek). destruct (@origin_n _ _ _ E H1) as (j & m & Ej & O). destruct (@ownadj_n _ _ Ej) as (l & Hl & Kl).
    destruct (@key_origin _ _ _ Kl) as [Ol Tl]. assert (K : l_key l1 = l_key l) by (rewrite Kl; unfold l_key, l_type; rewrite B1, O; reflexivity).
    assert (T : l_type l <> TCoord) by (rewrite Tl; discriminate). pose proof (@linked_n _ _ _ _ _ _ E Ej Hl Ol T H1 K) as L.
    destruct (@moved_link l1 l _ _ (fun x => proj1 (L x)) B1 Ha) as (al' & a' & B' & Ha' & En' & Ek'). exists l, al', a'. split.
    + exists j, m. split; [exact Ej|]. split; [congruence|]. split; [exact Hl|congruence].
    + split; [exact B'|]. split; [exact Ha'|]. split; congruence.
  - intros (l & al & a & (j & m & Ej & En0 & Hl & Ol) & B & Ha & En & Ek). assert (T : l_type l <> TCoord) by (unfold l_type; rewrite B; discriminate).
    assert (Ol' : l_origin l = bname m) by congruence.
    destruct (@Cu _ _ _ _ _ E Ej Hl Ol' T) as (l1 & H1 & K1 & Q1). pose proof (@linked_n _ _ _ _ _ _ E Ej Hl Ol' T H1 K1) as L.
    destruct (@moved_link l l1 _ _ (fun x => proj2 (L x)) B Ha) as (al' & a' & B' & Ha' & En' & Ek'). exists l1, al', a'. split; [exact H1|].
    split; [unfold l_key in K1; congruence|]. split; [exact B'|]. split; [exact Ha'|]. split; congruence.
Qed.
(** The stored prefixes are those the routers advertise. *)
Lemma prefixes_n i b d p : nth_error w i = Some b -> (exists k, lists (bdb b i s) d p k) <-> origin_of s p d.
Proof using PJ Cu N1 Sd.
  intros E. split.
  - intros (k & l1 & H1 & O1 & G). destruct (@origin_n _ _ _ E H1) as (j & m & Ej & O). destruct (@ownname_n _ _ Ej) as (l & Hl & Kl).
    destruct (@key_origin _ _ _ Kl) as [Ol Tl]. assert (T : l_type l <> TCoord) by (rewrite Tl; discriminate).
    assert (K : l_key l1 = l_key l) by (rewrite Kl; unfold l_key, l_type; rewrite O; destruct (l_body l1); [discriminate G|discriminate G|reflexivity]).
    destruct (@copied_n _ _ _ _ _ _ E Ej Hl Ol T H1 K) as (_ & _ & _ & C). destruct (l_body l1) as [|? ?|n1]; try discriminate G. destruct (l_body l) as [|? ?|n0] eqn:B; try destruct C.
    assert (X : In p (keys n0)) by (apply C, get_Some_keys; now exists k). apply get_Some_keys in X as [k' X]. exists l, k'. split; [|now rewrite B].
    exists j, m. split; [exact Ej|]. split; [congruence|]. split; [exact Hl|congruence].
  - intros (l & k & (j & m & Ej & En0 & Hl & Ol) & G). assert (T : l_type l <> TCoord) by (unfold l_type; destruct (l_body l); try discriminate; discriminate G).
    assert (Ol' : l_origin l = bname m) by congruence.
    destruct (@Cu _ _ _ _ _ E Ej Hl Ol' T) as (l1 & H1 & K1 & Q1). destruct (@copied_n _ _ _ _ _ _ E Ej Hl Ol' T H1 K1) as (C1 & _ & _ & C).
    destruct (l_body l) as [|? ?|n0]; try discriminate G. destruct (l_body l1) as [|? ?|n1] eqn:B; try destruct C.
    assert (X : In p (keys n1)) by (apply C, get_Some_keys; now exists k). apply get_Some_keys in X as [k' X]. exists k', l1. split; [exact H1|]. split; [congruence|now rewrite B].
Qed.
(** Reported links are configured ones. *)
Lemma own_link_n u v k : own_link s u v k -> exists i b f z, nth_error w i = Some b /\ bname b = u /\ In (v, f, of_int z) (stat_of b) /\ k = z /\ 0 < z.
Proof using PJ N1 N2 Sd St.
  intros (l & al & a & (j & m & Ej & En0 & Hl & Ol) & B & Ha & En & Ek).
  assert (X : In (stat a) (links l)) by (unfold links; rewrite B; now apply (in_map stat)).
  destruct (@links_n _ _ _ _ Ej Hl X) as (j' & m' & Ej' & O' & Hs). assert (j' = j) by (destruct N1 as [_ U]; apply (U _ _ _ _ Ej' Ej); congruence). subst j'.
  assert (m' = m) by congruence. subst m'. pose proof (@nbs_n _ _ _ Ej Hs) as Hn. destruct (@N2 _ (nth_error_In _ _ Ej)) as [A _]. unfold stat in Hn, Hs. destruct (A _ _ _ Hn) as (z & Ez & Z0).
  exists j, m, (a_uri a), z. split; [exact Ej|]. split; [exact En0|]. split; [rewrite <- Ez, <- En; exact Hs|]. split; [|exact Z0].
  rewrite <- Ek. rewrite !link_cost_eq. rewrite Ez. symmetry. symmetry. apply whole_link.
Qed.
Lemma usable_n i b u v k : nth_error w i = Some b -> usable (topology b i s) u v k <-> link s u v k.
Proof using PJ Cu N1 N2 Sd St.
  intros E. split.
  - intros (x & y & X & Y & _ & _ & K). exists x, y. split; [exact (proj1 (@topology_n _ _ _ _ _ E) X)|]. split; [exact (proj1 (@topology_n _ _ _ _ _ E) Y)|exact K].
  - intros (x & y & X & Y & K). destruct (@own_link_n _ _ _ X) as (_ & _ & _ & z & _ & _ & _ & Ex & Z0). destruct (@own_link_n _ _ _ Y) as (_ & _ & _ & z' & _ & _ & _ & Ey & Z1).
    exists x, y. split; [exact (proj2 (@topology_n _ _ _ _ _ E) X)|]. split; [exact (proj2 (@topology_n _ _ _ _ _ E) Y)|]. split; [lia|]. split; [lia|exact K].
Qed.

(** The routers as C88 sees them. *)
Definition member (i : nat) (b : box) : node := Node (b_conf b) (brun b i s).
Definition members : list node := map (fun x => member (fst x) (snd x)) (combine (seq 0 (length w)) w).
Lemma in_combine_seq A (l : list A) : forall k i b, In (i, b) (combine (seq k (length l)) l) <-> exists j, i = (k + j)%nat /\ nth_error l j = Some b.
Proof using.
  induction l as [|x l IH]; intros k i b; cbn [length seq combine].
  - split; [intros []|intros (j & _ & H); now destruct j].
  - cbn [In]. rewrite IH. split.
    + intros [E|(j & -> & H)]; [injection E as <- <-; exists O; split; [lia|reflexivity]|exists (S j); split; [lia|exact H]].
    + intros ([|j] & -> & H); [left; injection H as <-; f_equal; lia|right; exists j; split; [lia|exact H]].
Qed.
Lemma in_members x : In x members <-> exists i b, nth_error w i = Some b /\ x = member i b.
Proof using.
  unfold members. rewrite in_map_iff. split.
  - intros ((i & b) & <- & H). apply in_combine_seq in H as (j & -> & H). exists j, b. auto.
  - intros (i & b & H & ->). exists (i, b). split; [reflexivity|]. apply in_combine_seq. exists i. auto.
Qed.

(** What routers fetched. *)
Lemma sane_n i b : nth_error w i = Some b -> sane_names (brun b i s).
Proof using P PJ N1 Sd.
  intros E d (x & fid & H). cbn [brun u_evs] in H. destruct (@gpossible_in s i _ P H) as (s1 & s2 & Es & P1 & (b' & Eb & A)). cbn [fst snd] in Eb, A.
  destruct A as [A|(j & m & f & c1 & c2 & l & k & Ej & Ef & Hd & Ec)]; [discriminate A|].
  destruct (asked_type (f_iname f)) as [ty|] eqn:T; [|discriminate Ec]. destruct (@project uri_of ang dst time_str time_parse uri_parse w s1 P1) as [t1 J1].
  assert (Hd' : In (OData (f_iname f ++ [c1; c2]) l k) (M_Net.nouts (node_of m) j t1)) by (rewrite (pj_outs J1 _ Ej); exact Hd).
  destruct (@data_spec time_str time_parse uri_parse wn W_n t1 j (node_of m) (f_iname f) c1 c2 l k ty (pj_possible J1) (nth_wn _ _ Ej) Hd' T) as (_ & -> & _).
  assert (Hs : In (OData (f_iname f ++ [c1; c2]) l k) (db_outs (btrace m j s))).
  { rewrite Es. destruct (btrace_app m j s1 ((i, (x, GvDb (EFetchDone fid (Some d)))) :: s2)) as [r ->]. unfold db_outs, pouts. rewrite !flat_map_app. apply in_or_app. now left. }
  destruct (@Sd _ _ _ _ _ Ej Hs) as (En & Fi & Nn). rewrite (C41_roundtrip En Fi) in Ec. injection Ec as ->.
  destruct En as (_ & _ & _ & En). unfold S_Codec.advertised. cbn [l_body]. destruct (l_body l) as [al|? ?|nl]; cbn [advertised_body body_names] in *; [split; [constructor|intros ? ? []]..|].
  split; [exact (proj1 En)|exact Nn].
Qed.

Variable p : name.
Hypothesis Pl : plain w p.
Notation net := members.
Notation serves := (serves uri_of ang dst net p).
Notation sends := (sends uri_of ang dst net p).

Lemma single_n : single net.
Proof using St. intros x Hx. apply in_members in Hx as (i & b & E & ->). apply (@St _ _ E). Qed.
Lemma quiet_n : quiet uri_of ang dst net p.
Proof using P PJ N1 Sd St Pl.
  intros x Hx. apply in_members in Hx as (i & b & E & ->). destruct (@St _ _ E) as (_ & U & Se). cbn [member nd_conf nd_run]. split; [exact U|]. split; [exact Se|]. split; [exact (@sane_n _ _ E)|].
  change (P_Router.db (b_conf b) uri_of ang dst (brun b i s)) with (bdb b i s). split; [|split; [|split]].
  - rewrite (@db_n _ _ E). exact (@stored_nodup _ _ _ _ W_n t i (node_of b) (pj_possible PJ) sd_n (nth_wn _ _ E)).
  - exact (proj1 (@Pl _ (nth_error_In _ _ E))).
  - intros H. destruct (@adl_n _ _ E) as [_ S0]. unfold is_neighbour, neighbour in H. apply in_map_iff in H as (a & En & Ha).
    apply (proj2 (@Pl _ (nth_error_In _ _ E)) (a_uri a) (a_cost a)). rewrite <- En. apply (@nbs_n _ _ _ E). rewrite <- S0. exact (in_map stat _ _ Ha).
  - intros l Hl. destruct (@origin_n _ _ _ E Hl) as (j & m & Ej & ->). intros X. exact (proj1 (@Pl _ (nth_error_In _ _ Ej)) (eq_sym X)).
Qed.
Lemma serves_n d : serves d <-> origin_of s p d.
Proof using.
  split.
  - intros (x & k & Hx & En & L). apply in_members in Hx as (i & b & E & ->). destruct L as (l & Hl & Ho & G). exists l, k. split; [|exact G].
    exists i, b. split; [exact E|]. split; [exact En|]. split; [exact Hl|exact Ho].
  - intros (l & k & (i & b & E & En & Hl & Ho) & G). exists (member i b), k. split; [apply in_members; eauto|]. split; [exact En|]. exists l. auto.
Qed.
Lemma agreed_n : agreed uri_of ang dst net p.
Proof using P PJ N1 N2 Sd St Cu.
  split; [|split].
  - intros x y Hx Hy X. apply in_members in Hx as (i & b & E & ->). apply in_members in Hy as (j & m & E' & ->).
    assert (i = j) by (destruct N1 as [_ U]; exact (U _ _ _ _ E E' X)). subst j. congruence.
  - intros x y u v k Hx Hy. apply in_members in Hx as (i & b & E & ->). apply in_members in Hy as (j & m & E' & ->). cbn [member nd_conf nd_run].
    intros H. apply (@topology_n _ _ _ _ _ E'). now apply (@topology_n _ _ _ _ _ E).
  - intros x d Hx N. rewrite serves_n. apply in_members in Hx as (i & b & E & ->). exact (@prefixes_n i b d p E).
Qed.
Lemma face_n i b v k : nth_error w i = Some b -> link s (bname b) v k -> exists z, In (v, face (b_conf b) uri_of ang dst (brun b i s) v, of_int z) (u_nbs (b_start b)).
Proof using PJ N1 N2 Sd St.
  intros E (x & y & X & _). destruct (@own_link_n _ _ _ X) as (i' & b' & f & z & E' & En & H & _).
  assert (i' = i) by (destruct N1 as [_ U]; exact (U _ _ _ _ E' E En)). subst i'. assert (b' = b) by congruence. subst b'.
  exists z. destruct (@adl_n _ _ E) as [Nd S0]. assert (F : face (b_conf b) uri_of ang dst (brun b i s) v = f).
  { unfold face. rewrite <- S0 in H. exact (@face_stat _ _ _ _ Nd H). }
  rewrite F. exact (@nbs_n _ _ _ E H).
Qed.
Lemma sound_n : sound_links uri_of ang dst net.
Proof using P PJ N1 N2 Sd St Cu.
  intros x Hx. apply in_members in Hx as (i & b & E & ->). cbn [member nd_conf nd_run]. split.
  - intros u v k H. apply (@usable_n _ _ _ _ _ E) in H as (a & c & X & Y & ->). destruct (@own_link_n _ _ _ X) as (_ & _ & _ & z & _ & _ & _ & -> & Z0).
    destruct (@own_link_n _ _ _ Y) as (j & m & _ & _ & Ej & En & _). split; [exists (member j m); split; [apply in_members; eauto|exact En]|lia].
  - intros v v' k k' H H' F. apply (@usable_n _ _ _ _ _ E) in H, H'. destruct (@face_n _ _ _ _ E H) as [z X]. destruct (@face_n _ _ _ _ E H') as [z' X'].
    apply (proj2 (@N2 _ (nth_error_In _ _ E)) _ _ _ _ _ _ X X'). exact F.
Qed.
Lemma only_links_n i b f : nth_error w i = Some b -> In f (faces_for (b_conf b) uri_of ang dst (brun b i s) p) ->
  exists v k, link s (bname b) v k /\ f = face (b_conf b) uri_of ang dst (brun b i s) v.
Proof using P PJ N1 N2 Sd St Cu Pl.
  intros E H. assert (Hx : In (member i b) net) by (apply in_members; eauto). destruct (@quiet_n _ Hx) as (Q1 & Q2 & Q3 & Q4 & Q5). cbn [member nd_conf nd_run] in *.
  destruct (@nearest_dec (b_conf b) uri_of ang dst (brun b i s) p (proj1 (@St _ _ E)) Q1 Q2 Q3 Q4 Q5) as [(c & v & k & d & _ & _ & _ & _ & Us & _ & F)|[_ F]];
    rewrite F in H; [|destruct H]. destruct H as [<-|[]]. exists v, k. split; [now apply (@usable_n _ _ _ _ _ E)|reflexivity].
Qed.
Lemma sends_n u v : sends u v <-> hands s p u v.
Proof using P PJ N1 N2 Sd St Cu Pl.
  split.
  - intros (x & y & Hx & Hy & Eu & Ev & (k & Us) & Hf). apply in_members in Hx as (i & b & E & ->). cbn [member nd_conf nd_run] in *.
    apply (@usable_n _ _ _ _ _ E) in Us. exists i, b. split; [exact E|]. split; [exact Eu|].
    assert (Us' : link s (bname b) v k) by (unfold node_name in Eu; cbn in Eu; unfold bname; rewrite Eu; exact Us).
    destruct (@face_n _ _ _ _ E Us') as [z X]. exists (face (b_conf b) uri_of ang dst (brun b i s) v), (of_int z). auto.
  - intros (i & b & E & Eu & f & kf & Hn & Hf).
    assert (Lk : exists k, link s u v k).
    { destruct (@only_links_n _ _ _ E Hf) as (v' & k & L & ->). destruct (@face_n _ _ _ _ E L) as [z X].
      assert (v' = v) by (apply (proj2 (@N2 _ (nth_error_In _ _ E)) _ _ _ _ _ _ X Hn); reflexivity). subst v'. rewrite <- Eu. now exists k. }
    destruct Lk as [k L]. pose proof L as (x & y & _ & Y & _). destruct (@own_link_n _ _ _ Y) as (j & m & _ & _ & Ej & En & _).
    exists (member i b), (member j m). split; [apply in_members; eauto|]. split; [apply in_members; eauto|]. split; [exact Eu|]. split; [exact En|].
    cbn [member nd_conf nd_run]. split; [exists k; now apply (@usable_n _ _ _ _ _ E)|]. rewrite <- Eu in L. destruct (@face_n _ _ _ _ E L) as [z X].
    assert (Ef : face (b_conf b) uri_of ang dst (brun b i s) v = f) by (apply (proj2 (@N2 _ (nth_error_In _ _ E)) _ _ _ _ _ _ X Hn); reflexivity). rewrite Ef. exact Hf.
Qed.
End Facts.

(** ** C89 *)

Lemma arrives_iff V (f f' : V -> V -> Prop) (g g' : V -> Prop) : (forall u v, f u v <-> f' u v) -> (forall u, g u <-> g' u) -> forall u, arrives f g u -> arrives f' g' u.
Proof using.
  intros F G u H. induction H as [u Hg|u Hn (v & Hv) _ IH]; [constructor; now apply G|]. apply arrives_hop; [now rewrite <- G|exists v; now apply F|].
  intros v' Hv'. apply IH. now apply F.
Qed.
Lemma trail_iff V (f f' : V -> V -> Prop) (g g' : V -> Prop) : (forall u v, f u v <-> f' u v) -> (forall u, g u <-> g' u) -> forall u l, trail f g u l -> trail f' g' u l.
Proof using. intros F G u l H. induction H as [u|u v l Hn Hv _ IH]; [constructor|]. constructor; [now rewrite <- G|now apply F|exact IH]. Qed.
Lemma travels_iff V (f f' : V -> V -> Prop) (g g' : V -> Prop) (l l' : V -> V -> Z -> Prop) : (forall u v, f u v <-> f' u v) -> (forall u, g u <-> g' u) ->
  (forall u v k, l u v k <-> l' u v k) -> forall u v k, travels f g l u v k -> travels f' g' l' u v k.
Proof using. intros F G L u v k H. induction H as [u Hg|u v x k c Hn Hv Hl _ IH]; [constructor; now apply G|]. apply (@travels_hop _ f' g' l' u v x k c); [now rewrite <- G|now apply F|apply L; exact Hl|exact IH]. Qed.

(** When every router stores every router's current Adjacency LSA, all routers store the same links: those that the routers report. *)
Theorem C89_topology s i b u v k : one_network w -> good_links w -> gpossible s -> good_sent s -> all_settled s -> all_current s ->
  nth_error w i = Some b -> advertises (topology b i s) u v k <-> own_link s u v k.
Proof using.
  intros N1 N2 P Sd St Cu E. destruct (@project _ _ _ _ _ _ w s P) as [t PJ]. exact (@topology_n s N1 N2 Sd St Cu t PJ i b u v k E).
Qed.
(** And the same prefixes. *)
Theorem C89_prefixes s i b d p : one_network w -> gpossible s -> good_sent s -> all_current s ->
  nth_error w i = Some b -> (exists k, lists (bdb b i s) d p k) <-> origin_of s p d.
Proof using.
  intros N1 P Sd Cu E. destruct (@project _ _ _ _ _ _ w s P) as [t PJ]. exact (@prefixes_n s N1 Sd Cu t PJ i b d p E).
Qed.

(** Every face of a FIB entry leads to a neighbour over a link that both ends report. *)
Theorem C89_faces s p i b f : one_network w -> good_links w -> gpossible s -> good_sent s -> all_settled s -> all_current s -> plain w p ->
  nth_error w i = Some b -> In f (faces_for (b_conf b) uri_of ang dst (brun b i s) p) ->
  exists v k c, link s (bname b) v k /\ In (v, f, c) (u_nbs (b_start b)).
Proof using.
  intros N1 N2 P Sd St Cu Pl E H. destruct (@project _ _ _ _ _ _ w s P) as [t PJ].
  destruct (@only_links_n s N1 N2 P Sd St Cu t PJ p Pl i b f E H) as (v & k & L & ->). destruct (@face_n s N1 N2 Sd St t PJ i b v k E L) as [z X].
  exists v, k, (of_int z). auto.
Qed.

(** In a network of running routers that have exchanged their LSAs and calculated their routes, with one face
    per prefix, a packet for the prefix that starts at a router from which an advertising router can be reached over the links that
    both ends report gets to an advertising router, whichever way it is sent, without visiting a
    router twice, and over a path of least cost. *)
Theorem C89_delivered s p i b d cost : one_network w -> good_links w -> gpossible s -> good_sent s -> all_settled s -> all_current s -> plain w p ->
  nth_error w i = Some b -> origin_of s p d -> walk (link s) (bname b) d cost -> cost < INF_DISTANCE ->
  arrives (hands s p) (origin_of s p) (bname b) /\
  (forall l, trail (hands s p) (origin_of s p) (bname b) l -> NoDup (bname b :: l)) /\
  (forall v c, travels (hands s p) (origin_of s p) (link s) (bname b) v c -> nearest (link s) (origin_of s p) (bname b) c).
Proof using.
  intros N1 N2 P Sd St Cu Pl E D W Lt. destruct (@project _ _ _ _ _ _ w s P) as [t PJ].
  pose proof (fun x y k => @usable_n s N1 N2 Sd St Cu t PJ i b x y k E) as Us.
  pose proof (@sends_n s N1 N2 P Sd St Cu t PJ p Pl) as Se. pose proof (@serves_n s p) as Sv.
  assert (Hx : In (member s i b) (members s)) by (apply in_members; eauto).
  assert (W' : walk (usable (topology b i s)) (bname b) d cost) by (eapply walk_mono; [|exact W]; intros x y k; apply Us).
  destruct (@C88_delivered uri_of ang dst (members s) p (member s i b) d cost (@single_n s St) (@quiet_n s N1 P Sd St t PJ p Pl) (@agreed_n s N1 N2 P Sd St Cu t PJ p)
    (@sound_n s N1 N2 P Sd St Cu t PJ) Hx (proj2 (Sv d) D) W' Lt) as (A1 & A2 & A3). split; [|split].
  - exact (@arrives_iff _ _ _ _ _ Se Sv _ A1).
  - intros l T. apply A2. eapply trail_iff; [| |exact T]; intros; symmetry; [apply Se|apply Sv].
  - intros v c T. assert (T' : travels (P_Router7.sends uri_of ang dst (members s) p) (P_Router7.serves uri_of ang dst (members s) p) (usable (topology b i s)) (bname b) v c).
    { eapply travels_iff; [| | |exact T]; intros; symmetry; [apply Se|apply Sv|apply Us]. }
    destruct (A3 v c T') as [(d' & D' & Wd) Mn]. split.
    + exists d'. split; [now apply Sv|]. eapply walk_mono; [|exact Wd]. intros x y k. apply Us.
    + intros d2 c2 D2 W2. apply (Mn d2); [now apply Sv|]. eapply walk_mono; [|exact W2]. intros x y k. apply Us.
Qed.
End Net.
