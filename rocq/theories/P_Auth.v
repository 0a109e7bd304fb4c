(** C94: LSAs in the database come from the routers themselves, if no router is compromised. *)
From Verif Require Import Base M_Nexthop M_Tlv M_Adj M_Lsa M_Lsdb S_Lsdb L_Lsdb L_Lsdb2 L_Lsdb3 L_Lsdb4 L_Lsdb5 L_Lsdb6 L_Lsdb7 S_Segments
  M_Hello M_Router M_Cert M_Trust S_Trust L_Trust L_Stats S_Auth P_Lsdb P_Lsdb2 P_Trust.
Open Scope Z_scope.
Set Implicit Arguments.

(** *** What a router signs *)

(** C94: every packet of an LSA that a router makes carries an LSA of its own that it held, and is named after the router itself, the type
    and the number of the LSA; or it repeats version and segment, and then nobody accepts it. *)
Theorem C94_signed c f now e0 evs n l j : lsa_conf c -> free (lit "nlsr") (c_network c) ->
  (forall e i p k v, In (e, EInterest i p k v) evs -> sane i) ->
  In (OData n l j) (snd (exec c f now e0 evs)) ->
  was_held c f now e0 evs l /\ l_origin l = c_self c /\
  exists rest cq v s, c_self c = c_network c ++ rest /\ to_number cq = Some (l_seq l) /\
   (n = lsa_packet (c_network c) rest (type_comp (l_type l)) cq v s /\ packet_of (c_self c) n \/
    exists v' s', n = lsa_packet (c_network c) rest (type_comp (l_type l)) cq v s ++ [v'; s'] /\
      forall kl, names_process_key (c_self c) kl -> policy validator n kl = false).
Proof.
  intros Hc Hn Hs H. destruct (@C11_history c f now e0 evs n l j Hc Hs (or_introl H)) as (A & B & i & v & En & rest & cq & tl & E1 & E2 & Ei & Ht).
  split; [exact A|]. split; [exact B|]. destruct Hc as [Hp Hl].
  assert (Fl : free (lit "LSA") (c_network c)).
  { intros x Hx. destruct (lit "LSA" x) eqn:E; [|reflexivity]. apply lit_true in E. subst x. now destruct Hl. }
  destruct Ht as [->|(v0 & x0 & _ & ->)].
  - exists rest, cq, (version_comp v), (segment_comp j). split; [exact E1|]. split; [exact E2|]. left.
    assert (E : n = lsa_packet (c_network c) rest (type_comp (l_type l)) cq (version_comp v) (segment_comp j)).
    { rewrite En, Ei, Hp. unfold lsa_packet. change NLSR with (gen "nlsr"%string). rewrite app_nil_r, <- !app_assoc. reflexivity. }
    split; [exact E|]. left. exists (c_network c), rest. eauto 10.
  - exists rest, cq, v0, x0. split; [exact E1|]. split; [exact E2|]. right. exists (version_comp v), (segment_comp j).
    assert (E : n = lsa_packet (c_network c) (rest ++ [type_comp (l_type l); cq]) v0 x0 (version_comp v) (segment_comp j)).
    { rewrite En, Ei, Hp. unfold lsa_packet. change NLSR with (gen "nlsr"%string). rewrite <- !app_assoc. reflexivity. }
    split; [rewrite E; unfold lsa_packet; rewrite <- !app_assoc; reflexivity|].
    intros kl (x & Ek & Lx). destruct (policy validator n kl) eqn:P; [|reflexivity]. exfalso. rewrite E in P.
    apply C92_lsa in P as ((y & Ey & Ly) & K1 & K2); auto.
    assert (Q : c_self c = c_network c ++ rest ++ [type_comp (l_type l); cq]).
    { rewrite Ek in Ey. cbn [app] in Ey. refine (proj1 (@cut_unique (fun z => z = NLSR) _ _ _ _ _ _ _ _ eq_refl eq_refl Ey)).
      - intros z Hz ->. rewrite E1 in Hz. assert (In NLSR (c_network c ++ rest ++ [type_comp (l_type l); cq])) as X by (rewrite app_assoc; apply in_or_app; now left).
        apply K2 in X. discriminate X.
      - intros z Hz ->. apply K2 in Hz. discriminate Hz. }
    rewrite E1 in Q. apply app_inv_head in Q. apply (f_equal (@length comp)) in Q. rewrite app_length in Q. cbn in Q. lia.
Qed.

Lemma reply_prefix c s x i : In (HReply i) (snd (hstep c s x)) -> exists y, i = (hc_self c ++ [NLSR; INFO]) ++ y.
Proof.
  set (P := fun o => forall i, In (HReply i) o -> exists y, i = (hc_self c ++ [NLSR; INFO]) ++ y). revert i. change (P (snd (hstep c s x))).
  assert (A : forall a b, P a -> P b -> P (a ++ b)) by (unfold P; intros a b Ha Hb i H; apply in_app_or in H as [H|H]; auto).
  assert (P0 : P []) by (intros i []).
  assert (E : forall n, hok P (M_Hello.express n)) by (intros n s' i [X|[X|[]]]; discriminate X).
  assert (Pl : forall x, hplain x = true -> P [x]) by (intros y Hy i [X|[]]; subst y; discriminate Hy).
  assert (St : forall p, P [HStat p]) by (intros p i [X|[]]; discriminate X).
  assert (D : (exists n, x = HvInterest n) \/ (exists i d, x = HvData i d) \/ ((forall n, x <> HvInterest n) /\ forall i d, x <> HvData i d)).
  { destruct x; eauto; right; right; split; discriminate. }
  destruct D as [(n & ->)|[(i & d & ->)|[D1 D2]]].
  - unfold hstep. destruct (h_dead s); [exact P0|]. destruct (prefix_of _ _) eqn:Pr; [|exact P0]. apply prefix_of_iff in Pr as [y Ey].
    apply (hok_seq A); [intros s2; apply St|]. intros s'. destruct (negb _); [exact P0|].
    destruct (from_end 1 n); [|exact P0]. destruct (decode_neighbor _); [|intros i [X|[]]; discriminate X]. destruct (adl_find _ _); [|exact P0].
    apply (hok_seq A); [intros s2 i [X|[]]; injection X as <-; eauto|]. apply (hok_seq A); [intros s2; apply St|].
    destruct (_ && _); [apply E|intros s2; exact P0].
  - unfold hstep. destruct (h_dead s); [exact P0|]. destruct (get i (h_pend s)); [|exact P0]. destruct (prefix_of _ _); [|exact P0].
    unfold content_validated. apply (hok_seq A); [|intros s2; apply St]. intros s'. destruct (info_at 3 d); [|exact P0].
    destruct (eqb _ _); [exact P0|]. apply (hok_seq A); [now apply hok_changed|].
    intros s2. unfold initial_data. destruct (adl_find _ _); [apply Pl; reflexivity|exact P0].
  - now apply hok_most.
Qed.

(** C94: an answer to a Hello is named after the router that makes it, not after another. *)
Theorem C94_answers c s x i v r : ~ In NLSR (hc_self c) -> hd_error (hc_self c) <> Some (gen "localhop"%string) -> In (HReply i) (snd (hstep c s x)) ->
  packet_of r (i ++ [v]) -> ~ In NLSR r -> r = hc_self c.
Proof.
  intros N Hl H Hp Nr. apply reply_prefix in H as [y ->].
  destruct Hp as [(net & rest & t & q & w & u & -> & _ & _ & E)|(a & w & E)].
  - exfalso. unfold lsa_packet in E. destruct (hc_self c) as [|z self] eqn:Es; [|apply Hl; cbn in E; injection E as -> _; reflexivity].
    cbn in E. discriminate E.
  - unfold hello_packet in E. rewrite <- !app_assoc in E. symmetry.
    refine (proj1 (@cut_unique (fun z => z = NLSR) _ _ _ _ _ _ _ _ eq_refl eq_refl E)); intros z Hz ->; auto.
Qed.

(** *** What a router stores *)

(** An LSA of another router in the database is one that a retrieval yielded. *)
Lemma stored_retrieved c f now e0 evs l : let s := after c f now e0 evs in
  holds s l -> l_origin l <> c_self c -> exists i l0, retrieved c f now e0 evs i l0 /\ same_lsa l0 l.
Proof.
  cbv zeta. revert l. induction evs as [|x evs IH] using rev_ind; intros l H N.
  - exfalso. assert (R : reachable c (after c f now e0 [])) by (exists f, now, e0, []; reflexivity). apply (holds_find l (reachable_inv R)) in H.
    assert (St : forall s s' o, (forall y, find_lsa (l_key l) s <> Some y) -> eff c s (e0, EBuildName) s' o -> forall y, find_lsa (l_key l) s' <> Some y).
    { intros s s' o F E y. destruct E as [E1 E2|fid g cq q origin ct t l1 Ex _ _ _ _ _ _ _ _ _ Eo Eq|t q0 b _ Eb _ _ _ Eq Eo|l1 tid Ex _ _ _ _|l1 tid Ex _ _ _ _|l1 tid Ex _ _ _ _]; try discriminate Ex.
      - rewrite E1. apply F.
      - rewrite Eo. destruct (eqb (l_key l) (l_key (own c t (q0 + 1) (e_sys (fst (e0, EBuildName))) b))) eqn:K; [|apply F]. apply eqb_eq in K.
        exfalso. apply N. unfold l_key in K. now injection K. }
    destruct (@init_effs c f now e0) as (s1 & o1 & _ & E1 & _ & _ & E2).
    assert (F1 : forall y, find_lsa (l_key l) s1 <> Some y) by (eapply St; [|exact E1]; intros y; discriminate).
    assert (Ei : after c f now e0 [] = fst (init c f now e0)) by (unfold S_Segments.after; rewrite exec_fst; reflexivity).
    rewrite Ei in H. destruct (eqb (c_hyp c) HOff).
    + destruct E2 as [E2 _]. rewrite E2 in H. now apply F1 in H.
    + destruct E2 as (o2 & E2 & _). exact (@St _ _ _ F1 E2 _ H).
  - assert (R : reachable c (after c f now e0 evs)) by (exists f, now, e0, evs; reflexivity).
    pose proof (reachable_inv R) as I. pose proof (reachable_inv (reachable_step x R)) as I'.
    assert (Es : after c f now e0 (evs ++ [x]) = fst (step c (after c f now e0 evs) x)) by exact (proj1 (exec_snoc c f now e0 evs x)).
    rewrite Es in H. set (s := after c f now e0 evs) in *.
    assert (Mono : forall i l0, retrieved c f now e0 evs i l0 -> retrieved c f now e0 (evs ++ [x]) i l0).
    { intros i l0 (a & e & fid & b & g & -> & Hg). exists a, e, fid, (b ++ [x]), g. split; [now rewrite <- app_assoc|exact Hg]. }
    assert (Old : forall y, holds s y -> l_origin y <> c_self c -> exists i l0, retrieved c f now e0 (evs ++ [x]) i l0 /\ same_lsa l0 y).
    { intros y Hy Ny. destruct (IH _ Hy Ny) as (i & l0 & A & B). exists i, l0. auto. }
    apply (holds_find l I') in H.
    assert (Keep : find_lsa (l_key l) s = Some l -> exists i l0, retrieved c f now e0 (evs ++ [x]) i l0 /\ same_lsa l0 l).
    { intros X. apply Old; [now apply (holds_find l I)|exact N]. }
    destruct (step_eff c x I) as [E1 E2|fid g cq q origin ct t l1 Ex Ef _ _ _ _ _ _ _ _ Eo Eq|t q0 b _ Eb _ _ _ Eq Eo|l1 tid Ex El Eo Ef Eq|l1 tid Ex El Eo Ef Eq|l1 tid Ex El Ea Ef Eq].
    + rewrite E1 in H. auto.
    + rewrite Eo in H. destruct (eqb (l_key l) (l_key l1)) eqn:K; [|auto]. apply eqb_eq in K. injection H as H.
      assert (New : retrieved c f now e0 (evs ++ [x]) (f_iname g) l1).
      { destruct x as [e v]. cbn [snd] in Ex. subst v. exists evs, e, fid, [], g. split; [reflexivity|]. split; [exact Ef|reflexivity]. }
      unfold offer in H. destruct (find_lsa (l_key l1) s) as [o|] eqn:Fo.
      2: { subst l1. exists (f_iname g), l. split; [exact New|]. repeat split; auto. }
      assert (Ko : l_key o = l_key l1) by exact (find_key I Fo).
      destruct (l_seq o <? l_seq l1)%N eqn:Lt.
      2: { subst o. apply Keep. now rewrite K. }
      exists (f_iname g), l1. split; [exact New|]. unfold l_key in Ko. injection Ko as Ko1 Ko2. subst l. unfold same_lsa.
      assert (T : l_type (merged o l1) = l_type l1) by (unfold l_key in K; cbn [l_origin merged] in K; now injection K).
      split; [cbn; auto|]. split; [auto|]. split; [reflexivity|]. split; [reflexivity|]. intros p.
      destruct (l_body l1) as [| |nl] eqn:Eb1.
      1-2: unfold l_type in T; rewrite Eb1 in T; destruct (l_body (merged o l1)); cbn in T; try discriminate T; cbn; tauto.
      rewrite <- Eb1. symmetry. apply merged_names; unfold l_type in *; rewrite Eb1 in *; auto.
    + rewrite Eo in H. destruct (eqb (l_key l) (l_key (own c t (q0 + 1) (e_sys (fst x)) b))) eqn:K; [|auto]. apply eqb_eq in K.
      exfalso. apply N. unfold l_key in K. now injection K.
    + rewrite Ef in H. destruct (eqb (l_key l) (l_key l1)) eqn:K; [|auto]. apply eqb_eq in K. exfalso. apply N. rewrite <- Eo. unfold l_key in K. now injection K.
    + rewrite Ef in H. destruct (eqb (l_key l) (l_key l1)) eqn:K; [discriminate H|auto].
    + rewrite Ef in H. destruct (eqb (l_key l) (c_self c, TAdj)) eqn:K; [discriminate H|auto].
Qed.

Lemma designates_packet i r v s : designates i r -> packet_of r (i ++ [v; s]).
Proof.
  intros (net & rest & t & q & E & H1 & H2 & ->). left. exists net, rest, t, q, v, s. split; [exact E|]. split; [exact H1|]. split; [exact H2|].
  unfold lsa_packet. rewrite <- !app_assoc. reflexivity.
Qed.

Section C94.
Variables (conf published : list tcert) (own : option tcert) (store forged : list tcert) (K : N -> Prop).
Variables (carries : packet -> lsa -> Prop) (made : name -> lsa -> Prop).
Variables (c : M_Lsdb.conf) (f : option seqs) (now : Z) (e0 : env) (evs : list (env * ev)).
(** [K]: the keys of an attacker, who can make any certificates with them and sign any packets. *)
Hypothesis forgeries : forall t, In t forged -> K (tc_sig t).
Hypothesis validated : checked (data_accepted conf published own (store ++ forged)) carries c f now e0 evs.

(** C94: what is retrieved under the name of a router out of the attacker's reach is an LSA that this router made. *)
Theorem C94_retrieved i r l : designates i r -> out_of_reach K conf published own store r -> honest K carries made r ->
  retrieved c f now e0 evs i l -> made r l.
Proof using forgeries validated.
  intros D [Hl O] H R. destruct (validated R) as (p & v & s & En & A & C). pose proof (designates_packet v s D) as P. rewrite <- En in P.
  destruct (@C92_unforgeable conf published own store forged K r p P Hl O forgeries A) as [N _]. exact (H _ _ P N C).
Qed.

(** C94: so if no router whose LSAs are retrieved is in the attacker's reach, every LSA of another router in the database was made by that router. *)
Theorem C94_stored l :
  (forall i l, retrieved c f now e0 evs i l -> exists r, designates i r /\ out_of_reach K conf published own store r /\ honest K carries made r) ->
  (forall r l, made r l -> l_origin l = r) ->
  holds (after c f now e0 evs) l -> l_origin l <> c_self c ->
  exists l0, made (l_origin l) l0 /\ same_lsa l0 l.
Proof using forgeries validated.
  intros H M Hl N. destruct (@stored_retrieved c f now e0 evs l Hl N) as (i & l0 & R & S). exists l0. split; [|exact S].
  destruct (H _ _ R) as (r & D & O & Ho). pose proof (C94_retrieved D O Ho R) as X. destruct S as (S & _). rewrite <- S, (M _ _ X). exact X.
Qed.
End C94.

(** *** A concrete network: routers rt1 and rt2 of P_Trust, and a third one that stores their LSAs *)

Definition rt3 := ucla ++ [ROm; gen "rt3"%string].
Definition lsap := nm ["localhop"; "ndn"; "nlsr"; "LSA"]%string.
Definition conf3 : M_Lsdb.conf := Conf ndn rt3 lsap 1800 3600 3 1 10 HOff 0 [0] 4.
Definition env3 : env := Env (1000000 * SEC) [] [].
Definition site_rest (r : string) : name := nm ["ucla"%string] ++ [ROm; gen r].
Definition asked (r : string) : name := lsap ++ site_rest r ++ [type_comp TName; number_comp 5].
Definition video : name := nm ["ndn"; "video"]%string.
Definition lsa_r1 : lsa := Lsa rt1 5 (1000000 * SEC + 3600 * SEC) (BName [(video, 0)]).
(** The Name LSA number 5 of router [r] is announced and retrieved, and the content is [lsa_r1]. *)
Definition evs3 (r : string) : list (env * ev) :=
  [(env3, ESync (lsap ++ site_rest r ++ [type_comp TName]) 5 300); (env3, EFetchDone 0 (Some lsa_r1))].
Definition pkt3 (r : string) (kl : name) (k : N) : packet := Pkt (asked r ++ [gen "v"%string; gen "s"%string]) kl k.

Lemma retrieved3 r i l : retrieved conf3 None 0 env3 (evs3 r) i l -> r = "rt1"%string \/ r = "rt2"%string -> i = asked r /\ l = lsa_r1.
Proof.
  intros (a & e & fid & b & g & E & G & Ei) Hr. unfold evs3 in E.
  destruct a as [|x [|y a]]; cbn in E; [discriminate E| |].
  - injection E as <- _ <- <- _. split; [|reflexivity]. destruct Hr as [-> | ->]; vm_compute in G; injection G as <-; rewrite <- Ei; vm_compute; reflexivity.
  - injection E as _ _ E. destruct a; discriminate E.
Qed.
Lemma reach1 : out_of_reach K2 [c_root] [] None all_certs rt1.
Proof.
  assert (O : ~ may_vouch rt1 rt2 /\ ~ may_vouch rt1 (rt2 ++ [NLSR])).
  { apply (@C92_others rt1 ucla ROm [gen "rt2"%string]); [|nokey|reflexivity|byfree]. intros [[x X]|[x X]]; discriminate X. }
  destruct O as [O1 O2]. split; [discriminate|]. intros t Hc V. unfold all_anchors, all_certs in Hc. cbn [app In] in Hc. unfold K2.
  destruct Hc as [[<-|[]]|[<-|[<-|[<-|[<-|[<-|[<-|[]]]]]]]]; cbn; intuition discriminate.
Qed.
(** Both routers have documented certificates. *)
Lemma accepted3 : data_accepted [c_root] [] None all_certs (pkt3 "rt1" (rt1 ++ NLSR :: KEY :: g1) 5) /\
  data_accepted [c_root] [] None all_certs (pkt3 "rt2" (rt2 ++ NLSR :: KEY :: g1) 7).
Proof.
  assert (G : forall r ct cp, (r = "rt1"%string \/ r = "rt2"%string) -> In ct all_certs -> In cp all_certs ->
    cert_of (ucla ++ ROm :: [gen r]) ct -> cert_of ((ucla ++ ROm :: [gen r]) ++ [NLSR]) cp -> issued ct c_op -> issued cp ct -> points_to ((ucla ++ ROm :: [gen r]) ++ NLSR :: KEY :: g1) cp ->
    data_accepted [c_root] [] None all_certs (pkt3 r ((ucla ++ ROm :: [gen r]) ++ NLSR :: KEY :: g1) (tc_key cp))).
  { intros r ct cp Hr It Ip Ct Cp I1 I2 P.
    assert (F : forall h, h (gen "ndn"%string) = false -> h (gen "ucla"%string) = false -> h ROm = false -> h (gen "rt1"%string) = false -> h (gen "rt2"%string) = false -> h (gen "op"%string) = false ->
      free h ((ndn ++ nm ["ucla"%string]) ++ ROm :: [gen r] ++ [gen "op"%string])).
    { intros h H1 H2 H3 H4 H5 H6 z Hz. cbn in Hz. destruct Hr as [-> | ->]; intuition (subst; auto). }
    refine (@C92_genuine [c_root] [] None all_certs ndn (nm ["ucla"%string]) ROm [gen r] OPm [gen "op"%string]
      c_root c_site c_op ct cp _ _ eq_refl eq_refl _ _ _ _ _ _ (or_introl eq_refl) _ (@crt_of _ _ _ _) (@crt_of _ _ _ _) (@crt_of _ _ _ _) Ct Cp _ _ I1 I2 _ P).
    - byfree.
    - byfree.
    - byfree.
    - rewrite <- app_assoc. cbn [app]. apply (F (lit "KEY")); reflexivity.
    - rewrite <- app_assoc. cbn [app]. apply (F (lit "nlsr")); reflexivity.
    - intros z Hz. cbn in Hz. destruct Hr as [-> | ->]; intuition (subst; auto).
    - intros z [<-|[<-|[<-|[<-|[]]]]]; auto; cbn; auto.
    - apply crt_issued; [nokey|reflexivity|reflexivity].
    - apply crt_issued; [nokey|reflexivity|reflexivity].
    - left. exists ndn, (nm ["ucla"%string] ++ [ROm; gen r]), (type_comp TName), (number_comp 5), (gen "v"%string), (gen "s"%string).
      split; [reflexivity|]. split; [byfree|]. split; [byfree|]. reflexivity. }
  split.
  - refine (G "rt1"%string c_rt1 c_p1 (or_introl eq_refl) _ _ (@crt_of _ _ _ _) (@crt_of _ _ _ _) _ _ _); try (cbn; tauto).
    + apply crt_issued; [nokey|reflexivity|reflexivity].
    + apply crt_issued; [nokey|reflexivity|reflexivity].
    + exists g1, []; repeat split; discriminate.
  - refine (G "rt2"%string c_rt2 c_p2 (or_intror eq_refl) _ _ (@crt_of _ _ _ _) (@crt_of _ _ _ _) _ _ _); try (cbn; tauto).
    + apply crt_issued; [nokey|reflexivity|reflexivity].
    + apply crt_issued; [nokey|reflexivity|reflexivity].
    + exists g1, []; repeat split; discriminate.
Qed.
Lemma accepted_more p forged : data_accepted [c_root] [] None all_certs p -> data_accepted [c_root] [] None (all_certs ++ forged) p.
Proof.
  intros (A & d & T & B). split; [exact A|]. exists d. split; [|exact B]. clear - T.
  induction T as [t H|t d H1 H2 H3 _ IH H4 H5]; [now apply tr_anchor|]. apply (@tr_signed _ _ _ t d); auto. apply in_or_app. now left.
Qed.

(** The LSA of rt1, signed by rt1, is stored; rt2 is an attacker that makes certificates for rt1. *)
Definition carries1 (p : packet) (l : lsa) : Prop := p = pkt3 "rt1" (rt1 ++ NLSR :: KEY :: g1) 5 /\ l = lsa_r1.
Definition made1 (r : name) (l : lsa) : Prop := r = rt1 /\ l = lsa_r1.
Example C94_stored_case :
  holds (after conf3 None 0 env3 (evs3 "rt1")) lsa_r1 /\ l_origin lsa_r1 <> c_self conf3 /\
  checked (data_accepted [c_root] [] None (all_certs ++ [forged1; forged2])) carries1 conf3 None 0 env3 (evs3 "rt1") /\
  (forall t, In t [forged1; forged2] -> K2 (tc_sig t)) /\
  (exists i, retrieved conf3 None 0 env3 (evs3 "rt1") i lsa_r1) /\
  (forall i l, retrieved conf3 None 0 env3 (evs3 "rt1") i l -> exists r, designates i r /\ out_of_reach K2 [c_root] [] None all_certs r /\ honest K2 carries1 made1 r) /\
  (forall r l, made1 r l -> l_origin l = r).
Proof.
  split; [vm_compute; tauto|]. split; [discriminate|]. split.
  { intros i l R. apply retrieved3 in R as [-> ->]; [|now left]. exists (pkt3 "rt1" (rt1 ++ NLSR :: KEY :: g1) 5), (gen "v"%string), (gen "s"%string).
    split; [reflexivity|]. split; [apply accepted_more, accepted3|now split]. }
  split; [intros t [<-|[<-|[]]]; now left|]. split.
  { exists (asked "rt1"), [(env3, ESync (lsap ++ site_rest "rt1" ++ [type_comp TName]) 5 300)], env3, 0%nat, [], (Fetch (asked "rt1") 0 (7200 * SEC)).
    split; [reflexivity|]. split; [vm_compute; reflexivity|reflexivity]. }
  split; [|intros r l [-> ->]; reflexivity].
  intros i l R. apply retrieved3 in R as [-> ->]; [|now left]. exists rt1. split; [|split; [exact reach1|]].
  - exists ndn, (site_rest "rt1"), (type_comp TName), (number_comp 5). split; [reflexivity|]. split; [byfree|]. split; [byfree|reflexivity].
  - intros p l P _ [-> ->]. now split.
Qed.

(** The claim about a single router: an LSA of [r] in the database was made by [r] if [r] itself is out of the attacker's reach.  It fails:
    any other router with a valid key can replace the LSAs of [r], as the origin inside an LSA is not compared with the name (C13). *)
Theorem C94_insider_refuted : exists conf published own store (K : N -> Prop) carries made c f now e0 evs r l,
  checked (data_accepted conf published own store) carries c f now e0 evs /\
  out_of_reach K conf published own store r /\ honest K carries made r /\ (forall r l, made r l -> l_origin l = r) /\
  holds (after c f now e0 evs) l /\ l_origin l = r /\ r <> c_self c /\ forall l0, ~ made r l0.
Proof.
  exists [c_root], [], None, all_certs, K2, (fun p l => p = pkt3 "rt2" (rt2 ++ NLSR :: KEY :: g1) 7 /\ l = lsa_r1), (fun _ _ => False),
    conf3, None, 0, env3, (evs3 "rt2"), rt1, lsa_r1.
  split.
  { intros i l R. apply retrieved3 in R as [-> ->]; [|now right]. exists (pkt3 "rt2" (rt2 ++ NLSR :: KEY :: g1) 7), (gen "v"%string), (gen "s"%string).
    split; [reflexivity|]. split; [apply accepted3|now split]. }
  split; [exact reach1|]. split; [intros p l _ N [-> _]; apply N; right; reflexivity|]. split; [intros r l []|].
  split; [vm_compute; tauto|]. split; [reflexivity|]. split; [discriminate|]. intros l0 [].
Qed.

(** A router answers an Interest for its Name LSA with a packet named after itself. *)
Example C94_signed_case : exists n l j,
  In (OData n l j) (snd (exec conf3 None 0 env3 [(env3, EInterest (lsap ++ site_rest "rt3" ++ [type_comp TName; number_comp 1]) true 1 9)])) /\
  lsa_conf conf3 /\ free (lit "nlsr") (c_network conf3) /\ packet_of rt3 n.
Proof.
  exists (lsap ++ site_rest "rt3" ++ [type_comp TName; number_comp 1; version_comp 9; segment_comp 0]), (Lsa rt3 1 (1000000 * SEC + 3600 * SEC) (BName [])), 0%N.
  split; [vm_compute; tauto|]. split; [split; [reflexivity|intros [X|[]]; discriminate X]|]. split; [byfree|].
  left. exists ndn, (site_rest "rt3"), (type_comp TName), (number_comp 1), (version_comp 9), (segment_comp 0). split; [reflexivity|]. split; [byfree|]. split; [byfree|reflexivity].
Qed.
(** Asked with a version, when the packet is not kept or no longer, it answers with a packet that nobody accepts from it. *)
Theorem C94_doubled_refuted : exists c f now e0 evs n l j, lsa_conf c /\ free (lit "nlsr") (c_network c) /\ free (lit "KEY") (c_self c) /\
  In (OData n l j) (snd (exec c f now e0 evs)) /\ forall kl, names_process_key (c_self c) kl -> policy validator n kl = false.
Proof.
  set (evs := [(env3, EInterest (lsap ++ site_rest "rt3" ++ [type_comp TName; number_comp 1; version_comp 9; segment_comp 0]) true 1 10)]).
  set (n := lsap ++ site_rest "rt3" ++ [type_comp TName; number_comp 1; version_comp 9; segment_comp 0; version_comp 10; segment_comp 0]).
  set (l := Lsa rt3 1 (1000000 * SEC + 3600 * SEC) (BName [])).
  assert (O : In (OData n l 0%N) (snd (exec conf3 None 0 env3 evs))) by (vm_compute; tauto).
  assert (C : lsa_conf conf3) by (split; [reflexivity|intros [X|[]]; discriminate X]).
  assert (F : free (lit "nlsr") (c_network conf3)) by byfree.
  exists conf3, None, 0, env3, evs, n, l, 0%N. split; [exact C|]. split; [exact F|]. split; [byfree|]. split; [exact O|].
  destruct (@C94_signed conf3 None 0 env3 evs n l 0%N C F) as (_ & _ & rest & cq & v & s & E & _ & [[X _]|(v' & s' & _ & X)]); [| |exfalso|exact X].
  - intros e i p k w [[= <- <- <- <- <-]|[]]. vm_compute. reflexivity.
  - exact O.
  - assert (Er : rest = site_rest "rt3") by (symmetry; exact (app_inv_head ndn _ _ E)). subst rest. apply (f_equal (@length comp)) in X. vm_compute in X. discriminate X.
Qed.

Print Assumptions C94_signed.
Print Assumptions C94_answers.
Print Assumptions C94_retrieved.
Print Assumptions C94_stored.
Print Assumptions C94_insider_refuted.
Print Assumptions C94_doubled_refuted.
