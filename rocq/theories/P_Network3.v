(** C97 in a network of whole routers: the links of the network and the neighbours that are up. *)
From Verif Require Import Base M_Nexthop L_Nexthop M_Tlv M_Adj M_Lsa M_Lsdb M_Codec M_Sync S_Lsdb S_Codec
  L_Lsdb L_Lsdb2 L_Lsdb3 L_Lsdb4 L_Codec P_Codec M_Wire M_Net S_Net L_Net P_Net S_Graph M_LinkState S_LinkState P_LinkState
  M_Hyperbolic M_RoutingTable M_Npt S_Npt M_Fib S_Fib S_Pipe M_Prefix M_Hello S_Hello L_Hello M_Router S_Router S_Delivery
  X_Lsdb X_Router L_Router P_Router P_Router3 P_Router6 P_Router7 P_Router11 M_Network L_Network S_Network P_Network P_Network2 P_Forward.
Open Scope Z_scope.
Set Implicit Arguments.

Section Net.
Variables (uri_of : name -> string) (ang : list Z -> list Z -> Z) (dst : Z -> Z -> Z -> Z).
Variables (time_str : Z -> string) (time_parse : string -> option Z) (uri_parse : string -> option uri).
Variable w : list box.
Notation bstate := (bstate uri_of ang dst).
Notation bdb := (bdb uri_of ang dst).
Notation gpossible := (gpossible uri_of ang dst time_str time_parse uri_parse w).
Notation good_sent := (good_sent uri_of ang dst time_str time_parse uri_parse w).
Notation own_link := (own_link uri_of ang dst w).
Notation link := (link uri_of ang dst w).
Notation hands := (hands uri_of ang dst w).
Notation wn := (map node_of w).

(** Every router is up, does not run hyperbolic routing only, and has no build of its Adjacency LSA waiting. *)
Definition all_built (s : gsched) : Prop := forall i b, nth_error w i = Some b ->
  c_hyp (gc (b_conf b)) <> HOn /\ up (b_conf b) uri_of ang dst (brun b i s) /\ s_sched (bdb b i s) = false.
(** The router [u] has the neighbour [v] as ACTIVE. *)
Definition sees (s : gsched) (u v : name) : Prop :=
  exists i b, nth_error w i = Some b /\ bname b = u /\ active (g_h (bstate b i s)) v.

(** In a network a router is never given an LSA of its own. *)
Lemma genuine_n s i b : one_network w -> gpossible s -> good_sent s -> nth_error w i = Some b -> genuine (b_conf b) (brun b i s).
Proof using.
  intros N1 P Sd E d (x & fid & H). cbn [brun u_evs] in H. destruct (@gpossible_in _ _ _ _ _ _ _ s i _ P H) as (s1 & s2 & Es & P1 & (b' & Eb & A)). cbn [fst snd] in Eb, A.
  destruct (@project uri_of ang dst time_str time_parse uri_parse w s1 P1) as [t1 J1].
  assert (Sd1 : good_sent s1).
  { intros j m n l k Ej Ho. apply (@Sd j m n l k Ej). rewrite Es. destruct (@btrace_app uri_of ang dst m j s1 ((i, (x, GvDb (EFetchDone fid (Some d)))) :: s2)) as [r ->].
    unfold db_outs, pouts. rewrite !flat_map_app. apply in_or_app. now left. }
  pose proof (@sd_n _ _ _ _ _ _ _ s1 Sd1 t1 J1) as S1.
  assert (A' : M_Net.allowed time_str time_parse uri_parse wn t1 (i, (n_env (node_of b), EFetchDone fid (Some d)))).
  { exists (node_of b). split; [now apply nth_wn|]. cbn [fst snd]. destruct A as [A|(j & m & f & c1 & c2 & l & k & Ej & Gf & Hd & Ec)]; [now left|right].
    assert (b' = b) by congruence. subst b'. exists j, (node_of m), f, c1, c2, l, k. split; [now apply nth_wn|]. split; [rewrite (pj_state J1 _ E); exact Gf|].
    split; [rewrite (pj_outs J1 _ Ej); exact Hd|exact Ec]. }
  destruct (@fetched_spec time_str time_parse uri_parse wn (@W_n w N1) t1 i (node_of b) _ fid d (pj_possible J1) S1 (nth_wn _ _ E) A') as (j & m & l & f & cq & (Em & O & _) & -> & Ne & _).
  unfold S_Codec.advertised. cbn [l_origin]. intros X. apply Ne. cbn [node_of n_conf]. congruence.
Qed.

(** The links that the routers of a network report are exactly those to the neighbours they have as ACTIVE. *)
Theorem C97_network s u v : one_network w -> gpossible s -> good_sent s -> all_built s -> (exists k, own_link s u v k) <-> sees s u v.
Proof using.
  intros N1 P Sd B. split.
  - intros (k & l & al & a & (i & b & E & En & Hl & Ho) & Bl & Ha & Na & _). destruct (B _ _ E) as (B1 & B2 & B3). exists i, b. split; [exact E|]. split; [exact En|].
    apply (proj2 (@C97_own (b_conf b) uri_of ang dst (brun b i s) v B1 B2 (@genuine_n s i b N1 P Sd E) B3)). exists l, al. split; [exact Hl|].
    split; [unfold bname in En; congruence|]. split; [exact Bl|]. rewrite <- Na. now apply in_map.
  - intros (i & b & E & En & Ac). destruct (B _ _ E) as (B1 & B2 & B3).
    apply (proj1 (@C97_own (b_conf b) uri_of ang dst (brun b i s) v B1 B2 (@genuine_n s i b N1 P Sd E) B3)) in Ac as (l & al & Hl & Ho & Bl & Hi).
    apply in_map_iff in Hi as (a & Na & Ha). exists (link_cost a), l, al, a. split; [|auto]. exists i, b. split; [exact E|]. split; [exact En|]. split; [exact Hl|].
    unfold bname in En. congruence.
Qed.

(** Once LSAs are exchanged and routes calculated, a router hands packets only to a neighbour that it has as ACTIVE
    and that has it as ACTIVE. *)
Theorem C97_hands s p u v : one_network w -> good_links w -> gpossible s -> good_sent s -> all_settled uri_of ang dst w s -> all_current uri_of ang dst w s -> plain w p ->
  all_built s -> hands s p u v -> sees s u v /\ sees s v u.
Proof using.
  intros N1 N2 P Sd St Cu Pl B (i & b & E & En & f & k & Hn & Hf).
  destruct (@C89_faces _ _ _ _ _ _ _ s p i b f N1 N2 P Sd St Cu Pl E Hf) as (v' & k' & c & (x & y & X & Y & _) & Hn').
  assert (v' = v) by (apply (proj2 (@N2 _ (nth_error_In _ _ E)) _ _ _ _ _ _ Hn' Hn); reflexivity). subst v'. rewrite En in X, Y.
  split; apply (C97_network _ _ N1 P Sd B); eauto.
Qed.
End Net.

(** ** The three routers of C89: r1 and r2 have each other as ACTIVE *)
Definition builtb (w : list box) (s : gsched) : bool :=
  forallb (fun y => negb (eqb (c_hyp (gc (b_conf (snd y)))) HOn) && negb (s_sched (bdb uriR angR dstR (snd y) (fst y) s))) (combine (seq 0 (length w)) w).
Lemma sN_built : builtb wN sN = true.
Proof. vm_cast_no_check (eq_refl true). Qed.
Example C97_network_example :
  one_network wN /\ good_links wN /\ gpossible uriR angR dstR ts8 tp8 Some wN sN /\ good_sent uriR angR dstR ts8 tp8 Some wN sN /\
  all_settled uriR angR dstR wN sN /\ all_current uriR angR dstR wN sN /\ plain wN X_Lsdb.pX /\ all_built uriR angR dstR wN sN /\
  hands uriR angR dstR wN sN X_Lsdb.pX selfX farX.
Proof.
  destruct C89_delivered_example as (A1 & A2 & A3 & A4 & A5 & A6 & A7 & _). repeat (split; [assumption|]). split.
  - intros i b E. pose proof sN_built as H. unfold builtb in H. rewrite forallb_forall in H. specialize (H (i, b) (proj2 (@in_iw wN i b) E)). cbn [fst snd] in H.
    apply andb_prop in H as [H1 H2]. split; [intros X; rewrite X in H1; discriminate H1|]. split; [exact (proj1 (proj2 (A5 _ _ E)))|]. destruct (s_sched _); [discriminate H2|reflexivity].
  - exists 0%nat, box1. split; [reflexivity|]. split; [reflexivity|]. exists uri2, (of_int 10). split; [rewrite box1_nbs; now apply or_introl|]. rewrite sN_face1. now apply or_introl.
Qed.
Example C97_network_case : sees uriR angR dstR wN sN selfX farX /\ sees uriR angR dstR wN sN farX selfX.
Proof.
  destruct C97_network_example as (A1 & A2 & A3 & A4 & A5 & A6 & A7 & A8 & A9). exact (@C97_hands _ _ _ _ _ _ _ _ _ _ _ A1 A2 A3 A4 A5 A6 A7 A8 A9).
Qed.

Print Assumptions C97_network.
Print Assumptions C97_hands.
