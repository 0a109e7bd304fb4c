(** C88: packets reach the prefix in a network of running routers. *)
From Coq Require Import Sorting.Permutation Sorting.Sorted.
From Verif Require Import Base M_Nexthop L_Nexthop M_Tlv M_Adj M_Lsa M_Lsdb L_Lsdb S_Lsdb L_Lsdb3 L_Lsdb4 L_Lsdb6 S_Graph M_LinkState S_LinkState L_LsTable L_Forward P_LinkState
  M_Hyperbolic M_RoutingTable M_Npt S_Npt P_Npt P_Npt3 P_Npt4 M_Fib S_Fib S_Pipe M_Prefix M_Hello S_Hello L_Hello M_Router S_Router S_Delivery
  L_Router L_Router2 L_Router3 L_Router4 L_Router5 L_Router6 L_Router7 L_Router8 X_Lsdb X_Router P_Router P_Router3 P_Router6.
Open Scope Z_scope.
Set Implicit Arguments.

(** ** Vocabulary *)

(** A router of the network: its configuration and what has happened to it. *)
Record node := Node { nd_conf : gconf; nd_run : grun }.
Definition node_name (x : node) : name := c_self (gc (nd_conf x)).

Section N.
Variables (uri_of : name -> string) (ang : list Z -> list Z -> Z) (dst : Z -> Z -> Z -> Z).
Notation db x := (P_Router.db (nd_conf x) uri_of ang dst (nd_run x)).
Notation topology x := (P_Router3.topology (nd_conf x) uri_of ang dst (nd_run x)).
Notation face x := (P_Router3.face (nd_conf x) uri_of ang dst (nd_run x)).
Notation faces_for x := (P_Router3.faces_for (nd_conf x) uri_of ang dst (nd_run x)).
Variables (net : list node) (p : name).

(** The router named [n] is in the network and advertises the prefix in its own Name LSA. *)
Definition serves (n : name) : Prop := exists x k, In x net /\ node_name x = n /\ lists (db x) n p k.

(** The router [u] sends packets for the prefix to [v]: its FIB holds the face towards the neighbour [v]. *)
Definition sends (u v : name) : Prop := exists x y, In x net /\ In y net /\ node_name x = u /\ node_name y = v /\
  (exists k, usable (topology x) u v k) /\ In (face x v) (faces_for x p).

(** Every router uses one face per prefix. *)
Definition single : Prop := forall x, In x net -> gc_max (nd_conf x) = 1%N.
(** Every router is up and has calculated its routes from its LSAs. *)
Definition quiet : Prop := forall x, In x net ->
  up (nd_conf x) uri_of ang dst (nd_run x) /\ settled (nd_conf x) uri_of ang dst (nd_run x) /\
  sane_names (nd_run x) /\ sane_links (db x) /\ ordinary (nd_conf x) uri_of ang dst (nd_run x) p.
(** Routers have different names, hold the same links in their Adjacency LSAs, and agree with each advertising router
    that it advertises the prefix. *)
Definition agreed : Prop :=
  (forall x y, In x net -> In y net -> node_name x = node_name y -> x = y) /\
  (forall x y u v k, In x net -> In y net -> advertises (topology x) u v k -> advertises (topology y) u v k) /\
  (forall x d, In x net -> d <> node_name x -> ((exists k, lists (db x) d p k) <-> serves d)).
(** Links end at routers of the network, cost something, and have a face of their own. *)
Definition sound_links : Prop := forall x, In x net ->
  (forall u v k, usable (topology x) u v k -> (exists y, In y net /\ node_name y = v) /\ (u <> v -> 0 < k)) /\
  (forall v w k k', usable (topology x) (node_name x) v k -> usable (topology x) (node_name x) w k' -> face x v = face x w -> v = w).

Lemma in_usable L L' : (forall u v k, advertises L u v k -> advertises L' u v k) -> forall u v k, usable L u v k -> usable L' u v k.
Proof. intros H u v k (a & b & X & Y & Z0). exists a, b. auto. Qed.

Lemma zero_walk L : (forall u v k, usable L u v k -> u <> v -> 0 < k) -> forall u v k, walk (usable L) u v k -> k <= 0 -> u = v.
Proof.
  intros H u v k W. induction W as [u|u v w a b L1 W IH]; intros K; [reflexivity|].
  assert (0 <= a) by (eapply usable_nonneg; exact L1). assert (0 <= b) by (eapply walk_nonneg; [|exact W]; intros; eapply usable_nonneg; eassumption).
  destruct (eq_dec u v) as [->|N]; [apply IH; lia|]. specialize (H _ _ _ L1 N). lia.
Qed.

Section T.
Hypotheses (M : single) (Q : quiet) (A : agreed) (S : sound_links).

(** One router: where it sends packets, and how far the goal is then. *)
Lemma one_hop x d cost : In x net -> ~ serves (node_name x) -> serves d -> walk (usable (topology x)) (node_name x) d cost -> cost < INF_DISTANCE ->
  exists best y k, nearest (usable (topology x)) serves (node_name x) best /\ best < INF_DISTANCE /\
    In y net /\ usable (topology x) (node_name x) (node_name y) k /\ 0 < k <= best /\ sends (node_name x) (node_name y) /\
    (forall v, sends (node_name x) v -> v = node_name y) /\ nearest (usable (topology y)) serves (node_name y) (best - k).
Proof.
  intros Hx Ns Sd Wk Lt. pose proof (M x Hx) as Q1. destruct (Q x Hx) as (Q2 & Q3 & Q4 & Q5 & Q6). destruct A as (A1 & A2 & A3).
  destruct (S x Hx) as [S1 S2]. set (T := topology x) in *.
  assert (Ad : forall d', advertiser (node_name x) (db x) p d' <-> serves d').
  { intros d'. split.
    - intros [N L]. now apply (A3 x d' Hx N).
    - intros L. assert (N : d' <> node_name x) by (intros ->; contradiction). split; [exact N|]. now apply (A3 x d' Hx N). }
  destruct (nearest_dec Q1 Q2 Q3 Q4 Q5 Q6) as [(best & nb & k & d0 & [N1 N2] & Lb & D0 & Nb & Us & W0 & Fs)|[No _]].
  - fold (node_name x) in *. fold T in N1, N2, Us, W0. destruct (S1 _ _ _ Us) as [(y & Hy & Ey) Kp]. assert (K0 : 0 < k) by (apply Kp; congruence).
    assert (N : nearest (usable T) serves (node_name x) best).
    { destruct N1 as (d1 & D1 & W1). split; [exists d1; split; [now apply Ad|exact W1]|]. intros d' c' D' W'. apply (N2 d'); [now apply Ad|exact W']. }
    assert (W0' : 0 <= best - k) by (eapply walk_nonneg; [|exact W0]; intros; eapply usable_nonneg; eassumption).
    subst nb. exists best, y, k. split; [exact N|]. split; [exact Lb|]. split; [exact Hy|]. split; [exact Us|]. split; [lia|].
    assert (Snd : sends (node_name x) (node_name y)).
    { exists x, y. split; [exact Hx|]. split; [exact Hy|]. split; [reflexivity|]. split; [reflexivity|]. split; [now exists k|]. rewrite Fs. now left. }
    split; [exact Snd|]. split.
    + intros v (x' & y' & Hx' & Hy' & Ex & Ev & (k' & Us') & Hf). assert (x' = x) by (apply A1; auto). subst x'. rewrite Fs in Hf. destruct Hf as [Hf|[]].
      symmetry. eapply S2; [exact Us|exact Us'|exact Hf].
    + assert (Same : forall u v c, usable (topology y) u v c <-> usable T u v c).
      { intros u v c. split; apply in_usable; intros a b c' Ha; [exact (A2 y x a b c' Hy Hx Ha)|exact (A2 x y a b c' Hx Hy Ha)]. }
      split.
      * exists d0. split; [now apply Ad|]. eapply walk_mono; [|exact W0]. intros u v c. apply Same.
      * intros d' c' D' W'. assert (W2 : walk (usable T) (node_name y) d' c') by (eapply walk_mono; [|exact W']; intros u v c; apply Same).
        destruct N as [_ N]. specialize (N d' (k + c') D' (@walk_cons _ (usable T) _ _ _ _ _ Us W2)). lia.
  - exfalso. specialize (No d cost (proj2 (Ad d) Sd) Wk). lia.
Qed.

Lemma nearest_unique {V} (l : V -> V -> Z -> Prop) g u a b : nearest l g u a -> nearest l g u b -> a = b.
Proof. intros [(d & D & W) M1] [(d' & D' & W') M']. pose proof (M1 _ _ D' W'). pose proof (M' _ _ D W). lia. Qed.

Lemma by_distance n : forall x best, In x net -> nearest (usable (topology x)) serves (node_name x) best -> best < INF_DISTANCE -> (Z.to_nat best < n)%nat ->
  arrives sends serves (node_name x) /\
  (forall l, trail sends serves (node_name x) l -> NoDup (node_name x :: l) /\
     forall v, In v l -> exists y c, In y net /\ node_name y = v /\ nearest (usable (topology y)) serves v c /\ c < best) /\
  (forall w c, travels sends serves (usable (topology x)) (node_name x) w c -> serves w /\ c = best).
Proof.
  induction n as [|n IH]; intros x best Hx N Lt Hn; [lia|].
  pose proof N as [(d & D & W) Mn]. pose proof A as (A1 & A2 & A3).
  assert (P0 : 0 <= best) by (eapply walk_nonneg; [|exact W]; intros; eapply usable_nonneg; eassumption).
  destruct (Z.eq_dec best 0) as [E0|E0].
  - (* at distance 0: only the router itself can serve *)
    assert (Sv : serves (node_name x)).
    { subst best. assert (X : node_name x = d); [|rewrite X; exact D]. destruct (S x Hx) as [S1 _].
      apply (@zero_walk (topology x)) with (k := 0); [intros u v k H; apply (S1 u v k H)|exact W|lia]. }
    split; [now constructor|]. split.
    + intros l T. inversion T as [u|u v l' Ng]; subst; [|contradiction]. split; [constructor; [intros []|constructor]|intros v []].
    + intros w c T. inversion T as [u G|u v w' k c' Ng]; subst; [|contradiction]. split; [exact Sv|reflexivity].
  - assert (Ns : ~ serves (node_name x)).
    { intros Sv. assert (X : best <= 0) by (apply (Mn (node_name x)); [exact Sv|constructor]). lia. }
    destruct (@one_hop x d best Hx Ns D W Lt) as (best' & y & k & N' & Lb & Hy & Us & K & Snd & Only & Ny).
    assert (best' = best) by (exact (nearest_unique N' N)). subst best'.
    destruct (IH y (best - k) Hy Ny) as (I1 & I2 & I3); [lia|lia|]. split; [|split].
    + apply arrives_hop; [exact Ns|now exists (node_name y)|]. intros v Hv. rewrite (Only v Hv). exact I1.
    + intros l T. inversion T as [u|u v l' Ng Fw T']; subst.
      * split; [constructor; [intros []|constructor]|intros v []].
      * pose proof (Only v Fw) as ->. destruct (I2 l' T') as [J1 J2].
        assert (J : forall v, In v (node_name y :: l') -> exists z c, In z net /\ node_name z = v /\ nearest (usable (topology z)) serves v c /\ c < best).
        { intros v [<-|Hv]; [exists y, (best - k); split; [exact Hy|split; [reflexivity|split; [exact Ny|lia]]]|].
          destruct (J2 v Hv) as (z & c & Z1 & Z2 & Z3 & Z4). exists z, c. split; [exact Z1|]. split; [exact Z2|]. split; [exact Z3|lia]. }
        split; [|exact J]. constructor; [|exact J1]. intros Hi. destruct (J _ Hi) as (z & c & Z1 & Z2 & Z3 & Z4).
        assert (z = x) by (apply A1; auto). subst z. pose proof (nearest_unique Z3 N). lia.
    + intros w c T. inversion T as [u G|u v w' k' c' Ng Fw L T']; subst; [contradiction|]. pose proof (Only v Fw) as ->.
      assert (Tr : travels sends serves (usable (topology y)) (node_name y) w c').
      { assert (Mono : forall a b z, travels sends serves (usable (topology x)) a b z -> travels sends serves (usable (topology y)) a b z).
        { intros a b z Hz. induction Hz as [a Ga|a b' w0 k0 c0 Na Fa La Ta IHa]; [now constructor|]. eapply travels_hop; [exact Na|exact Fa| |exact IHa].
          eapply in_usable; [|exact La]. intros q1 q2 q3 Hq. exact (A2 x y q1 q2 q3 Hx Hy Hq). }
        now apply Mono. }
      destruct (I3 w c' Tr) as [J1 J2]. split; [exact J1|].
      destruct (Q x Hx) as (Q2 & _ & _ & Q5 & _). pose proof (wf_topology Q2 Q5) as Wf. pose proof (usable_fun Wf L Us). lia.
Qed.
End T.

(** ** C88 *)

(** Every face of the FIB entry leads to a neighbour over a link that both ends report. *)
Theorem C88_faces x f : single -> quiet -> In x net -> In f (faces_for x p) ->
  exists v k, usable (topology x) (node_name x) v k /\ f = face x v.
Proof.
  intros M Q Hx H. destruct (Q _ Hx) as (Q1 & Q2 & Q3 & Q4 & Q5).
  destruct (@nearest_dec (nd_conf x) uri_of ang dst (nd_run x) p (M _ Hx) Q1 Q2 Q3 Q4 Q5) as [(c & v & k & d & _ & _ & _ & _ & Us & _ & F)|[_ F]];
    rewrite F in H; [|destruct H]. destruct H as [<-|[]]. exists v, k. auto.
Qed.

(** In a network where every router uses one face per prefix and has calculated its routes from the same LSAs, a packet for the prefix
    that starts at a router from which an advertising router can be reached gets to an advertising router,
    whichever way it is sent, without visiting a router twice, and over a path of least cost. *)
Theorem C88_delivered x d cost : single -> quiet -> agreed -> sound_links -> In x net -> serves d ->
  walk (usable (topology x)) (node_name x) d cost -> cost < INF_DISTANCE ->
  arrives sends serves (node_name x) /\
  (forall l, trail sends serves (node_name x) l -> NoDup (node_name x :: l)) /\
  (forall w c, travels sends serves (usable (topology x)) (node_name x) w c -> nearest (usable (topology x)) serves (node_name x) c).
Proof.
  intros M Q A S Hx D W Lt.
  assert (X : forall best, nearest (usable (topology x)) serves (node_name x) best -> best < INF_DISTANCE ->
    arrives sends serves (node_name x) /\ (forall l, trail sends serves (node_name x) l -> NoDup (node_name x :: l)) /\
    (forall w c, travels sends serves (usable (topology x)) (node_name x) w c -> nearest (usable (topology x)) serves (node_name x) c)).
  { intros best N Lb. destruct (@by_distance M Q A S (Datatypes.S (Z.to_nat best)) x best Hx N Lb) as (B1 & B2 & B3); [lia|].
    split; [exact B1|]. split; [intros l T; apply B2; exact T|]. intros w c T. destruct (B3 w c T) as [_ ->]. exact N. }
  assert (Dec : serves (node_name x) \/ ~ serves (node_name x)).
  { destruct (existsb (fun l => eqb (l_origin l) (node_name x) && match get p (body_names (l_body l)) with Some _ => true | None => false end) (contents (db x))) eqn:B.
    - left. apply existsb_exists in B as (l & Hl & B). apply andb_prop in B as [B1 B2]. apply (proj1 (eqb_eq _ _)) in B1.
      destruct (get p (body_names (l_body l))) as [k|] eqn:G; [|discriminate B2]. exists x, k. split; [exact Hx|]. split; [reflexivity|]. exists l. auto.
    - right. intros (x' & k & Hx' & Ex & l & Hl & Ho & G). destruct A as (A1 & _). assert (x' = x) by (apply A1; auto). subst x'.
      assert (Y : true = false); [|discriminate Y]. rewrite <- B. symmetry. apply existsb_exists. exists l. split; [exact Hl|]. rewrite Ho, eqb_refl, G. reflexivity. }
  destruct Dec as [Sv|Ns].
  - apply (X 0); [|unfold INF_DISTANCE; lia]. split; [exists (node_name x); split; [exact Sv|constructor]|].
    intros d' c' _ W'. eapply walk_nonneg; [|exact W']; intros; eapply usable_nonneg; eassumption.
  - destruct (@one_hop M Q A S x d cost Hx Ns D W Lt) as (best & y & k & N & Lb & _). exact (X best N Lb).
Qed.
End N.

(** ** Concrete case *)

(** The hypotheses as a computation. *)
Definition listsb (s : st) (d p : name) : bool :=
  existsb (fun l => eqb (l_origin l) d && match get p (body_names (l_body l)) with Some _ => true | None => false end) (contents s).
Lemma listsb_ok s d p : listsb s d p = true <-> exists k, lists s d p k.
Proof.
  unfold listsb. rewrite existsb_exists. split.
  - intros (l & Hl & B). apply andb_prop in B as [B1 B2]. apply (proj1 (eqb_eq _ _)) in B1. destruct (get p (body_names (l_body l))) as [k|] eqn:G; [|discriminate B2]. exists k, l. auto.
  - intros (k & l & Hl & Ho & G). exists l. split; [exact Hl|]. rewrite Ho, eqb_refl, G. reflexivity.
Qed.

Section B.
Notation db x := (P_Router.db (nd_conf x) uriR angR dstR (nd_run x)).
Notation topology x := (P_Router3.topology (nd_conf x) uriR angR dstR (nd_run x)).
Notation face x := (P_Router3.face (nd_conf x) uriR angR dstR (nd_run x)).
Variables (net : list node) (p : name).

Definition samea (a b : adj_lsa) : bool := eqb (al_origin a) (al_origin b) && eqb (al_links a) (al_links b).
Lemma samea_ok a b : samea a b = true -> a = b.
Proof. destruct a as [o l], b as [o' l']. unfold samea. cbn [al_origin al_links]. intros H. apply andb_prop in H as [A B]. apply (proj1 (eqb_eq _ _)) in A, B. now subst. Qed.

Definition quietb : bool := forallb (fun x => caseb2 (nd_conf x) (nd_run x) p) net.
Definition agreedb : bool :=
  nodupb (map node_name net) &&
  forallb (fun x => forallb (fun y => forallb (fun a => existsb (samea a) (topology y)) (topology x)) net) net &&
  forallb (fun x => forallb (fun l => match get p (body_names (l_body l)) with
      | Some _ => eqb (l_origin l) (node_name x) || existsb (fun y => eqb (node_name y) (l_origin l) && listsb (db y) (node_name y) p) net
      | None => true end) (contents (db x))) net &&
  forallb (fun x => forallb (fun y => eqb (node_name y) (node_name x) || negb (listsb (db y) (node_name y) p) || listsb (db x) (node_name y) p) net) net.
Definition soundb : bool := forallb (fun x =>
  forallb (fun a => forallb (fun z => existsb (fun y => eqb (node_name y) (fst z)) net && (0 <? snd z)) (al_links a)) (topology x) &&
  forallb (fun a => negb (eqb (al_origin a) (node_name x)) ||
    forallb (fun z => forallb (fun z' => eqb (fst z) (fst z') || negb (eqb (face x (fst z)) (face x (fst z')))) (al_links a)) (al_links a)) (topology x) &&
  nodupb (map al_origin (topology x))) net.

Lemma quietb_ok : quietb = true -> quiet uriR angR dstR net p.
Proof.
  unfold quietb. intros H x Hx. rewrite forallb_forall in H. specialize (H x Hx).
  destruct (caseb2_ok _ _ _ H) as (A1 & A2 & A3 & A4 & A5). auto 10.
Qed.
Lemma inj_names : NoDup (map node_name net) -> forall x y, In x net -> In y net -> node_name x = node_name y -> x = y.
Proof.
  clear p. induction net as [|z l IH]; cbn [map]; intros N x y; [intros []|]. inversion N as [|? ? N1 N2]; subst. intros [<-|Hx] [<-|Hy] E; [reflexivity| | |now apply IH].
  - exfalso. apply N1. rewrite E. now apply in_map.
  - exfalso. apply N1. rewrite <- E. now apply in_map.
Qed.
Lemma agreedb_ok : agreedb = true -> agreed uriR angR dstR net p.
Proof.
  unfold agreedb. intros H. apply andb_prop in H as [H H4]. apply andb_prop in H as [H H3]. apply andb_prop in H as [H1 H2].
  apply nodupb_ok in H1. rewrite forallb_forall in H2, H3, H4. split; [now apply inj_names|]. split.
  - intros x y u v k Hx Hy (a & Ha & X). specialize (H2 x Hx). rewrite forallb_forall in H2. specialize (H2 y Hy). rewrite forallb_forall in H2. specialize (H2 a Ha).
    apply existsb_exists in H2 as (b & Hb & E). apply samea_ok in E. subst b. exists a. auto.
  - intros x d Hx N. split.
    + intros (k & l & Hl & Ho & G). specialize (H3 x Hx). rewrite forallb_forall in H3. specialize (H3 l Hl). rewrite G in H3. apply orb_prop in H3 as [E|E].
      * apply (proj1 (eqb_eq _ _)) in E. congruence.
      * apply existsb_exists in E as (y & Hy & E). apply andb_prop in E as [E1 E2]. apply (proj1 (eqb_eq _ _)) in E1. apply listsb_ok in E2 as [k' L]. exists y, k'.
        split; [exact Hy|]. split; [congruence|]. rewrite <- Ho, <- E1. exact L.
    + intros (y & k & Hy & E & L). specialize (H4 x Hx). rewrite forallb_forall in H4. specialize (H4 y Hy). apply orb_prop in H4 as [H4|H4]; [apply orb_prop in H4 as [H4|H4]|].
      * apply (proj1 (eqb_eq _ _)) in H4. congruence.
      * rewrite (proj2 (listsb_ok (db y) (node_name y) p)) in H4; [discriminate H4|]. exists k. now rewrite E.
      * apply listsb_ok in H4. now rewrite E in H4.
Qed.
Lemma soundb_ok : soundb = true -> sound_links uriR angR dstR net.
Proof.
  unfold soundb. intros H x Hx. rewrite forallb_forall in H. specialize (H x Hx). apply andb_prop in H as [H H3]. apply andb_prop in H as [H1 H2].
  rewrite forallb_forall in H1, H2. apply nodupb_ok in H3. split.
  - intros u v k (a & b & (l & Hl & Ho & Hk) & _ & _ & _ & ->). specialize (H1 l Hl). rewrite forallb_forall in H1. specialize (H1 _ Hk). apply andb_prop in H1 as [E K].
    cbn [fst snd] in E, K. apply existsb_exists in E as (y & Hy & E). apply (proj1 (eqb_eq _ _)) in E. apply Z.ltb_lt in K. split; [now exists y|lia].
  - intros v w k k' (a & b & (l & Hl & Ho & Hk) & _) (a' & b' & (l' & Hl' & Ho' & Hk') & _) E.
    assert (l' = l).
    { clear - H3 Hl Hl' Ho Ho'. rewrite <- Ho' in Ho. revert H3 Hl Hl' Ho. generalize (topology x). induction l0 as [|z l0 IH]; cbn [map]; intros N; [intros []|].
      inversion N as [|? ? N1 N2]; subst. intros [->|A] [->|B] E; [reflexivity| | |now apply IH]; exfalso; apply N1; [rewrite E|rewrite <- E]; now apply in_map. }
    subst l'. specialize (H2 l Hl). apply orb_prop in H2 as [H2|H2]; [rewrite Ho, eqb_refl in H2; discriminate H2|].
    rewrite forallb_forall in H2. specialize (H2 _ Hk). rewrite forallb_forall in H2. specialize (H2 _ Hk'). cbn [fst] in H2.
    apply orb_prop in H2 as [H2|H2]; [now apply (proj1 (eqb_eq _ _)) in H2|]. rewrite E, eqb_refl in H2. discriminate H2.
Qed.
End B.

(** Finding implicit arguments would unfold the runs below. *)
Unset Implicit Arguments.

(** Three routers with links r1 - r2 of cost 10, r2 - r3 of cost 5 and r1 - r3 of cost 25. Each finds its
    faces, registers the hello prefixes, hears its neighbours, builds its Adjacency LSA, fetches the LSAs of
    the others and calculates. r3 advertises the prefix. *)
Definition uri1 : uri := "udp4://10.0.0.1:6363"%string.
Definition gcN (m : N) (n : name) : gconf := GConf (Conf netX n lsaX 1800 3600 3 1 10 HOff 0 [0] 4) (gc_sync (gcX HOff)) 3 m 15.
Definition faceN (n : name) : uri := if eqb n selfX then uri1 else if eqb n farX then uri2 else uri3.
Definition helloN (me n : name) : name := hello_name (hconf_of (gcN 1 me)) n ++ [verR].
Definition evsN (me a b : name) (ra rb : string) (la lb : list adjacent) (names : list (inp * gev)) : list (inp * gev) :=
  map at_ [GvHello (HvDataset [(300, faceN a); (301, faceN b)])%N;
           GvFib (FvRegOk 2); GvFib (FvRegOk 4);
           GvHello (HvData 0 (helloN me a)); GvHello (HvData 2 (helloN me b));
           GvTick (10 * SEC); GvDb (EFire 2);
           GvDb (ESync (syncX ra TAdj) 1 300); GvDb (EFetchDone 0 (Some (alsaR a 1 la)));
           GvDb (ESync (syncX rb TAdj) 1 301); GvDb (EFetchDone 1 (Some (alsaR b 1 lb)))] ++ names ++
  map at_ [GvTick (15 * SEC); GvCalc 0].
Definition nodeN (m : N) (me a b : name) (ra rb : string) (ka kb : Z) (la lb : list adjacent) (names : list (inp * gev)) (own : plist) : node :=
  Node (gcN m me) (GRun None 0 T0 [(a, faceN a, of_int ka); (b, faceN b, of_int kb)] own None (evsN me a b ra rb la lb names)).
Definition linksN (n : name) : list adjacent :=
  if eqb n selfX then [adjR farX 10; adjR thirdX 25] else if eqb n farX then [adjR selfX 10; adjR thirdX 5] else [adjR selfX 25; adjR farX 5].
Definition namesN : list (inp * gev) :=
  map at_ [GvDb (ESync (syncX "r3" TName) 1 301); GvDb (EFetchDone 2 (Some (Lsa thirdX 1 (T0 + 3600 * SEC) (BName [(X_Lsdb.pX, of_int 7)]))))].
Definition node1 (m : N) : node := nodeN m selfX farX thirdX "r2" "r3" 10 25 (linksN farX) (linksN thirdX) namesN [].
Definition node2 (m : N) : node := nodeN m farX selfX thirdX "r1" "r3" 10 5 (linksN selfX) (linksN thirdX) namesN [].
Definition node3 (m : N) : node := nodeN m thirdX selfX farX "r1" "r2" 25 5 (linksN selfX) (linksN farX) [] [(X_Lsdb.pX, (of_int 7, [""%string]))].
Definition netN (m : N) : list node := [node1 m; node2 m; node3 m].
Definition topoN : list adj_lsa :=
  [AdjLsa selfX [(farX, 10); (thirdX, 25)]; AdjLsa farX [(selfX, 10); (thirdX, 5)]; AdjLsa thirdX [(selfX, 25); (farX, 5)]].

Definition topoN2 : list adj_lsa :=
  [AdjLsa farX [(selfX, 10); (thirdX, 5)]; AdjLsa selfX [(farX, 10); (thirdX, 25)]; AdjLsa thirdX [(selfX, 25); (farX, 5)]].
Lemma netN_ok m : m = 1%N \/ m = 2%N -> quietb (netN m) X_Lsdb.pX = true /\ agreedb (netN m) X_Lsdb.pX = true /\ soundb (netN m) = true.
Proof. intros [->| ->]; (split; [|split]); vm_compute; reflexivity. Qed.
Lemma topoN_ok m : m = 1%N \/ m = 2%N -> P_Router3.topology (nd_conf (node1 m)) uriR angR dstR (nd_run (node1 m)) = topoN /\
  P_Router3.topology (nd_conf (node2 m)) uriR angR dstR (nd_run (node2 m)) = topoN2.
Proof. intros [->| ->]; split; vm_compute; reflexivity. Qed.
Lemma node3_lists m : m = 1%N \/ m = 2%N -> listsb (P_Router.db (nd_conf (node3 m)) uriR angR dstR (nd_run (node3 m))) thirdX X_Lsdb.pX = true.
Proof. intros [->| ->]; vm_compute; reflexivity. Qed.
(** Where the routers send packets for the prefix: with one face, r1 to r2 and r2 to r3. *)
Lemma facesN : map (fun x => P_Router3.faces_for (nd_conf x) uriR angR dstR (nd_run x) X_Lsdb.pX) (netN 1) = [[uri2]; [uri3]; []] /\
  map (fun x => P_Router3.faces_for (nd_conf x) uriR angR dstR (nd_run x) X_Lsdb.pX) (netN 2) = [[uri2; uri3]; [uri1; uri3]; []].
Proof. split; vm_compute; reflexivity. Qed.
Lemma faceN_ok : P_Router3.face (nd_conf (node1 2)) uriR angR dstR (nd_run (node1 2)) farX = uri2 /\
  P_Router3.face (nd_conf (node2 2)) uriR angR dstR (nd_run (node2 2)) selfX = uri1.
Proof. split; vm_compute; reflexivity. Qed.
Lemma linkN1 : usable topoN selfX farX 10.
Proof.
  exists 10, 10. split; [exists (AdjLsa selfX [(farX, 10); (thirdX, 25)]); split; [left; reflexivity|split; [reflexivity|left; reflexivity]]|].
  split; [exists (AdjLsa farX [(selfX, 10); (thirdX, 5)]); split; [right; left; reflexivity|split; [reflexivity|left; reflexivity]]|]. lia.
Qed.
Lemma linkN2 : usable topoN farX thirdX 5.
Proof.
  exists 5, 5. split; [exists (AdjLsa farX [(selfX, 10); (thirdX, 5)]); split; [right; left; reflexivity|split; [reflexivity|right; left; reflexivity]]|].
  split; [exists (AdjLsa thirdX [(selfX, 25); (farX, 5)]); split; [right; right; left; reflexivity|split; [reflexivity|right; left; reflexivity]]|]. lia.
Qed.
Lemma linkN3 : usable topoN2 farX selfX 10.
Proof.
  exists 10, 10. split; [exists (AdjLsa farX [(selfX, 10); (thirdX, 5)]); split; [left; reflexivity|split; [reflexivity|left; reflexivity]]|].
  split; [exists (AdjLsa selfX [(farX, 10); (thirdX, 25)]); split; [right; left; reflexivity|split; [reflexivity|left; reflexivity]]|]. lia.
Qed.
Lemma not_serving : listsb (P_Router.db (nd_conf (node1 2)) uriR angR dstR (nd_run (node1 2))) (node_name (node1 2)) X_Lsdb.pX = false /\
  listsb (P_Router.db (nd_conf (node2 2)) uriR angR dstR (nd_run (node2 2))) (node_name (node2 2)) X_Lsdb.pX = false.
Proof. split; vm_compute; reflexivity. Qed.
Lemma no_serve net p : (forall x y, In x net -> In y net -> node_name x = node_name y -> x = y) -> forall x, In x net ->
  listsb (P_Router.db (nd_conf x) uriR angR dstR (nd_run x)) (node_name x) p = false -> ~ serves uriR angR dstR net p (node_name x).
Proof.
  intros A x Hx F (x' & k & Hx' & E & L). assert (x' = x) by (apply A; auto). subst x'.
  rewrite (proj2 (listsb_ok _ _ _) (ex_intro _ k L)) in F. discriminate F.
Qed.

Lemma N_case m : m = 1%N \/ m = 2%N -> quiet uriR angR dstR (netN m) X_Lsdb.pX /\ agreed uriR angR dstR (netN m) X_Lsdb.pX /\ sound_links uriR angR dstR (netN m) /\
  In (node1 m) (netN m) /\ serves uriR angR dstR (netN m) X_Lsdb.pX thirdX /\
  walk (usable (P_Router3.topology (nd_conf (node1 m)) uriR angR dstR (nd_run (node1 m)))) (node_name (node1 m)) thirdX 15 /\ 15 < INF_DISTANCE.
Proof.
  intros Hm. destruct (netN_ok m Hm) as (A & B & C). split; [exact (@quietb_ok (netN m) X_Lsdb.pX A)|]. split; [exact (@agreedb_ok (netN m) X_Lsdb.pX B)|]. split; [exact (@soundb_ok (netN m) C)|].
  split; [left; reflexivity|]. split.
  - destruct (proj1 (@listsb_ok _ _ _) (node3_lists m Hm)) as [k L]. exists (node3 m), k. split; [right; right; left; reflexivity|]. split; [reflexivity|exact L].
  - split; [|reflexivity]. rewrite (proj1 (topoN_ok m Hm)). change (node_name (node1 m)) with selfX.
    change 15 with (10 + (5 + 0)). apply (@walk_cons _ _ _ _ _ _ _ linkN1). apply (@walk_cons _ _ _ _ _ _ _ linkN2). constructor.
Qed.
Example C88_delivered_example : single (netN 1) /\ quiet uriR angR dstR (netN 1) X_Lsdb.pX /\ agreed uriR angR dstR (netN 1) X_Lsdb.pX /\ sound_links uriR angR dstR (netN 1) /\
  In (node1 1) (netN 1) /\ serves uriR angR dstR (netN 1) X_Lsdb.pX thirdX /\
  walk (usable (P_Router3.topology (nd_conf (node1 1)) uriR angR dstR (nd_run (node1 1)))) (node_name (node1 1)) thirdX 15 /\ 15 < INF_DISTANCE.
Proof. split; [|exact (N_case 1%N (or_introl eq_refl))]. intros x [<-|[<-|[<-|[]]]]; reflexivity. Qed.
(** and so a packet that starts at r1 reaches r3 over r2. *)
Example C88_delivered_case : arrives (sends uriR angR dstR (netN 1) X_Lsdb.pX) (serves uriR angR dstR (netN 1) X_Lsdb.pX) selfX.
Proof. destruct C88_delivered_example as (M & A & B & C & D & E & F & G). exact (proj1 (@C88_delivered uriR angR dstR (netN 1) X_Lsdb.pX (node1 1) thirdX 15 M A B C D E F G)). Qed.

(** Without the limit of one face per prefix a packet may come back: r1 sends to r2 and r2 to r1. *)
Theorem C88_multipath_refuted : exists uri_of ang dst net p x d cost l,
  quiet uri_of ang dst net p /\ agreed uri_of ang dst net p /\ sound_links uri_of ang dst net /\ In x net /\ serves uri_of ang dst net p d /\
  walk (usable (P_Router3.topology (nd_conf x) uri_of ang dst (nd_run x))) (node_name x) d cost /\ cost < INF_DISTANCE /\
  trail (sends uri_of ang dst net p) (serves uri_of ang dst net p) (node_name x) l /\ ~ NoDup (node_name x :: l).
Proof.
  destruct (N_case 2%N (or_intror eq_refl)) as (A & B & C & D & E & F & G).
  exists uriR, angR, dstR, (netN 2), X_Lsdb.pX, (node1 2), thirdX, 15, [farX; selfX].
  split; [exact A|]. split; [exact B|]. split; [exact C|]. split; [exact D|]. split; [exact E|]. split; [exact F|]. split; [exact G|].
  pose proof (f_equal (fun z => nth 0 z []) (proj2 facesN)) as F1. pose proof (f_equal (fun z => nth 1 z []) (proj2 facesN)) as F2. cbn [map nth netN] in F1, F2.
  destruct (topoN_ok 2%N (or_intror eq_refl)) as [T1 T2]. destruct faceN_ok as [K1 K2]. destruct not_serving as [S1 S2].
  split.
  - apply trail_cons with (v := farX); [exact (no_serve (netN 2) X_Lsdb.pX (proj1 B) (node1 2) D S1)| |].
    + exists (node1 2), (node2 2). split; [exact D|]. split; [right; left; reflexivity|]. split; [reflexivity|]. split; [reflexivity|]. split; [exists 10; rewrite T1; exact linkN1|].
      rewrite F1, K1. left. reflexivity.
    + apply trail_cons with (v := selfX); [exact (no_serve (netN 2) X_Lsdb.pX (proj1 B) (node2 2) (or_intror (or_introl eq_refl)) S2)| |constructor].
      exists (node2 2), (node1 2). split; [right; left; reflexivity|]. split; [exact D|]. split; [reflexivity|]. split; [reflexivity|]. split; [exists 10; rewrite T2; exact linkN3|].
      rewrite F2, K2. left. reflexivity.
  - change (node_name (node1 2)) with selfX. intros N. inversion N as [|? ? N1 _]. apply N1. right. left. reflexivity.
Qed.

Print Assumptions C88_faces.
Print Assumptions C88_delivered.
Print Assumptions C88_multipath_refuted.
