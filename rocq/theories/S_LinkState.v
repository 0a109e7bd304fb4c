(** Specification vocabulary for link-state routing, in terms of LSDB contents only. *)
From Verif Require Import Base M_Nexthop M_LinkState S_Graph.
Open Scope Z_scope.
Set Implicit Arguments.

(** Router [u] advertises a link to [v] of cost [c]. *)
Definition advertises (lsas : list adj_lsa) (u v : name) (c : Z) : Prop :=
  exists l, In l lsas /\ al_origin l = u /\ In (v, c) (al_links l).

(** The link between [u] and [v] is usable with cost [c]: both ends advertise it with a
    non-negative cost and [c] is the larger of the two costs. *)
Definition usable (lsas : list adj_lsa) (u v : name) (c : Z) : Prop :=
  exists a b, advertises lsas u v a /\ advertises lsas v u b /\ 0 <= a /\ 0 <= b /\ c = Z.max a b.

(** A router that appears in some Adjacency LSA. *)
Definition mentioned (lsas : list adj_lsa) (x : name) : Prop :=
  exists l, In l lsas /\ (al_origin l = x \/ exists c, In (x, c) (al_links l)).

(** One LSA per origin, and one entry per neighbour inside an LSA. *)
Definition wf_lsdb (lsas : list adj_lsa) : Prop :=
  NoDup (map al_origin lsas) /\ forall l, In l lsas -> NoDup (map fst (al_links l)).

Lemma adv_fun lsas u v a b : wf_lsdb lsas ->
  advertises lsas u v a -> advertises lsas u v b -> a = b.
Proof. intros [Hnd Hl] (l1 & H1 & Ho1 & Hc1) (l2 & H2 & Ho2 & Hc2).
  assert (l1 = l2).
  { subst u. clear Hc1 Hc2 Hl. induction lsas as [|x lsas IH]; simpl in *; [tauto|].
    inversion Hnd as [|? ? Hni Hnd']; subst.
    destruct H1 as [->|H1], H2 as [->|H2]; auto.
    - exfalso. apply Hni. rewrite <- Ho2. now apply in_map.
    - exfalso. apply Hni. rewrite Ho2. now apply in_map. }
  subst l2. specialize (Hl l1 H1).
  clear - Hl Hc1 Hc2. induction (al_links l1) as [|[x c] ls IH]; simpl in *; [tauto|].
  inversion Hl as [|? ? Hni Hnd']; subst.
  destruct Hc1 as [E1|H1], Hc2 as [E2|H2].
  - congruence.
  - exfalso. injection E1 as -> ->. apply Hni. change v with (fst (v, b)). now apply in_map.
  - exfalso. injection E2 as -> ->. apply Hni. change v with (fst (v, a)). now apply in_map.
  - auto. Qed.

Lemma usable_fun lsas u v a b : wf_lsdb lsas -> usable lsas u v a -> usable lsas u v b -> a = b.
Proof. intros Hw (a1 & b1 & A1 & B1 & _ & _ & ->) (a2 & b2 & A2 & B2 & _ & _ & ->).
  rewrite (adv_fun Hw A1 A2), (adv_fun Hw B1 B2). reflexivity. Qed.

Lemma usable_sym lsas u v c : usable lsas u v c -> usable lsas v u c.
Proof. intros (a & b & A & B & Ha & Hb & ->). exists b, a. repeat split; auto. apply Z.max_comm. Qed.

Lemma usable_nonneg lsas u v c : usable lsas u v c -> 0 <= c.
Proof. intros (a & b & A & B & Ha & Hb & ->). lia. Qed.

Lemma usable_mentioned lsas u v c : usable lsas u v c -> mentioned lsas u /\ mentioned lsas v.
Proof. intros (a & b & (l & Hl & Ho & _) & (l' & Hl' & Ho' & _) & _). split.
  - exists l. auto.
  - exists l'. auto. Qed.

(** [self] can reach [dest] through face [f] at cost [cost]: some neighbour [nb] behind that face has
    a usable link of cost [c] and a shortest path of cost [w] to [dest] that does not come
    back through [self]. *)
Definition via (lsas : list adj_lsa) (face : name -> uri) (self dest : name) (f : uri) (cost : Z) : Prop :=
  exists nb c w, nb <> self /\ usable lsas self nb c /\
    shortest (avoiding self (usable lsas)) nb dest w /\ cost = c + w /\ f = face nb.

(** The hops recorded for a destination in a routing table. *)
Definition rt_hops (t : rtable) (x : name) : nhl := match get x t with Some l => l | None => [] end.

(** ** Forwarding in a network of routers *)
Section Forwarding.
  (** [tbl r] is the routing table of router [r], [face r nb] the face of [r] towards [nb] and
      [linked r nb] says that they are neighbours. *)
  Variable tbl : name -> rtable.
  Variable face : name -> name -> uri.
  Variable linked : name -> name -> Prop.

  (** Router [r] forwards packets for [dest] to [nb]. *)
  Definition forwards (r dest nb : name) : Prop :=
    linked r nb /\ exists h, In h (rt_hops (tbl r) dest) /\ nh_uri h = face r nb.

  (** Every way of following next hops from a router arrives at [dest]. *)
  Inductive delivered (dest : name) : name -> Prop :=
  | delivered_here : delivered dest dest
  | delivered_hop r : r <> dest -> (exists nb, forwards r dest nb) ->
      (forall nb, forwards r dest nb -> delivered dest nb) -> delivered dest r.

  (** [fwd_path dest r l]: packets for [dest] at [r] may visit the routers [l] next. *)
  Inductive fwd_path (dest : name) : name -> list name -> Prop :=
  | fwd_nil r : fwd_path dest r []
  | fwd_cons r nb l : r <> dest -> forwards r dest nb -> fwd_path dest nb l -> fwd_path dest r (nb :: l).
End Forwarding.
