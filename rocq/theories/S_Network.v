(** Vocabulary for properties of a network of whole routers. *)
From Verif Require Import Base M_Nexthop M_Tlv M_Adj M_Lsa M_Lsdb M_Codec M_Sync S_Lsdb S_Codec M_LinkState M_RoutingTable M_Npt S_Npt M_Fib M_Prefix M_Hello M_Router S_Router
  M_Network P_Router P_Router3.
Open Scope Z_scope.
Set Implicit Arguments.

Definition bname (b : box) : name := c_self (gc (b_conf b)).

Section S.
Variables (uri_of : name -> string) (ang : list Z -> list Z -> Z) (dst : Z -> Z -> Z -> Z).
Variables (time_str : Z -> string) (time_parse : string -> option Z) (uri_parse : string -> option uri).
Variable w : list box.
Notation bstate := (bstate uri_of ang dst).
Notation btrace := (btrace uri_of ang dst).
(** The database of router [i]. *)
Definition bdb (b : box) (i : nat) (s : gsched) : st := g_db (bstate b i s).

(** One network: the routers agree on its name, which contains neither marker; every router has a name of its own below it. *)
Definition one_network : Prop :=
  (exists net, ~ In (gen "nlsr"%string) net /\ ~ In (gen "LSA"%string) net /\
   forall b, In b w -> c_network (gc (b_conf b)) = net /\ bname b = net ++ b_site b /\
     c_lsaprefix (gc (b_conf b)) = lsa_prefix net /\ Z.of_nat (length (lsa_prefix net ++ b_site b)) + 4 < 2 ^ 63) /\
  (forall i j b m, nth_error w i = Some b -> nth_error w j = Some m -> bname b = bname m -> i = j).

(** Every configured link costs a positive whole number; every neighbour has one face URI, of its own. *)
Definition good_links : Prop := forall b, In b w ->
  (forall n u k, In (n, u, k) (u_nbs (b_start b)) -> exists z, k = of_int z /\ 0 < z) /\
  (forall n n' u u' k k', In (n, u, k) (u_nbs (b_start b)) -> In (n', u', k') (u_nbs (b_start b)) -> n = n' <-> u = u').

(** Every LSA sent can be encoded (C41), and lists no prefix at a negative cost. *)
Definition good_sent (s : gsched) : Prop := forall j m n l k, nth_error w j = Some m -> In (OData n l k) (db_outs (btrace m j s)) ->
  encodable time_str time_parse uri_parse l /\ fits (enc_lsa time_str l) /\ forall p x, In (p, x) (body_names (l_body l)) -> 0 <= x.

(** Every router is up, runs link-state routing with one face per prefix, and has calculated its routes from the Adjacency
    LSAs it stores. *)
Definition all_settled (s : gsched) : Prop := forall i b, nth_error w i = Some b ->
  gc_max (b_conf b) = 1%N /\ up (b_conf b) uri_of ang dst (brun b i s) /\ settled (b_conf b) uri_of ang dst (brun b i s).

(** Every router stores every router's current number of its Name LSA and of its Adjacency LSA. *)
Definition all_current (s : gsched) : Prop := forall i b j m l, nth_error w i = Some b -> nth_error w j = Some m ->
  holds (bdb m j s) l -> l_origin l = bname m -> l_type l <> TCoord ->
  exists l1, holds (bdb b i s) l1 /\ l_key l1 = l_key l /\ l_seq l1 = l_seq l.

(** The prefix is not the name of a router or of a configured neighbour. *)
Definition plain (p : name) : Prop := forall b, In b w ->
  p <> bname b /\ forall u k, ~ In (p, u, k) (u_nbs (b_start b)).

(** The links of the network: each router speaks for its own, in the Adjacency LSA it made itself. *)
Definition own_lsa (s : gsched) (u : name) (l : lsa) : Prop :=
  exists i b, nth_error w i = Some b /\ bname b = u /\ holds (bdb b i s) l /\ l_origin l = u.
Definition own_link (s : gsched) (u v : name) (k : Z) : Prop :=
  exists l al a, own_lsa s u l /\ l_body l = BAdj al /\ In a al /\ a_name a = v /\ link_cost a = k.
(** Both ends report it; it costs the larger of the two costs. *)
Definition link (s : gsched) (u v : name) (k : Z) : Prop :=
  exists a b, own_link s u v a /\ own_link s v u b /\ k = Z.max a b.
(** The router [u] advertises the prefix. *)
Definition origin_of (s : gsched) (p u : name) : Prop :=
  exists l k, own_lsa s u l /\ get p (body_names (l_body l)) = Some k.

(** The router [u] sends packets for the prefix to [v]: its FIB entry holds the face of its neighbour [v]. *)
Definition hands (s : gsched) (p u v : name) : Prop :=
  exists i b, nth_error w i = Some b /\ bname b = u /\
    exists f k, In (v, f, k) (u_nbs (b_start b)) /\ In f (faces_for (b_conf b) uri_of ang dst (brun b i s) p).
End S.
