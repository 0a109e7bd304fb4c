(** Vocabulary for C94: packets of LSAs on their way from the router that signs them to the database of another. *)
From Verif Require Import Base M_Nexthop M_Tlv M_Adj M_Lsa M_Lsdb S_Lsdb S_Segments M_Hello M_Trust S_Trust.
Open Scope Z_scope.
Set Implicit Arguments.

(** In the run [evs] the retrieval of the name [i] yields the LSA [l]. *)
Definition retrieved (c : conf) (f : option seqs) (now : Z) (e0 : env) (evs : list (env * ev)) (i : name) (l : lsa) : Prop :=
  exists a e fid b g, evs = a ++ (e, EFetchDone fid (Some l)) :: b /\ get fid (s_fetch (after c f now e0 a)) = Some g /\ f_iname g = i.

(** [carries p l]: the content of packet [p] is a segment of LSA [l].  What a retrieval yields comes in packets that the validator
    accepts, and whose names are the name asked for, a version and a segment number (ndn-cxx SegmentFetcher, external). *)
Definition checked (accepts : packet -> Prop) (carries : packet -> lsa -> Prop) (c : conf) (f : option seqs) (now : Z) (e0 : env)
    (evs : list (env * ev)) : Prop :=
  forall i l, retrieved c f now e0 evs i l -> exists p v s, p_name p = i ++ [v; s] /\ accepts p /\ carries p l.

(** The name designates an LSA of router [r]: LSA prefix of the network, the rest of the router's name, type, number. *)
Definition designates (i r : name) : Prop :=
  exists net rest t q, r = net ++ rest /\ free (lit "nlsr") net /\ free (lit "LSA") net /\
    i = [gen "localhop"] ++ net ++ [NLSR; gen "LSA"] ++ rest ++ [t; q].

(** Only someone with a key in [K] signs, in the name of router [r], what [r] did not make. *)
Definition honest (K : N -> Prop) (carries : packet -> lsa -> Prop) (made : name -> lsa -> Prop) (r : name) : Prop :=
  forall p l, packet_of r (p_name p) -> ~ K (p_sig p) -> carries p l -> made r l.

(** Nobody who may vouch for router [r] has a key in [K]. *)
Definition out_of_reach (K : N -> Prop) (conf published : list tcert) (own : option tcert) (store : list tcert) (r : name) : Prop :=
  hd_error r <> Some (gen "localhop") /\
  forall t, In t (all_anchors conf published own) \/ In t store -> may_vouch r (owner (tc_name t)) -> ~ K (tc_key t).

(** The same router, type, number and expiration time, and the same prefixes *)
Definition same_lsa (a b : lsa) : Prop :=
  l_origin a = l_origin b /\ l_type a = l_type b /\ l_seq a = l_seq b /\ l_exp a = l_exp b /\
  forall p, In p (keys (body_names (l_body a))) <-> In p (keys (body_names (l_body b))).
