(** Specification vocabulary for properties of the network. *)
From Verif Require Import Base M_Nexthop M_Tlv M_Adj M_Lsa M_Lsdb M_Codec M_Sync S_Lsdb S_Codec M_Net.
Open Scope Z_scope.
Set Implicit Arguments.

(** One network: the processes agree on its name, which contains neither marker; every process has a name below it. *)
Definition one_net (w : net) : Prop :=
  exists net, ~ In (gen "nlsr"%string) net /\ ~ In (gen "LSA"%string) net /\
  forall n, In n w -> c_network (n_conf n) = net /\ c_self (n_conf n) = net ++ n_site n /\
    c_lsaprefix (n_conf n) = lsa_prefix net /\ Z.of_nat (length (lsa_prefix net ++ n_site n)) + 4 < 2 ^ 63.

(** Process [j] is the only one with its router name. *)
Definition only (w : net) (j : nat) (m : node) : Prop :=
  nth_error w j = Some m /\ forall i n, nth_error w i = Some n -> c_self (n_conf n) = c_self (n_conf m) -> i = j.

(** All LSAs sent can be encoded (C41). *)
Definition sendable time_str time_parse uri_parse (w : net) (s : sched) : Prop :=
  forall j m n l k, nth_error w j = Some m -> In (OData n l k) (nouts m j s) ->
    encodable time_str time_parse uri_parse l /\ fits (enc_lsa time_str l).

(** At some point of the schedule, process [j] had its own LSA [l] in its database. *)
Definition produced (w : net) (s : sched) (j : nat) (m : node) (l : lsa) : Prop :=
  nth_error w j = Some m /\ l_origin l = c_self (n_conf m) /\
  exists s1 s2, s = s1 ++ s2 /\ holds (nstate m j s1) l.

(** The content of a stored LSA [x] is that of the LSA [y]: the same prefixes; the same neighbours and face URIs,
    at the same cost, up to what the comparison of costs ignores (C56); the same coordinates up to an epsilon. *)
Definition near_cost (x y : Z) : Prop := x = y \/ Z.abs (x - of_int (- ((- y) / UNIT))) < EPS.
Definition near (x y : Z) : Prop := x = y \/ Z.abs (x - y) < EPS.
Definition similar (x y : body) : Prop :=
  match x, y with
  | BName a, BName b => forall p, In p (keys a) <-> In p (keys b)
  | BAdj a, BAdj b => length a = length b /\ NoDup (map a_name a) /\
      forall x, In x a -> exists y, In y b /\ a_name x = a_name y /\ a_uri x = a_uri y /\ near_cost (a_cost x) (a_cost y)
  | BCoord r a, BCoord r' a' => near r r' /\ Forall2 near a a'
  | _, _ => False
  end.
Definition copy (l' l : lsa) : Prop :=
  l_origin l = l_origin l' /\ l_seq l = l_seq l' /\ l_exp l = l_exp l' /\ similar (l_body l) (l_body l').

(** The links in an Adjacency LSA: neighbour, face URI and cost; and those configured. *)
Definition links_of (a : adl) : list (name * uri * Z) := map (fun x => (a_name x, a_uri x, a_cost x)) a.
Definition links (l : lsa) : list (name * uri * Z) := match l_body l with BAdj a => links_of a | _ => [] end.
(** All link costs of the neighbours that process [i] ever has are whole numbers. *)
Definition whole_costs (w : net) (s : sched) : Prop := forall i n e x, nth_error w i = Some n ->
  e = n_env n \/ (exists v, In (i, (e, v)) s) -> In x (links_of (e_adl e)) -> exists z, snd x = of_int z.
