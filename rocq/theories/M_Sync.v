(** Names of the synchronisation protocol: conf-parameter and communication/sync-logic-handler. *)
From Verif Require Import Base M_Nexthop M_Tlv M_Adj M_Lsa M_Lsdb.
Open Scope Z_scope.

(** conf-parameter.cpp:94-111 setNetwork: the LSA prefix *)
Definition lsa_prefix (net : name) : name := [gen "localhop"%string] ++ net ++ [gen "nlsr"; gen "LSA"]%string.
(** conf-parameter.cpp:94-111 setNetwork: the sync prefix; the version component is [v]
    (conf-parameter.hpp SYNC_VERSION) *)
Definition sync_prefix (svs : bool) (net : name) (v : comp) : name :=
  (if svs then [] else [gen "localhop"%string]) ++ net ++ [gen "nlsr"; gen "sync"]%string ++ [v].
(** conf-parameter.hpp:174-184 buildRouterAndSyncUserPrefix *)
Definition router_prefix (net site router : name) : name := net ++ site ++ router.
Definition sync_user_prefix (net site router : name) : name := lsa_prefix net ++ site ++ router.
(** sync-logic-handler.hpp:45-49 makeLsaUserPrefix *)
Definition lsa_user_prefix (p : name) (t : ltype) : name := p ++ [type_comp t].
(** sync-logic-handler.cpp:32-50: the names this router announces under *)
Definition user_nodes (h : hyp) (p : name) : list name :=
  [lsa_user_prefix p TName] ++ (if eqb h HOn then [] else [lsa_user_prefix p TAdj])
  ++ (if eqb h HOff then [] else [lsa_user_prefix p TCoord]).
(** sync-logic-handler.cpp:74-90 publishRoutingUpdate: the name and number announced *)
Definition announced (p : name) (o : out) : list (name * N) :=
  match o with OPublish t q => [(lsa_user_prefix p t, q)] | _ => [] end.

(** conf-parameter.hpp SyncProtocol *)
Inductive sproto := ChronoSync | PSync | Svs.
(** sync-protocol-adapter.cpp:28-30, 39-54, 94-134: the name under which the sync library knows the node of a
    user prefix.  ChronoSync appends a session, which the adapter fixes to 0 (library: the name of a
    session is the user prefix and the session). *)
Definition session (p : sproto) (u : name) : name :=
  match p with ChronoSync => u ++ [number_comp 0] | _ => u end.
(** sync-protocol-adapter.cpp:136-173: what a reported session, number and face are passed on as *)
Definition adapter_update (p : sproto) (s : name) (q face : N) : name * N * N :=
  match p with ChronoSync => (drop_last 1 s, q, 0%N) | _ => (s, q, face) end.
