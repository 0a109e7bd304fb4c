(** Model of nlsr.{hpp,cpp}: the whole router, wired from the models of its modules.

    One event of the router is one callback of the event loop (one packet, one timer, one answer of the
    forwarder).  Within it the modules call each other synchronously; the calls are logged in the trace,
    so that the history of every module can be read off the history of the router.

    A module's outputs are passed on after its step, not in the middle of it.  No callee calls back
    into, or reads the state of, a module that is in the middle of a step, except that the FIB reads the
    adjacency list, where the order makes no difference (every face id is set before the calls that use
    it, and set once in a step). *)
From Verif Require Import Base M_Nexthop M_Tlv M_Adj M_Lsa M_Lsdb M_LinkState M_Hyperbolic M_RoutingTable
  M_Npt M_Fib M_Prefix M_Hello.
Open Scope Z_scope.

(** conf-parameter.hpp: what the modules read; intervals in seconds *)
Record gconf := GConf
  { gc : conf; gc_sync : name; gc_tries : N; gc_max : N; gc_calc : Z }.
Definition hconf_of (c : gconf) : hconf :=
  HConf (c_self (gc c)) (c_lsaprefix (gc c)) (gc_sync c) (c_retry (gc c)) (c_hyp (gc c)) (gc_tries c).
Definition fconf_of (c : gconf) : fconf := FConf (c_refresh (gc c)) (gc_max c).

(** nlsr.hpp:140-178, the members; [g_pre]: database, name prefix list and configuration file. *)
Record router := Router
  { g_pre : pst; g_h : hst; g_rt : rts; g_npt : npt; g_fib : fib;
    g_strat : list name;     (* m_strategySetOnRouters *)
    g_dead : bool }.         (* the process has exited *)
Definition gw_pre v g := Router v (g_h g) (g_rt g) (g_npt g) (g_fib g) (g_strat g) (g_dead g).
Definition gw_h v g := Router (g_pre g) v (g_rt g) (g_npt g) (g_fib g) (g_strat g) (g_dead g).
Definition gw_rt v g := Router (g_pre g) (g_h g) v (g_npt g) (g_fib g) (g_strat g) (g_dead g).
Definition gw_npt v g := Router (g_pre g) (g_h g) (g_rt g) v (g_fib g) (g_strat g) (g_dead g).
Definition gw_fib v g := Router (g_pre g) (g_h g) (g_rt g) (g_npt g) v (g_strat g) (g_dead g).
Definition gw_strat v g := Router (g_pre g) (g_h g) (g_rt g) (g_npt g) (g_fib g) v (g_dead g).
Definition gw_dead g := Router (g_pre g) (g_h g) (g_rt g) (g_npt g) (g_fib g) (g_strat g) true.

Definition g_db (g : router) : st := p_db (g_pre g).
Definition g_now (g : router) : Z := s_now (g_db g).

(** The trace: calls of the modules and what they put out. *)
Inductive glog :=
| CPre (x : pev) | CHello (x : hev) | CRt (x : rtev) | CNpt (x : nev) | CFib (x : fev)
| XPre (o : pout) | XHello (o : hout) | XRt (o : rtout) | XNpt (o : nout) | XFib (o : fout)
| XUb.

(** What the environment decides about one event: the system clock, and the iteration orders of the
    unordered containers (pool, weak pointers, Adjacency LSAs, Coordinate LSAs). *)
Record inp := Inp { i_sys : Z; i_pord : list name; i_nord : list name; i_aord : list name; i_cord : list name }.

Definition gact := router -> router * list glog.
Definition gret : gact := fun g => (g, []).
Definition gseq (f h : gact) : gact :=
  fun g => let (g1, o1) := f g in let (g2, o2) := h g1 in (g2, o1 ++ o2).
Fixpoint geach {A} (f : A -> gact) (l : list A) : gact :=
  match l with [] => gret | x :: l' => gseq (f x) (geach f l') end.
(** Nothing runs once the process has exited. *)
Definition live (f : gact) : gact := fun g => if g_dead g then (g, []) else f g.

Section Router.
Variable c : gconf.
Variable uri_of : name -> string.
Variable ang : list Z -> list Z -> Z.
Variable dst : Z -> Z -> Z -> Z.
Variable i : inp.

Notation self := (c_self (gc c)).

(** *** Calls of the modules *)

Definition call_fib (e : fev) : gact := live (fun g =>
  let (f, o) := fstep (fconf_of c) (g_fib g) e in (gw_fib f g, CFib e :: map XFib o)).

(** name-prefix-table.cpp: m_fib.update, m_fib.remove *)
Definition npt_out (o : nout) : gact :=
  match o with NUpdate n h f => call_fib (FvUpdate n h f) | NRemove n => call_fib (FvRemove n) end.
Definition call_npt (e : nev) : gact := live (fun g =>
  match nstep self e (g_npt g) with
  | Ok (n, o) => gseq (fun g => (gw_npt n g, CNpt e :: map XNpt o)) (geach npt_out o) g
  | _ => (gw_dead g, [XUb])
  end).

(** name-prefix-table.cpp:39-44: afterRoutingChange is connected to updateWithNewRoute *)
Definition rt_out (o : rtout) : gact :=
  match o with RAnnounce t => call_npt (NvRoutes t (i_pord i) (i_nord i)) end.
Definition call_rt (e : rtev) : gact := live (fun g =>
  match rt_step self (gc_max c) (c_hyp (gc c)) (gc_calc c) ang dst e (g_rt g) with
  | Ok (r, o) => gseq (fun g => (gw_rt r g, CRt e :: map XRt o)) (geach rt_out o) g
  | _ => (gw_dead g, [XUb])
  end).

(** security::Certificate::KEY_COMPONENT and nlsr.cpp:139,148 *)
Definition KEY : comp := gen "KEY"%string.
Definition C1_ROUTER : comp := gen (String (ascii_of_N 193) ".Router")%string.
Definition C1_OPERATOR : comp := gen "%C1.Operator"%string.
(** route/fib.hpp:212-213 *)
Definition MULTICAST : name := nm ["localhost"; "nfd"; "strategy"; "multicast"]%string.
Definition BEST_ROUTE : name := nm ["localhost"; "nfd"; "strategy"; "best-route"]%string.
Fixpoint site_of (n : name) : name :=
  match n with [] => [] | x :: n' => if eqb x C1_ROUTER then [] else x :: site_of n' end.

(** nlsr.cpp:115-150 registerStrategyForCerts *)
Definition register_strategy (origin : name) : gact := live (fun g =>
  if existsb (eqb origin) (g_strat g) then (g, [])
  else geach (fun n => call_fib (FvSetStrategy n BEST_ROUTE))
             [origin ++ [KEY]; origin ++ [gen "nlsr"%string; KEY];
              site_of origin ++ [KEY]; site_of origin ++ [C1_OPERATOR]]
             (gw_strat (g_strat g ++ [origin]) g)).

(** The subscribers of the database: routing-table.cpp:44-82, then name-prefix-table.cpp:46-50 (the
    order of construction, nlsr.cpp:47-49), and nlsr.cpp:52-56.  An exception that leaves the event
    loop ends the program (main.cpp:87-93). *)
Definition pre_out (o : pout) : gact :=
  match o with
  | PDb (ONotify k l a r) =>
      live (fun g => gseq (call_rt (RvNotify k l (g_now g))) (call_npt (NvNotify k l a r)) g)
  | PDb (ONewLsa _ _ origin _) => register_strategy origin
  | PDb OThrow | PDb OUb => fun g => (gw_dead g, [])
  | _ => gret
  end.
Definition call_pre (x : pev) : gact := live (fun g =>
  let (p, o) := pstep uri_of (gc c) (g_pre g) x in
  gseq (fun g => (gw_pre p g, CPre x :: map XPre o)) (geach pre_out o) g).

(** ndn::time::milliseconds::max() *)
Definition MS_MAX : Z := 2 ^ 63 - 1.

(** hello-protocol.cpp:195,199,240,243 and nlsr.cpp:217,222: status changes; nlsr.cpp:66-67, 348-354:
    registrations (the cost is a rounded-up double). *)
Definition hello_out (o : hout) : gact :=
  match o with
  | HBuild => live (fun g => call_pre (PvDb (i_sys i) (h_adl (g_h g)) EScheduleBuild) g)
  | HRecalc => live (fun g => call_rt (RvSchedule (g_now g)) g)
  | HRegister n u z => call_fib (FvRegister n u (wholes z) MS_MAX CAPTURE)
  | HThrow => fun g => (gw_dead g, [])
  | _ => gret
  end.
(** The adjacency list is one object, which the FIB reads: [FvAdl] tells its model the new value. *)
Definition call_hello (x : hev) : gact := live (fun g =>
  let (h, o) := hstep (hconf_of c) (g_h g) x in
  gseq (fun g => (gw_h h g, CHello x :: map XHello o))
       (gseq (call_fib (FvAdl (h_adl h))) (geach hello_out o)) g).

(** *** Events *)

Inductive gev :=
| GvTick (d : Z)                       (* time passes *)
| GvDb (v : ev)                        (* sync, LSA Interests and Data, the database's timers *)
| GvCmd (m : cmd) (w : wres)           (* a prefix update or RIB command *)
| GvHello (v : hev)                    (* hello packets and timers, face events and datasets *)
| GvFib (v : fev)                      (* refresh timers, answers to registrations and strategy choices *)
| GvCalc (k : nat).                    (* the scheduler runs a routing calculation *)

(** What a routing calculation reads. *)
Definition type_origins (t : ltype) (s : st) : list name :=
  map fst (filter (fun k => eqb (snd k) t) (keys (s_store s))).
Definition lsas_of (t : ltype) (ord : list name) (s : st) : list lsa :=
  flat_map (fun o => match find_lsa (o, t) s with Some l => [l] | None => [] end)
           (arrange ord (type_origins t s)).
Definition calc_view (g : router) : rview :=
  RView (lsas_of TAdj (i_aord i) (g_db g)) (lsas_of TCoord (i_cord i) (g_db g))
        (s_sched (g_db g)) (h_adl (g_h g)).

Definition gstep_live (v : gev) : gact := fun g =>
  match v with
  | GvTick d =>
      gseq (call_pre (PvDb (i_sys i) (h_adl (g_h g)) (ETick d)))
           (fun g => call_fib (FvTime (g_now g)) g) g
  | GvDb x =>
      match x with
      | ETick _ | EBuildName | EScheduleBuild => (g, [])
      | _ => call_pre (PvDb (i_sys i) (h_adl (g_h g)) x) g
      end
  | GvCmd m w => call_pre (PvCmd (i_sys i) (h_adl (g_h g)) m w) g
  | GvHello x =>
      match x with
      | HvRegistered _ | HvFace _ _ => (g, [])
      | _ => call_hello x g
      end
  | GvFib x =>
      match x with
      | FvRefresh _ | FvRegFail _ | FvStratOk _ | FvStratFail _ => call_fib x g
      | FvRegOk id =>
          (* fib.cpp:200-212, then nlsr.cpp:57-60 *)
          match get id (f_cmds (g_fib g)) with
          | Some r =>
              gseq (call_fib x)
                   (gseq (call_hello (HvFace (rc_uri r) (rc_face r))) (call_hello (HvRegistered (rc_name r)))) g
          | None => (g, [])
          end
      | _ => (g, [])
      end
  | GvCalc k =>
      match nth_error (rt_pend (g_rt g)) k with
      | Some due => if due <=? g_now g then call_rt (RvCalc k (g_now g) (calc_view g)) g else (g, [])
      | None => (g, [])
      end
  end.
End Router.

Section Run.
Variable c : gconf.
Variable uri_of : name -> string.
Variable ang : list Z -> list Z -> Z.
Variable dst : Z -> Z -> Z -> Z.

Definition gstep (g : router) (x : inp * gev) : router * list glog :=
  live (gstep_live c uri_of ang dst (fst x) (snd x)) g.

(** nlsr.cpp:38-113, the constructor.  The database is constructed before its subscribers, so they do
    not see the notifications about its first LSAs.  [q]: the saved sequence numbers; [nbs], [p], [f]:
    neighbours, prefixes and the file of the configuration. *)
Definition ginit (q : option seqs) (now sys : Z) (nbs : list (name * uri * Z)) (p : plist) (f : cfile)
  : router * list glog :=
  let (h, ho) := hinit (hconf_of c) nbs in
  let (d, po) := pinit (gc c) q now sys (conf_adl nbs) p f in
  let g := Router d h rt_init npt_init (fib_init (h_adl h) now) [] false in
  let (g1, o1) := geach (fun n => call_fib c (FvSetStrategy n MULTICAST)) [c_lsaprefix (gc c); gc_sync c] g in
  (g1, map XPre po ++ map XHello ho ++ o1).

Definition gexec q now sys nbs p f (evs : list (inp * gev)) : router * list glog :=
  let (g, o) := ginit q now sys nbs p f in
  let (g', o') := run gstep g evs in (g', o ++ o').
End Run.
