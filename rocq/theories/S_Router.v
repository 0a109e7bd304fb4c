(** Vocabulary for properties of the whole router: reading the histories of the modules off its trace. *)
From Verif Require Import Base M_Nexthop M_Tlv M_Adj M_Lsa M_Lsdb S_Lsdb M_LinkState M_Hyperbolic M_RoutingTable
  M_Npt S_Npt M_Fib S_Pipe M_Prefix M_Hello M_Router.
Open Scope Z_scope.
Set Implicit Arguments.

(** The calls of each module, in order, and what it put out. *)
Definition pres (t : list glog) : list pev := flat_map (fun x => match x with CPre e => [e] | _ => [] end) t.
Definition pouts (t : list glog) : list pout := flat_map (fun x => match x with XPre o => [o] | _ => [] end) t.
Definition hellos (t : list glog) : list hev := flat_map (fun x => match x with CHello e => [e] | _ => [] end) t.
Definition houts (t : list glog) : list hout := flat_map (fun x => match x with XHello o => [o] | _ => [] end) t.
Definition rtevs (t : list glog) : list rtev := flat_map (fun x => match x with CRt e => [e] | _ => [] end) t.
Definition rtouts (t : list glog) : list rtout := flat_map (fun x => match x with XRt o => [o] | _ => [] end) t.
Definition npts (t : list glog) : list nev := flat_map (fun x => match x with CNpt e => [e] | _ => [] end) t.
Definition nouts (t : list glog) : list nout := flat_map (fun x => match x with XNpt o => [o] | _ => [] end) t.
Definition fibs (t : list glog) : list fev := flat_map (fun x => match x with CFib e => [e] | _ => [] end) t.
Definition fouts (t : list glog) : list fout := flat_map (fun x => match x with XFib o => [o] | _ => [] end) t.

(** What the database put out. *)
Definition db_outs (t : list glog) : list out := flat_map (fun o => match o with PDb x => [x] | _ => [] end) (pouts t).
(** The notifications the routing table received, and the tables it announced. *)
Definition rt_notes (l : list rtev) : list (kind * lsa) :=
  flat_map (fun e => match e with RvNotify k x _ => [(k, x)] | _ => [] end) l.
Definition tables (l : list rtout) : list rtable := map (fun o => match o with RAnnounce t => t end) l.
Definition routes_in (l : list nev) : list rtable :=
  flat_map (fun e => match e with NvRoutes t _ _ => [t] | _ => [] end) l.

(** A run of the router: how it was started and what happened. *)
Record grun := GRun
  { u_seqs : option seqs; u_now : Z; u_sys : Z; u_nbs : list (name * uri * Z); u_list : plist; u_file : cfile;
    u_evs : list (inp * gev) }.

Section S.
Variables (c : gconf) (uri_of : name -> string) (ang : list Z -> list Z -> Z) (dst : Z -> Z -> Z -> Z).
Definition gstate (r : grun) : router :=
  fst (gexec c uri_of ang dst (u_seqs r) (u_now r) (u_sys r) (u_nbs r) (u_list r) (u_file r) (u_evs r)).
Definition gtrace (r : grun) : list glog :=
  snd (gexec c uri_of ang dst (u_seqs r) (u_now r) (u_sys r) (u_nbs r) (u_list r) (u_file r) (u_evs r)).
Definition extend (r : grun) (evs : list (inp * gev)) : grun :=
  GRun (u_seqs r) (u_now r) (u_sys r) (u_nbs r) (u_list r) (u_file r) (u_evs r ++ evs).
End S.

(** What the hello protocol asks of the other modules, and the calls that answer it. *)
Inductive hreq := QBuild | QRecalc | QReg (n : name) (u : uri) (k : Z).
Definition asked (o : list hout) : list hreq :=
  flat_map (fun x => match x with
                     | HBuild => [QBuild] | HRecalc => [QRecalc]
                     | HRegister n u z => [QReg n u (z / UNIT)]
                     | _ => [] end) o.
Definition granted (t : list glog) : list hreq :=
  flat_map (fun x => match x with
                     | CPre (PvDb _ _ EScheduleBuild) => [QBuild]
                     | CRt (RvSchedule _) => [QRecalc]
                     | CFib (FvRegister n u k _ _) => [QReg n u k]
                     | _ => [] end) t.

(** The Adjacency LSAs of the database. *)
Definition adj_lsas (s : st) : list lsa := filter (fun l => eqb (l_type l) TAdj) (contents s).

(** Running routing calculations: what the last one, if any, found.  [calm]: the last calculation did not
    find a build of the own Adjacency LSA scheduled, and since then no Adjacency LSA of another router
    was removed from the database. *)
Definition calm1 (self : name) (b : bool) (x : glog) : bool :=
  match x with
  | CRt (RvCalc _ _ v) => negb (v_build v)
  | XPre (PDb (ONotify KRemoved l _ _)) => b && negb (eqb (l_type l) TAdj && negb (eqb (l_origin l) self))
  | _ => b
  end.
Definition calm (self : name) (t : list glog) : bool := fold_left (calm1 self) t true.
