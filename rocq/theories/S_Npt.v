(** Vocabulary for the name prefix table properties. *)
From Verif Require Import Base M_Nexthop M_Lsa M_Lsdb S_Lsdb M_LinkState M_Npt.
Open Scope Z_scope.
Set Implicit Arguments.

(** ** What a name prefix table says *)

(** The entry of a prefix. *)
Definition entry (s : npt) (p : name) : option npte :=
  find (fun e => eqb p (ne_name e)) (map snd (n_table s)).

(** The routers an entry refers to: the destinations of the pool entries it points to. *)
Definition routers (s : npt) (p : name) : list name :=
  match entry s p with
  | Some e => map (fun o => match get o (n_heap s) with Some q => pe_dest q | None => [] end) (ne_rtes e)
  | None => []
  end.

(** The hops and flags the FIB was last told for a prefix, unless it was told to remove it (an update
    without hops is a removal). *)
Definition told1f (p : name) (cur : option (nhl * N)) (o : nout) : option (nhl * N) :=
  match o with
  | NUpdate m hops f => if eqb m p then match hops with [] => None | _ => Some (hops, f) end else cur
  | NRemove m => if eqb m p then None else cur
  end.
Definition fib_told (p : name) (outs : list nout) : option (nhl * N) := fold_left (told1f p) outs None.

(** ** Histories *)

(** Names listed by the stored LSAs according to the notifications: by originator and type. *)
Definition view := amap (name * ltype) npl.

(** A database notifies INSTALLED for an LSA it does not hold, UPDATED with the names that are new and
    the names that are gone, REMOVED with an LSA it holds. *)
Definition note_ok (v : view) (e : nev) : Prop :=
  match e with
  | NvRoutes _ _ _ => True
  | NvNotify KInstalled l _ _ => get (l_key l) v = None /\ NoDup (keys (body_names (l_body l)))
  | NvNotify KUpdated l adds rems =>
      exists m, get (l_key l) v = Some m /\ NoDup (keys adds) /\ NoDup (keys rems) /\
        (forall p, In p (keys adds) -> ~ In p (keys m)) /\ (forall p, In p (keys rems) -> In p (keys m))
  | NvNotify KRemoved l _ _ =>
      exists m, get (l_key l) v = Some m /\ NoDup (keys (body_names (l_body l))) /\
        forall p, In p (keys (body_names (l_body l))) <-> In p (keys m)
  end.
Definition note (v : view) (e : nev) : view :=
  match e with
  | NvRoutes _ _ _ => v
  | NvNotify KInstalled l _ _ => set (l_key l) (body_names (l_body l)) v
  | NvNotify KUpdated l adds rems =>
      let m := match get (l_key l) v with Some m => m | None => [] end in
      set (l_key l) (fold_left (fun m p => del (fst p) m) rems
                       (fold_left (fun m p => set (fst p) (snd p) m) adds m)) v
  | NvNotify KRemoved l _ _ => del (l_key l) v
  end.
Fixpoint notes_ok (v : view) (evs : list nev) : Prop :=
  match evs with
  | [] => True
  | e :: evs' => note_ok v e /\ notes_ok (note v e) evs'
  end.
Definition noted (evs : list nev) : view := fold_left note evs [].

(** The cost with which router [r] advertises prefix [p]. *)
Definition advertised (v : view) (r p : name) : option Z :=
  match get (r, TName) v with Some m => get p m | None => None end.
(** Some LSA of the router is stored. *)
Definition known (v : view) (r : name) : Prop := exists t m, get (r, t) v = Some m.

(** The notifications of a run of the database, and those among the events of the table. *)
Definition out_notes (outs : list out) : list (kind * lsa * npl * npl) :=
  flat_map (fun o => match o with ONotify k l a r => [(k, l, a, r)] | _ => [] end) outs.
Definition in_notes (evs : list nev) : list (kind * lsa * npl * npl) :=
  flat_map (fun e => match e with NvNotify k l a r => [(k, l, a, r)] | _ => [] end) evs.

(** The routing table announced last. *)
Definition routes_now (evs : list nev) : rtable :=
  fold_left (fun t e => match e with NvRoutes rt _ _ => rt | _ => t end) evs [].

(** ** Costs *)

(** [l] offers face [u] at cost [c]. *)
Definition offers (l : nhl) (u : uri) (c : Z) : Prop := exists h, In h l /\ nh_uri h = u /\ nh_cost h = c.

(** [c] is the least element of a set of costs. *)
Definition least (S : Z -> Prop) (c : Z) : Prop := S c /\ forall c', S c' -> c <= c'.

(** Routes of link-state routing: integral costs, no hyperbolic hops. *)
Definition integral (t : rtable) : Prop :=
  forall d l h, In (d, l) t -> In h l -> nh_hyp h = false /\ exists c, nh_cost h = of_int c.

(** ... and no cost is negative. *)
Definition nonneg (t : rtable) : Prop := forall d l h, In (d, l) t -> In h l -> 0 <= nh_cost h.

(** ** Connections *)

(** The name list of a fetched Name LSA is a map: each name occurs once (std::map in
    name-prefix-list.hpp; every decoded LSA satisfies it). *)
Definition name_maps (evs : list (env * ev)) : Prop :=
  forall x fid l, In x evs -> snd x = EFetchDone fid (Some l) -> NoDup (keys (body_names (l_body l))).

(** The table receives exactly the notifications of a run of the database, in order; routing table
    announcements may come at any time in between. *)
Definition subscribed (nevs : list nev) (outs : list out) : Prop := in_notes nevs = out_notes outs.

(** Router [r] advertises prefix [p] at cost [c] in an LSA the database holds. *)
Definition lists (s : st) (r p : name) (c : Z) : Prop :=
  exists l, holds s l /\ l_origin l = r /\ get p (body_names (l_body l)) = Some c.

(** Some notification mentions that router [r] advertises [p] at cost [c]. *)
Definition ever (evs : list nev) (r p : name) (c : Z) : Prop :=
  exists k l a d, In (NvNotify k l a d) evs /\ l_origin l = r /\ k <> KRemoved /\
    In (p, c) (match k with KInstalled => body_names (l_body l) | _ => a end).

(** The next hops of a router in the announced routing table. *)
Definition hops_to (t : rtable) (r : name) : nhl := match get r t with Some l => l | None => [] end.

(** Direct calls of the table's operations (name-prefix-table.hpp:53-112). *)
Inductive ncall := CAdd (n dest : name) (flags : N) | CRemove (n dest : name) | CRoutes (rt : rtable) (pord nord : list name).
Definition ncall_do (x : ncall) (s : npt) : nres :=
  match x with
  | CAdd n d fl => add_entry n d fl s
  | CRemove n d => remove_entry n d s
  | CRoutes rt po no => new_routes rt po no s
  end.
Definition ncalls (l : list ncall) : nres := neach ncall_do l npt_init.

(** The pool holds a router exactly when an entry refers to it; its use count is the number of those
    entries; entries refer to live pool entries only. *)
Definition counts_exact (t : npt) : Prop :=
  (forall d, In d (keys (n_pool t)) <-> exists p, In d (routers t p)) /\
  (forall d o, get d (n_pool t) = Some o ->
     exists q, get o (n_heap t) = Some q /\ pe_dest q = d /\
       pe_use q = N.of_nat (length (filter (fun e => if in_dec Nat.eq_dec o (ne_rtes e) then true else false) (map snd (n_table t))))) /\
  (forall e o, In e (map snd (n_table t)) -> In o (ne_rtes e) ->
     exists d q, get d (n_pool t) = Some o /\ get o (n_heap t) = Some q /\ pe_dest q = d).

(** The costs that should be installed for prefix [p] and face [u]: least sum of a route cost to a router
    that lists [p] and the cost it lists. *)
Definition best (self : name) (s : st) (rt : rtable) (p : name) (u : uri) (x : Z) : Prop :=
  least (fun y => exists r px h, r <> self /\ lists s r p px /\ In h (hops_to rt r) /\ nh_uri h = u /\ y = nh_cost h + px) x.
(** The FIB was last told face [u] at cost [x] for prefix [p]. *)
Definition installed (outs : list nout) (p : name) (u : uri) (x : Z) : Prop :=
  exists hops f, fib_told p outs = Some (hops, f) /\ offers hops u x.

(** Every routing table that is announced satisfies [P]. *)
Definition announced (P : rtable -> Prop) (nevs : list nev) : Prop :=
  forall rt po no, In (NvRoutes rt po no) nevs -> P rt.

(** The prefix is not the name of a router that has LSAs. *)
Definition no_router (s : st) (p : name) : Prop := forall l, holds s l -> l_origin l <> p.
