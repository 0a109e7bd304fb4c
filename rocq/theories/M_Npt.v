(** Model of route/name-prefix-table.{hpp,cpp}, route/name-prefix-table-entry.{hpp,cpp} and
    route/routing-table-pool-entry.hpp: which routers advertise which prefix, and the FIB updates
    that follow from it.

    Objects held by std::shared_ptr are numbered; an object is alive while its owner holds it.  A
    failing assumption of the code (null dereference, erase(end()), modification of a container that
    is being iterated) is the outcome [Ub].

    Simplification: the sum of two costs (doubles) is exact. *)
From Verif Require Import Base M_Nexthop M_Lsa M_Lsdb M_LinkState.
Open Scope Z_scope.

(** ndn::nfd::ROUTE_FLAG_CHILD_INHERIT, ROUTE_FLAG_CAPTURE (external) *)
Definition CHILD_INHERIT : N := 1.
Definition CAPTURE : N := 2.

(** routing-table-pool-entry.hpp:48-104: destination, next hops, use count, and the weak pointers to
    the name prefix table entries (by name; the number of the entry). *)
Record pent := PEnt { pe_dest : name; pe_nhl : nhl; pe_use : N; pe_names : amap name nat }.

(** name-prefix-table-entry.hpp: name, flags, m_rteList (shared pointers to pool entries),
    m_nexthopList *)
Record npte := Npte { ne_name : name; ne_flags : N; ne_rtes : list nat; ne_nhl : nhl }.

(** name-prefix-table.hpp:140-151: m_table (entries by object number), m_rtpool, the pool entries,
    m_nexthopCost, and the routing table it refers to.  [n_next] numbers objects. *)
Record npt := Npt
  { n_table : amap nat npte; n_pool : amap name nat; n_heap : amap nat pent;
    n_cost : amap (name * name) Z; n_rt : rtable; n_next : nat }.

Definition wn_table v s := Npt v (n_pool s) (n_heap s) (n_cost s) (n_rt s) (n_next s).
Definition wn_pool v s := Npt (n_table s) v (n_heap s) (n_cost s) (n_rt s) (n_next s).
Definition wn_heap v s := Npt (n_table s) (n_pool s) v (n_cost s) (n_rt s) (n_next s).
Definition wn_cost v s := Npt (n_table s) (n_pool s) (n_heap s) v (n_rt s) (n_next s).
Definition wn_rt v s := Npt (n_table s) (n_pool s) (n_heap s) (n_cost s) v (n_next s).
Definition wn_next v s := Npt (n_table s) (n_pool s) (n_heap s) (n_cost s) (n_rt s) v.

(** Calls of Fib::update and Fib::remove. *)
Inductive nout := NUpdate (n : name) (hops : nhl) (flags : N) | NRemove (n : name).

Definition nres := outcome (npt * list nout).
Definition nbind (r : nres) (f : npt -> nres) : nres :=
  match r with
  | Ok (s, o) => match f s with Ok (s', o') => Ok (s', o ++ o') | x => x end
  | x => x
  end.

Section Npt.
Variable self : name.   (* m_ownRouterName *)

(** name-prefix-table.cpp:121-131 adjustNexthopCosts.  operator[] of std::map inserts a missing key
    with cost 0; it is evaluated once per next hop.  The new NextHop is built from URI and cost, so
    it is not hyperbolic (nexthop.hpp:53-57). *)
Definition adjust (hops : nhl) (n dest : name) (s : npt) : npt * nhl :=
  match hops with
  | [] => (s, [])
  | _ =>
      let k := match get (dest, n) (n_cost s) with Some v => v | None => 0 end in
      (wn_cost (set (dest, n) k (n_cost s)) s,
       fold_left (fun acc h => nhl_addc (mk_nh (nh_uri h) (nh_cost h + k)) acc) hops [])
  end.

(** name-prefix-table-entry.cpp:32-43 generateNhlfromRteList *)
Definition hops_of (h : amap nat pent) (o : nat) : nhl :=
  match get o h with Some p => pe_nhl p | None => [] end.
Definition gen_nhl (h : amap nat pent) (rtes : list nat) : nhl :=
  fold_left (fun acc x => nhl_addc x acc) (flat_map (hops_of h) rtes) [].

(** std::find_if by name (name-prefix-table.cpp:137-138,238-239) *)
Definition find_npte (n : name) (t : amap nat npte) : option (nat * npte) :=
  find (fun x => eqb n (ne_name (snd x))) t.

(** routing-table.cpp:199-208 findRoutingTableEntry: first entry with that destination *)
Definition find_rte (d : name) (t : rtable) : option nhl := get d t.

(** name-prefix-table.cpp:141-165 and 326-332 addRtpeToPool: the pool entry of a destination,
    created if necessary from the routing table with use count 0 *)
Definition pool_entry (d : name) (s : npt) : nat * npt :=
  match get d (n_pool s) with
  | Some o => (o, s)
  | None =>
      let o := n_next s in
      let hops := match find_rte d (n_rt s) with Some l => l | None => [] end in
      (o, wn_pool (set d o (n_pool s))
            (wn_heap (set o (PEnt d hops 0 []) (n_heap s)) (wn_next (S o) s)))
  end.

(** routing-table-pool-entry.hpp:78-92 *)
Definition use_add (o : nat) (s : npt) : npt :=
  match get o (n_heap s) with
  | Some p => wn_heap (set o (PEnt (pe_dest p) (pe_nhl p) (pe_use p + 1) (pe_names p)) (n_heap s)) s
  | None => s
  end.

(** name-prefix-table-entry.cpp:63-77 addRoutingTableEntry: the new list and state *)
Definition add_rte (o : nat) (rtes : list nat) (s : npt) : list nat * npt :=
  if in_dec eq_dec o rtes then (rtes, s) else (rtes ++ [o], use_add o s).

(** name-prefix-table.cpp:175-216: inform the FIB *)
Definition tell_fib (e : npte) (dest : name) (s : npt) : npt * list nout :=
  match ne_nhl e with
  | [] => (s, [NRemove (ne_name e)])
  | _ => let (s', hops) := adjust (ne_nhl e) (ne_name e) dest s in
         (s', [NUpdate (ne_name e) hops (ne_flags e)])
  end.

(** name-prefix-table.cpp:216-218: namePrefixTableEntries.try_emplace *)
Definition link (o : nat) (n : name) (k : nat) (s : npt) : npt :=
  match get o (n_heap s) with
  | Some p =>
      match get n (pe_names p) with
      | Some _ => s
      | None => wn_heap (set o (PEnt (pe_dest p) (pe_nhl p) (pe_use p) (set n k (pe_names p))) (n_heap s)) s
      end
  | None => s
  end.

(** name-prefix-table.cpp:133-219 addEntry *)
Definition add_entry (n dest : name) (flags : N) (s : npt) : nres :=
  let (o, s1) := pool_entry dest s in
  match find_npte n (n_table s1) with
  | None =>
      let (rtes, s2) := add_rte o [] s1 in
      let k := n_next s2 in
      let e := Npte n CHILD_INHERIT rtes (gen_nhl (n_heap s2) rtes) in
      let s3 := wn_table (set k e (n_table s2)) (wn_next (S k) s2) in
      let (s4, out) := tell_fib e dest s3 in
      Ok (link o n k s4, out)
  | Some (k, e0) =>
      let fl := if negb (eqb (ne_flags e0) flags) && Nat.eqb (length (ne_nhl e0)) 0
                then flags else ne_flags e0 in
      let (rtes, s2) := add_rte o (ne_rtes e0) s1 in
      let e := Npte n fl rtes (gen_nhl (n_heap s2) rtes) in
      let s3 := wn_table (set k e (n_table s2)) s2 in
      let (s4, out) := tell_fib e dest s3 in
      Ok (link o n k s4, out)
  end.

(** std::list::erase of the first occurrence *)
Fixpoint remove1 (o : nat) (l : list nat) : list nat :=
  match l with
  | [] => []
  | x :: l' => if Nat.eqb x o then l' else x :: remove1 o l'
  end.

(** name-prefix-table-entry.cpp:45-61 removeRoutingTableEntry: the new list, state and use count *)
Definition rem_rte (o : nat) (n : name) (rtes : list nat) (s : npt) : list nat * npt * N :=
  let use s := match get o (n_heap s) with Some p => pe_use p | None => 0%N end in
  if in_dec eq_dec o rtes
  then let s1 := match get o (n_heap s) with
                 | Some p => wn_heap (set o (PEnt (pe_dest p) (pe_nhl p) (N.pred (pe_use p)) (del n (pe_names p)))
                                          (n_heap s)) s
                 | None => s end in
       (remove1 o rtes, s1, use s1)
  else (rtes, s, use s).

(** name-prefix-table.cpp:221-284 removeEntry *)
Definition remove_entry (n dest : name) (s : npt) : nres :=
  match get dest (n_pool s) with
  | None => Ok (s, [])
  | Some o =>
      match find_npte n (n_table s) with
      | None => Ok (s, [])
      | Some (k, e) =>
          let '(rtes, s1, use) := rem_rte o n (ne_rtes e) s in
          (* 340-348 deleteRtpeFromPool *)
          let s2 := if (use =? 0)%N then wn_pool (del dest (n_pool s1)) s1 else s1 in
          match rtes with
          | [] => Ok (wn_table (del k (n_table s2)) s2, [NRemove n])
          | _ =>
              let e' := Npte n (ne_flags e) rtes (gen_nhl (n_heap s2) rtes) in
              let s3 := wn_table (set k e' (n_table s2)) s2 in
              let (s4, hops) := adjust (ne_nhl e') n dest s3 in
              Ok (s4, [NUpdate n hops (ne_flags e')])
          end
      end
  end.

(** m_nexthopCost.erase(m_nexthopCost.find(key)): erasing end() is undefined *)
Definition erase_cost (dest n : name) (s : npt) : nres :=
  match get (dest, n) (n_cost s) with
  | Some _ => Ok (wn_cost (del (dest, n) (n_cost s)) s, [])
  | None => Ub
  end.

(** name-prefix-table.cpp:77-83, 92-97: one added prefix *)
Definition add_prefix (origin : name) (p : name * Z) (s : npt) : nres :=
  if eqb (fst p) self then Ok (s, [])
  else add_entry (fst p) origin CHILD_INHERIT (wn_cost (set (origin, fst p) (snd p) (n_cost s)) s).
(** name-prefix-table.cpp:101-104, 112-115: one removed prefix *)
Definition rem_prefix (origin n : name) (s : npt) : nres :=
  if eqb n self then Ok (s, [])
  else nbind (erase_cost origin n s) (remove_entry n origin).

Fixpoint neach {A} (f : A -> npt -> nres) (l : list A) (s : npt) : nres :=
  match l with
  | [] => Ok (s, [])
  | x :: l' => nbind (f x s) (neach f l')
  end.

(** name-prefix-table.cpp:63-119 updateFromLsdb *)
Definition from_lsdb (kd : kind) (l : lsa) (adds rems : npl) (s : npt) : nres :=
  if eqb (l_origin l) self then Ok (s, [])
  else
    match kd with
    | KInstalled =>
        nbind (add_entry (l_origin l) (l_origin l) CAPTURE s)
              (neach (add_prefix (l_origin l)) (body_names (l_body l)))
    | KUpdated =>
        match l_type l with
        | TName => nbind (neach (add_prefix (l_origin l)) adds s)
                         (neach (rem_prefix (l_origin l)) (keys rems))
        | _ => Ok (s, [])
        end
    | KRemoved =>
        nbind (remove_entry (l_origin l) (l_origin l) s)
              (neach (rem_prefix (l_origin l)) (keys (body_names (l_body l))))
    end.

(** Iteration order of a std::unordered_map is unspecified: [ord] may name keys in any order; the
    other keys follow. *)
Definition arrange (ord : list name) (ks : list name) : list name :=
  filter (fun k => if in_dec eq_dec k ks then true else false) (nodup eq_dec ord)
  ++ filter (fun k => if in_dec eq_dec k ord then false else true) ks.

(** name-prefix-table.cpp:300-305, 309-313: the body for one weak pointer of a pool entry.  The
    iterated containers (pool, weak pointers of the pool entry) must not be changed. *)
Definition readd (o : nat) (dest n : name) (s : npt) : nres :=
  let names s := match get o (n_heap s) with Some p => keys (pe_names p) | None => [] end in
  match get o (n_heap s) with
  | None => Ub
  | Some p =>
      match get n (pe_names p) with
      | None => Ub
      | Some k =>
          match get k (n_table s) with
          | None => Ub                       (* lock() of a dead object *)
          | Some e =>
              match add_entry (ne_name e) dest (ne_flags e) s with
              | Ok (s', out) =>
                  if eqb (keys (n_pool s')) (keys (n_pool s)) && eqb (names s') (names s)
                  then Ok (s', out) else Ub
              | x => x
              end
          end
      end
  end.

Definition set_hops (o : nat) (hops : nhl) (s : npt) : npt :=
  match get o (n_heap s) with
  | Some p => wn_heap (set o (PEnt (pe_dest p) hops (pe_use p) (pe_names p)) (n_heap s)) s
  | None => s
  end.

(** name-prefix-table.cpp:286-321, the body for one pool entry *)
Definition reroute (rt : rtable) (nord : list name) (dest : name) (s : npt) : nres :=
  match get dest (n_pool s) with
  | None => Ub
  | Some o =>
      match get o (n_heap s) with
      | None => Ub
      | Some p =>
          let names := arrange nord (keys (pe_names p)) in
          match find_rte (pe_dest p) rt with
          | Some hops =>
              if nhl_eqb (pe_nhl p) hops then Ok (s, [])
              else neach (readd o (pe_dest p)) names (set_hops o hops s)
          | None => neach (readd o (pe_dest p)) names (set_hops o [] s)
          end
      end
  end.

(** name-prefix-table.cpp:286-321 updateWithNewRoute.  The routing table the name prefix table refers
    to is the table that is announced (routing-table.cpp:63,137,161). *)
Definition new_routes (rt : rtable) (pord nord : list name) (s : npt) : nres :=
  let s1 := wn_rt rt s in
  neach (reroute rt nord) (arrange pord (keys (n_pool s1))) s1.

Inductive nev :=
| NvNotify (k : kind) (l : lsa) (adds rems : npl)
| NvRoutes (rt : rtable) (pord nord : list name).

Definition nstep (e : nev) (s : npt) : nres :=
  match e with
  | NvNotify k l adds rems => from_lsdb k l adds rems s
  | NvRoutes rt pord nord => new_routes rt pord nord s
  end.

Definition npt_init : npt := Npt [] [] [] [] [] 0.
Definition nexec (evs : list nev) : nres := neach nstep evs npt_init.
End Npt.
