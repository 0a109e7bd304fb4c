(** Model of route/name-map.{hpp,cpp}, route/routing-calculator-link-state.cpp and the table
    operations of route/routing-table.cpp that it uses. *)
From Verif Require Import Base M_Nexthop.
Open Scope Z_scope.

(** ** NameMap *)

(** route/name-map.hpp:45-139: a boost::bimap between names and numbers.  Numbers are assigned
    as the current size (name-map.cpp:32) and never removed, so the bimap is represented by the list
    of names in order of their numbers. *)
Definition namemap := list name.

(** route/name-map.cpp:29-34 addEntry: insertion into the bimap is refused if the name is
    present. *)
Definition nm_add (m : namemap) (x : name) : namemap :=
  if in_dec eq_dec x m then m else m ++ [x].

(** route/name-map.cpp:36-44 getRouterNameByMappingNo *)
Definition nm_name (m : namemap) (i : nat) : option name := nth_error m i.

(** route/name-map.cpp:46-54 getMappingNoByRouterName *)
Fixpoint nm_num (m : namemap) (x : name) : option nat :=
  match m with
  | [] => None
  | y :: m' => if eqb x y then Some O else option_map S (nm_num m' x)
  end.

(** The routing view of an Adjacency LSA: origin and, in list order, for each adjacent its name
    and [Adjacent::getLinkCost()] (adjacent.hpp:97-101, the ceiling, hence an integer). *)
Record adj_lsa := AdjLsa { al_origin : name; al_links : list (name * Z) }.

(** route/name-map.hpp:56-71 createFromAdjLsdb *)
Definition nm_from_adj (lsas : list adj_lsa) : namemap :=
  fold_left (fun m l => fold_left nm_add (map fst (al_links l)) (nm_add m (al_origin l)))
            lsas [].

(** route/name-map.hpp:80-90 createFromCoordinateLsdb *)
Definition nm_from_coord (origins : list name) : namemap := fold_left nm_add origins [].

(** ** Adjacency matrix *)

(** adjacent.hpp / routing-calculator-link-state.cpp:37-39 *)
Definition NON_ADJACENT_COST : Z := -12345.
Definition INF_DISTANCE : Z := 2147483647.

Definition vset {A} (l : list A) (i : nat) (x : A) : list A :=
  firstn i l ++ match skipn i l with [] => [] | _ :: t => x :: t end.

(** boost::multi_array<double,2>, row major (routing-calculator-link-state.cpp:47).  Costs are
    integers because of the ceil in getLinkCost. *)
Definition matrix := list (list Z).
Definition mget (m : matrix) (i j : nat) : Z := nth j (nth i m []) NON_ADJACENT_COST.
Definition mset (m : matrix) (i j : nat) (c : Z) : matrix := vset m i (vset (nth i m []) j c).

(** routing-calculator-link-state.cpp:108-112 *)
Definition mat_init (n : nat) : matrix := repeat (repeat NON_ADJACENT_COST n) n.

(** routing-calculator-link-state.cpp:122-130, the body for one adjacency *)
Definition mat_link (map : namemap) (row : option nat) (m : matrix) (l : name * Z) : matrix :=
  match row, nm_num map (fst l) with
  | Some r, Some c => if ((r <? length map) && (c <? length map))%nat
                      then mset m r c (snd l) else m
  | _, _ => m
  end.

(** routing-calculator-link-state.cpp:115-131 *)
Definition mat_fill (map : namemap) (lsas : list adj_lsa) (m : matrix) : matrix :=
  fold_left (fun m l => fold_left (mat_link map (nm_num map (al_origin l))) (al_links l) m)
            lsas m.

(** routing-calculator-link-state.cpp:146-164, the loop body for (row, col) *)
Definition mat_fix1 (m : matrix) (row col : nat) : matrix :=
  let toC := mget m row col in
  let fromC := mget m col row in
  if fromC =? toC then m
  else let c := if (0 <=? toC) && (0 <=? fromC) then Z.max toC fromC
                else NON_ADJACENT_COST in
       mset (mset m row col c) col row c.

(** routing-calculator-link-state.cpp:144-166 *)
Definition mat_fix (n : nat) (m : matrix) : matrix :=
  fold_left (fun m row => fold_left (fun m col => mat_fix1 m row col) (seq 0 n) m) (seq 0 n) m.

(** routing-calculator-link-state.cpp:104-169 makeAdjMatrix *)
Definition make_matrix (lsas : list adj_lsa) (map : namemap) : matrix :=
  mat_fix (length map) (mat_fill map lsas (mat_init (length map))).

(** ** Dijkstra *)

Definition dget (d : list Z) (i : nat) : Z := nth i d INF_DISTANCE.
Definition qget (q : list nat) (i : nat) : nat := nth i q O.

(** routing-calculator-link-state.cpp:175-179, inner loop body *)
Definition sort_step (dist : list Z) (i : nat) (q : list nat) (j : nat) : list nat :=
  if dget dist (qget q j) <? dget dist (qget q i)
  then vset (vset q i (qget q j)) j (qget q i)
  else q.

(** routing-calculator-link-state.cpp:171-181 sortQueueByDistance *)
Definition sort_queue (q : list nat) (dist : list Z) (start : nat) : list nat :=
  fold_left (fun q i => fold_left (sort_step dist i) (seq (S i) (length q - S i)) q)
            (seq start (length q - start)) q.

(** routing-calculator-link-state.cpp:183-192 isNotExplored *)
Definition is_not_explored (q : list nat) (u start : nat) : bool :=
  existsb (Nat.eqb u) (skipn start q).

(** parent table: EMPTY_PARENT (-12345) is [None]; stored values are router numbers. *)
Definition parents := list (option nat).
Definition pget (p : parents) (i : nat) : option nat := nth i p None.

(** routing-calculator-link-state.cpp:288-302, relaxation of v from u *)
Definition relax (m : matrix) (q : list nat) (head u : nat)
           (s : parents * list Z) (v : nat) : parents * list Z :=
  let (p, d) := s in
  if (0 <=? mget m u v) && is_not_explored q v (head + 1)
  then let nd := dget d u + mget m u v in
       if nd <? dget d v then (vset p v (Some u), vset d v nd) else (p, d)
  else (p, d).

(** routing-calculator-link-state.cpp:282-306, the while loop.  [fuel] = nRouters - head, so
    fuel 0 is the loop condition failing. *)
Fixpoint dij_loop (m : matrix) (n : nat) (fuel head : nat) (q : list nat)
         (p : parents) (d : list Z) : parents * list Z :=
  match fuel with
  | O => (p, d)
  | S f =>
      let u := qget q head in
      if dget d u =? INF_DISTANCE then (p, d)
      else let (p', d') := fold_left (relax m q head u) (seq 0 n) (p, d) in
           dij_loop m n f (head + 1) (sort_queue q d' (head + 1)) p' d'
  end.

(** routing-calculator-link-state.cpp:264-309 calculateDijkstraPath *)
Definition dijkstra (m : matrix) (src : nat) : parents * list Z :=
  let n := length m in
  let d := vset (repeat INF_DISTANCE n) src 0 in
  dij_loop m n n 0 (sort_queue (seq 0 n) d 0) (repeat None n) d.

(** routing-calculator-link-state.cpp:242-254 getNextHop.  [None] = the loop did not
    terminate within [fuel] iterations, [Some None] = NO_NEXT_HOP. *)
Fixpoint next_hop_loop (p : parents) (fuel : nat) (nh : option nat) (dest : nat)
  : option (option nat * nat) :=
  match pget p dest with
  | None => Some (nh, dest)
  | Some u => match fuel with
              | O => None
              | S f => next_hop_loop p f (Some dest) u
              end
  end.
Definition get_next_hop (p : parents) (dest src : nat) : option (option nat) :=
  match next_hop_loop p (length p) None dest with
  | None => None
  | Some (nh, d) => Some (if Nat.eqb d src then nh else None)
  end.

(** ** Routing table *)

(** route/routing-table.hpp m_rTable: list of (destination, next hop list). *)
Definition rtable := list (name * nhl).

(** route/routing-table.cpp:182-197 addNextHop (find first entry with that destination,
    otherwise push_back a new one); 210-226 addNextHopToDryTable is the same on m_dryTable. *)
Fixpoint rt_add (t : rtable) (dest : name) (nh : nexthop) : rtable :=
  match t with
  | [] => [(dest, nhl_addc nh [])]
  | (x, l) :: t' => if eqb x dest then (x, nhl_addc nh l) :: t' else (x, l) :: rt_add t' dest nh
  end.

(** adjacency-list.cpp:42-51 getAdjacent(name).getFaceUri(): the URI of the neighbour, or the
    empty URI of a default-constructed Adjacent. *)
Definition face_of (adjs : list (name * uri)) (x : name) : uri :=
  match get x adjs with Some u => u | None => EmptyString end.

(** Result of a computation that may diverge or have undefined behaviour. *)
Inductive outcome (A : Type) := Ok (a : A) | Diverge | Ub.
Arguments Ok {A} _. Arguments Diverge {A}. Arguments Ub {A}.

(** routing-calculator-link-state.cpp:314-344 addNextHopsToRoutingTable, loop body for i.
    Dereferencing an absent name (lines 337-342) is UB. *)
Definition add_hop (map : namemap) (src : nat) (adjs : list (name * uri))
           (pd : parents * list Z) (o : outcome rtable) (i : nat) : outcome rtable :=
  match o with
  | Ok t =>
      if Nat.eqb i src then Ok t
      else match get_next_hop (fst pd) i src with
           | None => Diverge
           | Some None => Ok t
           | Some (Some h) =>
               match nm_name map h, nm_name map i with
               | Some hn, Some dn =>
                   Ok (rt_add t dn (mk_nh (face_of adjs hn) (of_int (dget (snd pd) i))))
               | _, _ => Ub
               end
           end
  | x => x
  end.
Definition add_hops (map : namemap) (src : nat) (adjs : list (name * uri))
           (pd : parents * list Z) (t : rtable) : outcome rtable :=
  fold_left (add_hop map src adjs pd) (seq 0 (length map)) (Ok t).

(** routing-calculator-link-state.cpp:203-219 gatherLinks *)
Definition gather_links (m : matrix) (src : nat) : list (nat * Z) :=
  flat_map (fun i => if Nat.eqb i src then []
                     else if 0 <=? mget m src i then [(i, mget m src i)] else [])
           (seq 0 (length m)).

(** routing-calculator-link-state.cpp:224-237 simulateOneNeighbor *)
Definition simulate_one (m : matrix) (src : nat) (l : nat * Z) : matrix :=
  fold_left (fun m i => mset m src i (if Nat.eqb i (fst l) then snd l else NON_ADJACENT_COST))
            (seq 0 (length m)) m.

(** routing-calculator-link-state.cpp:373-381, the loop over neighbours; the matrix is modified
    in place and carried to the next iteration. *)
Definition multi_step (map : namemap) (src : nat) (adjs : list (name * uri))
           (s : matrix * outcome rtable) (l : nat * Z) : matrix * outcome rtable :=
  let m' := simulate_one (fst s) src l in
  (m', match snd s with
       | Ok t => add_hops map src adjs (dijkstra m' src) t
       | x => x
       end).

(** routing-calculator-link-state.cpp:348-383 calculateLinkStateRoutingPath, on a cleared
    table (routing-table.cpp:129-135).  [self] is the router prefix, [maxf] is
    max-faces-per-prefix, [adjs] the adjacency list (name, face URI). *)
Definition calc_link_state (self : name) (maxf : N) (adjs : list (name * uri))
           (lsas : list adj_lsa) : outcome rtable :=
  let map := nm_from_adj lsas in
  match nm_num map self with
  | None => Ok []
  | Some src =>
      let m := make_matrix lsas map in
      if (maxf =? 1)%N
      then add_hops map src adjs (dijkstra m src) []
      else snd (fold_left (multi_step map src adjs) (gather_links m src) (m, Ok []))
  end.
