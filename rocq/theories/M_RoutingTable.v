(** Model of the control part of route/routing-table.cpp: when the routing table is recalculated, from
    what, and when the new table is announced. *)
From Verif Require Import Base M_Nexthop M_LinkState M_Adj M_Lsa M_Lsdb M_Hyperbolic.
Open Scope Z_scope.

(** routing-table.hpp:80-82, 147-157: the tables, m_isRouteCalculationScheduled, m_ownAdjLsaExist,
    m_isRoutingTableCalculating, and the calculations that the scheduler will run (their due times). *)
Record rts := Rts
  { rt_tab : rtable; rt_dry : rtable; rt_sched : bool; rt_own : bool; rt_busy : bool; rt_pend : list Z }.
Definition rt_init : rts := Rts [] [] false false false [].

(** afterRoutingChange(m_rTable) *)
Inductive rtout := RAnnounce (t : rtable).

(** What a calculation reads from the database, in the order in which the iterators return it, and from
    the adjacency list. *)
Record rview := RView { v_adj : list lsa; v_coord : list lsa; v_build : bool; v_adl : adl }.

(** lsa/adj-lsa.hpp begin, end; adjacent.hpp:97-101 getLinkCost *)
Definition adj_view (ls : list lsa) : list adj_lsa :=
  flat_map (fun l => match l_body l with
                     | BAdj al => [AdjLsa (l_origin l) (map (fun a => (a_name a, link_cost a)) al)]
                     | _ => []
                     end) ls.
(** lsa/coordinate-lsa.hpp getRadius, getTheta *)
Definition coord_view (ls : list lsa) : coords :=
  flat_map (fun l => match l_body l with BCoord r th => [(l_origin l, (r, th))] | _ => [] end) ls.
(** adjacency-list.cpp:41-50 getAdjacent(name).getFaceUri() *)
Definition adl_faces (l : adl) : list (name * uri) := map (fun a => (a_name a, a_uri a)) l.

Section RoutingTable.
Variables (self : name) (maxf : N) (hy : hyp) (interval : Z).
Variable ang : list Z -> list Z -> Z.
Variable dst : Z -> Z -> Z -> Z.

(** routing-table.cpp:166-174 scheduleRoutingTableCalculation; the interval is in seconds *)
Definition rt_schedule (now : Z) (s : rts) : rts :=
  if rt_sched s then s
  else Rts (rt_tab s) (rt_dry s) true (rt_own s) (rt_busy s) (rt_pend s ++ [now + interval * SEC]).

(** routing-table.cpp:44-82: the slot connected to onLsdbModified *)
Definition rt_notify (k : kind) (l : lsa) (now : Z) (s : rts) : rts * list rtout :=
  let own := eqb (l_origin l) self && eqb (l_type l) TAdj in
  let '(s1, o) :=
    match k with
    | KRemoved => if own then (Rts [] [] (rt_sched s) false (rt_busy s) (rt_pend s), [RAnnounce []]) else (s, [])
    | KInstalled => if own then (Rts (rt_tab s) (rt_dry s) (rt_sched s) true (rt_busy s) (rt_pend s), []) else (s, [])
    | KUpdated => (s, [])
    end in
  let want := match k with
              | KRemoved => false
              | _ => (eqb (l_type l) TAdj && negb (eqb hy HOn)) || (eqb (l_type l) TCoord && negb (eqb hy HOff))
              end in
  (if want then rt_schedule now s1 else s1, o).

(** routing-table.cpp:113-140 calculateLsRoutingTable *)
Definition rt_calc_ls (v : rview) (s : rts) : outcome (rts * list rtout) :=
  if v_build v then Ok (s, [])
  else if negb (rt_own s) then Ok (s, [])
  else match calc_link_state self maxf (adl_faces (v_adl v)) (adj_view (v_adj v)) with
       | Ok t => Ok (Rts t (rt_dry s) (rt_sched s) (rt_own s) (rt_busy s) (rt_pend s), [RAnnounce t])
       | Diverge => Diverge
       | Ub => Ub
       end.

(** routing-table.cpp:142-164 calculateHypRoutingTable *)
Definition rt_calc_hyp (dry : bool) (v : rview) (s : rts) : outcome (rts * list rtout) :=
  match calc_hyperbolic ang dst self (v_adl v) (coord_view (v_coord v)) with
  | Ok t =>
      if dry then Ok (Rts (rt_tab s) t (rt_sched s) (rt_own s) (rt_busy s) (rt_pend s), [])
      else Ok (Rts t (rt_dry s) (rt_sched s) (rt_own s) (rt_busy s) (rt_pend s), [RAnnounce t])
  | Diverge => Diverge
  | Ub => Ub
  end.

Definition rbind (r : outcome (rts * list rtout)) (f : rts -> outcome (rts * list rtout)) : outcome (rts * list rtout) :=
  match r with
  | Ok (s, o) => match f s with Ok (s', o') => Ok (s', o ++ o') | x => x end
  | x => x
  end.

(** routing-table.cpp:85-111 calculate *)
Definition rt_calculate (now : Z) (v : rview) (s : rts) : outcome (rts * list rtout) :=
  if rt_busy s then Ok (rt_schedule now s, [])
  else
    rbind (let s1 := Rts (rt_tab s) (rt_dry s) (rt_sched s) (rt_own s) true (rt_pend s) in
           match hy with
           | HOff => rt_calc_ls v s1
           | HDry => rbind (rt_calc_ls v s1) (rt_calc_hyp true v)
           | HOn => rt_calc_hyp false v s1
           end)
          (fun s2 => Ok (Rts (rt_tab s2) (rt_dry s2) false (rt_own s2) false (rt_pend s2), [])).

Inductive rtev :=
| RvNotify (k : kind) (l : lsa) (now : Z)
| RvSchedule (now : Z)                      (* hello-protocol.cpp:195,240, nlsr.cpp:217 *)
| RvCalc (i : nat) (now : Z) (v : rview).   (* the scheduler runs the i-th pending calculation, if due *)

Fixpoint drop_nth {A} (i : nat) (l : list A) : list A :=
  match l, i with
  | [], _ => []
  | _ :: l', O => l'
  | x :: l', S i' => x :: drop_nth i' l'
  end.

Definition rt_step (e : rtev) (s : rts) : outcome (rts * list rtout) :=
  match e with
  | RvNotify k l now => Ok (rt_notify k l now s)
  | RvSchedule now => Ok (rt_schedule now s, [])
  | RvCalc i now v =>
      match nth_error (rt_pend s) i with
      | Some due =>
          if due <=? now
          then rt_calculate now v
                 (Rts (rt_tab s) (rt_dry s) (rt_sched s) (rt_own s) (rt_busy s) (drop_nth i (rt_pend s)))
          else Ok (s, [])
      | None => Ok (s, [])
      end
  end.

Fixpoint rt_run (evs : list rtev) (s : rts) : outcome (rts * list rtout) :=
  match evs with
  | [] => Ok (s, [])
  | e :: evs' => rbind (rt_step e s) (rt_run evs')
  end.
End RoutingTable.
