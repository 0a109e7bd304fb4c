(** Model of route/fib.{hpp,cpp}: the table of next hops this router wants the forwarder to have,
    and the commands it sends to the forwarder (NFD).

    A command sent through ndn::nfd::Controller is an output; its success or failure response is an
    input event that names the command.  Time is in nanoseconds. *)
From Verif Require Import Base M_Nexthop M_Adj.
Open Scope Z_scope.

(** conf-parameter.hpp getLsaRefreshTime (seconds), getMaxFacesPerPrefix *)
Record fconf := FConf { fc_refresh : Z; fc_max : N }.

(** route/fib.hpp:37-43 FibEntry.  [fe_refresh] is the pending refresh event: its due time and the
    route flags bound into its callback (fib.cpp:303-305); [None] when there is no such event.
    [fe_seq] is an int32_t whose overflow after 2^31 updates is not modelled. *)
Record fent := FEnt { fe_hops : nhl; fe_refresh : option (Z * N); fe_seq : Z }.

(** The parameters of a RibRegisterCommand (fib.cpp:181-187) with the face URI and retry counter
    that are bound into its callbacks (fib.cpp:190-192). *)
Record rcmd := RCmd
  { rc_name : name; rc_face : N; rc_cost : Z; rc_ttl : Z; rc_flags : N; rc_uri : uri; rc_times : N }.
(** A StrategyChoiceSetCommand (fib.cpp:264-277) with its retry counter. *)
Record scmd := SCmd { sc_name : name; sc_strategy : name; sc_count : N }.

(** Effects. *)
Inductive fout :=
| FReg (id : nat) (n : name) (face : N) (cost ttl : Z) (flags : N)  (* RibRegisterCommand *)
| FUnreg (n : name) (face : N)                                      (* RibUnregisterCommand *)
| FStrategy (id : nat) (n strategy : name)                          (* StrategyChoiceSetCommand *)
| FRegistered (n : name).                                           (* onPrefixRegistrationSuccess *)

(** The state: route/fib.hpp m_table, the adjacency list it refers to, the scheduler's clock, and
    the commands whose response has not arrived. *)
Record fib := Fib
  { f_tab : amap name fent; f_adl : adl; f_now : Z;
    f_cmds : amap nat rcmd; f_scmds : amap nat scmd; f_next : nat }.

Definition wf_tab v s := Fib v (f_adl s) (f_now s) (f_cmds s) (f_scmds s) (f_next s).
Definition wf_adl v s := Fib (f_tab s) v (f_now s) (f_cmds s) (f_scmds s) (f_next s).
Definition wf_now v s := Fib (f_tab s) (f_adl s) v (f_cmds s) (f_scmds s) (f_next s).
Definition wf_cmds v n s := Fib (f_tab s) (f_adl s) (f_now s) v (f_scmds s) n.
Definition wf_scmds v n s := Fib (f_tab s) (f_adl s) (f_now s) (f_cmds s) v n.

Section Fib.
Variable c : fconf.

Definition FSEC : Z := 1000000000.
(** fib.hpp:238 *)
Definition FIB_GRACE : Z := 10.
(** fib.cpp:40 m_refreshTime, in seconds *)
Definition refresh_time : Z := 2 * fc_refresh c.
(** fib.cpp:79,330: seconds converted to milliseconds *)
Definition fib_ttl : Z := (refresh_time + FIB_GRACE) * 1000.

(** fib.cpp:173-198 registerPrefix *)
Definition register (n : name) (u : uri) (cost ttl : Z) (flags times : N) (s : fib)
  : fib * list fout :=
  let face := get_face_id u (f_adl s) in
  if (0 <? face)%N
  then (wf_cmds (set (f_next s) (RCmd n face cost ttl flags u times) (f_cmds s)) (S (f_next s)) s,
        [FReg (f_next s) n face cost ttl flags])
  else (s, []).

(** fib.cpp:200-212 onRegistrationSuccess.  The response repeats the parameters of the command
    (forwarder contract). *)
Definition on_reg_ok (id : nat) (s : fib) : fib * list fout :=
  match get id (f_cmds s) with
  | None => (s, [])
  | Some r =>
      (wf_cmds (del id (f_cmds s)) (f_next s)
         (wf_adl (upd_first (fun a => eqb (a_uri a) (rc_uri r)) (set_face (rc_face r)) (f_adl s)) s),
       [FRegistered (rc_name r)])
  end.

(** fib.cpp:214-233 onRegistrationFailure *)
Definition on_reg_fail (id : nat) (s : fib) : fib * list fout :=
  match get id (f_cmds s) with
  | None => (s, [])
  | Some r =>
      let s1 := wf_cmds (del id (f_cmds s)) (f_next s) s in
      if (rc_times r <? 3)%N
      then register (rc_name r) (rc_uri r) (rc_cost r) (rc_ttl r) (rc_flags r) (rc_times r + 1) s1
      else (s1, [])
  end.

(** fib.cpp:235-262 unregisterPrefix (its response is only logged) *)
Definition unregister (n : name) (u : uri) (s : fib) : list fout :=
  let face := match adl_find_uri u (f_adl s) with Some a => a_face a | None => 0%N end in
  if (0 <? face)%N then [FUnreg n face] else [].

(** fib.cpp:264-275 setStrategy *)
Definition set_strategy (n strategy : name) (count : N) (s : fib) : fib * list fout :=
  (wf_scmds (set (f_next s) (SCmd n strategy count) (f_scmds s)) (S (f_next s)) s,
   [FStrategy (f_next s) n strategy]).

(** fib.cpp:277-282 onSetStrategySuccess *)
Definition on_strat_ok (id : nat) (s : fib) : fib * list fout :=
  (wf_scmds (del id (f_scmds s)) (f_next s) s, []).

(** fib.cpp:284-294 onSetStrategyFailure *)
Definition on_strat_fail (id : nat) (s : fib) : fib * list fout :=
  match get id (f_scmds s) with
  | None => (s, [])
  | Some r =>
      let s1 := wf_scmds (del id (f_scmds s)) (f_next s) s in
      if (sc_count r <? 3)%N then set_strategy (sc_name r) (sc_strategy r) (sc_count r + 1) s1
      else (s1, [])
  end.

(** fib.cpp:167-171 isNotNeighbor *)
Definition not_neighbor (n : name) (s : fib) : bool := negb (is_neighbor n (f_adl s)).

(** fib.cpp:47-60 remove.  Erasing the entry destroys its ScopedEventId, which cancels the refresh.
    The key of an entry and its [name] field are the same. *)
Definition fib_remove (n : name) (s : fib) : fib * list fout :=
  match get n (f_tab s) with
  | Some e =>
      if not_neighbor n s
      then (wf_tab (del n (f_tab s)) s, flat_map (fun h => unregister n (nh_uri h) s) (fe_hops e))
      else (s, [])
  | None => (s, [])
  end.

(** fib.cpp:62-83 addNextHopsToFibEntryAndNfd: the new next hop set of the entry, the new state and
    the commands. *)
Fixpoint add_fib_hops (n : name) (reg : bool) (flags : N) (hops : nhl) (set0 : nhl) (s : fib)
  : nhl * fib * list fout :=
  match hops with
  | [] => (set0, s, [])
  | h :: hops' =>
      let set1 := nhl_addu h set0 in
      let '(s1, o1) := if reg then register n (nh_uri h) (adj_int h) fib_ttl flags 0 s else (s, []) in
      let '(set2, s2, o2) := add_fib_hops n reg flags hops' set1 s1 in
      (set2, s2, o1 ++ o2)
  end.

(** fib.cpp:157-165 getNumberOfFacesForName (sizes fit in 32 bits) *)
Definition num_faces (hops : nhl) : nat :=
  if (fc_max c =? 0)%N then length hops else Nat.min (length hops) (N.to_nat (fc_max c)).

(** fib.cpp:94-100, the hops to install, sorted by URI *)
Definition hops_to_add (hops : nhl) : nhl :=
  fold_left (fun acc h => nhl_addu h acc) (firstn (num_faces hops) hops) [].

(** fib.cpp:127-131 std::set_difference of two URI-sorted sets *)
Fixpoint set_diff (fuel : nat) (a b : nhl) : nhl :=
  match fuel with
  | O => []
  | S fuel =>
      match a, b with
      | [], _ => []
      | _, [] => a
      | x :: a', y :: b' =>
          if nh_uri_ltb x y then x :: set_diff fuel a' b
          else if nh_uri_ltb y x then set_diff fuel a b'
          else set_diff fuel a' b'
      end
  end.
Definition uri_diff (a b : nhl) : nhl := set_diff (length a + length b) a b.

(** fib.cpp:296-306 scheduleEntryRefresh *)
Definition refresh_at (flags : N) (s : fib) : Z * N := (f_now s + refresh_time * FSEC, flags).

(** fib.cpp:148-154: at the end of an update, a refresh is scheduled unless one is pending *)
Definition ensure_refresh (n : name) (flags : N) (s : fib) : fib :=
  match get n (f_tab s) with
  | Some e =>
      match fe_refresh e with
      | Some _ => s
      | None =>
          if not_neighbor n s
          then wf_tab (set n (FEnt (fe_hops e) (Some (refresh_at flags s)) (fe_seq e)) (f_tab s)) s
          else s
      end
  | None => s
  end.

(** fib.cpp:85-155 update *)
Definition fib_update (n : name) (hops : nhl) (flags : N) (s : fib) : fib * list fout :=
  let new := hops_to_add hops in
  let reg := not_neighbor n s in
  match get n (f_tab s), new with
  | None, _ :: _ =>
      let '(st, s1, o) := add_fib_hops n reg flags new [] s in
      (ensure_refresh n flags (wf_tab (set n (FEnt st None 1) (f_tab s1)) s1), o)
  | _, [] => fib_remove n s
  | Some e, _ :: _ =>
      let '(st, s1, o1) := add_fib_hops n reg flags new (fe_hops e) s in
      let gone := uri_diff st new in
      let o2 := if reg then flat_map (fun h => unregister n (nh_uri h) s1) gone else [] in
      let st' := fold_left (fun acc h => nhl_remove h acc) gone st in
      (ensure_refresh n flags
         (wf_tab (set n (FEnt st' (fe_refresh e) (fe_seq e + 1)) (f_tab s1)) s1), o1 ++ o2)
  end.

(** fib.cpp:320-326, the loop of refreshEntry *)
Fixpoint refresh_hops (n : name) (flags : N) (hops : nhl) (s : fib) : fib * list fout :=
  match hops with
  | [] => (s, [])
  | h :: hops' =>
      let (s1, o1) := register n (nh_uri h) (adj_int h) fib_ttl flags 0 s in
      let (s2, o2) := refresh_hops n flags hops' s1 in
      (s2, o1 ++ o2)
  end.

(** fib.cpp:308-335 scheduleLoop, refreshEntry.  The event runs when it is due; the callback
    schedules the next one with the same flags. *)
Definition fib_refresh (n : name) (s : fib) : fib * list fout :=
  match get n (f_tab s) with
  | Some e =>
      match fe_refresh e with
      | Some (due, flags) =>
          if due <=? f_now s
          then let (s1, o) := refresh_hops n flags (fe_hops e) s in
               (wf_tab (set n (FEnt (fe_hops e) (Some (refresh_at flags s)) (fe_seq e + 1))
                            (f_tab s1)) s1, o)
          else (s, [])
      | None => (s, [])
      end
  | None => (s, [])
  end.

(** What can happen to the FIB.  [FvAdl] is a change of the adjacency list made by other components
    (nlsr.cpp:179-257, hello-protocol.cpp); [FvRegister] a direct call of registerPrefix
    (nlsr.cpp:63,313-318). *)
Inductive fev :=
| FvUpdate (n : name) (hops : nhl) (flags : N)
| FvRemove (n : name)
| FvRegister (n : name) (u : uri) (cost ttl : Z) (flags : N)
| FvSetStrategy (n strategy : name)
| FvRefresh (n : name)
| FvRegOk (id : nat) | FvRegFail (id : nat)
| FvStratOk (id : nat) | FvStratFail (id : nat)
| FvAdl (l : adl)
| FvTime (t : Z).

Definition fstep (s : fib) (e : fev) : fib * list fout :=
  match e with
  | FvUpdate n hops flags => fib_update n hops flags s
  | FvRemove n => fib_remove n s
  | FvRegister n u cost ttl flags => register n u cost ttl flags 0 s
  | FvSetStrategy n st => set_strategy n st 0 s
  | FvRefresh n => fib_refresh n s
  | FvRegOk id => on_reg_ok id s
  | FvRegFail id => on_reg_fail id s
  | FvStratOk id => on_strat_ok id s
  | FvStratFail id => on_strat_fail id s
  | FvAdl l => (wf_adl l s, [])
  | FvTime t => (wf_now (Z.max (f_now s) t) s, [])
  end.

(** fib.cpp:36-45 constructor *)
Definition fib_init (l : adl) (now : Z) : fib := Fib [] l now [] [] 0.

Definition fexec (l : adl) (now : Z) (evs : list fev) : fib * list fout :=
  run fstep (fib_init l now) evs.
End Fib.
