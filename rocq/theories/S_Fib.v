(** Vocabulary for the FIB properties: what the forwarder holds after executing the commands, what a
    next hop list is, which next hops are the cheapest. *)
From Coq Require Import Sorting.Permutation Sorting.Sorted.
From Verif Require Import Base M_Nexthop M_Adj M_Fib.
Open Scope Z_scope.

(** The FIB and the commands after a history that starts with the neighbours [l]. *)
Definition fstate (c : fconf) (l : adl) (t0 : Z) (evs : list fev) : fib := fst (fexec c l t0 evs).
Definition fouts (c : fconf) (l : adl) (t0 : Z) (evs : list fev) : list fout := snd (fexec c l t0 evs).

(** The commands sent while one more event is handled. *)
Definition fsent (c : fconf) (l : adl) (t0 : Z) (evs : list fev) (e : fev) : list fout :=
  snd (fstep c (fstate c l t0 evs) e).

(** The router is a configured neighbour. *)
Definition neighbour (l : adl) (n : name) : Prop := In n (map a_name l).

(** The face URIs the FIB holds for a prefix. *)
Definition fib_faces (s : fib) (n : name) : list uri :=
  match get n (f_tab s) with Some e => map nh_uri (fe_hops e) | None => [] end.

(** A next hop list: one hop per face, in the order of the costs the forwarder is told. *)
Definition is_nhl (l : nhl) : Prop := Sorted Z.le (map adj_int l) /\ NoDup (map nh_uri l).

(** How many of [len] hops are wanted: all if the limit is 0. *)
Definition wanted (max : N) (len : nat) : nat :=
  if (max =? 0)%N then len else Nat.min len (N.to_nat max).

(** [chosen] are the cheapest of [hops]. *)
Definition cheapest (max : N) (hops chosen : nhl) : Prop :=
  length chosen = wanted max (length hops) /\
  exists rest, Permutation hops (chosen ++ rest) /\
    forall a b, In a chosen -> In b rest -> adj_int a <= adj_int b.

(** The forwarder executes the commands in the order in which they are sent.  A route is identified by
    prefix and face; it has a cost and flags. *)
Definition fwd := amap (name * N) (Z * N).
Definition fwd_do (r : fwd) (o : fout) : fwd :=
  match o with
  | FReg _ n f cost _ flags => set (n, f) (cost, flags) r
  | FUnreg n f => del (n, f) r
  | _ => r
  end.
Definition routes (o : list fout) : fwd := fold_left fwd_do o [].

(** Two different face URIs of neighbours never have the same face. *)
Definition faces_differ (l : adl) : Prop :=
  forall u v, (0 < get_face_id u l)%N -> get_face_id u l = get_face_id v l -> u = v.

(** Events in which the forwarder accepts every command and no face changes. *)
Definition calm (e : fev) : Prop :=
  match e with
  | FvUpdate _ _ _ | FvRemove _ | FvRefresh _ | FvSetStrategy _ _ | FvRegOk _ | FvStratOk _ | FvTime _ => True
  | _ => False
  end.

(** The hops and flags of the latest update of a prefix, unless it was removed afterwards. *)
Definition latest1 (n : name) (cur : option (nhl * N)) (e : fev) : option (nhl * N) :=
  match e with
  | FvUpdate m hops flags =>
      if eqb m n then match hops with [] => None | _ => Some (hops, flags) end else cur
  | FvRemove m => if eqb m n then None else cur
  | _ => cur
  end.
Definition latest (n : name) (evs : list fev) : option (nhl * N) := fold_left (latest1 n) evs None.

(** Each attempt to register is numbered: 1 for a fresh command, one more than the failed attempt for
    a command that is sent when the failure of that attempt is reported. *)
Definition attempts1 (a : amap nat nat) (x : fev * list fout) : amap nat nat :=
  let k := match fst x with
           | FvRegFail id | FvStratFail id => match get id a with Some k => S k | None => 1%nat end
           | _ => 1%nat
           end in
  fold_left (fun a o => match o with
                        | FReg id _ _ _ _ _ | FStrategy id _ _ => set id k a
                        | _ => a end) (snd x) a.
(** Events with the commands they cause. *)
Fixpoint ftrace (c : fconf) (s : fib) (evs : list fev) : list (fev * list fout) :=
  match evs with
  | [] => []
  | e :: r => let (s', o) := fstep c s e in (e, o) :: ftrace c s' r
  end.
Definition attempts (c : fconf) (l : adl) (t0 : Z) (evs : list fev) : amap nat nat :=
  fold_left attempts1 (ftrace c (fib_init l t0) evs) [].

(** When the routes at the forwarder expire: replay with the time at which each command is sent (the
    forwarder's clock is this clock; a lifetime is in milliseconds). *)
Definition lives := amap (name * N) Z.
Definition lives_do (now : Z) (r : lives) (o : fout) : lives :=
  match o with
  | FReg _ n f _ ttl _ => set (n, f) (now + ttl * 1000000) r
  | FUnreg n f => del (n, f) r
  | _ => r
  end.
Fixpoint lives_from (c : fconf) (s : fib) (r : lives) (evs : list fev) : lives :=
  match evs with
  | [] => r
  | e :: es => let (s', o) := fstep c s e in lives_from c s' (fold_left (lives_do (f_now s)) o r) es
  end.
Definition expiries (c : fconf) (l : adl) (t0 : Z) (evs : list fev) : lives :=
  lives_from c (fib_init l t0) [] evs.

(** The FIB together with a forwarder whose faces come and go.  A destroyed face takes its routes with it. *)
Inductive wev := WFib (e : fev) | WDown (f : N) | WUp (u : uri) (f : N).
Definition wstep (c : fconf) (w : fib * fwd) (e : wev) : fib * fwd :=
  let (s, r) := w in
  match e with
  | WFib e => let (s', o) := fstep c s e in (s', fold_left fwd_do o r)
  | WDown f =>
      (fst (fstep c s (FvAdl (upd_first (fun a => eqb (a_face a) f) (set_face 0) (f_adl s)))),
       filter (fun x => negb (snd (fst x) =? f)%N) r)
  | WUp u f => (fst (fstep c s (FvAdl (upd_first (fun a => eqb (a_uri a) u) (set_face f) (f_adl s)))), r)
  end.
Definition world (c : fconf) (l : adl) (t0 : Z) (evs : list wev) : fib * fwd :=
  fold_left (wstep c) evs (fib_init l t0, []).

(** The forwarder accepts every command, a new face has a fresh id and its URI had no face. *)
Definition orderly1 (s : fib) (e : wev) : Prop :=
  match e with
  | WFib (FvUpdate _ _ _) | WFib (FvRemove _) | WFib (FvRefresh _) | WFib (FvTime _) => True
  | WFib _ => False
  | WDown f => (0 < f)%N
  | WUp u f => (0 < f)%N /\ ~ In f (map a_face (f_adl s)) /\ get_face_id u (f_adl s) = 0%N
  end.
Fixpoint orderly (c : fconf) (w : fib * fwd) (evs : list wev) : Prop :=
  match evs with
  | [] => True
  | e :: r => orderly1 (fst w) e /\ orderly c (wstep c w e) r
  end.

(** The set of configured neighbours does not change (faces, status and costs may). *)
Definition keeps_names (names : list name) (e : fev) : Prop :=
  match e with FvAdl l => map a_name l = names | _ => True end.

(** The event is the response to command [id]. *)
Definition answers (id : nat) (e : fev) : Prop :=
  match e with FvRegOk i | FvRegFail i | FvStratOk i | FvStratFail i => i = id | _ => False end.

(** The prefix a command is about. *)
Definition about (o : fout) (n : name) : Prop :=
  match o with FReg _ m _ _ _ _ | FUnreg m _ => m = n | _ => False end.

(** The events by which the routing table, the name prefix table and the refresh timers drive the FIB. *)
Definition driven (e : fev) : Prop :=
  match e with FvUpdate _ _ _ | FvRemove _ | FvRefresh _ => True | _ => False end.

(** Faces do not change. *)
Definition no_adl (e : fev) : Prop := match e with FvAdl _ => False | _ => True end.

(** Every update of a prefix offers the same flags as the previous one and no face at a higher cost. *)
Definition improving (n : name) (evs : list fev) : Prop :=
  forall a b hops flags old oldf, evs = a ++ FvUpdate n hops flags :: b -> latest n a = Some (old, oldf) ->
    flags = oldf /\ forall h g, In h hops -> In g old -> nh_uri h = nh_uri g -> nh_cost h <= nh_cost g.
(** No hop is hyperbolic. *)
Definition plain (n : name) (evs : list fev) : Prop :=
  forall hops flags, In (FvUpdate n hops flags) evs -> Forall (fun h => nh_hyp h = false) hops.
(** When the refresh of a prefix is due. *)
Definition refresh_due (s : fib) (n : name) : option Z :=
  match get n (f_tab s) with Some e => option_map fst (fe_refresh e) | None => None end.
