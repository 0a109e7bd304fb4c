(** Specification vocabulary for the LSDB properties: what an observer of the router sees. *)
From Verif Require Import Base M_Nexthop M_Tlv M_Adj M_Lsa M_Lsdb.
Open Scope Z_scope.
Set Implicit Arguments.

(** All LSAs held by the database, in storage order. *)
Definition contents (s : st) : list lsa :=
  flat_map (fun ki => match get (snd ki) (s_heap s) with Some o => [o_lsa o] | None => [] end)
           (s_store s).

(** [l] is in the database. *)
Definition holds (s : st) (l : lsa) : Prop := In l (contents s).

(** A state the router can be in: some run reaches it. *)
Definition reachable (c : conf) (s : st) : Prop :=
  exists f now e0 evs, s = fst (exec c f now e0 evs).

(** ** Notifications *)

(** What a subscriber believes after one notification: does router [r] advertise prefix [p]? *)
Definition told1 (r p : name) (b : bool) (o : out) : bool :=
  match o with
  | ONotify k l adds rems =>
      if eqb (l_origin l) r && eqb (l_type l) TName then
        match k with
        | KInstalled => if in_dec eq_dec p (keys (body_names (l_body l))) then true else false
        | KUpdated =>
            if in_dec eq_dec p (keys rems) then false
            else if in_dec eq_dec p (keys adds) then true else b
        | KRemoved => false
        end
      else b
  | _ => b
  end.
Definition told (r p : name) (outs : list out) : bool := fold_left (told1 r p) outs false.

(** ** Sync announcements and the state file *)

(** The numbers announced for one LSA type, oldest first. *)
Fixpoint announced (t : ltype) (outs : list out) : list N :=
  match outs with
  | [] => []
  | OPublish t' q :: outs' => if eqb t t' then q :: announced t outs' else announced t outs'
  | _ :: outs' => announced t outs'
  end.

(** The file system: temporary file and state file.  Writing the temporary file does not touch the
    state file; the rename is atomic. *)
Record disk := Disk { d_tmp : option seqs; d_file : option seqs }.
Definition disk1 (d : disk) (o : out) : disk :=
  match o with
  | OTmp q => Disk (Some q) (d_file d)
  | ORename => Disk None (d_tmp d)
  | _ => d
  end.
Definition disk_after (f : option seqs) (outs : list out) : disk :=
  fold_left disk1 outs (Disk None f).

Fixpoint increasing (l : list N) : Prop :=
  match l with
  | [] => True
  | x :: l' => (forall y, In y l' -> (x < y)%N) /\ increasing l'
  end.

Fixpoint nondecreasing (l : list N) : Prop :=
  match l with
  | [] => True
  | x :: l' => (forall y, In y l' -> (x <= y)%N) /\ nondecreasing l'
  end.

(** Types a router publishes in each mode (conf-parameter: link-state publishes Name and Adjacency
    LSAs, hyperbolic publishes Name and Coordinate LSAs, dry-run publishes all three). *)
Definition publishes (h : hyp) (t : ltype) : bool :=
  match t, h with
  | TName, _ => true
  | TAdj, HOn => false
  | TAdj, _ => true
  | TCoord, HOff => false
  | TCoord, _ => true
  end.

(** [prefix p l]: [p] is an initial segment of [l]: what happened before a crash. *)
Definition prefix {A} (p l : list A) : Prop := exists r, l = p ++ r.

(** ** Inputs *)

(** No fetched content claims to originate from this router. *)
Definition no_forged_own (c : conf) (evs : list (env * ev)) : Prop :=
  forall e fid l, In (e, EFetchDone fid (Some l)) evs -> l_origin l <> c_self c.

(** Sync reports about this router's own Adjacency LSA are not older than what it announced. *)
Definition sync_not_stale (c : conf) (outs : list out) (v : ev) : Prop :=
  match v with
  | ESync u q _ =>
      update_origin u = Some (c_self c) -> back 1 u = Some (type_comp TAdj) ->
      forall n, In n (announced TAdj outs) -> (n <= q mod 2 ^ 64)%N
  | _ => True
  end.

(** ** Fetches *)

(** The numbers for which fetches of LSA name [n] were started, oldest first. *)
Fixpoint fetched (n : name) (outs : list out) : list N :=
  match outs with
  | [] => []
  | OFetch i _ :: outs' =>
      match back 1 i with
      | Some cq =>
          match to_number cq with
          | Some q => if eqb (drop_last 1 i) n then q :: fetched n outs' else fetched n outs'
          | None => fetched n outs'
          end
      | None => fetched n outs'
      end
  | _ :: outs' => fetched n outs'
  end.

Definition is_fetch (o : out) : bool := match o with OFetch _ _ => true | _ => false end.
Definition is_sync (v : ev) : bool := match v with ESync _ _ _ => true | _ => false end.

(** Every sync report of a run respects [sync_not_stale]; [o0] is what was observed before the run. *)
Definition syncs_ok (c : conf) (o0 : list out) (f : option seqs) (now : Z) (e0 : env)
           (evs : list (env * ev)) : Prop :=
  forall a x b, evs = a ++ x :: b -> sync_not_stale c (o0 ++ snd (exec c f now e0 a)) (snd x).

(** The assumptions under which the Adjacency LSA numbers are ordered: the sync protocol does not
    report numbers of this router's own Adjacency LSA that are older than announced ones (only
    relevant in link-state mode), and nobody forges LSAs of this router. *)
Definition adj_trusted (c : conf) (o0 : list out) (f : option seqs) (now : Z) (e0 : env)
           (evs : list (env * ev)) : Prop :=
  no_forged_own c evs /\ (c_hyp c = HOff -> syncs_ok c o0 f now e0 evs).

(** ** Lives and crashes

    [history c f o f']: a sequence of runs of the same configuration, each killed at an arbitrary
    point.  [f] is the state file before the first run, [o] everything that was observed, [f'] the
    state file afterwards.  A run that is killed has performed a prefix of its effects. *)
Inductive history (c : conf) (f : option seqs) : list out -> option seqs -> Prop :=
| history_nil : history c f [] f
| history_run o f1 now e0 evs p :
    history c f o f1 ->
    adj_trusted c o f1 now e0 evs ->
    prefix p (snd (exec c f1 now e0 evs)) ->
    history c f (o ++ p) (d_file (disk_after f1 p)).

(** ** Lifetime timers *)

(** Timer [tid], due at steady-clock time [due], is pending and will examine the stored LSA [l]. *)
Definition lifetime (s : st) (l : lsa) (tid : nat) (due : Z) : Prop :=
  holds s l /\
  exists oid o, get tid (s_timers s) = Some (Timer due (AExpire oid)) /\
    get (l_key l) (s_store s) = Some oid /\ get oid (s_heap s) = Some o /\ o_lsa o = l.

(** The database is the same except for the LSAs of key [k]. *)
Definition same_but (k : name * ltype) (s s' : st) : Prop :=
  forall l, l_key l <> k -> (holds s' l <-> holds s l).

(** ** Interests for LSAs *)

(** The shape of a configuration (conf-parameter.cpp:94-111): the LSA prefix is
    /localhop/<network>/nlsr/LSA, and the network name does not itself contain the component "LSA". *)
Definition lsa_conf (c : conf) : Prop :=
  c_lsaprefix c = [gen "localhop"] ++ c_network c ++ [gen "nlsr"; gen "LSA"]%string /\
  ~ In (gen "LSA"%string) (c_network c).

(** Name [i] designates this router's LSA of type [t] and number [q]:
    <LSA prefix>/<site>/<router>/<type>/<number>, possibly followed by a version and one more
    component. *)
Definition asks (c : conf) (i : name) (t : ltype) (q : N) : Prop :=
  exists site cq tail, c_self c = c_network c ++ site /\ to_number cq = Some q /\
    i = c_lsaprefix c ++ site ++ [type_comp t; cq] ++ tail /\
    (tail = [] \/ exists v x, is_version v = true /\ tail = [v; x]).

(** [l] was in the database at some point of a run. *)
Definition was_held (c : conf) (f : option seqs) (now : Z) (e0 : env) (evs : list (env * ev)) (l : lsa) : Prop :=
  exists a b, evs = a ++ b /\ holds (fst (exec c f now e0 a)) l.

(** Interest names are far shorter than 2^63 components. *)
Definition sane (i : name) : Prop := Z.of_nat (length i) < 2 ^ 63.
