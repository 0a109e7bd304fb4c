(** Model of lsdb.{hpp,cpp} and sequencing-manager.{hpp,cpp}: the link-state database of one router
    as an event machine.

    Time is in nanoseconds.  The steady clock is [s_now]; the system clock is an input of every
    event (it may jump).  Sequence numbers are unbounded ([uint64_t] wrap-around at 2^64 is not
    modelled).  Scheduled callbacks are entries of [s_timers]; the event [EFire] runs one that is
    due.  Data packets and signatures are external: a fetch ends with [EFetchDone] (the reassembled,
    validated content) or [EFetchErr]. *)
From Verif Require Import Base M_Nexthop M_Tlv M_Adj M_Lsa.
Open Scope Z_scope.

Definition SEC : Z := 1000000000.

(** conf-parameter.hpp:105-109 enum HyperbolicState *)
Inductive hyp := HOff | HOn | HDry.

#[global] Instance EqDec_hyp : EqDec hyp.
Proof. intros x y. destruct x, y; (left; reflexivity) || (right; discriminate). Defined.

(** The configuration parameters the LSDB reads (conf-parameter.hpp); intervals in seconds. *)
Record conf := Conf
  { c_network : name; c_self : name; c_lsaprefix : name;
    c_refresh : Z; c_deadint : Z; c_retry : N; c_resend : Z; c_build : Z;
    c_hyp : hyp; c_radius : Z; c_angles : list Z; c_lifetime : Z }.

(** sequencing-manager.hpp:149-151 *)
Record seqs := Seqs { qn : N; qa : N; qc : N }.
Definition seq_get (t : ltype) (q : seqs) : N :=
  match t with TName => qn q | TAdj => qa q | TCoord => qc q end.
(** sequencing-manager.hpp:41-57 setLsaSeq (and setNameLsaSeq, setAdjLsaSeq, setCorLsaSeq) *)
Definition seq_set (t : ltype) (v : N) (q : seqs) : seqs :=
  match t with
  | TName => Seqs v (qa q) (qc q)
  | TAdj => Seqs (qn q) v (qc q)
  | TCoord => Seqs (qn q) (qa q) v
  end.

(** statistics.hpp:33-54, the LSA packet counters *)
Inductive pkt :=
| SentInt | SentIntT (t : ltype) | SentData | SentDataT (t : ltype)
| RcvInt | RcvIntT (t : ltype) | RcvData | RcvDataT (t : ltype).

(** lsdb.hpp:54-58 LsdbUpdate *)
Inductive kind := KInstalled | KUpdated | KRemoved.

(** Observable effects, in the order in which they happen. *)
Inductive out :=
| OTmp (q : seqs)            (* the temporary state file is written with these numbers *)
| ORename                    (* the temporary file replaces the state file *)
| OPublish (t : ltype) (q : N)   (* sequence number announced through sync *)
| ONotify (k : kind) (l : lsa) (adds rems : npl)   (* onLsdbModified *)
| ONewLsa (u : name) (q : N) (origin : name) (face : N)  (* onNewLsa *)
| OFetch (iname : name) (face : N)   (* a segment fetcher is started for this name *)
| OData (dname : name) (l : lsa) (k : N)   (* segment k of this LSA is sent under this name *)
| OStored (dname : name) (content : string)   (* a stored foreign segment is sent *)
| OValidated (dname : name) (* afterSegmentValidatedSignal *)
| OStat (p : pkt)            (* lsaIncrementSignal *)
| OThrow                     (* an exception leaves the event handler: main.cpp:87-93 exits *)
| OUb.                       (* undefined behaviour *)

(** A heap-allocated LSA (std::shared_ptr<Lsa>) with its m_expiringEventId. *)
Record obj := Obj { o_lsa : lsa; o_tid : option nat }.

(** Scheduled callbacks. *)
Inductive action :=
| AExpire (oid : nat)                               (* lsdb.cpp:420 *)
| ABuild                                            (* lsdb.cpp:191,395 *)
| AExpress (iname : name) (count : N) (deadline : Z)   (* lsdb.cpp:547 *)
| AFifo (dname : name)                              (* lsdb.cpp:284 *)
| ASto (dname : name).                              (* lsdb.cpp:504 *)
Record timer := Timer { t_due : Z; t_act : action }.

(** An active segment fetcher: lsdb.cpp:494-521 *)
Record fetch := Fetch { f_iname : name; f_count : N; f_deadline : Z }.

(** lsdb.hpp:357-390, the data members. *)
Record st := St
  { s_seqs : seqs;
    s_store : amap (name * ltype) nat;    (* m_lsdb, the byName index *)
    s_heap : amap nat obj;
    s_noid : nat;
    s_timers : amap nat timer;
    s_ntid : nat;
    s_sched : bool;                       (* m_isBuildAdjLsaScheduled *)
    s_count : Z;                          (* m_adjBuildCount *)
    s_btid : option nat;                  (* m_scheduledAdjLsaBuild *)
    s_high : amap name N;                 (* m_highestSeqNo *)
    s_fetch : amap nat fetch;             (* m_fetchers *)
    s_nfid : nat;
    s_fifo : list (name * (lsa * N));     (* m_segmentFifo *)
    s_sto : list (name * string);         (* m_lsaStorage *)
    s_now : Z;
    s_dead : bool }.                      (* the process has exited *)

Definition w_seqs v s := St v (s_store s) (s_heap s) (s_noid s) (s_timers s) (s_ntid s) (s_sched s)
  (s_count s) (s_btid s) (s_high s) (s_fetch s) (s_nfid s) (s_fifo s) (s_sto s) (s_now s) (s_dead s).
Definition w_store v s := St (s_seqs s) v (s_heap s) (s_noid s) (s_timers s) (s_ntid s) (s_sched s)
  (s_count s) (s_btid s) (s_high s) (s_fetch s) (s_nfid s) (s_fifo s) (s_sto s) (s_now s) (s_dead s).
Definition w_heap v n s := St (s_seqs s) (s_store s) v n (s_timers s) (s_ntid s) (s_sched s)
  (s_count s) (s_btid s) (s_high s) (s_fetch s) (s_nfid s) (s_fifo s) (s_sto s) (s_now s) (s_dead s).
Definition w_timers v n s := St (s_seqs s) (s_store s) (s_heap s) (s_noid s) v n (s_sched s)
  (s_count s) (s_btid s) (s_high s) (s_fetch s) (s_nfid s) (s_fifo s) (s_sto s) (s_now s) (s_dead s).
Definition w_build b c t s := St (s_seqs s) (s_store s) (s_heap s) (s_noid s) (s_timers s) (s_ntid s) b
  c t (s_high s) (s_fetch s) (s_nfid s) (s_fifo s) (s_sto s) (s_now s) (s_dead s).
Definition w_high v s := St (s_seqs s) (s_store s) (s_heap s) (s_noid s) (s_timers s) (s_ntid s) (s_sched s)
  (s_count s) (s_btid s) v (s_fetch s) (s_nfid s) (s_fifo s) (s_sto s) (s_now s) (s_dead s).
Definition w_fetch v n s := St (s_seqs s) (s_store s) (s_heap s) (s_noid s) (s_timers s) (s_ntid s) (s_sched s)
  (s_count s) (s_btid s) (s_high s) v n (s_fifo s) (s_sto s) (s_now s) (s_dead s).
Definition w_fifo v s := St (s_seqs s) (s_store s) (s_heap s) (s_noid s) (s_timers s) (s_ntid s) (s_sched s)
  (s_count s) (s_btid s) (s_high s) (s_fetch s) (s_nfid s) v (s_sto s) (s_now s) (s_dead s).
Definition w_sto v s := St (s_seqs s) (s_store s) (s_heap s) (s_noid s) (s_timers s) (s_ntid s) (s_sched s)
  (s_count s) (s_btid s) (s_high s) (s_fetch s) (s_nfid s) (s_fifo s) v (s_now s) (s_dead s).
Definition w_now v s := St (s_seqs s) (s_store s) (s_heap s) (s_noid s) (s_timers s) (s_ntid s) (s_sched s)
  (s_count s) (s_btid s) (s_high s) (s_fetch s) (s_nfid s) (s_fifo s) (s_sto s) v (s_dead s).
Definition w_dead s := St (s_seqs s) (s_store s) (s_heap s) (s_noid s) (s_timers s) (s_ntid s) (s_sched s)
  (s_count s) (s_btid s) (s_high s) (s_fetch s) (s_nfid s) (s_fifo s) (s_sto s) (s_now s) true.

(** Effectful operations and their sequential composition. *)
Definition act := st -> st * list out.
Definition andthen (f g : act) : act :=
  fun s => let (s1, o1) := f s in let (s2, o2) := g s1 in (s2, o1 ++ o2).
Notation "f ;; g" := (andthen f g) (at level 60, right associativity).
Definition ret : act := fun s => (s, []).
Definition emit (o : out) : act := fun s => (s, [o]).
Definition upd (f : st -> st) : act := fun s => (f s, []).
Definition throw : act := fun s => (w_dead s, [OThrow]).
Definition ub : act := fun s => (w_dead s, [OUb]).

(** Inputs that every event may read: the system clock and the parts of ConfParameter that change at
    run time, the advertised prefixes and the adjacency list. *)
Record env := Env { e_sys : Z; e_npl : list (name * Z); e_adl : adl }.

Section Lsdb.
Variable c : conf.

(** ndn::Scheduler::schedule *)
Definition schedule (delay : Z) (a : action) (s : st) : st * nat :=
  (w_timers (set (s_ntid s) (Timer (s_now s + delay) a) (s_timers s)) (S (s_ntid s)) s, s_ntid s).

(** ScopedEventId assignment / EventId::cancel *)
Definition cancel (t : option nat) (s : st) : st :=
  match t with Some i => w_timers (del i (s_timers s)) (s_ntid s) s | None => s end.

(** lsdb.hpp:195-200 findLsa *)
Definition find_oid (k : name * ltype) (s : st) : option nat := get k (s_store s).
Definition find_lsa (k : name * ltype) (s : st) : option lsa :=
  match find_oid k s with
  | Some i => option_map o_lsa (get i (s_heap s))
  | None => None
  end.

(** lsdb.hpp:249-255 isLsaNew; a BASE type never matches a stored LSA *)
Definition is_new (origin : name) (t : option ltype) (q : N) (s : st) : bool :=
  match t with
  | None => true
  | Some t => match find_lsa (origin, t) s with Some l => (l_seq l <? q)%N | None => true end
  end.

(** lsdb.hpp:52 *)
Definition GRACE_PERIOD : Z := 10.

(** lsdb.cpp:416-421 scheduleLsaExpiration and lsa.hpp:111-115 setExpiringEventId *)
Definition schedule_expiration (oid : nat) (secs : Z) (s : st) : st :=
  let (s1, t) := schedule ((secs + GRACE_PERIOD) * SEC) (AExpire oid) s in
  match get oid (s_heap s1) with
  | Some o => let s2 := cancel (o_tid o) s1 in
              w_heap (set oid (Obj (o_lsa o) (Some t)) (s_heap s2)) (s_noid s2) s2
  | None => s1
  end.

(** lsdb.cpp:304-313: the lifetime in seconds *)
Definition time_to_expire (sys : Z) (l : lsa) : Z :=
  if eqb (l_origin l) (c_self c) then c_refresh c
  else let d := l_exp l - sys in
       if 0 <? d then Z.quot d SEC else c_refresh c.

(** lsdb.cpp:304-338 installLsa *)
Definition install (sys : Z) (l : lsa) : act := fun s =>
  let tte := time_to_expire sys l in
  match find_oid (l_key l) s with
  | None =>
      let oid := s_noid s in
      let s1 := w_heap (set oid (Obj l None) (s_heap s)) (S oid) s in
      let s2 := w_store (set (l_key l) oid (s_store s1)) s1 in
      (schedule_expiration oid tte s2, [ONotify KInstalled l [] []])
  | Some oid =>
      match get oid (s_heap s) with
      | None => (s, [])
      | Some o =>
          if (l_seq (o_lsa o) <? l_seq l)%N then
            let '(updated, b, adds, rems) := update_body (l_body (o_lsa o)) (l_body l) in
            let l' := Lsa (l_origin (o_lsa o)) (l_seq l) (l_exp l) b in
            let s1 := w_heap (set oid (Obj l' (o_tid o)) (s_heap s)) (s_noid s) s in
            (schedule_expiration oid tte s1,
             if updated then [ONotify KUpdated l adds rems] else [])
          else (s, [])
      end
  end.

(** lsdb.cpp:340-355 removeLsa *)
Definition remove (k : name * ltype) : act := fun s =>
  match find_lsa k s with
  | Some l => (w_store (del k (s_store s)) s, [ONotify KRemoved l [] []])
  | None => (s, [])
  end.

(** sequencing-manager.cpp:42-53 writeSeqNoToFile *)
Definition write_seqs : act := fun s => (s, [OTmp (s_seqs s); ORename]).

(** communication/sync-logic-handler.cpp:74-90 publishRoutingUpdate *)
Definition publish (t : ltype) : act := fun s => (s, [OPublish t (seq_get t (s_seqs s))]).

(** lsdb.hpp:344-348 getLsaExpirationTimePoint *)
Definition expiration_point (sys : Z) : Z := sys + c_deadint c * SEC.

(** Shared shape of lsdb.cpp:144-171 and 399-414: increase the number, persist, announce, install. *)
Definition bump (t : ltype) : act :=
  upd (fun s => w_seqs (seq_set t (seq_get t (s_seqs s) + 1)%N (s_seqs s)) s).

(** lsdb.cpp:144-154 buildAndInstallOwnNameLsa *)
Definition build_name (e : env) : act := fun s =>
  let l := Lsa (c_self c) (seq_get TName (s_seqs s) + 1) (expiration_point (e_sys e))
               (BName (npl_of_list (e_npl e))) in
  (bump TName ;; write_seqs ;; publish TName ;; install (e_sys e) l) s.

(** lsdb.cpp:156-171 buildAndInstallOwnCoordinateLsa *)
Definition build_coord (e : env) : act := fun s =>
  let l := Lsa (c_self c) (seq_get TCoord (s_seqs s) + 1) (expiration_point (e_sys e))
               (BCoord (c_radius c) (c_angles c)) in
  (bump TCoord ;; write_seqs ;;
   (if eqb (c_hyp c) HOff then ret else publish TCoord) ;; install (e_sys e) l) s.

(** lsdb.cpp:399-414 buildAndInstallOwnAdjLsa *)
Definition build_own_adj (e : env) : act := fun s =>
  let l := Lsa (c_self c) (seq_get TAdj (s_seqs s) + 1) (expiration_point (e_sys e))
               (BAdj (own_adl (e_adl e))) in
  (bump TAdj ;; write_seqs ;;
   (if eqb (c_hyp c) HOn then ret else publish TAdj) ;; install (e_sys e) l) s.

(** lsdb.cpp:173-192 scheduleAdjLsaBuild *)
Definition schedule_build (delay : Z) (s : st) : st :=
  let (s1, t) := schedule delay ABuild s in
  let s2 := cancel (s_btid s1) s1 in
  w_build true (s_count s2) (Some t) s2.
Definition schedule_adj_build : act := fun s =>
  let s1 := w_build (s_sched s) (s_count s + 1) (s_btid s) s in
  if eqb (c_hyp c) HOn then (s1, []) else (schedule_build (c_build c * SEC) s1, []).

(** lsdb.cpp:357-397 buildAdjLsa *)
Definition build_adj (e : env) : act := fun s =>
  let s0 := w_build false (s_count s) (s_btid s) s in
  if is_buildable (c_retry c) (e_adl e) then
    let cnt := s_count s0 in
    if 0 <? cnt then
      ((if Nat.ltb 0 (num_active (e_adl e)) then build_own_adj e else remove (c_self c, TAdj)) ;;
       upd (fun s => w_build (s_sched s) (s_count s - cnt) (s_btid s) s)) s0
    else (s0, [])
  else (schedule_build (Z.of_N (c_retry c) * c_resend c * SEC) s0, []).

(** lsdb.cpp:423-457 expireOrRefreshLsa *)
Definition expire_or_refresh (sys : Z) (oid : nat) : act := fun s =>
  match get oid (s_heap s) with
  | None => (s, [])
  | Some o =>
      let k := l_key (o_lsa o) in
      match find_oid k s with
      | None => (s, [])
      | Some oid' =>
          match get oid' (s_heap s) with
          | None => (s, [])
          | Some o' =>
              let l := o_lsa o' in
              if (l_seq l =? l_seq (o_lsa o))%N then
                if eqb (l_origin l) (c_self c) then
                  let t := l_type l in
                  let q := (l_seq l + 1)%N in
                  let l' := Lsa (l_origin l) q (expiration_point sys) (l_body l) in
                  let s1 := w_heap (set oid' (Obj l' (o_tid o')) (s_heap s)) (s_noid s) s in
                  let s2 := w_seqs (seq_set t q (s_seqs s1)) s1 in
                  (write_seqs ;; publish t) (schedule_expiration oid' (c_refresh c) s2)
                else remove k s
              else (s, [])
          end
      end
  end.

(** conf-parameter.hpp:47, 46 *)
Definition LSA_REFRESH_TIME_MAX : Z := 7200.
Definition LSA_REFRESH_TIME_DEFAULT : Z := 1800.

(** lsdb.cpp:471-485 and 561-571: the newest known number of [n]; [None] when [q] is older *)
Definition note_high (n : name) (q : N) (s : st) : option st :=
  match get n (s_high s) with
  | None => Some (w_high (set n q (s_high s)) s)
  | Some h => if (h <? q)%N then Some (w_high (set n q (s_high s)) s)
              else if (q <? h)%N then None
              else Some s
  end.

Definition stat_type (f : ltype -> pkt) (t : option ltype) : act :=
  match t with Some t => emit (OStat (f t)) | None => ret end.

(** lsdb.cpp:459-526 expressInterest; [None] is DEFAULT_LSA_RETRIEVAL_DEADLINE *)
Definition express (iname : name) (count : N) (face : N) (deadline : option Z) : act := fun s =>
  let d := match deadline with Some d => d | None => s_now s + LSA_REFRESH_TIME_MAX * SEC end in
  let lname := drop_last 1 iname in
  match back 1 iname with
  | None => ub s
  | Some cq =>
      match to_number cq with
      | None => (emit (OStat SentInt) ;; throw) s
      | Some q =>
          match note_high lname q s with
          | None => (s, [OStat SentInt])
          | Some s1 =>
              (emit (OStat SentInt) ;;
               emit (OFetch iname face) ;;
               upd (fun s => w_fetch (set (s_nfid s) (Fetch iname count d) (s_fetch s))
                                     (S (s_nfid s)) s) ;;
               match back 2 iname with
               | Some ct => stat_type SentIntT (comp_type ct)
               | None => ub
               end) s1
          end
      end
  end.

(** lsdb.cpp:528-551 onFetchLsaError *)
Definition on_error (f : fetch) (timeout : bool) : act := fun s =>
  let lname := drop_last 1 (f_iname f) in
  match back 1 (f_iname f) with
  | None => ub s
  | Some cq =>
      match to_number cq with
      | None => throw s
      | Some q =>
          if (s_now s <? f_deadline f)
             && match get lname (s_high s) with Some h => (h =? q)%N | None => false end
          then (fst (schedule (if timeout then 0 else c_lifetime c * SEC)
                              (AExpress (f_iname f) (f_count f + 1) (f_deadline f)) s), [])
          else (s, [])
      end
  end.

(** The origin router that lsdb.cpp:232-236 and 577-581 read from an LSA name *)
Definition name_origin (iname : name) : option name :=
  match comp_pos (gen "LSA") iname with
  | None => None
  | Some p => Some (c_network c ++ sub_name iname (S p) (Z.of_nat (length iname) - Z.of_nat p - 3))
  end.

(** ndn-cxx InMemoryStorage::erase(prefix) *)
Fixpoint is_prefix (p n : name) : bool :=
  match p, n with
  | [], _ => true
  | a :: p', b :: n' => eqb a b && is_prefix p' n'
  | _, _ => false
  end.
Definition erase_prefix {A} (p : name) (l : list (name * A)) : list (name * A) :=
  filter (fun e => negb (is_prefix p (fst e))) l.

(** lsdb.cpp:553-614 afterFetchLsa.  The content is what the received block decodes to ([None]: it is
    not a well-formed LSA of any type); decoding it as type [t] fails, caught at line 610, unless it
    is an LSA of type [t]. *)
Definition after_fetch (sys : Z) (iname : name) (content : option lsa) : act := fun s =>
  let lname := drop_last 1 iname in
  match back 1 iname with
  | None => ub s
  | Some cq =>
      match to_number cq with
      | None => (emit (OStat RcvData) ;; throw) s
      | Some q =>
          match note_high lname q s with
          | None => (s, [OStat RcvData])
          | Some s1 =>
              (emit (OStat RcvData) ;;
               match name_origin iname, back 2 iname with
               | Some origin, Some ct =>
                   match comp_type ct with
                   | None => ret
                   | Some t =>
                       emit (OStat (RcvDataT t)) ;;
                       fun s => if is_new origin (Some t) q s then
                                  match content with
                                  | Some l => if eqb (l_type l) t then install sys l s else (s, [])
                                  | None => (s, [])
                                  end
                                else (s, [])
                   end
               | Some _, None => ub
               | None, _ => ret
               end) s1
          end
      end
  end.

(** lsdb.cpp:509-513 fetcher->onComplete *)
Definition fetch_done (sys : Z) (fid : nat) (content : option lsa) : act := fun s =>
  match get fid (s_fetch s) with
  | None => (s, [])
  | Some f =>
      let lname := drop_last 1 (f_iname f) in
      let q := match back 1 (f_iname f) with
               | Some cq => match to_number cq with Some q => q | None => 0%N end
               | None => 0%N
               end in
      (upd (fun s => w_sto (erase_prefix (lname ++ [number_comp ((q + (2 ^ 64 - 1)) mod 2 ^ 64)%N])
                                         (s_sto s)) s) ;;
       after_fetch sys (f_iname f) content ;;
       upd (fun s => w_fetch (del fid (s_fetch s)) (s_nfid s) s)) s
  end.

(** lsdb.cpp:515-518 fetcher->onError *)
Definition fetch_err (fid : nat) (timeout : bool) : act := fun s =>
  match get fid (s_fetch s) with
  | None => (s, [])
  | Some f => (on_error f timeout ;;
               upd (fun s => w_fetch (del fid (s_fetch s)) (s_nfid s) s)) s
  end.

(** lsdb.cpp:496-507 fetcher->afterSegmentValidated *)
Definition segment_validated (fid : nat) (dname : name) (content : string) : act := fun s =>
  match get fid (s_fetch s) with
  | None => (s, [])
  | Some _ =>
      (emit (OValidated dname) ;;
       upd (fun s => fst (schedule (LSA_REFRESH_TIME_DEFAULT * SEC) (ASto dname)
                                   (w_sto ((dname, content) :: s_sto s) s)))) s
  end.

(** communication/sync-logic-handler.cpp:53-72 processUpdate: the origin router of an update *)
Definition update_origin (u : name) : option name :=
  match comp_pos (gen "nlsr") u, comp_pos (gen "LSA") u with
  | Some np, Some lp =>
      Some (sub_name u 1 (Z.of_nat np - 1) ++ drop_last 1 (sub_name u (S lp) (-1)))
  | _, _ => None
  end.

(** lsdb.cpp:87-142 processUpdateFromSync *)
Definition process_update (e : env) (u : name) (q : N) (origin : name) (face : N) : act := fun s =>
  match back 1 u with
  | None => ub s
  | Some ct =>
      let t := comp_type ct in
      if eqb origin (c_self c) then
        if is_new origin t q s then
          match t with
          | Some TName => (upd (fun s => w_seqs (seq_set TName q (s_seqs s)) s) ;; build_name e) s
          | Some TAdj =>
              if eqb (c_hyp c) HOff
              then (upd (fun s => w_seqs (seq_set TAdj q (s_seqs s)) s) ;; build_own_adj e) s
              else (s, [])
          | Some TCoord =>
              if eqb (c_hyp c) HOn
              then (upd (fun s => w_seqs (seq_set TCoord q (s_seqs s)) s) ;; build_coord e) s
              else (s, [])
          | None => (s, [])
          end
        else (s, [])
      else if is_new origin t q s then
        if eqb t (Some TAdj) && negb (q =? 0)%N && eqb (c_hyp c) HOn then (s, [])
        else if eqb t (Some TCoord) && negb (q =? 0)%N && eqb (c_hyp c) HOff then (s, [])
        else (emit (ONewLsa u q origin face) ;; express (u ++ [number_comp q]) 0 face None) s
      else (s, [])
  end.

Definition on_sync (e : env) (u : name) (q : N) (face : N) : act := fun s =>
  match update_origin u with
  | None => (s, [])
  | Some origin => process_update e u q origin face s
  end.

(** lsdb.cpp:57 the capacity of m_segmentFifo *)
Definition FIFO_LIMIT : nat := 100.

(** The [nseg] segments of the LSA, named after the Interest, a version and a segment number
    (ndn::Segmenter, external: [nseg] and the version are inputs). *)
Definition segments (iname : name) (ver : N) (nseg : nat) (l : lsa) : list (name * (lsa * N)) :=
  map (fun k => (iname ++ [version_comp ver; segment_comp (N.of_nat k)], (l, N.of_nat k)))
      (seq 0 nseg).

(** lsdb.cpp:281-286, for one segment: InMemoryStorageFifo::insert evicts the oldest element when
    full, and an erase is scheduled *)
Definition fifo_insert (e : name * (lsa * N)) (s : st) : st :=
  let f := if Nat.leb FIFO_LIMIT (length (s_fifo s)) then tl (s_fifo s) else s_fifo s in
  fst (schedule (c_refresh c * SEC) (AFifo (fst e)) (w_fifo (f ++ [e]) s)).

(** lsdb.cpp:269-302 processInterestForLsa; the result is in the outputs (the caller's SENT_LSA_DATA
    increment, lsdb.cpp:253-255, is included) *)
Definition interest_for_lsa (iname origin : name) (t : ltype) (q : N) (nseg : nat) (ver : N) : act :=
  fun s =>
  match find_lsa (origin, t) s with
  | Some l =>
      if (l_seq l =? q)%N then
        let segs := segments iname ver nseg l in
        let segnum := match back 1 iname with
                      | Some cs => if is_segment cs
                                   then match to_segment cs with Some k => k | None => 0%N end
                                   else 0%N
                      | None => 0%N
                      end in
        (upd (fun s => fold_left (fun s e => fifo_insert e s) segs s) ;;
         match nth_error segs (N.to_nat segnum) with
         | Some (n, (l, k)) => emit (OData n l k)
         | None => ret
         end ;;
         emit (OStat (SentDataT t)) ;; emit (OStat SentData)) s
      else (s, [])
  | None => (s, [])
  end.

(** ndn-cxx InMemoryStorage::find(name): a stored packet whose name has the given prefix.  (Which one
    is returned when there are several depends on the canonical order; simplification: the oldest.) *)
Definition find_prefix {A} (p : name) (l : list (name * A)) : option (name * A) :=
  find (fun e => is_prefix p (fst e)) l.

(** lsdb.cpp:262-265: a stored segment of another router's LSA (m_lsaStorage.find(interest); the
    MustBeFresh selector is not modelled) *)
Definition serve_stored (iname : name) (can_be_prefix : bool) : act := fun s =>
  match find (fun e => if can_be_prefix then is_prefix iname (fst e) else eqb iname (fst e)) (s_sto s) with
  | Some (n, d) => (s, [OStored n d])
  | None => (s, [])
  end.

(** lsdb.cpp:213-267 processInterest *)
Definition process_interest (iname : name) (can_be_prefix : bool) (nseg : nat) (ver : N) : act :=
  fun s =>
  match back 2 iname with
  | None => ub s
  | Some cv =>
      match (if is_version cv then find_prefix iname (s_fifo s) else None) with
      | Some (n, (l, k)) => (s, [OData n l k])
      | None =>
          let name := if is_version cv then drop_last 2 iname else iname in
          (emit (OStat RcvInt) ;;
           match name_origin name with
           | Some origin =>
               if eqb origin (c_self c) then
                 match back 1 name, back 2 name with
                 | Some cq, Some ct =>
                     match to_number cq with
                     | None => throw
                     | Some q =>
                         match comp_type ct with
                         | None => ret
                         | Some t => emit (OStat (RcvIntT t)) ;;
                                     interest_for_lsa iname origin t q nseg ver
                         end
                     end
                 | _, _ => ub
                 end
               else serve_stored iname can_be_prefix
           | None => serve_stored iname can_be_prefix
           end) s
      end
  end.

(** ** Events *)

Inductive ev :=
| ETick (d : Z)                                    (* the steady clock advances by |d| *)
| ESync (u : name) (q : N) (face : N)              (* sync reports number q for name u *)
| EFire (tid : nat)                                (* the scheduler runs a due callback *)
| EFetchDone (fid : nat) (content : option lsa)
| EFetchErr (fid : nat) (timeout : bool)
| ESegment (fid : nat) (dname : name) (content : string)
| EInterest (iname : name) (can_be_prefix : bool) (nseg : nat) (ver : N)
| EBuildName                                       (* buildAndInstallOwnNameLsa is called *)
| EScheduleBuild.                                  (* scheduleAdjLsaBuild is called *)

Definition fire (e : env) (tid : nat) : act := fun s =>
  match get tid (s_timers s) with
  | None => (s, [])
  | Some t =>
      if t_due t <=? s_now s then
        let s1 := w_timers (del tid (s_timers s)) (s_ntid s) s in
        match t_act t with
        | AExpire oid => expire_or_refresh (e_sys e) oid s1
        | ABuild => build_adj e s1
        | AExpress n k d => express n k 0 (Some d) s1
        | AFifo n => (w_fifo (erase_prefix n (s_fifo s1)) s1, [])
        | ASto n => (w_sto (erase_prefix n (s_sto s1)) s1, [])
        end
      else (s, [])
  end.

Definition step_live (s : st) (x : env * ev) : st * list out :=
  let (e, v) := x in
  match v with
  | ETick d => (w_now (s_now s + Z.abs d) s, [])
  | ESync u q face => on_sync e u (q mod 2 ^ 64)%N face s
  | EFire tid => fire e tid s
  | EFetchDone fid content => fetch_done (e_sys e) fid content s
  | EFetchErr fid timeout => fetch_err fid timeout s
  | ESegment fid n d => segment_validated fid n d s
  | EInterest n p k ver =>
      (* lsdb.cpp:62-72: only Interests under the LSA prefix are delivered *)
      if is_prefix (c_lsaprefix c) n then process_interest n p k ver s else (s, [])
  | EBuildName => build_name e s
  | EScheduleBuild => schedule_adj_build s
  end.

Definition step (s : st) (x : env * ev) : st * list out :=
  if s_dead s then (s, []) else step_live s x.

(** sequencing-manager.cpp:55-95 initiateSeqNoFromFile; [None]: the file cannot be opened *)
Definition seqs_from_file (f : option seqs) : seqs :=
  match f with
  | None => Seqs 0 0 0
  | Some q =>
      let n := (qn q + 10)%N in
      let (a, cc) := if eqb (c_hyp c) HOn then (qa q, qc q) else ((qa q + 10)%N, 0%N) in
      let (a, cc) := if eqb (c_hyp c) HOff then (a, cc) else (0%N, (cc + 10)%N) in
      Seqs n a cc
  end.

(** lsdb.cpp:34-78, the constructor *)
Definition init (f : option seqs) (now : Z) (e : env) : st * list out :=
  (build_name e ;; (if eqb (c_hyp c) HOff then ret else build_coord e))
    (St (seqs_from_file f) [] [] 0 [] 0 false 0 None [] [] 0 [] [] now false).

(** A run: the constructor, then the events. *)
Definition exec (f : option seqs) (now : Z) (e0 : env) (evs : list (env * ev)) : st * list out :=
  let (s, o) := init f now e0 in
  let (s', o') := run step s evs in (s', o ++ o').

End Lsdb.
