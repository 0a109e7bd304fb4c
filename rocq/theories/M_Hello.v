(** Model of hello-protocol.{hpp,cpp} and of the face handling in nlsr.cpp: the neighbour state machine
    of one router.

    Delays are not represented: a scheduled callback or an answer may arrive at any later moment, in any
    order, so the executions of the model include those of the program.  Signing, the validator and the
    forwarder are external: a pending hello Interest ends with [HvData] (a reply that was validated),
    [HvInvalid], [HvNack] or [HvTimeout].  The program is between events when one arrives. *)
From Verif Require Import Base M_Nexthop M_Tlv M_Codec M_Adj M_Lsa M_Lsdb.
Open Scope N_scope.

(** statistics.hpp:33-40, the hello packet counters *)
Inductive hpkt := SentHelloInt | RcvHelloInt | SentHelloData | RcvHelloData.

(** Observable effects. *)
Inductive hout :=
| HExpress (iname : name)                 (* a hello Interest is sent *)
| HReply (iname : name)                   (* a hello Data is sent for this Interest (name/version) *)
| HBuild                                  (* Lsdb::scheduleAdjLsaBuild *)
| HRecalc                                 (* RoutingTable::scheduleRoutingTableCalculation *)
| HRegister (p : name) (u : uri) (c : Z)  (* Fib::registerPrefix(p, u, c, ...) *)
| HFetch                                  (* the face dataset is requested *)
| HStat (p : hpkt)                        (* hpIncrementSignal *)
| HThrow.                                 (* an exception leaves the handler: main.cpp:87-93 exits *)

(** conf-parameter.hpp, what this part of the program reads *)
Record hconf := HConf
  { hc_self : name;        (* getRouterPrefix *)
    hc_lsap : name;        (* getLsaPrefix *)
    hc_sync : name;        (* getSyncPrefix *)
    hc_retry : N;          (* getInterestRetryNumber, uint32_t *)
    hc_hyp : hyp;
    hc_tries : N }.        (* getFaceDatasetFetchTries *)

(** The dataset fetch chain of nlsr.cpp:298-400: a request in flight that was preceded by [n] failed
    ones, or the interval timer. *)
Inductive dsst := DFetching (n : N) | DWaiting.

Record hst := Hst
  { h_adl : adl;                 (* ConfParameter::m_adjl *)
    h_pend : amap nat name;      (* hello Interests that have not been answered *)
    h_nack : amap nat name;      (* hello-protocol.cpp:79: Interests whose Nack waits to count as timeout *)
    h_loop : amap nat name;      (* hello-protocol.cpp:106: scheduled sendHelloInterest(neighbor) *)
    h_next : nat;                (* fresh identifiers *)
    h_ds : dsst;
    h_dead : bool }.

Definition hw_adl v s := Hst v (h_pend s) (h_nack s) (h_loop s) (h_next s) (h_ds s) (h_dead s).
Definition hw_pend v n s := Hst (h_adl s) v (h_nack s) (h_loop s) n (h_ds s) (h_dead s).
Definition hw_nack v n s := Hst (h_adl s) (h_pend s) v (h_loop s) n (h_ds s) (h_dead s).
Definition hw_loop v n s := Hst (h_adl s) (h_pend s) (h_nack s) v n (h_ds s) (h_dead s).
Definition hw_ds v s := Hst (h_adl s) (h_pend s) (h_nack s) (h_loop s) (h_next s) v (h_dead s).
Definition hw_dead s := Hst (h_adl s) (h_pend s) (h_nack s) (h_loop s) (h_next s) (h_ds s) true.

Definition hact := hst -> hst * list hout.
Definition hseq (f g : hact) : hact :=
  fun s => let (s1, o1) := f s in let (s2, o2) := g s1 in (s2, o1 ++ o2).
Notation "f ;;; g" := (hseq f g) (at level 60, right associativity).
Definition hret : hact := fun s => (s, []).
Definition hemit (o : hout) : hact := fun s => (s, [o]).

(** hello-protocol.hpp:126-127 *)
Definition INFO : comp := gen "INFO"%string.
Definition NLSR : comp := gen "nlsr"%string.

(** ndn::Name::get(-k) (None: no such component) and ndn::Name::getPrefix(-k) *)
Definition from_end (k : nat) (n : name) : option comp :=
  if Nat.ltb (length n) k then None else nth_error n (length n - k).
Definition drop_end (k : nat) (n : name) : name := firstn (length n - k) n.

(** name.get(-k).toUri() == INFO_COMPONENT *)
Definition info_at (k : nat) (n : name) : bool := eqb (from_end k n) (Some INFO).

(** ndn::Name::isPrefixOf *)
Fixpoint prefix_of (p n : name) : bool :=
  match p, n with
  | [], _ => true
  | c :: p', d :: n' => eqb c d && prefix_of p' n'
  | _ :: _, [] => false
  end.

Section Hello.
Variable c : hconf.

(** hello-protocol.cpp:97-101 (and 142-145, 177-180): /<neighbor>/nlsr/INFO/<router> *)
Definition hello_name (n : name) : name := n ++ [NLSR; INFO; gen (enc_name (hc_self c))].

(** hello-protocol.cpp:65-85 expressInterest *)
Definition express (iname : name) : hact := fun s =>
  (hw_pend (set (h_next s) iname (h_pend s)) (S (h_next s)) s,
   [HExpress iname; HStat SentHelloInt]).

(** hello-protocol.cpp:87-108 sendHelloInterest *)
Definition send_hello (n : name) : hact := fun s =>
  match adl_find n (h_adl s) with
  | None => (s, [])
  | Some a =>
      ((if a_face a =? 0 then hret else express (hello_name (a_name a))) ;;;
       (fun s => (hw_loop (set (h_next s) n (h_loop s)) (S (h_next s)) s, []))) s
  end.

(** hello-protocol.cpp:191-198, 239-244 and nlsr.cpp:214-221: after a status change *)
Definition changed : hact := hemit (if eqb (hc_hyp c) HOn then HRecalc else HBuild).

(** hello-protocol.cpp:110-160 processInterest; the name decoder throws on anything but exactly one
    Name element.  ndn::Name::get(-k) of a missing component cannot occur: the Interest filter of
    hello-protocol.cpp:44-53 requires the prefix /<router>/nlsr/INFO. *)
Definition decode_neighbor (v : string) : option name :=
  match dec_block v with
  | Some (t, b) => if t =? T_Name then dec_name b else None
  | None => None
  end.
Definition process_interest (iname : name) : hact :=
  hemit (HStat RcvHelloInt) ;;;
  fun s =>
    if negb (info_at 2 iname) then (s, [])
    else match from_end 1 iname with
         | None => (s, [])
         | Some l =>
             match decode_neighbor (cval l) with
             | None => (hw_dead s, [HThrow])
             | Some n =>
                 match adl_find n (h_adl s) with
                 | None => (s, [])
                 | Some a =>
                     (hemit (HReply iname) ;;; hemit (HStat SentHelloData) ;;;
                      (if eqb (a_status a) SInactive && negb (a_face a =? 0)
                       then express (hello_name n) else hret)) s
                 end
             end
         end.

(** hello-protocol.cpp:162-201 processInterestTimedOut; the int32_t count is converted to uint32_t *)
Definition timed_out (iname : name) : hact := fun s =>
  if negb (info_at 2 iname) then (s, [])
  else
    let n := drop_end 3 iname in
    let l := incr_touts n (h_adl s) in
    let s1 := hw_adl l s in
    let count := Z.to_N (get_touts n l mod 2 ^ 32)%Z in
    if count <? hc_retry c then express (hello_name n) s1
    else if eqb (get_status n l) SActive then
      changed (hw_adl (put_status n SInactive l) s1)
    else (s1, []).

(** nlsr.cpp:62-69, connected to onInitialHelloDataValidated *)
Definition initial_data (n : name) : hact := fun s =>
  match adl_find n (h_adl s) with
  | Some a => (s, [HRegister (hc_sync c) (a_uri a) (of_int (link_cost a))])
  | None => (s, [])
  end.

(** hello-protocol.cpp:220-250 onContentValidated *)
Definition content_validated (dname : name) : hact :=
  (fun s =>
     if info_at 3 dname then
       let n := drop_end 4 dname in
       let l := put_touts n 0 (put_status n SActive (h_adl s)) in
       let s1 := hw_adl l s in
       if eqb (get_status n (h_adl s)) (get_status n l) then (s1, [])
       else (changed ;;; initial_data n) s1
     else (s, [])) ;;;
  hemit (HStat RcvHelloData).

(** nlsr.cpp:340-354 registerAdjacencyPrefixes *)
Definition register_adj (a : adjacent) : list hout :=
  [HRegister (a_name a) (a_uri a) (of_int (link_cost a));
   HRegister (hc_lsap c) (a_uri a) (of_int (link_cost a))].

(** nlsr.cpp:186-224: FACE_EVENT_DESTROYED *)
Definition face_destroyed (f : N) : hact := fun s =>
  match adl_find_face f (h_adl s) with
  | None => (s, [])
  | Some a =>
      let put g := hw_adl (upd_first (fun b => eqb (a_face b) f) g (h_adl s)) s in
      if eqb (a_status a) SActive then
        changed (put (fun b => set_touts (hc_retry c) (set_status SInactive (set_face 0 b))))
      else (put (set_face 0), [])
  end.

(** nlsr.cpp:225-254: FACE_EVENT_CREATED; a remote URI that does not parse is ignored by the program
    and is not an event of the model *)
Definition face_created (f : N) (u : uri) : hact := fun s =>
  match adl_find_uri u (h_adl s) with
  | None => (s, [])
  | Some a =>
      if (a_face a =? 0) || negb (a_face a =? f)
      then (hw_adl (upd_first (fun b => eqb (a_uri b) u) (set_face f) (h_adl s)) s,
            register_adj (set_face f a))
      else (s, [])
  end.

(** nlsr.cpp:268-301: the inner loop over the faces, for one neighbour *)
Fixpoint match_faces (faces : list (N * uri)) (a : adjacent) : adjacent * list hout :=
  match faces with
  | [] => (a, [])
  | (f, u) :: r =>
      if (a_face a =? 0) && eqb (a_uri a) u
      then let (a', o) := match_faces r (set_face f a) in (a', register_adj (set_face f a) ++ o)
      else match_faces r a
  end.
Fixpoint match_all (faces : list (N * uri)) (l : adl) : adl * list hout :=
  match l with
  | [] => ([], [])
  | a :: l' => let (a', o) := match_faces faces a in
               let (r, o') := match_all faces l' in (a' :: r, o ++ o')
  end.
(** nlsr.cpp:265-338 processFaceDataset *)
Definition face_dataset (faces : list (N * uri)) : hact := fun s =>
  let (l, o) := match_all faces (h_adl s) in (hw_ds DWaiting (hw_adl l s), o).

(** nlsr.cpp:356-379 onFaceDatasetFetchTimeout *)
Definition dataset_failed (n : N) : hact := fun s =>
  if n <? hc_tries c then (hw_ds (DFetching (n + 1)) s, [HFetch]) else (hw_ds DWaiting s, []).

(** Inputs. *)
Inductive hev :=
| HvRegistered (n : name)             (* Fib::onPrefixRegistrationSuccess, nlsr.cpp:58-61 *)
| HvLoop (t : nat)                    (* a scheduled sendHelloInterest runs *)
| HvData (i : nat) (dname : name)     (* a validated Data answers pending Interest i *)
| HvInvalid (i : nat)                 (* hello-protocol.cpp:252-257 onContentValidationFailed *)
| HvNack (i : nat)                    (* hello-protocol.cpp:74-80 *)
| HvNackTimer (t : nat)
| HvTimeout (i : nat)
| HvInterest (iname : name)           (* an Interest arrives *)
| HvDestroyed (f : N)                 (* face notifications of the forwarder *)
| HvCreated (f : N) (u : uri)
| HvDataset (faces : list (N * uri))  (* the requested face dataset arrives; accepted in any state, which
                                         only adds executions *)
| HvDatasetFail
| HvDatasetTimer                      (* nlsr.cpp:381-391 scheduleDatasetFetch: the interval is over *)
| HvFace (u : uri) (f : N).           (* Fib::onRegistrationSuccess writes the face id, fib.cpp:207-210 *)

Definition hstep (s : hst) (e : hev) : hst * list hout :=
  if h_dead s then (s, [])
  else match e with
  | HvRegistered n => send_hello n s
  | HvLoop t =>
      match get t (h_loop s) with
      | Some n => send_hello n (hw_loop (del t (h_loop s)) (h_next s) s)
      | None => (s, [])
      end
  | HvData i d =>
      match get i (h_pend s) with
      | Some p => if prefix_of p d
                  then content_validated d (hw_pend (del i (h_pend s)) (h_next s) s)
                  else (s, [])
      | None => (s, [])
      end
  | HvInvalid i => (hw_pend (del i (h_pend s)) (h_next s) s, [])
  | HvNack i =>
      match get i (h_pend s) with
      | Some p => let s1 := hw_pend (del i (h_pend s)) (h_next s) s in
                  (hw_nack (set (h_next s1) p (h_nack s1)) (S (h_next s1)) s1, [])
      | None => (s, [])
      end
  | HvNackTimer t =>
      match get t (h_nack s) with
      | Some p => timed_out p (hw_nack (del t (h_nack s)) (h_next s) s)
      | None => (s, [])
      end
  | HvTimeout i =>
      match get i (h_pend s) with
      | Some p => timed_out p (hw_pend (del i (h_pend s)) (h_next s) s)
      | None => (s, [])
      end
  | HvInterest iname =>
      if prefix_of (hc_self c ++ [NLSR; INFO]) iname then process_interest iname s else (s, [])
  | HvDestroyed f => face_destroyed f s
  | HvCreated f u => face_created f u s
  | HvDataset faces => face_dataset faces s
  | HvDatasetFail => match h_ds s with DFetching n => dataset_failed n s | DWaiting => (s, []) end
  | HvDatasetTimer => match h_ds s with
                      | DWaiting => (hw_ds (DFetching 0) s, [HFetch])
                      | DFetching _ => (s, [])
                      end
  | HvFace u f => (hw_adl (upd_first (fun a => eqb (a_uri a) u) (set_face f) (h_adl s)) s, [])
  end.

(** conf-file-processor.cpp:499-508: the neighbours of the configuration file are inserted in order,
    INACTIVE, without a face; an empty name is skipped *)
Definition conf_adl (l : list (name * uri * Z)) : adl :=
  fold_left (fun acc x =>
    if eqb (fst (fst x)) [] then acc
    else snd (adl_insert (Adj (fst (fst x)) (snd (fst x)) (snd x) SInactive 0 0) acc)) l [].

(** nlsr.cpp:103-107: with hyperbolic routing the link costs are set to 0 *)
Definition nlsr_adl (l : adl) : adl :=
  if eqb (hc_hyp c) HOn
  then map (fun a => Adj (a_name a) (a_uri a) 0 (a_status a) (a_touts a) (a_face a)) l else l.

(** nlsr.cpp:38-112, the constructor: the face dataset is requested *)
Definition hinit (l : list (name * uri * Z)) : hst * list hout :=
  (Hst (nlsr_adl (conf_adl l)) [] [] [] 0 (DFetching 0) false, [HFetch]).

Definition hexec (l : list (name * uri * Z)) (evs : list hev) : hst * list hout :=
  let (s, o) := hinit l in let (s', o') := run hstep s evs in (s', o ++ o').

End Hello.
