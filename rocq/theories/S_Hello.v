(** Vocabulary for the hello properties: what a neighbour's entry says, what counts as a loss or a reply,
    and what the forwarder's faces are, read off the history of events. *)
From Verif Require Import Base M_Nexthop M_Codec M_Adj M_Lsa M_Lsdb M_Hello S_Codec.
Open Scope N_scope.

(** The state after a history, with the neighbours [l] of the configuration file. *)
Definition hstate (c : hconf) (l : list (name * uri * Z)) (evs : list hev) : hst := fst (hexec c l evs).

(** Router [n] is a neighbour, with this entry. *)
Definition entry (s : hst) (n : name) (a : adjacent) : Prop := In a (h_adl s) /\ a_name a = n.
Definition known (s : hst) (n : name) : Prop := exists a, entry s n a.
Definition active (s : hst) (n : name) : Prop := exists a, entry s n a /\ a_status a = SActive.

(** The hello Interest that router [self] sends to [n] and the reply to it:
    /n/nlsr/INFO/<self as a TLV block> and one more component. *)
Definition hello_int (self n : name) : name :=
  n ++ [gen "nlsr"%string; gen "INFO"%string; gen (enc_name self)].

(** The event is the loss of a hello Interest to [n]: it timed out, or the delay after a Nack is over. *)
Definition is_loss (c : hconf) (n : name) (s : hst) (e : hev) : bool :=
  match e with
  | HvTimeout i => eqb (get i (h_pend s)) (Some (hello_int (hc_self c) n))
  | HvNackTimer t => eqb (get t (h_nack s)) (Some (hello_int (hc_self c) n))
  | _ => false
  end.

(** The event is a validated reply whose name is /n/x/INFO/y/z, to an Interest that was pending. *)
Definition names_reply (n d : name) : bool :=
  match skipn (length n) d with
  | [x; i; y; z] => eqb (firstn (length n) d) n && eqb i (gen "INFO"%string)
  | _ => false
  end.
Definition is_reply (n : name) (s : hst) (e : hev) : bool :=
  match e with
  | HvData i d => names_reply n d && match get i (h_pend s) with Some p => prefix_of p d | None => false end
  | _ => false
  end.

(** How many hello Interests to [n] were lost since the last reply from it. *)
Fixpoint losses_from (c : hconf) (n : name) (s : hst) (k : N) (evs : list hev) : N :=
  match evs with
  | [] => k
  | e :: r =>
      let s' := fst (hstep c s e) in
      if h_dead s then k
      else if is_reply n s e then losses_from c n s' 0 r
      else if is_loss c n s e then losses_from c n s' (k + 1) r
      else losses_from c n s' k r
  end.
Definition losses (c : hconf) (l : list (name * uri * Z)) (n : name) (evs : list hev) : N :=
  losses_from c n (fst (hinit c l)) 0 evs.

(** What must be scheduled when a neighbour's status changes. *)
Definition recompute (c : hconf) : hout := match hc_hyp c with HOn => HRecalc | _ => HBuild end.

(** The forwarder's faces after a history that starts with the faces [fs]. *)
Definition faces_after (fs : list (N * uri)) (e : hev) : list (N * uri) :=
  match e with
  | HvCreated f u => (f, u) :: fs
  | HvDestroyed f => filter (fun x => negb (fst x =? f)) fs
  | _ => fs
  end.
Definition faces (fs : list (N * uri)) (evs : list hev) : list (N * uri) := fold_left faces_after evs fs.

(** The forwarder reports truthfully: a new face has a fresh non-zero id, a destroyed face existed, the
    dataset is the list of faces, the confirmation of a registration arrives while its face exists. *)
Definition truthful1 (fs : list (N * uri)) (e : hev) : Prop :=
  match e with
  | HvCreated f u => f <> 0 /\ ~ In f (map fst fs)
  | HvDestroyed f => In f (map fst fs)
  | HvDataset d => forall x, In x d <-> In x fs
  | HvFace u f => In (f, u) fs
  | _ => True
  end.
Fixpoint truthful (fs : list (N * uri)) (evs : list hev) : Prop :=
  match evs with
  | [] => True
  | e :: r => truthful1 fs e /\ truthful (faces_after fs e) r
  end.

(** The face a neighbour with URI [u] should use: the latest one created or confirmed by a
    registration; none once that one is destroyed; while there is none, the first one a dataset lists. *)
Fixpoint listed (u : uri) (d : list (N * uri)) : N :=
  match d with [] => 0 | (f, v) :: r => if eqb v u then f else listed u r end.
Definition use_face (u : uri) (f : N) (e : hev) : N :=
  match e with
  | HvCreated g v => if eqb v u then g else f
  | HvDestroyed g => if g =? f then 0 else f
  | HvDataset d => if f =? 0 then listed u d else f
  | HvFace v g => if eqb v u then g else f
  | _ => f
  end.

Definition is_fetch (o : hout) : bool := match o with HFetch => true | _ => false end.
Definition nfetch (os : list hout) : nat := length (filter is_fetch os).

(** A hello Interest whose last component is not one well-formed Name. *)
Definition malformed_hello (e : hev) : Prop :=
  exists p v, e = HvInterest (p ++ [gen "INFO"%string; v]) /\
              (forall m : name, legal_name m -> fits (enc_name m) -> cval v <> enc_name m).
