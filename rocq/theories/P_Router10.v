(** C18 in the whole router: packets from unknown routers change nothing. *)
From Verif Require Import Base M_Nexthop M_Tlv M_Codec S_Codec L_Codec M_Adj M_Lsa M_Lsdb L_Lsdb S_Lsdb M_LinkState M_Hyperbolic M_RoutingTable
  M_Npt S_Npt M_Fib S_Fib L_Fib S_Pipe M_Prefix M_Hello S_Hello L_Hello M_Router S_Router L_Router L_Router2 L_Router3 L_Router4 L_Router5 L_Router6 L_Router7
  P_Hello X_Lsdb X_Router P_Router P_Router2 P_Router9.
Set Implicit Arguments.

Section L.
Variables (c : gconf) (uri_of : name -> string) (ang : list Z -> list Z -> Z) (dst : Z -> Z -> Z -> Z).
Notation gstate := (gstate c uri_of ang dst).
Notation gtrace := (gtrace c uri_of ang dst).
Notation gstep := (gstep c uri_of ang dst).

(** ** The FIB and the hello protocol read the same adjacency list *)

Definition keepA (f : gact) : Prop := forall g, g_h (fst (f g)) = g_h g /\ f_adl (g_fib (fst (f g))) = f_adl (g_fib g).
Definition oneA (g : router) : Prop := f_adl (g_fib g) = h_adl (g_h g).

Lemma keepA_ret : keepA gret. Proof. intros g. split; reflexivity. Qed.
Lemma keepA_dead (o : list glog) : keepA (fun g => (gw_dead g, o)). Proof. intros g. split; reflexivity. Qed.
Lemma keepA_seq f h : keepA f -> keepA h -> keepA (gseq f h).
Proof.
  intros F H g. unfold gseq. specialize (F g). destruct (f g) as [g1 o1]. cbn [fst] in F. specialize (H g1).
  destruct (h g1) as [g2 o2]. cbn [fst] in *. destruct F, H. split; congruence.
Qed.
Lemma keepA_each A (f : A -> gact) l : (forall x, In x l -> keepA (f x)) -> keepA (geach f l).
Proof.
  induction l as [|x l IH]; intros H; [apply keepA_ret|]. cbn [geach]. apply keepA_seq; [apply H; now left|]. apply IH. intros y Hy. apply H. now right.
Qed.
Lemma keepA_live f : keepA f -> keepA (live f).
Proof. intros F g. unfold live. destruct (g_dead g); [split; reflexivity|apply F]. Qed.
Lemma keepA_at (f : router -> gact) : (forall g, keepA (f g)) -> keepA (fun g => f g g).
Proof. intros F g. apply F. Qed.

Lemma fstep_adl k s e : (forall id, e <> FvRegOk id) -> (forall l, e <> FvAdl l) -> f_adl (fst (fstep k s e)) = f_adl s.
Proof.
  intros N1 N2. destruct e; cbn [fstep].
  - unfold fib_update. destruct (get n (f_tab s)) as [e|] eqn:E, (hops_to_add k hops) as [|x new] eqn:En;
      try (unfold fib_remove; rewrite E; try destruct (not_neighbor n s); reflexivity).
    + destruct (add_fib_hops k n (not_neighbor n s) flags (x :: new) (fe_hops e) s) as [[st s1] o1] eqn:Ea.
      apply add_fib_hops_spec in Ea as (_ & (_ & A & _) & _). cbn [fst].
      match goal with |- context [ensure_refresh k n flags ?q] => destruct (ensure_refresh_spec k n flags q) as (B1 & _) end.
      rewrite B1. exact A.
    + destruct (add_fib_hops k n (not_neighbor n s) flags (x :: new) [] s) as [[st s1] o1] eqn:Ea.
      apply add_fib_hops_spec in Ea as (_ & (_ & A & _) & _). cbn [fst].
      match goal with |- context [ensure_refresh k n flags ?q] => destruct (ensure_refresh_spec k n flags q) as (B1 & _) end.
      rewrite B1. exact A.
  - now destruct (remove_spec n s) as (A & _).
  - apply register_adl.
  - reflexivity.
  - now destruct (refresh_spec k n s) as (A & _).
  - now destruct (N1 id).
  - unfold on_reg_fail. destruct (get id (f_cmds s)) as [r|]; [|reflexivity]. destruct (rc_times r <? 3)%N; [|reflexivity]. now rewrite register_adl.
  - reflexivity.
  - unfold on_strat_fail. destruct (get id (f_scmds s)) as [r|]; [|reflexivity]. destruct (sc_count r <? 3)%N; reflexivity.
  - now destruct (N2 l).
  - reflexivity.
Qed.
Lemma keepA_fib e : (forall id, e <> FvRegOk id) -> (forall l, e <> FvAdl l) -> keepA (call_fib c e).
Proof.
  intros N1 N2. apply keepA_live. intros g. pose proof (@fstep_adl (fconf_of c) (g_fib g) e N1 N2) as E. destruct (fstep _ _ e) as [f o]. split; [reflexivity|exact E].
Qed.
Lemma keepA_npt e : keepA (call_npt c e).
Proof.
  apply keepA_live. intros g. destruct nstep as [[n o]| |]; try (split; reflexivity).
  apply (@keepA_seq (fun g => (gw_npt n g, CNpt e :: map XNpt o))); [intros g1; split; reflexivity|].
  apply keepA_each. intros [] _; apply keepA_fib; discriminate.
Qed.
Lemma keepA_rt i e : keepA (call_rt c ang dst i e).
Proof.
  apply keepA_live. intros g. destruct rt_step as [[r o]| |]; try (split; reflexivity).
  apply (@keepA_seq (fun g => (gw_rt r g, CRt e :: map XRt o))); [intros g1; split; reflexivity|].
  apply keepA_each. intros [] _. apply keepA_npt.
Qed.
Lemma keepA_strategy o : keepA (register_strategy c o).
Proof.
  apply keepA_live. intros g. destruct existsb; [split; reflexivity|].
  match goal with |- context [geach ?f ?l ?g'] => assert (K : keepA (geach f l)) by (apply keepA_each; intros n _; apply keepA_fib; discriminate); exact (K g') end.
Qed.
Lemma keepA_pre i x : keepA (call_pre c uri_of ang dst i x).
Proof.
  apply keepA_live. intros g. destruct pstep as [p o].
  apply (@keepA_seq (fun g => (gw_pre p g, CPre x :: map XPre o))); [intros g1; split; reflexivity|].
  apply keepA_each. intros [[]|] _; cbn [pre_out]; try apply keepA_ret; try apply keepA_dead; try apply keepA_strategy.
  apply keepA_live. intros g1. apply keepA_seq; [apply keepA_rt|apply keepA_npt].
Qed.
Lemma keepA_hello_out i o : keepA (hello_out c uri_of ang dst i o).
Proof.
  destruct o; cbn [hello_out]; try apply keepA_ret; try apply keepA_dead.
  - apply keepA_live. intros g. apply keepA_pre.
  - apply keepA_live. intros g. apply keepA_rt.
  - apply keepA_fib; discriminate.
Qed.
Lemma hello_oneA i x g : g_dead g = false \/ oneA g -> oneA (fst (call_hello c uri_of ang dst i x g)).
Proof.
  intros H. unfold call_hello, live at 1. destruct (g_dead g) eqn:D; [destruct H; [discriminate|assumption]|].
  destruct (hstep (hconf_of c) (g_h g) x) as [h o]. unfold gseq at 1. set (g1 := gw_h h g).
  assert (K : keepA (geach (hello_out c uri_of ang dst i) o)) by (apply keepA_each; intros y _; apply keepA_hello_out).
  unfold gseq, call_fib, live. cbn [fstep]. change (g_dead g1) with (g_dead g). rewrite D.
  specialize (K (gw_fib (wf_adl (h_adl h) (g_fib g1)) g1)). destruct (geach _ o _) as [g2 o2]. cbn [fst] in *.
  destruct K as [K1 K2]. unfold oneA. rewrite K1, K2. reflexivity.
Qed.
Lemma keepA_oneA f g : keepA f -> oneA g -> oneA (fst (f g)).
Proof. intros K H. destruct (K g) as [K1 K2]. unfold oneA. now rewrite K1, K2. Qed.
Lemma step_oneA g x : oneA g -> oneA (fst (gstep g x)).
Proof.
  intros H. unfold M_Router.gstep, live at 1. destruct (g_dead g) eqn:D; [exact H|]. destruct x as [i v]. cbn [fst snd].
  destruct v as [d|z|m w|z|z|k]; cbn [gstep_live].
  - apply keepA_oneA; [|exact H]. apply keepA_seq; [apply keepA_pre|]. intros g1. apply keepA_fib; discriminate.
  - destruct z; try exact H; apply keepA_oneA; auto; apply keepA_pre.
  - apply keepA_oneA; [apply keepA_pre|exact H].
  - destruct z; try exact H; apply hello_oneA; now right.
  - destruct z; try exact H; try (apply keepA_oneA; [apply keepA_fib; discriminate|exact H]).
    destruct (get id (f_cmds (g_fib g))) as [r|]; [|exact H].
    unfold gseq at 1. unfold call_fib, live at 1. rewrite D. destruct (fstep _ _ _) as [f o].
    unfold gseq. set (g1 := gw_fib f g).
    pose proof (@hello_oneA i (HvFace (rc_uri r) (rc_face r)) g1 (or_introl D)) as H1.
    destruct (call_hello c uri_of ang dst i (HvFace (rc_uri r) (rc_face r)) g1) as [g2 o2]. cbn [fst] in H1.
    pose proof (@hello_oneA i (HvRegistered (rc_name r)) g2 (or_intror H1)) as H2.
    destruct (call_hello c uri_of ang dst i (HvRegistered (rc_name r)) g2) as [g3 o3]. exact H2.
  - destruct (nth_error _ k); [|exact H]. destruct (_ <=? _)%Z; [|exact H]. apply keepA_oneA; [apply keepA_rt|exact H].
Qed.

(** The adjacency list of the FIB is the one of the hello protocol, after every event of every run. *)
Lemma one_adl r : f_adl (g_fib (gstate r)) = h_adl (g_h (gstate r)).
Proof.
  change (oneA (gstate r)). destruct r as [q now sys nbs pl file evs]. induction evs as [|x evs IH] using rev_ind.
  - set (r := GRun q now sys nbs pl file []). destruct (gexec_shape c uri_of ang dst r) as [-> _]. cbn [u_evs r run fst].
    unfold g1, start. apply keepA_oneA; [|reflexivity]. apply keepA_each. intros n _. apply keepA_fib; discriminate.
  - set (r := GRun q now sys nbs pl file evs) in *. change (GRun q now sys nbs pl file (evs ++ [x])) with (extend r [x]).
    destruct (extend_one c uri_of ang dst r x) as [-> _]. now apply step_oneA.
Qed.

(** ** What a hello packet without effect on the neighbours does *)

Definition counted (o : hout) : Prop := exists k, o = HStat k.
Lemma counted_out i l g : (forall o, In o l -> counted o) -> geach (hello_out c uri_of ang dst i) l g = (g, []).
Proof.
  induction l as [|o l IH]; intros H; [reflexivity|]. cbn [geach]. unfold gseq. destruct (H o (or_introl eq_refl)) as [k ->].
  cbn [hello_out]. unfold gret. rewrite IH; [reflexivity|]. intros y Hy. apply H. now right.
Qed.
Lemma hello_quiet r i v : (forall n, v <> HvRegistered n) -> (forall u f, v <> HvFace u f) ->
  h_adl (fst (hstep (hconf_of c) (g_h (gstate r)) v)) = h_adl (g_h (gstate r)) ->
  (forall o, In o (snd (hstep (hconf_of c) (g_h (gstate r)) v)) -> counted o) -> up c uri_of ang dst r ->
  gstep (gstate r) (i, GvHello v) =
    (gw_h (fst (hstep (hconf_of c) (g_h (gstate r)) v)) (gstate r),
     CHello v :: map XHello (snd (hstep (hconf_of c) (g_h (gstate r)) v)) ++ [CFib (FvAdl (h_adl (g_h (gstate r))))]).
Proof.
  intros N1 N2 Ha Ho U. unfold up in U. pose proof (one_adl r) as O. unfold M_Router.gstep, live. rewrite U. cbn [fst snd gstep_live].
  assert (E : (match v with HvRegistered _ | HvFace _ _ => (gstate r, []) | _ => call_hello c uri_of ang dst i v (gstate r) end) = call_hello c uri_of ang dst i v (gstate r)).
  { destruct v; try reflexivity; [now destruct (N1 n)|now destruct (N2 u f)]. }
  rewrite E. unfold call_hello, live. rewrite U. destruct (hstep (hconf_of c) (g_h (gstate r)) v) as [h o]. cbn [fst snd] in *.
  unfold gseq, call_fib, live. cbn [fstep]. change (g_dead (gw_h h (gstate r))) with (g_dead (gstate r)). rewrite U.
  rewrite (counted_out i o _ Ho). f_equal; [|now rewrite Ha].
  rewrite Ha, <- O. destruct (gstate r) as [p h0 t n [] s d]. reflexivity.
Qed.
End L.

Section P.
Variables (c : gconf) (uri_of : name -> string) (ang : list Z -> list Z -> Z) (dst : Z -> Z -> Z -> Z).
Notation gstate := (gstate c uri_of ang dst).
Notation gtrace := (gtrace c uri_of ang dst).
Notation up := (up c uri_of ang dst).

(** What the router sends, writes, schedules or counts, from its trace: calls between its modules are left out. *)
Definition effect (x : glog) : bool :=
  match x with XPre _ | XHello _ | XRt _ | XNpt _ | XFib _ | XUb => true | _ => false end.

(** A hello Interest that names a router which is not a neighbour leaves the whole router as it was: database,
    neighbours, routes, prefixes, FIB, timers.  It is counted, or not even that if it is not for this router,
    and nothing else happens. *)
Theorem C18_router_interest r i p (m : name) :
  up r -> legal_name m -> fits (enc_name m) -> ~ known (g_h (gstate r)) m ->
  let r' := extend r [(i, GvHello (HvInterest (p ++ [gen "INFO"%string; gen (enc_name m)])))] in
  gstate r' = gstate r /\
  exists t, gtrace r' = gtrace r ++ t /\ forall x, In x t -> effect x = true -> x = XHello (HStat RcvHelloInt).
Proof.
  intros U L F K. cbv zeta. set (v := HvInterest _). pose proof (said_state c uri_of ang dst r) as Es.
  assert (Q : fst (hstep (hconf_of c) (g_h (gstate r)) v) = g_h (gstate r) /\
    forall o, In o (snd (hstep (hconf_of c) (g_h (gstate r)) v)) -> o = HStat RcvHelloInt).
  { rewrite Es in K |- *. exact (@C18_interest (hconf_of c) (u_nbs r) (hellos (gtrace r)) p m L F K). }
  destruct Q as [Q1 Q2]. destruct (extend_one c uri_of ang dst r (i, GvHello v)) as [-> ->].
  rewrite hello_quiet; try discriminate; auto.
  - rewrite Q1. split; [destruct (gstate r); reflexivity|]. eexists. split; [reflexivity|].
    intros x [<-|H] Ex; [discriminate|]. apply in_app_or in H as [H|[<-|[]]]; [|discriminate].
    apply in_map_iff in H as (o & <- & Ho). now rewrite (Q2 o Ho).
  - now rewrite Q1.
  - intros o Ho. exists RcvHelloInt. now apply Q2.
Qed.

(** A Data packet that is not named as a reply of a neighbour changes neither database, neighbours, routes,
    prefixes nor FIB, and is only counted. *)
Theorem C18_router_reply r i k d :
  up r -> (forall m, known (g_h (gstate r)) m -> names_reply m d = false) ->
  let r' := extend r [(i, GvHello (HvData k d))] in
  g_pre (gstate r') = g_pre (gstate r) /\ g_rt (gstate r') = g_rt (gstate r) /\ g_npt (gstate r') = g_npt (gstate r) /\
  g_fib (gstate r') = g_fib (gstate r) /\ h_adl (g_h (gstate r')) = h_adl (g_h (gstate r)) /\ up r' /\
  exists t, gtrace r' = gtrace r ++ t /\ forall x, In x t -> effect x = true -> x = XHello (HStat RcvHelloData).
Proof.
  intros U K. cbv zeta. set (v := HvData k d). pose proof (said_state c uri_of ang dst r) as Es.
  assert (Q : h_adl (fst (hstep (hconf_of c) (g_h (gstate r)) v)) = h_adl (g_h (gstate r)) /\
    forall o, In o (snd (hstep (hconf_of c) (g_h (gstate r)) v)) -> o = HStat RcvHelloData).
  { rewrite Es in K |- *. destruct (@C18_reply (hconf_of c) (u_nbs r) (hellos (gtrace r)) k d K) as (A & _ & _ & B). split; [exact A|exact B]. }
  destruct Q as [Q1 Q2]. unfold P_Router.up. destruct (extend_one c uri_of ang dst r (i, GvHello v)) as [-> ->].
  rewrite hello_quiet; try discriminate; auto.
  - cbn [fst snd gw_h g_pre g_rt g_npt g_fib g_h g_dead]. repeat (split; [first [reflexivity|exact Q1|exact U]|]). eexists. split; [reflexivity|].
    intros x [<-|H] Ex; [discriminate|]. apply in_app_or in H as [H|[<-|[]]]; [|discriminate].
    apply in_map_iff in H as (o & <- & Ho). now rewrite (Q2 o Ho).
  - intros o Ho. exists RcvHelloData. now apply Q2.
Qed.
End P.

(** In a router with two ACTIVE neighbours, a hello Interest of a stranger is counted, and one of a neighbour is
    answered. *)
Definition helloI (n : name) : inp * gev :=
  at_ (GvHello (HvInterest (selfX ++ nm ["nlsr"]%string ++ [gen "INFO"%string; gen (enc_name n)]))).
Example C18_router_example :
  let r := runR HOff upR in
  up (gcX HOff) uriR angR dstR r /\ legal_name strangerX /\ fits (enc_name strangerX) /\
  map a_name (h_adl (g_h (stR HOff upR))) = [farX; thirdX] /\ ~ In strangerX [farX; thirdX] /\
  filter effect (skipn (length (trR HOff upR)) (trR HOff (upR ++ [helloI strangerX]))) = [XHello (HStat RcvHelloInt)] /\
  length (filter effect (skipn (length (trR HOff upR)) (trR HOff (upR ++ [helloI farX])))) = 3%nat /\
  forallb (fun m => negb (names_reply m (hello_int selfX strangerX ++ [verX]))) [farX; thirdX] = true.
Proof.
  cbv zeta. split; [unfold up; vm_compute; reflexivity|].
  split; [intros x [<- |[<- |[]]]; split; reflexivity || (vm_compute; discriminate)|].
  split; [vm_compute; reflexivity|]. split; [vm_compute; reflexivity|].
  split; [intros [H|[H|[]]]; discriminate H|]. split; [vm_compute; reflexivity|]. split; vm_compute; reflexivity.
Qed.

Print Assumptions one_adl.
Print Assumptions C18_router_interest.
Print Assumptions C18_router_reply.
Print Assumptions C18_router_example.
