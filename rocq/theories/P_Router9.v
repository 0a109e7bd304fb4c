(** C17 in the whole router: with the configured number of retries. *)
From Verif Require Import Base M_Nexthop M_Tlv M_Adj M_Lsa M_Lsdb L_Lsdb S_Lsdb M_LinkState M_Hyperbolic M_RoutingTable
  M_Npt S_Npt M_Fib S_Pipe M_Prefix M_Hello S_Hello L_Hello M_Router S_Router L_Router L_Router2 L_Router3 L_Router4 L_Router5 L_Router6 L_Router7
  P_Hello X_Lsdb X_Router P_Router P_Router2.
Open Scope N_scope.
Set Implicit Arguments.

Section P.
Variables (c : gconf) (uri_of : name -> string) (ang : list Z -> list Z -> Z) (dst : Z -> Z -> Z -> Z).
Notation gstate := (gstate c uri_of ang dst).
Notation gtrace := (gtrace c uri_of ang dst).
Notation up := (up c uri_of ang dst).

(** What happened to hellos in a run, from the start. *)
Notation said r := (hellos (gtrace r)).
(** The hellos to [n] that were lost since its last validated reply, after the hello events [evs]. *)
Notation lost r n evs := (losses (hconf_of c) (u_nbs r) n evs).
(** The router's neighbours after the hello events [evs]. *)
Notation after r evs := (hstate (hconf_of c) (u_nbs r) evs).

Lemma said_state r : g_h (gstate r) = after r (said r).
Proof. rewrite hello_state. unfold hellos at 2. rewrite proj_start by reflexivity. reflexivity. Qed.

Lemma turns_down l n evs1 evs2 : active (hstate (hconf_of c) l evs1) n -> ~ active (hstate (hconf_of c) l (evs1 ++ evs2)) n ->
  exists ea e eb, evs2 = ea ++ e :: eb /\ active (hstate (hconf_of c) l (evs1 ++ ea)) n /\ ~ active (hstate (hconf_of c) l (evs1 ++ ea ++ [e])) n.
Proof.
  revert evs1. induction evs2 as [|e evs IH]; intros evs1 A N; [rewrite app_nil_r in N; contradiction|].
  destruct (active_dec (hstate (hconf_of c) l (evs1 ++ [e])) n) as [B|B].
  - destruct (IH (evs1 ++ [e]) B) as (ea & e' & eb & E & H1 & H2); [now rewrite <- app_assoc|].
    exists (e :: ea), e', eb. rewrite <- !app_assoc in *. cbn [app] in *. now rewrite E.
  - exists [], e, evs. rewrite app_nil_r. auto.
Qed.

(** While a neighbour is ACTIVE, fewer than hello-retries hellos to it were lost since its last reply. *)
Theorem C17_router_limit r n : 0 < c_retry (gc c) < 2 ^ 32 ->
  active (g_h (gstate r)) n -> lost r n (said r) < c_retry (gc c).
Proof. rewrite said_state. intros Hr A. exact (@C17_limit (hconf_of c) (u_nbs r) (said r) n Hr A). Qed.

(** A neighbour that an event of the router makes inactive lost its face in that event, or lost a hello, and
    at least the hello-retries-th since its last reply. *)
Theorem C17_router_down r x n : 0 < c_retry (gc c) < 2 ^ 32 ->
  active (g_h (gstate r)) n -> ~ active (g_h (gstate (extend r [x]))) n ->
  exists ea e eb, said (extend r [x]) = said r ++ ea ++ e :: eb /\
    ((exists a f, entry (after r (said r ++ ea)) n a /\ a_face a = f /\ e = HvDestroyed f) \/
     (is_loss (hconf_of c) n (after r (said r ++ ea)) e = true /\ c_retry (gc c) <= lost r n (said r ++ ea ++ [e]))).
Proof.
  intros Hr. rewrite !said_state. change (u_nbs (extend r [x])) with (u_nbs r).
  destruct (extend_one c uri_of ang dst r x) as [_ Et]. rewrite Et. unfold hellos. rewrite flat_map_app.
  fold (hellos (gtrace r)). set (evs2 := flat_map _ (snd (gstep c uri_of ang dst (gstate r) x))).
  intros A N. destruct (@turns_down _ _ _ _ A N) as (ea & e & eb & E & H1 & H2). exists ea, e, eb. rewrite E. split; [reflexivity|].
  rewrite app_assoc in H2. rewrite (app_assoc _ ea [e]). exact (@C17_down (hconf_of c) (u_nbs r) (said r ++ ea) e n Hr H1 H2).
Qed.
End P.

(** A run in which r2 answers and then loses three hellos: it is ACTIVE after two and not after three. *)
Definition lostH (k : nat) : list (inp * gev) :=
  upR ++ map at_ (firstn (S k) [GvHello (HvLoop 1); GvHello (HvTimeout 4); GvHello (HvTimeout 6); GvHello (HvTimeout 7)]).
Definition statusesH evs : list (name * bool) := map (fun a => (a_name a, eqb (a_status a) SActive)) (h_adl (g_h (stR HOff evs))).
Lemma active_is s n b : In (n, b) (map (fun a => (a_name a, eqb (a_status a) SActive)) (h_adl s)) -> NoDup (map a_name (h_adl s)) ->
  (active s n <-> b = true).
Proof.
  intros H N. apply in_map_iff in H as (a & E & Ha). injection E as E1 E2. split.
  - intros (a' & [Ha' En] & Es). assert (a' = a) by (apply (nodup_name N Ha' Ha); congruence). subst a'. rewrite <- E2, Es. reflexivity.
  - intros ->. exists a. split; [split; [exact Ha|exact E1]|]. apply eqb_eq in E2. exact E2.
Qed.
Example C17_router_example :
  let c := gcX HOff in let r := runR HOff (lostH 2) in
  c_retry (gc c) = 3 /\ active (g_h (stR HOff (lostH 2))) farX /\
  losses (hconf_of c) (u_nbs r) farX (hellos (trR HOff (lostH 2))) = 2 /\
  lostH 3 = lostH 2 ++ [at_ (GvHello (HvTimeout 7))] /\ ~ active (g_h (stR HOff (lostH 3))) farX /\
  up c uriR angR dstR (runR HOff (lostH 3)) /\ active (g_h (stR HOff (lostH 3))) thirdX.
Proof.
  cbv zeta.
  assert (S2 : statusesH (lostH 2) = [(farX, true); (thirdX, true)]) by (vm_compute; reflexivity).
  assert (S3 : statusesH (lostH 3) = [(farX, false); (thirdX, true)]) by (vm_compute; reflexivity).
  assert (N : forall evs (x : list (name * bool)), map fst (statusesH evs) = map fst x -> NoDup (map fst x) -> NoDup (map a_name (h_adl (g_h (stR HOff evs))))).
  { intros evs x E Nx. rewrite <- E in Nx. unfold statusesH in Nx. rewrite map_map in Nx. exact Nx. }
  assert (Nd : NoDup [farX; thirdX]) by (repeat constructor; cbn; intros [H|[]] || intros []; discriminate H).
  pose proof (N (lostH 2) _ (f_equal (map fst) S2) Nd) as N2. pose proof (N (lostH 3) _ (f_equal (map fst) S3) Nd) as N3.
  split; [reflexivity|]. split; [apply (@active_is _ farX true); [unfold statusesH in S2; rewrite S2; now left|exact N2|reflexivity]|].
  split; [vm_compute; reflexivity|]. split; [reflexivity|].
  split; [rewrite (@active_is _ farX false); [discriminate|unfold statusesH in S3; rewrite S3; now left|exact N3]|].
  split; [unfold up; vm_compute; reflexivity|]. apply (@active_is _ thirdX true); [unfold statusesH in S3; rewrite S3; right; now left|exact N3|reflexivity].
Qed.

Print Assumptions C17_router_limit.
Print Assumptions C17_router_down.
Print Assumptions C17_router_example.
