(** C40: from the routing table and the database to the FIB. *)
From Coq Require Import Sorting.Permutation Sorting.Sorted.
From Verif Require Import Base M_Nexthop L_Nexthop M_Tlv M_Adj M_Lsa M_Lsdb L_Lsdb S_Lsdb L_Lsdb2 L_Lsdb3 L_Lsdb4 L_Lsdb6 M_LinkState
  M_Npt S_Npt L_Npt L_Npt2 L_Npt3 L_Npt4 L_Npt5 L_Npt6 L_Npt7 L_Npt8 X_Lsdb P_Npt P_Npt2.
From Verif Require Import M_Fib S_Fib S_Pipe L_Fib L_Fib2 P_Fib P_Fib4.
Open Scope Z_scope.
Set Implicit Arguments.

Lemma latest_told p fevs : latest p fevs = fib_told p (fib_calls fevs).
Proof. unfold latest, fib_told. generalize (@None (nhl * N)). induction fevs as [|e fevs IH]; intros cur; [reflexivity|].
  cbn [fold_left fib_calls flat_map]. destruct e; cbn [latest1 app fold_left told1f]; apply IH. Qed.

Lemma shift_is_nhl k l : is_nhl (shift k l).
Proof. destruct (shift_valid k l) as [H1 H2]. split; [now apply sorted_addc_nondec|exact H2]. Qed.

Definition bump (k : Z) (h : nexthop) : nexthop := mk_nh (nh_uri h) (nh_cost h + k).

Lemma shift_perm k l : NoDup (map nh_uri l) -> Permutation (shift k l) (map (bump k) l).
Proof. intros Nd. rewrite shift_as. fold (bump k).
  assert (Nd' : NoDup (map nh_uri (map (bump k) l))) by (rewrite map_map; cbn; exact Nd).
  change (map (fun h => mk_nh (nh_uri h) (nh_cost h + k)) l) with (map (bump k) l). revert Nd'. generalize (map (bump k) l). clear. intros L Nd.
  destruct (@addcs_spec L [] (nhl_valid_nil nh_ltb)) as (V & S1 & S2). set (r := fold_left (fun acc x => nhl_addc x acc) L []) in *.
  apply NoDup_Permutation.
  - destruct V as [_ V]. eapply NoDup_map_inv; exact V.
  - eapply NoDup_map_inv; exact Nd.
  - intros h. split.
    + intros H. destruct (S1 h H) as [?|[]]. assumption.
    + intros H. destruct (S2 h (or_introl H)) as (h' & X1 & X2 & X3). destruct (S1 h' X1) as [X4|[]].
      assert (h' = h); [|subst; exact X1]. clear - Nd H X4 X2. induction L as [|y L IH]; [destruct H|].
      cbn [map] in Nd. inversion Nd as [|? ? Hni Nd']; subst. destruct H as [->|H], X4 as [->|X4]; auto.
      * exfalso. apply Hni. rewrite <- X2. now apply in_map.
      * exfalso. apply Hni. rewrite X2. now apply in_map. Qed.

Lemma adj_bump k h : nh_hyp h = false -> (exists c, nh_cost h = of_int c) -> 0 <= nh_cost h -> 0 <= k -> adj_int (bump k h) = adj_int h + k / UNIT.
Proof. intros H1 [c H2] H3 H4. rewrite (@adj_of_int h c H1 H2). unfold adj_int, bump. rewrite ?whole_part_eq. cbn [mk_nh nh_hyp nh_cost]. rewrite H2 in *.
  pose proof UNIT_pos. rewrite Z.quot_div_nonneg by lia. unfold of_int. rewrite Z.add_comm, Z.div_add by lia. lia. Qed.

Lemma cheapest_shift max k l chosen' : (forall h, In h l -> nh_hyp h = false /\ (exists c, nh_cost h = of_int c) /\ 0 <= nh_cost h) -> 0 <= k ->
  NoDup (map nh_uri l) -> cheapest max (shift k l) chosen' ->
  exists chosen, cheapest max l chosen /\ map nh_uri chosen' = map nh_uri chosen.
Proof. intros Hl Hk Nd (C1 & rest & C2 & C3). pose proof (@shift_perm k l Nd) as P.
  assert (P2 : Permutation (chosen' ++ rest) (map (bump k) l)) by (rewrite <- C2; exact P).
  apply Permutation_map_inv in P2 as (l3 & E3 & P3). symmetry in E3. apply map_eq_app in E3 as (a & b & -> & <- & <-).
  exists a. split; [|rewrite map_map; reflexivity]. split.
  - rewrite map_length in C1. rewrite C1. f_equal. rewrite (Permutation_length P). apply map_length.
  - exists b. split; [exact P3|]. intros x y Hx Hy.
    assert (Lx : In x l) by (eapply Permutation_in; [symmetry; exact P3|apply in_or_app; auto]).
    assert (Ly : In y l) by (eapply Permutation_in; [symmetry; exact P3|apply in_or_app; auto]).
    specialize (C3 (bump k x) (bump k y) (in_map _ _ _ Hx) (in_map _ _ _ Hy)).
    destruct (Hl x Lx) as (A1 & A2 & A3). destruct (Hl y Ly) as (B1 & B2 & B3). rewrite !adj_bump in C3 by assumption. lia. Qed.

Lemma cheapest_perm max l l' chosen : Permutation l l' -> cheapest max l chosen -> cheapest max l' chosen.
Proof. intros P (C1 & rest & C2 & C3). split; [now rewrite <- (Permutation_length P)|]. exists rest. split; [now rewrite <- P|exact C3]. Qed.

(** For a prefix that only router [r] advertises at present (whoever advertised it before), the FIB
    holds the faces of the cheapest next hops of [r] in the last announced routing table, as many as
    the limit allows; nothing if [r] has none.  Missing from the full claim: hyperbolic routes
    ([C40_hyperbolic_refuted]) and prefixes that are names of neighbours ([C34_neighbour_refuted]). *)
Theorem C40_linkstate_partial c f now e0 levs nevs t outs fc l t0 fevs p r :
  name_maps levs -> subscribed nevs (snd (exec c f now e0 levs)) -> announced ls_table nevs ->
  (forall r x, r <> c_self c -> ever nevs r p x -> 0 <= x) ->
  nexec (c_self c) nevs = Ok (t, outs) -> routers t p = [r] ->
  fib_calls fevs = outs -> Forall (keeps_names (map a_name l)) fevs -> ~ neighbour l p ->
  exists chosen, cheapest (fc_max fc) (hops_to (routes_now nevs) r) chosen /\
    Permutation (fib_faces (fstate fc l t0 fevs) p) (map nh_uri chosen) /\
    (hops_to (routes_now nevs) r = [] <-> get p (f_tab (fstate fc l t0 fevs)) = None).
Proof. intros D S An Hpos E Hr Hc Hk Hn. destruct (subscribed_ok c f now e0 D S) as [N V].
  assert (Ai : announced integral nevs) by (intros rt po no H; apply (An rt po no H)).
  set (seen := fun p k => exists r, r <> c_self c /\ ever nevs r p k).
  destruct (@exec_ginv (c_self c) seen (fun _ _ => True) (fun _ n k => k = 0 \/ seen n k)) with (evs := nevs) as (t' & outs' & E' & G & Rt); auto.
  { intros [k l0 a d|rt po no] Hin; cbn; auto. intros Ho. split; [exact Logic.I|]. intros q x Hq _. split; [exact Logic.I|].
    exists (l_origin l0). split; [exact Ho|]. exists k, l0, a, d. split; [exact Hin|]. split; [reflexivity|]. destruct k; [split; [discriminate|exact Hq]..|destruct Hq]. }
  rewrite E in E'. injection E' as <- <-. pose proof (told_state p Ai E G Rt) as T.
  pose proof (@track_run fc l t0 fevs p Hk Hn) as Tr. rewrite latest_told, Hc in Tr. unfold track in Tr.
  assert (Rls : ls_table (routes_now nevs)).
  { assert (X : forall evs t, announced ls_table evs -> ls_table t -> ls_table (fold_left (fun t e => match e with NvRoutes rt _ _ => rt | _ => t end) evs t)).
    { clear. induction evs as [|e evs IH]; intros t A H; [exact H|]. cbn [fold_left]. apply IH; [intros rt po no Hin; eapply A; right; exact Hin|].
      destruct e; [exact H|]. eapply A. now left. }
    apply X; [exact An|]. split; [intros d l0 h []|split; [intros d l0 h []|intros d l0 []]]. }
  assert (Hh : forall h, In h (hops_to (routes_now nevs) r) -> nh_hyp h = false /\ (exists c, nh_cost h = of_int c) /\ 0 <= nh_cost h).
  { intros h. unfold hops_to. destruct (get r (routes_now nevs)) as [l0|] eqn:Gr; [|intros []]. intros Hin. apply get_In in Gr.
    destruct Rls as (R1 & R2 & _). destruct (R1 r l0 h Gr Hin). split; [assumption|]. split; [assumption|]. eapply R2; eauto. }
  assert (Hd : NoDup (map nh_uri (hops_to (routes_now nevs) r))).
  { unfold hops_to. destruct (get r (routes_now nevs)) as [l0|] eqn:Gr; [|constructor]. apply get_In in Gr. apply Rls in Gr. apply Gr. }
  destruct (fib_told p outs) as [[hops fl]|].
  - destruct T as (k & K1 & _ & (h & -> & ->) & _). rewrite Hr in Tr.
    assert (Hk0 : 0 <= k) by (destruct K1 as [->|(r' & Ho & Ev)]; [lia|eapply Hpos; [exact Ho|exact Ev]]).
    assert (Pr : poolh t r = Some (hops_to (routes_now nevs) r)).
    { assert (Hin : In r (dests t p)) by (rewrite <- routers_dests, Hr; now left).
      assert (Ne : poolh t r <> None) by (apply pool_used; [exact (g_p (proj1 G))|eauto]).
      destruct (poolh t r) as [l0|] eqn:Pl; [|congruence]. f_equal. rewrite hops_route. eapply pool_route; eauto. exact (g_r (proj1 G)). }
    set (L := hops_to (routes_now nevs) r) in *.
    assert (Ag : Permutation (agen (poolh t) [r]) L /\ agen (poolh t) [r] = shift 0 L).
    { unfold agen. cbn [flat_map]. rewrite Pr, app_nil_r.
      assert (Eq : map (bump 0) L = L).
      { clear - Hh. induction L as [|x L IH]; [reflexivity|]. cbn [map]. rewrite IH by (intros; apply Hh; now right). f_equal.
        destruct (Hh x (or_introl eq_refl)) as [Hy _]. destruct x as [xu xc xh]. unfold bump, mk_nh. cbn [nh_uri nh_cost nh_hyp] in *. f_equal; [lia|congruence]. }
      assert (Eq2 : fold_left (fun acc x => nhl_addc x acc) L [] = shift 0 L).
      { rewrite shift_as. change (map (fun h => mk_nh (nh_uri h) (nh_cost h + 0)) L) with (map (bump 0) L). now rewrite Eq. }
      rewrite Eq2. split; [|reflexivity]. rewrite (@shift_perm 0 L Hd). now rewrite Eq. }
    destruct Ag as [Ag _]. set (A := agen (poolh t) [r]) in *.
    assert (HhA : forall h, In h A -> nh_hyp h = false /\ (exists c, nh_cost h = of_int c) /\ 0 <= nh_cost h).
    { intros h Hin. apply Hh. eapply Permutation_in; [exact Ag|exact Hin]. }
    assert (HdA : NoDup (map nh_uri A)). { eapply Permutation_NoDup; [|exact Hd]. apply Permutation_map. now symmetry. }
    destruct Tr as (e & Te & Tu).
    destruct (@hops_to_add_cheapest fc (shift k A) (shift_is_nhl k A)) as (ch' & C' & P').
    destruct (@cheapest_shift (fc_max fc) k A ch' HhA Hk0 HdA C') as (ch & C & U). exists ch.
    split; [eapply cheapest_perm; [exact Ag|exact C]|]. split.
    + unfold fib_faces. rewrite Te, <- U, <- P'. apply perm_uris; [|apply hops_to_add_valid|exact Tu].
      destruct (fstate_tab_ok fc l t0 fevs p e Te) as [? _]. assumption.
    + rewrite Te. split; [|discriminate]. intros E0. exfalso. rewrite E0 in Ag. apply Permutation_sym, Permutation_nil in Ag.
      rewrite Ag in Tu. destruct (fstate_tab_ok fc l t0 fevs p e Te) as [_ Ne]. destruct (fe_hops e) as [|x xs]; [congruence|].
      assert (X : In (nh_uri x) (map nh_uri (hops_to_add fc (shift k [])))) by (apply Tu; now left).
      change (shift k []) with (@nil nexthop) in X. rewrite (proj2 (hops_to_add_nil fc []) eq_refl) in X. destruct X.
  - specialize (T r). rewrite Hr in T. specialize (T (or_introl eq_refl)). rewrite T. exists []. split; [|split].
    + split; [unfold wanted; destruct (_ =? _)%N; reflexivity|]. exists []. split; [constructor|intros a b []].
    + unfold fib_faces. rewrite Tr. constructor.
    + tauto. Qed.

(** A prefix that no router advertises any more is not in the FIB. *)
Theorem C40_gone c f now e0 levs nevs t outs fc l t0 fevs p :
  name_maps levs -> subscribed nevs (snd (exec c f now e0 levs)) ->
  nexec (c_self c) nevs = Ok (t, outs) -> routers t p = [] ->
  fib_calls fevs = outs -> Forall (keeps_names (map a_name l)) fevs -> ~ neighbour l p ->
  get p (f_tab (fstate fc l t0 fevs)) = None.
Proof. intros D S E Hr Hc Hk Hn. destruct (subscribed_ok c f now e0 D S) as [N V].
  destruct (run_any (c_self c) nevs N) as (t' & outs' & E' & [G _] & _). rewrite E in E'. injection E' as <- <-.
  pose proof (@track_run fc l t0 fevs p Hk Hn) as Tr. rewrite latest_told, Hc in Tr.
  assert (X : ent t p = None) by (apply dests_nil; [exact (g_p G)|now rewrite <- routers_dests]).
  pose proof (g_t G p) as T. rewrite X in T. now rewrite T in Tr. Qed.

(** ** Cases *)
Local Notation pX := X_Lsdb.pX.
Definition call_of (o : nout) : fev := match o with NUpdate n h fl => FvUpdate n h fl | NRemove n => FvRemove n end.
Definition calls_of (nevs : list nev) : list fev :=
  match nexec selfX nevs with Ok (_, o) => FvTime 5 :: map call_of o | _ => [] end.
Lemma fib_calls_of o : fib_calls (map call_of o) = o.
Proof. induction o as [|x o IH]; [reflexivity|]. unfold fib_calls in *. cbn [map flat_map]. rewrite IH. now destruct x. Qed.
Lemma calls_of_ok nevs t o : nexec selfX nevs = Ok (t, o) -> fib_calls (calls_of nevs) = o.
Proof. intros E. unfold calls_of. rewrite E. exact (fib_calls_of o). Qed.

(** r2 alone advertises the prefix, at cost 7, and is reached through face 1. *)
Example C40_case : announced ls_table (nevs2 (levs1 7)) /\ (forall r x, ever (nevs2 (levs1 7)) r pX x -> 0 <= x) /\
  Forall (keeps_names (map a_name adlX)) (calls_of (nevs2 (levs1 7))) /\ ~ neighbour adlX pX /\
  exists t o, nexec selfX (nevs2 (levs1 7)) = Ok (t, o) /\ routers t pX = [farX] /\ fib_calls (calls_of (nevs2 (levs1 7))) = o /\
    fib_faces (fstate fcX adlX 0 (calls_of (nevs2 (levs1 7)))) pX = [u1].
Proof. split; [|split; [|split; [|split]]].
  - intros rt po no [H|H].
    + injection H as <- <- <-. split; [eapply (@rtX_integral (levs1 7)); left; reflexivity|]. split.
      * intros d l h [H|[H|[]]]; injection H as <- <-; intros [<-|[]]; vm_compute; discriminate.
      * intros d l [H|[H|[]]]; injection H as <- <-; (split; [repeat constructor|cbn [map]; constructor; [intros []|constructor]]).
    + rewrite notes1 in H. destruct H as [H|[H|[]]]; discriminate H.
  - intros r x H. evs1 H; cbn [l_body nlsaX body_names In] in Hin; (destruct Hin as [Hin|[]]); injection Hin as <-; vm_compute; discriminate.
  - rewrite Forall_forall. intros x Hx. unfold calls_of in Hx. destruct (nexec selfX (nevs2 (levs1 7))) as [[t o]| |]; [|destruct Hx|destruct Hx].
    destruct Hx as [<-|Hx]; [exact Logic.I|]. apply in_map_iff in Hx as (y & <- & _). now destruct y.
  - vm_compute. intros H. repeat (destruct H as [H|H]; [discriminate H|]). exact H.
  - destruct (@ok_run (nevs2 (levs1 7)) (Some ([mk_nh u1 (of_int 17)], CHILD_INHERIT)) [farX]) as (t & o & E & W & R); [vm_compute; split; reflexivity|].
    exists t, o. split; [exact E|]. split; [exact R|]. split; [eapply calls_of_ok; exact E|]. vm_compute. reflexivity. Qed.

(** Hyperbolic routes lose their precision on the way: the table offers face 2 at 0.25 and face 1 at
    0.75; with room for one face the FIB takes face 1. *)
Definition quarter : Z := 2 ^ 1072.
Definition rtH : rtable := [(farX, [NH u2 quarter true; NH u1 (3 * quarter) true])].
Definition nevsH : list nev := NvRoutes rtH [] [] :: map nev_of (out_notes (snd (run2 (levs1 0)))).
Lemma far_first : ~ exists chosen, cheapest (fc_max (FConf 1800 1)) [NH u2 quarter true; NH u1 (3 * quarter) true] chosen /\
    Permutation [u1] (map nh_uri chosen).
Proof.
  intros (ch & (C1 & rest & C2 & C3) & P). apply Permutation_length_1_inv in P.
  destruct ch as [|a [|? ?]]; try discriminate P. cbn [map] in P. injection P as P.
  assert (Ha : In a [NH u2 quarter true; NH u1 (3 * quarter) true]) by (eapply Permutation_in; [symmetry; exact C2|now left]).
  destruct Ha as [<-|[<-|[]]]; [discriminate P|].
  assert (Hb : In (NH u2 quarter true) ([NH u1 (3 * quarter) true] ++ rest)) by (eapply Permutation_in; [exact C2|now left]).
  destruct Hb as [Hb|Hb]; [discriminate (f_equal nh_uri Hb)|].
  specialize (C3 _ _ (or_introl eq_refl) Hb). vm_compute in C3. apply C3. reflexivity. Qed.

Lemma rtH_nhl d l : In (d, l) rtH -> is_nhl l.
Proof. intros [H|[]]. injection H as <- <-. split; [vm_compute; repeat constructor; discriminate|].
  cbn [map nh_uri]. constructor; [intros [H|[]]; discriminate H|]. constructor; [intros []|constructor]. Qed.
Lemma notesH : map nev_of (out_notes (snd (run2 (levs1 0)))) =
    [NvNotify KInstalled (Lsa selfX 1 (T0 + 3600 * SEC) (BName [(pX, 0)])) [] []; NvNotify KInstalled (nlsaX 5 [(pX, of_int 0)]) [] []].
Proof. vm_compute. reflexivity. Qed.
Lemma nevsH_sub : subscribed nevsH (snd (run2 (levs1 0))).
Proof. unfold subscribed, nevsH. rewrite in_notes_cons. generalize (out_notes (snd (run2 (levs1 0)))).
  intros L. induction L as [|[[[k l] x] y] L IH]; [reflexivity|]. cbn [map nev_of]. now rewrite in_notes_cons, IH. Qed.
Lemma everH x r' : ever nevsH r' pX x -> x = 0.
Proof. intros (k & l & ad & d & [H|H] & Ho & Hk & Hin); [discriminate H|]. rewrite notesH in H.
  destruct H as [[= <- <- <- <-]|[[= <- <- <- <-]|[]]]; cbn [l_body nlsaX body_names In] in Hin;
    (destruct Hin as [Hin|[]]); injection Hin as <-; reflexivity. Qed.
Lemma announcedH : announced (fun t => forall d l, In (d, l) t -> is_nhl l) nevsH.
Proof. intros rt po no [H|H].
  - injection H as <- <- <-. exact rtH_nhl.
  - rewrite notesH in H. destruct H as [H|[H|[]]]; discriminate H. Qed.
Lemma keepsH : Forall (keeps_names (map a_name adlX)) (calls_of nevsH).
Proof. unfold calls_of. generalize (nexec selfX nevsH). intros [[t o]| |]; [|constructor|constructor]. constructor; [exact Logic.I|].
  rewrite Forall_forall. intros x Hx. apply in_map_iff in Hx as (y & <- & _). now destruct y. Qed.
Lemma facesH : fib_faces (fstate (FConf 1800 1) adlX 0 (calls_of nevsH)) pX = [u1].
Proof. vm_compute. reflexivity. Qed.
Lemma hopsH : hops_to (routes_now nevsH) farX = [NH u2 quarter true; NH u1 (3 * quarter) true].
Proof. vm_compute. reflexivity. Qed.
Lemma neighX : ~ neighbour adlX pX.
Proof. vm_compute; intros H; repeat (destruct H as [H|H]; [discriminate H|]); exact H. Qed.
Lemma runH : exists t o, nexec selfX nevsH = Ok (t, o) /\ routers t pX = [farX].
Proof. destruct (@ok_run nevsH (Some ([mk_nh u1 (3 * quarter); mk_nh u2 quarter], CHILD_INHERIT)) [farX]) as (t & o & E & W & R);
    [vm_compute; split; reflexivity|]. eauto. Qed.
Theorem C40_hyperbolic_refuted : exists levs nevs t outs fc l t0 fevs p r,
  name_maps levs /\ subscribed nevs (snd (run2 levs)) /\ nexec selfX nevs = Ok (t, outs) /\ routers t p = [r] /\
  (forall x r', ever nevs r' p x -> x = 0) /\ announced (fun t => forall d l, In (d, l) t -> is_nhl l) nevs /\
  fib_calls fevs = outs /\ Forall (keeps_names (map a_name l)) fevs /\ ~ neighbour l p /\
  ~ exists chosen, cheapest (fc_max fc) (hops_to (routes_now nevs) r) chosen /\
      Permutation (fib_faces (fstate fc l t0 fevs) p) (map nh_uri chosen).
Proof. destruct runH as (t & o & E & R).
  exists (levs1 0), nevsH, t, o, (FConf 1800 1), adlX, 0, (calls_of nevsH), pX, farX.
  split; [apply maps1|]. split; [exact nevsH_sub|]. split; [exact E|]. split; [exact R|]. split; [exact everH|].
  split; [exact announcedH|]. split; [eapply calls_of_ok; exact E|]. split; [exact keepsH|]. split; [exact neighX|].
  rewrite facesH, hopsH. exact far_first. Qed.

Print Assumptions C40_linkstate_partial.
Print Assumptions C40_gone.
Print Assumptions C40_hyperbolic_refuted.
