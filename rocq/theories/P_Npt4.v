(** C40 for prefixes that several routers advertise. *)
From Coq Require Import Sorting.Permutation Sorting.Sorted.
From Verif Require Import Base M_Nexthop L_Nexthop M_Tlv M_Adj M_Lsa M_Lsdb L_Lsdb S_Lsdb L_Lsdb2 L_Lsdb3 L_Lsdb4 L_Lsdb6 M_LinkState
  M_Npt S_Npt L_Npt L_Npt2 L_Npt3 L_Npt4 L_Npt5 L_Npt6 L_Npt7 L_Npt8 X_Lsdb P_Npt P_Npt2.
From Verif Require Import M_Fib S_Fib S_Pipe L_Fib L_Fib2 P_Fib P_Fib4 P_Npt3.
Open Scope Z_scope.
Set Implicit Arguments.

(** Whatever the routers that advertise a prefix at present and whatever costs they ever gave it (as long
    as none is negative): the FIB holds the cheapest faces, as many as the limit allows, where the cost of
    a face is the least cost of a next hop with that face among the routes to these routers.  The
    costs the routers gave the prefix do not influence the choice.  Missing from the full claim:
    hyperbolic routes and prefixes that are names of neighbours, as in [C40_linkstate_partial]. *)
Theorem C40_many_partial c f now e0 levs nevs t outs fc l t0 fevs p :
  name_maps levs -> subscribed nevs (snd (exec c f now e0 levs)) -> announced ls_table nevs ->
  (forall r x, r <> c_self c -> ever nevs r p x -> 0 <= x) ->
  nexec (c_self c) nevs = Ok (t, outs) ->
  fib_calls fevs = outs -> Forall (keeps_names (map a_name l)) fevs -> ~ neighbour l p ->
  exists hops chosen : nhl,
    (forall u x, offers hops u x <->
       least (fun y => exists r h, In r (routers t p) /\ In h (hops_to (routes_now nevs) r) /\ nh_uri h = u /\ y = nh_cost h) x) /\
    NoDup (map nh_uri hops) /\ (forall h, In h hops -> nh_hyp h = false /\ exists k, nh_cost h = of_int k) /\
    cheapest (fc_max fc) hops chosen /\ Permutation (fib_faces (fstate fc l t0 fevs) p) (map nh_uri chosen) /\
    (hops = [] <-> get p (f_tab (fstate fc l t0 fevs)) = None).
Proof. intros D S An Hpos E Hc Hk Hn. destruct (subscribed_ok c f now e0 D S) as [N V].
  assert (Ai : announced integral nevs) by (intros rt po no H; apply (An rt po no H)).
  set (seen := fun p k => exists r, r <> c_self c /\ ever nevs r p k).
  destruct (@exec_ginv (c_self c) seen (fun _ _ => True) (fun _ n k => k = 0 \/ seen n k)) with (evs := nevs) as (t' & outs' & E' & G & Rt); auto.
  { intros [k l0 a d|rt po no] Hin; cbn; auto. intros Ho. split; [exact Logic.I|]. intros q x Hq _. split; [exact Logic.I|].
    exists (l_origin l0). split; [exact Ho|]. exists k, l0, a, d. split; [exact Hin|]. split; [reflexivity|]. destruct k; [split; [discriminate|exact Hq]..|destruct Hq]. }
  rewrite E in E'. injection E' as <- <-. pose proof (told_state p Ai E G Rt) as T.
  pose proof (@track_run fc l t0 fevs p Hk Hn) as Tr. rewrite latest_told, Hc in Tr. unfold track in Tr.
  assert (Rls : ls_table (routes_now nevs)).
  { assert (X : forall evs t, announced ls_table evs -> ls_table t -> ls_table (fold_left (fun t e => match e with NvRoutes rt _ _ => rt | _ => t end) evs t)).
    { clear. induction evs as [|e evs IH]; intros t A H; [exact H|]. cbn [fold_left]. apply IH; [intros rt po no Hin; eapply A; right; exact Hin|].
      destruct e; [exact H|]. eapply A. now left. }
    apply X; [exact An|]. split; [intros d l0 h []|split; [intros d l0 h []|intros d l0 []]]. }
  assert (Hh : forall r h, In h (hops_to (routes_now nevs) r) -> nh_hyp h = false /\ (exists c, nh_cost h = of_int c) /\ 0 <= nh_cost h).
  { intros r h. unfold hops_to. destruct (get r (routes_now nevs)) as [l0|] eqn:Gr; [|intros []]. intros Hin. apply get_In in Gr.
    destruct Rls as (R1 & R2 & _). destruct (R1 r l0 h Gr Hin). split; [assumption|]. split; [assumption|]. eapply R2; eauto. }
  destruct (fib_told p outs) as [[hops fl]|].
  - destruct T as (k & K1 & _ & (h & Eh & EA) & T).
    assert (Hk0 : 0 <= k) by (destruct K1 as [->|(r' & Ho & Ev)]; [lia|eapply Hpos; [exact Ho|exact Ev]]).
    assert (Vh : nvalid h) by (rewrite EA; apply agen_valid).
    assert (Off : forall u x, offers h u x <->
       least (fun y => exists r h0, In r (routers t p) /\ In h0 (hops_to (routes_now nevs) r) /\ nh_uri h0 = u /\ y = nh_cost h0) x).
    { intros u x. pose proof (T u (x + k)) as T1. rewrite Eh, shift_offers in T1 by exact Vh. replace (x + k - k) with x in T1 by lia. rewrite T1.
      split; intros [(r & h0 & H1 & H2 & H3 & H4) Le]; split.
      - exists r, h0. repeat split; auto. lia.
      - intros y (r' & h' & Q1 & Q2 & Q3 & ->). assert (X : x + k <= nh_cost h' + k) by (apply Le; eauto 10). lia.
      - exists r, h0. repeat split; auto. lia.
      - intros y (r' & h' & Q1 & Q2 & Q3 & ->). assert (X : x <= nh_cost h') by (apply Le; eauto 10). lia. }
    assert (HhA : forall h0, In h0 h -> nh_hyp h0 = false /\ (exists c, nh_cost h0 = of_int c) /\ 0 <= nh_cost h0).
    { intros h0 Hin. rewrite EA in Hin. unfold agen in Hin. destruct (addcs_spec (flat_map (fun d => match poolh t d with Some l => l | None => [] end) (routers t p)) (nhl_valid_nil nh_ltb)) as (_ & S1 & _).
      destruct (S1 h0 Hin) as [X|[]]. apply in_flat_map in X as (d & _ & X). destruct (poolh t d) as [l0|] eqn:Pl; [|destruct X].
      apply (Hh d). rewrite hops_route. rewrite <- (@pool_route (c_self c) nevs t outs d l0 Ai E (g_r (proj1 G)) Rt Pl). exact X. }
    assert (HdA : NoDup (map nh_uri h)) by apply Vh.
    destruct Tr as (e & Te & Tu). rewrite Eh in Tu.
    destruct (@hops_to_add_cheapest fc (shift k h) (shift_is_nhl k h)) as (ch' & C' & P').
    destruct (@cheapest_shift (fc_max fc) k h ch' HhA Hk0 HdA C') as (ch & C & U). exists h, ch.
    split; [exact Off|]. split; [exact HdA|]. split; [intros h0 H0; destruct (HhA h0 H0) as (A1 & A2 & _); now split|]. split; [exact C|]. split.
    + unfold fib_faces. rewrite Te, <- U, <- P'. apply perm_uris; [|apply hops_to_add_valid|exact Tu].
      destruct (fstate_tab_ok fc l t0 fevs p e Te) as [? _]. assumption.
    + rewrite Te. split; [|discriminate]. intros E0. exfalso. rewrite E0 in Tu.
      destruct (fstate_tab_ok fc l t0 fevs p e Te) as [_ Ne]. destruct (fe_hops e) as [|x xs]; [congruence|].
      assert (X : In (nh_uri x) (map nh_uri (hops_to_add fc (shift k [])))) by (apply Tu; now left).
      change (shift k []) with (@nil nexthop) in X. rewrite (proj2 (hops_to_add_nil fc []) eq_refl) in X. destruct X.
  - exists [], []. split; [|split; [constructor|split; [intros h []|split; [|split]]]].
    + intros u x. split; [intros (h & [] & _)|]. intros [(r & h & H1 & H2 & _) _]. rewrite (T r H1) in H2. destruct H2.
    + split; [unfold wanted; destruct (_ =? _)%N; reflexivity|]. exists []. split; [constructor|intros a b []].
    + unfold fib_faces. rewrite Tr. constructor.
    + tauto. Qed.

(** ** A case: r2 advertises the prefix at cost 7, r3 at cost 9, each behind its own face. *)
Local Notation pX := X_Lsdb.pX.
Local Notation nev2 := (nevs2 (levs2 7 9 false)).
Lemma notes79 : map nev_of (out_notes (snd (run2 (levs2 7 9 false)))) =
  [NvNotify KInstalled (Lsa selfX 1 (T0 + 3600 * SEC) (BName [(pX, 0)])) [] []; NvNotify KInstalled (nlsaX 5 [(pX, of_int 7)]) [] [];
   NvNotify KInstalled (nlsa3 5 [(pX, of_int 9)]) [] []].
Proof. vm_compute. reflexivity. Qed.
Example C40_many_case : name_maps (levs2 7 9 false) /\ subscribed nev2 (snd (run2 (levs2 7 9 false))) /\
  announced ls_table nev2 /\ (forall r x, ever nev2 r pX x -> 0 <= x) /\
  Forall (keeps_names (map a_name adlX)) (calls_of nev2) /\ ~ neighbour adlX pX /\
  exists t o, nexec selfX nev2 = Ok (t, o) /\ routers t pX = [farX; r3X] /\ fib_calls (calls_of nev2) = o /\
    fib_faces (fstate fcX adlX 0 (calls_of nev2)) pX = [u1; u2].
Proof. split; [apply maps2|]. split; [apply nevs2_sub|]. split; [|split; [|split; [|split; [exact neighX|]]]].
  - intros rt po no [H|H].
    + injection H as <- <- <-. split; [eapply (@rtX_integral (levs1 7)); left; reflexivity|]. split.
      * intros d l h [H|[H|[]]]; injection H as <- <-; intros [<-|[]]; vm_compute; discriminate.
      * intros d l [H|[H|[]]]; injection H as <- <-; (split; [repeat constructor|cbn [map]; constructor; [intros []|constructor]]).
    + rewrite notes79 in H. destruct H as [H|[H|[H|[]]]]; discriminate H.
  - intros r x (k & l & ad & d & [H|H] & Ho & Hk & Hin); [discriminate H|]. rewrite notes79 in H.
    destruct H as [[= <- <- <- <-]|[[= <- <- <- <-]|[[= <- <- <- <-]|[]]]]; cbn [l_body nlsaX nlsa3 body_names In] in Hin;
      (destruct Hin as [Hin|[]]); injection Hin as <-; vm_compute; discriminate.
  - unfold calls_of. generalize (nexec selfX nev2). intros [[t o]| |]; [|constructor|constructor]. constructor; [exact Logic.I|].
    rewrite Forall_forall. intros x Hx. apply in_map_iff in Hx as (y & <- & _). now destruct y.
  - destruct (@ok_run nev2 (Some ([mk_nh u1 (of_int 19); mk_nh u2 (of_int 19)], CHILD_INHERIT)) [farX; r3X]) as (t & o & E & W & R); [vm_compute; split; reflexivity|].
    exists t, o. split; [exact E|]. split; [exact R|]. split; [eapply calls_of_ok; exact E|]. vm_compute. reflexivity. Qed.

Print Assumptions C40_many_partial.
