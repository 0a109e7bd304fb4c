(** Name prefix table property C36: costs told to the FIB. *)
From Coq Require Import Sorting.Permutation.
From Verif Require Import Base M_Nexthop L_Nexthop M_Tlv M_Adj M_Lsa M_Lsdb L_Lsdb S_Lsdb L_Lsdb2 L_Lsdb3 L_Lsdb4 L_Lsdb6 M_LinkState M_Npt S_Npt
  L_Npt L_Npt2 L_Npt3 L_Npt4 L_Npt5 L_Npt6 L_Npt7 L_Npt8 X_Lsdb P_Npt.
Open Scope Z_scope.
Set Implicit Arguments.

Lemma hops_route t r : hops_to t r = route r t.
Proof. reflexivity. Qed.

(** Pools hold the announced routes. *)
Lemma pool_route self nevs t outs d l : announced integral nevs -> nexec self nevs = Ok (t, outs) -> routed t -> n_rt t = routes_now nevs ->
  poolh t d = Some l -> l = route d (routes_now nevs).
Proof. intros An E R Rt P.
  destruct (@shaped_exec self intl nevs t outs) as (_ & S1 & S2); [intros h []| |exact E|].
  { intros rt po no d' Hin. apply route_intl. eapply An; exact Hin. }
  rewrite <- Rt. apply intl_eqb; [eapply S1; exact P|apply S2|now apply R]. Qed.

(** What the FIB was told, for any choice of the parameters of the invariant. *)
Lemma told_state self seen ok K nevs t outs p : announced integral nevs -> nexec self nevs = Ok (t, outs) ->
  ginv self seen ok K (noted nevs) t outs -> n_rt t = routes_now nevs ->
  match fib_told p outs with
  | None => forall r, In r (routers t p) -> hops_to (routes_now nevs) r = []
  | Some (hops, f) => exists k, K (costof t) p k /\ routers t p <> [] /\ (exists h, hops = shift k h /\ h = agen (poolh t) (routers t p)) /\
      forall u x, offers hops u x <->
        least (fun y => exists r h, In r (routers t p) /\ In h (hops_to (routes_now nevs) r) /\ nh_uri h = u /\ y = nh_cost h + k) x
  end.
Proof. intros An E [G _] Rt. rewrite routers_dests. pose proof (g_t G p) as T.
  assert (PR : forall d l, poolh t d = Some l -> l = route d (routes_now nevs)) by (intros; eapply pool_route; eauto; exact (g_r G)).
  destruct (ent t p) as [[[f ds] h]|] eqn:En.
  - destruct T as (k & K1 & T). rewrite (@ent_dests t p f ds h En). pose proof (g_f G _ En) as F. subst h.
    assert (Pd : forall d, In d ds -> poolh t d = Some (route d (routes_now nevs))).
    { intros d D. pose proof (ent_pool p d (g_p G) En D). destruct (poolh t d) as [l|] eqn:Pl; [|congruence]. f_equal. now apply PR. }
    rewrite T. unfold tell. destruct (shift k (agen (poolh t) ds)) as [|x xs] eqn:Sh.
    + apply shift_nil in Sh. rewrite agen_nil in Sh. intros r Hr. exact (Sh r _ Hr (Pd r Hr)).
    + exists k. split; [exact K1|]. split; [exact (ent_nonempty p (g_p G) En)|]. rewrite <- Sh. split; [eauto|]. intros u y.
      rewrite told_offers. apply least_ext. intros z. split.
      * intros (d & l & h & D1 & D2 & D3 & D4 & D5). exists d, h. rewrite (Pd d D1) in D2. injection D2 as <-. auto.
      * intros (d & h & D1 & D2 & D3 & D4). exists d, (route d (routes_now nevs)), h. auto 10.
  - rewrite T. unfold dests. rewrite En. intros r []. Qed.

(** Whatever happens, the FIB is told for each face the least route cost over the routers of the entry,
    plus one offset, the same for all faces and routers: 0 or a cost at which the prefix was advertised
    at some time.  Missing from the full claim: each router's route should carry that router's own cost,
    which holds under the conditions of [C36_zero_partial] and [C36_sole_partial] and fails in general
    ([C36_two_routers_refuted], [C36_withdrawn_refuted]). *)
Theorem C36_offset_partial c f now e0 levs nevs :
  name_maps levs -> subscribed nevs (snd (exec c f now e0 levs)) -> announced integral nevs ->
  exists t outs, nexec (c_self c) nevs = Ok (t, outs) /\ forall p,
    match fib_told p outs with
    | None => forall r, In r (routers t p) -> hops_to (routes_now nevs) r = []
    | Some (hops, fl) => exists k, (k = 0 \/ exists r, r <> c_self c /\ ever nevs r p k) /\
        forall u x, offers hops u x <->
          least (fun y => exists r h, In r (routers t p) /\ In h (hops_to (routes_now nevs) r) /\ nh_uri h = u /\ y = nh_cost h + k) x
    end.
Proof. intros D S An. destruct (subscribed_ok c f now e0 D S) as [N V].
  set (seen := fun p k => exists r, r <> c_self c /\ ever nevs r p k).
  destruct (@exec_ginv (c_self c) seen (fun _ _ => True) (fun _ n k => k = 0 \/ seen n k)) with (evs := nevs) as (t & outs & E & G & Rt); auto.
  - intros [k l a r|rt po no] Hin; cbn; auto. intros Ho. split; [exact Logic.I|]. intros p x Hp _. split; [exact Logic.I|].
    exists (l_origin l). split; [exact Ho|]. exists k, l, a, r. split; [exact Hin|]. split; [reflexivity|]. destruct k; [split; [discriminate|exact Hp]..|destruct Hp].
  - exists t, outs. split; [exact E|]. intros p. pose proof (told_state p An E G Rt) as T.
    destruct (fib_told p outs) as [[hops fl]|]; [|exact T]. destruct T as (k & K1 & _ & _ & T). exists k. auto. Qed.

(** ** Conditions under which the claim holds in full *)

Lemma best_none self s rt p : (forall r px, r <> self -> lists s r p px -> hops_to rt r = []) -> forall u x, ~ best self s rt p u x.
Proof. intros H u x [(r & px & h & R & L & Hh & _) _]. rewrite (H r px R L) in Hh. destruct Hh. Qed.

Lemma lists_holds s r p px : lists s r p px -> exists l, holds s l /\ l_origin l = r.
Proof. intros (l & H1 & H2 & _). exists l. split; auto. Qed.

(** If no other router ever gives the prefix a cost other than 0 (the default of the configuration file), the
    cost told to the FIB is the claimed one, for any number of routers.  Missing from the full claim:
    other costs, hyperbolic routes, and prefixes that are names of routers. *)
Theorem C36_zero_partial c f now e0 levs nevs p :
  name_maps levs -> subscribed nevs (snd (exec c f now e0 levs)) -> announced integral nevs ->
  let s := fst (exec c f now e0 levs) in
  p <> c_self c -> no_router s p -> (forall r x, r <> c_self c -> ever nevs r p x -> x = 0) ->
  exists t outs, nexec (c_self c) nevs = Ok (t, outs) /\
    forall u x, installed outs p u x <-> best (c_self c) s (routes_now nevs) p u x.
Proof. intros D S An s Hp Hnr Hz. destruct (subscribed_ok c f now e0 D S) as [N V].
  set (seen := fun p k => exists r, r <> c_self c /\ ever nevs r p k).
  destruct (@exec_ginv (c_self c) seen (fun _ _ => True) (fun _ n k => k = 0 \/ seen n k)) with (evs := nevs) as (t & outs & E & G & Rt); auto.
  { intros [k l a r|rt po no] Hin; cbn; auto. intros Ho. split; [exact Logic.I|]. intros p0 x Hp0 _. split; [exact Logic.I|].
    exists (l_origin l). split; [exact Ho|]. exists k, l, a, r. split; [exact Hin|]. split; [reflexivity|]. destruct k; [split; [discriminate|exact Hp0]..|destruct Hp0]. }
  exists t, outs. split; [exact E|]. pose proof (told_state p An E G Rt) as T. destruct G as [G [M1 M2]].
  assert (Cost0 : forall r px, r <> c_self c -> lists s r p px -> px = 0).
  { intros r px Hr L. pose proof (lists_holds L) as (l & Hl & Ho). specialize (Hnr l Hl). rewrite Ho in Hnr.
    apply (lists_cost c f now e0 levs r p px V) in L. pose proof (g_c G r p) as C. unfold Aof in C.
    destruct (eqb r (c_self c)) eqn:Q1; [apply eqb_eq in Q1; congruence|]. destruct (eqb p (c_self c)) eqn:Q2; [apply eqb_eq in Q2; congruence|].
    cbn [orb] in C. rewrite L in C. pose proof (g_b G r p) as B. unfold costof in B. rewrite C in B.
    destruct B as [B|(r' & B0 & B)]; [exact B|]. eapply Hz; [exact B0|exact B]. }
  assert (Rts : forall r, In r (routers t p) <-> r <> c_self c /\ exists px, lists s r p px).
  { intros r. rewrite routers_dests. split.
    - intros H. destruct (eq_dec p r) as [<-|Hne].
      + exfalso. destruct (M2 p H) as [_ Kn]. destruct (known_holds c f now e0 levs V Kn) as (l & Hl & Ho). exact (Hnr l Hl Ho).
      + apply M1 in H as (X & _ & Y); [|exact Hne]. split; [exact X|]. now apply (lists_adv c f now e0 levs r p V).
    - intros [X Y]. destruct (eq_dec p r) as [<-|Hne].
      + exfalso. destruct Y as [px L]. destruct (lists_holds L) as (l & Hl & Ho). exact (Hnr l Hl Ho).
      + apply M1; [exact Hne|]. split; [exact X|]. split; [exact Hp|]. now apply (lists_adv c f now e0 levs r p V). }
  intros u x. unfold installed. destruct (fib_told p outs) as [[hops fl]|].
  - destruct T as (k & K1 & _ & _ & T). assert (k = 0) by (destruct K1 as [->|(r & Ev0 & Ev)]; [reflexivity|eapply Hz; [exact Ev0|exact Ev]]). subst k.
    transitivity (offers hops u x); [split; [intros (h & fl' & [= <- <-] & O); exact O|eauto]|]. rewrite T. apply least_ext. intros z. split.
    + intros (r & h & R1 & R2 & R3 & ->). apply Rts in R1 as [X [px L]]. exists r, px, h. pose proof (Cost0 r px X L). subst px. auto 10.
    + intros (r & px & h & X & L & R2 & R3 & ->). exists r, h. rewrite (Cost0 r px X L). repeat split; auto. apply Rts. eauto.
  - split; [intros (h & fl & C & _); discriminate|]. intros B. exfalso. revert B. apply best_none. intros r px Hr L. apply T, Rts. eauto. Qed.

(** If only one other router ever advertises the prefix, the cost told to the FIB is the claimed one.
    Missing from the full claim: several routers with costs, hyperbolic routes, prefixes that are names
    of routers. *)
Theorem C36_sole_partial c f now e0 levs nevs p r :
  name_maps levs -> subscribed nevs (snd (exec c f now e0 levs)) -> announced integral nevs ->
  let s := fst (exec c f now e0 levs) in
  p <> c_self c -> (forall k l a d, In (NvNotify k l a d) nevs -> l_origin l <> p) -> (forall r' x, r' <> c_self c -> ever nevs r' p x -> r' = r) ->
  exists t outs, nexec (c_self c) nevs = Ok (t, outs) /\
    forall u x, installed outs p u x <-> best (c_self c) s (routes_now nevs) p u x.
Proof. intros D S An s Hp Hnr Hsole. destruct (subscribed_ok c f now e0 D S) as [N V].
  set (ok := fun d n : name => n = p -> d = r).
  destruct (@exec_ginv (c_self c) (fun _ _ => True) ok (fun cf n k => n = p -> k = cf r p)) with (evs := nevs) as (t & outs & E & G & Rt); auto.
  { intros c1 c2 n k H K ->. rewrite <- H. now apply K. }
  { intros cf d n Hok _ ->. now rewrite (Hok eq_refl). }
  { intros o n Hok. destruct (eq_dec n p) as [->|Hne]; [right|left; intros; congruence].
    intros d Hd. rewrite (Hd eq_refl). symmetry. now apply Hok. }
  { intros [k l a d|rt po no] Hin; cbn; auto. intros Ho. split; [intros X; exfalso; eapply Hnr; eauto|].
    intros q x Hq _. split; [|exact Logic.I]. intros ->. apply (Hsole (l_origin l) x Ho). exists k, l, a, d. split; [exact Hin|]. split; [reflexivity|].
    destruct k; [split; [discriminate|exact Hq]..|destruct Hq]. }
  exists t, outs. split; [exact E|]. pose proof (told_state p An E G Rt) as T. destruct G as [G [M1 M2]].
  assert (Nk : ~ known (noted nevs) p).
  { assert (X : forall evs v, (forall k l a d, In (NvNotify k l a d) evs -> l_origin l <> p) -> ~ known v p -> ~ known (fold_left note evs v) p).
    { clear. induction evs as [|e evs IH]; intros v H Hv; [exact Hv|]. cbn [fold_left]. apply IH; [intros; eapply H; right; eauto|].
      destruct e as [k l a d|rt po no]; cbn [note]; [|exact Hv]. pose proof (H k l a d (or_introl eq_refl)) as Ho.
      intros (t & m & Gm). apply Hv. exists t, m. assert ((p, t) <> l_key l) by (unfold l_key; congruence).
      destruct k; [rewrite get_set_ne in Gm by assumption|rewrite get_set_ne in Gm by assumption|rewrite get_del_ne in Gm by assumption]; exact Gm. }
    apply X; [exact Hnr|]. intros (t0 & m & Gm). discriminate. }
  assert (Rts : forall r', In r' (routers t p) <-> r' <> c_self c /\ exists px, lists s r' p px).
  { intros r'. rewrite routers_dests. split.
    - intros H. destruct (eq_dec p r') as [<-|Hne]; [exfalso; apply Nk, (M2 p H)|].
      apply M1 in H as (X & _ & Y); [|exact Hne]. split; [exact X|]. now apply (lists_adv c f now e0 levs r' p V).
    - intros [X Y]. apply (lists_adv c f now e0 levs r' p V) in Y. destruct (eq_dec p r') as [<-|Hne].
      + exfalso. apply Nk. unfold advertised in Y. destruct (get (p, TName) (noted nevs)) as [m|] eqn:Gm; [|congruence]. exists TName, m. exact Gm.
      + apply M1; auto. }
  assert (Only : forall r', In r' (routers t p) -> r' = r).
  { intros r' H. apply (g_o G p r'); [now rewrite <- routers_dests|reflexivity]. }
  assert (Cost : forall px, r <> c_self c -> lists s r p px -> costof t r p = px).
  { intros px Hr L. apply (lists_cost c f now e0 levs r p px V) in L. pose proof (g_c G r p) as C. unfold Aof in C.
    destruct (eqb r (c_self c)) eqn:Q1; [apply eqb_eq in Q1; congruence|]. destruct (eqb p (c_self c)) eqn:Q2; [apply eqb_eq in Q2; congruence|].
    cbn [orb] in C. rewrite L in C. unfold costof. now rewrite C. }
  intros u x. unfold installed. destruct (fib_told p outs) as [[hops fl]|].
  - destruct T as (k & K1 & _ & _ & T). specialize (K1 eq_refl). subst k.
    transitivity (offers hops u x); [split; [intros (h & fl' & [= <- <-] & O); exact O|eauto]|]. rewrite T. apply least_ext. intros z. split.
    + intros (r' & h & R1 & R2 & R3 & ->). pose proof (Only r' R1). subst r'. apply Rts in R1 as [X [px L]]. exists r, px, h. rewrite (Cost px X L). repeat split; auto.
    + intros (r' & px & h & X & L & R2 & R3 & ->). assert (In r' (routers t p)) by (apply Rts; eauto).
      pose proof (Only r' H). subst r'. exists r, h. rewrite (Cost px X L). auto.
  - split; [intros (h & fl & C & _); discriminate|]. intros B. exfalso. revert B. apply best_none. intros r' px Hr L. apply T, Rts. eauto. Qed.

(** ** Cases *)
Definition r3X : name := nm ["ndn"; "site"; "r3"]%string.
Definition nlsa3 (q : N) (names : npl) : lsa := Lsa r3X q (T0 + 3600 * SEC) (BName names).
Definition u1 : uri := "udp4://1"%string.
Definition u2 : uri := "udp4://2"%string.
(** r2 and r3 are reached through different faces, both at cost 10. *)
Definition rtX : rtable := [(farX, [mk_nh u1 (of_int 10)]); (r3X, [mk_nh u2 (of_int 10)])].
(** r2 advertises the prefix at cost [a], r3 at cost [b]; r3 withdraws it if [w]. *)
Definition levs2 (a b : Z) (w : bool) : list (env * ev) :=
  [(envX, ESync (syncX "r2" TName) 5 300); (envX, EFetchDone 0 (Some (nlsaX 5 [(pX, of_int a)])));
   (envX, ESync (syncX "r3" TName) 5 300); (envX, EFetchDone 1 (Some (nlsa3 5 [(pX, of_int b)])))] ++
  (if w then [(envX, ESync (syncX "r3" TName) 6 300); (envX, EFetchDone 2 (Some (nlsa3 6 [])))] else []).
(** Without r3. *)
Definition levs1 (a : Z) : list (env * ev) := firstn 2 (levs2 a 0 false).
Definition run2 (levs : list (env * ev)) : st * list out := exec (confX HOff) None 0 envX levs.
Definition nevs2 (levs : list (env * ev)) : list nev := NvRoutes rtX [] [] :: map nev_of (out_notes (snd (run2 levs))).

Lemma rtX_integral levs : announced integral (nevs2 levs).
Proof. intros rt po no [[= <- <- <-]|H].
  - intros d l h [[= <- <-]|[[= <- <-]|[]]] [<-|[]]; (split; [reflexivity|exists 10; reflexivity]).
  - apply in_map_iff in H as ([[[k l] x] y] & H & _). discriminate. Qed.

Lemma nevs2_sub levs : subscribed (nevs2 levs) (snd (run2 levs)).
Proof. unfold subscribed, nevs2. rewrite in_notes_cons. generalize (out_notes (snd (run2 levs))).
  intros L. induction L as [|[[[k l] x] y] L IH]; [reflexivity|]. cbn [map nev_of]. now rewrite in_notes_cons, IH. Qed.

Ltac maps H E := 
  repeat (destruct H as [<-|H]; [cbn [snd] in E; first [discriminate|injection E as <- <-]|]); [..|destruct H];
    cbn [nlsaX nlsa3 l_body body_names keys map fst];
    repeat (constructor; [cbn [In]; intros C; repeat (destruct C as [C|C]; [discriminate|]); exact C|]); constructor.
Lemma maps2 a b w : name_maps (levs2 a b w).
Proof. intros x fid l H E. unfold levs2 in H. destruct w; cbn [app In] in H; maps H E. Qed.
Lemma maps1 a : name_maps (levs1 a).
Proof. intros x fid l H E. unfold levs1, levs2 in H. cbn [app firstn In] in H; maps H E. Qed.

Lemma ok_run evs x y : match nexec selfX evs with Ok (t, o) => fib_told pX o = x /\ routers t pX = y | _ => False end ->
  exists t o, nexec selfX evs = Ok (t, o) /\ fib_told pX o = x /\ routers t pX = y.
Proof. destruct (nexec selfX evs) as [[t o]| |]; [|tauto|tauto]. intros [H1 H2]. eauto. Qed.

(** One router, cost 7: face 1 is told at cost 17. *)
Lemma notes1 : map nev_of (out_notes (snd (run2 (levs1 7)))) =
  [NvNotify KInstalled (Lsa selfX 1 (T0 + 3600 * SEC) (BName [(pX, 0)])) [] []; NvNotify KInstalled (nlsaX 5 [(pX, of_int 7)]) [] []].
Proof. vm_compute. reflexivity. Qed.
Ltac evs1 H := destruct H as (k & l & ad & d & [[= ]|H] & Ho & Hk & Hin); rewrite notes1 in H;
  destruct H as [[= <- <- <- <-]|[[= <- <- <- <-]|[]]]; cbn [l_origin nlsaX] in Ho; subst.
Example C36_sole_case :
  pX <> c_self (confX HOff) /\ (forall k l a d, In (NvNotify k l a d) (nevs2 (levs1 7)) -> l_origin l <> pX) /\
  (forall r' x, r' <> c_self (confX HOff) -> ever (nevs2 (levs1 7)) r' pX x -> r' = farX) /\
  exists t outs, nexec selfX (nevs2 (levs1 7)) = Ok (t, outs) /\ installed outs pX u1 (of_int 17).
Proof. split; [vm_compute; discriminate|]. split; [|split].
  - intros k l a d [[= ]|H]. rewrite notes1 in H. destruct H as [[= <- <- <- <-]|[[= <- <- <- <-]|[]]]; vm_compute; discriminate.
  - intros r' x Hr H. evs1 H; [exfalso; now apply Hr|reflexivity].
  - destruct (@ok_run (nevs2 (levs1 7)) (Some ([mk_nh u1 (of_int 17)], CHILD_INHERIT)) [farX]) as (t & o & E & W & R); [vm_compute; split; reflexivity|].
    exists t, o. split; [exact E|]. eexists _, _. split; [exact W|].
    eexists. split; [left; reflexivity|]. split; vm_compute; reflexivity. Qed.

(** Two routers, both at cost 0. *)
Lemma notes2 : map nev_of (out_notes (snd (run2 (levs2 0 0 true)))) =
  [NvNotify KInstalled (Lsa selfX 1 (T0 + 3600 * SEC) (BName [(pX, 0)])) [] []; NvNotify KInstalled (nlsaX 5 [(pX, of_int 0)]) [] [];
   NvNotify KInstalled (nlsa3 5 [(pX, of_int 0)]) [] []; NvNotify KUpdated (nlsa3 6 []) [] [(pX, of_int 0)]].
Proof. vm_compute. reflexivity. Qed.
Lemma origins_ne s : map l_origin (contents s) = [selfX; farX; r3X] -> no_router s pX.
Proof. intros X l H E. apply (in_map l_origin) in H. fold (contents s) in H. rewrite X, E in H. clear X.
  destruct H as [H|[H|[H|[]]]]; discriminate H. Qed.
Lemma zero_ever r x : ever (nevs2 (levs2 0 0 true)) r pX x -> x = 0.
Proof. intros (k & l & ad & d & [H|H] & Ho & Hk & Hin); [discriminate H|]. rewrite notes2 in H.
  destruct H as [[= <- <- <- <-]|[[= <- <- <- <-]|[[= <- <- <- <-]|[[= <- <- <- <-]|[]]]]]; cbn [l_body nlsaX nlsa3 body_names In] in Hin.
  - destruct Hin as [[= <-]|[]]. reflexivity.
  - destruct Hin as [Hin|[]]. injection Hin as <-. reflexivity.
  - destruct Hin as [Hin|[]]. injection Hin as <-. reflexivity.
  - destruct Hin. Qed.
Example C36_zero_case :
  no_router (fst (run2 (levs2 0 0 true))) pX /\
  (forall r x, r <> c_self (confX HOff) -> ever (nevs2 (levs2 0 0 true)) r pX x -> x = 0) /\
  exists t outs, nexec selfX (nevs2 (levs2 0 0 true)) = Ok (t, outs) /\ installed outs pX u1 (of_int 10).
Proof. split; [|split].
  - apply origins_ne. vm_compute. reflexivity.
  - intros r x _. apply zero_ever.
  - destruct (@ok_run (nevs2 (levs2 0 0 true)) (Some ([mk_nh u1 (of_int 10)], CHILD_INHERIT)) [farX]) as (t & o & E & W & R); [vm_compute; split; reflexivity|].
    exists t, o. split; [exact E|]. eexists _, _. split; [exact W|].
    eexists. split; [left; reflexivity|]. split; vm_compute; reflexivity. Qed.

Lemma some_inj {A} (a b : A) : Some a = Some b -> a = b.
Proof. now intros [= ->]. Qed.
Lemma lists_lookup s r px L : map (fun l => (l_origin l, get pX (body_names (l_body l)))) (contents s) = L ->
  lists s r pX px -> In (r, Some px) L.
Proof. intros <- (l & H1 & H2 & H3). apply in_map_iff. exists l. split; [now rewrite H2, H3|exact H1]. Qed.

(** ** Refutations *)

(** Two routers with different costs: all routes get the cost of the router that was added last.  r2
    advertises at 7, r3 at 9; face 1 leads to r2 only and is told at 19 instead of 17. *)
Theorem C36_two_routers_refuted : exists levs nevs t outs p u x,
  name_maps levs /\ subscribed nevs (snd (run2 levs)) /\ announced integral nevs /\ nexec selfX nevs = Ok (t, outs) /\
  no_router (fst (run2 levs)) p /\ p <> selfX /\ installed outs p u x /\ ~ best selfX (fst (run2 levs)) (routes_now nevs) p u x.
Proof. exists (levs2 7 9 false), (nevs2 (levs2 7 9 false)).
  destruct (@ok_run (nevs2 (levs2 7 9 false)) (Some ([mk_nh u1 (of_int 19); mk_nh u2 (of_int 19)], CHILD_INHERIT)) [farX; r3X]) as (t & o & E & W & R); [vm_compute; split; reflexivity|].
  exists t, o, pX, u1, (of_int 19). split; [apply maps2|]. split; [apply nevs2_sub|]. split; [apply rtX_integral|]. split; [exact E|].
  split; [|split; [vm_compute; discriminate|split]].
  - apply origins_ne. vm_compute. reflexivity.
  - eexists _, _. split; [exact W|]. eexists. split; [left; reflexivity|]. split; vm_compute; reflexivity.
  - intros [_ L]. assert (X : of_int 19 <= of_int 17); [|vm_compute in X; apply X; reflexivity]. apply L.
    exists farX, (of_int 7), (mk_nh u1 (of_int 10)). split; [vm_compute; discriminate|]. split.
    + eexists. split; [apply (nth_error_In _ 1); vm_compute; reflexivity|]. split; vm_compute; reflexivity.
    + split; [left; reflexivity|]. split; [reflexivity|]. vm_compute. reflexivity. Qed.

(** A withdrawal makes the FIB forget the cost: r2 advertises at 7, r3 withdraws; now r2 alone
    advertises the prefix, and face 1 is told at 10 instead of 17. *)
Theorem C36_withdrawn_refuted : exists levs nevs t outs p u x,
  name_maps levs /\ subscribed nevs (snd (run2 levs)) /\ announced integral nevs /\ nexec selfX nevs = Ok (t, outs) /\
  no_router (fst (run2 levs)) p /\ routers t p = [farX] /\ installed outs p u x /\ ~ best selfX (fst (run2 levs)) (routes_now nevs) p u x.
Proof. exists (levs2 7 9 true), (nevs2 (levs2 7 9 true)).
  destruct (@ok_run (nevs2 (levs2 7 9 true)) (Some ([mk_nh u1 (of_int 10)], CHILD_INHERIT)) [farX]) as (t & o & E & W & R); [vm_compute; split; reflexivity|].
  exists t, o, pX, u1, (of_int 10). split; [apply maps2|]. split; [apply nevs2_sub|]. split; [apply rtX_integral|]. split; [exact E|].
  split; [|split; [exact R|split]].
  - apply origins_ne. vm_compute. reflexivity.
  - eexists _, _. split; [exact W|]. eexists. split; [left; reflexivity|]. split; vm_compute; reflexivity.
  - intros [(r & px & h & Hr & L & Hh & Hu & He) _].
    assert (Y : map (fun l => (l_origin l, get pX (body_names (l_body l)))) (contents (fst (run2 (levs2 7 9 true)))) =
      [(selfX, Some 0); (farX, Some (of_int 7)); (r3X, None)]) by (vm_compute; reflexivity).
    pose proof (@lists_lookup _ _ _ _ Y L) as X1. clear Y L.
    destruct X1 as [X1|[X1|[X1|[]]]]; [apply Hr; symmetry; exact (f_equal fst X1)| |discriminate (f_equal snd X1)].
    pose proof (f_equal fst X1) as X2. pose proof (f_equal snd X1) as X3. cbn [fst snd] in X2, X3. apply some_inj in X3. subst r px.
    assert (Z' : hops_to (routes_now (nevs2 (levs2 7 9 true))) farX = [mk_nh u1 (of_int 10)]) by (vm_compute; reflexivity).
    rewrite Z' in Hh. destruct Hh as [<-|[]]. vm_compute in He. discriminate He. Qed.

Print Assumptions C36_offset_partial.
Print Assumptions C36_zero_partial.
Print Assumptions C36_sole_partial.
Print Assumptions C36_two_routers_refuted.
Print Assumptions C36_withdrawn_refuted.
