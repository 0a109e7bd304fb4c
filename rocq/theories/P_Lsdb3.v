(** Properties of the link-state database, continued: how long an LSA is kept. *)
From Verif Require Import Base M_Nexthop M_Tlv M_Adj M_Lsa M_Lsdb S_Lsdb S_Notify L_Lsdb L_Lsdb2 L_Lsdb3 L_Lsdb4 L_Lsdb5 L_Lsdb6 L_Lsdb7 L_Lsdb9 L_Lsdb11 L_Lsdb12 X_Lsdb P_Lsdb P_Lsdb2 P_Sync.
Open Scope Z_scope.
Set Implicit Arguments.

(** ** C71 *)

Lemma reachable_K c s : reachable c s -> invK c s.
Proof. intros (f & now & e0 & evs & ->). apply invK_exec. Qed.

Lemma held_at s l : invS None s -> holds s l ->
  exists oid o, get (l_key l) (s_store s) = Some oid /\ get oid (s_heap s) = Some o /\ o_lsa o = l.
Proof.
  intros I H. apply (holds_find l I) in H. unfold find_lsa, find_oid in H.
  destruct (get (l_key l) (s_store s)) as [oid|] eqn:E; [|discriminate]. destruct (get oid (s_heap s)) as [o|] eqn:Eo; [|discriminate].
  exists oid, o. repeat split; auto. now injection H.
Qed.

Lemma held_from s oid o k : invS None s -> get k (s_store s) = Some oid -> get oid (s_heap s) = Some o ->
  holds s (o_lsa o) /\ l_key (o_lsa o) = k.
Proof.
  intros I H1 H2. pose proof (invS_key I H1 H2) as ->. split; [|reflexivity]. apply (holds_find (o_lsa o) I).
  unfold find_lsa, find_oid. now rewrite H1, H2.
Qed.

(** A stored LSA has at most one lifetime timer (and at least one: [C06_timer_pending]). *)
Theorem C71_one_timer c s l tid due tid' due' : reachable c s ->
  lifetime s l tid due -> lifetime s l tid' due' -> tid = tid' /\ due = due'.
Proof.
  intros R [_ (oid & o & T1 & S1 & H1 & L1)] [_ (oid' & o' & T2 & S2 & H2 & L2)]. pose proof (reachable_inv R) as I.
  assert (oid' = oid) by congruence. subst oid'. assert (o' = o) by congruence. subst o'.
  destruct (proj2 (iS_timer I _ T1) oid eq_refl) as (o1 & E1 & F1). destruct (proj2 (iS_timer I _ T2) oid eq_refl) as (o2 & E2 & F2).
  assert (tid = tid') by congruence. subst tid'. split; [reflexivity|congruence].
Qed.

(** Whenever an event puts an LSA into the database, as a new one or as a newer version, its lifetime
    starts then: an LSA of this router is examined after the refresh interval plus 10 s, an LSA of
    another router after the whole seconds left until its expiration time plus 10 s. *)
Theorem C71_renewed c s x l : reachable c s -> let s' := fst (step c s x) in
  ~ holds s l -> holds s' l ->
  (l_origin l = c_self c -> exists tid, lifetime s' l tid (s_now s' + (c_refresh c + 10) * SEC)) /\
  (l_origin l <> c_self c -> e_sys (fst x) < l_exp l ->
     exists tid, lifetime s' l tid (s_now s' + ((l_exp l - e_sys (fst x)) / SEC + 10) * SEC)).
Proof.
  intros R s' Hn Hl. pose proof (reachable_inv R) as I. pose proof (reachable_inv (reachable_step x R)) as I'. fold s' in I'.
  destruct (@held_at s' l I' Hl) as (oid & o' & S1 & H1 & L1).
  destruct (@step_timers c s x I (reachable_K R)) as (_ & C & _). fold s' in C.
  assert (F : exists t, lifetime s' l t (s_now s' + (time_to_expire c (e_sys (fst x)) l + GRACE_PERIOD) * SEC)).
  { destruct (C _ _ _ S1 H1) as [(A & B & _)|(_ & t & A & B)].
    - exfalso. apply Hn. rewrite <- L1. exact (proj1 (@held_from s _ _ _ I A B)).
    - exists t. split; [exact Hl|]. exists oid, o'. rewrite <- L1 in *. auto. }
  unfold time_to_expire in F. split.
  - intros E. rewrite E, eqb_refl in F. exact F.
  - intros E Hx. destruct (eqb (l_origin l) (c_self c)) eqn:E2; [apply (proj1 (eqb_eq _ _)) in E2; contradiction|].
    destruct (Z.ltb_spec 0 (l_exp l - e_sys (fst x))) as [L|L]; [|lia].
    rewrite Z.quot_div_nonneg in F by (unfold SEC; lia). exact F.
Qed.

(** Nothing else moves the timer: an LSA that stays keeps its timer. *)
Theorem C71_unchanged c s x l tid due : reachable c s ->
  lifetime s l tid due -> holds (fst (step c s x)) l -> lifetime (fst (step c s x)) l tid due.
Proof.
  intros R [Hh (oid & o & T1 & S1 & H1 & L1)] Hl. pose proof (reachable_inv R) as I.
  pose proof (reachable_inv (reachable_step x R)) as I'. set (s' := fst (step c s x)) in *.
  destruct (@held_at s' l I' Hl) as (oid' & o' & S2 & H2 & L2).
  destruct (@step_timers c s x I (reachable_K R)) as (_ & C & _). fold s' in C.
  destruct (proj2 (iS_timer I _ T1) oid eq_refl) as (o1 & E1 & F1). assert (o1 = o) by congruence. subst o1.
  destruct (C _ _ _ S2 H2) as [(A & B & D)|(A & _)].
  - assert (oid' = oid) by congruence. subst oid'. assert (o' = o) by congruence. subst o'.
    split; [exact Hl|]. exists oid, o. rewrite (D _ F1). auto.
  - exfalso. assert (G : find_lsa (l_key l) s = Some l) by now apply (holds_find l I). pose proof (A _ G). rewrite L2 in *. lia.
Qed.

(** An LSA of another router stays, with its timer, until a newer version replaces it or its own timer
    fires when it is due: it is never dropped early. *)
Theorem C71_stays c s x l tid due : reachable c s -> let s' := fst (step c s x) in
  lifetime s l tid due -> l_origin l <> c_self c ->
  lifetime s' l tid due \/
  (exists l', holds s' l' /\ l_key l' = l_key l /\ (l_seq l < l_seq l')%N) \/
  (snd x = EFire tid /\ due <= s_now s).
Proof.
  intros R s' Hlt Ho. pose proof Hlt as [Hh (oid & o & T1 & S1 & H1 & L1)]. pose proof (reachable_inv R) as I.
  pose proof (reachable_inv (reachable_step x R)) as I'. fold s' in I'.
  destruct (@step_timers c s x I (reachable_K R)) as (_ & C & D). fold s' in C, D.
  destruct (D _ _ _ S1 H1) as [S2|(t & d & E & F & G)]; [congruence| |].
  - destruct (iS_store I' _ S2) as (o' & H2 & K2 & _). destruct (C _ _ _ S2 H2) as [(A & B & _)|(A & _)].
    + left. apply C71_unchanged; trivial. fold s'. assert (o' = o) by congruence. subst o'.
      rewrite <- L1. exact (proj1 (@held_from s' _ _ _ I' S2 H2)).
    + right. left. exists (o_lsa o'). destruct (@held_from s' _ _ _ I' S2 H2) as [X Y]. split; [exact X|]. split; [exact Y|].
      apply A. now apply (holds_find l I).
  - right. right. assert (Hlt2 : lifetime s l t d). { split; [exact Hh|]. exists oid, o. auto. }
    destruct (@C71_one_timer c s l tid due t d R Hlt Hlt2) as [-> ->]. auto.
Qed.

(** The example: r2's Name LSA 5 is installed at time 0 with 3600 s left, 6 replaces it. *)
Example C71_example :
  let s := fst (exec (confX HOff) None 0 envX (firstn 1 evsX)) in let s' := fst (exec (confX HOff) None 0 envX (firstn 2 evsX)) in
  exists l tid due, ~ holds s l /\ holds s' l /\ l_origin l = farX /\ l_exp l = T0 + 3600 * SEC /\ lifetime s' l tid due /\ due = 3610 * SEC /\ s_now s' = 0.
Proof.
  cbv zeta. exists (nlsaX 5 [(pX, 7)]), 1%nat, (3610 * SEC). split; [vm_compute; intros [X|[]]; discriminate|].
  assert (H : holds (fst (exec (confX HOff) None 0 envX (firstn 2 evsX))) (nlsaX 5 [(pX, 7)])) by (vm_compute; right; left; reflexivity).
  split; [exact H|]. split; [reflexivity|]. split; [reflexivity|]. split; [|split; reflexivity]. split; [exact H|].
  exists 1%nat, (Obj (nlsaX 5 [(pX, 7)]) (Some 1%nat)). vm_compute. auto.
Qed.

(** ** C72 *)

(** The LSA of name [u] and number [q] is being looked for until time [d]: a fetch of it is in progress,
    or another attempt is scheduled. *)
Definition sought (s : st) (u : name) (q : N) (d : Z) : Prop :=
  (exists fid n, get fid (s_fetch s) = Some (Fetch (u ++ [number_comp q]) n d)) \/
  (exists tid due n, get tid (s_timers s) = Some (Timer due (AExpress (u ++ [number_comp q]) n d))).

Lemma number_comp_snoc (u v : name) p q : (p < 2 ^ 64)%N -> (q < 2 ^ 64)%N -> u ++ [number_comp p] = v ++ [number_comp q] -> u = v /\ p = q.
Proof.
  intros P Q E. apply app_inj_tail in E. destruct E as [-> E]. split; [reflexivity|].
  pose proof (to_number_comp P) as A. rewrite E, to_number_comp in A by exact Q. congruence.
Qed.

Lemma okreq_of (c : conf) s o u q i d n : invF c s o -> (q < 2 ^ 64)%N -> i = u ++ [number_comp q] ->
  (exists fid, get fid (s_fetch s) = Some (Fetch i n d)) \/ (exists tid due, get tid (s_timers s) = Some (Timer due (AExpress i n d))) ->
  okname c u /\ exists h, get u (s_high s) = Some h /\ (q <= h)%N.
Proof.
  intros F Q Ei H. assert (X : okreq c s i d).
  { destruct H as [(fid & H)|(tid & due & H)].
    - exact (iF_fetch F _ H).
    - apply (iF_exp F tid due i n d). unfold exp. apply filter_In. split; [exact (get_In _ _ H)|reflexivity]. }
  destruct X as (u' & q' & E & Q' & Hu & Hh & _). rewrite Ei in E. apply number_comp_snoc in E; trivial. destruct E as [<- <-]. auto.
Qed.

Lemma express_again (s : st) (u : name) q n d : u <> [] -> (q < 2 ^ 64)%N -> get u (s_high s) = Some q ->
  let r := express (u ++ [number_comp q]) n 0 (Some d) s in
  get (s_nfid s) (s_fetch (fst r)) = Some (Fetch (u ++ [number_comp q]) n d) /\ In (OFetch (u ++ [number_comp q]) 0) (snd r).
Proof.
  intros Hu Q H. cbv zeta. unfold express. rewrite drop_last_snoc, back1_snoc, back2_snoc, to_number_comp by exact Q. cbv beta iota.
  unfold note_high. rewrite H. assert (L : (q <? q)%N = false) by apply N.ltb_irrefl. rewrite L.
  destruct (back 1 u) as [ct|] eqn:B.
  2: { exfalso. apply Hu. unfold back in B. destruct (rev u) as [|a r] eqn:E; [|discriminate]. apply (f_equal (@rev _)) in E. now rewrite rev_involutive in E. }
  unfold stat_type. destruct (comp_type ct); cbn; rewrite get_set_eq; auto.
Qed.

Section C72.
Variables (c : conf) (f : option seqs) (now : Z) (e0 : env) (evs : list (env * ev)).
Notation s := (fst (exec c f now e0 evs)).
Notation outs := (snd (exec c f now e0 evs)).
Variables (u : name) (q : N).
Hypothesis Hq : (q < 2 ^ 64)%N.

Lemma high_now i n d : i = u ++ [number_comp q] ->
  (exists fid, get fid (s_fetch s) = Some (Fetch i n d)) \/ (exists tid due, get tid (s_timers s) = Some (Timer due (AExpress i n d))) ->
  u <> [] /\ (get u (s_high s) = Some q \/ exists q', In q' (fetched u outs) /\ (q < q')%N).
Proof using Hq.
  intros Ei H. pose proof (invF_exec c f now e0 evs) as F. destruct (@okreq_of c s outs u q i d n F Hq Ei H) as [Hu (h & Hh & L)].
  split; [exact (proj1 Hu)|]. destruct (N.eq_dec h q) as [->|N]; [now left|]. right. exists h. split; [exact (iF_known F _ Hh)|lia].
Qed.

(** A failed fetch whose deadline has not passed, and than which no newer number was asked for, is tried
    again: at once after a timeout, after the Interest lifetime after any other failure. *)
Theorem C72_retried e fid n d timeout : s_dead s = false ->
  get fid (s_fetch s) = Some (Fetch (u ++ [number_comp q]) n d) -> s_now s < d ->
  (forall q', In q' (fetched u outs) -> (q' <= q)%N) ->
  exists tid, get tid (s_timers (fst (step c s (e, EFetchErr fid timeout)))) =
    Some (Timer (s_now s + if timeout then 0 else c_lifetime c * SEC) (AExpress (u ++ [number_comp q]) (n + 1) d)).
Proof using Hq.
  intros D E L W. destruct (@high_now _ n d eq_refl (or_introl (ex_intro _ fid E))) as [Hu [Hh|(q' & A & B)]].
  2: { specialize (W _ A). lia. }
  unfold step. rewrite D. cbn [step_live]. unfold fetch_err. rewrite E, andthen_fst. cbn [upd fst s_timers w_fetch].
  unfold on_error. cbn [f_iname f_deadline f_count]. rewrite drop_last_snoc, back1_snoc, to_number_comp by exact Hq.
  rewrite Hh, N.eqb_refl. assert (X : (s_now s <? d) = true) by now apply Z.ltb_lt. rewrite X. cbn [andb fst].
  exists (s_ntid s). unfold schedule. cbn [fst s_timers w_timers]. now rewrite get_set_eq.
Qed.

(** When its time has come the LSA is asked for again. *)
Theorem C72_resent e tid due n d : s_dead s = false ->
  get tid (s_timers s) = Some (Timer due (AExpress (u ++ [number_comp q]) n d)) -> due <= s_now s ->
  (forall q', In q' (fetched u outs) -> (q' <= q)%N) ->
  let r := step c s (e, EFire tid) in
  In (OFetch (u ++ [number_comp q]) 0) (snd r) /\ exists fid, get fid (s_fetch (fst r)) = Some (Fetch (u ++ [number_comp q]) n d).
Proof using Hq.
  intros D E L W r. destruct (@high_now _ n d eq_refl (or_intror (ex_intro _ tid (ex_intro _ due E)))) as [Hu [Hh|(q' & A & B)]].
  2: { specialize (W _ A). lia. }
  unfold r, step. rewrite D. cbn [step_live]. unfold fire. rewrite E. cbn [t_due t_act].
  assert (X : (due <=? s_now s) = true) by now apply Z.leb_le. rewrite X.
  destruct (@express_again (w_timers (del tid (s_timers s)) (s_ntid s) s) u q n d Hu Hq Hh) as [A B]. split; [exact B|eauto].
Qed.

(** Once looked for, an LSA is looked for until it is received, a newer number is asked for, or an
    attempt fails after the deadline. *)
Theorem C72_kept x d : sought s u q d ->
  sought (fst (step c s x)) u q d \/
  (exists fid n content, snd x = EFetchDone fid content /\ get fid (s_fetch s) = Some (Fetch (u ++ [number_comp q]) n d)) \/
  (exists q', In q' (fetched u outs) /\ (q < q')%N) \/
  (exists fid timeout, snd x = EFetchErr fid timeout /\ d <= s_now s).
Proof using Hq.
  intros H. destruct (@step_fetches c s x (invX_exec c f now e0 evs)) as (_ & A & B & _).
  destruct (s_dead s) eqn:D; [left; unfold step; now rewrite D|].
  assert (M : (forall q', In q' (fetched u outs) -> (q' <= q)%N) \/ exists q', In q' (fetched u outs) /\ (q < q')%N).
  { induction (fetched u outs) as [|h r IH]; [left; intros q' []|]. destruct (N.le_gt_cases h q) as [L|L].
    - destruct IH as [IH|(q' & X & Y)]; [left; intros q' [<-|X]; auto|right; exists q'; split; [now right|exact Y]].
    - right. exists h. split; [now left|exact L]. }
  destruct M as [W|W]; [|auto].
  destruct H as [(fid & n & E)|(tid & due & n & E)].
  - destruct (A _ _ E) as [E'|[(ct & Ex)|(b & Ex)]]; [left; left; eauto|right; left; eauto 6|].
    destruct (Z.lt_ge_cases (s_now s) d) as [L|L]; [|right; right; right; eauto].
    left. right. destruct x as [e v]. cbn [snd] in Ex. subst v.
    destruct (@C72_retried e fid n d b D E L W) as (tid & T). eauto.
  - destruct (B _ _ _ _ _ E) as [E'|(Ex & L)]; [left; right; eauto|].
    left. left. destruct x as [e v]. cbn [snd] in Ex. subst v.
    destruct (@C72_resent e tid due n d D E L W) as (_ & fid & T). eauto.
Qed.
End C72.

(** So over any stretch of time before the deadline in which the LSA is not received and no newer number
    is asked for, it is looked for all along. *)
Theorem C72_until c f now e0 evs more u q d : (q < 2 ^ 64)%N ->
  sought (fst (exec c f now e0 evs)) u q d ->
  (forall q', In q' (fetched u (snd (exec c f now e0 (evs ++ more)))) -> (q' <= q)%N) ->
  (forall pre e fid content post n d', more = pre ++ (e, EFetchDone fid content) :: post ->
     get fid (s_fetch (fst (exec c f now e0 (evs ++ pre)))) <> Some (Fetch (u ++ [number_comp q]) n d')) ->
  s_now (fst (exec c f now e0 (evs ++ more))) < d ->
  sought (fst (exec c f now e0 (evs ++ more))) u q d.
Proof.
  intros Q H0. induction more as [|x more IH] using rev_ind; intros W G T; [now rewrite app_nil_r|].
  rewrite app_assoc in W, T |- *. destruct (exec_snoc c f now e0 (evs ++ more) x) as [E1 E2].
  rewrite E1 in T |- *. rewrite E2 in W. clear E1 E2. set (s := fst (exec c f now e0 (evs ++ more))) in *.
  assert (W' : forall q', In q' (fetched u (snd (exec c f now e0 (evs ++ more)))) -> (q' <= q)%N).
  { intros q' Hq'. apply W. rewrite fetched_app. apply in_or_app. now left. }
  assert (Tn : s_now s <= s_now (fst (step c s x))) by exact (proj2 (proj2 (proj2 (@step_fetches c s x (invX_exec c f now e0 (evs ++ more)))))).
  destruct (@C72_kept c f now e0 (evs ++ more) u q Q x d) as [X|[(fid & n & ct & E1 & E2)|[(q' & A & B)|(fid & b & _ & L)]]].
  - apply IH; [exact W'| |unfold s in *; lia]. intros pre e fid ct post n d' E. apply (G pre e fid ct (post ++ [x])). now rewrite E, <- app_assoc.
  - exact X.
  - exfalso. destruct x as [e v]. cbn [snd] in E1. subst v. eapply (G more e fid ct []); [reflexivity|exact E2].
  - specialize (W' _ A). lia.
  - fold s in L. lia.
Qed.

Lemma express_first (s : st) (u : name) t q face : back 1 u = Some (type_comp t) -> (q < 2 ^ 64)%N -> (newest s u <= q)%N ->
  get (s_nfid s) (s_fetch (fst (express (u ++ [number_comp q]) 0 face None s))) = Some (Fetch (u ++ [number_comp q]) 0 (s_now s + 7200 * SEC)).
Proof.
  intros B Q W. unfold express. rewrite drop_last_snoc, back1_snoc, back2_snoc, B, to_number_comp by exact Q.
  cbv beta iota. rewrite comp_type_comp. unfold note_high, newest in *.
  destruct (get u (s_high s)) as [h|] eqn:Eh; [destruct (N.ltb_spec h q) as [L|L]; [|destruct (N.ltb_spec q h); [lia|]]|];
    rewrite !andthen_fst; cbn [emit upd fst stat_type s_fetch w_fetch w_high s_high s_nfid]; rewrite get_set_eq; reflexivity.
Qed.

(** A report from sync that starts a fetch starts the two hours (LSA_REFRESH_TIME_MAX) in which the LSA
    is looked for. *)
Theorem C72_started c site t f now e0 evs e q face :
  let s := fst (exec c f now e0 evs) in let o := c_network c ++ site in let u := c_lsaprefix c ++ site ++ [type_comp t] in
  lsa_conf c -> ~ In (gen "nlsr"%string) (c_network c) -> sane u -> o <> c_self c -> s_dead s = false -> (0 < q < 2 ^ 64)%N ->
  used (c_hyp c) t = true -> (forall l, holds s l -> l_key l = (o, t) -> (l_seq l < q)%N) ->
  (forall q', In q' (fetched u (snd (exec c f now e0 evs))) -> (q' <= q)%N) ->
  sought (fst (step c s (e, ESync u q face))) u q (s_now s + 7200 * SEC).
Proof.
  intros s o u Hc Hn Hs Ho D Q U N W. unfold u, o in *. rewrite (@sync_step c site t Hc Hn Hs Ho s e q face D Q), U.
  rewrite is_new_true; [|exact (reachable_inv (exec_reachable c f now e0 evs))|exact N]. cbn [andb].
  assert (B : back 1 (c_lsaprefix c ++ site ++ [type_comp t]) = Some (type_comp t)) by (rewrite app_assoc; apply back1_snoc).
  rewrite andthen_fst. cbn [emit fst]. set (v := c_lsaprefix c ++ site ++ [type_comp t]) in *.
  assert (L : (match get v (s_high s) with Some h => h | None => 0 end <= q)%N) by exact (@newest_le c site t f now e0 evs q W). left. exists (s_nfid s), 0%N.
  exact (@express_first s v t q face B (proj2 Q) L).
Qed.

(** In the example run r2's Name LSA 5 is asked for; the fetch times out and it is asked for again. *)
Example C72_example :
  let u := syncX "r2" TName in let s k := fst (exec (confX HOff) None 0 envX (firstn k evsF)) in
  sought (s 1%nat) u 5 (7200 * SEC) /\ fetched u (snd (exec (confX HOff) None 0 envX (firstn 1 evsF))) = [5]%N /\
  sought (fst (step (confX HOff) (s 1%nat) (envX, EFetchErr 0 true))) u 5 (7200 * SEC) /\
  In (OFetch (u ++ [number_comp 5]) 0)
     (snd (exec (confX HOff) None 0 envX (firstn 1 evsF ++ [(envX, EFetchErr 0 true); (envX, EFire 1)]))).
Proof.
  cbv zeta. split; [left; exists 0%nat, 0%N; vm_compute; reflexivity|]. split; [vm_compute; reflexivity|].
  split; [right; exists 1%nat, 0, 1%N; vm_compute; reflexivity|]. vm_compute. repeat (first [left; reflexivity|right]).
Qed.

(** ** C73 *)

Lemma stored_find s k : invS None s -> stored s k = find_lsa k s.
Proof.
  intros I. unfold stored. destruct (find _ (contents s)) as [l|] eqn:E.
  - apply find_some in E. destruct E as [E1 E2]. apply (proj1 (eqb_eq _ _)) in E2. subst k. symmetry. now apply (holds_find l I).
  - destruct (find_lsa k s) as [l|] eqn:F; [|reflexivity]. pose proof (find_key I F) as K. rewrite <- K in F. apply (holds_find l I) in F.
    pose proof (find_none _ _ E l F) as X. cbv beta in X. rewrite K, eqb_refl in X. discriminate.
Qed.

Lemma notes_rel k o : notes k (filter rel o) = notes k o.
Proof. induction o as [|x o IH]; [reflexivity|]. unfold notes in *. destruct x; cbn [filter rel]; try rewrite IH; try exact IH; reflexivity. Qed.

Lemma of_int_whole z : - ((- of_int z) / UNIT) = z.
Proof. unfold of_int. rewrite <- Z.mul_opp_l, Z.div_mul; [lia|]. unfold UNIT. apply Z.pow_nonzero; lia. Qed.
Lemma diff_eps_refl x : diff_eps x x = true.
Proof. unfold diff_eps. rewrite Z.sub_diag. apply Z.ltb_lt. unfold EPS. apply Z.pow_pos_nonneg; lia. Qed.
Lemma adl_eqb_refl a : whole (BAdj a) -> adl_eqb a a = true.
Proof.
  intros W. unfold adl_eqb. rewrite Nat.eqb_refl. cbn [andb]. apply forallb_forall. intros x H. apply existsb_exists. exists x. split; [exact H|].
  destruct (W x H) as [z Ez]. unfold adj_eqb. rewrite !link_cost_eq. rewrite !eqb_refl, Ez, of_int_whole. apply diff_eps_refl.
Qed.
Lemma angles_eqb_refl a : angles_eqb a a = true.
Proof. induction a as [|x a IH]; [reflexivity|]. cbn [angles_eqb]. now rewrite diff_eps_refl, IH. Qed.

Lemma names_diff_nil x : length x = O -> x = ([] : npl).
Proof. now destruct x. Qed.

Lemma offer_reported k l o : (forall o', o = Some o' -> l_key o' = l_key l) -> k = l_key l ->
  reported o (Some (offer o l)) (notes k (offer_outs o l)).
Proof.
  intros Ho ->. unfold offer, offer_outs. destruct o as [o|].
  2: { unfold notes. cbn [filter]. rewrite eqb_refl. constructor. }
  specialize (Ho _ eq_refl). assert (Ht : body_type (l_body o) = body_type (l_body l)) by (injection Ho; auto).
  destruct (N.ltb_spec (l_seq o) (l_seq l)) as [L|L]; [|now constructor].
  unfold upd_notify. destruct (l_body o) as [ao|ro an|no] eqn:Eo, (l_body l) as [al|rl anl|nl] eqn:El; try discriminate Ht; cbn [update_body].
  - destruct (adl_eqb ao al) eqn:E; cbn [notes filter].
    + apply rep_same. unfold merged. rewrite Eo, El. cbn [update_body]. now rewrite E.
    + rewrite eqb_refl. apply rep_content; unfold merged, l_type; cbn [l_body l_seq l_origin]; rewrite ?Eo, ?El; cbn [update_body]; rewrite ?E; cbn [fst snd body_type].
      * discriminate.
      * reflexivity.
      * exact L.
      * intros W X. injection X as ->. rewrite adl_eqb_refl in E by exact W. discriminate.
      * reflexivity.
  - destruct (diff_eps ro rl && angles_eqb an anl)%bool eqn:E; cbn [notes filter].
    + apply rep_same. unfold merged. rewrite Eo, El. cbn [update_body]. now rewrite E.
    + rewrite eqb_refl. apply rep_content; unfold merged, l_type; cbn [l_body l_seq l_origin]; rewrite ?Eo, ?El; cbn [update_body]; rewrite ?E; cbn [fst snd body_type].
      * discriminate.
      * reflexivity.
      * exact L.
      * intros W X. injection X as -> ->. rewrite diff_eps_refl, angles_eqb_refl in E. discriminate.
      * reflexivity.
  - destruct (update_name no nl) as [[[u r] ad] re] eqn:E.
    assert (Eu : u = negb (Nat.eqb (length ad) 0) || negb (Nat.eqb (length re) 0)).
    { unfold update_name in E. now injection E as <- _ <- <-. }
    assert (Ea : ad = names_diff nl no /\ re = names_diff no nl).
    { unfold update_name in E. now injection E as _ _ <- <-. }
    assert (M : l_body (merged o l) = BName r). { unfold merged. rewrite Eo, El. cbn [update_body]. now rewrite E. }
    pose proof (update_name_keys no nl) as K. rewrite E in K. cbn [fst snd] in K.
    destruct u; cbn [notes filter].
    + rewrite eqb_refl. apply rep_names.
      * unfold l_type. now rewrite M.
      * reflexivity.
      * exact L.
      * symmetry in Eu. apply Bool.orb_true_iff in Eu. destruct Eu as [Eu|Eu]; [left|right]; intros ->; discriminate Eu.
      * intros p. unfold advertises. rewrite M, Eo. cbn [body_names]. rewrite K. rewrite (proj1 Ea). apply keys_names_diff.
      * intros p. unfold advertises. rewrite M, Eo. cbn [body_names]. rewrite K. rewrite (proj2 Ea). apply keys_names_diff.
    + apply rep_same. rewrite M, Eo. f_equal. symmetry in Eu. apply Bool.orb_false_iff in Eu. destruct Eu as [E1 E2].
      apply Bool.negb_false_iff, Nat.eqb_eq in E1. apply Bool.negb_false_iff, Nat.eqb_eq in E2.
      apply names_diff_nil in E1, E2. destruct Ea as [A1 A2]. unfold update_name in E. rewrite <- A1, <- A2, E1, E2 in E. cbn in E. congruence.
Qed.

Lemma offer_other k l o : k <> l_key l -> notes k (offer_outs o l) = [].
Proof.
  intros N. assert (X : eqb (l_key l) k = false). { apply not_true_is_false. intros E. apply (proj1 (eqb_eq _ _)) in E. congruence. }
  unfold offer_outs, upd_notify. destruct o as [o|]; [|unfold notes; cbn [filter]; now rewrite X].
  destruct (_ <? _)%N; [|reflexivity]. destruct (update_body _ _) as [[[u b] ad] re]. destruct u; unfold notes; cbn [filter]; [now rewrite X|reflexivity].
Qed.

Lemma same_reported (o : option lsa) : reported o o [].
Proof. destruct o; now constructor. Qed.

Lemma eff_reported c s x s' o k : invS None s -> eff c s x s' o -> reported (find_lsa k s) (find_lsa k s') (notes k o).
Proof.
  intros I H. assert (Of : forall l, offered s l s' -> reported (find_lsa k s) (find_lsa k s') (notes k (offer_outs (find_lsa (l_key l) s) l))).
  { intros l F. rewrite (F k). destruct (eq_dec k (l_key l)) as [->|N].
    - rewrite eqb_refl. apply offer_reported; [|reflexivity]. intros o' E. exact (find_key I E).
    - rewrite offer_other by exact N. destruct (eqb k (l_key l)) eqn:E; [apply (proj1 (eqb_eq _ _)) in E; contradiction|apply same_reported]. }
  assert (Gone : forall l kk, find_lsa kk s = Some l -> (forall k, find_lsa k s' = if eqb k kk then None else find_lsa k s) ->
    reported (find_lsa k s) (find_lsa k s') (notes k [ONotify KRemoved l [] []])).
  { intros l kk F G. rewrite (G k). pose proof (find_key I F) as K. unfold notes. cbn [filter]. rewrite K. destruct (eq_dec k kk) as [->|N].
    - rewrite !eqb_refl, F. constructor.
    - destruct (eqb k kk) eqn:E; [apply (proj1 (eqb_eq _ _)) in E; contradiction|].
      destruct (eqb kk k) eqn:E2; [apply (proj1 (eqb_eq _ _)) in E2; congruence|apply same_reported]. }
  destruct H as [Hf _|fid f cq q origin ct t l _ _ _ _ _ _ _ _ _ _ F _|t q0 b _ Hb _ _ _ Hq F|l tid _ Hl _ Hf _|l tid _ Hl _ Hf _|l tid _ Hl _ Hf _].
  - rewrite Hf. apply same_reported.
  - now apply Of.
  - unfold notes. rewrite !filter_app. cbn [filter]. specialize (Of _ F).
    assert (E : filter (fun o => match o with ONotify _ l _ _ => eqb (l_key l) k | _ => false end) (if publishes (c_hyp c) t then [OPublish t (q0 + 1)] else []) = []) by (destruct (publishes _ _); reflexivity).
    rewrite E. cbn [app]. assert (Ek : forall q z, l_key (own c t q z b) = (c_self c, t)) by (intros q z; unfold l_key, l_type; cbn [own l_origin l_body]; now rewrite Hb).
    rewrite Ek in Of. exact Of.
  - rewrite (Hf k). destruct (eqb k (l_key l)) eqn:E; [|apply same_reported]. apply (proj1 (eqb_eq _ _)) in E. subst k. rewrite Hl. now constructor.
  - now apply (Gone l (l_key l)).
  - now apply (Gone l (c_self c, TAdj)).
Qed.

(** Every event reports, for every router and type, exactly what it did to the stored LSA. *)
Theorem C73_reported c s x k : reachable c s ->
  reported (stored s k) (stored (fst (step c s x)) k) (notes k (snd (step c s x))).
Proof.
  intros R. pose proof (reachable_inv R) as I. rewrite !stored_find; [|exact (reachable_inv (reachable_step x R))|exact I].
  rewrite <- notes_rel. apply (@eff_reported c s x); [exact I|]. now apply step_eff.
Qed.

Lemma build_fresh c e t s k : invS None s -> find_lsa (c_self c, t) s = None ->
  exists l, l_key l = (c_self c, t) /\
    find_lsa k (fst (build c e t s)) = (if eqb k (c_self c, t) then Some l else find_lsa k s) /\
    notes k (snd (build c e t s)) = if eqb k (c_self c, t) then [ONotify KInstalled l [] []] else [].
Proof.
  intros I F. unfold build. set (l := own _ _ _ _ _). assert (K : l_key l = (c_self c, t)) by apply own_key. exists l. split; [exact K|].
  rewrite build_find, build_outs by exact I. rewrite K, F. split; [reflexivity|]. cbv zeta. unfold notes. rewrite !filter_app.
  match goal with |- _ ++ ?x ++ _ = _ => assert (E : x = []) by (destruct (publishes _ _); reflexivity); rewrite E; clear E end.
  cbn [filter app]. rewrite K. destruct (eq_dec k (c_self c, t)) as [->|N]; [now rewrite eqb_refl|].
  destruct (eqb k (c_self c, t)) eqn:E1; [apply (proj1 (eqb_eq _ _)) in E1; contradiction|].
  destruct (eqb (c_self c, t) k) eqn:E2; [apply (proj1 (eqb_eq _ _)) in E2; congruence|reflexivity].
Qed.

(** So do the LSAs built at start-up. *)
Theorem C73_start c f now e0 k :
  reported None (stored (fst (init c f now e0)) k) (notes k (snd (init c f now e0))).
Proof.
  rewrite stored_find by apply invS_init.
  assert (I0 : invS None (St (seqs_from_file c f) [] [] 0 [] 0 false 0 None [] [] 0 [] [] now false)).
  { constructor; cbn; try (intros; discriminate). constructor. }
  unfold init. set (s0 := St _ _ _ _ _ _ _ _ _ _ _ _ _ _ _ _) in *. rewrite andthen_fst, andthen_snd.
  unfold notes. rewrite filter_app. fold (notes k (snd (build_name c e0 s0))). rewrite build_name_build.
  destruct (@build_fresh c e0 TName s0 k I0 eq_refl) as (l1 & K1 & F1 & N1).
  assert (X0 : invX s0) by (split; [exact I0|discriminate]).
  assert (I1 : invS None (fst (build c e0 TName s0))) by exact (proj1 (proj1 (@quietX_build c (e_sys e0) e0 TName eq_refl s0 X0))).
  set (r1 := build c e0 TName s0) in *. change (find_lsa k s0) with (@None lsa) in F1. rewrite N1.
  destruct (eqb (c_hyp c) HOff).
  { cbn [ret fst snd filter]. rewrite app_nil_r, F1. destruct (eqb k _); constructor. }
  fold (notes k (snd (build_coord c e0 (fst r1)))). rewrite build_coord_build.
  assert (Fc : find_lsa (c_self c, TCoord) (fst r1) = None).
  { destruct (@build_fresh c e0 TName s0 (c_self c, TCoord) I0 eq_refl) as (l & _ & F & _). fold r1 in F. rewrite F.
    destruct (eqb (c_self c, TCoord) (c_self c, TName)) eqn:E; [apply (proj1 (eqb_eq _ _)) in E; discriminate|reflexivity]. }
  destruct (@build_fresh c e0 TCoord (fst r1) k I1 Fc) as (l2 & K2 & F2 & N2). rewrite F2, N2, F1.
  destruct (eqb k (c_self c, TCoord)) eqn:E1.
  - apply (proj1 (eqb_eq _ _)) in E1. subst k.
    destruct (eqb (c_self c, TCoord) (c_self c, TName)) eqn:E; [apply (proj1 (eqb_eq _ _)) in E; discriminate|constructor].
  - rewrite app_nil_r. destruct (eqb k _); constructor.
Qed.

(** The report of a repeated Adjacency LSA with a cost that is not a whole number is spurious: without
    the condition on the costs [C73_reported] would be false. *)
Definition fracX (q : N) : lsa := Lsa farX q (T0 + 3600 * SEC) (BAdj [Adj selfX EmptyString (UNIT * 3 / 2) SActive 0 0]).
Definition evsFrac : list (env * ev) :=
  [(envX, ESync (syncX "r2" TAdj) 5 300); (envX, EFetchDone 0 (Some (fracX 5))); (envX, ESync (syncX "r2" TAdj) 6 300)].
Theorem C73_fractional_refuted :
  let c := confX HOff in let s := fst (exec c None 0 envX evsFrac) in let r := step c s (envX, EFetchDone 1 (Some (fracX 6))) in
  reachable c s /\ stored s (farX, TAdj) = Some (fracX 5) /\ stored (fst r) (farX, TAdj) = Some (fracX 6) /\
  l_body (fracX 5) = l_body (fracX 6) /\ notes (farX, TAdj) (snd r) = [ONotify KUpdated (fracX 6) [] []].
Proof.
  cbv zeta. split; [unfold reachable; eauto|]. split; [vm_compute; reflexivity|]. split; [vm_compute; reflexivity|].
  split; [reflexivity|]. vm_compute. reflexivity.
Qed.

(** In the example run r2's Name LSA 6 adds a prefix to those of LSA 5. *)
Example C73_example :
  let c := confX HOff in let r k := step c (fst (exec c None 0 envX (firstn k evsX))) (nth k evsX (envX, ETick 0)) in
  notes (farX, TName) (snd (r 1%nat)) = [ONotify KInstalled (nlsaX 5 [(pX, 7)]) [] []] /\
  exists l, notes (farX, TName) (snd (r 3%nat)) = [ONotify KUpdated l [(p2X, 1)] []].
Proof. cbv zeta. split; [vm_compute; reflexivity|]. eexists. vm_compute. reflexivity. Qed.

Print Assumptions C71_one_timer.
Print Assumptions C71_renewed.
Print Assumptions C71_unchanged.
Print Assumptions C71_stays.
Print Assumptions C72_retried.
Print Assumptions C72_resent.
Print Assumptions C72_kept.
Print Assumptions C72_until.
Print Assumptions C72_started.
Print Assumptions C73_reported.
Print Assumptions C73_start.
Print Assumptions C73_fractional_refuted.
