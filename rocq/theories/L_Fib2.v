(** Bookkeeping of the commands that await a response. *)
From Verif Require Import Base M_Nexthop L_Nexthop M_Adj M_Fib S_Fib L_Fib.
Open Scope Z_scope.

Definition rparams (r : rcmd) (id : nat) : fout := FReg id (rc_name r) (rc_face r) (rc_cost r) (rc_ttl r) (rc_flags r).
Definition sparams (r : scmd) (id : nat) : fout := FStrategy id (sc_name r) (sc_strategy r).

Definition wfid (s : fib) : Prop :=
  forall id, (f_next s <= id)%nat -> get id (f_cmds s) = None /\ get id (f_scmds s) = None.

(** From [s] to [s'], with the commands [o], all of them attempt [k]. *)
Definition grow (k : N) (s s' : fib) (o : list fout) : Prop :=
  (f_next s <= f_next s')%nat /\
  (forall id, (id < f_next s)%nat -> get id (f_cmds s') = get id (f_cmds s) /\ get id (f_scmds s') = get id (f_scmds s)) /\
  (forall id, (f_next s <= id)%nat -> (id < f_next s')%nat ->
     (exists r, get id (f_cmds s') = Some r /\ get id (f_scmds s') = None /\ In (rparams r id) o /\ rc_times r = k) \/
     (exists r, get id (f_scmds s') = Some r /\ get id (f_cmds s') = None /\ In (sparams r id) o /\ sc_count r = k)) /\
  wfid s' /\
  (forall x, In x o ->
     match x with
     | FReg id n f cost ttl flags => (f_next s <= id)%nat /\ (id < f_next s')%nat /\
         exists u, get id (f_cmds s') = Some (RCmd n f cost ttl flags u k)
     | FStrategy id n st => (f_next s <= id)%nat /\ (id < f_next s')%nat /\ get id (f_scmds s') = Some (SCmd n st k)
     | _ => True
     end).

Lemma grow_same k s s' o : wfid s -> f_cmds s' = f_cmds s -> f_scmds s' = f_scmds s -> f_next s' = f_next s ->
  (forall x, In x o -> match x with FReg _ _ _ _ _ _ | FStrategy _ _ _ => False | _ => True end) -> grow k s s' o.
Proof. intros W A B C D. unfold grow, wfid in *. rewrite A, B, C. split; [lia|]. split; [auto|]. split; [intros; lia|].
  split; [exact W|]. intros x Hx. specialize (D x Hx). destruct x; tauto. Qed.

Lemma grow_trans k s1 s2 s3 o1 o2 : grow k s1 s2 o1 -> grow k s2 s3 o2 -> grow k s1 s3 (o1 ++ o2).
Proof. intros (A1 & A2 & A3 & A4 & A5) (B1 & B2 & B3 & B4 & B5). split; [lia|]. split.
  { intros id H. destruct (A2 id H), (B2 id ltac:(lia)). split; congruence. }
  split.
  { intros id H H'. destruct (Nat.lt_ge_cases id (f_next s2)) as [L|L].
    - destruct (B2 id L) as [E1 E2]. rewrite E1, E2. destruct (A3 id H L) as [(r & R)|(r & R)]; [left|right]; exists r;
        rewrite in_app_iff; tauto.
    - destruct (B3 id L H') as [(r & R)|(r & R)]; [left|right]; exists r; rewrite in_app_iff; tauto. }
  split; [exact B4|]. intros x Hx. apply in_app_or in Hx as [Hx|Hx].
  - specialize (A5 x Hx). destruct x; try exact I.
    + destruct A5 as (L1 & L2 & u & E). split; [exact L1|]. split; [lia|]. exists u. destruct (B2 id L2) as [-> _]. exact E.
    + destruct A5 as (L1 & L2 & E). split; [exact L1|]. split; [lia|]. destruct (B2 id L2) as [_ ->]. exact E.
  - specialize (B5 x Hx). destruct x; try exact I.
    + destruct B5 as (L1 & L2 & E). split; [lia|]. split; [exact L2|exact E].
    + destruct B5 as (L1 & L2 & E). split; [lia|]. split; [exact L2|exact E]. Qed.

Lemma grow_wfid k s s' o : grow k s s' o -> wfid s'.
Proof. intros H. apply H. Qed.

Lemma register_grow n u cost ttl flags k s : wfid s ->
  grow k s (fst (register n u cost ttl flags k s)) (snd (register n u cost ttl flags k s)).
Proof. intros W. unfold register. destruct (0 <? get_face_id u (f_adl s))%N.
  2:{ apply grow_same; auto. intros x []. }
  cbn [fst snd]. unfold grow, wfid. cbn [f_next f_cmds f_scmds wf_cmds]. split; [lia|]. split; [|split; [|split]].
  - intros id H. rewrite get_set_ne by lia. auto.
  - intros id H H'. replace id with (f_next s) by lia. left. eexists. rewrite get_set_eq. split; [reflexivity|].
    destruct (W (f_next s)) as [_ ->]; [lia|]. split; [reflexivity|]. split; [now left|reflexivity].
  - intros id H. rewrite get_set_ne by lia. apply W. lia.
  - intros x [<-|[]]. split; [lia|]. split; [lia|]. exists u. apply get_set_eq. Qed.

Lemma add_hops_grow c n reg flags hops : forall set0 s set2 s2 o,
  add_fib_hops c n reg flags hops set0 s = (set2, s2, o) -> wfid s -> grow 0 s s2 o.
Proof. induction hops as [|h hops IH]; intros set0 s set2 s2 o; cbn [add_fib_hops].
  - intros [= <- <- <-] W. apply grow_same; auto. intros x [].
  - intros E W. destruct reg.
    + pose proof (@register_grow n (nh_uri h) (adj_int h) (fib_ttl c) flags 0%N s W) as R.
      destruct (register n (nh_uri h) (adj_int h) (fib_ttl c) flags 0 s) as [s1 o1]. cbn [fst snd] in *.
      destruct (add_fib_hops c n true flags hops (nhl_addu h set0) s1) as [[set3 s3] o3] eqn:E3.
      injection E as <- <- <-. apply grow_trans with s1; [exact R|]. eapply IH; [exact E3|]. eapply grow_wfid; eauto.
    + destruct (add_fib_hops c n false flags hops (nhl_addu h set0) s) as [[set3 s3] o3] eqn:E3.
      injection E as <- <- <-. eapply IH; eassumption. Qed.

Lemma refresh_hops_grow c n flags hops : forall s, wfid s ->
  grow 0 s (fst (refresh_hops c n flags hops s)) (snd (refresh_hops c n flags hops s)).
Proof. induction hops as [|h hops IH]; intros s W; cbn [refresh_hops].
  - apply grow_same; auto. intros x [].
  - pose proof (@register_grow n (nh_uri h) (adj_int h) (fib_ttl c) flags 0%N s W) as R.
    destruct (register n (nh_uri h) (adj_int h) (fib_ttl c) flags 0 s) as [s1 o1]. cbn [fst snd] in *.
    specialize (IH s1 (@grow_wfid _ _ _ _ R)). destruct (refresh_hops c n flags hops s1) as [s2 o2]. cbn [fst snd] in *.
    now apply grow_trans with s1. Qed.

Lemma grow_ext k s s1 s2 o o' : grow k s s1 o -> f_cmds s2 = f_cmds s1 -> f_scmds s2 = f_scmds s1 -> f_next s2 = f_next s1 ->
  (forall x, In x o' -> match x with FReg _ _ _ _ _ _ | FStrategy _ _ _ => False | _ => True end) -> grow k s s2 (o ++ o').
Proof. intros G A B C D. apply grow_trans with s1; [exact G|]. apply grow_same; auto. eapply grow_wfid; eauto. Qed.

Lemma no_cmd_unregs n l us x : In x (unregs n l us) -> match x with FReg _ _ _ _ _ _ | FStrategy _ _ _ => False | _ => True end.
Proof. intros H. apply in_unregs_iff in H as (u & _ & _ & ->). exact I. Qed.

Lemma remove_grow n s : wfid s -> grow 0 s (fst (fib_remove n s)) (snd (fib_remove n s)).
Proof. intros W. unfold fib_remove. destruct (get n (f_tab s)) as [e|]; [|apply grow_same; auto; intros x []].
  destruct (not_neighbor n s); [|apply grow_same; auto; intros x []]. apply grow_same; auto.
  cbn [snd]. rewrite unregisters. apply no_cmd_unregs. Qed.

(** The state in which the response has been taken off the list of awaited responses. *)
Definition answered (s : fib) (e : fev) : fib :=
  match e with
  | FvRegOk id | FvRegFail id => wf_cmds (del id (f_cmds s)) (f_next s) s
  | FvStratOk id | FvStratFail id => wf_scmds (del id (f_scmds s)) (f_next s) s
  | _ => s
  end.
(** The retry counter of the commands sent. *)
Definition tries (s : fib) (e : fev) : N :=
  match e with
  | FvRegFail id => match get id (f_cmds s) with Some r => rc_times r + 1 | None => 0 end
  | FvStratFail id => match get id (f_scmds s) with Some r => sc_count r + 1 | None => 0 end
  | _ => 0
  end%N.

Lemma wfid_answered s e : wfid s -> wfid (answered s e).
Proof. intros W. destruct e; try exact W; intros i Hi; cbn in *; rewrite ?get_del; destruct (W i Hi); split; auto;
  destruct (eqb i id); auto. Qed.

Lemma del_none id (m : amap nat rcmd) : get id m = None -> forall i, get i (del id m) = get i m.
Proof. intros H i. rewrite get_del. eqb_case i id; auto. Qed.

Lemma fstep_grow c s e : wfid s -> grow (tries s e) (answered s e) (fst (fstep c s e)) (snd (fstep c s e)).
Proof. intros W. pose proof (@wfid_answered s e W) as Wa. destruct e; cbn [fstep answered tries].
  - unfold fib_update.
    assert (R : forall n s, wfid s -> grow 0 s (fst (fib_remove n s)) (snd (fib_remove n s))) by apply remove_grow.
    destruct (get n (f_tab s)) as [e|] eqn:E, (hops_to_add c hops) as [|x new] eqn:En; try (apply R; exact W).
    + destruct (add_fib_hops c n (not_neighbor n s) flags (x :: new) (fe_hops e) s) as [[set2 s2] o] eqn:E2.
      cbn [fst snd]. pose proof (@add_hops_grow _ _ _ _ _ _ _ _ _ _ E2 W) as G.
      destruct (ensure_refresh_spec c n flags
        (wf_tab (set n (FEnt (fold_left (fun acc h => nhl_remove h acc) (uri_diff set2 (x :: new)) set2) (fe_refresh e)
           (fe_seq e + 1)) (f_tab s2)) s2)) as (_ & _ & A & B & C & _).
      apply (@grow_ext _ _ _ _ _ _ G A B C). destruct (not_neighbor n s); [|intros y []]. rewrite unregisters. apply no_cmd_unregs.
    + destruct (add_fib_hops c n (not_neighbor n s) flags (x :: new) [] s) as [[set2 s2] o] eqn:E2.
      cbn [fst snd]. pose proof (@add_hops_grow _ _ _ _ _ _ _ _ _ _ E2 W) as G.
      destruct (ensure_refresh_spec c n flags (wf_tab (set n (FEnt set2 None 1) (f_tab s2)) s2)) as (_ & _ & A & B & C & _).
      rewrite <- (app_nil_r o). apply (@grow_ext _ _ _ _ _ _ G A B C). intros y [].
  - now apply remove_grow.
  - now apply register_grow.
  - unfold set_strategy. cbn [fst snd]. unfold grow, wfid. cbn [f_next f_cmds f_scmds wf_scmds].
    split; [lia|]. split; [|split; [|split]].
    + intros id H. rewrite get_set_ne by lia. auto.
    + intros id H H'. replace id with (f_next s) by lia. right. eexists. rewrite get_set_eq. split; [reflexivity|].
      destruct (W (f_next s)) as [-> _]; [lia|]. split; [reflexivity|]. split; [now left|reflexivity].
    + intros id H. rewrite get_set_ne by lia. apply W. lia.
    + intros x [<-|[]]. split; [lia|]. split; [lia|]. apply get_set_eq.
  - unfold fib_refresh. destruct (get n (f_tab s)) as [e|]; [|apply grow_same; auto; intros x []].
    destruct (fe_refresh e) as [[due fl]|]; [|apply grow_same; auto; intros x []].
    destruct (due <=? f_now s); [|apply grow_same; auto; intros x []].
    pose proof (@refresh_hops_grow c n fl (fe_hops e) s W) as G. destruct (refresh_hops c n fl (fe_hops e) s) as [s1 o].
    cbn [fst snd] in *. rewrite <- (app_nil_r o). apply (@grow_ext _ _ _ _ _ _ G); try reflexivity. intros x [].
  - unfold on_reg_ok. destruct (get id (f_cmds s)) as [r|] eqn:E.
    + apply grow_same; try reflexivity; [exact Wa|]. intros x [<-|[]]. exact I.
    + cbn [fst snd]. unfold grow. cbn [f_next f_cmds f_scmds wf_cmds]. split; [lia|]. split.
      { intros i H. now rewrite del_none. } split; [intros; lia|]. split; [exact W|intros x []].
  - unfold on_reg_fail. destruct (get id (f_cmds s)) as [r|] eqn:E.
    + destruct (rc_times r <? 3)%N.
      * now apply register_grow.
      * apply grow_same; try reflexivity; [exact Wa|intros x []].
    + cbn [fst snd]. unfold grow. cbn [f_next f_cmds f_scmds wf_cmds]. split; [lia|]. split.
      { intros i H. now rewrite del_none. } split; [intros; lia|]. split; [exact W|intros x []].
  - unfold on_strat_ok. cbn [fst snd]. apply grow_same; try reflexivity; [exact Wa|intros x []].
  - unfold on_strat_fail. destruct (get id (f_scmds s)) as [r|] eqn:E.
    + set (s1 := wf_scmds (del id (f_scmds s)) (f_next s) s) in *. destruct (sc_count r <? 3)%N.
      2:{ apply grow_same; try reflexivity; [exact Wa|intros x []]. }
      cbn [answered] in Wa. fold s1 in Wa. unfold set_strategy. cbn [fst snd]. unfold grow, wfid. cbn [f_next f_cmds f_scmds wf_scmds].
      split; [lia|]. split; [|split; [|split]].
      * intros i H. rewrite get_set_ne by lia. auto.
      * intros i H H'. replace i with (f_next s1) by lia. right. eexists. rewrite get_set_eq. split; [reflexivity|].
        destruct (Wa (f_next s1)) as [-> _]; [lia|]. split; [reflexivity|]. split; [now left|reflexivity].
      * intros i H. rewrite get_set_ne by lia. apply Wa. lia.
      * intros x [<-|[]]. split; [lia|]. split; [lia|]. apply get_set_eq.
    + cbn [fst snd]. unfold grow. cbn [f_next f_cmds f_scmds wf_scmds]. split; [lia|]. split.
      { intros i H. split; [reflexivity|]. rewrite get_del. eqb_case i id; auto. }
      split; [intros; lia|]. split; [exact W|intros x []].
  - apply grow_same; auto. intros x [].
  - apply grow_same; auto. intros x []. Qed.

Lemma fstate_wfid c l t0 evs : wfid (fstate c l t0 evs).
Proof. unfold fstate, fexec. apply run_inv; [intros id _; split; reflexivity|]. intros s e W.
  eapply grow_wfid, (@fstep_grow c _ e W). Qed.

(** ** Attempt numbers *)
Lemma ftrace_snoc c evs e : forall s, ftrace c s (evs ++ [e]) =
  ftrace c s evs ++ [(e, snd (fstep c (fst (run (fstep c) s evs)) e))].
Proof. induction evs as [|x evs IH]; intros s; simpl.
  - now destruct (fstep c s e).
  - destruct (fstep c s x) as [s' o]. rewrite IH. simpl. destruct (run (fstep c) s' evs). reflexivity. Qed.

Lemma attempts_snoc c l t0 evs e :
  attempts c l t0 (evs ++ [e]) = attempts1 (attempts c l t0 evs) (e, fsent c l t0 evs e).
Proof. unfold attempts. rewrite ftrace_snoc, fold_left_app. reflexivity. Qed.

Definition cmd_id (o : fout) : option nat :=
  match o with FReg id _ _ _ _ _ | FStrategy id _ _ => Some id | _ => None end.

Definition att1 (k : nat) (a : amap nat nat) (o : fout) : amap nat nat :=
  match o with FReg id _ _ _ _ _ | FStrategy id _ _ => set id k a | _ => a end.
Lemma att_fold k o : forall a id,
  get id (fold_left (att1 k) o a) = if in_dec (fun x y => eq_dec x y) (Some id) (map cmd_id o) then Some k else get id a.
Proof. induction o as [|x o IH]; intros a id; cbn [fold_left map]; [reflexivity|]. rewrite IH.
  destruct (in_dec (fun x0 y : option nat => eq_dec x0 y) (Some id) (map cmd_id o)) as [H|H].
  - destruct (in_dec _ (Some id) (cmd_id x :: map cmd_id o)) as [H'|H']; [reflexivity|]. exfalso. apply H'. now right.
  - destruct (in_dec _ (Some id) (cmd_id x :: map cmd_id o)) as [H'|H'].
    + destruct H' as [H'|H']; [|contradiction]. destruct x; cbn in *; try discriminate; injection H' as ->; apply get_set_eq.
    + destruct x; cbn in *; try reflexivity; rewrite get_set_ne; auto; intros ->; apply H'; now left. Qed.

Definition att_inv (s : fib) (a : amap nat nat) : Prop :=
  (forall id r, get id (f_cmds s) = Some r -> get id a = Some (S (N.to_nat (rc_times r)))) /\
  (forall id r, get id (f_scmds s) = Some r -> get id a = Some (S (N.to_nat (sc_count r)))) /\
  (forall id k, get id a = Some k -> (1 <= k <= 4)%nat /\ (id < f_next s)%nat).

Lemma answered_get s e id : (forall r, get id (f_cmds (answered s e)) = Some r -> get id (f_cmds s) = Some r) /\
  (forall r, get id (f_scmds (answered s e)) = Some r -> get id (f_scmds s) = Some r).
Proof. destruct e; cbn [answered]; auto; cbn [f_cmds f_scmds wf_cmds wf_scmds]; split; auto; intros r; rewrite get_del;
  destruct (eqb id id0); auto; discriminate. Qed.
Lemma answered_next s e : f_next (answered s e) = f_next s.
Proof. now destruct e. Qed.

Lemma tries_sent c s e : snd (fstep c s e) <> [] -> (forall id r, get id (f_cmds s) = Some r -> (rc_times r <= 3)%N) ->
  (forall id r, get id (f_scmds s) = Some r -> (sc_count r <= 3)%N) -> (tries s e <= 3)%N.
Proof. intros H R S. destruct e; cbn [tries]; try lia.
  - cbn [fstep] in H. unfold on_reg_fail in H. destruct (get id (f_cmds s)) as [r|]; [|lia].
    destruct (N.ltb_spec (rc_times r) 3); [lia|]. now destruct H.
  - cbn [fstep] in H. unfold on_strat_fail in H. destruct (get id (f_scmds s)) as [r|]; [|lia].
    destruct (N.ltb_spec (sc_count r) 3); [lia|]. now destruct H. Qed.

Lemma att_step c s a e : wfid s -> att_inv s a -> att_inv (fst (fstep c s e)) (attempts1 a (e, snd (fstep c s e))).
Proof. intros W (I1 & I2 & I3). pose proof (@fstep_grow c s e W) as (G1 & G2 & G3 & G4 & G5).
  rewrite answered_next in *.
  set (k := match e with FvRegFail id | FvStratFail id => match get id a with Some k => S k | None => 1%nat end | _ => 1%nat end).
  assert (Ea : forall id, get id (attempts1 a (e, snd (fstep c s e))) =
    if in_dec (fun x y => eq_dec x y) (Some id) (map cmd_id (snd (fstep c s e))) then Some k else get id a).
  { intros id. exact (att_fold k (snd (fstep c s e)) a id). }
  assert (R3 : (forall id r, get id (f_cmds s) = Some r -> (rc_times r <= 3)%N) /\
               (forall id r, get id (f_scmds s) = Some r -> (sc_count r <= 3)%N)).
  { split; intros id r H; [apply I1 in H|apply I2 in H]; apply I3 in H; lia. }
  assert (Hk : snd (fstep c s e) <> [] -> k = S (N.to_nat (tries s e))).
  { intros Ho. unfold k. destruct e; cbn [tries]; try reflexivity.
    - cbn [fstep] in Ho. unfold on_reg_fail in Ho. destruct (get id (f_cmds s)) as [r|] eqn:E; [|now destruct Ho].
      rewrite (I1 id r E). lia.
    - cbn [fstep] in Ho. unfold on_strat_fail in Ho. destruct (get id (f_scmds s)) as [r|] eqn:E; [|now destruct Ho].
      rewrite (I2 id r E). lia. }
  assert (Old : forall id, (id < f_next s)%nat -> get id (attempts1 a (e, snd (fstep c s e))) = get id a).
  { intros id Hid. rewrite Ea. destruct (in_dec _ _ _) as [H|H]; [|reflexivity]. exfalso.
    apply in_map_iff in H as (x & Ex & Hx). specialize (G5 x Hx). destruct x; cbn in Ex; try discriminate; injection Ex as ->; lia. }
  assert (New : forall id x, In x (snd (fstep c s e)) -> cmd_id x = Some id ->
     get id (attempts1 a (e, snd (fstep c s e))) = Some (S (N.to_nat (tries s e)))).
  { intros id x Hx Ex. rewrite Ea. destruct (in_dec _ _ _) as [H|H].
    - rewrite Hk; [reflexivity|]. intros E. rewrite E in Hx. destruct Hx.
    - exfalso. apply H. rewrite <- Ex. now apply in_map. }
  split; [|split].
  - intros id r H. destruct (Nat.lt_ge_cases id (f_next s)) as [L|L].
    + rewrite Old by exact L. destruct (G2 id L) as [E _]. rewrite E in H. apply answered_get in H. now apply I1.
    + destruct (Nat.lt_ge_cases id (f_next (fst (fstep c s e)))) as [L'|L'].
      * destruct (G3 id L L') as [(r' & A & B & C & D)|(r' & A & B & C & D)].
        -- rewrite A in H. injection H as <-. rewrite D. eapply New; [exact C|reflexivity].
        -- congruence.
      * destruct (G4 id L') as [E _]. congruence.
  - intros id r H. destruct (Nat.lt_ge_cases id (f_next s)) as [L|L].
    + rewrite Old by exact L. destruct (G2 id L) as [_ E]. rewrite E in H. apply answered_get in H. now apply I2.
    + destruct (Nat.lt_ge_cases id (f_next (fst (fstep c s e)))) as [L'|L'].
      * destruct (G3 id L L') as [(r' & A & B & C & D)|(r' & A & B & C & D)].
        -- congruence.
        -- rewrite A in H. injection H as <-. rewrite D. eapply New; [exact C|reflexivity].
      * destruct (G4 id L') as [_ E]. congruence.
  - intros id k' H. rewrite Ea in H. destruct (in_dec _ _ _) as [Hi|Hi].
    + injection H as <-. apply in_map_iff in Hi as (x & Ex & Hx).
      assert (Ho : snd (fstep c s e) <> []) by (intros E; rewrite E in Hx; destruct Hx).
      rewrite (Hk Ho). split.
      * pose proof (@tries_sent c s e Ho (proj1 R3) (proj2 R3)). lia.
      * specialize (G5 x Hx). destruct x; cbn in Ex; try discriminate; injection Ex as ->; apply G5.
    + destruct (I3 id k' H). split; [assumption|lia]. Qed.

Lemma att_all c l t0 evs : att_inv (fstate c l t0 evs) (attempts c l t0 evs).
Proof. induction evs as [|e evs IH] using rev_ind.
  - split; [|split]; intros; discriminate.
  - rewrite fstate_snoc, attempts_snoc. apply att_step; [apply fstate_wfid|exact IH]. Qed.

(** A command without a response is still awaited. *)

Lemma awaited c l t0 evs id : Forall (fun e => ~ answers id e) evs ->
  (forall n f cost ttl flags, In (FReg id n f cost ttl flags) (fouts c l t0 evs) ->
     exists u k, get id (f_cmds (fstate c l t0 evs)) = Some (RCmd n f cost ttl flags u k)) /\
  (forall n st, In (FStrategy id n st) (fouts c l t0 evs) ->
     exists k, get id (f_scmds (fstate c l t0 evs)) = Some (SCmd n st k)).
Proof. induction evs as [|e evs IH] using rev_ind; intros H; [split; intros; contradiction|].
  apply Forall_app in H as [H1 H2]. inversion H2 as [|? ? He _]; subst. destruct (IH H1) as [I1 I2]. clear IH.
  pose proof (fstate_wfid c l t0 evs) as W. rewrite fstate_snoc, fouts_snoc. unfold fsent.
  set (s := fstate c l t0 evs) in *. pose proof (@fstep_grow c s e W) as (G1 & G2 & G3 & G4 & G5). rewrite answered_next in *.
  assert (K : get id (f_cmds (answered s e)) = get id (f_cmds s) /\ get id (f_scmds (answered s e)) = get id (f_scmds s)).
  { destruct e; cbn in *; split; auto; rewrite get_del_ne; auto. }
  assert (L : forall x, x = get id (f_cmds s) -> x <> None -> (id < f_next s)%nat).
  { intros x -> Hx. destruct (Nat.lt_ge_cases id (f_next s)) as [?|L]; [assumption|]. destruct (W id L). congruence. }
  assert (L' : forall x, x = get id (f_scmds s) -> x <> None -> (id < f_next s)%nat).
  { intros x -> Hx. destruct (Nat.lt_ge_cases id (f_next s)) as [?|L0]; [assumption|]. destruct (W id L0). congruence. }
  split.
  - intros n f cost ttl flags Hi. apply in_app_or in Hi as [Hi|Hi].
    + destruct (I1 _ _ _ _ _ Hi) as (u & k & E). exists u, k.
      destruct (G2 id) as [-> _]; [eapply L; [reflexivity|congruence]|]. destruct K as [-> _]. exact E.
    + destruct (G5 _ Hi) as (_ & _ & u & E). eauto.
  - intros n st Hi. apply in_app_or in Hi as [Hi|Hi].
    + destruct (I2 _ _ Hi) as (k & E). exists k.
      destruct (G2 id) as [_ ->]; [eapply L'; [reflexivity|congruence]|]. destruct K as [_ ->]. exact E.
    + destruct (G5 _ Hi) as (_ & _ & E). eauto. Qed.
