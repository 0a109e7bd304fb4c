(** Lemmas for C87: the clock of the router, and its FIB commands with the time at which they are sent. *)
From Verif Require Import Base M_Nexthop L_Nexthop M_Tlv M_Adj M_Lsa M_Lsdb L_Lsdb M_LinkState M_Hyperbolic M_RoutingTable
  M_Npt M_Fib S_Fib L_Fib M_Prefix M_Hello L_Hello M_Router S_Router S_Live L_Router L_Router5 L_Router6 P_Fib4.
Open Scope Z_scope.
Set Implicit Arguments.

(** *** Only the passing of time changes the clock *)

Definition sn (a : act) : Prop := forall s, s_now (fst (a s)) = s_now s.
Lemma sn_seq f g : sn f -> sn g -> sn (f ;; g).
Proof. intros F G s. rewrite andthen_fst, G. apply F. Qed.
Lemma sn_ret : sn ret. Proof. now intros s. Qed.
Lemma sn_emit o : sn (emit o). Proof. now intros s. Qed.
Lemma sn_upd f : (forall s, s_now (f s) = s_now s) -> sn (upd f). Proof. intros H s. apply H. Qed.
Lemma sn_throw : sn throw. Proof. now intros s. Qed.
Lemma sn_ub : sn ub. Proof. now intros s. Qed.
Lemma sn_cancel t s : s_now (cancel t s) = s_now s. Proof. now destruct t. Qed.
Lemma sn_sched_exp oid d s : s_now (schedule_expiration oid d s) = s_now s.
Proof.
  unfold schedule_expiration, schedule. cbn [s_heap w_timers].
  destruct get as [o|]; [|reflexivity]. cbn [s_now w_heap]. now rewrite sn_cancel.
Qed.
Section Now.
Variable c : conf.
Lemma sn_install sys l : sn (install c sys l).
Proof.
  intros s. unfold install. destruct find_oid.
  - destruct get; [|reflexivity]. destruct N.ltb; [|reflexivity]. destruct update_body as [[[u b] x] y]. cbn [fst]. now rewrite sn_sched_exp.
  - cbn [fst]. now rewrite sn_sched_exp.
Qed.
Lemma sn_remove k : sn (remove k).
Proof. intros s. unfold remove. now destruct find_lsa. Qed.
Lemma sn_bump t : sn (bump t). Proof. now apply sn_upd. Qed.
Lemma sn_write : sn write_seqs. Proof. now intros s. Qed.
Lemma sn_publish t : sn (publish t). Proof. now intros s. Qed.
Lemma sn_build_name e : sn (build_name c e).
Proof. intros s. unfold build_name. apply (sn_seq (sn_bump TName)). apply sn_seq; [apply sn_write|]. apply sn_seq; [apply sn_publish|]. apply sn_install. Qed.
Lemma sn_build_coord e : sn (build_coord c e).
Proof.
  intros s. unfold build_coord. apply (sn_seq (sn_bump TCoord)). apply sn_seq; [apply sn_write|]. apply sn_seq; [|apply sn_install].
  destruct (eqb _ _); [apply sn_ret|apply sn_publish].
Qed.
Lemma sn_build_adj_own e : sn (build_own_adj c e).
Proof.
  intros s. unfold build_own_adj. apply (sn_seq (sn_bump TAdj)). apply sn_seq; [apply sn_write|]. apply sn_seq; [|apply sn_install].
  destruct (eqb _ _); [apply sn_ret|apply sn_publish].
Qed.
Lemma sn_schedule_build d s : s_now (schedule_build d s) = s_now s.
Proof. unfold schedule_build, schedule. cbn [s_now w_build s_btid w_timers]. now rewrite sn_cancel. Qed.
Lemma sn_build_adj e : sn (build_adj c e).
Proof.
  intros s. unfold build_adj. destruct is_buildable; [|cbn [fst]; now rewrite sn_schedule_build].
  destruct (0 <? _); [|reflexivity].
  match goal with |- s_now (fst (?f ?x)) = _ => assert (H : sn f) end.
  { apply sn_seq; [|now apply sn_upd]. destruct Nat.ltb; [apply sn_build_adj_own|apply sn_remove]. }
  now rewrite H.
Qed.
Lemma sn_sched_adj : sn (schedule_adj_build c).
Proof. intros s. unfold schedule_adj_build. destruct (eqb _ _); [reflexivity|]. cbn [fst]. now rewrite sn_schedule_build. Qed.
Lemma sn_expire sys oid : sn (expire_or_refresh c sys oid).
Proof.
  intros s. unfold expire_or_refresh. destruct get; [|reflexivity]. destruct find_oid; [|reflexivity]. destruct get; [|reflexivity].
  destruct N.eqb; [|reflexivity]. destruct (eqb _ _); [|apply sn_remove]. rewrite (sn_seq sn_write (sn_publish _)).
  now rewrite sn_sched_exp.
Qed.
Lemma note_now n q s s1 : note_high n q s = Some s1 -> s_now s1 = s_now s.
Proof. unfold note_high. destruct get; [|intros [= <-]; reflexivity]. destruct N.ltb; [intros [= <-]; reflexivity|]. destruct N.ltb; [discriminate|]. now intros [= <-]. Qed.
Lemma sn_stat f t : sn (stat_type f t). Proof. destruct t; [apply sn_emit|apply sn_ret]. Qed.
Lemma sn_express n k face d : sn (M_Lsdb.express n k face d).
Proof.
  intros s. unfold M_Lsdb.express. destruct back; [|apply sn_ub]. destruct to_number; [|apply (sn_seq (sn_emit _) sn_throw)].
  destruct note_high eqn:E; [|reflexivity]. apply note_now in E. rewrite <- E.
  apply (sn_seq (sn_emit _)). apply sn_seq; [apply sn_emit|]. apply sn_seq; [now apply sn_upd|].
  destruct back; [apply sn_stat|apply sn_ub].
Qed.
Lemma sn_after sys i l : sn (after_fetch c sys i l).
Proof.
  intros s. unfold after_fetch. destruct back; [|apply sn_ub]. destruct to_number; [|apply (sn_seq (sn_emit _) sn_throw)].
  destruct note_high eqn:E; [|reflexivity]. apply note_now in E. rewrite <- E.
  apply (sn_seq (sn_emit _)). destruct name_origin; [|apply sn_ret]. destruct back; [|apply sn_ub]. destruct comp_type; [|apply sn_ret].
  apply sn_seq; [apply sn_emit|]. intros s1. destruct is_new; [|reflexivity]. destruct l as [l|]; [|reflexivity]. destruct (eqb _ _); [apply sn_install|reflexivity].
Qed.
Lemma sn_done sys fid l : sn (fetch_done c sys fid l).
Proof.
  intros s. unfold fetch_done. destruct get; [|reflexivity].
  refine (sn_seq (sn_upd _ _) (sn_seq (sn_after _ _ _) (sn_upd _ _)) s); now intros.
Qed.
Lemma sn_err fid t : sn (fetch_err c fid t).
Proof.
  intros s. unfold fetch_err. destruct get as [f|]; [|reflexivity]. refine (sn_seq _ (sn_upd _ _) s); [|now intros].
  intros s1. unfold on_error. destruct back; [|apply sn_ub]. destruct to_number; [|apply sn_throw]. destruct andb; reflexivity.
Qed.
Lemma sn_segment fid n d : sn (segment_validated fid n d).
Proof. intros s. unfold segment_validated. now destruct get. Qed.
Lemma sn_sync e u q face : sn (on_sync c e u q face).
Proof.
  intros s. unfold on_sync. destruct update_origin as [o|]; [|reflexivity]. unfold process_update. destruct back; [|apply sn_ub].
  destruct (eqb o _).
  - destruct is_new; [|reflexivity]. destruct comp_type as [[]|]; [| | |reflexivity].
    + destruct (eqb _ _); [|reflexivity]. refine (sn_seq (sn_upd _ _) (sn_build_adj_own _) s). now intros.
    + destruct (eqb _ _); [|reflexivity]. refine (sn_seq (sn_upd _ _) (sn_build_coord _) s). now intros.
    + refine (sn_seq (sn_upd _ _) (sn_build_name _) s). now intros.
  - destruct is_new; [|reflexivity]. destruct (_ && _)%bool; [reflexivity|]. destruct (_ && _)%bool; [reflexivity|].
    apply (sn_seq (sn_emit _) (sn_express _ _ _ _)).
Qed.
Lemma sn_fifo l s : s_now (fold_left (fun s e => fifo_insert c e s) l s) = s_now s.
Proof. revert s. induction l as [|e l IH]; intros s; [reflexivity|]. cbn [fold_left]. now rewrite IH. Qed.
Lemma sn_interest i p k v : sn (M_Lsdb.process_interest c i p k v).
Proof.
  assert (St : sn (serve_stored i p)) by (intros s; unfold serve_stored; now destruct find as [[? ?]|]).
  intros s. unfold M_Lsdb.process_interest. destruct back as [cv|]; [|apply sn_ub].
  destruct (if is_version cv then _ else _) as [[n [l q]]|]; [reflexivity|].
  match goal with |- s_now (fst (?f ?x)) = _ => assert (H : sn f) end; [|apply H].
  apply sn_seq; [apply sn_emit|]. destruct name_origin as [o|]; [|exact St]. destruct (eqb o _); [|exact St].
  destruct back; [|apply sn_ub]. destruct back; [|apply sn_ub]. destruct to_number; [|apply sn_throw]. destruct comp_type; [|apply sn_ret].
  apply sn_seq; [apply sn_emit|]. intros s1. unfold interest_for_lsa. destruct find_lsa; [|reflexivity]. destruct N.eqb; [|reflexivity].
  match goal with |- s_now (fst (?f ?x)) = _ => assert (H : sn f) end; [|apply H].
  apply sn_seq; [intros s2; apply sn_fifo|]. apply sn_seq; [destruct nth_error as [[? [? ?]]|]; [apply sn_emit|apply sn_ret]|].
  apply (sn_seq (sn_emit _) (sn_emit _)).
Qed.
Lemma step_now s e v : (forall d, v <> ETick d) -> s_now (fst (step c s (e, v))) = s_now s.
Proof.
  intros V. unfold step. destruct s_dead; [reflexivity|]. destruct v; cbn [step_live]; try congruence.
  - exfalso. now apply (V d).
  - apply sn_sync.
  - unfold fire. destruct get as [[due a]|]; [|reflexivity]. cbn [t_due t_act]. destruct Z.leb; [|reflexivity].
    destruct a; try reflexivity; [now rewrite sn_expire|now rewrite sn_build_adj|now rewrite sn_express].
  - apply sn_done.
  - apply sn_err.
  - apply sn_segment.
  - destruct is_prefix; [apply sn_interest|reflexivity].
  - apply sn_build_name.
  - apply sn_sched_adj.
Qed.
Definition tick (x : pev) : bool := match x with PvDb _ _ (ETick _) => true | _ => false end.
Lemma pstep_now uri_of s x : tick x = false -> s_now (p_db (fst (pstep uri_of c s x))) = s_now (p_db s).
Proof.
  intros T. unfold pstep. destruct s_dead; [reflexivity|]. destruct x as [sys l v|sys l m w]; cbn [pstep_live].
  - destruct v; try discriminate T;
      try (match goal with |- context[step c ?a (?b, ?d)] => pose proof (@step_now a b d ltac:(discriminate)); destruct (step c a (b, d)); assumption end).
    reflexivity.
  - unfold do_cmd. destruct list_cmd as [ch p]. destruct ch.
    + pose proof (sn_build_name (Env sys (pl_info p) l) (p_db s)) as H. destruct build_name as [d o]. cbn [fst] in H.
      destruct saves; [destruct after_cmd|]; exact H.
    + destruct saves; [destruct after_cmd|]; reflexivity.
Qed.
End Now.

(** *** The FIB: routes of one prefix over one face *)

Section FibLive.
Variable c : fconf.
Notation fs := (fstep c).
Notation s' s e := (fst (fs s e)).

Lemma due_step s e : tab_ok s -> due_ok c s -> due_ok c (s' s e).
Proof.
  intros Hok D.
  assert (Rm : forall n, due_ok c (fst (fib_remove n s))).
  { intros n. destruct (remove_spec n s) as (_ & Rn & _ & R1 & R2 & R3). destruct (not_neighbor n s) eqn:Enn.
    - destruct (R2 eq_refl) as [R4 _]. intros m e1 due fl E Er. assert (Hm : m <> n) by congruence. rewrite R1 in E by exact Hm. rewrite Rn. eauto.
    - destruct (R3 eq_refl) as [R4 _]. now rewrite R4. }
  pose proof (other_tab c s e) as Ho.
  assert (Oth : match e with FvUpdate _ _ _ | FvRemove _ | FvRefresh _ => False | _ => f_now s <= f_now (s' s e) end -> due_ok c (s' s e)).
  { intros He m e1 due fl. replace (f_tab (s' s e)) with (f_tab s) by (destruct e; try contradiction; now symmetry).
    intros E Er. specialize (D m e1 due fl E Er). destruct e; try contradiction; lia. }
  assert (Rg : forall n u k ttl fl t x, f_now x = f_now s -> f_now s <= f_now (fst (register n u k ttl fl t x))).
  { intros n u k ttl fl t x Ex. destruct (proj1 (register_spec n u k ttl fl t x)) as (_ & _ & ->). lia. }
  destruct e; cbn [fstep] in *.
  - pose proof (@fib_update_spec c n hops flags s Hok) as (U1 & U2 & U3 & U4 & U5).
    destruct (hops_to_add c hops) as [|x new] eqn:En.
    { specialize (U5 eq_refl). replace (fst (fib_update c n hops flags s)) with (fst (fib_remove n s)); [apply Rm|]. now rewrite <- U5. }
    destruct (U4 ltac:(congruence)) as (e' & E1 & E2 & E3 & Er & E4).
    intros m e1 due fl Eg Eref. rewrite U2. destruct (eq_dec m n) as [->|Hm].
    + rewrite E1 in Eg. injection Eg as <-. rewrite Eref in Er. destruct (get n (f_tab s)) as [eo|] eqn:Eo.
      * destruct (fe_refresh eo) as [[d' f']|] eqn:Eeo.
        -- injection Er as -> ->. eapply D; eauto.
        -- destruct (not_neighbor n s); [|discriminate]. injection Er as -> ->. unfold refresh_time. lia.
      * destruct (not_neighbor n s); [|discriminate]. injection Er as -> ->. unfold refresh_time. lia.
    + rewrite U3 in Eg by exact Hm. eauto.
  - apply Rm.
  - apply Oth. now apply Rg.
  - apply Oth. cbn. lia.
  - destruct (refresh_spec c n s) as (_ & Rn & B & [(B1 & B2 & _)|(e & due & flags & B1 & B2 & B3 & B4 & B5)]); [now rewrite B1|].
    intros m e1 due1 fl Eg Eref. rewrite Rn. destruct (eq_dec m n) as [->|Hm].
    + rewrite B4 in Eg. injection Eg as <-. cbn [fe_refresh] in Eref. unfold refresh_at in Eref. injection Eref as <- <-. unfold refresh_time. lia.
    + rewrite B in Eg by exact Hm. eauto.
  - apply Oth. unfold on_reg_ok. destruct (get id (f_cmds s)); cbn; lia.
  - apply Oth. unfold on_reg_fail. destruct (get id (f_cmds s)); [|cbn; lia]. destruct N.ltb; [|cbn; lia]. now apply Rg.
  - apply Oth. cbn. lia.
  - apply Oth. unfold on_strat_fail. destruct (get id (f_scmds s)); [|cbn; lia]. destruct N.ltb; cbn; lia.
  - apply Oth. cbn. lia.
  - apply Oth. cbn. lia.
Qed.

Variables (names : list name) (n : name) (u : uri) (f : N).
Hypothesis Hn : ~ In n names.

Definition sent (o : list fout) : Prop := exists id cost ttl fl, In (FReg id n f cost ttl fl) o.
Record LV (s : fib) (r : lives) (reg : Prop) : Prop :=
  { v_base : base_inv names s; v_due : due_ok c s;
    v_live : reg -> In u (fib_faces s n) ->
      exists t, get (n, f) r = Some t /\ forall due, refresh_due s n = Some due -> due + 10 * FSEC <= t }.
(** The calls other than those about faces and time. *)
Definition plain_ev (e : fev) : Prop :=
  match e with
  | FvUpdate _ _ _ | FvRemove _ | FvSetStrategy _ _ | FvRefresh _ | FvStratOk _ | FvStratFail _ => True
  | FvRegister _ _ _ ttl _ => fib_ttl c <= ttl
  | _ => False
  end.
Notation after s e r := (fold_left (lives_do (f_now s)) (snd (fs s e)) r).

Lemma plain_adl s e : plain_ev e -> f_adl (s' s e) = f_adl s.
Proof.
  destruct e; try contradiction; intros _; cbn [fstep]; try reflexivity.
  - unfold fib_update. 
    assert (A : forall reg fl hs st x st2 s2 o, add_fib_hops c n0 reg fl hs st x = (st2, s2, o) -> f_adl s2 = f_adl x).
    { intros reg fl hs. induction hs as [|h hs IH]; intros st x st2 s2 o E; cbn [add_fib_hops] in E; [now injection E as <- <- <-|].
      destruct reg.
      - pose proof (register_adl n0 (nh_uri h) (adj_int h) (fib_ttl c) fl 0 x) as R. destruct register as [s1 o1]. cbn [fst] in R.
        destruct add_fib_hops as [[st3 s3] o3] eqn:E3. injection E as <- <- <-. apply IH in E3. congruence.
      - destruct add_fib_hops as [[st3 s3] o3] eqn:E3. injection E as <- <- <-. now apply IH in E3. }
    assert (R : f_adl (fst (fib_remove n0 s)) = f_adl s) by apply remove_spec.
    assert (Er : forall x, f_adl (ensure_refresh c n0 flags x) = f_adl x).
    { intros x. unfold ensure_refresh. destruct get; [|reflexivity]. destruct fe_refresh; [reflexivity|]. now destruct not_neighbor. }
    destruct (get n0 (f_tab s)), (hops_to_add c hops); try exact R;
      destruct add_fib_hops as [[st3 s3] o3] eqn:E3; cbn [fst]; rewrite Er; cbn [f_adl wf_tab]; eapply A; exact E3.
  - apply remove_spec.
  - apply register_adl.
  - apply refresh_spec.
  - unfold on_strat_fail. destruct get; [|reflexivity]. now destruct N.ltb.
Qed.


Lemma faces_get s x : get n (f_tab x) = get n (f_tab s) -> fib_faces x n = fib_faces s n /\ refresh_due x n = refresh_due s n.
Proof using. intros E. unfold fib_faces, refresh_due. now rewrite E. Qed.

Lemma lv_step s r reg e : plain_ev e -> sole_face (f_adl s) u f -> LV s r reg ->
  LV (s' s e) (after s e r) (reg \/ sent (snd (fs s e))).
Proof using Hn.
  intros P (Hf & Hu & So) [B D L]. pose proof B as (Hok & Hnm & Hnb).
  split; [apply base_inv_step; [destruct e; try exact I; contradiction|exact B]|now apply due_step|].
  assert (Nn : not_neighbor n s = true) by (apply not_neighbor_spec; unfold neighbour; now rewrite Hnm).
  assert (Same : get n (f_tab (s' s e)) = get n (f_tab s) -> (forall x, In x (snd (fs s e)) -> ~ about x n) ->
    reg \/ sent (snd (fs s e)) -> In u (fib_faces (s' s e) n) ->
    exists t, get (n, f) (after s e r) = Some t /\ forall due, refresh_due (s' s e) n = Some due -> due + 10 * FSEC <= t).
  { intros E Ab Rg. destruct (faces_get _ _ E) as [-> ->].
    assert (R : reg). { destruct Rg as [|(id & k & ttl & fl & H)]; [assumption|]. exfalso. exact (Ab _ H eq_refl). }
    replace (get (n, f) (after s e r)) with (get (n, f) r); [now apply L|].
    revert Ab. generalize (snd (fs s e)). clear. intros o. revert r. induction o as [|x o IH]; intros r Ab; [reflexivity|].
    cbn [fold_left]. rewrite <- IH by (intros y Hy; apply Ab; now right). specialize (Ab x (or_introl eq_refl)).
    destruct x; cbn [lives_do about] in *; try reflexivity.
    - symmetry. apply get_set_ne. congruence.
    - symmetry. apply get_del_ne. congruence. }
  assert (Rm : forall m, e = FvRemove m \/ fs s e = fib_remove m s -> reg \/ sent (snd (fs s e)) -> In u (fib_faces (s' s e) n) ->
    exists t, get (n, f) (after s e r) = Some t /\ forall due, refresh_due (s' s e) n = Some due -> due + 10 * FSEC <= t).
  { intros m Em. assert (E : fs s e = fib_remove m s) by (destruct Em as [->|]; auto). clear Em.
    destruct (remove_spec m s) as (_ & Rn & _ & R1 & R2 & R3). destruct (eq_dec n m) as [<-|Hm].
    - intros _. unfold fib_faces. rewrite E, (proj1 (R2 Nn)). intros [].
    - apply Same; rewrite E; [now apply R1|]. destruct (not_neighbor m s).
      + rewrite (proj2 (R2 eq_refl)). intros x Hx. apply in_unregs_iff in Hx as (v & _ & _ & ->). cbn. congruence.
      + rewrite (proj2 (R3 eq_refl)). intros x []. }
  assert (Ab : forall m o, (forall x, In x (map anon o) -> exists v, x = FUnreg m v \/ exists k ttl fl, x = FReg 0 m v k ttl fl) ->
     n <> m -> forall x, In x o -> ~ about x n).
  { intros m o H Hm x Hx. apply in_anon in Hx. destruct (H _ Hx) as (v & [E|(k & ttl & fl & E)]); destruct x; cbn in *; try discriminate E; congruence. }
  pose proof (other_tab c s e) as Ho.
  destruct e; try contradiction; cbn [fstep] in *.
  - pose proof (@fib_update_spec c n0 hops flags s Hok) as (U1 & U2 & U3 & U4 & U5).
    destruct (hops_to_add c hops) as [|x new] eqn:En.
    { specialize (U5 eq_refl). rewrite <- surjective_pairing in U5. apply (Rm n0). now right. }
    rewrite <- En in *. clear U5. destruct (U4 ltac:(congruence)) as (e' & E1 & E2 & E3 & Er & E4). clear U4.
    destruct (eq_dec n n0) as [<-|Hm].
    + rewrite Nn in *. intros _ Hi.
      assert (Hne : hops <> []) by (intros H; apply (hops_to_add_nil c) in H; congruence).
      destruct (@update_hops c n hops flags s Hok Hne) as (e2 & F1 & F2 & F3 & _).
      unfold fib_faces, refresh_due in *. rewrite F1 in E1. injection E1 as ->. rewrite F1 in *. apply F3 in Hi. apply in_map_iff in Hi as (h & Eh & Hh).
      exists (f_now s + fib_ttl c * 1000000). split.
      * rewrite <- lives_from_anon, E4, fold_left_app.
        assert (Rg : get (n, f) (fold_left (lives_do (f_now s)) (regs n (fib_ttl c) flags (f_adl s) (hops_to_add c hops)) r) = Some (f_now s + fib_ttl c * 1000000)).
        { apply regs_lives. split; [reflexivity|]. exists h. rewrite Eh. auto. }
        destruct (get n (f_tab s)) as [eo|] eqn:Eo; [|exact Rg]. rewrite unregs_lives; [exact Rg|].
        intros (_ & v & Hv & Ev & _). destruct (Hok n eo Eo) as [V _]. unfold entry_hops in Hv. rewrite Eo in Hv.
        apply (@merge_spec (fe_hops eo) _ V (hops_to_add_valid c hops)) in Hv as [_ Hv].
        apply Hv. rewrite (So v Ev), <- Eh. now apply in_map.
      * intros due Ed. destruct (fe_refresh e') as [[d fl]|] eqn:Ef; [|discriminate]. cbn in Ed. injection Ed as ->.
        assert (Hdu : due <= f_now s + 2 * fc_refresh c * FSEC).
        { destruct (get n (f_tab s)) as [eo|] eqn:Eo.
          - destruct (fe_refresh eo) as [[d' f']|] eqn:Eeo.
            + injection Er as -> ->. eapply D; eauto.
            + injection Er as -> ->. unfold refresh_time. lia.
          - injection Er as -> ->. unfold refresh_time. lia. }
        unfold fib_ttl, refresh_time, FIB_GRACE, FSEC in *. lia.
    + apply Same; [now apply U3|]. apply (Ab n0); [|exact Hm]. intros y Hy. rewrite E4 in Hy. destruct (not_neighbor n0 s); [|destruct Hy].
      apply in_app_or in Hy as [Hy|Hy].
      * apply in_regs_iff in Hy as (h & _ & _ & ->). eexists. right. eauto.
      * destruct (get n0 (f_tab s)); [|destruct Hy]. apply in_unregs_iff in Hy as (v & _ & _ & ->). eauto.
  - apply (Rm n0). now left.
  - destruct (register_spec n0 u0 cost ttl flags 0 s) as [Sm An]. destruct (eq_dec n n0) as [<-|Hm].
    + destruct (N.eq_dec (get_face_id u0 (f_adl s)) f) as [Ef|Ef].
      * intros _ Hi. destruct (faces_get s (fst (register n u0 cost ttl flags 0 s)) ltac:(now rewrite Ho)) as [Fa ->].
        exists (f_now s + ttl * 1000000). rewrite <- lives_from_anon, An. unfold reg_cmds. rewrite Ef.
        destruct (N.ltb_spec 0 f) as [_|?]; [|lia]. cbn [fold_left lives_do]. rewrite get_set_eq. split; [reflexivity|].
        intros due Ed. unfold refresh_due in Ed. destruct (get n (f_tab s)) as [eo|] eqn:Eo; [|discriminate].
        destruct (fe_refresh eo) as [[d fl]|] eqn:Er; [|discriminate]. cbn in Ed. injection Ed as ->. specialize (D _ _ _ _ Eo Er).
        cbn [plain_ev] in P. unfold fib_ttl, refresh_time, FIB_GRACE, FSEC in *. lia.
      * intros Rg Hi. destruct (faces_get s (fst (register n u0 cost ttl flags 0 s)) ltac:(now rewrite Ho)) as [Fa ->]. rewrite Fa in Hi.
        assert (Ou : forall x, In x (snd (register n u0 cost ttl flags 0 s)) -> anon x = FReg 0 n (get_face_id u0 (f_adl s)) cost ttl flags).
        { intros x Hx. apply in_anon in Hx. rewrite An in Hx. unfold reg_cmds in Hx. destruct N.ltb; [|destruct Hx]. now destruct Hx as [<-|[]]. }
        assert (R : reg). { destruct Rg as [|(id & k & tt & fl & H)]; [assumption|]. apply Ou in H. cbn in H. congruence. }
        rewrite <- lives_from_anon, An. unfold reg_cmds. destruct N.ltb; cbn [fold_left lives_do]; [rewrite get_set_ne by congruence|]; now apply L.
    + apply Same; [now rewrite Ho|]. apply (Ab n0); [|exact Hm]. rewrite An. unfold reg_cmds. destruct N.ltb; intros x Hx; [|destruct Hx].
      destruct Hx as [<-|[]]. eexists. right. eauto.
  - apply Same; [now rewrite Ho|]. intros x [<-|[]] H. exact H.
  - destruct (refresh_spec c n0 s) as (_ & Rn & Bo & [(B1 & B2 & _)|(e & due & flags & B1 & B2 & B3 & B4 & B5)]).
    + apply Same; [now rewrite B1|]. rewrite B2. intros x [].
    + destruct (eq_dec n n0) as [<-|Hm].
      * intros _. unfold fib_faces, refresh_due. rewrite B4. cbn [fe_hops fe_refresh]. intros Hi. apply in_map_iff in Hi as (h & Eh & Hh).
        exists (f_now s + fib_ttl c * 1000000). rewrite <- lives_from_anon, B5. split.
        -- apply regs_lives. split; [reflexivity|]. exists h. rewrite Eh. auto.
        -- unfold refresh_at. cbn [option_map fst]. intros d [= <-]. unfold fib_ttl, refresh_time, FIB_GRACE, FSEC. lia.
      * apply Same; [now apply Bo|]. apply (Ab n0); [|exact Hm]. rewrite B5. intros x Hx. apply in_regs_iff in Hx as (h & _ & _ & ->).
        eexists. right. eauto.
  - apply Same; [now rewrite Ho|]. intros x [].
  - apply Same; [now rewrite Ho|]. unfold on_strat_fail. destruct (get id (f_scmds s)) as [rc|]; [|intros x []]. destruct (sc_count rc <? 3)%N; [|intros x []].
    intros x [<-|[]] H. exact H.
Qed.

(** Calls about faces and time send nothing. *)
Definition quiet_ev (e : fev) : Prop :=
  match e with FvAdl l => map a_name l = names | FvRegOk _ | FvTime _ => True | _ => False end.
Lemma lv_quiet s r reg e : quiet_ev e -> LV s r reg -> LV (s' s e) (after s e r) reg.
Proof using.
  intros Q [B D L]. split; [apply base_inv_step; [destruct e; try exact I; exact Q|exact B]|apply due_step; [apply B|exact D]|].
  pose proof (other_tab c s e) as Ho.
  assert (E : get n (f_tab (s' s e)) = get n (f_tab s)) by (destruct e; try contradiction; now rewrite Ho).
  destruct (faces_get _ _ E) as [-> ->]. replace (after s e r) with r; [exact L|].
  destruct e; try contradiction; try reflexivity. cbn [fstep]. unfold on_reg_ok. now destruct (get id (f_cmds s)).
Qed.
Lemma lv_weaken s r (a b : Prop) : (b -> a) -> LV s r a -> LV s r b.
Proof using. intros H [B D L]. split; auto. Qed.

Lemma lv_plain evs : forall s r reg, Forall plain_ev evs -> (evs = [] \/ sole_face (f_adl s) u f) -> LV s r reg ->
  LV (fst (run fs s evs)) (lives_from c s r evs) (reg \/ sent (snd (run fs s evs))).
Proof using Hn.
  induction evs as [|e evs IH]; intros s r reg F So V.
  - cbn. eapply lv_weaken; [|exact V]. intros [H|(id & k & t & fl & [])]; exact H.
  - destruct So as [So|So]; [discriminate|]. inversion F as [|? ? P F']; subst. cbn [run lives_from].
    pose proof (@plain_adl s e P) as A. pose proof (@lv_step s r reg e P So V) as V1. destruct (fs s e) as [s1 o1]. cbn [fst snd] in *.
    assert (So1 : sole_face (f_adl s1) u f) by (rewrite A; exact So). specialize (IH s1 _ _ F' (or_intror So1) V1). destruct (run fs s1 evs) as [s2 o2]. cbn [fst snd] in *.
    eapply lv_weaken; [|exact IH]. intros [H|(id & k & t & fl & H)]; [left; now left|].
    apply in_app_or in H as [H|H]; [left; right|right]; exists id, k, t, fl; exact H.
Qed.
Lemma lives_app evs evs' : forall s r, lives_from c s r (evs ++ evs') = lives_from c (fst (run fs s evs)) (lives_from c s r evs) evs'.
Proof using.
  induction evs as [|e evs IH]; intros s r; [reflexivity|]. cbn [app lives_from run]. destruct (fs s e) as [s1 o1]. rewrite IH.
  now destruct (run fs s1 evs).
Qed.
Lemma quiet_silent s e : quiet_ev e -> ~ sent (snd (fs s e)).
Proof using.
  intros Q (id & k & t & fl & H). destruct e; try contradiction; try destruct H. cbn [fstep] in H. unfold on_reg_ok in H.
  destruct (get id0 (f_cmds s)); [|destruct H]. destruct H as [H|[]]. discriminate H.
Qed.
Lemma lv_quiets evs : forall s r reg, Forall quiet_ev evs -> LV s r reg ->
  LV (fst (run fs s evs)) (lives_from c s r evs) reg /\ ~ sent (snd (run fs s evs)).
Proof using.
  induction evs as [|e evs IH]; intros s r reg F V; [split; [exact V|now intros (? & ? & ? & ? & [])]|].
  inversion F as [|? ? P F']; subst. cbn [run lives_from]. pose proof (@lv_quiet s r reg e P V) as V1. pose proof (@quiet_silent s e P) as Q.
  destruct (fs s e) as [s1 o1]. cbn [fst snd] in *. destruct (IH s1 _ _ F' V1) as [V2 S2]. destruct (run fs s1 evs) as [s2 o2]. cbn [fst snd] in *.
  split; [exact V2|]. intros (id & k & t & fl & H). apply in_app_or in H as [H|H]; [apply Q|apply S2]; exists id, k, t, fl; exact H.
Qed.
Lemma plain_adls evs : forall s, Forall plain_ev evs -> f_adl (fst (run fs s evs)) = f_adl s.
Proof using.
  induction evs as [|e evs IH]; intros s F; [reflexivity|]. inversion F as [|? ? P F']; subst. cbn [run].
  pose proof (@plain_adl s e P) as A. destruct (fs s e) as [s1 o1]. specialize (IH s1 F'). destruct (run fs s1 evs). cbn [fst] in *. congruence.
Qed.
Lemma plain_now s e : plain_ev e -> tab_ok s -> f_now (s' s e) = f_now s.
Proof using.
  intros P Hok. destruct e; try contradiction; cbn [fstep]; try reflexivity.
  - now apply fib_update_spec.
  - apply remove_spec.
  - apply register_spec.
  - apply refresh_spec.
  - unfold on_strat_fail. destruct get; [|reflexivity]. now destruct N.ltb.
Qed.
Lemma plain_nows evs : forall s, Forall plain_ev evs -> tab_ok s -> f_now (fst (run fs s evs)) = f_now s.
Proof using.
  induction evs as [|e evs IH]; intros s F Hok; [reflexivity|]. inversion F as [|? ? P F']; subst. cbn [run].
  pose proof (@plain_now s e P Hok) as A. pose proof (@fstep_tab_ok c s e Hok) as T. destruct (fs s e) as [s1 o1]. cbn [fst] in *.
  specialize (IH s1 F' T). destruct (run fs s1 evs). cbn [fst] in *. congruence.
Qed.
End FibLive.

(** *** The router *)

Lemma fstep_now c s e : f_now (fst (fstep c s e)) = match e with FvTime t => Z.max (f_now s) t | _ => f_now s end.
Proof.
  assert (Rg : forall n u k ttl fl t x, f_now (fst (register n u k ttl fl t x)) = f_now x).
  { intros n u k ttl fl t x. now destruct (proj1 (register_spec n u k ttl fl t x)) as (_ & _ & ->). }
  assert (A : forall n reg fl hs st x st2 s2 o, add_fib_hops c n reg fl hs st x = (st2, s2, o) -> f_now s2 = f_now x).
  { intros n reg fl hs. induction hs as [|h hs IH]; intros st x st2 s2 o E; cbn [add_fib_hops] in E; [now injection E as <- <- <-|].
    destruct reg.
    - pose proof (Rg n (nh_uri h) (adj_int h) (fib_ttl c) fl 0%N x) as R. destruct register as [s1 o1]. cbn [fst] in R.
      destruct add_fib_hops as [[st3 s3] o3] eqn:E3. injection E as <- <- <-. apply IH in E3. congruence.
    - destruct add_fib_hops as [[st3 s3] o3] eqn:E3. injection E as <- <- <-. now apply IH in E3. }
  destruct e; cbn [fstep]; try reflexivity; try apply remove_spec; try apply refresh_spec; try apply Rg.
  - unfold fib_update. assert (R : f_now (fst (fib_remove n s)) = f_now s) by apply remove_spec.
    assert (Er : forall x, f_now (ensure_refresh c n flags x) = f_now x).
    { intros x. unfold ensure_refresh. destruct get; [|reflexivity]. destruct fe_refresh; [reflexivity|]. now destruct not_neighbor. }
    destruct (get n (f_tab s)), (hops_to_add c hops); try exact R;
      destruct add_fib_hops as [[st3 s3] o3] eqn:E3; cbn [fst]; rewrite Er; cbn [f_now wf_tab]; eapply A; exact E3.
  - unfold on_reg_ok. now destruct (get id (f_cmds s)).
  - unfold on_reg_fail. destruct (get id (f_cmds s)); [|reflexivity]. destruct N.ltb; [|reflexivity]. now rewrite Rg.
  - unfold on_strat_fail. destruct (get id (f_scmds s)); [|reflexivity]. now destruct N.ltb.
Qed.

Section R.
Variables (c : gconf) (uri_of : name -> string) (ang : list Z -> list Z -> Z) (dst : Z -> Z -> Z -> Z).
Notation fc := (fconf_of c).
Notation gstep := (gstep c uri_of ang dst).
Notation gstate := (gstate c uri_of ang dst).
Notation gtrace := (gtrace c uri_of ang dst).
Notation tracks := (tracks c uri_of ang dst).

(** The trace tells when each command was sent. *)
Definition tells (g g' : router) (t : list glog) : Prop :=
  forall r, fold_left ends1 t (f_now (g_fib g), r) = (f_now (g_fib g'), lives_from fc (g_fib g) r (fibs t)).
Definition tg (g g' : router) (t : list glog) : Prop := tracks g g' t /\ tells g g' t.
Definition tgood (f : gact) : Prop := forall g, tg g (fst (f g)) (snd (f g)).

Lemma tg_app g1 g2 g3 a b : tg g1 g2 a -> tg g2 g3 b -> tg g1 g3 (a ++ b).
Proof.
  intros [A1 A2] [B1 B2]. split; [eapply tracks_app; eauto|]. intros r. rewrite fold_left_app, A2, B2. f_equal.
  unfold fibs. rewrite flat_map_app. fold (fibs a) (fibs b). rewrite lives_app. now rewrite (t_fib A1).
Qed.
Lemma tg_seq (f h : gact) g : tg g (fst (f g)) (snd (f g)) -> tgood h -> tg g (fst (gseq f h g)) (snd (gseq f h g)).
Proof.
  intros F H. unfold gseq. destruct (f g) as [g1 o1]. specialize (H g1). destruct (h g1) as [g2 o2]. cbn [fst snd] in *. eapply tg_app; eauto.
Qed.
Lemma tgood_ret : tgood gret. Proof. intros g. split; [apply tracks_refl|]. now intros r. Qed.
Lemma tgood_dead : tgood (fun g => (gw_dead g, [])). Proof. intros g. split; [apply good_dead|]. now intros r. Qed.
Lemma tgood_seq f h : tgood f -> tgood h -> tgood (gseq f h).
Proof. intros F H g. now apply tg_seq. Qed.
Lemma tgood_each {A} (f : A -> gact) l : (forall x, tgood (f x)) -> tgood (geach f l).
Proof. intros F. induction l; [apply tgood_ret|]. now apply tgood_seq. Qed.
Lemma tgood_live f : (forall g, g_dead g = false -> tg g (fst (f g)) (snd (f g))) -> tgood (live f).
Proof. intros F g. unfold live. destruct (g_dead g) eqn:E; [apply tgood_ret|now apply F]. Qed.

Definition mute (x : glog) : Prop := match x with CFib _ | XFib _ => False | _ => True end.
Lemma mute_tells g g' t : (forall x, In x t -> mute x) -> g_fib g' = g_fib g -> tells g g' t.
Proof.
  intros M Eg r. rewrite Eg. enough (E : fold_left ends1 t (f_now (g_fib g), r) = (f_now (g_fib g), r) /\ fibs t = []).
  { destruct E as [-> ->]. reflexivity. }
  induction t as [|x t IH]; [split; reflexivity|]. destruct IH as [I1 I2]; [intros y Hy; apply M; now right|].
  specialize (M x (or_introl eq_refl)). unfold fibs in *. cbn [flat_map fold_left]. rewrite I2. destruct x; try contradiction; split; try exact I1; reflexivity.
Qed.

Lemma tgood_fib e : tgood (call_fib c e).
Proof.
  intros g. split; [apply good_fib|]. unfold call_fib, live. destruct (g_dead g); [now intros r|].
  pose proof (fstep_now fc (g_fib g) e) as Nw. destruct (fstep fc (g_fib g) e) as [s o] eqn:E. cbn [fst snd g_fib gw_fib] in *. intros r.
  assert (F : fibs (CFib e :: map XFib o) = [e]).
  { unfold fibs. cbn [flat_map]. erewrite map_flat by (intros; reflexivity). now rewrite flat_none. }
  rewrite F. cbn [lives_from]. rewrite E. cbn [fold_left].
  assert (X : forall o t r, fold_left ends1 (map XFib o) (t, r) = (t, fold_left (lives_do t) o r)).
  { clear. induction o as [|x o IH]; intros t r; [reflexivity|]. cbn [map fold_left ends1 fst snd]. apply IH. }
  cbn [g_fib gw_fib]. rewrite Nw. destruct e; cbn [ends1 fst snd]; rewrite X; try reflexivity.
  cbn [fstep] in E. injection E as _ <-. reflexivity.
Qed.
Ltac mutes := split; [|apply mute_tells; [apply in_cons_map; cbn; auto|reflexivity]].
Lemma tgood_npt e : tgood (call_npt c e).
Proof.
  apply tgood_live. intros g D. pose proof (@good_npt c uri_of ang dst e g) as G. unfold call_npt, live in G. rewrite D in G.
  destruct nstep as [[n o]| |] eqn:E.
  2,3: (split; [exact G|apply mute_tells; [intros x [<-|[]]; exact I|reflexivity]]).
  apply tg_seq; [|apply tgood_each; intros []; apply tgood_fib]. cbn [fst snd]. mutes.
  split; unfold pres, pouts, hellos, houts, rtevs, rtouts, npts, nouts, fibs, fouts; cbn [flat_map app];
    repeat (erewrite map_flat; [|intros; reflexivity]); rewrite ?flat_none, ?flat_one; cbn [app]; try reflexivity; auto.
  cbn [neach]. rewrite E. cbn. now rewrite app_nil_r.
Qed.
Lemma tgood_rt i e : tgood (call_rt c ang dst i e).
Proof.
  apply tgood_live. intros g D. pose proof (@good_rt c uri_of ang dst i e g) as G. unfold call_rt, live in G. rewrite D in G.
  destruct rt_step as [[n o]| |] eqn:E.
  2,3: (split; [exact G|apply mute_tells; [intros x [<-|[]]; exact I|reflexivity]]).
  apply tg_seq; [|apply tgood_each; intros []; apply tgood_npt]. cbn [fst snd]. mutes.
  split; unfold pres, pouts, hellos, houts, rtevs, rtouts, npts, nouts, fibs, fouts; cbn [flat_map app];
    repeat (erewrite map_flat; [|intros; reflexivity]); rewrite ?flat_none, ?flat_one; cbn [app]; try reflexivity; auto.
  cbn [rt_run]. rewrite E. cbn. now rewrite app_nil_r.
Qed.
Lemma tgood_strategy o : tgood (register_strategy c o).
Proof.
  apply tgood_live. intros g _. destruct existsb; [apply tgood_ret|].
  pose proof (tgood_each (fun n => call_fib c (FvSetStrategy n BEST_ROUTE))
    [o ++ [KEY]; o ++ [gen "nlsr"%string; KEY]; site_of o ++ [KEY]; site_of o ++ [C1_OPERATOR]]
    (fun _ => tgood_fib _) (gw_strat (g_strat g ++ [o]) g)) as [[T1 T2 T3 T4 T5 T6] T7]. split; [split; assumption|exact T7].
Qed.
Lemma tgood_pre_out i o : tgood (pre_out c ang dst i o).
Proof.
  destruct o as [[]|]; cbn [pre_out]; try apply tgood_ret; try apply tgood_dead; try apply tgood_strategy.
  apply tgood_live. intros g _. apply (tgood_seq (tgood_rt i _) (tgood_npt _)).
Qed.
Lemma tgood_pre i x : tgood (call_pre c uri_of ang dst i x).
Proof.
  apply tgood_live. intros g _. destruct pstep as [p o] eqn:E.
  apply tg_seq; [|apply tgood_each; intros; apply tgood_pre_out]. cbn [fst snd]. mutes.
  split; unfold pres, pouts, hellos, houts, rtevs, rtouts, npts, nouts, fibs, fouts; cbn [flat_map app];
    repeat (erewrite map_flat; [|intros; reflexivity]); rewrite ?flat_none, ?flat_one; cbn [app]; try reflexivity; auto.
  cbn [run]. rewrite E. now rewrite app_nil_r.
Qed.
Lemma tgood_hello_out i o : tgood (hello_out c uri_of ang dst i o).
Proof.
  destruct o; cbn [hello_out]; try apply tgood_ret; try apply tgood_dead; try apply tgood_fib.
  all: apply tgood_live; intros g _; first [apply tgood_pre | apply tgood_rt].
Qed.
Lemma tgood_hello i x : tgood (call_hello c uri_of ang dst i x).
Proof.
  apply tgood_live. intros g _. destruct hstep as [p o] eqn:E.
  apply tg_seq; [|apply tgood_seq; [apply tgood_fib|apply tgood_each; intros; apply tgood_hello_out]]. cbn [fst snd]. mutes.
  split; unfold pres, pouts, hellos, houts, rtevs, rtouts, npts, nouts, fibs, fouts; cbn [flat_map app];
    repeat (erewrite map_flat; [|intros; reflexivity]); rewrite ?flat_none, ?flat_one; cbn [app]; try reflexivity; auto.
  cbn [run]. rewrite E. now rewrite app_nil_r.
Qed.
Lemma tgood_step x : tgood (fun g => gstep g x).
Proof.
  intros g. unfold M_Router.gstep. apply tgood_live. clear g. intros g _. destruct x as [i v]. cbn [fst snd].
  destruct v as [d|x|m w|x|x|k]; cbn [gstep_live].
  - apply tgood_seq; [apply tgood_pre|]. intros g1. apply tgood_fib.
  - destruct x; first [apply tgood_ret | apply tgood_pre].
  - apply tgood_pre.
  - destruct x; first [apply tgood_ret | apply tgood_hello].
  - destruct x; try apply tgood_ret; try apply tgood_fib.
    destruct get; [|apply tgood_ret]. apply tgood_seq; [apply tgood_fib|]. apply tgood_seq; apply tgood_hello.
  - destruct nth_error; [|apply tgood_ret]. destruct Z.leb; [apply tgood_rt|apply tgood_ret].
Qed.
Lemma tg_run evs g : tg g (fst (run gstep g evs)) (snd (run gstep g evs)).
Proof.
  revert g. induction evs as [|x evs IH]; intros g; [apply tgood_ret|]. cbn [run]. pose proof (tgood_step x g) as T. cbv beta in T.
  destruct (gstep g x) as [g1 o1]. specialize (IH g1). destruct (run gstep g1 evs) as [g2 o2]. cbn [fst snd] in *. eapply tg_app; eauto.
Qed.
Lemma tg_exec r : tg (g0 c r) (gstate r) (snd (start c (g0 c r)) ++ later c uri_of ang dst r).
Proof.
  destruct (gexec_shape c uri_of ang dst r) as [-> _]. eapply tg_app; [|apply tg_run].
  apply tgood_each. intros. apply tgood_fib.
Qed.
Lemma ends_exec r : ends (u_now r) (gtrace r) =
  (f_now (g_fib (gstate r)), lives_from fc (g_fib (g0 c r)) [] (fibs (snd (start c (g0 c r)) ++ later c uri_of ang dst r))).
Proof.
  destruct (gexec_shape c uri_of ang dst r) as [_ ->]. unfold ends. rewrite <- app_assoc, !fold_left_app.
  assert (M : forall o x, fold_left ends1 (map XPre o) x = x) by (clear; induction o as [|y o IH]; intros x; [reflexivity|apply IH]).
  rewrite M. cbn [fold_left ends1]. rewrite <- fold_left_app. apply (proj2 (tg_exec r)).
Qed.

(** *** What one event of the router asks of the FIB *)

Hypothesis Hms : fib_ttl fc <= MS_MAX.

Definition pl0 (x : glog) : Prop :=
  match x with CFib e => plain_ev fc e | CHello _ | CPre _ => False | _ => True end.
Definition pl (x : glog) : Prop :=
  match x with CFib e => plain_ev fc e | CHello _ => False | CPre e => tick e = false | _ => True end.
Lemma pl0_pl x : pl0 x -> pl x. Proof. destruct x; cbn; auto; contradiction. Qed.
Lemma fib_pl0 e : plain_ev fc e -> all pl0 (call_fib c e).
Proof. intros P. apply all_live. intros g _. destruct fstep. apply in_cons_map; cbn; auto. Qed.
Lemma npt_pl0 e : all pl0 (call_npt c e).
Proof.
  apply all_live. intros g _. destruct nstep as [[n o]| |]; try (intros x [<-|[]]; exact I).
  apply seq_all; [apply in_cons_map; cbn; auto|]. apply all_each. intros []; apply fib_pl0; exact I.
Qed.
Lemma rt_pl0 i e : all pl0 (call_rt c ang dst i e).
Proof.
  apply all_live. intros g _. destruct rt_step as [[n o]| |]; try (intros x [<-|[]]; exact I).
  apply seq_all; [apply in_cons_map; cbn; auto|]. apply all_each. intros []. apply npt_pl0.
Qed.
Lemma pre_out_pl0 i o : all pl0 (pre_out c ang dst i o).
Proof.
  destruct o as [[]|]; cbn [pre_out]; try apply all_ret; try apply all_dead.
  - apply all_live. intros g1 _. apply seq_all; [apply rt_pl0|apply npt_pl0].
  - apply all_live. intros g1 _. destruct existsb; [intros y []|]. apply (all_each (P := pl0)). intros. now apply fib_pl0.
Qed.
Lemma pre_pl i x : tick x = false -> all pl (call_pre c uri_of ang dst i x).
Proof.
  intros T. apply all_live. intros g _. destruct pstep as [p o]. apply seq_all; [apply in_cons_map; cbn; auto|].
  apply (@weaken _ _ _ pl0_pl). apply all_each. intros. apply pre_out_pl0.
Qed.
Lemma hello_out_pl i o : all pl (hello_out c uri_of ang dst i o).
Proof.
  destruct o; cbn [hello_out]; try apply all_ret; try apply all_dead.
  - apply all_live. intros g1 _. now apply pre_pl.
  - apply all_live. intros g1 _. apply (@weaken _ _ _ pl0_pl). apply rt_pl0.
  - apply (@weaken _ _ _ pl0_pl). apply fib_pl0. exact Hms.
Qed.
Lemma pl_logs t : (forall x, In x t -> pl x) -> Forall (plain_ev fc) (fibs t) /\ hellos t = [] /\ Forall (fun e => tick e = false) (pres t).
Proof.
  induction t as [|x t IH]; intros H; [repeat split; constructor|]. destruct IH as (A & B & D); [intros y Hy; apply H; now right|].
  specialize (H x (or_introl eq_refl)). unfold fibs, hellos, pres in *. cbn [flat_map].
  destruct x; cbn in H; try contradiction; cbn [app]; repeat split; auto; constructor; auto.
Qed.
Lemma pl0_pres t : (forall x, In x t -> pl0 x) -> pres t = [].
Proof.
  induction t as [|x t IH]; intros H; [reflexivity|]. unfold pres in *. cbn [flat_map]. rewrite IH by (intros y Hy; apply H; now right).
  specialize (H x (or_introl eq_refl)). now destruct x.
Qed.

(** A call of the hello protocol. *)
Lemma hello_shape i x g : g_dead g = false ->
  let g' := fst (call_hello c uri_of ang dst i x g) in let t := snd (call_hello c uri_of ang dst i x g) in
  g_h g' = fst (hstep (hconf_of c) (g_h g) x) /\ Forall (fun e => tick e = false) (pres t) /\
  exists evs, fibs t = FvAdl (h_adl (g_h g')) :: evs /\ Forall (plain_ev fc) evs /\
    (snd (hstep (hconf_of c) (g_h g) x) = [] -> evs = [] /\ g_dead g' = false).
Proof.
  intros D. cbv zeta. destruct (hstep (hconf_of c) (g_h g) x) as [h o] eqn:E.
  set (g2 := gw_fib (wf_adl (h_adl h) (g_fib g)) (gw_h h g)).
  assert (Eq : call_hello c uri_of ang dst i x g =
    (fst (geach (hello_out c uri_of ang dst i) o g2),
     (CHello x :: map XHello o) ++ CFib (FvAdl (h_adl h)) :: snd (geach (hello_out c uri_of ang dst i) o g2))).
  { unfold call_hello, live. rewrite D, E. unfold gseq, call_fib, live. cbn [g_dead gw_h]. rewrite D. cbn [fstep].
    change (gw_fib (wf_adl (h_adl h) (g_fib (gw_h h g))) (gw_h h g)) with g2.
    destruct (geach (hello_out c uri_of ang dst i) o g2). reflexivity. }
  rewrite Eq. cbn [fst snd]. clear Eq.
  assert (A : forall y, In y (snd (geach (hello_out c uri_of ang dst i) o g2)) -> pl y) by (apply all_each; intros; apply hello_out_pl).
  assert (T : tracks g2 (fst (geach (hello_out c uri_of ang dst i) o g2)) (snd (geach (hello_out c uri_of ang dst i) o g2))).
  { apply good_each. intros. apply good_hello_out. }
  assert (Nl : o = [] -> geach (hello_out c uri_of ang dst i) o g2 = (g2, [])) by (intros ->; reflexivity).
  destruct (geach (hello_out c uri_of ang dst i) o g2) as [g3 o3]. cbn [fst snd] in *.
  destruct (@pl_logs _ A) as (L1 & L2 & L3). pose proof (t_h T) as Th. rewrite L2 in Th. cbn [run] in Th.
  assert (Eh : g_h g3 = h) by (change h with (g_h g2); congruence).
  split; [exact Eh|]. rewrite Eh. split; [|exists (fibs o3); split; [|split; [exact L1|]]].
  - unfold pres in *. cbn [app flat_map]. rewrite flat_map_app. erewrite map_flat by (intros; reflexivity). rewrite flat_none. exact L3.
  - unfold fibs in *. cbn [app flat_map]. rewrite flat_map_app. erewrite map_flat by (intros; reflexivity). rewrite flat_none. reflexivity.
  - intros Eo. specialize (Nl Eo). injection Nl as -> ->. split; [reflexivity|exact D].
Qed.

Definition shape (x : inp * gev) (g g' : router) (t : list glog) : Prop :=
  (Forall (plain_ev fc) (fibs t) /\ g_h g' = g_h g /\ Forall (fun e => tick e = false) (pres t)) \/
  (exists d evs sys, snd x = GvTick d /\ fibs t = evs ++ [FvTime (g_now g')] /\ Forall (plain_ev fc) evs /\ g_h g' = g_h g /\
     pres t = [PvDb sys (h_adl (g_h g)) (ETick d)]) \/
  (exists q evs, fibs t = q ++ FvAdl (h_adl (g_h g')) :: evs /\ Forall (plain_ev fc) evs /\
     Forall (fun e => tick e = false) (pres t) /\
     (q = [] \/ exists id l, q = [FvRegOk id; FvAdl l] /\ map a_name l = map a_name (h_adl (g_h g)))) \/
  (exists id, snd x = GvFib (FvRegFail id) /\ fibs t = [FvRegFail id] /\ g_h g' = g_h g /\ pres t = []).

Lemma stat_name l l' : map stat l = map stat l' -> map a_name l = map a_name l'.
Proof.
  intros E. assert (X : forall l : adl, map a_name l = map (fun y => fst (fst y)) (map stat l)) by (intros m; rewrite map_map; reflexivity).
  now rewrite !X, E.
Qed.
Lemma pl_shape x g g' t : tracks g g' t -> (forall y, In y t -> pl y) -> shape x g g' t.
Proof.
  intros T A. destruct (@pl_logs _ A) as (L1 & L2 & L3). left. split; [exact L1|]. split; [|exact L3].
  pose proof (t_h T) as Th. rewrite L2 in Th. cbn [run] in Th. congruence.
Qed.

Lemma step_shape g x : hinv (hconf_of c) (g_h g) -> g_dead (fst (gstep g x)) = false -> shape x g (fst (gstep g x)) (snd (gstep g x)).
Proof.
  intros Hi D'. pose proof (good_step c uri_of ang dst x g) as T.
  assert (D : g_dead g = false) by (destruct (g_dead g) eqn:E; [now rewrite (t_dead T E) in D'|reflexivity]).
  destruct x as [i v]. unfold M_Router.gstep, live in *. rewrite D in *. cbn [fst snd] in *.
  assert (Nil : forall x, shape x g g []) by (intros x; left; repeat split; constructor).
  destruct v as [d|x|m w|x|x|k]; cbn [gstep_live] in *.
  - right. left. revert D' T. unfold gseq. unfold call_pre, live. rewrite D.
    destruct (pstep uri_of (gc c) (g_pre g) (PvDb (i_sys i) (h_adl (g_h g)) (ETick d))) as [p o] eqn:Ep.
    unfold gseq. set (g1 := gw_pre p g).
    assert (A : forall y, In y (snd (geach (pre_out c ang dst i) o g1)) -> pl0 y) by (apply all_each; intros; apply pre_out_pl0).
    assert (T1 : tracks g1 (fst (geach (pre_out c ang dst i) o g1)) (snd (geach (pre_out c ang dst i) o g1))).
    { apply good_each. intros. apply good_pre_out. }
    destruct (geach (pre_out c ang dst i) o g1) as [g2 o2]. cbn [fst snd] in *.
    pose proof (@pl0_pres _ A) as Lp. destruct (@pl_logs _ (fun y Hy => pl0_pl y (A y Hy))) as (L1 & L2 & _).
    unfold call_fib, live. destruct (g_dead g2) eqn:D2; [intros D'; cbn in D'; congruence|]. cbn [fstep fst snd]. intros _ _.
    exists d, (fibs o2), (i_sys i). cbn [snd]. split; [reflexivity|].
    assert (Fx : forall A (q : glog -> list A) z, (forall y, q (XPre y) = []) -> flat_map q (map XPre z) = []).
    { intros A0 q z Hq. erewrite map_flat by (intros; apply Hq). apply flat_none. }
    split; [|split; [exact L1|split]].
    + unfold fibs. cbn [app flat_map]. rewrite !flat_map_app, Fx by reflexivity. reflexivity.
    + pose proof (t_h T1) as Th. rewrite L2 in Th. cbn [run] in Th. change (g_h g1) with (g_h g) in Th.
      change (g_h (gw_fib (wf_now (Z.max (f_now (g_fib g2)) (g_now g2)) (g_fib g2)) g2)) with (g_h g2). congruence.
    + unfold pres in *. cbn [app flat_map]. rewrite !flat_map_app, Lp, Fx by reflexivity. reflexivity.
  - destruct x; try apply Nil; (apply pl_shape; [exact T|]); now apply pre_pl.
  - apply pl_shape; [exact T|]. now apply pre_pl.
  - destruct (@hello_shape i x g D) as (_ & H1 & evs & H2 & H3 & _).
    destruct x; try apply Nil; (right; right; left; exists [], evs; split; [exact H2|]; split; [exact H3|]; split; [exact H1|now left]).
  - destruct x; try apply Nil.
    + apply pl_shape; [exact T|]. apply (@weaken _ _ _ pl0_pl). now apply fib_pl0.
    + destruct (get id (f_cmds (g_fib g))) as [rc|] eqn:Eg; [|apply Nil]. right. right. left. revert D' T.
      destruct (fstep fc (g_fib g) (FvRegOk id)) as [s1 o1] eqn:Ef. set (g1 := gw_fib s1 g).
      assert (E1 : call_fib c (FvRegOk id) g = (g1, CFib (FvRegOk id) :: map XFib o1)) by (unfold call_fib, live; now rewrite D, Ef).
      unfold gseq. rewrite E1. clear E1. pose proof (@hello_shape i (HvFace (rc_uri rc) (rc_face rc)) g1 D) as (A1 & A2 & evs1 & A3 & A4 & A5).
      destruct (hstep_inv (HvFace (rc_uri rc) (rc_face rc)) Hi) as [St _].
      destruct (call_hello c uri_of ang dst i (HvFace (rc_uri rc) (rc_face rc)) g1) as [g2 o2]. cbn [fst snd] in *.
      change (g_h g1) with (g_h g) in *.
      destruct A5 as [-> D2]; [unfold hstep; now destruct (h_dead (g_h g))|].
      pose proof (@hello_shape i (HvRegistered (rc_name rc)) g2 D2) as (B1 & B2 & evs2 & B3 & B4 & _).
      destruct (call_hello c uri_of ang dst i (HvRegistered (rc_name rc)) g2) as [g3 o3]. cbn [fst snd] in *. intros _ _.
      exists [FvRegOk id; FvAdl (h_adl (g_h g2))], evs2.
      assert (Fx : forall A (q : glog -> list A) z, (forall y, q (XFib y) = []) -> flat_map q (map XFib z) = []).
      { intros A0 q z Hq. erewrite map_flat by (intros; apply Hq). apply flat_none. }
      split; [|split; [exact B4|split]].
      * unfold fibs in *. cbn [app flat_map]. rewrite !flat_map_app, A3, B3, Fx by reflexivity. reflexivity.
      * unfold pres in *. cbn [app flat_map]. rewrite !flat_map_app, Fx by reflexivity. cbn [app]. apply Forall_app. split; assumption.
      * right. exists id, (h_adl (g_h g2)). split; [reflexivity|]. rewrite A1. now apply stat_name.
    + right. right. right. exists id. split; [reflexivity|]. unfold call_fib, live. rewrite D. destruct fstep as [s1 o1]. cbn [fst snd].
      assert (Fx : forall A (q : glog -> list A) z, (forall y, q (XFib y) = []) -> flat_map q (map XFib z) = []).
      { intros A0 q z Hq. erewrite map_flat by (intros; apply Hq). apply flat_none. }
      unfold fibs, pres. cbn [flat_map]. rewrite !Fx by reflexivity. auto.
    + apply pl_shape; [exact T|]. apply (@weaken _ _ _ pl0_pl). now apply fib_pl0.
    + apply pl_shape; [exact T|]. apply (@weaken _ _ _ pl0_pl). now apply fib_pl0.
  - destruct nth_error as [due|]; [|apply Nil]. destruct (due <=? g_now g); [|apply Nil]. apply pl_shape; [exact T|]. apply (@weaken _ _ _ pl0_pl). apply rt_pl0.
Qed.

Notation frun s evs := (run (fstep fc) s evs).
Lemma base_run names evs : forall s, Forall (keeps_names names) evs -> base_inv names s -> base_inv names (fst (frun s evs)).
Proof.
  induction evs as [|e evs IH]; intros s F B; [exact B|]. inversion F; subst. cbn [run]. pose proof (@base_inv_step fc s e names ltac:(assumption) B) as B1.
  destruct (fstep fc s e) as [s1 o1]. cbn [fst] in *. specialize (IH s1 ltac:(assumption) B1). now destruct (frun s1 evs).
Qed.
Lemma due_run evs : forall s, tab_ok s -> due_ok fc s -> due_ok fc (fst (frun s evs)).
Proof.
  induction evs as [|e evs IH]; intros s T B; [exact B|]. cbn [run]. pose proof (@due_step fc s e T B) as B1. pose proof (@fstep_tab_ok fc s e T) as T1.
  destruct (fstep fc s e) as [s1 o1]. cbn [fst] in *. specialize (IH s1 T1 B1). now destruct (frun s1 evs).
Qed.
Lemma frun_app s a b : fst (frun s (a ++ b)) = fst (frun (fst (frun s a)) b).
Proof. rewrite run_app. destruct (frun s a) as [s1 o1]. cbn. now destruct (frun s1 b). Qed.
Lemma plain_keeps names evs : Forall (plain_ev fc) evs -> Forall (keeps_names names) evs.
Proof. intros F. eapply Forall_impl; [|exact F]. intros []; cbn; tauto. Qed.

Record K (names : list name) (g : router) : Prop :=
  { k_h : hinv (hconf_of c) (g_h g); k_names : map a_name (h_adl (g_h g)) = names;
    k_base : base_inv names (g_fib g); k_due : due_ok fc (g_fib g);
    k_same : f_adl (g_fib g) = h_adl (g_h g); k_now : f_now (g_fib g) = g_now g }.

Lemma pres_now evs : Forall (fun e => tick e = false) evs -> forall p, s_now (p_db (fst (run (pstep uri_of (gc c)) p evs))) = s_now (p_db p).
Proof.
  induction 1 as [|e evs T F IH]; intros p; [reflexivity|]. cbn [run]. pose proof (@pstep_now (gc c) uri_of p e T) as N1.
  destruct (pstep uri_of (gc c) p e) as [p1 o1]. cbn [fst] in *. specialize (IH p1). destruct (run _ p1 evs). cbn [fst] in *. congruence.
Qed.
Lemma tracks_now g g' t : tracks g g' t -> Forall (fun e => tick e = false) (pres t) -> g_now g' = g_now g.
Proof. intros T F. unfold g_now, g_db. rewrite <- (@pres_now _ F (g_pre g)), (t_pre T). reflexivity. Qed.

Lemma K_step names g x : K names g -> g_dead (fst (gstep g x)) = false -> K names (fst (gstep g x)).
Proof.
  intros [Ih In_ Ib Id Is Iw] D'. pose proof (good_step c uri_of ang dst x g) as T. pose proof (@step_shape g x Ih D') as S.
  destruct (gstep g x) as [g' t]. cbn [fst snd] in *. 
  destruct (hrun_inv (hellos t) Ih) as [H1 H2]. rewrite (t_h T) in H1, H2. cbn [fst] in H1, H2. apply stat_name in H2.
  assert (Nm : map a_name (h_adl (g_h g')) = names) by congruence.
  assert (Ef : g_fib g' = fst (frun (g_fib g) (fibs t))) by now rewrite (t_fib T).
  pose proof (proj1 Ib) as Tb.
  assert (Kp : Forall (keeps_names names) (fibs t) -> f_adl (g_fib g') = h_adl (g_h g') -> f_now (g_fib g') = g_now g' -> K names g').
  { intros F E1 E2. split; auto; rewrite Ef; [now apply base_run|now apply due_run]. }
  destruct S as [(S1 & S2 & S3)|[(d & evs & sys & _ & S1 & S2 & S3 & S4)|[(q & evs & S1 & S2 & S3 & S4)|(id & _ & S1 & S2 & S3)]]].
  - apply Kp; [now apply plain_keeps|rewrite S2, Ef, plain_adls by exact S1; exact Is|].
    rewrite (tracks_now T S3), Ef, plain_nows by assumption. exact Iw.
  - rewrite S1 in Kp, Ef. apply Kp.
    + apply Forall_app. split; [now apply plain_keeps|constructor; [exact I|constructor]].
    + rewrite S3, Ef, frun_app. cbn [run fstep fst]. change (f_adl (fst (frun (g_fib g) evs)) = h_adl (g_h g)). rewrite plain_adls by exact S2. exact Is.
    + rewrite Ef, frun_app. cbn [run fstep fst f_now wf_now]. rewrite plain_nows by assumption.
      assert (L : f_now (g_fib g) <= g_now g'); [|lia]. pose proof (t_pre T) as P. rewrite S4 in P. cbn [run] in P. rewrite Iw.
      unfold g_now, g_db. destruct (pstep uri_of (gc c) (g_pre g) (PvDb sys (h_adl (g_h g)) (ETick d))) as [p o] eqn:E. injection P as <- _.
      unfold pstep in E. destruct (s_dead (p_db (g_pre g))) eqn:Ed; [injection E as <- _; lia|]. cbn [pstep_live] in E.
      unfold step in E. rewrite Ed in E. cbn [step_live] in E. injection E as <- _. cbn [p_db s_now w_now]. lia.
  - assert (Kn : Forall (keeps_names names) (fibs t)).
    { rewrite S1. apply Forall_app. split; [|constructor; [exact Nm|now apply plain_keeps]].
      destruct S4 as [->|(id & l & -> & E)]; [constructor|]. repeat constructor. cbn [keeps_names]. congruence. }
    apply Kp; [exact Kn| |].
    + rewrite Ef, S1, frun_app. cbn [run fstep]. set (s1 := fst (frun (g_fib g) q)). pose proof (@plain_adls fc evs (wf_adl (h_adl (g_h g')) s1) S2) as A.
      destruct (frun (wf_adl (h_adl (g_h g')) s1) evs). exact A.
    + rewrite (tracks_now T S3), Ef, S1, frun_app. cbn [run fstep].
      assert (Q : f_now (fst (frun (g_fib g) q)) = f_now (g_fib g) /\ tab_ok (fst (frun (g_fib g) q))).
      { destruct S4 as [->|(id & l & -> & E)]; [split; [reflexivity|exact Tb]|]. cbn [run].
        pose proof (fstep_now fc (g_fib g) (FvRegOk id)) as N1. pose proof (@fstep_tab_ok fc (g_fib g) (FvRegOk id) Tb) as T1.
        destruct (fstep fc (g_fib g) (FvRegOk id)) as [s1 o1]. cbn [fst fstep] in *. split; assumption. }
      destruct Q as [Q1 Q2]. set (s1 := fst (frun (g_fib g) q)) in *.
      pose proof (@plain_nows fc evs (wf_adl (h_adl (g_h g')) s1) S2 Q2) as A.
      destruct (frun (wf_adl (h_adl (g_h g')) s1) evs). cbn [fst] in *. rewrite A. cbn [f_now wf_adl]. congruence.
  - rewrite S1 in Kp, Ef. apply Kp; [constructor; [exact I|constructor]| |].
    + rewrite S2, Ef. cbn [run fstep]. unfold on_reg_fail. destruct (get id (f_cmds (g_fib g))) as [rc|]; [|exact Is].
      destruct (rc_times rc <? 3)%N; [|exact Is].
      match goal with |- context[register ?a ?b ?d ?e ?f ?h ?k] => pose proof (register_adl a b d e f h k) as R; destruct (register a b d e f h k) end.
      cbn [fst] in *. rewrite R. exact Is.
    + assert (F : Forall (fun e => tick e = false) (pres t)) by (rewrite S3; constructor).
      rewrite (tracks_now T F), Ef. cbn [run]. pose proof (fstep_now fc (g_fib g) (FvRegFail id)) as N1.
      destruct (fstep fc (g_fib g) (FvRegFail id)). cbn [fst] in *. congruence.
Qed.

Lemma K_init r : K (map a_name (h_adl (fst (hinit (hconf_of c) (u_nbs r))))) (g1 c r).
Proof.
  destruct (g1_same c r) as (E1 & E2 & E3 & E4 & _).
  assert (G : exists a b n, g_fib (g1 c r) = Fib [] (h_adl (fst (hinit (hconf_of c) (u_nbs r)))) (u_now r) a b n) by (do 3 eexists; reflexivity).
  destruct G as (a & b & n & G). split; rewrite ?E2, ?G.
  - apply hinit_inv.
  - reflexivity.
  - split; [intros m e; discriminate|]. split; [reflexivity|intros m e; discriminate].
  - intros m e; discriminate.
  - reflexivity.
  - unfold g_now, g_db. rewrite E1. cbn [g0 g_pre p_db f_now]. unfold init. rewrite sn_seq; [reflexivity|apply sn_build_name|].
    destruct (eqb _ _); [apply sn_ret|apply sn_build_coord].
Qed.
Lemma K_run names evs : forall g, K names g -> g_dead (fst (run gstep g evs)) = false -> K names (fst (run gstep g evs)).
Proof.
  induction evs as [|x evs IH]; intros g I D; [exact I|]. cbn [run] in *. pose proof (@K_step names g x I) as I1.
  destruct (gstep g x) as [g2 o1]. cbn [fst] in I1. pose proof (@run_alive c uri_of ang dst evs g2) as A. specialize (IH g2).
  destruct (run gstep g2 evs) as [g3 o2]. cbn [fst] in *. apply IH; [|exact D]. apply I1. destruct (g_dead g2); [now rewrite A in D|reflexivity].
Qed.
Lemma K_exec r : g_dead (gstate r) = false -> K (map a_name (h_adl (fst (hinit (hconf_of c) (u_nbs r))))) (gstate r).
Proof. destruct (gexec_shape c uri_of ang dst r) as [-> _]. intros D. apply K_run; [apply K_init|exact D]. Qed.

(** *** The routes of one prefix over one face *)

Lemma registered_sent t n f : registered t n f <-> sent n f (fouts t).
Proof.
  unfold registered, sent, fouts. split; intros (id & k & ttl & fl & H); exists id, k, ttl, fl.
  - apply in_flat_map. eexists. split; [exact H|now left].
  - apply in_flat_map in H as (y & Hy & H). destruct y; try contradiction. destruct H as [->|[]]. exact Hy.
Qed.
Lemma LV_step names n u f g x lv (reg : Prop) : ~ In n names -> K names g -> g_dead (fst (gstep g x)) = false ->
  (forall id, snd x <> GvFib (FvRegFail id)) ->
  sole_face (h_adl (g_h g)) u f -> sole_face (h_adl (g_h (fst (gstep g x)))) u f -> LV fc names n u f (g_fib g) lv reg ->
  LV fc names n u f (g_fib (fst (gstep g x))) (lives_from fc (g_fib g) lv (fibs (snd (gstep g x)))) (reg \/ registered (snd (gstep g x)) n f).
Proof.
  intros Hn I D' Nf S1 S2 V. pose proof (@K_step names g x I D') as I'. pose proof (good_step c uri_of ang dst x g) as T.
  pose proof (@step_shape g x (k_h I) D') as S. destruct (gstep g x) as [g' t]. cbn [fst snd] in *.
  pose proof (t_fib T) as Tf. 
  assert (Go : LV fc names n u f (fst (frun (g_fib g) (fibs t))) (lives_from fc (g_fib g) lv (fibs t)) (reg \/ sent n f (snd (frun (g_fib g) (fibs t)))) ->
     LV fc names n u f (g_fib g') (lives_from fc (g_fib g) lv (fibs t)) (reg \/ registered t n f)).
  { rewrite Tf. cbn [fst snd]. intros H. eapply lv_weaken; [|exact H]. intros [R|R]; [now left|right; now apply registered_sent]. }
  apply Go. clear Go Tf.
  destruct S as [(A1 & A2 & A3)|[(d & evs & sys & _ & A1 & A2 & A3 & A4)|[(q & evs & A1 & A2 & A3 & A4)|(id & X & _)]]].
  - apply lv_plain; auto. right. rewrite (k_same I). exact S1.
  - rewrite A1, lives_app, frun_app.
    assert (V1 := @lv_plain fc names n u f Hn evs (g_fib g) lv reg A2 ltac:(right; rewrite (k_same I); exact S1) V).
    rewrite run_app. destruct (frun (g_fib g) evs) as [s1 o1]. cbn [fst snd] in *.
    destruct (@lv_quiets fc names n u f [FvTime (g_now g')] s1 _ _ ltac:(constructor; [exact Logic.I|constructor]) V1) as [V2 _].
    destruct (frun s1 [FvTime (g_now g')]) as [s2 o2] eqn:E2. cbn [fst snd] in *. eapply lv_weaken; [|exact V2].
    intros [H|H]; [now left|]. right. cbn in E2. injection E2 as _ <-. now rewrite app_nil_r in H.
  - assert (Q : Forall (quiet_ev names) (q ++ [FvAdl (h_adl (g_h g'))])).
    { apply Forall_app. split; [|constructor; [exact (k_names I')|constructor]].
      destruct A4 as [->|(id & l & -> & E)]; [constructor|]. repeat constructor. cbn [quiet_ev]. rewrite E. exact (k_names I). }
    replace (fibs t) with ((q ++ [FvAdl (h_adl (g_h g'))]) ++ evs) by (rewrite A1, <- app_assoc; reflexivity).
    destruct (@lv_quiets fc names n u f _ (g_fib g) lv reg Q V) as [V1 N1].
    assert (Ad : f_adl (fst (frun (g_fib g) (q ++ [FvAdl (h_adl (g_h g'))]))) = h_adl (g_h g')) by (rewrite frun_app; reflexivity).
    rewrite lives_app, run_app. destruct (frun (g_fib g) (q ++ [FvAdl (h_adl (g_h g'))])) as [s1 o1]. cbn [fst snd] in *.
    assert (V2 := @lv_plain fc names n u f Hn evs s1 _ reg A2 ltac:(right; rewrite Ad; exact S2) V1).
    destruct (frun s1 evs) as [s2 o2]. cbn [fst snd] in *. eapply lv_weaken; [|exact V2]. intros [H|(id & k & ttl & fl & H)]; [now left|].
    apply in_app_or in H as [H|H]; [exfalso; apply N1|right]; exists id, k, ttl, fl; exact H.
  - exfalso. exact (Nf id X).
Qed.
Lemma lives_fibs r x : g_dead (gstate r) = false ->
  snd (ends (u_now r) (gtrace (extend r [x]))) = lives_from fc (g_fib (gstate r)) (snd (ends (u_now r) (gtrace r))) (fibs (snd (gstep (gstate r) x))).
Proof.
  intros _. destruct (extend_one c uri_of ang dst r x) as [_ ->]. unfold ends. rewrite fold_left_app. fold (ends (u_now r) (gtrace r)).
  pose proof (proj2 (tgood_step x (gstate r)) (snd (ends (u_now r) (gtrace r)))) as X. cbv beta in X.
  replace (ends (u_now r) (gtrace r)) with (f_now (g_fib (gstate r)), snd (ends (u_now r) (gtrace r))).
  - rewrite X. reflexivity.
  - rewrite ends_exec. reflexivity.
Qed.
End R.
