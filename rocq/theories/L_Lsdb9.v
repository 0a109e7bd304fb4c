(** Adjacency LSA builds: the pending-build invariant and the content of a completed build. *)
From Verif Require Import Base M_Nexthop M_Tlv M_Adj M_Lsa M_Lsdb S_Lsdb L_Lsdb L_Lsdb2 L_Lsdb3 L_Lsdb4 L_Lsdb5 L_Lsdb6 L_Lsdb7.
Open Scope Z_scope.
Set Implicit Arguments.

Definition armed (s : st) (t : nat) (due : Z) : Prop := get t (s_timers s) = Some (Timer due ABuild).

(** ** What does not touch builds *)

Record keepB (s s' : st) : Prop := KeepB
  { kB_count : s_count s' = s_count s; kB_sched : s_sched s' = s_sched s; kB_btid : s_btid s' = s_btid s;
    kB_armed : forall t due, armed s' t due <-> armed s t due }.

Lemma keepB_refl s : keepB s s. Proof. constructor; tauto. Qed.
Lemma keepB_trans a b c : keepB a b -> keepB b c -> keepB a c.
Proof.
  intros [] []. constructor; try congruence. intros t due. rewrite kB_armed1. apply kB_armed0.
Qed.

Definition quietB (a : act) : Prop := forall s, invS None s -> invS None (fst (a s)) /\ keepB s (fst (a s)).
Lemma quietB_andthen f g : quietB f -> quietB g -> quietB (f ;; g).
Proof.
  intros Hf Hg s I. rewrite andthen_fst. destruct (Hf s I) as [I1 K1]. destruct (Hg _ I1) as [I2 K2].
  split; [exact I2|eapply keepB_trans; eassumption].
Qed.
Lemma quietB_ret : quietB ret. Proof. intros s I. split; [exact I|apply keepB_refl]. Qed.
Lemma quietB_emit o : quietB (emit o). Proof. intros s I. split; [exact I|apply keepB_refl]. Qed.
Lemma quietB_same a : keeps a -> (forall s, s_count (fst (a s)) = s_count s /\ s_sched (fst (a s)) = s_sched s) -> quietB a.
Proof.
  intros K C s I. destruct (C s) as [C1 C2]. pose proof (K s) as S. split; [eapply invS_same; eassumption|].
  destruct S as (_ & _ & _ & E & _ & B). constructor; auto. unfold armed. rewrite <- E. tauto.
Qed.
Lemma quietB_bump t : quietB (bump t). Proof. apply quietB_same; [apply keeps_bump|]. now intros s. Qed.
Lemma quietB_write : quietB write_seqs. Proof. apply quietB_same; [apply keeps_write|]. now intros s. Qed.
Lemma quietB_publish t : quietB (publish t). Proof. apply quietB_same; [apply keeps_publish|]. now intros s. Qed.
Lemma quietB_setseq t q : quietB (upd (fun s => w_seqs (seq_set t q (s_seqs s)) s)).
Proof. apply quietB_same; [apply keeps_setseq|]. now intros s. Qed.
Lemma quietB_throw : quietB throw. Proof. apply quietB_same; [apply keeps_throw|]. now intros s. Qed.
Lemma quietB_ub : quietB ub. Proof. apply quietB_same; [apply keeps_ub|]. now intros s. Qed.
Lemma quietB_fetch g : quietB (upd (fun s => w_fetch (g s) (s_nfid s) s)).
Proof. apply quietB_same; [intros s; repeat split|]. now intros s. Qed.
Lemma quietB_sto g : quietB (upd (fun s => w_sto (g s) s)).
Proof. apply quietB_same; [intros s; repeat split|]. now intros s. Qed.

Lemma keepB_schedule d a s : (forall t tm, get t (s_timers s) = Some tm -> (t < s_ntid s)%nat) -> a <> ABuild ->
  keepB s (fst (schedule d a s)).
Proof.
  intros H Ha. constructor; try reflexivity. intros t due. unfold armed, schedule. cbn [fst s_timers w_timers].
  rewrite get_set. eqb_case t (s_ntid s); [|tauto]. split.
  - intros X. injection X as _ X. contradiction.
  - intros X. apply H in X. lia.
Qed.
Lemma invS_lt ex s : invS ex s -> forall t tm, get t (s_timers s) = Some tm -> (t < s_ntid s)%nat.
Proof. intros I t tm H. exact (proj1 (iS_timer I _ H)). Qed.

Lemma keepB_schedule_expiration oid secs s :
  (forall t tm, get t (s_timers s) = Some tm -> (t < s_ntid s)%nat) ->
  (forall o t tm, get oid (s_heap s) = Some o -> o_tid o = Some t -> get t (s_timers s) = Some tm -> t_act tm <> ABuild) ->
  keepB s (schedule_expiration oid secs s).
Proof.
  intros H Ho. unfold schedule_expiration.
  pose proof (@keepB_schedule ((secs + GRACE_PERIOD) * SEC) (AExpire oid) s H ltac:(discriminate)) as K.
  unfold schedule in *. cbn [fst] in K. cbn [s_heap w_timers].
  destruct (get oid (s_heap s)) as [o|] eqn:Eo; [|exact K].
  eapply keepB_trans; [exact K|]. unfold cancel. destruct (o_tid o) as [i|] eqn:Ei; [|now constructor].
  constructor; try reflexivity. intros t due. unfold armed. cbn [s_timers w_timers w_heap].
  rewrite get_del. eqb_case t i; [|tauto]. split; [discriminate|]. rewrite get_set.
  eqb_case i (s_ntid s); [discriminate|]. intros X. exfalso.
  apply (Ho _ _ _ eq_refl Ei X). reflexivity.
Qed.

Lemma quietB_install c sys l : quietB (install c sys l).
Proof.
  intros s I. split; [now apply (@invS_install c sys l None s)|].
  unfold install. destruct (find_oid (l_key l) s) as [oid|] eqn:Ef.
  - destruct (get oid (s_heap s)) as [o|] eqn:Eo; [|apply keepB_refl].
    destruct (l_seq (o_lsa o) <? l_seq l)%N; [|apply keepB_refl].
    destruct (update_body _ _) as [[[u b] ad] re]. cbn [fst].
    eapply keepB_trans; [|apply keepB_schedule_expiration].
    + now constructor.
    + exact (invS_lt I).
    + cbn [s_heap s_timers w_heap]. intros o' t tm X Y Z. rewrite get_set_eq in X. injection X as <-.
      cbn [o_tid] in Y. pose proof (proj2 (proj2 (iS_heap I _ Eo) _ Y) _ Z) as W. rewrite W. discriminate.
  - cbn [fst]. eapply keepB_trans; [|apply keepB_schedule_expiration].
    + now constructor.
    + exact (invS_lt I).
    + cbn [s_heap s_timers w_heap w_store]. intros o' t tm X Y. rewrite get_set_eq in X. injection X as <-. discriminate.
Qed.

Lemma quietB_build c e t : quietB (build c e t).
Proof.
  intros s I. unfold build.
  match goal with |- context [?a s] => assert (Q : quietB a); [|exact (Q s I)] end.
  repeat (apply quietB_andthen; [solve [apply quietB_bump|apply quietB_write|
    destruct (publishes _ _); [apply quietB_publish|apply quietB_ret]]|]). apply quietB_install.
Qed.
Lemma quietB_ext a b : (forall s, a s = b s) -> quietB b -> quietB a.
Proof. intros E H s. rewrite E. apply H. Qed.
Lemma quietB_build_name c e : quietB (build_name c e).
Proof. eapply quietB_ext; [apply build_name_build|apply quietB_build]. Qed.
Lemma quietB_build_coord c e : quietB (build_coord c e).
Proof. eapply quietB_ext; [apply build_coord_build|apply quietB_build]. Qed.
Lemma quietB_build_own_adj c e : quietB (build_own_adj c e).
Proof. eapply quietB_ext; [apply build_adj_build|apply quietB_build]. Qed.
Lemma quietB_remove k : quietB (remove k).
Proof.
  intros s I. split; [now apply invS_remove|]. unfold remove. destruct (find_lsa k s); now constructor.
Qed.

Lemma keepB_expire c sys oid s : invS (Some oid) s -> keepB s (fst (expire_or_refresh c sys oid s)).
Proof.
  intros I. unfold expire_or_refresh. destruct (get oid (s_heap s)) as [o|]; [|apply keepB_refl].
  destruct (find_oid _ s) as [oid'|]; [|apply keepB_refl].
  destruct (get oid' (s_heap s)) as [o'|] eqn:Eo'; [|apply keepB_refl].
  destruct (_ =? _)%N; [|apply keepB_refl]. destruct (eqb _ _).
  - match goal with |- keepB s (fst ((write_seqs ;; publish _) ?x)) => change (keepB s x) end.
    eapply keepB_trans; [|apply keepB_schedule_expiration].
    + now constructor.
    + exact (invS_lt I).
    + cbn [s_heap s_timers w_heap w_seqs]. intros o2 t tm X Y Z. rewrite get_set_eq in X. injection X as <-.
      cbn [o_tid] in Y. pose proof (proj2 (proj2 (iS_heap I _ Eo') _ Y) _ Z) as W. rewrite W. discriminate.
  - unfold remove. destruct (find_lsa _ s); now constructor.
Qed.

Lemma note_high_count n q s s1 : note_high n q s = Some s1 -> s_count s1 = s_count s /\ s_sched s1 = s_sched s.
Proof.
  unfold note_high. destruct (get _ _) as [h|].
  - destruct (_ <? _)%N; [intros E; injection E as <-; now split|]. destruct (_ <? _)%N; [discriminate|].
    intros E; injection E as <-; now split.
  - intros E; injection E as <-; now split.
Qed.

Lemma quietB_express i n f d : quietB (express i n f d).
Proof.
  apply quietB_same; [apply keeps_express|]. intros s. unfold express. destruct (back 1 i) as [cq|]; [|now split].
  destruct (to_number cq) as [q|]; [|now split]. destruct (note_high _ q s) as [s1|] eqn:E; [|now split].
  apply note_high_count in E. rewrite !andthen_fst. cbn [emit upd fst].
  destruct (back 2 i) as [ct|]; [|exact E]. unfold stat_type. destruct (comp_type ct); exact E.
Qed.

Lemma quietB_after_fetch c sys i l : quietB (after_fetch c sys i l).
Proof.
  intros s I. unfold after_fetch. destruct (back 1 i) as [cq|]; [|now apply quietB_ub].
  destruct (to_number cq) as [q|].
  2: { apply (quietB_andthen (quietB_emit _) quietB_throw I). }
  destruct (note_high _ q s) as [s1|] eqn:E; [|split; [exact I|apply keepB_refl]].
  pose proof (note_high_same _ _ _ E) as S. pose proof (note_high_count _ _ _ E) as [C1 C2].
  assert (K1 : invS None s1 /\ keepB s s1).
  { split; [eapply invS_same; eassumption|]. destruct S as (_ & _ & _ & X & _ & B). constructor; auto.
    unfold armed. rewrite <- X. tauto. }
  destruct K1 as [I1 K1].
  assert (G : forall a, quietB a -> invS None (fst (a s1)) /\ keepB s (fst (a s1))).
  { intros a Ha. destruct (Ha s1 I1) as [A B]. split; [exact A|eapply keepB_trans; eassumption]. }
  apply G. apply quietB_andthen; [apply quietB_emit|].
  destruct (name_origin c i); [|apply quietB_ret]. destruct (back 2 i) as [ct|]; [|apply quietB_ub].
  destruct (comp_type ct) as [t|]; [|apply quietB_ret]. apply quietB_andthen; [apply quietB_emit|].
  intros s2 I2. destruct (is_new _ _ _ _); [|split; [exact I2|apply keepB_refl]].
  destruct l as [l|]; [|split; [exact I2|apply keepB_refl]].
  destruct (eqb _ _); [now apply quietB_install|split; [exact I2|apply keepB_refl]].
Qed.

Lemma quietB_schedule (f : st -> st) d a : a <> ABuild -> (forall oid, a <> AExpire oid) ->
  (forall s, sameS s (f s) /\ s_count (f s) = s_count s /\ s_sched (f s) = s_sched s) ->
  quietB (upd (fun s => fst (schedule d a (f s)))).
Proof.
  intros H1 H2 Hf s I. destruct (Hf s) as (S & C1 & C2). cbn [upd fst].
  assert (I1 : invS None (f s)) by (eapply invS_same; eassumption).
  split; [now apply invS_schedule|]. eapply keepB_trans; [|apply keepB_schedule; [exact (invS_lt I1)|exact H1]].
  destruct S as (_ & _ & _ & X & _ & B). constructor; auto. unfold armed. rewrite <- X. tauto.
Qed.

Lemma quietB_fetch_done c sys fid l : quietB (fetch_done c sys fid l).
Proof.
  intros s I. unfold fetch_done. destruct (get fid (s_fetch s)) as [f|]; [|split; [exact I|apply keepB_refl]].
  match goal with |- context [?a s] => assert (Q : quietB a); [|exact (Q s I)] end.
  apply quietB_andthen; [apply quietB_sto|]. apply quietB_andthen; [apply quietB_after_fetch|apply quietB_fetch].
Qed.
Lemma quietB_fetch_err c fid t : quietB (fetch_err c fid t).
Proof.
  intros s I. unfold fetch_err. destruct (get fid (s_fetch s)) as [f|]; [|split; [exact I|apply keepB_refl]].
  match goal with |- context [?a s] => assert (Q : quietB a); [|exact (Q s I)] end.
  apply quietB_andthen; [|apply quietB_fetch]. clear s I.
  intros s I. unfold on_error.
  destruct (back 1 (f_iname f)) as [cq|]; [|now apply quietB_ub].
  destruct (to_number cq); [|now apply quietB_throw].
  destruct (_ && _); [|split; [exact I|apply keepB_refl]].
  match goal with |- context [schedule ?d ?a s] =>
    exact (@quietB_schedule (fun s => s) d a ltac:(discriminate) ltac:(discriminate)
             ltac:(intros s'; split; [repeat split|now split]) s I) end.
Qed.
Lemma quietB_segment fid n d : quietB (segment_validated fid n d).
Proof.
  intros s I. unfold segment_validated. destruct (get fid (s_fetch s)); [|split; [exact I|apply keepB_refl]].
  match goal with |- context [?a s] => assert (Q : quietB a); [|exact (Q s I)] end.
  apply quietB_andthen; [apply quietB_emit|].
  apply (@quietB_schedule (fun s => w_sto ((n, d) :: s_sto s) s)); try discriminate.
  intros s'. split; [repeat split|now split].
Qed.
Lemma quietB_sync c e u q face : quietB (on_sync c e u q face).
Proof.
  intros s I. unfold on_sync, process_update.
  destruct (update_origin u) as [o|]; [|split; [exact I|apply keepB_refl]].
  destruct (back 1 u) as [ct|]; [|now apply quietB_ub].
  destruct (eqb o (c_self c)).
  - destruct (is_new _ _ _ _); [|split; [exact I|apply keepB_refl]].
    destruct (comp_type ct) as [[]|]; [| | |split; [exact I|apply keepB_refl]].
    + destruct (eqb _ _); [|split; [exact I|apply keepB_refl]].
      exact (quietB_andthen (quietB_setseq _ _) (quietB_build_own_adj c e) I).
    + destruct (eqb _ _); [|split; [exact I|apply keepB_refl]].
      exact (quietB_andthen (quietB_setseq _ _) (quietB_build_coord c e) I).
    + exact (quietB_andthen (quietB_setseq _ _) (quietB_build_name c e) I).
  - destruct (is_new _ _ _ _); [|split; [exact I|apply keepB_refl]].
    destruct (_ && _ && _); [split; [exact I|apply keepB_refl]|].
    destruct (_ && _ && _); [split; [exact I|apply keepB_refl]|].
    exact (quietB_andthen (quietB_emit _) (@quietB_express _ _ _ _) I).
Qed.
Lemma quietB_fifo c es : quietB (upd (fun s => fold_left (fun s e => fifo_insert c e s) es s)).
Proof.
  intros s. cbn [upd fst]. revert s. induction es as [|e es IH]; intros s I; [split; [exact I|apply keepB_refl]|].
  cbn [fold_left].
  assert (Q : invS None (fifo_insert c e s) /\ keepB s (fifo_insert c e s)).
  { apply (@quietB_schedule (fun s => w_fifo ((if Nat.leb FIFO_LIMIT (length (s_fifo s)) then tl (s_fifo s) else s_fifo s) ++ [e]) s)
      (c_refresh c * SEC) (AFifo (fst e)) ltac:(discriminate) ltac:(discriminate)); [|exact I].
    intros s'. split; [repeat split|now split]. }
  destruct Q as [I1 K1]. destruct (IH _ I1) as [A B]. split; [exact A|eapply keepB_trans; eassumption].
Qed.
Lemma quietB_interest c i p k v : quietB (process_interest c i p k v).
Proof.
  intros s I. unfold process_interest. destruct (back 2 i) as [cv|]; [|now apply quietB_ub].
  destruct (if is_version cv then _ else _) as [[n [l k']]|]; [split; [exact I|apply keepB_refl]|].
  match goal with |- context [?a s] => assert (Q : quietB a); [|exact (Q s I)] end. clear s I.
  apply quietB_andthen; [apply quietB_emit|].
  assert (St : quietB (serve_stored i p)).
  { intros s I. unfold serve_stored. destruct (find _ _) as [[n d]|]; (split; [exact I|apply keepB_refl]). }
  destruct (name_origin _ _) as [o|]; [|exact St]. destruct (eqb _ _); [|exact St].
  destruct (back 1 _) as [cq|]; [|apply quietB_ub]. destruct (back 2 _) as [ct|]; [|apply quietB_ub].
  destruct (to_number cq); [|apply quietB_throw]. destruct (comp_type ct); [|apply quietB_ret].
  apply quietB_andthen; [apply quietB_emit|].
  intros s I. unfold interest_for_lsa. destruct (find_lsa _ s) as [l0|]; [|split; [exact I|apply keepB_refl]].
  destruct (_ =? _)%N; [|split; [exact I|apply keepB_refl]].
  match goal with |- context [?a s] => assert (Q : quietB a); [|exact (Q s I)] end. clear s I.
  apply quietB_andthen; [apply quietB_fifo|]. apply quietB_andthen.
  - destruct (nth_error _ _) as [[n' [l' k']]|]; [apply quietB_emit|apply quietB_ret].
  - apply quietB_andthen; apply quietB_emit.
Qed.

(** ** The invariant *)

Record invB (c : conf) (s : st) : Prop := InvB
  { iB_pos : 0 <= s_count s;
    iB_one : forall t due, armed s t due -> s_btid s = Some t;
    iB_on : c_hyp c = HOn -> forall t due, ~ armed s t due;
    iB_iff : c_hyp c <> HOn -> (0 < s_count s <-> exists t due, armed s t due) }.

Lemma invB_keep c s s' : keepB s s' -> invB c s -> invB c s'.
Proof.
  intros [K1 K2 K3 K4] [A B C D]. constructor.
  - rewrite K1. exact A.
  - intros t due H. rewrite K3. apply (B t due). now apply K4.
  - intros H t due X. apply (C H t due). now apply K4.
  - intros H. rewrite K1, (D H). split; intros (t & due & X); exists t, due; now apply K4.
Qed.

Lemma schedule_build_spec ex d s : invS ex s -> (forall t due, armed s t due -> s_btid s = Some t) ->
  let s' := schedule_build d s in
  (forall t due, armed s' t due <-> t = s_ntid s /\ due = s_now s + d) /\
  s_btid s' = Some (s_ntid s) /\ s_count s' = s_count s /\ s_sched s' = true.
Proof.
  intros I H s'. unfold s', schedule_build, schedule. clear s'.
  assert (G : forall t due, armed (cancel (s_btid (w_timers (set (s_ntid s) (Timer (s_now s + d) ABuild) (s_timers s)) (S (s_ntid s)) s))
      (w_timers (set (s_ntid s) (Timer (s_now s + d) ABuild) (s_timers s)) (S (s_ntid s)) s)) t due <-> t = s_ntid s /\ due = s_now s + d).
  { intros t due. unfold armed, cancel. cbn [s_btid w_timers].
    destruct (s_btid s) as [b|] eqn:Eb; cbn [s_timers w_timers].
    - pose proof (proj1 (iS_btid I Eb)) as Hb. rewrite get_del. eqb_case t b.
      + split; [discriminate|]. intros [-> _]. lia.
      + rewrite get_set. eqb_case t (s_ntid s).
        * split; [intros X; injection X as <-; now split|intros [_ ->]; reflexivity].
        * split; [|intros [-> _]; contradiction]. intros X. apply H in X. congruence.
    - rewrite get_set. eqb_case t (s_ntid s).
      + split; [intros X; injection X as <-; now split|intros [_ ->]; reflexivity].
      + split; [|intros [-> _]; contradiction]. intros X. apply H in X. discriminate. }
  split; [exact G|]. split; [reflexivity|]. unfold cancel. cbn. destruct (s_btid s); now split.
Qed.

Lemma invB_schedule_build c ex d s : invS ex s -> c_hyp c <> HOn -> 0 < s_count s ->
  (forall t due, armed s t due -> s_btid s = Some t) -> invB c (schedule_build d s).
Proof.
  intros I Hh Hc H. destruct (@schedule_build_spec ex d s I H) as (A & B & C & D). constructor.
  - rewrite C. lia.
  - intros t due X. apply A in X. destruct X as [-> _]. exact B.
  - contradiction.
  - intros _. rewrite C. split; [|intros _; exact Hc]. intros _. exists (s_ntid s), (s_now s + d). now apply A.
Qed.

Lemma invB_fire c s e tid : invS None s -> invB c s -> invB c (fst (fire c e tid s)).
Proof.
  intros I H. unfold fire. destruct (get tid (s_timers s)) as [[due a]|] eqn:Et; [|exact H].
  cbn [t_due t_act]. destruct (due <=? s_now s); [|exact H].
  set (s1 := w_timers (del tid (s_timers s)) (s_ntid s) s).
  assert (K1 : a <> ABuild -> keepB s s1).
  { intros Ha. constructor; try reflexivity. intros t d. unfold armed. cbn [s_timers w_timers s1].
    rewrite get_del. eqb_case t tid; [|tauto]. split; [discriminate|]. rewrite Et. intros X. injection X as _ X. contradiction. }
  assert (I1 : (forall oid, a <> AExpire oid) -> invS None s1).
  { intros Ha. apply invS_del_timer; [exact I|]. intros oid tm X Y. exfalso. rewrite Et in X. injection X as <-.
    exact (Ha _ Y). }
  destruct a as [oid| |i n d|n|n].
  - apply invB_keep with s1; [|apply invB_keep with s; [apply K1; discriminate|exact H]].
    apply keepB_expire. apply invS_del_timer; [now apply invS_weaken|]. intros oid' tm X Y. rewrite Et in X. injection X as <-.
    cbn in Y. congruence.
  - specialize (I1 ltac:(discriminate)).
    assert (Hh : c_hyp c <> HOn) by (intros X; exact (iB_on H X Et)).
    assert (N1 : forall t d, ~ armed s1 t d).
    { intros t d X. unfold armed in X. cbn [s_timers w_timers s1] in X. rewrite get_del in X.
      eqb_cases; [discriminate|]. pose proof (iB_one H X). pose proof (iB_one H Et). congruence. }
    assert (Hc : 0 < s_count s) by (apply (iB_iff H Hh); eauto).
    unfold build_adj. set (s0 := w_build false (s_count s1) (s_btid s1) s1).
    assert (I0 : invS None s0) by (eapply invS_same; [|exact I1]; repeat split).
    destruct (is_buildable _ _).
    + change (s_count s0) with (s_count s). destruct (Z.ltb_spec 0 (s_count s)); [|lia].
      rewrite andthen_fst. cbn [upd fst].
      assert (Q : quietB (if Nat.ltb 0 (num_active (e_adl e)) then build_own_adj c e else remove (c_self c, TAdj))).
      { destruct (Nat.ltb _ _); [apply quietB_build_own_adj|apply quietB_remove]. }
      destruct (Q s0 I0) as [_ [Q1 Q2 Q3 Q4]].
      set (s2 := fst _) in *. 
      assert (N2 : forall t d, ~ armed s2 t d) by (intros t d X; apply Q4 in X; exact (N1 _ _ X)).
      constructor.
      * cbn. rewrite Q1. change (s_count s0) with (s_count s). lia.
      * intros t d X. exfalso. exact (N2 _ _ X).
      * contradiction.
      * intros _. cbn. rewrite Q1. change (s_count s0) with (s_count s). split; [lia|].
        intros (t & d & X). exfalso. exact (N2 _ _ X).
    + cbn [fst]. apply (@invB_schedule_build c None); [exact I0|exact Hh|exact Hc|].
      intros t d X. exfalso. exact (N1 _ _ X).
  - apply invB_keep with s1; [|apply invB_keep with s; [apply K1; discriminate|exact H]].
    apply (@quietB_express i n 0 (Some d) s1). apply I1. discriminate.
  - apply invB_keep with s1; [|apply invB_keep with s; [apply K1; discriminate|exact H]]. now constructor.
  - apply invB_keep with s1; [|apply invB_keep with s; [apply K1; discriminate|exact H]]. now constructor.
Qed.

Lemma invB_step c s x : invS None s -> invB c s -> invB c (fst (step c s x)).
Proof.
  intros I H. unfold step. destruct (s_dead s); [exact H|]. destruct x as [e v].
  assert (Q : forall a, quietB a -> invB c (fst (a s))).
  { intros a Ha. eapply invB_keep; [apply (Ha s I)|exact H]. }
  destruct v; cbn [step_live].
  - apply invB_keep with s; [now constructor|exact H].
  - apply Q, quietB_sync.
  - now apply invB_fire.
  - apply Q, quietB_fetch_done.
  - apply Q, quietB_fetch_err.
  - apply Q, quietB_segment.
  - destruct (is_prefix _ _); [|exact H]. apply Q, quietB_interest.
  - apply Q, quietB_build_name.
  - unfold schedule_adj_build. destruct H as [A B C D]. eqb_case (c_hyp c) HOn.
    + constructor; cbn [fst s_count w_build]; auto; try lia. congruence.
    + apply (@invB_schedule_build c None); cbn [s_count w_build]; trivial; [|lia].
      eapply invS_same; [|exact I]. repeat split.
Qed.

Lemma invB_exec c f now e0 evs : invB c (fst (exec c f now e0 evs)).
Proof.
  induction evs as [|x evs IH] using rev_ind.
  - rewrite exec_fst. cbn [run fst]. unfold init.
    assert (H0 : invB c (blank (seqs_from_file c f) now)).
    { constructor; [cbn; lia|discriminate|discriminate|]. intros _. cbn. split; [lia|]. intros (t & d & X). discriminate. }
    eapply invB_keep; [|exact H0].
    assert (Q : quietB (build_name c e0 ;; (if eqb (c_hyp c) HOff then ret else build_coord c e0))).
    { apply quietB_andthen; [apply quietB_build_name|]. destruct (eqb _ _); [apply quietB_ret|apply quietB_build_coord]. }
    apply (Q (blank (seqs_from_file c f) now) (invS_blank _ _)).
  - rewrite exec_fst in *. rewrite run_snoc. pose proof (invS_exec c f now e0 evs) as I. rewrite exec_fst in I.
    destruct (run (step c) (fst (init c f now e0)) evs) as [s o]. cbn [fst] in *.
    pose proof (invB_step x I IH) as H. destruct (step c s x). exact H.
Qed.

(** ** Own LSAs never overtake the sequence counter *)

Definition body_adl (b : body) : adl := match b with BAdj l => l | _ => [] end.
Definition own_ok (c : conf) (s : st) : Prop :=
  forall t l, find_lsa (c_self c, t) s = Some l ->
    (l_seq l <= seq_get t (s_seqs s))%N /\ NoDup (map a_name (body_adl (l_body l))).

Lemma adl_find_none n l : adl_find n l = None -> ~ In n (map a_name l).
Proof.
  induction l as [|a l IH]; [intros _ []|]. simpl. eqb_case (a_name a) n; [discriminate|].
  intros X [Y|Y]; [contradiction|now apply IH].
Qed.
Lemma adl_find_some n l a : adl_find n l = Some a -> In a l /\ a_name a = n.
Proof.
  induction l as [|b l IH]; [discriminate|]. simpl. eqb_case (a_name b) n.
  - intros X. injection X as <-. auto.
  - intros X. apply IH in X. tauto.
Qed.

Lemma adl_fold_spec l m : NoDup (map a_name m) ->
  let r := fold_left (fun m a => snd (adl_insert a m)) l m in
  NoDup (map a_name r) /\ (forall a, In a r -> In a m \/ In a l) /\
  (forall n, In n (map a_name r) <-> In n (map a_name m) \/ In n (map a_name l)).
Proof.
  revert m. induction l as [|a l IH]; intros m Hm; cbn [fold_left].
  { split; [exact Hm|]. split; [auto|]. intros n. simpl. tauto. }
  assert (E : NoDup (map a_name (snd (adl_insert a m))) /\
     (forall x, In x (snd (adl_insert a m)) -> In x m \/ x = a) /\
     (forall n, In n (map a_name (snd (adl_insert a m))) <-> In n (map a_name m) \/ n = a_name a)).
  { unfold adl_insert. destruct (adl_find (a_name a) m) as [b|] eqn:E; cbn [snd].
    - apply adl_find_some in E. destruct E as [E1 E2]. split; [exact Hm|]. split; [auto|].
      intros n. split; [auto|]. intros [H|H]; [exact H|]. subst n. rewrite <- E2. now apply in_map.
    - apply adl_find_none in E. rewrite map_app. split; [|split].
      + simpl. apply (@Permutation.Permutation_NoDup _ (a_name a :: map a_name m)).
        * apply Permutation.Permutation_cons_append.
        * now constructor.
      + intros x H. apply in_app_iff in H. simpl in H. destruct H as [H|[H|[]]]; auto.
      + intros n. rewrite in_app_iff. simpl. split; intros [H|H]; auto.
        destruct H as [H|[]]; auto. }
  destruct E as (E1 & E2 & E3). destruct (IH _ E1) as (A & B & C). split; [exact A|]. split.
  - intros x H. apply B in H. destruct H as [H|H]; [|right; now right]. apply E2 in H.
    destruct H as [H|H]; [now left|subst x; right; now left].
  - intros n. rewrite C, E3. simpl. split; intros H; intuition.
Qed.
Lemma adl_of_list_spec l : NoDup (map a_name (adl_of_list l)) /\ (forall a, In a (adl_of_list l) -> In a l) /\
  (forall n, In n (map a_name (adl_of_list l)) <-> In n (map a_name l)).
Proof.
  destruct (@adl_fold_spec l [] (NoDup_nil _)) as (A & B & C). split; [exact A|]. split.
  - intros a H. apply B in H. destruct H as [[]|H]. exact H.
  - intros n. rewrite (C n). simpl. tauto.
Qed.

Lemma merged_adj o l : body_type (l_body o) = body_type (l_body l) ->
  NoDup (map a_name (body_adl (l_body o))) -> NoDup (map a_name (body_adl (l_body (merged o l)))).
Proof.
  intros Ht Hn. unfold merged, update_body. destruct (l_body o), (l_body l); try discriminate; cbn [l_body snd fst body_adl] in *.
  - destruct (adl_eqb _ _); cbn; [exact Hn|apply adl_of_list_spec].
  - destruct (_ && _); cbn; constructor.
  - destruct (update_name _ _) as [[[? ?] ?] ?]. cbn. constructor.
Qed.

Lemma own_adl_nodup l : NoDup (map a_name (own_adl l)).
Proof. apply adl_of_list_spec. Qed.

Lemma own_ok_step c s x s' o : invS None s -> own_ok c s -> eff c s x s' o ->
  (forall fid l, snd x = EFetchDone fid (Some l) -> l_origin l <> c_self c) -> own_ok c s'.
Proof.
  intros I H E Hf t l Hl. inversion E; subst; clear E.
  - rewrite H0 in Hl. rewrite H1. now apply H.
  - rewrite (H10 (c_self c, t)) in Hl. eqb_case (c_self c, t) (l_key l0).
    + exfalso. apply (Hf _ _ H0). injection E as E _. now symmetry.
    + rewrite H11. now apply H.
  - rewrite (H6 (c_self c, t)) in Hl. set (t0 := body_type b) in *.
    change (l_key (own c t0 (q0 + 1) (e_sys (fst x)) b)) with (c_self c, t0) in Hl.
    rewrite H5. eqb_case (c_self c, t) (c_self c, t0).
    + injection E as ->. rewrite seq_get_set. injection Hl as <-.
      assert (Nb : NoDup (map a_name (body_adl b))).
      { destruct b; cbn; try constructor. specialize (H3 eq_refl). injection H3 as ->. apply own_adl_nodup. }
      destruct (find_lsa (c_self c, t0) s) as [y|] eqn:Ey; cbn [offer].
      * destruct (H _ _ Ey) as [Y1 Y2]. pose proof (@find_key _ _ _ _ I Ey) as Ky.
        destruct (N.ltb_spec (l_seq y) (l_seq (own c t0 (q0 + 1) (e_sys (fst x)) b))) as [Hlt|Hge].
        -- split; [cbn; lia|]. apply merged_adj; [|exact Y2]. injection Ky as _ Ky. exact Ky.
        -- split; [|exact Y2]. cbn in Hge.
           destruct H0 as [[-> _]|(u & q & face & Hx & Hu & _ & -> & Hnew & _)]; [lia|].
           unfold is_new in Hnew. rewrite Ey in Hnew. apply N.ltb_lt in Hnew. lia.
      * split; [cbn; lia|exact Nb].
    + rewrite seq_get_set_ne by congruence. now apply H.
  - rewrite (H3 (c_self c, t)) in Hl. rewrite H4. eqb_case (c_self c, t) (l_key l0).
    + injection Hl as <-. injection E as _ ->. rewrite seq_get_set. cbn. split; [lia|].
      apply (H (l_type l0) l0). rewrite <- H1. f_equal. unfold l_key. congruence.
    + assert (t <> l_type l0) by (intros ->; apply E; unfold l_key; congruence).
      rewrite seq_get_set_ne by assumption. now apply H.
  - rewrite (H3 (c_self c, t)) in Hl. rewrite H4. destruct (eqb _ _); [discriminate|now apply H].
  - rewrite (H3 (c_self c, t)) in Hl. rewrite H4. destruct (eqb _ _); [discriminate|now apply H].
Qed.

Lemma own_ok_exec c f now e0 evs : no_forged_own c evs -> own_ok c (fst (exec c f now e0 evs)).
Proof.
  pose proof (@exec_eff_ind c f now e0 (fun evs s _ => no_forged_own c evs -> own_ok c s)) as Ind. apply Ind; clear Ind evs.
  - intros _ t l H. discriminate.
  - intros s o s' o' I H E _ Hn. eapply own_ok_step; [exact I|exact (H Hn)|exact E|discriminate].
  - intros evs s o x s' o' Es Eo I H E Hn. eapply own_ok_step; [exact I| |exact E|].
    + apply H. intros e fid l Hin. apply (Hn e fid). apply in_app_iff. auto.
    + intros fid l Hx. destruct x as [e v]. cbn in Hx. subst v. apply (Hn e fid). apply in_app_iff. simpl. auto.
Qed.
