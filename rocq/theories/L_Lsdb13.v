(** What an event does to the stored segments and to the timers that drop them. *)
From Verif Require Import Base M_Nexthop M_Tlv M_Adj M_Lsa M_Lsdb S_Lsdb L_Lsdb L_Lsdb2 L_Lsdb3 L_Lsdb4 L_Lsdb5 L_Lsdb6 L_Lsdb7 L_Lsdb9 L_Lsdb11 L_Lsdb12.
Open Scope Z_scope.
Set Implicit Arguments.

(** Timers that drop segments: of other routers ([k]) or of this router. *)
Definition drops (k : bool) (a : action) : bool := match a with ASto _ => k | AFifo _ => negb k | _ => false end.
Definition seen (k : bool) (s s' : st) : Prop := if k then s_sto s' = s_sto s else s_fifo s' = s_fifo s.

Section Caches.
Variables (c : conf) (sys : Z) (k : bool).

Record keepC (s s' : st) : Prop := KeepC
  { kC_seen : seen k s s';
    kC_timer : forall t tm, drops k (t_act tm) = true -> get t (s_timers s') = Some tm <-> get t (s_timers s) = Some tm;
    kC_now : s_now s' = s_now s }.

Lemma seen_refl s : seen k s s. Proof. unfold seen. now destruct k. Qed.
Lemma keepC_refl s : keepC s s.
Proof. constructor; [apply seen_refl|tauto|reflexivity]. Qed.
Lemma keepC_trans a b d : keepC a b -> keepC b d -> keepC a d.
Proof.
  intros [A B C] [A' B' C']. constructor; [unfold seen in *; destruct k; congruence| |congruence].
  intros t tm H. now rewrite B', B.
Qed.

Definition quietC (a : act) : Prop := forall s, invS None s -> invS None (fst (a s)) /\ keepC s (fst (a s)).
Lemma quietC_andthen f g : quietC f -> quietC g -> quietC (f ;; g).
Proof.
  intros Hf Hg s I. rewrite andthen_fst. destruct (Hf s I) as [I1 K1]. destruct (Hg _ I1) as [I2 K2].
  split; [exact I2|eapply keepC_trans; eassumption].
Qed.
Lemma quietC_ret : quietC ret. Proof. intros s I. split; [exact I|apply keepC_refl]. Qed.
Lemma quietC_emit o : quietC (emit o). Proof. intros s I. split; [exact I|apply keepC_refl]. Qed.
Lemma keepC_same s s' : s_timers s = s_timers s' -> seen k s s' -> s_now s' = s_now s -> keepC s s'.
Proof. intros E V N. constructor; [exact V| |exact N]. intros t tm _. now rewrite E. Qed.
Lemma quietC_same a : keeps a -> (forall s, seen k s (fst (a s)) /\ s_now (fst (a s)) = s_now s) -> quietC a.
Proof.
  intros K C s I. pose proof (K s) as S. destruct (C s) as (C1 & C2). split; [eapply invS_same; eassumption|].
  destruct S as (_ & _ & _ & E4 & _). now apply keepC_same.
Qed.
Ltac same := intros s; split; [unfold seen; now destruct k|reflexivity].
Lemma quietC_bump t : quietC (bump t). Proof. apply quietC_same; [apply keeps_bump|same]. Qed.
Lemma quietC_write : quietC write_seqs. Proof. apply quietC_same; [apply keeps_write|same]. Qed.
Lemma quietC_publish t : quietC (publish t). Proof. apply quietC_same; [apply keeps_publish|same]. Qed.
Lemma quietC_setseq t q : quietC (upd (fun s => w_seqs (seq_set t q (s_seqs s)) s)).
Proof. apply quietC_same; [apply keeps_setseq|same]. Qed.
Lemma quietC_throw : quietC throw. Proof. apply quietC_same; [apply keeps_throw|same]. Qed.
Lemma quietC_ub : quietC ub. Proof. apply quietC_same; [apply keeps_ub|same]. Qed.

Lemma fresh_none s : invS None s -> get (s_ntid s) (s_timers s) = None.
Proof. intros I. destruct (get (s_ntid s) (s_timers s)) as [tm|] eqn:E; [|reflexivity]. pose proof (invS_lt I _ E). lia. Qed.
Lemma timers_set s t0 tm0 (m : list (nat * timer)) : get t0 m = None -> drops k (t_act tm0) = false -> s = m ->
  forall t tm, drops k (t_act tm) = true -> get t (set t0 tm0 s) = Some tm <-> get t m = Some tm.
Proof.
  intros F D -> t tm H. rewrite get_set. eqb_case t t0; [|tauto]. rewrite F. split; [intros X; injection X as ->; congruence|discriminate].
Qed.
Lemma keepC_schedule d a s : invS None s -> drops k a = false -> keepC s (fst (schedule d a s)).
Proof.
  intros I D. constructor; [unfold seen; now destruct k| |reflexivity]. intros t tm H. unfold schedule. cbn [fst s_timers w_timers].
  apply (@timers_set (s_timers s)); auto. now apply fresh_none.
Qed.
Lemma timers_del (m : list (nat * timer)) b : (forall tm, get b m = Some tm -> drops k (t_act tm) = false) ->
  forall t tm, drops k (t_act tm) = true -> get t (del b m) = Some tm <-> get t m = Some tm.
Proof.
  intros F t tm H. rewrite get_del. eqb_case t b; [|tauto]. split; [discriminate|]. intros X. specialize (F _ X). congruence.
Qed.

Lemma schedule_expiration_C oid secs s : (forall t tm, get t (s_timers s) = Some tm -> (t < s_ntid s)%nat) ->
  (forall o t tm, get oid (s_heap s) = Some o -> o_tid o = Some t -> get t (s_timers s) = Some tm -> t_act tm = AExpire oid) ->
  keepC s (schedule_expiration oid secs s).
Proof.
  intros H Ho. assert (Fr : get (s_ntid s) (s_timers s) = None).
  { destruct (get (s_ntid s) (s_timers s)) as [tm|] eqn:E; [|reflexivity]. pose proof (H _ _ E). lia. }
  unfold schedule_expiration, schedule. cbn [s_heap w_timers]. destruct (get oid (s_heap s)) as [o|] eqn:Eo.
  2: { constructor; [unfold seen; now destruct k| |reflexivity]. intros t tm G. cbn [s_timers w_timers]. now apply (@timers_set (s_timers s)). }
  unfold cancel. destruct (o_tid o) as [b|] eqn:Et; (constructor; [unfold seen; now destruct k| |reflexivity]);
    intros t tm G; cbn [s_timers w_timers w_heap].
  - rewrite timers_del; [now apply (@timers_set (s_timers s))| |exact G]. intros tm' X. rewrite get_set in X. eqb_case b (s_ntid s).
    + injection X as <-. reflexivity.
    + rewrite (Ho _ _ _ eq_refl Et X). reflexivity.
  - now apply (@timers_set (s_timers s)).
Qed.

Lemma quietC_install l : quietC (install c sys l).
Proof.
  intros s I. split; [now apply (@invS_install c sys l None s)|].
  unfold install. destruct (find_oid (l_key l) s) as [oid|] eqn:Ef.
  - destruct (get oid (s_heap s)) as [o|] eqn:Eo; [|apply keepC_refl].
    destruct (_ <? _)%N; [|apply keepC_refl].
    destruct (update_body _ _) as [[[u b] ad] re]. cbn [fst].
    match goal with |- keepC s (schedule_expiration ?i ?x ?y) => assert (A : keepC y (schedule_expiration i x y)) end.
    { apply schedule_expiration_C; [exact (invS_lt I)|]. cbn [s_heap s_timers w_heap]. intros o' t tm X Y Z. rewrite get_set_eq in X. injection X as <-.
      cbn [o_tid] in Y. exact (proj2 (proj2 (iS_heap I _ Eo) _ Y) _ Z). }
    eapply keepC_trans; [|exact A]. apply keepC_same; [reflexivity|unfold seen; now destruct k|reflexivity].
  - cbn [fst]. match goal with |- keepC s (schedule_expiration ?i ?x ?y) => assert (A : keepC y (schedule_expiration i x y)) end.
    { apply schedule_expiration_C; [exact (invS_lt I)|].
      cbn [s_heap s_timers w_heap w_store]. intros o' t tm X Y. rewrite get_set_eq in X. injection X as <-. discriminate. }
    eapply keepC_trans; [|exact A]. apply keepC_same; [reflexivity|unfold seen; now destruct k|reflexivity].
Qed.

Lemma quietC_build e t : e_sys e = sys -> quietC (build c e t).
Proof.
  intros E s I. unfold build. rewrite E.
  match goal with |- context [?a s] => assert (Q : quietC a); [|exact (Q s I)] end.
  repeat (apply quietC_andthen; [solve [apply quietC_bump|apply quietC_write|
    destruct (publishes _ _); [apply quietC_publish|apply quietC_ret]]|]). apply quietC_install.
Qed.
Lemma quietC_ext a b : (forall s, a s = b s) -> quietC b -> quietC a.
Proof. intros E H s. rewrite E. apply H. Qed.
Lemma quietC_build_name e : e_sys e = sys -> quietC (build_name c e).
Proof. intros E. eapply quietC_ext; [apply build_name_build|now apply quietC_build]. Qed.
Lemma quietC_build_coord e : e_sys e = sys -> quietC (build_coord c e).
Proof. intros E. eapply quietC_ext; [apply build_coord_build|now apply quietC_build]. Qed.
Lemma quietC_build_own_adj e : e_sys e = sys -> quietC (build_own_adj c e).
Proof. intros E. eapply quietC_ext; [apply build_adj_build|now apply quietC_build]. Qed.

Lemma quietC_fetch g : quietC (upd (fun s => w_fetch (fst (g s)) (snd (g s)) s)).
Proof.
  intros s I. cbn [upd fst]. split; [apply (invS_same (s := s)); [repeat split|exact I]|].
  apply keepC_same; [reflexivity|unfold seen; now destruct k|reflexivity].
Qed.

Lemma note_high_C n q s s1 : note_high n q s = Some s1 -> invS None s -> invS None s1 /\ keepC s s1.
Proof.
  intros E I. pose proof (note_high_same _ _ _ E) as S.
  assert (Ef : s_sto s1 = s_sto s /\ s_fifo s1 = s_fifo s /\ s_now s1 = s_now s).
  { unfold note_high in E. destruct (get _ _) as [h|].
    - destruct (_ <? _)%N; [injection E as <-; auto|]. destruct (_ <? _)%N; [discriminate|]. injection E as <-; auto.
    - injection E as <-; auto. }
  destruct Ef as (E1 & E2 & E3). split; [eapply invS_same; eassumption|].
  destruct S as (_ & _ & _ & E4 & _). apply keepC_same; [exact E4|unfold seen; now destruct k|exact E3].
Qed.

Lemma quietC_express i n f d : quietC (express i n f d).
Proof.
  intros s I. unfold express. destruct (back 1 i) as [cq|]; [|now apply quietC_ub].
  destruct (to_number cq) as [q|].
  2: { apply (quietC_andthen (quietC_emit _) quietC_throw I). }
  destruct (note_high _ q s) as [s1|] eqn:E; [|split; [exact I|apply keepC_refl]].
  destruct (@note_high_C _ _ _ _ E I) as [I1 K1].
  assert (G : forall a, quietC a -> invS None (fst (a s1)) /\ keepC s (fst (a s1))).
  { intros a Ha. destruct (Ha s1 I1) as [A B]. split; [exact A|eapply keepC_trans; eassumption]. }
  apply G. apply quietC_andthen; [apply quietC_emit|]. apply quietC_andthen; [apply quietC_emit|]. apply quietC_andthen.
  - apply (@quietC_fetch (fun s0 => (set (s_nfid s0) _ (s_fetch s0), S (s_nfid s0)))).
  - destruct (back 2 i) as [ct|]; [|apply quietC_ub]. unfold stat_type. destruct (comp_type ct); [apply quietC_emit|apply quietC_ret].
Qed.

Lemma quietC_after_fetch i l : quietC (after_fetch c sys i l).
Proof.
  intros s I. unfold after_fetch. destruct (back 1 i) as [cq|]; [|now apply quietC_ub].
  destruct (to_number cq) as [q|].
  2: { apply (quietC_andthen (quietC_emit _) quietC_throw I). }
  destruct (note_high _ q s) as [s1|] eqn:E; [|split; [exact I|apply keepC_refl]].
  destruct (@note_high_C _ _ _ _ E I) as [I1 K1].
  assert (G : forall a, quietC a -> invS None (fst (a s1)) /\ keepC s (fst (a s1))).
  { intros a Ha. destruct (Ha s1 I1) as [A B]. split; [exact A|eapply keepC_trans; eassumption]. }
  apply G. apply quietC_andthen; [apply quietC_emit|].
  destruct (name_origin c i); [|apply quietC_ret]. destruct (back 2 i) as [ct|]; [|apply quietC_ub].
  destruct (comp_type ct) as [t|]; [|apply quietC_ret]. apply quietC_andthen; [apply quietC_emit|].
  intros s2 I2. destruct (is_new _ _ _ _); [|split; [exact I2|apply keepC_refl]].
  destruct l as [l|]; [|split; [exact I2|apply keepC_refl]].
  destruct (eqb _ _); [now apply quietC_install|split; [exact I2|apply keepC_refl]].
Qed.

Lemma quietC_schedule (f : st -> st) d a : (forall oid, a <> AExpire oid) -> drops k a = false ->
  (forall s, sameS s (f s) /\ seen k s (f s) /\ s_now (f s) = s_now s) ->
  quietC (upd (fun s => fst (schedule d a (f s)))).
Proof.
  intros H2 D Hf s I. destruct (Hf s) as (S & C1 & C2). cbn [upd fst].
  assert (I1 : invS None (f s)) by (eapply invS_same; eassumption).
  split; [now apply invS_schedule|].
  eapply keepC_trans; [|apply keepC_schedule; [exact I1|exact D]].
  destruct S as (_ & _ & _ & E4 & _). now apply keepC_same.
Qed.

Lemma quietC_sync e u q face : e_sys e = sys -> quietC (on_sync c e u q face).
Proof.
  intros Es s I. unfold on_sync, process_update.
  destruct (update_origin u) as [o|]; [|split; [exact I|apply keepC_refl]].
  destruct (back 1 u) as [ct|]; [|now apply quietC_ub].
  destruct (eqb o (c_self c)).
  - destruct (is_new _ _ _ _); [|split; [exact I|apply keepC_refl]].
    destruct (comp_type ct) as [[]|]; [| | |split; [exact I|apply keepC_refl]].
    + destruct (eqb _ _); [|split; [exact I|apply keepC_refl]].
      exact (quietC_andthen (quietC_setseq _ _) (quietC_build_own_adj _ Es) I).
    + destruct (eqb _ _); [|split; [exact I|apply keepC_refl]].
      exact (quietC_andthen (quietC_setseq _ _) (quietC_build_coord _ Es) I).
    + exact (quietC_andthen (quietC_setseq _ _) (quietC_build_name _ Es) I).
  - destruct (is_new _ _ _ _); [|split; [exact I|apply keepC_refl]].
    destruct (_ && _ && _); [split; [exact I|apply keepC_refl]|].
    destruct (_ && _ && _); [split; [exact I|apply keepC_refl]|].
    exact (quietC_andthen (quietC_emit _) (@quietC_express _ _ _ _) I).
Qed.

Lemma keepC_schedule_build d s : invS None s -> keepC s (schedule_build d s).
Proof.
  intros I. pose proof (fresh_none I) as Fr. unfold schedule_build, schedule, cancel. cbn [s_btid w_timers fst].
  constructor; [unfold seen; destruct (s_btid s); now destruct k| |destruct (s_btid s); reflexivity].
  intros t tm H. destruct (s_btid s) as [b|] eqn:Eb; cbn [s_timers w_build w_timers].
  - rewrite timers_del; [now apply (@timers_set (s_timers s))| |exact H]. intros tm' X. rewrite get_set in X. eqb_case b (s_ntid s).
    + injection X as <-. reflexivity.
    + rewrite (proj2 (iS_btid I Eb) _ X). reflexivity.
  - now apply (@timers_set (s_timers s)).
Qed.

Lemma expire_C oid s : (forall t tm, get t (s_timers s) = Some tm -> (t < s_ntid s)%nat) ->
  (forall oid' o t tm, get oid' (s_heap s) = Some o -> o_tid o = Some t -> get t (s_timers s) = Some tm -> t_act tm = AExpire oid') ->
  keepC s (fst (expire_or_refresh c sys oid s)).
Proof.
  intros A B. unfold expire_or_refresh. destruct (get oid (s_heap s)) as [o|]; [|apply keepC_refl].
  destruct (find_oid _ s) as [oid'|]; [|apply keepC_refl].
  destruct (get oid' (s_heap s)) as [o'|] eqn:Eo'; [|apply keepC_refl].
  destruct (_ =? _)%N; [|apply keepC_refl]. destruct (eqb _ _).
  - match goal with |- context [(write_seqs ;; publish ?t) ?y] => change (fst ((write_seqs ;; publish t) y)) with y end.
    match goal with |- keepC s (schedule_expiration ?i ?x ?y) => assert (C : keepC y (schedule_expiration i x y)) end.
    { apply schedule_expiration_C; [exact A|].
      cbn [s_heap s_timers w_heap w_seqs]. intros o2 t tm X Y Z. rewrite get_set_eq in X. injection X as <-. cbn [o_tid] in Y. eapply B; eassumption. }
    eapply keepC_trans; [|exact C]. apply keepC_same; [reflexivity|unfold seen; now destruct k|reflexivity].
  - unfold remove. destruct (find_lsa _ s); apply keepC_same; try reflexivity; unfold seen; now destruct k.
Qed.

Lemma quietC_error f b : quietC (on_error c f b).
Proof.
  intros s I. unfold on_error. destruct (back 1 _) as [cq|]; [|now apply quietC_ub]. destruct (to_number cq); [|now apply quietC_throw].
  destruct (_ && _)%bool; [|split; [exact I|apply keepC_refl]].
  apply (@quietC_schedule (fun s => s)); [discriminate|reflexivity| |exact I]. intros s'. split; [repeat split|]. split; [apply seen_refl|reflexivity].
Qed.
End Caches.

(** Nothing changes about the stored segments. *)
Definition still (k : bool) (s s' : st) : Prop :=
  seen k s s' /\ forall t tm, drops k (t_act tm) = true -> get t (s_timers s') = Some tm <-> get t (s_timers s) = Some tm.
Lemma still_keep k s s' : keepC k s s' -> still k s s'.
Proof. intros [A B _]. now split. Qed.
Lemma still_refl k s : still k s s.
Proof. apply still_keep, keepC_refl. Qed.

(** The events that matter to the stored segments. *)
Definition touches (k : bool) (s : st) (v : ev) : Prop :=
  match v with
  | ESegment _ _ _ | EFetchDone _ _ => k = true
  | EInterest _ _ _ _ => k = false
  | EFire tid => exists tm, get tid (s_timers s) = Some tm /\ drops k (t_act tm) = true
  | _ => False
  end.

Lemma quietC_fifo c es : quietC true (upd (fun s => fold_left (fun s e => fifo_insert c e s) es s)).
Proof.
  intros s. cbn [upd fst]. revert s. induction es as [|e es IH]; intros s I; [split; [exact I|apply keepC_refl]|].
  cbn [fold_left].
  assert (Q : invS None (fifo_insert c e s) /\ keepC true s (fifo_insert c e s)).
  { apply (@quietC_schedule true (fun s => w_fifo ((if Nat.leb FIFO_LIMIT (length (s_fifo s)) then tl (s_fifo s) else s_fifo s) ++ [e]) s)
      (c_refresh c * SEC) (AFifo (fst e)) ltac:(discriminate) eq_refl); [|exact I].
    intros s'. split; [repeat split|]. split; reflexivity. }
  destruct Q as [I1 K1]. destruct (IH _ I1) as [A B]. split; [exact A|eapply keepC_trans; eassumption].
Qed.
Lemma quietC_interest c i p k v : quietC true (process_interest c i p k v).
Proof.
  intros s I. unfold process_interest. destruct (back 2 i) as [cv|]; [|now apply quietC_ub].
  destruct (if is_version cv then _ else _) as [[n [l k']]|]; [split; [exact I|apply keepC_refl]|].
  match goal with |- context [?a s] => assert (Q : quietC true a); [|exact (Q s I)] end. clear s I.
  apply quietC_andthen; [apply quietC_emit|].
  assert (St : quietC true (serve_stored i p)).
  { intros s I. unfold serve_stored. destruct (find _ _) as [[n d]|]; (split; [exact I|apply keepC_refl]). }
  destruct (name_origin _ _) as [o|]; [|exact St]. destruct (eqb _ _); [|exact St].
  destruct (back 1 _) as [cq|]; [|apply quietC_ub]. destruct (back 2 _) as [ct|]; [|apply quietC_ub].
  destruct (to_number cq); [|apply quietC_throw]. destruct (comp_type ct); [|apply quietC_ret].
  apply quietC_andthen; [apply quietC_emit|].
  intros s I. unfold interest_for_lsa. destruct (find_lsa _ s) as [l0|]; [|split; [exact I|apply keepC_refl]].
  destruct (_ =? _)%N; [|split; [exact I|apply keepC_refl]].
  match goal with |- context [?a s] => assert (Q : quietC true a); [|exact (Q s I)] end. clear s I.
  apply quietC_andthen; [apply quietC_fifo|]. apply quietC_andthen.
  - destruct (nth_error _ _) as [[n' [l' k']]|]; [apply quietC_emit|apply quietC_ret].
  - apply quietC_andthen; apply quietC_emit.
Qed.

Lemma still_fire k s tid due a s' : get tid (s_timers s) = Some (Timer due a) -> drops k a = false ->
  keepC k (w_timers (del tid (s_timers s)) (s_ntid s) s) s' -> still k s s'.
Proof.
  intros Et D [A B _]. split; [unfold seen in *; destruct k; exact A|]. intros t tm H. rewrite B by exact H. cbn [s_timers w_timers].
  apply timers_del with (k := k); [|exact H]. intros tm' X. rewrite Et in X. now injection X as <-.
Qed.

Lemma step_still c k s x : invS None s -> ~ touches k s (snd x) -> still k s (fst (step c s x)).
Proof.
  intros I T. destruct x as [e v]. unfold step. cbn [snd] in T.
  destruct (s_dead s); [apply still_refl|].
  assert (Q : forall a, quietC k a -> still k s (fst (a s))).
  { intros a Ha. destruct (Ha s I) as [A B]. now apply still_keep. }
  destruct v; cbn [step_live fst snd touches] in *.
  - split; [unfold seen; now destruct k|]. intros t tm _. reflexivity.
  - apply Q. now apply quietC_sync with (sys := e_sys e).
  - unfold fire. destruct (get tid (s_timers s)) as [[due a]|] eqn:Et; [|apply still_refl].
    cbn [t_due t_act]. destruct (Z.leb_spec due (s_now s)) as [Hd|Hd]; [|apply still_refl].
    assert (D : drops k a = false). { destruct (drops k a) eqn:E; [|reflexivity]. exfalso. apply T. eexists. split; [reflexivity|exact E]. }
    apply (still_fire _ Et D).
    set (s1 := w_timers _ _ s) in *.
    assert (A1 : forall t tm, get t (s_timers s1) = Some tm -> (t < s_ntid s1)%nat).
    { intros t tm H. cbn [s1 s_timers w_timers s_ntid] in *. rewrite get_del in H. destruct (eqb t tid); [discriminate|]. exact (invS_lt I _ H). }
    assert (B1 : forall oid' o t tm, get oid' (s_heap s1) = Some o -> o_tid o = Some t -> get t (s_timers s1) = Some tm -> t_act tm = AExpire oid').
    { intros oid' o t tm X Y H. cbn [s1 s_timers w_timers s_heap] in *. rewrite get_del in H. destruct (eqb t tid); [discriminate|].
      exact (proj2 (proj2 (iS_heap I _ X) _ Y) _ H). }
    destruct a as [oid| |i n d|n|n].
    + exact (@expire_C c (e_sys e) k oid s1 A1 B1).
    + assert (I1 : invS None s1) by exact (proj1 (@keepT_fired c (e_sys e) s tid due ABuild I Et ltac:(discriminate))).
      unfold build_adj. set (s0 := w_build false (s_count s1) (s_btid s1) s1) in *.
      assert (I0 : invS None s0) by (apply (invS_same (s := s1)); [repeat split|exact I1]).
      assert (K0 : keepC k s1 s0) by (apply keepC_same; [reflexivity|unfold seen; now destruct k|reflexivity]).
      destruct (is_buildable _ _).
      * destruct (0 <? s_count s0); [|exact K0].
        rewrite andthen_fst. cbn [upd fst]. destruct (Nat.ltb 0 _).
        -- destruct (@quietC_build_own_adj c (e_sys e) k e eq_refl s0 I0) as [A B].
           eapply keepC_trans; [exact K0|]. eapply keepC_trans; [exact B|]. apply keepC_same; [reflexivity|unfold seen; now destruct k|reflexivity].
        -- eapply keepC_trans; [exact K0|]. unfold remove. destruct (find_lsa _ _); (apply keepC_same; [reflexivity|unfold seen; now destruct k|reflexivity]).
      * eapply keepC_trans; [exact K0|]. exact (@keepC_schedule_build k _ s0 I0).
    + assert (I1 : invS None s1) by exact (proj1 (@keepT_fired c (e_sys e) s tid due (AExpress i n d) I Et ltac:(discriminate))).
      exact (proj2 (@quietC_express k i n 0 (Some d) s1 I1)).
    + destruct k; [|discriminate D]. apply keepC_same; reflexivity.
    + destruct k; [discriminate D|]. apply keepC_same; reflexivity.
  - destruct k; [congruence|]. unfold fetch_done. destruct (get fid (s_fetch s)) as [f|] eqn:Ef; [|apply still_refl].
    match goal with |- still false s (fst (?a s)) => assert (QA : quietC false a); [|exact (Q _ QA)] end.
    apply quietC_andthen; [|apply quietC_andthen; [apply quietC_after_fetch|apply (@quietC_fetch false (fun s => (del fid (s_fetch s), s_nfid s)))]].
    apply quietC_same; [intros s'; repeat split|]. intros s'. split; reflexivity.
  - unfold fetch_err. destruct (get fid (s_fetch s)) as [f|] eqn:Ef; [|apply still_refl].
    match goal with |- still k s (fst (?a s)) => assert (QA : quietC k a); [|exact (Q _ QA)] end.
    apply quietC_andthen; [apply quietC_error|apply (@quietC_fetch k (fun s => (del fid (s_fetch s), s_nfid s)))].
  - destruct k; [congruence|]. unfold segment_validated. destruct (get fid (s_fetch s)) as [f|] eqn:Ef; [|apply still_refl].
    match goal with |- still false s (fst (?a s)) => assert (QA : quietC false a); [|exact (Q _ QA)] end.
    apply quietC_andthen; [apply quietC_emit|].
    match goal with |- quietC _ (upd (fun s => fst (schedule _ (ASto ?n) (w_sto ((_, ?d) :: _) _)))) =>
      apply (@quietC_schedule false (fun s => w_sto ((n, d) :: s_sto s) s)); [discriminate|reflexivity|] end.
    intros s'. split; [repeat split|]. split; reflexivity.
  - destruct (is_prefix _ _); [|apply still_refl]. destruct k; [|congruence]. apply Q, quietC_interest.
  - apply Q. now apply quietC_build_name with (sys := e_sys e).
  - unfold schedule_adj_build. destruct (eqb _ _); cbn [fst].
    + apply still_keep, keepC_same; [reflexivity|unfold seen; now destruct k|reflexivity].
    + set (s0 := w_build (s_sched s) (s_count s + 1) (s_btid s) s) in *.
      assert (I0 : invS None s0) by (apply (invS_same (s := s)); [repeat split|exact I]).
      apply still_keep. eapply keepC_trans; [|exact (@keepC_schedule_build k _ s0 I0)].
      apply keepC_same; [reflexivity|unfold seen; now destruct k|reflexivity].
Qed.

(** The name under which segments are dropped when a retrieval ends: the number before the one retrieved. *)
Definition dropped (f : fetch) : name :=
  drop_last 1 (f_iname f) ++ [number_comp ((match back 1 (f_iname f) with
               | Some cq => match to_number cq with Some q => q | None => 0%N end
               | None => 0%N
               end + (2 ^ 64 - 1)) mod 2 ^ 64)%N].

Lemma step_segment c s e fid n d f : invS None s -> s_dead s = false -> get fid (s_fetch s) = Some f ->
  let s' := fst (step c s (e, ESegment fid n d)) in
  s_sto s' = (n, d) :: s_sto s /\ s_now s' = s_now s /\ s_dead s' = false /\
  forall t tm, get t (s_timers s') = Some tm <-> get t (s_timers s) = Some tm \/ (t = s_ntid s /\ tm = Timer (s_now s + 1800 * SEC) (ASto n)).
Proof.
  intros I D Ef s'. unfold s', step. rewrite D. cbn [step_live]. unfold segment_validated. rewrite Ef, andthen_fst. cbn [emit upd fst].
  split; [reflexivity|]. split; [reflexivity|]. split; [exact D|]. intros t tm. unfold schedule. cbn [fst s_timers w_timers w_sto s_ntid s_now].
  pose proof (fresh_none I) as Fr. rewrite get_set. eqb_case t (s_ntid s).
  - rewrite Fr. split; [intros X; injection X as <-; right; auto|intros [X|[_ ->]]; [discriminate|reflexivity]].
  - split; [auto|intros [X|[X _]]; [exact X|contradiction]].
Qed.
Lemma step_no_segment c s e fid n d : get fid (s_fetch s) = None -> fst (step c s (e, ESegment fid n d)) = s.
Proof. intros Ef. unfold step. destruct (s_dead s); [reflexivity|]. cbn [step_live]. unfold segment_validated. now rewrite Ef. Qed.

Lemma step_done c s e fid ct : invS None s ->
  let s' := fst (step c s (e, EFetchDone fid ct)) in
  s' = s \/ (exists f, get fid (s_fetch s) = Some f /\ s_sto s' = erase_prefix (dropped f) (s_sto s)) /\
  forall t tm, drops true (t_act tm) = true -> get t (s_timers s') = Some tm <-> get t (s_timers s) = Some tm.
Proof.
  intros I s'. unfold s', step. destruct (s_dead s); [now left|]. cbn [step_live]. unfold fetch_done.
  destruct (get fid (s_fetch s)) as [f|] eqn:Ef; [|now left]. right. fold (dropped f). rewrite andthen_fst. cbn [upd fst].
  set (s0 := w_sto _ s).
  assert (I0 : invS None s0) by (apply (invS_same (s := s)); [repeat split|exact I]).
  assert (QA : quietC true (after_fetch c (e_sys e) (f_iname f) ct ;; upd (fun s => w_fetch (del fid (s_fetch s)) (s_nfid s) s))).
  { apply quietC_andthen; [apply quietC_after_fetch|apply (@quietC_fetch true (fun s => (del fid (s_fetch s), s_nfid s)))]. }
  destruct (QA s0 I0) as [_ [A B _]]. split; [exists f; split; [reflexivity|exact A]|]. intros t tm H. now rewrite B.
Qed.

Lemma step_fire_sto c s e tid due n : get tid (s_timers s) = Some (Timer due (ASto n)) ->
  let s' := fst (step c s (e, EFire tid)) in
  s' = s \/ (due <= s_now s /\ s_sto s' = erase_prefix n (s_sto s) /\
    forall t tm, get t (s_timers s') = Some tm <-> t <> tid /\ get t (s_timers s) = Some tm).
Proof.
  intros Et s'. unfold s', step. destruct (s_dead s); [now left|]. cbn [step_live]. unfold fire. rewrite Et. cbn [t_due t_act].
  destruct (Z.leb_spec due (s_now s)) as [L|L]; [|now left]. right. split; [exact L|]. split; [reflexivity|]. intros t tm. cbn [fst s_timers w_sto w_timers].
  rewrite get_del. eqb_case t tid; [split; [discriminate|now intros [X _]]|tauto].
Qed.
Lemma step_fire_fifo c s e tid due n : get tid (s_timers s) = Some (Timer due (AFifo n)) ->
  let s' := fst (step c s (e, EFire tid)) in
  s' = s \/ (due <= s_now s /\ s_fifo s' = erase_prefix n (s_fifo s) /\
    forall t tm, get t (s_timers s') = Some tm <-> t <> tid /\ get t (s_timers s) = Some tm).
Proof.
  intros Et s'. unfold s', step. destruct (s_dead s); [now left|]. cbn [step_live]. unfold fire. rewrite Et. cbn [t_due t_act].
  destruct (Z.leb_spec due (s_now s)) as [L|L]; [|now left]. right. split; [exact L|]. split; [reflexivity|]. intros t tm. cbn [fst s_timers w_fifo w_timers].
  rewrite get_del. eqb_case t tid; [split; [discriminate|now intros [X _]]|tauto].
Qed.

Lemma in_erase {A} p (l : list (name * A)) x : In x (erase_prefix p l) <-> In x l /\ is_prefix p (fst x) = false.
Proof. unfold erase_prefix. rewrite filter_In. destruct (is_prefix p (fst x)); cbn; intuition congruence. Qed.

(** Inserting segments of this router's LSAs: each has its timer. *)
Lemma fifo_insert_C c x s : invS None s ->
  let s' := fifo_insert c x s in
  invS None s' /\ s_now s' = s_now s /\
  (forall y, In y (s_fifo s') -> In y (s_fifo s) \/ y = x) /\
  (forall t tm, get t (s_timers s) = Some tm -> get t (s_timers s') = Some tm) /\
  exists t, get t (s_timers s') = Some (Timer (s_now s + c_refresh c * SEC) (AFifo (fst x))).
Proof.
  intros I s'. unfold s', fifo_insert. set (s0 := w_fifo _ s).
  assert (I0 : invS None s0) by (apply (invS_same (s := s)); [repeat split|exact I]).
  split; [now apply invS_schedule|]. split; [reflexivity|]. split; [|split].
  - cbn [schedule fst s_fifo w_timers s0 w_fifo]. intros y H. apply in_app_iff in H as [H|[<-|[]]]; [|now right]. left.
    destruct (Nat.leb _ _); [|exact H]. destruct (s_fifo s); [exact H|now right].
  - intros t tm H. unfold schedule. cbn [fst s_timers w_timers]. rewrite get_set_ne; [exact H|]. pose proof (invS_lt I _ H). cbn [s_ntid s0 w_fifo]. lia.
  - exists (s_ntid s). unfold schedule. cbn [fst s_timers w_timers]. apply get_set_eq.
Qed.
Lemma fifo_inserts_C c es : forall s, invS None s ->
  let s' := fold_left (fun s e => fifo_insert c e s) es s in
  invS None s' /\ s_now s' = s_now s /\
  (forall t tm, get t (s_timers s) = Some tm -> get t (s_timers s') = Some tm) /\
  forall y, In y (s_fifo s') -> In y (s_fifo s) \/
    (In y es /\ exists t, get t (s_timers s') = Some (Timer (s_now s + c_refresh c * SEC) (AFifo (fst y)))).
Proof.
  induction es as [|x es IH]; intros s I; cbn [fold_left]; [auto|].
  destruct (@fifo_insert_C c x s I) as (I1 & N1 & F1 & T1 & (t1 & E1)). destruct (IH _ I1) as (I2 & N2 & T2 & F2).
  split; [exact I2|]. split; [congruence|]. split; [auto|]. intros y H. destruct (F2 _ H) as [H1|(H1 & t & H2)].
  - destruct (F1 _ H1) as [H2| ->]; [now left|]. right. split; [now left|]. exists t1. now apply T2.
  - right. split; [now right|]. exists t. rewrite N1 in H2. exact H2.
Qed.

Lemma step_interest_C c s e i p k v : invS None s ->
  let s' := fst (step c s (e, EInterest i p k v)) in
  (forall t tm, get t (s_timers s) = Some tm -> get t (s_timers s') = Some tm) /\
  forall n l j, In (n, (l, j)) (s_fifo s') -> In (n, (l, j)) (s_fifo s) \/
    (holds s l /\ exists t, get t (s_timers s') = Some (Timer (s_now s + c_refresh c * SEC) (AFifo n))).
Proof.
  intros I s'. unfold s', step.
  assert (Id : (forall t tm, get t (s_timers s) = Some tm -> get t (s_timers s) = Some tm) /\
    forall n l j, In (n, (l, j)) (s_fifo s) -> In (n, (l, j)) (s_fifo s) \/
    (holds s l /\ exists t, get t (s_timers s) = Some (Timer (s_now s + c_refresh c * SEC) (AFifo n)))) by auto.
  destruct (s_dead s); [exact Id|]. cbn [step_live]. destruct (is_prefix _ _); [|exact Id]. unfold process_interest.
  destruct (back 2 i) as [cv|]; [|exact Id]. destruct (if is_version cv then _ else _) as [[n' [l k']]|]; [exact Id|].
  rewrite andthen_fst. cbn [emit fst].
  assert (St : fst (serve_stored i p s) = s) by (unfold serve_stored; destruct (find _ _) as [[? ?]|]; reflexivity).
  destruct (name_origin _ _) as [or|]; [|rewrite St; exact Id]. destruct (eqb _ _); [|rewrite St; exact Id].
  destruct (back 1 _) as [cq|]; [|exact Id]. destruct (back 2 _) as [ct|]; [|exact Id].
  destruct (to_number cq) as [q|]; [|exact Id]. destruct (comp_type ct) as [t|]; [|exact Id].
  rewrite andthen_fst. cbn [emit fst]. unfold interest_for_lsa. destruct (find_lsa _ s) as [l0|] eqn:El; [|exact Id].
  destruct (_ =? _)%N; [|exact Id]. rewrite !andthen_fst. cbn [upd emit fst].
  match goal with |- context [fst (match ?m with _ => _ end ?s1)] =>
      assert (S1 : fst (match m with Some (n, (l, k0)) => emit (OData n l k0) | None => ret end s1) = s1)
        by (destruct m as [[? [? ?]]|]; reflexivity) end.
  rewrite S1. clear S1. destruct (@fifo_inserts_C c (segments i v k l0) s I) as (_ & _ & T & F).
  split; [exact T|]. intros n l j H. destruct (F _ H) as [H1|(H1 & t' & H2)]; [now left|right]. cbn [fst] in H2. split; [|now exists t'].
  unfold segments in H1. apply in_map_iff in H1 as (x & E & _). injection E as _ <- _.
  apply (holds_find l0 I). assert (K : l_key l0 = (or, t)).
  { unfold find_lsa, find_oid in El. destruct (get (or, t) (s_store s)) as [oid|] eqn:Eo; [|discriminate]. destruct (iS_store I _ Eo) as (o & A & B & _).
    rewrite A in El. injection El as <-. exact B. }
  rewrite K. exact El.
Qed.
