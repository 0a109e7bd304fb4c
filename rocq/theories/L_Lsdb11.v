(** What an event does to the lifetime timers of the stored LSAs. *)
From Verif Require Import Base M_Nexthop M_Tlv M_Adj M_Lsa M_Lsdb S_Lsdb L_Lsdb L_Lsdb2 L_Lsdb3 L_Lsdb4 L_Lsdb5 L_Lsdb6 L_Lsdb7 L_Lsdb9.
Open Scope Z_scope.
Set Implicit Arguments.

Section Timers.
Variables (c : conf) (sys : Z).

(** The object's timer is the one that was set just now. *)
Definition fresh (s' : st) (oid : nat) (o' : obj) : Prop :=
  exists t, o_tid o' = Some t /\
    get t (s_timers s') = Some (Timer (s_now s' + (time_to_expire c sys (o_lsa o') + GRACE_PERIOD) * SEC) (AExpire oid)).

Record keepT (s s' : st) : Prop := KeepT
  { kT_now : s_now s' = s_now s;
    kT_store : forall k oid, get k (s_store s) = Some oid -> get k (s_store s') = Some oid;
    kT_obj : forall oid o, get oid (s_heap s) = Some o ->
      exists o', get oid (s_heap s') = Some o' /\ l_key (o_lsa o') = l_key (o_lsa o) /\ (l_seq (o_lsa o) <= l_seq (o_lsa o'))%N;
    kT_new : forall k oid o', get k (s_store s') = Some oid -> get oid (s_heap s') = Some o' ->
      (get k (s_store s) = Some oid /\ get oid (s_heap s) = Some o' /\
       forall t, o_tid o' = Some t -> get t (s_timers s') = get t (s_timers s)) \/
      ((forall o, get k (s_store s) = Some oid -> get oid (s_heap s) = Some o -> (l_seq (o_lsa o) < l_seq (o_lsa o'))%N) /\
       fresh s' oid o');
    kT_timer : forall t d oid, get t (s_timers s') = Some (Timer d (AExpire oid)) ->
      get t (s_timers s) = Some (Timer d (AExpire oid)) \/ exists k, get k (s_store s') = Some oid }.

Lemma keepT_same s s' : s_store s = s_store s' -> s_heap s = s_heap s' -> s_now s = s_now s' ->
  (forall t d oid, get t (s_timers s') = Some (Timer d (AExpire oid)) <-> get t (s_timers s) = Some (Timer d (AExpire oid))) ->
  (forall oid o t, get oid (s_heap s) = Some o -> o_tid o = Some t -> get t (s_timers s') = get t (s_timers s)) ->
  keepT s s'.
Proof.
  intros E1 E2 E3 Ht Ho. constructor; rewrite <- ?E1, <- ?E2; auto.
  - intros oid o H. exists o. repeat split; auto. lia.
  - intros k oid o' H1 H2. left. split; [exact H1|]. split; [exact H2|]. intros t Hto. exact (Ho _ _ _ H2 Hto).
  - intros t d oid H. left. now apply Ht.
Qed.

Lemma keepT_refl s : keepT s s.
Proof. apply keepT_same; tauto. Qed.

Lemma keepT_trans a b d : keepT a b -> keepT b d -> keepT a d.
Proof.
  intros [A1 A2 A3 A4 A5] [B1 B2 B3 B4 B5]. constructor.
  - congruence.
  - auto.
  - intros oid o H. destruct (A3 _ _ H) as (o1 & H1 & K1 & L1). destruct (B3 _ _ H1) as (o2 & H2 & K2 & L2).
    exists o2. split; [exact H2|]. split; [congruence|lia].
  - intros k oid o' H1 H2. destruct (B4 _ _ _ H1 H2) as [(C1 & C2 & C3)|(C1 & C2)].
    + destruct (A4 _ _ _ C1 C2) as [(D1 & D2 & D3)|(D1 & (t & D2 & D3))].
      * left. split; [exact D1|]. split; [exact D2|]. intros t Ht. rewrite (C3 t Ht). now apply D3.
      * right. split; [exact D1|]. exists t. split; [exact D2|]. rewrite (C3 t D2), B1. exact D3.
    + right. split; [|exact C2]. intros o G1 G2. pose proof (A2 _ _ G1) as G3. destruct (A3 _ _ G2) as (o1 & G4 & _ & G5).
      pose proof (C1 _ G3 G4). lia.
  - intros t dd oid H. destruct (B5 _ _ _ H) as [H'|H']; [|now right].
    destruct (A5 _ _ _ H') as [H''|(k & H'')]; [now left|]. right. exists k. auto.
Qed.

Definition quietT (a : act) : Prop := forall s, invS None s -> invS None (fst (a s)) /\ keepT s (fst (a s)).
Lemma quietT_andthen f g : quietT f -> quietT g -> quietT (f ;; g).
Proof.
  intros Hf Hg s I. rewrite andthen_fst. destruct (Hf s I) as [I1 K1]. destruct (Hg _ I1) as [I2 K2].
  split; [exact I2|eapply keepT_trans; eassumption].
Qed.
Lemma quietT_ret : quietT ret. Proof. intros s I. split; [exact I|apply keepT_refl]. Qed.
Lemma quietT_emit o : quietT (emit o). Proof. intros s I. split; [exact I|apply keepT_refl]. Qed.
Lemma keepT_sameS s s' : sameS s s' -> s_now s = s_now s' -> keepT s s'.
Proof. intros (E1 & E2 & _ & E4 & _ & _) E. apply keepT_same; auto; rewrite <- E4; tauto. Qed.
Lemma quietT_same a : keeps a -> (forall s, s_now (fst (a s)) = s_now s) -> quietT a.
Proof.
  intros K C s I. pose proof (K s) as S. split; [eapply invS_same; eassumption|]. apply keepT_sameS; [exact S|]. symmetry. apply C.
Qed.
Lemma quietT_bump t : quietT (bump t). Proof. apply quietT_same; [apply keeps_bump|]. now intros s. Qed.
Lemma quietT_write : quietT write_seqs. Proof. apply quietT_same; [apply keeps_write|]. now intros s. Qed.
Lemma quietT_publish t : quietT (publish t). Proof. apply quietT_same; [apply keeps_publish|]. now intros s. Qed.
Lemma quietT_setseq t q : quietT (upd (fun s => w_seqs (seq_set t q (s_seqs s)) s)).
Proof. apply quietT_same; [apply keeps_setseq|]. now intros s. Qed.
Lemma quietT_throw : quietT throw. Proof. apply quietT_same; [apply keeps_throw|]. now intros s. Qed.
Lemma quietT_ub : quietT ub. Proof. apply quietT_same; [apply keeps_ub|]. now intros s. Qed.
Lemma quietT_fetch g : quietT (upd (fun s => w_fetch (g s) (s_nfid s) s)).
Proof. apply quietT_same; [intros s; repeat split|]. now intros s. Qed.
Lemma quietT_sto g : quietT (upd (fun s => w_sto (g s) s)).
Proof. apply quietT_same; [intros s; repeat split|]. now intros s. Qed.

Lemma keepT_schedule d a s : invS None s -> (forall oid, a <> AExpire oid) -> keepT s (fst (schedule d a s)).
Proof.
  intros I Ha. apply keepT_same; try reflexivity; unfold schedule; cbn [fst s_timers w_timers].
  - intros t dd oid. rewrite get_set. eqb_case t (s_ntid s); [|tauto]. split.
    + intros X. injection X as _ X. now apply Ha in X.
    + intros X. apply (invS_lt I) in X. lia.
  - intros oid o t Ho Ht. rewrite get_set_ne; [reflexivity|]. pose proof (proj1 (proj2 (iS_heap I _ Ho) _ Ht)). lia.
Qed.

(** Putting a new LSA [l'] into object [oid] of key [k] and setting its timer. *)
Lemma keepT_put ex oid k l' tid0 s s1 secs :
  invS ex s -> ex = None \/ ex = Some oid -> s_timers s1 = s_timers s -> s_ntid s1 = s_ntid s -> s_now s1 = s_now s ->
  (forall k' oid', get k' (s_store s1) = Some oid' <-> (k' = k /\ oid' = oid) \/ (k' <> k /\ get k' (s_store s) = Some oid')) ->
  (forall oid', get oid' (s_heap s1) = if eqb oid' oid then Some (Obj l' tid0) else get oid' (s_heap s)) ->
  secs = time_to_expire c sys l' ->
  (forall k', get k' (s_store s) = Some oid -> k' = k) ->
  (forall oid', get k (s_store s) = Some oid' -> oid' = oid) ->
  (forall o, get oid (s_heap s) = Some o -> l_key l' = l_key (o_lsa o) /\ tid0 = o_tid o /\ (l_seq (o_lsa o) < l_seq l')%N) ->
  (get oid (s_heap s) = None -> tid0 = None) ->
  keepT s (schedule_expiration oid secs s1).
Proof.
  intros I Hex T1 T2 T3 Hst Hh -> Hk1 Hk2 Ho Hno. unfold schedule_expiration, schedule. cbn [s_heap w_timers].
  rewrite Hh, eqb_refl. cbn [o_tid o_lsa].
  assert (Htid : forall i, tid0 = Some i -> (i < s_ntid s)%nat).
  { intros i ->. destruct (get oid (s_heap s)) as [o|] eqn:Eo.
    - destruct (Ho _ eq_refl) as (_ & E & _). exact (proj1 (proj2 (iS_heap I _ Eo) _ (eq_sym E))).
    - discriminate (Hno eq_refl). }
  set (sA := w_timers _ _ s1). set (sB := cancel tid0 sA).
  assert (B1 : s_store sB = s_store s1) by (unfold sB, cancel; destruct tid0; reflexivity).
  assert (B2 : s_heap sB = s_heap s1) by (unfold sB, cancel; destruct tid0; reflexivity).
  assert (B3 : s_now sB = s_now s) by (unfold sB, cancel; destruct tid0; exact T3).
  assert (B4 : forall t, get t (s_timers sB) =
     if eqb t (s_ntid s) then Some (Timer (s_now s + (time_to_expire c sys l' + GRACE_PERIOD) * SEC) (AExpire oid))
     else match tid0 with Some i => if eqb t i then None else get t (s_timers s) | None => get t (s_timers s) end).
  { intros t. unfold sB, cancel, sA. destruct tid0 as [i|]; cbn [s_timers w_timers].
    - rewrite get_del, get_set, T1, T2, T3. pose proof (Htid i eq_refl) as L. eqb_case t i.
      + eqb_case i (s_ntid s); [lia|reflexivity].
      + reflexivity.
    - rewrite get_set, T1, T2, T3. reflexivity. }
  clearbody sB. clear sA. constructor; cbn [s_store s_heap s_timers s_now w_heap].
  - exact B3.
  - intros k' oid' H. rewrite B1. apply Hst. destruct (eq_dec k' k) as [-> |N]; [|now right]. left. split; [reflexivity|auto].
  - intros oid' o H. rewrite B2, get_set. eqb_case oid' oid.
    + destruct (Ho _ H) as (E1 & E2 & E3). eexists. split; [reflexivity|]. cbn [o_lsa]. split; [exact E1|lia].
    + rewrite Hh. eqb_case oid' oid; [contradiction|]. exists o. repeat split; auto. lia.
  - intros k' oid' o' H1 H2. rewrite B1 in H1. apply Hst in H1. rewrite B2, get_set in H2. eqb_case oid' oid.
    + right. injection H2 as <-. cbn [o_lsa]. split.
      * intros o _ G2. exact (proj2 (proj2 (Ho _ G2))).
      * exists (s_ntid s). cbn [o_tid s_timers s_now w_heap o_lsa]. rewrite T2, B4, eqb_refl, B3. now split.
    + left. destruct H1 as [[_ X]|[N H1]]; [contradiction|]. rewrite Hh in H2. eqb_case oid' oid; [contradiction|].
      split; [exact H1|]. split; [exact H2|]. intros t Ht. rewrite B4.
      pose proof (proj2 (iS_heap I _ H2) _ Ht) as [L A]. eqb_case t (s_ntid s); [lia|].
      destruct tid0 as [i|]; [|reflexivity]. eqb_case t i; [|reflexivity]. exfalso.
      destruct (get oid (s_heap s)) as [o|] eqn:Eo; [|discriminate (Hno eq_refl)].
      destruct (Ho _ eq_refl) as (_ & Eq & _).
      destruct (iS_store I _ H1) as (o2 & G1 & _ & G3). assert (o2 = o') by congruence. subst o2.
      assert (Nx : ex <> Some oid') by (destruct Hex; congruence). destruct (G3 Nx) as (t2 & tm & G4 & G5). assert (t2 = i) by congruence. subst t2.
      pose proof (A _ G5) as A1. pose proof (proj2 (proj2 (iS_heap I _ Eo) _ (eq_sym Eq)) _ G5) as A2. congruence.
  - intros t d oid' H. rewrite B4 in H. eqb_case t (s_ntid s).
    + injection H as _ <-. right. exists k. rewrite B1. apply Hst. now left.
    + left. destruct tid0 as [i|]; [|exact H]. destruct (eqb t i); [discriminate|exact H].
Qed.

Lemma tte_eq l l' : l_origin l = l_origin l' -> l_exp l = l_exp l' -> time_to_expire c sys l = time_to_expire c sys l'.
Proof. intros E1 E2. unfold time_to_expire. now rewrite E1, E2. Qed.

Lemma quietT_install l : quietT (install c sys l).
Proof.
  intros s I. split; [now apply (@invS_install c sys l None s)|].
  unfold install. unfold find_oid. destruct (get (l_key l) (s_store s)) as [oid|] eqn:Ef.
  - destruct (get oid (s_heap s)) as [o|] eqn:Eo; [|apply keepT_refl].
    destruct (N.ltb_spec (l_seq (o_lsa o)) (l_seq l)) as [L|L]; [|apply keepT_refl].
    pose proof (update_body_type (l_body (o_lsa o)) (l_body l)) as Ub.
    destruct (update_body _ _) as [[[u b] ad] re]. cbn [fst snd] in *.
    pose proof (invS_key I Ef Eo) as Ek.
    assert (Kl : forall q x, l_key (Lsa (l_origin (o_lsa o)) q x b) = l_key (o_lsa o)).
    { intros q x. unfold l_key, l_type. cbn [l_origin l_body]. now rewrite Ub. }
    eapply (@keepT_put None oid (l_key l) (Lsa (l_origin (o_lsa o)) (l_seq l) (l_exp l) b) (o_tid o)); try reflexivity; try assumption; [now left|..].
    + intros k' oid'. cbn [s_store w_heap]. destruct (eq_dec k' (l_key l)) as [-> |N].
      * rewrite Ef. split; [intros X; injection X as <-; now left|]. intros [[_ ->]|[X _]]; [reflexivity|contradiction].
      * split; [now right|]. intros [[X _]|[_ X]]; [contradiction|exact X].
    + intros oid'. cbn [s_heap w_heap]. apply get_set.
    + apply tte_eq; [|reflexivity]. cbn [l_origin]. unfold l_key in Ek. now injection Ek.
    + intros k' H. exact (eq_trans (invS_key I H Eo) (eq_sym Ek)).
    + intros oid' H. congruence.
    + intros o2 H. rewrite Eo in H. injection H as <-. split; [apply Kl|]. split; [reflexivity|exact L].
    + intros H. congruence.
  - cbn [fst].
    assert (No : get (s_noid s) (s_heap s) = None).
    { destruct (get (s_noid s) (s_heap s)) as [o|] eqn:Eo; [|reflexivity]. pose proof (proj1 (iS_heap I _ Eo)). lia. }
    eapply (@keepT_put None (s_noid s) (l_key l) l None); try reflexivity; try assumption; [now left|..].
    + intros k' oid'. cbn [s_store w_heap w_store]. rewrite get_set. eqb_case k' (l_key l).
      * split; [intros X; injection X as <-; now left|]. intros [[_ ->]|[X _]]; [reflexivity|contradiction].
      * split; [now right|]. intros [[X _]|[_ X]]; [contradiction|exact X].
    + intros oid'. cbn [s_heap w_heap w_store]. apply get_set.
    + intros k' H. destruct (iS_store I _ H) as (o & Ho & _). congruence.
    + intros oid' H. congruence.
    + intros o H. congruence.
Qed.

Lemma quietT_build e t : e_sys e = sys -> quietT (build c e t).
Proof.
  intros E s I. unfold build. rewrite E.
  match goal with |- context [?a s] => assert (Q : quietT a); [|exact (Q s I)] end.
  repeat (apply quietT_andthen; [solve [apply quietT_bump|apply quietT_write|
    destruct (publishes _ _); [apply quietT_publish|apply quietT_ret]]|]). apply quietT_install.
Qed.
Lemma quietT_ext a b : (forall s, a s = b s) -> quietT b -> quietT a.
Proof. intros E H s. rewrite E. apply H. Qed.
Lemma quietT_build_name e : e_sys e = sys -> quietT (build_name c e).
Proof. intros E. eapply quietT_ext; [apply build_name_build|now apply quietT_build]. Qed.
Lemma quietT_build_coord e : e_sys e = sys -> quietT (build_coord c e).
Proof. intros E. eapply quietT_ext; [apply build_coord_build|now apply quietT_build]. Qed.
Lemma quietT_build_own_adj e : e_sys e = sys -> quietT (build_own_adj c e).
Proof. intros E. eapply quietT_ext; [apply build_adj_build|now apply quietT_build]. Qed.

Lemma note_high_now n q s s1 : note_high n q s = Some s1 -> s_now s1 = s_now s.
Proof.
  unfold note_high. destruct (get _ _) as [h|].
  - destruct (_ <? _)%N; [intros E; injection E as <-; reflexivity|]. destruct (_ <? _)%N; [discriminate|].
    intros E; injection E as <-; reflexivity.
  - intros E; injection E as <-; reflexivity.
Qed.

Lemma quietT_express i n f d : quietT (express i n f d).
Proof.
  apply quietT_same; [apply keeps_express|]. intros s. unfold express. destruct (back 1 i) as [cq|]; [|reflexivity].
  destruct (to_number cq) as [q|]; [|reflexivity]. destruct (note_high _ q s) as [s1|] eqn:E; [|reflexivity].
  apply note_high_now in E. rewrite !andthen_fst. cbn [emit upd fst].
  destruct (back 2 i) as [ct|]; [|exact E]. unfold stat_type. destruct (comp_type ct); exact E.
Qed.

Lemma quietT_after_fetch i l : quietT (after_fetch c sys i l).
Proof.
  intros s I. unfold after_fetch. destruct (back 1 i) as [cq|]; [|now apply quietT_ub].
  destruct (to_number cq) as [q|].
  2: { apply (quietT_andthen (quietT_emit _) quietT_throw I). }
  destruct (note_high _ q s) as [s1|] eqn:E; [|split; [exact I|apply keepT_refl]].
  pose proof (note_high_same _ _ _ E) as S. pose proof (note_high_now _ _ _ E) as C1.
  assert (I1 : invS None s1) by (eapply invS_same; eassumption).
  assert (K1 : keepT s s1) by (apply keepT_sameS; [exact S|now symmetry]).
  assert (G : forall a, quietT a -> invS None (fst (a s1)) /\ keepT s (fst (a s1))).
  { intros a Ha. destruct (Ha s1 I1) as [A B]. split; [exact A|eapply keepT_trans; eassumption]. }
  apply G. apply quietT_andthen; [apply quietT_emit|].
  destruct (name_origin c i); [|apply quietT_ret]. destruct (back 2 i) as [ct|]; [|apply quietT_ub].
  destruct (comp_type ct) as [t|]; [|apply quietT_ret]. apply quietT_andthen; [apply quietT_emit|].
  intros s2 I2. destruct (is_new _ _ _ _); [|split; [exact I2|apply keepT_refl]].
  destruct l as [l|]; [|split; [exact I2|apply keepT_refl]].
  destruct (eqb _ _); [now apply quietT_install|split; [exact I2|apply keepT_refl]].
Qed.

Lemma quietT_schedule (f : st -> st) d a : (forall oid, a <> AExpire oid) ->
  (forall s, sameS s (f s) /\ s_now (f s) = s_now s) ->
  quietT (upd (fun s => fst (schedule d a (f s)))).
Proof.
  intros H2 Hf s I. destruct (Hf s) as (S & C1). cbn [upd fst].
  assert (I1 : invS None (f s)) by (eapply invS_same; eassumption).
  split; [now apply invS_schedule|]. eapply keepT_trans; [|apply keepT_schedule; [exact I1|exact H2]].
  apply keepT_sameS; [exact S|now symmetry].
Qed.

Lemma quietT_fetch_done fid l : quietT (fetch_done c sys fid l).
Proof.
  intros s I. unfold fetch_done. destruct (get fid (s_fetch s)) as [f|]; [|split; [exact I|apply keepT_refl]].
  match goal with |- context [?a s] => assert (Q : quietT a); [|exact (Q s I)] end.
  apply quietT_andthen; [apply quietT_sto|]. apply quietT_andthen; [apply quietT_after_fetch|apply quietT_fetch].
Qed.
Lemma quietT_fetch_err fid t : quietT (fetch_err c fid t).
Proof.
  intros s I. unfold fetch_err. destruct (get fid (s_fetch s)) as [f|]; [|split; [exact I|apply keepT_refl]].
  match goal with |- context [?a s] => assert (Q : quietT a); [|exact (Q s I)] end.
  apply quietT_andthen; [|apply quietT_fetch]. clear s I.
  intros s I. unfold on_error.
  destruct (back 1 (f_iname f)) as [cq|]; [|now apply quietT_ub].
  destruct (to_number cq); [|now apply quietT_throw].
  destruct (_ && _); [|split; [exact I|apply keepT_refl]].
  match goal with |- context [schedule ?d ?a s] =>
    exact (@quietT_schedule (fun s => s) d a ltac:(discriminate)
             ltac:(intros s'; split; [repeat split|reflexivity]) s I) end.
Qed.
Lemma quietT_segment fid n d : quietT (segment_validated fid n d).
Proof.
  intros s I. unfold segment_validated. destruct (get fid (s_fetch s)); [|split; [exact I|apply keepT_refl]].
  match goal with |- context [?a s] => assert (Q : quietT a); [|exact (Q s I)] end.
  apply quietT_andthen; [apply quietT_emit|].
  apply (@quietT_schedule (fun s => w_sto ((n, d) :: s_sto s) s)); try discriminate.
  intros s'. split; [repeat split|reflexivity].
Qed.
Lemma quietT_sync e u q face : e_sys e = sys -> quietT (on_sync c e u q face).
Proof.
  intros Es s I. unfold on_sync, process_update.
  destruct (update_origin u) as [o|]; [|split; [exact I|apply keepT_refl]].
  destruct (back 1 u) as [ct|]; [|now apply quietT_ub].
  destruct (eqb o (c_self c)).
  - destruct (is_new _ _ _ _); [|split; [exact I|apply keepT_refl]].
    destruct (comp_type ct) as [[]|]; [| | |split; [exact I|apply keepT_refl]].
    + destruct (eqb _ _); [|split; [exact I|apply keepT_refl]].
      exact (quietT_andthen (quietT_setseq _ _) (quietT_build_own_adj _ Es) I).
    + destruct (eqb _ _); [|split; [exact I|apply keepT_refl]].
      exact (quietT_andthen (quietT_setseq _ _) (quietT_build_coord _ Es) I).
    + exact (quietT_andthen (quietT_setseq _ _) (quietT_build_name _ Es) I).
  - destruct (is_new _ _ _ _); [|split; [exact I|apply keepT_refl]].
    destruct (_ && _ && _); [split; [exact I|apply keepT_refl]|].
    destruct (_ && _ && _); [split; [exact I|apply keepT_refl]|].
    exact (quietT_andthen (quietT_emit _) (@quietT_express _ _ _ _) I).
Qed.
Lemma quietT_fifo es : quietT (upd (fun s => fold_left (fun s e => fifo_insert c e s) es s)).
Proof.
  intros s. cbn [upd fst]. revert s. induction es as [|e es IH]; intros s I; [split; [exact I|apply keepT_refl]|].
  cbn [fold_left].
  assert (Q : invS None (fifo_insert c e s) /\ keepT s (fifo_insert c e s)).
  { apply (@quietT_schedule (fun s => w_fifo ((if Nat.leb FIFO_LIMIT (length (s_fifo s)) then tl (s_fifo s) else s_fifo s) ++ [e]) s)
      (c_refresh c * SEC) (AFifo (fst e)) ltac:(discriminate)); [|exact I].
    intros s'. split; [repeat split|reflexivity]. }
  destruct Q as [I1 K1]. destruct (IH _ I1) as [A B]. split; [exact A|eapply keepT_trans; eassumption].
Qed.
Lemma quietT_interest i p k v : quietT (process_interest c i p k v).
Proof.
  intros s I. unfold process_interest. destruct (back 2 i) as [cv|]; [|now apply quietT_ub].
  destruct (if is_version cv then _ else _) as [[n [l k']]|]; [split; [exact I|apply keepT_refl]|].
  match goal with |- context [?a s] => assert (Q : quietT a); [|exact (Q s I)] end. clear s I.
  apply quietT_andthen; [apply quietT_emit|].
  assert (St : quietT (serve_stored i p)).
  { intros s I. unfold serve_stored. destruct (find _ _) as [[n d]|]; (split; [exact I|apply keepT_refl]). }
  destruct (name_origin _ _) as [o|]; [|exact St]. destruct (eqb _ _); [|exact St].
  destruct (back 1 _) as [cq|]; [|apply quietT_ub]. destruct (back 2 _) as [ct|]; [|apply quietT_ub].
  destruct (to_number cq); [|apply quietT_throw]. destruct (comp_type ct); [|apply quietT_ret].
  apply quietT_andthen; [apply quietT_emit|].
  intros s I. unfold interest_for_lsa. destruct (find_lsa _ s) as [l0|]; [|split; [exact I|apply keepT_refl]].
  destruct (_ =? _)%N; [|split; [exact I|apply keepT_refl]].
  match goal with |- context [?a s] => assert (Q : quietT a); [|exact (Q s I)] end. clear s I.
  apply quietT_andthen; [apply quietT_fifo|]. apply quietT_andthen.
  - destruct (nth_error _ _) as [[n' [l' k']]|]; [apply quietT_emit|apply quietT_ret].
  - apply quietT_andthen; apply quietT_emit.
Qed.

End Timers.

(** ** Steps *)

(** A pending lifetime timer of an LSA of another router belongs to a stored LSA. *)
Definition invK (c : conf) (s : st) : Prop :=
  forall t d oid o, get t (s_timers s) = Some (Timer d (AExpire oid)) -> get oid (s_heap s) = Some o ->
    l_origin (o_lsa o) <> c_self c -> get (l_key (o_lsa o)) (s_store s) = Some oid.

Lemma invK_keep c sys s s' : invS None s -> invS None s' -> invK c s -> keepT c sys s s' -> invK c s'.
Proof.
  intros I I' K [K1 K2 K3 K4 K5] t d oid o' Ht Ho Hf. destruct (K5 _ _ _ Ht) as [H|(k & H)].
  - destruct (proj2 (iS_timer I _ H) oid eq_refl) as (o & Eo & _). destruct (K3 _ _ Eo) as (o2 & E2 & Ek & _).
    assert (o2 = o') by congruence. subst o2. rewrite Ek. apply K2. eapply K; [exact H|exact Eo|].
    assert (E : l_origin (o_lsa o') = l_origin (o_lsa o)) by (injection Ek; auto). congruence.
  - now rewrite <- (invS_key I' H Ho).
Qed.

Definition changes (c : conf) (sys : Z) (s s' : st) : Prop :=
  forall k oid o', get k (s_store s') = Some oid -> get oid (s_heap s') = Some o' ->
    (get k (s_store s) = Some oid /\ get oid (s_heap s) = Some o' /\
     forall t, o_tid o' = Some t -> get t (s_timers s') = get t (s_timers s)) \/
    ((forall l, find_lsa k s = Some l -> (l_seq l < l_seq (o_lsa o'))%N) /\ fresh c sys s' oid o').

Definition loses (c : conf) (s : st) (x : env * ev) (s' : st) : Prop :=
  forall k oid o, get k (s_store s) = Some oid -> get oid (s_heap s) = Some o -> l_origin (o_lsa o) <> c_self c ->
    get k (s_store s') = Some oid \/
    exists tid d, snd x = EFire tid /\ get tid (s_timers s) = Some (Timer d (AExpire oid)) /\ d <= s_now s.

Definition stepT (c : conf) (s : st) (x : env * ev) (s' : st) : Prop :=
  invK c s' /\ changes c (e_sys (fst x)) s s' /\ loses c s x s'.

Lemma changes_keep c sys s s' : keepT c sys s s' -> changes c sys s s'.
Proof.
  intros [K1 K2 K3 K4 K5] k oid o' H1 H2. destruct (K4 _ _ _ H1 H2) as [H|(H3 & H4)]; [now left|]. right.
  split; [|exact H4]. intros l Hl. unfold find_lsa, find_oid in Hl. destruct (get k (s_store s)) as [oid2|] eqn:E; [|discriminate].
  assert (oid2 = oid) by (pose proof (K2 _ _ E); congruence). subst oid2. destruct (get oid (s_heap s)) as [o|] eqn:Eo; [|discriminate].
  injection Hl as <-. now apply H3.
Qed.

Lemma stepT_keep c s x s' : invS None s -> invS None s' -> invK c s -> keepT c (e_sys (fst x)) s s' -> stepT c s x s'.
Proof.
  intros I I' K T. split; [exact (@invK_keep c _ s s' I I' K T)|]. split; [now apply changes_keep|].
  intros k oid o H1 H2 _. left. now apply (kT_store T).
Qed.

(** A timer that belongs to no stored LSA is gone. *)
Lemma keepT_fired c sys s tid due a :
  invS None s -> get tid (s_timers s) = Some (Timer due a) ->
  (forall oid k, a = AExpire oid -> get k (s_store s) <> Some oid) ->
  let s1 := w_timers (del tid (s_timers s)) (s_ntid s) s in invS None s1 /\ keepT c sys s s1.
Proof.
  intros I Ht Hn s1. split.
  - destruct a as [oid| | | |].
    + apply invS_unex with oid; [|intros k; exact (Hn oid k eq_refl)].
      apply invS_del_timer; [now apply invS_weaken|]. intros oid' tm X Y. rewrite Ht in X. injection X as <-. cbn in Y. congruence.
    + apply invS_del_timer; [exact I|]. intros oid' tm X Y. rewrite Ht in X. injection X as <-. discriminate Y.
    + apply invS_del_timer; [exact I|]. intros oid' tm X Y. rewrite Ht in X. injection X as <-. discriminate Y.
    + apply invS_del_timer; [exact I|]. intros oid' tm X Y. rewrite Ht in X. injection X as <-. discriminate Y.
    + apply invS_del_timer; [exact I|]. intros oid' tm X Y. rewrite Ht in X. injection X as <-. discriminate Y.
  - constructor; cbn [s_now s_store s_heap s_timers w_timers s1]; auto.
    + intros oid o H. exists o. repeat split; auto. lia.
    + intros k oid o' H1 H2. left. split; [exact H1|]. split; [exact H2|]. intros t Eo. rewrite get_del.
      eqb_case t tid; [|reflexivity]. exfalso.
      pose proof (proj2 (proj2 (iS_heap I _ H2) _ Eo) _ Ht) as A. cbn in A. exact (Hn _ _ A H1).
    + intros t d oid H. left. rewrite get_del in H. destruct (eqb t tid); [discriminate|exact H].
Qed.

Lemma store_schedule_expiration oid secs s : s_store (schedule_expiration oid secs s) = s_store s.
Proof.
  unfold schedule_expiration, schedule. cbn [s_heap w_timers]. destruct (get oid (s_heap s)) as [o|]; [|reflexivity].
  unfold cancel. destruct (o_tid o); reflexivity.
Qed.

Lemma heap_schedule_expiration oid secs s o : get oid (s_heap s) = Some o ->
  get oid (s_heap (schedule_expiration oid secs s)) = Some (Obj (o_lsa o) (Some (s_ntid s))).
Proof.
  intros H. unfold schedule_expiration, schedule. cbn [s_heap w_timers]. rewrite H. unfold cancel.
  destruct (o_tid o); cbn [s_heap w_heap w_timers]; apply get_set_eq.
Qed.

Lemma stepT_fire_expire c s e tid due oid : invS None s -> invK c s ->
  get tid (s_timers s) = Some (Timer due (AExpire oid)) -> due <= s_now s ->
  invS None (fst (expire_or_refresh c (e_sys e) oid (w_timers (del tid (s_timers s)) (s_ntid s) s))) ->
  stepT c s (e, EFire tid) (fst (expire_or_refresh c (e_sys e) oid (w_timers (del tid (s_timers s)) (s_ntid s) s))).
Proof.
  intros I K Ht Hd I'. set (s1 := w_timers _ _ s) in *.
  destruct (proj2 (iS_timer I _ Ht) oid eq_refl) as (o & Eo & Et).
  destruct (eq_dec (get (l_key (o_lsa o)) (s_store s)) (Some oid)) as [Es|Es].
  - (* the LSA is stored *)
    assert (I1 : invS (Some oid) s1).
    { apply invS_del_timer; [now apply invS_weaken|]. intros oid' tm X Y. rewrite Ht in X. injection X as <-. cbn in Y. congruence. }
    assert (Hs : forall k, get k (s_store s) = Some oid -> k = l_key (o_lsa o)) by (intros k H; exact (invS_key I H Eo)).
    assert (Same : forall k oid' o', get k (s_store s) = Some oid' -> get oid' (s_heap s) = Some o' -> oid' <> oid ->
      forall t, o_tid o' = Some t -> get t (s_timers s1) = get t (s_timers s)).
    { intros k oid' o' H1 H2 N t H3. cbn [s1 s_timers w_timers]. rewrite get_del. eqb_case t tid; [|reflexivity]. exfalso.
      pose proof (proj2 (proj2 (iS_heap I _ H2) _ H3) _ Ht) as A. cbn in A. congruence. }
    unfold expire_or_refresh, find_oid in *. change (s_heap s1) with (s_heap s) in *. change (s_store s1) with (s_store s) in *.
    rewrite Eo, Es, Eo, N.eqb_refl in *. destruct (eqb (l_origin (o_lsa o)) (c_self c)) eqn:Eown.
    + apply (proj1 (eqb_eq _ _)) in Eown.
      match goal with |- stepT c s _ (fst ((write_seqs ;; publish _) ?x)) => change (stepT c s (e, EFire tid) x) end.
      set (l' := Lsa (l_origin (o_lsa o)) (l_seq (o_lsa o) + 1) (expiration_point c (e_sys e)) (l_body (o_lsa o))).
      set (s2 := w_seqs _ _).
      assert (T : keepT c (e_sys e) s1 (schedule_expiration oid (c_refresh c) s2)).
      { eapply (@keepT_put c (e_sys e) (Some oid) oid (l_key (o_lsa o)) l' (o_tid o)); try reflexivity; try assumption; [now right|..].
        - intros k' oid'. change (s_store s2) with (s_store s). change (s_store s1) with (s_store s).
          destruct (eq_dec k' (l_key (o_lsa o))) as [-> |N].
          + rewrite Es. split; [intros X; injection X as <-; now left|]. intros [[_ ->]|[X _]]; [reflexivity|contradiction].
          + split; [now right|]. intros [[X _]|[_ X]]; [contradiction|exact X].
        - intros oid'. cbn [s2 s_heap w_heap w_seqs]. apply get_set.
        - unfold time_to_expire, l'. cbn [l_origin]. now rewrite Eown, eqb_refl.
        - intros oid' H. change (s_store s1) with (s_store s) in H. congruence.
        - intros o2 H. change (s_heap s1) with (s_heap s) in H. rewrite Eo in H. injection H as <-.
          split; [reflexivity|]. split; [reflexivity|]. cbn [l' l_seq]. lia.
        - intros H. change (s_heap s1) with (s_heap s) in H. congruence. }
      destruct T as [T1 T2 T3 T4 T5]. split; [|split].
      * intros t d oid' o' H1 H2 H3. destruct (T5 _ _ _ H1) as [H|(k & H)].
        -- cbn [s1 s_timers w_timers] in H. rewrite get_del in H. destruct (eqb t tid) eqn:E; [discriminate|].
           destruct (proj2 (iS_timer I _ H) oid' eq_refl) as (o2 & E2 & _). destruct (T3 _ _ E2) as (o3 & E3 & Ek & _).
           assert (o3 = o') by congruence. subst o3. rewrite Ek. apply T2. eapply K; [exact H|exact E2|].
           assert (Ex : l_origin (o_lsa o') = l_origin (o_lsa o2)) by (injection Ek; auto). congruence.
        -- destruct (T4 _ _ _ H H2) as [(A & B & _)|(_ & (t2 & A & B))].
           ++ rewrite <- (invS_key I A B). exact H.
           ++ cut (l_key (o_lsa o') = k); [intros ->; exact H|].
              destruct (get k (s_store s)) as [oid2|] eqn:E2.
              ** destruct (iS_store I _ E2) as (o2 & E3 & E4 & _). destruct (T3 _ _ E3) as (o3 & E5 & E6 & _).
                 pose proof (T2 _ _ E2) as E7. assert (oid2 = oid') by congruence. subst oid2. assert (o3 = o') by congruence. congruence.
              ** exfalso. rewrite store_schedule_expiration in H. change (s_store s2) with (s_store s) in H. congruence.
      * intros k oid' o' H1 H2. destruct (T4 _ _ _ H1 H2) as [(A & B & C)|(A & B)].
        -- destruct (eq_dec oid' oid) as [-> |N].
           ++ exfalso. change (s_heap s1) with (s_heap s) in B. assert (o' = o) by congruence. subst o'.
              rewrite (@heap_schedule_expiration oid (c_refresh c) s2 (Obj l' (o_tid o))) in H2
                by (cbn [s2 s_heap w_heap w_seqs]; apply get_set_eq). injection H2 as H2. apply (f_equal (fun o => l_seq (o_lsa o))) in H2.
              cbn [o_lsa l_seq l'] in H2. lia.
           ++ left. split; [exact A|]. split; [exact B|]. intros t Hto. rewrite (C t Hto). exact (Same _ _ _ A B N t Hto).
        -- right. split; [|exact B]. intros l Hl. unfold find_lsa, find_oid in Hl.
           destruct (get k (s_store s)) as [oid2|] eqn:E2; [|discriminate]. pose proof (T2 _ _ E2) as E7. assert (oid2 = oid') by congruence. subst oid2.
           destruct (get oid' (s_heap s)) as [o2|] eqn:E3; [|discriminate]. injection Hl as <-. now apply A.
      * intros k oid' o' H1 _ _. left. now apply T2.
    + apply eqb_neq in Eown. unfold remove.
      destruct (find_lsa (l_key (o_lsa o)) s1) as [l0|] eqn:Ef.
      2: { unfold find_lsa, find_oid in Ef. change (s_store s1) with (s_store s) in Ef. change (s_heap s1) with (s_heap s) in Ef.
           rewrite Es, Eo in Ef. discriminate. }
      cbn [fst]. change (s_store s1) with (s_store s). split; [|split].
      * intros t d oid' o' H1 H2 H3. cbn [s_timers w_store s1 w_timers s_heap s_store] in *. rewrite get_del in H1.
        destruct (eqb t tid) eqn:E; [discriminate|]. rewrite get_del.
        pose proof (K _ _ _ _ H1 H2 H3) as G. destruct (eqb (l_key (o_lsa o')) (l_key (o_lsa o))) eqn:E2; [|exact G].
        exfalso. apply (proj1 (eqb_eq _ _)) in E2. rewrite E2 in G. assert (oid' = oid) by congruence. subst oid'.
        destruct (proj2 (iS_timer I _ H1) oid eq_refl) as (o2 & E3 & E4). assert (o2 = o) by congruence. subst o2.
        apply eqb_neq in E. congruence.
      * intros k oid' o' H1 H2. cbn [s_timers w_store s1 w_timers s_heap s_store] in *. rewrite get_del in H1.
        destruct (eqb k (l_key (o_lsa o))) eqn:E; [discriminate|]. apply eqb_neq in E. left. split; [exact H1|]. split; [exact H2|].
        apply (Same _ _ _ H1 H2). intros ->. apply E. now apply Hs.
      * intros k oid' o' H1 H2 H3. cbn [s_store w_store]. rewrite get_del. destruct (eqb k (l_key (o_lsa o))) eqn:E; [|now left].
        apply (proj1 (eqb_eq _ _)) in E. subst k. right. exists tid, due. cbn [snd]. assert (oid' = oid) by congruence. subst oid'. auto.
  - (* it is not *)
    destruct (@keepT_fired c (e_sys e) s tid due (AExpire oid) I Ht) as [I1 T1].
    { intros oid' k E Hk. injection E as <-. apply Es. now rewrite <- (invS_key I Hk Eo). }
    fold s1 in I1, T1. unfold expire_or_refresh, find_oid in *. change (s_heap s1) with (s_heap s) in *. change (s_store s1) with (s_store s) in *.
    rewrite Eo in *.
    destruct (get (l_key (o_lsa o)) (s_store s)) as [oid'|] eqn:E2; [|cbn [fst]; now apply stepT_keep].
    destruct (get oid' (s_heap s)) as [o'|] eqn:E3; [|cbn [fst]; now apply stepT_keep].
    destruct (l_seq (o_lsa o') =? l_seq (o_lsa o))%N; [|cbn [fst]; now apply stepT_keep].
    pose proof (invS_key I E2 E3) as Ek. assert (Eor : l_origin (o_lsa o') = l_origin (o_lsa o)) by (injection Ek; auto).
    destruct (eqb (l_origin (o_lsa o')) (c_self c)) eqn:Eown.
    + apply (proj1 (eqb_eq _ _)) in Eown.
      match goal with |- stepT c s _ (fst ((write_seqs ;; publish _) ?x)) => change (stepT c s (e, EFire tid) x) end.
      set (l' := Lsa (l_origin (o_lsa o')) (l_seq (o_lsa o') + 1) (expiration_point c (e_sys e)) (l_body (o_lsa o'))).
      set (s2 := w_seqs _ _).
      assert (T2 : keepT c (e_sys e) s1 (schedule_expiration oid' (c_refresh c) s2)).
      { eapply (@keepT_put c (e_sys e) None oid' (l_key (o_lsa o)) l' (o_tid o')); try reflexivity; try assumption; [now left|..].
        - intros k' oid2. change (s_store s2) with (s_store s). change (s_store s1) with (s_store s).
          destruct (eq_dec k' (l_key (o_lsa o))) as [-> |N].
          + rewrite E2. split; [intros X; injection X as <-; now left|]. intros [[_ ->]|[X _]]; [reflexivity|contradiction].
          + split; [now right|]. intros [[X _]|[_ X]]; [contradiction|exact X].
        - intros oid2. cbn [s2 s_heap w_heap w_seqs]. apply get_set.
        - unfold time_to_expire, l'. cbn [l_origin]. now rewrite Eown, eqb_refl.
        - intros k' H. change (s_store s1) with (s_store s) in H. rewrite (invS_key I H E3). congruence.
        - intros oid2 H. change (s_store s1) with (s_store s) in H. congruence.
        - intros o2 H. change (s_heap s1) with (s_heap s) in H. rewrite E3 in H. injection H as <-.
          split; [reflexivity|]. split; [reflexivity|]. cbn [l' l_seq]. lia.
        - intros H. change (s_heap s1) with (s_heap s) in H. congruence. }
      apply stepT_keep; trivial. exact (keepT_trans T1 T2).
    + exfalso. apply eqb_neq in Eown. apply Es. rewrite <- E2. apply (K _ _ _ _ Ht Eo). congruence.
Qed.

Lemma stepT_id c s x : invK c s -> stepT c s x s.
Proof.
  intros K. split; [exact K|]. split; [|intros k oid o H _ _; now left].
  intros k oid o' H1 H2. left. auto.
Qed.

Lemma stepT_remove_own c s x : invS None s -> invK c s -> stepT c s x (fst (remove (c_self c, TAdj) s)).
Proof.
  intros I K. unfold remove. destruct (find_lsa _ s); [|now apply stepT_id]. cbn [fst]. split; [|split].
  - intros t d oid o H1 H2 H3. cbn [s_timers s_heap s_store w_store] in *. rewrite get_del_ne; [eapply K; eassumption|].
    intros E. apply H3. unfold l_key in E. congruence.
  - intros k oid o' H1 H2. cbn [s_timers s_heap s_store w_store] in *. rewrite get_del in H1. destruct (eqb k _); [discriminate|]. left. auto.
  - intros k oid o H1 H2 H3. left. cbn [s_store w_store]. rewrite get_del_ne; [exact H1|]. intros ->.
    apply H3. pose proof (invS_key I H1 H2) as E. injection E; auto.
Qed.

Lemma keepT_schedule_build c sys d s : invS None s -> keepT c sys s (schedule_build d s).
Proof.
  intros I. unfold schedule_build. pose proof (@keepT_schedule c sys d ABuild s I ltac:(discriminate)) as T.
  pose proof (@invS_schedule None s d ABuild I ltac:(discriminate)) as I1.
  destruct (schedule d ABuild s) as [s1 t] eqn:E. cbn [fst] in T, I1.
  eapply keepT_trans; [exact T|].
  assert (Eb : s_btid s1 = s_btid s) by (unfold schedule in E; injection E as <- _; reflexivity).
  unfold cancel. destruct (s_btid s1) as [b|] eqn:B.
  - apply keepT_same; try reflexivity; cbn [s_timers w_timers w_build].
    + intros t' dd oid. rewrite get_del. eqb_case t' b; [|tauto]. split; [discriminate|]. intros X.
      pose proof (proj2 (iS_btid I1 B) _ X) as Y. discriminate Y.
    + intros oid o t' Ho Ht. rewrite get_del. eqb_case t' b; [|reflexivity]. symmetry.
      destruct (get b (s_timers s1)) as [tm|] eqn:Eg; [|reflexivity].
      pose proof (proj2 (iS_btid I1 B) _ Eg) as Y. pose proof (proj2 (proj2 (iS_heap I1 _ Ho) _ Ht) _ Eg) as Z. congruence.
  - apply keepT_same; try reflexivity; cbn [s_timers w_timers w_build]; tauto.
Qed.

Lemma stepT_before c s s1 x s' : invS None s -> invS None s1 -> invK c s -> keepT c (e_sys (fst x)) s s1 ->
  s_store s1 = s_store s -> s_heap s1 = s_heap s ->
  invK c s' -> changes c (e_sys (fst x)) s1 s' -> (forall k oid o, get k (s_store s1) = Some oid -> get oid (s_heap s1) = Some o ->
    l_origin (o_lsa o) <> c_self c -> get k (s_store s') = Some oid) -> stepT c s x s'.
Proof.
  intros I I1 K T E1 E2 K' C L. split; [exact K'|]. split.
  - intros k oid o' H1 H2. destruct (C _ _ _ H1 H2) as [(A & B & D)|(A & B)].
    + rewrite E1 in A. rewrite E2 in B. left. split; [exact A|]. split; [exact B|]. intros t Ht. rewrite (D t Ht).
      assert (A1 : get k (s_store s1) = Some oid) by congruence. assert (B1 : get oid (s_heap s1) = Some o') by congruence.
      destruct (@kT_new _ _ _ _ T k oid o' A1 B1) as [(_ & _ & F)|(F & _)]; [now apply F|].
      exfalso. pose proof (F _ A B). lia.
    + right. split; [|exact B]. intros l Hl. apply A. unfold find_lsa, find_oid in *. now rewrite E1, E2.
  - intros k oid o H1 H2 H3. left. apply (L k oid o); congruence.
Qed.

Lemma step_timers c s x : invS None s -> invK c s -> stepT c s x (fst (step c s x)).
Proof.
  intros I K. pose proof (invS_step c x I) as I'. destruct x as [e v]. unfold step in *.
  destruct (s_dead s); [now apply stepT_id|].
  assert (Q : forall a, quietT c (e_sys e) a -> stepT c s (e, v) (fst (a s))).
  { intros a Ha. destruct (Ha s I) as [A B]. now apply stepT_keep. }
  destruct v; cbn [step_live fst snd] in *.
  - split; [exact K|]. split; [|intros k oid o H _ _; now left]. intros k oid o' H1 H2. left. auto.
  - apply Q. now apply quietT_sync.
  - unfold fire in *. destruct (get tid (s_timers s)) as [[due a]|] eqn:Et; [|now apply stepT_id].
    cbn [t_due t_act] in *. destruct (Z.leb_spec due (s_now s)) as [Hd|Hd]; [|now apply stepT_id].
    destruct a as [oid| |i n d|n|n].
    + apply stepT_fire_expire with due; assumption.
    + destruct (@keepT_fired c (e_sys e) s tid due ABuild I Et ltac:(discriminate)) as [I1 T1]. set (s1 := w_timers _ _ s) in *.
      unfold build_adj in *. set (s0 := w_build false (s_count s1) (s_btid s1) s1) in *.
      assert (I0 : invS None s0) by (apply (invS_same (s := s1)); [repeat split|exact I1]).
      assert (T0 : keepT c (e_sys e) s s0).
      { eapply keepT_trans; [exact T1|]. apply keepT_sameS; [repeat split|reflexivity]. }
      destruct (is_buildable _ _).
      * destruct (0 <? s_count s0); [|now apply stepT_keep].
        rewrite andthen_fst in *. cbn [upd fst] in *. destruct (Nat.ltb 0 _).
        -- destruct (@quietT_build_own_adj c (e_sys e) e eq_refl s0 I0) as [A B].
           apply stepT_keep; trivial. eapply keepT_trans; [exact T0|]. eapply keepT_trans; [exact B|].
           apply keepT_sameS; [repeat split|reflexivity].
        -- assert (K0 : invK c s0) by exact (@invK_keep c _ s s0 I I0 K T0).
           destruct (@stepT_remove_own c s0 (e, EFire tid) I0 K0) as (A & B & C).
           set (s2 := fst (remove _ s0)) in *.
           eapply (@stepT_before c s s0); trivial.
           intros k oid o H1 H2 H3. destruct (C k oid o H1 H2 H3) as [H|(t & d & E & H & _)]; [exact H|].
           cbn [snd] in E. injection E as <-. exfalso. cbn [s0 s1 s_timers w_build w_timers] in H. rewrite get_del_eq in H. discriminate.
      * apply stepT_keep; trivial. eapply keepT_trans; [exact T0|]. now apply keepT_schedule_build.
    + destruct (@keepT_fired c (e_sys e) s tid due (AExpress i n d) I Et ltac:(discriminate)) as [I1 T1].
      apply stepT_keep; trivial. eapply keepT_trans; [exact T1|]. now apply quietT_express.
    + destruct (@keepT_fired c (e_sys e) s tid due (AFifo n) I Et ltac:(discriminate)) as [I1 T1].
      apply stepT_keep; trivial. eapply keepT_trans; [exact T1|]. apply keepT_sameS; [repeat split|reflexivity].
    + destruct (@keepT_fired c (e_sys e) s tid due (ASto n) I Et ltac:(discriminate)) as [I1 T1].
      apply stepT_keep; trivial. eapply keepT_trans; [exact T1|]. apply keepT_sameS; [repeat split|reflexivity].
  - apply Q, quietT_fetch_done.
  - apply Q, quietT_fetch_err.
  - apply Q, quietT_segment.
  - destruct (is_prefix _ _); [|now apply stepT_id]. apply Q, quietT_interest.
  - apply Q. now apply quietT_build_name.
  - apply stepT_keep; trivial. unfold schedule_adj_build. destruct (eqb _ _); cbn [fst].
    + apply keepT_sameS; [repeat split|reflexivity].
    + eapply keepT_trans; [apply (@keepT_sameS c _ s (w_build (s_sched s) (s_count s + 1) (s_btid s) s)); [repeat split|reflexivity]|].
      apply keepT_schedule_build. apply (invS_same (s := s)); [repeat split|exact I].
Qed.

Lemma invK_exec c f now e0 evs : invK c (fst (exec c f now e0 evs)).
Proof.
  rewrite exec_fst.
  assert (H : invS None (fst (init c f now e0)) /\ invK c (fst (init c f now e0))).
  { split; [apply invS_init|]. unfold init. fold (blank (seqs_from_file c f) now).
    set (b := blank _ _). assert (Ib : invS None b) by apply invS_blank.
    assert (Q : quietT c (e_sys e0) (build_name c e0 ;; (if eqb (c_hyp c) HOff then ret else build_coord c e0))).
    { apply quietT_andthen; [now apply quietT_build_name|]. destruct (eqb _ _); [apply quietT_ret|now apply quietT_build_coord]. }
    destruct (Q b Ib) as [A B]. eapply invK_keep; [exact Ib|exact A| |exact B]. intros t d oid o X. discriminate X. }
  revert H. generalize (fst (init c f now e0)). induction evs as [|x evs IH]; intros s [I K]; [exact K|].
  cbn [run]. pose proof (@step_timers c s x I K) as (A & _ & _). pose proof (invS_step c x I) as I1.
  destruct (step c s x) as [s1 o1]. cbn [fst] in *. specialize (IH s1 (conj I1 A)). destruct (run (step c) s1 evs). exact IH.
Qed.
