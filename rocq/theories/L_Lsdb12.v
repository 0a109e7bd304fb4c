(** What an event does to the fetches in progress. *)
From Verif Require Import Base M_Nexthop M_Tlv M_Adj M_Lsa M_Lsdb S_Lsdb L_Lsdb L_Lsdb2 L_Lsdb3 L_Lsdb4 L_Lsdb5 L_Lsdb6 L_Lsdb7 L_Lsdb9 L_Lsdb11.
Open Scope Z_scope.
Set Implicit Arguments.

Section Fetches.
Variables (c : conf) (sys : Z).

Definition invX (s : st) : Prop :=
  invS None s /\ forall fid f, get fid (s_fetch s) = Some f -> (fid < s_nfid s)%nat.

Record keepX (s s' : st) : Prop := KeepX
  { kX_fetch : forall fid f, get fid (s_fetch s) = Some f -> get fid (s_fetch s') = Some f;
    kX_timer : forall t d i n dl, get t (s_timers s) = Some (Timer d (AExpress i n dl)) ->
      get t (s_timers s') = Some (Timer d (AExpress i n dl));
    kX_now : s_now s' = s_now s }.

Lemma keepX_refl s : keepX s s.
Proof. constructor; auto. Qed.
Lemma keepX_trans a b d : keepX a b -> keepX b d -> keepX a d.
Proof. intros [A B C] [A' B' C']. constructor; auto. congruence. Qed.

Definition quietX (a : act) : Prop := forall s, invX s -> invX (fst (a s)) /\ keepX s (fst (a s)).
Lemma quietX_andthen f g : quietX f -> quietX g -> quietX (f ;; g).
Proof.
  intros Hf Hg s I. rewrite andthen_fst. destruct (Hf s I) as [I1 K1]. destruct (Hg _ I1) as [I2 K2].
  split; [exact I2|eapply keepX_trans; eassumption].
Qed.
Lemma quietX_ret : quietX ret. Proof. intros s I. split; [exact I|apply keepX_refl]. Qed.
Lemma quietX_emit o : quietX (emit o). Proof. intros s I. split; [exact I|apply keepX_refl]. Qed.
Lemma quietX_same a : keeps a -> (forall s, s_fetch (fst (a s)) = s_fetch s /\ s_nfid (fst (a s)) = s_nfid s /\ s_now (fst (a s)) = s_now s) -> quietX a.
Proof.
  intros K C s [I F]. pose proof (K s) as S. destruct (C s) as (C1 & C2 & C3). split.
  - split; [eapply invS_same; eassumption|]. rewrite C1, C2. exact F.
  - destruct S as (_ & _ & _ & E4 & _). constructor; [rewrite C1; auto| |exact C3]. rewrite <- E4. auto.
Qed.
Lemma quietX_bump t : quietX (bump t). Proof. apply quietX_same; [apply keeps_bump|]. now intros s. Qed.
Lemma quietX_write : quietX write_seqs. Proof. apply quietX_same; [apply keeps_write|]. now intros s. Qed.
Lemma quietX_publish t : quietX (publish t). Proof. apply quietX_same; [apply keeps_publish|]. now intros s. Qed.
Lemma quietX_setseq t q : quietX (upd (fun s => w_seqs (seq_set t q (s_seqs s)) s)).
Proof. apply quietX_same; [apply keeps_setseq|]. now intros s. Qed.
Lemma quietX_throw : quietX throw. Proof. apply quietX_same; [apply keeps_throw|]. now intros s. Qed.
Lemma quietX_ub : quietX ub. Proof. apply quietX_same; [apply keeps_ub|]. now intros s. Qed.
Lemma quietX_sto g : quietX (upd (fun s => w_sto (g s) s)).
Proof. apply quietX_same; [intros s; repeat split|]. now intros s. Qed.

Lemma keepX_schedule d a s : invS None s -> keepX s (fst (schedule d a s)).
Proof.
  intros I. constructor; [auto| |reflexivity]. intros t dd i n dl H. unfold schedule. cbn [fst s_timers w_timers].
  rewrite get_set_ne; [exact H|]. pose proof (invS_lt I _ H). lia.
Qed.

Lemma schedule_expiration_X oid secs s : (forall t tm, get t (s_timers s) = Some tm -> (t < s_ntid s)%nat) ->
  (forall o t tm, get oid (s_heap s) = Some o -> o_tid o = Some t -> get t (s_timers s) = Some tm -> t_act tm = AExpire oid) ->
  keepX s (schedule_expiration oid secs s) /\ s_fetch (schedule_expiration oid secs s) = s_fetch s /\
  s_nfid (schedule_expiration oid secs s) = s_nfid s.
Proof.
  intros H Ho. unfold schedule_expiration, schedule. cbn [s_heap w_timers]. destruct (get oid (s_heap s)) as [o|] eqn:Eo.
  2: { split; [|split; reflexivity]. constructor; [auto| |reflexivity]. intros t d i n dl G. cbn [s_timers w_timers]. rewrite get_set_ne; [exact G|].
       pose proof (H _ _ G). lia. }
  unfold cancel. destruct (o_tid o) as [b|] eqn:Et; (split; [|split; reflexivity]); (constructor; [auto| |reflexivity]);
    intros t d i n dl G; cbn [s_timers w_timers w_heap]; pose proof (H _ _ G).
  - rewrite get_del_ne, get_set_ne; [exact G|lia|]. intros ->. pose proof (Ho _ _ _ eq_refl Et G) as X. discriminate X.
  - rewrite get_set_ne; [exact G|lia].
Qed.

Lemma quietX_install l : quietX (install c sys l).
Proof.
  intros s [I F]. assert (I' : invS None (fst (install c sys l s))) by now apply (@invS_install c sys l None s).
  cut (keepX s (fst (install c sys l s)) /\ s_fetch (fst (install c sys l s)) = s_fetch s /\ s_nfid (fst (install c sys l s)) = s_nfid s).
  { intros (A & B & C). split; [split; [exact I'|rewrite B, C; exact F]|exact A]. }
  clear I'. unfold install. destruct (find_oid (l_key l) s) as [oid|] eqn:Ef.
  - destruct (get oid (s_heap s)) as [o|] eqn:Eo; [|split; [apply keepX_refl|now split]].
    destruct (_ <? _)%N; [|split; [apply keepX_refl|now split]].
    destruct (update_body _ _) as [[[u b] ad] re]. cbn [fst].
    match goal with |- keepX s (schedule_expiration ?i ?x ?y) /\ _ => destruct (@schedule_expiration_X i x y) as (A & B & C) end.
    + exact (invS_lt I).
    + cbn [s_heap s_timers w_heap]. intros o' t tm X Y Z. rewrite get_set_eq in X. injection X as <-.
      cbn [o_tid] in Y. exact (proj2 (proj2 (iS_heap I _ Eo) _ Y) _ Z).
    + split; [|split; [exact B|exact C]]. eapply keepX_trans; [|exact A]. constructor; auto.
  - cbn [fst]. match goal with |- keepX s (schedule_expiration ?i ?x ?y) /\ _ => destruct (@schedule_expiration_X i x y) as (A & B & C) end.
    + exact (invS_lt I).
    + cbn [s_heap s_timers w_heap w_store]. intros o' t tm X Y. rewrite get_set_eq in X. injection X as <-. discriminate.
    + split; [|split; [exact B|exact C]]. eapply keepX_trans; [|exact A]. constructor; auto.
Qed.

Lemma quietX_build e t : e_sys e = sys -> quietX (build c e t).
Proof.
  intros E s I. unfold build. rewrite E.
  match goal with |- context [?a s] => assert (Q : quietX a); [|exact (Q s I)] end.
  repeat (apply quietX_andthen; [solve [apply quietX_bump|apply quietX_write|
    destruct (publishes _ _); [apply quietX_publish|apply quietX_ret]]|]). apply quietX_install.
Qed.
Lemma quietX_ext a b : (forall s, a s = b s) -> quietX b -> quietX a.
Proof. intros E H s. rewrite E. apply H. Qed.
Lemma quietX_build_name e : e_sys e = sys -> quietX (build_name c e).
Proof. intros E. eapply quietX_ext; [apply build_name_build|now apply quietX_build]. Qed.
Lemma quietX_build_coord e : e_sys e = sys -> quietX (build_coord c e).
Proof. intros E. eapply quietX_ext; [apply build_coord_build|now apply quietX_build]. Qed.
Lemma quietX_build_own_adj e : e_sys e = sys -> quietX (build_own_adj c e).
Proof. intros E. eapply quietX_ext; [apply build_adj_build|now apply quietX_build]. Qed.

Lemma quietX_fetch_add g : (forall s, (g s) = Fetch (f_iname (g s)) (f_count (g s)) (f_deadline (g s))) ->
  quietX (upd (fun s => w_fetch (set (s_nfid s) (g s) (s_fetch s)) (S (s_nfid s)) s)).
Proof.
  intros _ s [I F]. cbn [upd fst]. split.
  - split; [apply (invS_same (s := s)); [repeat split|exact I]|]. cbn [s_fetch s_nfid w_fetch]. intros fid f H. rewrite get_set in H.
    eqb_case fid (s_nfid s); [lia|]. pose proof (F _ _ H). lia.
  - constructor; [|auto|reflexivity]. cbn [s_fetch w_fetch]. intros fid f H. rewrite get_set_ne; [exact H|]. pose proof (F _ _ H). lia.
Qed.

Lemma note_high_X n q s s1 : note_high n q s = Some s1 -> invX s -> invX s1 /\ keepX s s1.
Proof.
  intros E [I F]. pose proof (note_high_same _ _ _ E) as S.
  assert (Ef : s_fetch s1 = s_fetch s /\ s_nfid s1 = s_nfid s /\ s_now s1 = s_now s).
  { unfold note_high in E. destruct (get _ _) as [h|].
    - destruct (_ <? _)%N; [injection E as <-; auto|]. destruct (_ <? _)%N; [discriminate|]. injection E as <-; auto.
    - injection E as <-; auto. }
  destruct Ef as (E1 & E2 & E3). split.
  - split; [eapply invS_same; eassumption|]. now rewrite E1, E2.
  - destruct S as (_ & _ & _ & E4 & _). constructor; [now rewrite E1| |exact E3]. rewrite <- E4. auto.
Qed.

Lemma quietX_express i n f d : quietX (express i n f d).
Proof.
  intros s I. unfold express. destruct (back 1 i) as [cq|]; [|now apply quietX_ub].
  destruct (to_number cq) as [q|].
  2: { apply (quietX_andthen (quietX_emit _) quietX_throw I). }
  destruct (note_high _ q s) as [s1|] eqn:E; [|split; [exact I|apply keepX_refl]].
  destruct (@note_high_X _ _ _ _ E I) as [I1 K1].
  assert (G : forall a, quietX a -> invX (fst (a s1)) /\ keepX s (fst (a s1))).
  { intros a Ha. destruct (Ha s1 I1) as [A B]. split; [exact A|eapply keepX_trans; eassumption]. }
  apply G. apply quietX_andthen; [apply quietX_emit|]. apply quietX_andthen; [apply quietX_emit|]. apply quietX_andthen.
  - apply (@quietX_fetch_add (fun _ => Fetch i n _)). reflexivity.
  - destruct (back 2 i) as [ct|]; [|apply quietX_ub]. unfold stat_type. destruct (comp_type ct); [apply quietX_emit|apply quietX_ret].
Qed.

Lemma quietX_after_fetch i l : quietX (after_fetch c sys i l).
Proof.
  intros s I. unfold after_fetch. destruct (back 1 i) as [cq|]; [|now apply quietX_ub].
  destruct (to_number cq) as [q|].
  2: { apply (quietX_andthen (quietX_emit _) quietX_throw I). }
  destruct (note_high _ q s) as [s1|] eqn:E; [|split; [exact I|apply keepX_refl]].
  destruct (@note_high_X _ _ _ _ E I) as [I1 K1].
  assert (G : forall a, quietX a -> invX (fst (a s1)) /\ keepX s (fst (a s1))).
  { intros a Ha. destruct (Ha s1 I1) as [A B]. split; [exact A|eapply keepX_trans; eassumption]. }
  apply G. apply quietX_andthen; [apply quietX_emit|].
  destruct (name_origin c i); [|apply quietX_ret]. destruct (back 2 i) as [ct|]; [|apply quietX_ub].
  destruct (comp_type ct) as [t|]; [|apply quietX_ret]. apply quietX_andthen; [apply quietX_emit|].
  intros s2 I2. destruct (is_new _ _ _ _); [|split; [exact I2|apply keepX_refl]].
  destruct l as [l|]; [|split; [exact I2|apply keepX_refl]].
  destruct (eqb _ _); [now apply quietX_install|split; [exact I2|apply keepX_refl]].
Qed.

Lemma quietX_schedule (f : st -> st) d a : (forall oid, a <> AExpire oid) ->
  (forall s, sameS s (f s) /\ s_fetch (f s) = s_fetch s /\ s_nfid (f s) = s_nfid s /\ s_now (f s) = s_now s) ->
  quietX (upd (fun s => fst (schedule d a (f s)))).
Proof.
  intros H2 Hf s [I F]. destruct (Hf s) as (S & C1 & C2 & C3). cbn [upd fst].
  assert (I1 : invS None (f s)) by (eapply invS_same; eassumption).
  split.
  - split; [now apply invS_schedule|]. unfold schedule. cbn [fst s_fetch s_nfid w_timers]. now rewrite C1, C2.
  - eapply keepX_trans; [|apply keepX_schedule; exact I1].
    destruct S as (_ & _ & _ & E4 & _). constructor; [now rewrite C1| |exact C3]. rewrite <- E4. auto.
Qed.

Lemma quietX_segment fid n d : quietX (segment_validated fid n d).
Proof.
  intros s I. unfold segment_validated. destruct (get fid (s_fetch s)); [|split; [exact I|apply keepX_refl]].
  match goal with |- context [?a s] => assert (Q : quietX a); [|exact (Q s I)] end.
  apply quietX_andthen; [apply quietX_emit|].
  apply (@quietX_schedule (fun s => w_sto ((n, d) :: s_sto s) s)); try discriminate.
  intros s'. split; [repeat split|auto].
Qed.
Lemma quietX_sync e u q face : e_sys e = sys -> quietX (on_sync c e u q face).
Proof.
  intros Es s I. unfold on_sync, process_update.
  destruct (update_origin u) as [o|]; [|split; [exact I|apply keepX_refl]].
  destruct (back 1 u) as [ct|]; [|now apply quietX_ub].
  destruct (eqb o (c_self c)).
  - destruct (is_new _ _ _ _); [|split; [exact I|apply keepX_refl]].
    destruct (comp_type ct) as [[]|]; [| | |split; [exact I|apply keepX_refl]].
    + destruct (eqb _ _); [|split; [exact I|apply keepX_refl]].
      exact (quietX_andthen (quietX_setseq _ _) (quietX_build_own_adj _ Es) I).
    + destruct (eqb _ _); [|split; [exact I|apply keepX_refl]].
      exact (quietX_andthen (quietX_setseq _ _) (quietX_build_coord _ Es) I).
    + exact (quietX_andthen (quietX_setseq _ _) (quietX_build_name _ Es) I).
  - destruct (is_new _ _ _ _); [|split; [exact I|apply keepX_refl]].
    destruct (_ && _ && _); [split; [exact I|apply keepX_refl]|].
    destruct (_ && _ && _); [split; [exact I|apply keepX_refl]|].
    exact (quietX_andthen (quietX_emit _) (@quietX_express _ _ _ _) I).
Qed.
Lemma quietX_fifo es : quietX (upd (fun s => fold_left (fun s e => fifo_insert c e s) es s)).
Proof.
  intros s. cbn [upd fst]. revert s. induction es as [|e es IH]; intros s I; [split; [exact I|apply keepX_refl]|].
  cbn [fold_left].
  assert (Q : invX (fifo_insert c e s) /\ keepX s (fifo_insert c e s)).
  { apply (@quietX_schedule (fun s => w_fifo ((if Nat.leb FIFO_LIMIT (length (s_fifo s)) then tl (s_fifo s) else s_fifo s) ++ [e]) s)
      (c_refresh c * SEC) (AFifo (fst e)) ltac:(discriminate)); [|exact I].
    intros s'. split; [repeat split|auto]. }
  destruct Q as [I1 K1]. destruct (IH _ I1) as [A B]. split; [exact A|eapply keepX_trans; eassumption].
Qed.
Lemma quietX_interest i p k v : quietX (process_interest c i p k v).
Proof.
  intros s I. unfold process_interest. destruct (back 2 i) as [cv|]; [|now apply quietX_ub].
  destruct (if is_version cv then _ else _) as [[n [l k']]|]; [split; [exact I|apply keepX_refl]|].
  match goal with |- context [?a s] => assert (Q : quietX a); [|exact (Q s I)] end. clear s I.
  apply quietX_andthen; [apply quietX_emit|].
  assert (St : quietX (serve_stored i p)).
  { intros s I. unfold serve_stored. destruct (find _ _) as [[n d]|]; (split; [exact I|apply keepX_refl]). }
  destruct (name_origin _ _) as [o|]; [|exact St]. destruct (eqb _ _); [|exact St].
  destruct (back 1 _) as [cq|]; [|apply quietX_ub]. destruct (back 2 _) as [ct|]; [|apply quietX_ub].
  destruct (to_number cq); [|apply quietX_throw]. destruct (comp_type ct); [|apply quietX_ret].
  apply quietX_andthen; [apply quietX_emit|].
  intros s I. unfold interest_for_lsa. destruct (find_lsa _ s) as [l0|]; [|split; [exact I|apply keepX_refl]].
  destruct (_ =? _)%N; [|split; [exact I|apply keepX_refl]].
  match goal with |- context [?a s] => assert (Q : quietX a); [|exact (Q s I)] end. clear s I.
  apply quietX_andthen; [apply quietX_fifo|]. apply quietX_andthen.
  - destruct (nth_error _ _) as [[n' [l' k']]|]; [apply quietX_emit|apply quietX_ret].
  - apply quietX_andthen; apply quietX_emit.
Qed.


End Fetches.

Definition fok (s : st) : Prop := forall fid f, get fid (s_fetch s) = Some f -> (fid < s_nfid s)%nat.

Definition stepX (s : st) (x : env * ev) (s' : st) : Prop :=
  invX s' /\
  (forall fid f, get fid (s_fetch s) = Some f -> get fid (s_fetch s') = Some f \/
     (exists ct, snd x = EFetchDone fid ct) \/ (exists b, snd x = EFetchErr fid b)) /\
  (forall t d i n dl, get t (s_timers s) = Some (Timer d (AExpress i n dl)) ->
     get t (s_timers s') = Some (Timer d (AExpress i n dl)) \/ (snd x = EFire t /\ d <= s_now s)) /\
  s_now s <= s_now s'.

Lemma stepX_keep s x s' : invX s' -> keepX s s' -> stepX s x s'.
Proof. intros I [A B C]. split; [exact I|]. split; [intros; left; auto|]. split; [intros; left; auto|lia]. Qed.

Lemma stepX_fire s e tid s' due a : get tid (s_timers s) = Some (Timer due a) -> due <= s_now s -> invX s' ->
  keepX (w_timers (del tid (s_timers s)) (s_ntid s) s) s' -> stepX s (e, EFire tid) s'.
Proof.
  intros Et Hd I [A B C]. split; [exact I|]. split; [intros; left; auto|]. split; [|cbn [s_now w_timers] in C; lia].
  intros t d i n dl H. destruct (Nat.eq_dec t tid) as [->|N].
  - right. rewrite Et in H. injection H as -> _. auto.
  - left. apply B. cbn [s_timers w_timers]. now rewrite get_del_ne.
Qed.

Lemma keepX_schedule_build d s : invS None s -> keepX s (schedule_build d s).
Proof.
  intros I. unfold schedule_build, schedule, cancel. cbn [s_btid w_timers]. constructor; [destruct (s_btid s); auto| |destruct (s_btid s); reflexivity].
  intros t dd i n dl H. pose proof (invS_lt I _ H). destruct (s_btid s) as [b|] eqn:Eb; cbn [s_timers w_build w_timers].
  - rewrite get_del_ne, get_set_ne; [exact H|lia|]. intros ->. pose proof (proj2 (iS_btid I Eb) _ H) as X. discriminate X.
  - rewrite get_set_ne; [exact H|lia].
Qed.

Lemma expire_X c sys oid s : (forall t tm, get t (s_timers s) = Some tm -> (t < s_ntid s)%nat) ->
  (forall oid' o t tm, get oid' (s_heap s) = Some o -> o_tid o = Some t -> get t (s_timers s) = Some tm -> t_act tm = AExpire oid') ->
  let s' := fst (expire_or_refresh c sys oid s) in
  keepX s s' /\ s_fetch s' = s_fetch s /\ s_nfid s' = s_nfid s.
Proof.
  intros A B. cbv zeta. unfold expire_or_refresh. destruct (get oid (s_heap s)) as [o|]; [|split; [apply keepX_refl|now split]].
  destruct (find_oid _ s) as [oid'|]; [|split; [apply keepX_refl|now split]].
  destruct (get oid' (s_heap s)) as [o'|] eqn:Eo'; [|split; [apply keepX_refl|now split]].
  destruct (_ =? _)%N; [|split; [apply keepX_refl|now split]]. destruct (eqb _ _).
  - match goal with |- context [(write_seqs ;; publish ?t) ?y] => change (fst ((write_seqs ;; publish t) y)) with y end.
    match goal with |- keepX s (schedule_expiration ?i ?x ?y) /\ _ => destruct (@schedule_expiration_X i x y) as (C & D & F) end.
    + exact A.
    + cbn [s_heap s_timers w_heap w_seqs]. intros o2 t tm X Y Z. rewrite get_set_eq in X. injection X as <-. cbn [o_tid] in Y. eapply B; eassumption.
    + split; [|split; [exact D|exact F]]. eapply keepX_trans; [|exact C]. constructor; auto.
  - unfold remove. destruct (find_lsa _ s); (split; [constructor; auto|now split]).
Qed.

Lemma on_error_X c f b s : invX s -> invX (fst (on_error c f b s)) /\ keepX s (fst (on_error c f b s)).
Proof.
  intros I. unfold on_error. destruct (back 1 _) as [cq|]; [|now apply quietX_ub]. destruct (to_number cq); [|now apply quietX_throw].
  destruct (_ && _)%bool; [|split; [exact I|apply keepX_refl]].
  apply (@quietX_schedule (fun s => s)); [discriminate| |exact I]. intros s'. split; [repeat split|auto].
Qed.

Lemma invX_del fid s : invX s -> invX (w_fetch (del fid (s_fetch s)) (s_nfid s) s).
Proof.
  intros [I F]. split; [apply (invS_same (s := s)); [repeat split|exact I]|]. intros i f H. cbn [s_fetch s_nfid w_fetch] in *.
  rewrite get_del in H. destruct (eqb i fid); [discriminate|]. eauto.
Qed.

Lemma step_fetches c s x : invX s -> stepX s x (fst (step c s x)).
Proof.
  intros I. pose proof (@invS_step c s x (proj1 I)) as I'. destruct x as [e v]. unfold step in *.
  destruct (s_dead s); [apply stepX_keep; [exact I|apply keepX_refl]|].
  assert (Q : forall a, quietX a -> stepX s (e, v) (fst (a s))).
  { intros a Ha. destruct (Ha s I) as [A B]. now apply stepX_keep. }
  destruct v; cbn [step_live fst snd] in *.
  - split; [split; [exact I'|exact (proj2 I)]|]. split; [intros; now left|]. split; [intros; now left|]. cbn [s_now w_now]. lia.
  - apply Q. now apply quietX_sync with (sys := e_sys e).
  - unfold fire in *. destruct (get tid (s_timers s)) as [[due a]|] eqn:Et; [|apply stepX_keep; [exact I|apply keepX_refl]].
    cbn [t_due t_act] in *. destruct (Z.leb_spec due (s_now s)) as [Hd|Hd]; [|apply stepX_keep; [exact I|apply keepX_refl]].
    set (s1 := w_timers _ _ s) in *.
    assert (A1 : forall t tm, get t (s_timers s1) = Some tm -> (t < s_ntid s1)%nat).
    { intros t tm H. cbn [s1 s_timers w_timers s_ntid] in *. rewrite get_del in H. destruct (eqb t tid); [discriminate|]. exact (invS_lt (proj1 I) _ H). }
    assert (B1 : forall oid' o t tm, get oid' (s_heap s1) = Some o -> o_tid o = Some t -> get t (s_timers s1) = Some tm -> t_act tm = AExpire oid').
    { intros oid' o t tm X Y H. cbn [s1 s_timers w_timers s_heap] in *. rewrite get_del in H. destruct (eqb t tid); [discriminate|].
      exact (proj2 (proj2 (iS_heap (proj1 I) _ X) _ Y) _ H). }
    destruct a as [oid| |i n d|n|n].
    + destruct (@expire_X c (e_sys e) oid s1 A1 B1) as (K & E1 & E2). eapply stepX_fire; [exact Et|exact Hd| |exact K].
      split; [exact I'|]. rewrite E1, E2. exact (proj2 I).
    + assert (I1 : invX s1).
      { split; [|exact (proj2 I)]. exact (proj1 (@keepT_fired c (e_sys e) s tid due ABuild (proj1 I) Et ltac:(discriminate))). }
      unfold build_adj in *. set (s0 := w_build false (s_count s1) (s_btid s1) s1) in *.
      assert (I0 : invX s0) by (split; [apply (invS_same (s := s1)); [repeat split|exact (proj1 I1)]|exact (proj2 I1)]).
      assert (K0 : keepX s1 s0) by (constructor; auto).
      destruct (is_buildable _ _).
      * destruct (0 <? s_count s0); [|eapply stepX_fire; [exact Et|exact Hd|exact I0|exact K0]].
        rewrite andthen_fst in *. cbn [upd fst] in *. destruct (Nat.ltb 0 _).
        -- destruct (@quietX_build_own_adj c (e_sys e) e eq_refl s0 I0) as [A B].
           eapply stepX_fire; [exact Et|exact Hd| |].
           ++ split; [exact I'|exact (proj2 A)].
           ++ eapply keepX_trans; [exact K0|]. eapply keepX_trans; [exact B|]. constructor; auto.
        -- eapply stepX_fire; [exact Et|exact Hd| |].
           ++ split; [exact I'|]. unfold remove. destruct (find_lsa _ _); exact (proj2 I0).
           ++ eapply keepX_trans; [exact K0|]. unfold remove. destruct (find_lsa _ _); constructor; auto.
      * eapply stepX_fire; [exact Et|exact Hd| |].
        -- split; [exact I'|]. unfold schedule_build, schedule, cancel. cbn [s_btid w_timers fst]. destruct (s_btid s0); exact (proj2 I0).
        -- eapply keepX_trans; [exact K0|]. exact (@keepX_schedule_build _ s0 (proj1 I0)).
    + assert (I1 : invX s1).
      { split; [|exact (proj2 I)]. exact (proj1 (@keepT_fired c (e_sys e) s tid due (AExpress i n d) (proj1 I) Et ltac:(discriminate))). }
      destruct (@quietX_express i n 0 (Some d) s1 I1) as [A B]. eapply stepX_fire; [exact Et|exact Hd|exact A|exact B].
    + eapply stepX_fire; [exact Et|exact Hd| |constructor; auto]. split; [exact I'|exact (proj2 I)].
    + eapply stepX_fire; [exact Et|exact Hd| |constructor; auto]. split; [exact I'|exact (proj2 I)].
  - unfold fetch_done in *. destruct (get fid (s_fetch s)) as [f|] eqn:Ef; [|apply stepX_keep; [exact I|apply keepX_refl]].
    rewrite andthen_fst. set (q := match back 1 (f_iname f) with Some _ => _ | None => _ end).
    match goal with |- context [upd ?g s] => destruct (@quietX_sto (fun s => erase_prefix (drop_last 1 (f_iname f) ++ [number_comp ((q + (2 ^ 64 - 1)) mod 2 ^ 64)%N]) (s_sto s)) s I) as [A B] end.
    match type of A with invX (fst ?y) => set (s1 := fst y) in * end.
    change (stepX s (e, EFetchDone fid content) (fst ((after_fetch c (e_sys e) (f_iname f) content ;; upd (fun s => w_fetch (del fid (s_fetch s)) (s_nfid s) s)) s1))).
    rewrite andthen_fst. destruct (@quietX_after_fetch c (e_sys e) (f_iname f) content s1 A) as [C D].
    set (s2 := fst (after_fetch _ _ _ _ s1)) in *. cbn [upd fst]. split; [now apply invX_del|].
    destruct (keepX_trans B D) as [F G N1]. split; [|split; [intros; left; now apply G|rewrite <- N1; apply Z.le_refl]].
    intros i g H. destruct (Nat.eq_dec i fid) as [->|N]; [right; left; now exists content|left]. change (get i (del fid (s_fetch s2)) = Some g). rewrite get_del_ne by exact N. auto.
  - unfold fetch_err in *. destruct (get fid (s_fetch s)) as [f|] eqn:Ef; [|apply stepX_keep; [exact I|apply keepX_refl]].
    rewrite andthen_fst. destruct (@on_error_X c f timeout s I) as [C D]. set (s2 := fst (on_error _ _ _ s)) in *.
    cbn [upd fst]. split; [now apply invX_del|]. destruct D as [F G N1]. split; [|split; [intros; left; now apply G|rewrite <- N1; apply Z.le_refl]].
    intros i g H. destruct (Nat.eq_dec i fid) as [->|N]; [right; right; now exists timeout|left]. change (get i (del fid (s_fetch s2)) = Some g). rewrite get_del_ne by exact N. auto.
  - apply Q, quietX_segment.
  - destruct (is_prefix _ _); [|apply stepX_keep; [exact I|apply keepX_refl]]. apply Q, quietX_interest.
  - apply Q. now apply quietX_build_name with (sys := e_sys e).
  - unfold schedule_adj_build in *. destruct (eqb _ _); cbn [fst] in *.
    + apply stepX_keep; [|constructor; auto]. split; [exact I'|exact (proj2 I)].
    + set (s0 := w_build (s_sched s) (s_count s + 1) (s_btid s) s) in *.
      assert (I0 : invS None s0) by (apply (invS_same (s := s)); [repeat split|exact (proj1 I)]).
      apply stepX_keep.
      * split; [exact I'|]. unfold schedule_build, schedule, cancel. cbn [s_btid w_timers fst]. destruct (s_btid s0); exact (proj2 I).
      * eapply keepX_trans; [|exact (@keepX_schedule_build _ s0 I0)]. constructor; auto.
Qed.

Lemma invX_init c f now e0 : invX (fst (init c f now e0)).
Proof.
  assert (I0 : invX (St (seqs_from_file c f) [] [] 0 [] 0 false 0 None [] [] 0 [] [] now false)).
  { split; [|discriminate]. constructor; cbn; try (intros; discriminate). constructor. }
  unfold init. apply (@quietX_andthen (build_name c e0) (if eqb (c_hyp c) HOff then ret else build_coord c e0)); [..|exact I0].
  - now apply quietX_build_name with (sys := e_sys e0).
  - destruct (eqb _ _); [apply quietX_ret|]. now apply quietX_build_coord with (sys := e_sys e0).
Qed.

Lemma invX_exec c f now e0 evs : invX (fst (exec c f now e0 evs)).
Proof.
  rewrite exec_fst. apply run_inv; [apply invX_init|]. intros s x I. exact (proj1 (@step_fetches c s x I)).
Qed.
