(** Sequence numbers: announcements, the state file, crashes. *)
From Verif Require Import Base M_Nexthop M_Tlv M_Adj M_Lsa M_Lsdb L_Lsdb S_Lsdb L_Lsdb2 L_Lsdb3 L_Lsdb4.
Open Scope Z_scope.
Set Implicit Arguments.

Lemma increasing_snoc l x : increasing (l ++ [x]) <-> increasing l /\ forall y, In y l -> (y < x)%N.
Proof.
  induction l as [|a l IH]; simpl.
  - tauto.
  - rewrite IH. split.
    + intros [H [Hi Hx]]. split; [split; [|exact Hi]|].
      * intros y Hy. apply H. apply in_app_iff. auto.
      * intros y [<-|Hy]; [|auto]. apply H. apply in_app_iff. simpl. auto.
    + intros [[H Hi] Hx]. split; [|split; [exact Hi|auto]].
      intros y Hy. apply in_app_iff in Hy. simpl in Hy. destruct Hy as [Hy|[<-|[]]]; auto.
Qed.

Lemma announced_app t a b : announced t (a ++ b) = announced t a ++ announced t b.
Proof.
  induction a as [|x a IH]; [reflexivity|]. destruct x; simpl; try exact IH.
  destruct (eqb t t0); [simpl; f_equal|]; exact IH.
Qed.

Lemma announced_rel t o : announced t (filter rel o) = announced t o.
Proof.
  induction o as [|x o IH]; [reflexivity|]. destruct x; simpl; try exact IH.
  destruct (eqb t t0); [f_equal|]; exact IH.
Qed.

Lemma announced_offer t o l : announced t (offer_outs o l) = [].
Proof.
  unfold offer_outs. destruct o as [o|]; [|reflexivity]. destruct (_ <? _)%N; [|reflexivity].
  unfold upd_notify. destruct (update_body _ _) as [[[u b] ad] rm]. destruct u; reflexivity.
Qed.

(** ** Own LSAs that are always present *)

Lemma offered_present s l s' k : offered s l s' ->
  (exists o, find_lsa k s = Some o) -> exists o, find_lsa k s' = Some o.
Proof. intros H Hk. rewrite (H k). destruct (eqb k (l_key l)); eauto. Qed.

Lemma eff_present c s x s' o t : invS None s -> t <> TAdj -> eff c s x s' o ->
  (exists l, find_lsa (c_self c, t) s = Some l) -> exists l, find_lsa (c_self c, t) s' = Some l.
Proof.
  intros I Ht E Hp. inversion E; subst.
  - now rewrite H.
  - eapply offered_present; eassumption.
  - eapply offered_present; eassumption.
  - rewrite H2. destruct (eqb _ _); eauto.
  - rewrite H2. eqb_case (c_self c, t) (l_key l); [|exact Hp].
    exfalso. apply H1. injection E0; auto.
  - rewrite H2. eqb_case (c_self c, t) (c_self c, TAdj); [congruence|exact Hp].
Qed.

Lemma present c f now e0 evs t : t = TName \/ (t = TCoord /\ c_hyp c <> HOff) ->
  exists l, find_lsa (c_self c, t) (fst (exec c f now e0 evs)) = Some l.
Proof.
  intros Ht. rewrite exec_fst.
  assert (G : forall s, invS None s /\ (exists l, find_lsa (c_self c, t) s = Some l) -> forall evs,
     invS None (fst (run (step c) s evs)) /\ exists l, find_lsa (c_self c, t) (fst (run (step c) s evs)) = Some l).
  { intros s Hs evs'. apply (run_inv (step c) (fun s => invS None s /\ exists l, find_lsa (c_self c, t) s = Some l)).
    - exact Hs.
    - intros s1 x [I Hp]. split; [now apply invS_step|].
      eapply eff_present; [exact I| |apply step_eff; exact I|exact Hp].
      destruct Ht as [->|[-> _]]; discriminate. }
  apply G. split; [apply invS_init|].
  destruct (init_effs c f now e0) as (s1 & o1 & I1 & E1 & H1 & P1 & M).
  eqb_case (c_hyp c) HOff.
  - destruct M as [-> _]. destruct Ht as [->|[_ Hn]]; [exact P1|congruence].
  - destruct M as (o2 & E2 & _ & _ & P2). destruct Ht as [->|[-> _]]; [|exact P2].
    eapply eff_present; [exact I1|discriminate|exact E2|exact P1].
Qed.

(** ** Order of the announced numbers *)

Definition ordered (c : conf) (t : ltype) (a0 : list N) (s : st) (o : list out) : Prop :=
  (forall l, find_lsa (c_self c, t) s = Some l -> (seq_get t (s_seqs s) <= l_seq l)%N) /\
  (forall n, In n (a0 ++ announced t o) -> (n <= seq_get t (s_seqs s))%N) /\
  increasing (a0 ++ announced t o).

Lemma offer_seq o l : (l_seq l <= l_seq (offer o l))%N /\ forall x, o = Some x -> (l_seq x <= l_seq (offer o l))%N.
Proof.
  unfold offer. destruct o as [o|]; [|split; [lia|discriminate]].
  destruct (N.ltb_spec (l_seq o) (l_seq l)); cbn [merged l_seq]; split; try lia;
    intros x E; injection E as <-; lia.
Qed.

Lemma offered_own_seq c s l s' t (q : N) : offered s l s' ->
  (l_key l = (c_self c, t) -> find_lsa (c_self c, t) s = None -> (q <= l_seq l)%N) ->
  (forall x, find_lsa (c_self c, t) s = Some x -> (q <= l_seq x)%N) ->
  forall x, find_lsa (c_self c, t) s' = Some x -> (q <= l_seq x)%N.
Proof.
  intros Ho Hn Hs x. rewrite (Ho (c_self c, t)). eqb_case (c_self c, t) (l_key l); [|apply Hs].
  intros Ex. injection Ex as <-. destruct (find_lsa (l_key l) s) as [o|] eqn:Ef.
  - destruct (offer_seq (Some o) l) as [_ A]. specialize (A o eq_refl). rewrite <- E in Ef.
    specialize (Hs o Ef). lia.
  - rewrite <- E in Ef. cbn [offer]. apply Hn; auto.
Qed.

Lemma ordered_step c t a0 s x s' o o' : invS None s -> ordered c t a0 s o -> eff c s x s' o' ->
  (forall fid l, snd x = EFetchDone fid (Some l) -> l_key l = (c_self c, t) ->
     exists y, find_lsa (c_self c, t) s = Some y) ->
  (forall u q face, snd x = ESync u q face -> update_origin u = Some (c_self c) ->
     back 1 u = Some (type_comp t) -> publishes (c_hyp c) t = true ->
     (t = TAdj -> c_hyp c = HOff) ->
     (forall n, In n (a0 ++ announced t o) -> (n <= q mod 2 ^ 64)%N) \/
     exists y, find_lsa (c_self c, t) s = Some y) ->
  ordered c t a0 s' (o ++ o').
Proof.
  intros I (O1 & O2 & O3) E Hf Hsy. unfold ordered. rewrite announced_app, app_assoc.
  set (A := a0 ++ announced t o) in *.
  inversion E; subst; clear E.
  - rewrite app_nil_r, H0. repeat split; trivial. intros l. rewrite H. apply O1.
  - rewrite announced_offer, app_nil_r, H10. repeat split; trivial.
    eapply offered_own_seq; [eassumption| |exact O1].
    intros Hk Hnone. exfalso. destruct (Hf _ _ H Hk) as [y Hy]. congruence.
  - rename b into b0. set (t0 := body_type b0) in *.
    rewrite !announced_app, announced_offer. cbn [announced]. rewrite app_nil_r. cbn [app].
    rewrite H4. destruct (eq_dec t t0) as [->|Ht].
    + rewrite seq_get_set.
      assert (Hlt : (seq_get t0 (s_seqs s) <= q0)%N \/ forall n, In n A -> (n <= q0)%N).
      { destruct H as [[-> _]|(u & q & face & Hx & Hu & (ct & Hct & Hty) & -> & Hnew & Ha & Hc)]; [left; lia|].
        destruct (find_lsa (c_self c, t0) s) as [y|] eqn:Ey.
        - left. unfold is_new in Hnew. rewrite Ey in Hnew. apply N.ltb_lt in Hnew.
          specialize (O1 y eq_refl). lia.
        - apply comp_type_inv in Hty. subst ct.
          destruct (Hsy _ _ _ Hx Hu Hct) as [Hle|[y Hy]]; [| |right; exact Hle|congruence].
          + destruct t0; [rewrite Ha; reflexivity|rewrite Hc; reflexivity|reflexivity].
          + exact Ha. }
      assert (Hle : forall n, In n A -> (n <= q0)%N).
      { destruct Hlt as [Hl|Hl]; [|exact Hl]. intros n Hn. specialize (O2 n Hn). lia. }
      split; [|split].
      * intros l Hl. rewrite (H5 (c_self c, t0)) in Hl.
        change (l_key (own c t0 (q0 + 1) (e_sys (fst x)) b0)) with (c_self c, t0) in Hl.
        rewrite eqb_refl in Hl. injection Hl as <-.
        match goal with |- (_ <= l_seq (offer ?o ?l))%N => destruct (offer_seq o l) as [B _] end.
        exact B.
      * intros n Hn. apply in_app_iff in Hn. destruct Hn as [Hn|Hn]; [specialize (Hle n Hn); lia|].
        destruct (publishes (c_hyp c) t0); [|destruct Hn]. cbn [announced] in Hn. rewrite eqb_refl in Hn.
        destruct Hn as [<-|[]]. lia.
      * destruct (publishes (c_hyp c) t0); [|now rewrite app_nil_r]. cbn [announced]. rewrite eqb_refl.
        apply increasing_snoc. split; [exact O3|]. intros y Hy. specialize (Hle y Hy). lia.
    + rewrite seq_get_set_ne by exact Ht.
      assert (announced t (if publishes (c_hyp c) t0 then [OPublish t0 (q0 + 1)] else []) = []) as ->.
      { destruct (publishes (c_hyp c) t0); [|reflexivity]. cbn [announced]. eqb_case t t0; [congruence|reflexivity]. }
      rewrite app_nil_r. repeat split; trivial. intros l. rewrite (H5 (c_self c, t)).
      change (l_key (own c t0 (q0 + 1) (e_sys (fst x)) b0)) with (c_self c, t0).
      eqb_case (c_self c, t) (c_self c, t0); [congruence|]. apply O1.
  - cbn [announced]. rewrite H3. destruct (eq_dec t (l_type l)) as [->|Ht].
    + rewrite eqb_refl, seq_get_set.
      assert (Hk : l_key l = (c_self c, l_type l)) by (unfold l_key; congruence).
      rewrite Hk in *. specialize (O1 l H0). split; [|split].
      * intros y. rewrite (H2 (c_self c, l_type l)), eqb_refl. intros Ey. injection Ey as <-. simpl. lia.
      * intros n Hn. apply in_app_iff in Hn. destruct Hn as [Hn|[<-|[]]]; [specialize (O2 n Hn); lia|lia].
      * apply increasing_snoc. split; [exact O3|]. intros y Hy. specialize (O2 y Hy). lia.
    + eqb_case t (l_type l); [congruence|]. rewrite app_nil_r, seq_get_set_ne by exact Ht.
      repeat split; trivial. intros y. rewrite (H2 (c_self c, t)).
      eqb_case (c_self c, t) (l_key l); [|apply O1]. exfalso. apply Ht. injection E0; auto.
  - cbn [announced]. rewrite app_nil_r, H3. repeat split; trivial. intros y. rewrite (H2 (c_self c, t)).
    destruct (eqb _ _); [discriminate|apply O1].
  - cbn [announced]. rewrite app_nil_r, H3. repeat split; trivial. intros y. rewrite (H2 (c_self c, t)).
    destruct (eqb _ _); [discriminate|apply O1].
Qed.

(** ** The state file *)

Lemma disk_rel o d : fold_left disk1 (filter rel o) d = fold_left disk1 o d.
Proof.
  revert d. induction o as [|x o IH]; intros d; [reflexivity|]. cbn [filter fold_left].
  destruct x; cbn [rel fold_left]; apply IH.
Qed.

Lemma disk_offer o l d : fold_left disk1 (offer_outs o l) d = d.
Proof.
  unfold offer_outs. destruct o as [o|]; [|reflexivity]. destruct (_ <? _)%N; [|reflexivity].
  unfold upd_notify. destruct (update_body _ _) as [[[u b] ad] rm]. destruct u; reflexivity.
Qed.

Lemma offer_no_pub o l t q o1 o2 : offer_outs o l = o1 ++ OPublish t q :: o2 -> False.
Proof.
  unfold offer_outs. destruct o as [o|].
  - destruct (_ <? _)%N.
    + unfold upd_notify. destruct (update_body _ _) as [[[u b] ad] rm]. destruct u; destruct o1 as [|? [|? o1]]; discriminate.
    + destruct o1; discriminate.
  - destruct o1 as [|? [|? o1]]; discriminate.
Qed.

(** [filed f o]: in the history [o], every announced number was in the state file before. *)
Definition filed (d : disk) (o : list out) : Prop :=
  forall o1 o2 t q, o = o1 ++ OPublish t q :: o2 ->
    exists sq, d_file (fold_left disk1 o1 d) = Some sq /\ seq_get t sq = q.

Lemma filed_app d a b : filed d a -> filed (fold_left disk1 a d) b -> filed d (a ++ b).
Proof.
  intros Ha Hb o1 o2 t q E.
  destruct (Nat.lt_ge_cases (length o1) (length a)) as [L|L].
  - assert (X : firstn (length a) (a ++ b) = a) by (rewrite firstn_app, Nat.sub_diag, firstn_all; apply app_nil_r).
    rewrite E, firstn_app in X.
    rewrite firstn_all2 in X by lia.
    destruct (length a - length o1)%nat as [|k] eqn:Ek; [lia|]. cbn [firstn] in X.
    exact (Ha _ _ _ _ (eq_sym X)).
  - assert (X : firstn (length a) o1 = a).
    { assert (Y : firstn (length a) (a ++ b) = a) by (rewrite firstn_app, Nat.sub_diag, firstn_all; apply app_nil_r).
      rewrite E, firstn_app in Y. replace (length a - length o1)%nat with 0%nat in Y by lia.
      cbn [firstn] in Y. now rewrite app_nil_r in Y. }
    pose proof (firstn_skipn (length a) o1) as Z. rewrite X in Z. rewrite <- Z in E.
    rewrite <- app_assoc in E. apply app_inv_head in E.
    destruct (Hb _ _ _ _ E) as (sq & H1 & H2). exists sq. split; [|exact H2].
    rewrite <- Z, fold_left_app. exact H1.
Qed.

Lemma filed_offer o l d : filed d (offer_outs o l).
Proof. intros o1 o2 t q E. exfalso. eapply offer_no_pub; eassumption. Qed.

Lemma eff_filed c s x s' o d : eff c s x s' o ->
  filed d o /\ (d_file d = Some (s_seqs s) \/ (exists q r, o = OTmp q :: r) -> d_file (fold_left disk1 o d) = Some (s_seqs s')).
Proof.
  intros E. inversion E; subst.
  - split; [intros o1 o2 t q E1; destruct o1; discriminate|]. cbn [fold_left]. rewrite H0.
    intros [A|(q & r & A)]; [exact A|discriminate].
  - split; [apply filed_offer|]. rewrite disk_offer, H10. intros [A|(q1 & r & A)]; [exact A|].
    exfalso. revert A. unfold offer_outs. destruct (find_lsa _ s) as [o|]; [|discriminate].
    destruct (_ <? _)%N; [|discriminate]. unfold upd_notify.
    destruct (update_body _ _) as [[[u b] ad] rm]. destruct u; discriminate.
  - split.
    + apply filed_app; [intros o1 o2 t q E1; destruct o1 as [|? [|? [|? o1]]]; discriminate|].
      apply filed_app.
      * destruct (publishes _ _).
        -- intros o1 o2 t q E1. destruct o1 as [|? [|? o1]]; try discriminate. injection E1 as <- <- <-.
           cbn [fold_left disk1 d_file d_tmp]. eexists. split; [reflexivity|]. rewrite H4. apply seq_get_set.
        -- intros o1 o2 t q E1. destruct o1; discriminate.
      * apply filed_offer.
    + intros _. rewrite !fold_left_app, disk_offer. destruct (publishes _ _); reflexivity.
  - split.
    + intros o1 o2 t q E1. destruct o1 as [|? [|? [|? [|? o1]]]]; try discriminate. injection E1 as <- <- <- <- <-.
      cbn [fold_left disk1 d_file d_tmp]. eexists. split; [reflexivity|]. rewrite H3. apply seq_get_set.
    + intros _. reflexivity.
  - split; [intros o1 o2 t q E1; destruct o1 as [|? [|? o1]]; discriminate|].
    cbn [fold_left disk1]. rewrite H3. intros [A|(q & r & A)]; [exact A|discriminate].
  - split; [intros o1 o2 t q E1; destruct o1 as [|? [|? o1]]; discriminate|].
    cbn [fold_left disk1]. rewrite H3. intros [A|(q & r & A)]; [exact A|discriminate].
Qed.

Lemma exec_filed c f now e0 evs :
  filed (Disk None f) (filter rel (snd (exec c f now e0 evs))) /\
  d_file (fold_left disk1 (filter rel (snd (exec c f now e0 evs))) (Disk None f)) =
    Some (s_seqs (fst (exec c f now e0 evs))).
Proof.
  induction evs as [|x evs IH] using rev_ind.
  - rewrite exec_fst, exec_snd. cbn [run fst snd]. rewrite app_nil_r.
    destruct (init_effs c f now e0) as (s1 & o1 & I1 & E1 & H1 & P1 & M).
    destruct (eff_filed (Disk None f) E1) as [F1 F2]. specialize (F2 (or_intror H1)).
    destruct (eqb (c_hyp c) HOff).
    + destruct M as [-> ->]. auto.
    + destruct M as (o2 & E2 & _ & -> & _).
      destruct (eff_filed (fold_left disk1 o1 (Disk None f)) E2) as [F3 F4].
      split; [now apply filed_app|]. rewrite fold_left_app. apply F4. now left.
  - destruct IH as [F1 F2].
    pose proof (step_eff c x (invS_exec c f now e0 evs)) as Ex.
    assert (F : fst (exec c f now e0 (evs ++ [x])) = fst (step c (fst (exec c f now e0 evs)) x)).
    { rewrite !exec_fst, run_snoc. destruct (run _ _ evs) as [s1 o1]. cbn [fst].
      destruct (step c s1 x); reflexivity. }
    assert (G : snd (exec c f now e0 (evs ++ [x])) =
                snd (exec c f now e0 evs) ++ snd (step c (fst (exec c f now e0 evs)) x)).
    { rewrite !exec_snd, exec_fst, run_snoc. destruct (run _ _ evs) as [s1 o1]. cbn [fst snd].
      destruct (step c s1 x); cbn [snd]. now rewrite app_assoc. }
    rewrite F, G, filter_app.
    match type of F2 with d_file ?d = _ => destruct (eff_filed d Ex) as [F3 F4] end.
    split; [now apply filed_app|]. rewrite fold_left_app. apply F4. now left.
Qed.

Lemma filter_split {A} (p : A -> bool) l a b : l = a ++ b -> filter p l = filter p a ++ filter p b.
Proof. intros ->. apply filter_app. Qed.

Lemma persisted c f now e0 evs o1 o2 t q :
  snd (exec c f now e0 evs) = o1 ++ OPublish t q :: o2 ->
  exists sq, d_file (disk_after f o1) = Some sq /\ seq_get t sq = q.
Proof.
  intros E. destruct (exec_filed c f now e0 evs) as [F _].
  pose proof (@filter_split _ rel _ _ _ E) as E'. cbn [filter rel] in E'.
  destruct (F _ _ _ _ E') as (sq & H1 & H2). exists sq. split; [|exact H2].
  unfold disk_after. now rewrite <- disk_rel.
Qed.

(** ** Crashes *)

Lemma increasing_last l x : increasing (l ++ [x]) -> forall y, In y (l ++ [x]) -> (y <= x)%N.
Proof.
  intros H y Hy. apply increasing_snoc in H. destruct H as [_ H]. apply in_app_iff in Hy.
  destruct Hy as [Hy|[<-|[]]]; [specialize (H y Hy); lia|lia].
Qed.

Lemma increasing_prefix a b : increasing (a ++ b) -> increasing a.
Proof.
  induction a as [|x a IH]; [simpl; auto|]. cbn [app increasing]. intros [H1 H2]. split; [|auto].
  intros y Hy. apply H1. apply in_app_iff. auto.
Qed.

Lemma app_split {A} (a b p r : list A) : a ++ b = p ++ r ->
  (exists r', a = p ++ r') \/ exists p', p = a ++ p' /\ b = p' ++ r.
Proof.
  revert p. induction a as [|x a IH]; intros p E.
  - right. exists p. auto.
  - destruct p as [|y p]; [left; exists (x :: a); reflexivity|]. injection E as <- E.
    destruct (IH _ E) as [[r' ->]|[p' [-> ->]]]; [left; exists r'|right; exists p']; auto.
Qed.

(** What the state file holds at an arbitrary point of one event's effects. *)
Lemma eff_prefix c s x s' o d t p r : eff c s x s' o -> o = p ++ r ->
  (d_file (fold_left disk1 p d) = d_file d /\ announced t p = []) \/
  d_file (fold_left disk1 p d) = Some (s_seqs s').
Proof.
  intros E. destruct E; intros Ep.
  - symmetry in Ep. apply app_eq_nil in Ep. destruct Ep as [-> _]. now left.
  - left.
    assert (forall p r, offer_outs (find_lsa (l_key l) s) l = p ++ r -> fold_left disk1 p d = d /\ announced t p = []) as G.
    { clear. intros p r. unfold offer_outs. intros E. destruct (find_lsa _ s) as [o|].
      - destruct (_ <? _)%N.
        + unfold upd_notify in E. destruct (update_body _ _) as [[[u b] ad] rm].
          destruct u; destruct p as [|? [|? p]]; try discriminate; try (split; reflexivity).
          injection E as <- <-. split; reflexivity.
        + destruct p; [split; reflexivity|discriminate].
      - destruct p as [|? [|? p]]; try discriminate; [split; reflexivity|].
        injection E as <- <-. split; reflexivity. }
    destruct (G _ _ Ep) as [-> ->]. auto.
  - destruct p as [|x1 [|x2 p]].
    + now left.
    + injection Ep as <- _. now left.
    + right. injection Ep as <- <- Ep. cbn [fold_left disk1 d_tmp d_file].
      assert (G : forall p r d, (if publishes (c_hyp c) t0 then [OPublish t0 (q0 + 1)] else []) ++
         offer_outs (find_lsa (c_self c, t0) s) (own c t0 (q0 + 1) (e_sys (fst x)) b) = p ++ r ->
         fold_left disk1 p d = d).
      { clear. intros p r d E.
        assert (G0 : forall p r o l, offer_outs o l = p ++ r -> fold_left disk1 p d = d).
        { clear. intros p r o l. unfold offer_outs. intros E. destruct o as [o|].
          - destruct (_ <? _)%N.
            + unfold upd_notify in E. destruct (update_body _ _) as [[[u b] ad] rm].
              destruct u; destruct p as [|? [|? p]]; try discriminate; try reflexivity.
              now injection E as <- <-.
            + destruct p; [reflexivity|discriminate].
          - destruct p as [|? [|? p]]; try discriminate; [reflexivity|]. now injection E as <- <-. }
        destruct (publishes _ _).
        - destruct p as [|y p]; [reflexivity|]. injection E as <- E. cbn [fold_left disk1]. eapply G0; eassumption.
        - eapply G0; eassumption. }
      rewrite (G _ _ _ Ep). reflexivity.
  - destruct p as [|x1 [|x2 [|x3 [|x4 p]]]]; try discriminate.
    + now left.
    + injection Ep as <- _. now left.
    + injection Ep as <- <- _. now right.
    + injection Ep as <- <- <- _. now right.
  - left. destruct p as [|x1 [|x2 p]]; try discriminate; [split; reflexivity|]. injection Ep as <- _. split; reflexivity.
  - left. destruct p as [|x1 [|x2 p]]; try discriminate; [split; reflexivity|]. injection Ep as <- _. split; reflexivity.
Qed.

(** At every point of a run the state file either is still the old one, and nothing was announced, or
    it holds a number that is at least every announced one. *)
Definition safe (f : option seqs) (t : ltype) (a0 : list N) (o : list out) : Prop :=
  forall p r, o = p ++ r ->
    (d_file (disk_after f p) = f /\ announced t p = []) \/
    exists sq, d_file (disk_after f p) = Some sq /\
      forall n, In n (a0 ++ announced t p) -> (n <= seq_get t sq)%N.

Definition good (c : conf) (f : option seqs) (t : ltype) (a0 : list N) (s : st) (o : list out) : Prop :=
  ordered c t a0 s o /\ safe f t a0 o /\
  (o = [] \/ d_file (disk_after f o) = Some (s_seqs s)).

Lemma good_step c f t a0 s x s' o o' : good c f t a0 s o -> ordered c t a0 s' (o ++ o') ->
  eff c s x s' o' -> (o = [] -> exists q r, o' = OTmp q :: r) -> good c f t a0 s' (o ++ o').
Proof.
  intros ((O1 & O2 & O3) & Sf & Fl) Ho E Ht. split; [exact Ho|]. split.
  - intros p r Ep. destruct (app_split _ _ _ _ Ep) as [[r' Er]|[p' [-> Ep']]]; [exact (Sf _ _ Er)|].
    unfold disk_after. rewrite fold_left_app, announced_app.
    destruct (@eff_prefix c s x s' o' (fold_left disk1 o (Disk None f)) t p' r E Ep') as [[A B]|A].
    + rewrite A, B. rewrite app_nil_r. destruct (Sf o [] (eq_sym (app_nil_r o))) as [S1|S1]; [now left|right].
      exact S1.
    + right. exists (s_seqs s'). split; [exact A|]. destruct Ho as (_ & Ho2 & _).
      intros n Hn. apply Ho2. rewrite announced_app, Ep', announced_app, !app_assoc.
      rewrite !app_assoc in Hn. apply in_app_iff. now left.
  - right. unfold disk_after. rewrite fold_left_app.
    destruct (eff_filed (fold_left disk1 o (Disk None f)) E) as [_ F].
    apply F. destruct Fl as [->|Fl]; [right; now apply Ht|now left].
Qed.

Lemma exec_nonempty c f now e0 evs : exists q r, filter rel (snd (exec c f now e0 evs)) = OTmp q :: r.
Proof.
  rewrite exec_snd, filter_app. unfold init. rewrite andthen_snd, filter_app, build_name_build.
  match goal with |- context [build c e0 TName ?s] => destruct (build_tmp c e0 TName s) as (q & r & ->) end.
  cbn [app]. eauto.
Qed.

Lemma good_exec c f now e0 evs t o0 :
  publishes (c_hyp c) t = true ->
  (t = TAdj -> adj_trusted c o0 f now e0 evs) ->
  (forall n, In n (announced t o0) -> (n <= seq_get t (seqs_from_file c f))%N) ->
  increasing (announced t o0) ->
  good c f t (announced t o0) (fst (exec c f now e0 evs)) (filter rel (snd (exec c f now e0 evs))).
Proof.
  intros Hp Htr Ha Hi.
  pose proof (@exec_eff_ind c f now e0
    (fun evs s o => (t = TAdj -> adj_trusted c o0 f now e0 evs) -> good c f t (announced t o0) s o)) as Ind.
  apply Ind; try exact Htr; clear Ind Htr evs.
  - intros _. split; [|split; [|now left]].
    + split; [discriminate|]. cbn [announced]. rewrite app_nil_r. auto.
    + intros p r Ep. symmetry in Ep. apply app_eq_nil in Ep. destruct Ep as [-> _]. now left.
  - intros s o s' o' I H E T Hc. specialize (H Hc).
    eapply good_step; [exact H| |exact E|intros _; exact T].
    eapply ordered_step; [exact I|exact (proj1 H)|exact E|discriminate|discriminate].
  - intros evs s o x s' o' Es Eo I H E Hc.
    assert (Hc' : t = TAdj -> adj_trusted c o0 f now e0 evs).
    { intros Et. destruct (Hc Et) as [H1 H2]. split.
      - intros e fid l Hin. apply (H1 e fid). apply in_app_iff. auto.
      - intros Eh a y b Eab. apply (H2 Eh a y (b ++ [x])). rewrite Eab, <- app_assoc. reflexivity. }
    specialize (H Hc'). eapply good_step; [exact H| |exact E|].
    2: { intros Hn. exfalso. rewrite Eo in Hn. destruct (exec_nonempty c f now e0 evs) as (q & r & X).
         rewrite X in Hn. discriminate. }
    eapply ordered_step; [exact I|exact (proj1 H)|exact E| |].
    + intros fid l Ex Hk. destruct (eq_dec t TAdj) as [Et|Et].
      * exfalso. destruct (Hc Et) as [H1 _]. destruct x as [e v]. simpl in Ex. subst v.
        apply (H1 e fid l); [apply in_app_iff; simpl; auto|]. injection Hk; auto.
      * rewrite Es. apply present. destruct t; [congruence| |now left]. right. split; [reflexivity|].
        intros Eh. rewrite Eh in Hp. discriminate.
    + intros u q face Ex Hu Hb _ Hoff. destruct (eq_dec t TAdj) as [Et|Et].
      * left. destruct (Hc Et) as [_ H2]. specialize (H2 (Hoff Et) evs x [] eq_refl).
        rewrite Ex in H2. simpl in H2. subst t. specialize (H2 Hu Hb). intros n Hn. apply H2.
        rewrite announced_app. rewrite Eo, announced_rel in Hn. exact Hn.
      * right. rewrite Es. apply present. destruct t; [congruence| |now left]. right. split; [reflexivity|].
        intros Eh. rewrite Eh in Hp. discriminate.
Qed.

Lemma seqs_restart c sq t : publishes (c_hyp c) t = true -> (c_hyp c <> HDry \/ t = TName) ->
  (seq_get t sq <= seq_get t (seqs_from_file c (Some sq)))%N.
Proof.
  intros Hp Hd. unfold seqs_from_file, publishes in *.
  destruct (c_hyp c); destruct t; try discriminate; cbn; try lia; destruct Hd as [Hd|Hd]; congruence.
Qed.

Lemma history_ordered c f o f' t : publishes (c_hyp c) t = true -> (c_hyp c <> HDry \/ t = TName) ->
  history c f o f' ->
  increasing (announced t o) /\
  (announced t o = [] \/ exists sq, f' = Some sq /\ forall n, In n (announced t o) -> (n <= seq_get t sq)%N).
Proof.
  intros Hp Hd H. induction H as [|o f1 now e0 evs p H IH Htr [r Hr]].
  - split; [exact I|now left].
  - destruct IH as [Hi Hf].
    assert (Hs : forall n, In n (announced t o) -> (n <= seq_get t (seqs_from_file c f1))%N).
    { destruct Hf as [->|(sq & -> & Hf)]; [intros n []|]. intros n Hn. specialize (Hf n Hn).
      pose proof (seqs_restart c sq Hp Hd). lia. }
    destruct (good_exec (t := t) Hp (fun _ => Htr) Hs Hi) as ((_ & _ & O3) & Sf & _).
    rewrite Hr, announced_rel, announced_app, app_assoc in O3. apply increasing_prefix in O3.
    rewrite announced_app. split; [exact O3|].
    specialize (Sf (filter rel p) (filter rel r)). rewrite Hr, filter_app in Sf. specialize (Sf eq_refl).
    unfold disk_after in Sf. rewrite disk_rel, announced_rel in Sf. fold (disk_after f1 p) in Sf.
    destruct Sf as [[E1 E2]|Sf]; [|right; exact Sf].
    rewrite E1, E2, app_nil_r. exact Hf.
Qed.
