(** Induction over runs in terms of step effects, and the invariants behind C03 and C08-C09. *)
From Verif Require Import Base M_Nexthop M_Tlv M_Adj M_Lsa M_Lsdb L_Lsdb S_Lsdb L_Lsdb2 L_Lsdb3.
Open Scope Z_scope.
Set Implicit Arguments.

Lemma filter_rel_idem o : filter rel (filter rel o) = filter rel o.
Proof. induction o as [|x o IH]; [reflexivity|]. simpl. destruct (rel x) eqn:E; simpl; [rewrite E|]; congruence. Qed.

Lemma build_tmp c e t s : exists q r, filter rel (snd (build c e t s)) = OTmp q :: r.
Proof.
  unfold build. rewrite !andthen_snd, !filter_app. cbn [bump upd write_seqs fst snd filter rel app]. eauto.
Qed.

(** The constructor is one or two own builds from the empty database. *)
Lemma init_effs c f now e0 :
  let s0 := blank (seqs_from_file c f) now in
  exists s1 o1, invS None s1 /\ eff c s0 (e0, EBuildName) s1 o1 /\ (exists q r, o1 = OTmp q :: r) /\
    (exists l, find_lsa (c_self c, TName) s1 = Some l) /\
    match eqb (c_hyp c) HOff with
    | true => fst (init c f now e0) = s1 /\ filter rel (snd (init c f now e0)) = o1
    | false => exists o2, eff c s1 (e0, EBuildName) (fst (init c f now e0)) o2 /\ (exists q r, o2 = OTmp q :: r) /\
                          filter rel (snd (init c f now e0)) = o1 ++ o2 /\
                          exists l, find_lsa (c_self c, TCoord) (fst (init c f now e0)) = Some l
    end.
Proof.
  intros s0. set (s1 := fst (build c e0 TName s0)).
  exists s1, (filter rel (snd (build c e0 TName s0))).
  assert (H0 : invS None s0) by apply invS_blank.
  assert (H1 : invS None s1).
  { unfold s1. rewrite <- build_name_build. now apply pres_build_name. }
  assert (P1 : forall s t, invS None s -> exists l, find_lsa (c_self c, t) (fst (build c e0 t s)) = Some l).
  { intros s t Hs. unfold build.
    pose proof (@build_find c t (e_sys e0) (own c t (seq_get t (s_seqs s) + 1) (e_sys e0) (own_body c e0 t))
                 (publishes (c_hyp c) t) s (c_self c, t) Hs) as B.
    rewrite own_key, eqb_refl in B. rewrite B.
    destruct (find_lsa _ s); [destruct (_ <? _)%N|]; eauto. }
  split; [exact H1|]. split; [|split; [apply build_tmp|split]].
  - change e0 with (fst (e0, EBuildName)). apply eff_own_plain; trivial. now left.
  - now apply P1.
  - unfold init. change (St (seqs_from_file c f) [] [] 0 [] 0 false 0 None [] [] 0 [] [] now false) with s0.
    eqb_case (c_hyp c) HOff.
    + rewrite andthen_fst, andthen_snd. rewrite build_name_build. cbn [ret fst snd]. rewrite app_nil_r. auto.
    + exists (filter rel (snd (build c e0 TCoord s1))). rewrite andthen_fst, andthen_snd, filter_app.
      rewrite build_name_build. fold s1. rewrite build_coord_build. split; [|split; [apply build_tmp|split]].
      * change e0 with (fst (e0, EBuildName)). apply eff_own_plain; trivial. now right.
      * reflexivity.
      * now apply P1.
Qed.

Lemma exec_eff_ind c f now e0 (P : list (env * ev) -> st -> list out -> Prop) :
  P [] (blank (seqs_from_file c f) now) [] ->
  (forall s o s' o', invS None s -> P [] s o -> eff c s (e0, EBuildName) s' o' ->
     (exists q r, o' = OTmp q :: r) -> P [] s' (o ++ o')) ->
  (forall evs s o x s' o', s = fst (exec c f now e0 evs) -> o = filter rel (snd (exec c f now e0 evs)) ->
     invS None s -> P evs s o -> eff c s x s' o' ->
     P (evs ++ [x]) s' (o ++ o')) ->
  forall evs, P evs (fst (exec c f now e0 evs)) (filter rel (snd (exec c f now e0 evs))).
Proof.
  intros H0 Hb Hs evs.
  induction evs as [|x evs IH] using rev_ind.
  - rewrite exec_fst, exec_snd. cbn [run fst snd]. rewrite app_nil_r.
    destruct (init_effs c f now e0) as (s1 & o1 & I1 & E1 & T1 & _ & M).
    pose proof (Hb _ _ _ _ (invS_blank _ _) H0 E1 T1) as P1. cbn [app] in P1.
    destruct (eqb (c_hyp c) HOff).
    + destruct M as [-> ->]. exact P1.
    + destruct M as (o2 & E2 & T2 & -> & _). exact (Hb _ _ _ _ I1 P1 E2 T2).
  - pose proof (invS_exec c f now e0 evs) as I.
    pose proof (step_eff c x I) as Ex.
    assert (F : fst (exec c f now e0 (evs ++ [x])) = fst (step c (fst (exec c f now e0 evs)) x)).
    { rewrite !exec_fst, run_snoc. destruct (run _ _ evs) as [s1 o1]. cbn [fst].
      destruct (step c s1 x); reflexivity. }
    assert (G : snd (exec c f now e0 (evs ++ [x])) =
                snd (exec c f now e0 evs) ++ snd (step c (fst (exec c f now e0 evs)) x)).
    { rewrite !exec_snd, exec_fst, run_snoc. destruct (run _ _ evs) as [s1 o1]. cbn [fst snd].
      destruct (step c s1 x); cbn [snd]. now rewrite app_assoc. }
    rewrite F, G, filter_app. eapply Hs; try reflexivity; assumption.
Qed.

(** ** What [update] does to the advertised names *)

Lemma keys_fold_set (adds old : npl) p :
  In p (keys (fold_left (fun m q => set (fst q) (snd q) m) adds old)) <-> In p (keys adds) \/ In p (keys old).
Proof.
  revert old. induction adds as [|a adds IH]; intros old; cbn [fold_left]; [simpl; tauto|].
  rewrite IH, in_keys_set. simpl. intuition.
Qed.
Lemma keys_fold_del (rems old : npl) p :
  In p (keys (fold_left (fun m q => del (fst q) m) rems old)) <-> ~ In p (keys rems) /\ In p (keys old).
Proof.
  revert old. induction rems as [|a rems IH]; intros old; cbn [fold_left]; [simpl; tauto|].
  rewrite IH, in_keys_del. simpl. intuition.
Qed.
Lemma keys_names_diff x y p : In p (keys (names_diff x y)) <-> In p (keys x) /\ ~ In p (keys y).
Proof.
  unfold names_diff, keys. rewrite !in_map_iff. split.
  - intros ([p' v] & <- & Hin). apply filter_In in Hin. destruct Hin as [Hin Hg]. simpl in *.
    split; [exists (p', v); auto|]. destruct (get p' y) eqn:E; [discriminate|].
    apply get_None_keys in E. unfold keys in E. rewrite in_map_iff in E. exact E.
  - intros [([p' v] & <- & Hin) Hn]. exists (p', v). split; [reflexivity|]. apply filter_In.
    split; [exact Hin|]. simpl in *.
    assert (get p' y = None) as -> by (apply get_None_keys; unfold keys; rewrite in_map_iff; exact Hn).
    reflexivity.
Qed.

Lemma update_name_keys o n : forall p,
  In p (keys (snd (fst (fst (update_name o n))))) <-> In p (keys n).
Proof.
  intros p. unfold update_name. cbn [fst snd]. rewrite keys_fold_del, keys_fold_set, !keys_names_diff.
  destruct (in_dec eq_dec p (keys n)), (in_dec eq_dec p (keys o)); tauto.
Qed.

Lemma merged_names o l p : l_type o = TName -> l_type l = TName ->
  In p (keys (body_names (l_body (merged o l)))) <-> In p (keys (body_names (l_body l))).
Proof.
  unfold l_type, merged. destruct (l_body o) as [| |no] eqn:Eo; try discriminate.
  destruct (l_body l) as [| |nl] eqn:El; try discriminate. intros _ _. cbn [l_body].
  unfold update_body. pose proof (update_name_keys no nl p) as H.
  destruct (update_name no nl) as [[[u r] a] d]. exact H.
Qed.

(** The subscriber's belief after an update notification. *)
Lemma told_upd r p o l b :
  l_key o = l_key l -> l_key l = (r, TName) ->
  (b = true <-> In p (keys (body_names (l_body o)))) ->
  (fold_left (told1 r p) (upd_notify o l) b = true <-> In p (keys (body_names (l_body l)))).
Proof.
  intros Hk Hr Hb. unfold upd_notify.
  assert (Tl : body_type (l_body l) = TName) by (injection Hr; auto).
  assert (To : body_type (l_body o) = TName) by (rewrite Hr in Hk; injection Hk; auto).
  assert (Or : l_origin l = r) by (injection Hr; auto).
  destruct (l_body o) as [| |no] eqn:Eo; try discriminate.
  destruct (l_body l) as [| |nl] eqn:El; try discriminate.
  cbn [update_body body_names] in *. unfold update_name.
  set (ad := names_diff nl no). set (rm := names_diff no nl).
  assert (Ka : In p (keys ad) <-> In p (keys nl) /\ ~ In p (keys no)) by apply keys_names_diff.
  assert (Kr : In p (keys rm) <-> In p (keys no) /\ ~ In p (keys nl)) by apply keys_names_diff.
  destruct (negb (length ad =? 0)%nat || negb (length rm =? 0)%nat) eqn:Eu.
  - cbn [fold_left told1]. unfold l_type. rewrite Or, El. cbn [body_type]. rewrite !eqb_refl. cbn [andb].
    destruct (in_dec eq_dec p (keys rm)) as [i|n].
    + split; [discriminate|]. apply Kr in i. tauto.
    + destruct (in_dec eq_dec p (keys ad)) as [i|n0].
      * apply Ka in i. tauto.
      * rewrite Hb. destruct (in_dec eq_dec p (keys nl)), (in_dec eq_dec p (keys no)); tauto.
  - apply orb_false_iff in Eu. destruct Eu as [Ea Er].
    apply negb_false_iff, Nat.eqb_eq, length_zero_iff_nil in Ea.
    apply negb_false_iff, Nat.eqb_eq, length_zero_iff_nil in Er.
    rewrite Ea in Ka. rewrite Er in Kr. cbn [fold_left]. rewrite Hb. simpl in Ka, Kr.
    destruct (in_dec eq_dec p (keys nl)), (in_dec eq_dec p (keys no)); tauto.
Qed.

(** Notifications about another router or another type leave the belief alone. *)
Lemma told_other r p o l b : l_key l <> (r, TName) -> fold_left (told1 r p) (offer_outs o l) b = b.
Proof.
  intros Hn. unfold offer_outs.
  assert (X : forall k ad rm, told1 r p b (ONotify k l ad rm) = b).
  { intros. unfold told1. eqb_case (l_origin l) r; [|reflexivity].
    eqb_case (l_type l) TName; [|reflexivity]. exfalso. apply Hn. unfold l_key. congruence. }
  destruct o as [o|]; [|apply X]. destruct (_ <? _)%N; [|reflexivity]. unfold upd_notify.
  destruct (update_body _ _) as [[[u b'] ad] rm]. destruct u; [apply X|reflexivity].
Qed.

Definition knows (r p : name) (s : st) : Prop :=
  exists l, find_lsa (r, TName) s = Some l /\ In p (keys (body_names (l_body l))).

Lemma told_offer r p s s' l b : invS None s -> (b = true <-> knows r p s) -> offered s l s' ->
  (fold_left (told1 r p) (offer_outs (find_lsa (l_key l) s) l) b = true <-> knows r p s').
Proof.
  intros I Hb Ho. destruct (eq_dec (l_key l) (r, TName)) as [Hk|Hk].
  - unfold knows in *. rewrite (Ho (r, TName)). rewrite Hk, eqb_refl.
    destruct (find_lsa (r, TName) s) as [o|] eqn:Ef.
    + pose proof (find_key I Ef) as Hko. cbn [offer offer_outs].
      assert (Hb' : b = true <-> In p (keys (body_names (l_body o)))).
      { rewrite Hb. split; [intros (x & Ex & Hx); congruence|eauto]. }
      destruct (l_seq o <? l_seq l)%N.
      * rewrite (told_upd p (o := o) (l := l) (r := r)); [|congruence|exact Hk|exact Hb'].
        assert (M : In p (keys (body_names (l_body (merged o l)))) <-> In p (keys (body_names (l_body l)))).
        { apply merged_names; [injection Hko; auto|injection Hk; auto]. }
        split; [intros X; eexists; split; [reflexivity|now apply M]|].
        intros (x & Ex & Hx). injection Ex as <-. now apply M.
      * cbn [fold_left]. rewrite Hb'. split; [eauto|intros (x & Ex & Hx); congruence].
    + cbn [offer offer_outs fold_left told1].
      assert (l_origin l = r) as -> by (injection Hk; auto).
      assert (l_type l = TName) as -> by (injection Hk; auto). rewrite !eqb_refl. cbn [andb].
      destruct (in_dec eq_dec p (keys (body_names (l_body l)))).
      * split; [eauto|reflexivity].
      * split; [discriminate|]. intros (x & Ex & Hx). injection Ex as <-. contradiction.
  - rewrite told_other by exact Hk. unfold knows. rewrite (Ho (r, TName)).
    eqb_case (r, TName) (l_key l); [congruence|]. exact Hb.
Qed.

Lemma told_removed r p s s' l b : find_lsa (l_key l) s = Some l -> (b = true <-> knows r p s) ->
  (forall k, find_lsa k s' = if eqb k (l_key l) then None else find_lsa k s) ->
  (fold_left (told1 r p) [ONotify KRemoved l [] []] b = true <-> knows r p s').
Proof.
  intros Hl Hb Hs. cbn [fold_left told1]. unfold knows. rewrite (Hs (r, TName)).
  eqb_case (r, TName) (l_key l).
  - injection E as <- <-. rewrite !eqb_refl. cbn [andb]. split; [discriminate|intros (x & Ex & _); discriminate].
  - eqb_case (l_origin l) r; [|exact Hb]. eqb_case (l_type l) TName; [|exact Hb].
    exfalso. apply E. unfold l_key. congruence.
Qed.

Lemma told_rel r p o b : fold_left (told1 r p) (filter rel o) b = fold_left (told1 r p) o b.
Proof.
  revert b. induction o as [|x o IH]; intros b; [reflexivity|]. cbn [filter fold_left].
  destruct x; cbn [rel fold_left]; apply IH.
Qed.

Lemma told_eff c r p s x s' o' b : invS None s -> (b = true <-> knows r p s) -> eff c s x s' o' ->
  (fold_left (told1 r p) o' b = true <-> knows r p s').
Proof.
  intros I H E.
  assert (G : forall s s', (forall k, find_lsa k s' = find_lsa k s) -> (b = true <-> knows r p s) -> (b = true <-> knows r p s')).
  { clear. intros s s' F ->. unfold knows. now rewrite F. }
  inversion E; subst.
  - cbn [fold_left]. eapply G; eassumption.
  - eapply told_offer; eassumption.
  - rewrite !fold_left_app. cbn [fold_left told1].
    assert (fold_left (told1 r p) (if publishes (c_hyp c) (body_type b0) then [OPublish (body_type b0) (q0 + 1)] else []) b = b)
      as -> by (destruct (publishes _ _); reflexivity).
    change (c_self c, body_type b0) with (l_key (own c (body_type b0) (q0 + 1) (e_sys (fst x)) b0)).
    eapply told_offer; eassumption.
  - cbn [fold_left told1]. rewrite H. unfold knows.
    match goal with F : forall k, find_lsa k s' = _ |- _ => rewrite (F (r, TName)) end.
    eqb_case (r, TName) (l_key l).
    + rewrite E0. match goal with F : find_lsa (l_key l) s = _ |- _ => rewrite F end.
      split; intros (y & Ey & Hy); injection Ey as <-; eauto.
    + reflexivity.
  - eapply told_removed; eassumption.
  - match goal with F : find_lsa (c_self c, TAdj) s = _ |- _ => pose proof (find_key I F) as Hk end.
    rewrite <- Hk in *. eapply told_removed; eassumption.
Qed.

Lemma told_exec c f now e0 evs r p :
  told r p (snd (exec c f now e0 evs)) = true <-> knows r p (fst (exec c f now e0 evs)).
Proof.
  unfold told. rewrite <- told_rel.
  apply (@exec_eff_ind c f now e0 (fun _ s o => fold_left (told1 r p) o false = true <-> knows r p s)).
  - split; [discriminate|]. intros (l & E & _). discriminate.
  - intros s o s' o' I H E _. rewrite fold_left_app. eapply told_eff; eassumption.
  - intros evs' s o x s' o' _ _ I H E. rewrite fold_left_app. eapply told_eff; eassumption.
Qed.
