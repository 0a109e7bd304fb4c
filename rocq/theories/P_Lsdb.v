(** Properties of the link-state database: C01-C10.  Vocabulary: S_Lsdb.v. *)
From Verif Require Import Base M_Nexthop M_Tlv M_Adj M_Lsa M_Lsdb S_Lsdb X_Lsdb.
From Verif Require Import L_Lsdb L_Lsdb2 L_Lsdb3 L_Lsdb4 L_Lsdb5 L_Lsdb6.
Open Scope Z_scope.
Set Implicit Arguments.

Lemma reachable_inv c s : reachable c s -> invS None s.
Proof. intros (f & now & e0 & evs & ->). apply invS_exec. Qed.

Lemma reachable_step c s x : reachable c s -> reachable c (fst (step c s x)).
Proof.
  intros (f & now & e0 & evs & ->). exists f, now, e0, (evs ++ [x]).
  rewrite !exec_fst, run_snoc. destruct (run _ _ evs) as [s1 o1]. cbn [fst].
  now destruct (step c s1 x).
Qed.

Lemma reachable_run c s evs : reachable c s -> reachable c (fst (run (step c) s evs)).
Proof. intros H. apply run_inv; [exact H|]. intros s' x. apply reachable_step. Qed.

(** ** C01 *)

(** However the router got to state [s], no two stored LSAs have the same origin and type, and a
    lookup by origin and type finds exactly the stored LSA of that origin and type. *)
Theorem C01_unique c s : reachable c s ->
  NoDup (map l_key (contents s)) /\
  forall l r t, find_lsa (r, t) s = Some l <-> holds s l /\ l_origin l = r /\ l_type l = t.
Proof.
  intros R. pose proof (reachable_inv R) as I. split.
  - rewrite (contents_keys I). exact (iS_nodup I).
  - intros l r t. rewrite (holds_find l I). split.
    + intros E. pose proof (find_key I E) as K. rewrite K. injection K as <- <-. auto.
    + intros (E & <- & <-). exact E.
Qed.

Example C01_example :
  map l_key (contents (fst (exec (confX HOff) None 0 envX evsX))) = [(selfX, TName); (farX, TName)].
Proof. vm_compute. reflexivity. Qed.

(** ** C02 *)

(** Offering an LSA that is not newer changes nothing: neither the database, nor its timers, nor is a
    notification sent. *)
Theorem C02_stale_ignored c s sys o l : reachable c s -> holds s o -> l_key l = l_key o ->
  (l_seq l <= l_seq o)%N -> install c sys l s = (s, []).
Proof.
  intros R H Hk Hq. pose proof (reachable_inv R) as I. apply (holds_find o I) in H.
  unfold install. rewrite Hk. unfold find_lsa in H. destruct (find_oid (l_key o) s) as [i|]; [|discriminate].
  destruct (get i (s_heap s)) as [x|]; [|discriminate]. injection H as ->.
  destruct (N.ltb_spec (l_seq o) (l_seq l)); [lia|reflexivity].
Qed.

(** Whatever happens next, the number of a stored LSA does not decrease. *)
Theorem C02_step_monotone c s x o o' : reachable c s -> holds s o ->
  holds (fst (step c s x)) o' -> l_key o' = l_key o -> (l_seq o <= l_seq o')%N.
Proof.
  intros R H H' Hk. pose proof (reachable_inv R) as I.
  pose proof (reachable_inv (reachable_step x R)) as I'.
  apply (holds_find o I) in H. apply (holds_find o' I') in H'. rewrite Hk in H'.
  assert (G : forall l s', offered s l s' -> find_lsa (l_key o) s' = Some o' -> (l_seq o <= l_seq o')%N).
  { intros l s' Hof. rewrite (Hof (l_key o)). eqb_case (l_key o) (l_key l).
    - intros E'. injection E' as <-. rewrite E in H. apply (offer_seq (find_lsa (l_key l) s) l). exact H.
    - intros E'. rewrite H in E'. injection E' as <-. lia. }
  destruct (step_eff c x I) as [Hf|? ? ? ? ? ? ? ? ? ? ? ? ? ? ? ? ? ? Ho|? ? ? ? ? ? ? ? ? Ho|l tid ? Hl ? Hf|l tid ? Hl ? Hf|l tid ? Hl ? Hf].
  - rewrite Hf, H in H'. injection H' as <-. lia.
  - exact (G _ _ Ho H').
  - exact (G _ _ Ho H').
  - rewrite Hf in H'. eqb_case (l_key o) (l_key l).
    + injection H' as <-. rewrite E, Hl in H. injection H as ->. cbn [refreshed l_seq]. lia.
    + rewrite H in H'. injection H' as <-. lia.
  - rewrite Hf in H'. destruct (eqb _ _); [discriminate|]. rewrite H in H'. injection H' as <-. lia.
  - rewrite Hf in H'. destruct (eqb _ _); [discriminate|]. rewrite H in H'. injection H' as <-. lia.
Qed.

(** Over any number of events: as long as an LSA of that origin and type stays stored, its number
    does not decrease. *)
Theorem C02_monotone c s evs o o' : reachable c s -> holds s o ->
  (forall a b, evs = a ++ b -> exists l, holds (fst (run (step c) s a)) l /\ l_key l = l_key o) ->
  holds (fst (run (step c) s evs)) o' -> l_key o' = l_key o -> (l_seq o <= l_seq o')%N.
Proof.
  revert o'. induction evs as [|x evs IH] using rev_ind; intros o' R H Hst H' Hk.
  - simpl in H'. pose proof (reachable_inv R) as I. apply (holds_find o I) in H. apply (holds_find o' I) in H'.
    rewrite Hk, H in H'. injection H' as <-. lia.
  - destruct (Hst evs [x] eq_refl) as (l & Hl & Kl).
    assert (Hle : (l_seq o <= l_seq l)%N).
    { apply IH; trivial. intros a b E. apply (Hst a (b ++ [x])). rewrite E. apply app_assoc_reverse. }
    rewrite run_snoc in H'. pose proof (reachable_run evs R) as R1.
    destruct (run (step c) s evs) as [s1 o1]. cbn [fst] in *.
    destruct (step c s1 x) as [s2 o2] eqn:Es. cbn [fst] in *.
    assert (l_seq l <= l_seq o')%N; [|lia].
    apply (C02_step_monotone x R1 Hl); [rewrite Es; exact H'|congruence].
Qed.

(** A newer LSA does replace the stored number. *)
Theorem C02_newer_accepted c s sys o l : reachable c s -> holds s o -> l_key l = l_key o ->
  (l_seq o < l_seq l)%N ->
  exists l', holds (fst (install c sys l s)) l' /\ l_key l' = l_key l /\ l_seq l' = l_seq l /\ l_exp l' = l_exp l.
Proof.
  intros R H Hk Hq. pose proof (reachable_inv R) as I. apply (holds_find o I) in H.
  pose proof (install_find c sys l (l_key l) I) as E. rewrite eqb_refl, Hk, H in E.
  apply N.ltb_lt in Hq. rewrite Hq in E.
  assert (I' : invS None (fst (install c sys l s))) by (now apply invS_install with (ex := None)).
  exists (merged o l). pose proof (find_key I' E) as K. repeat split; [|congruence].
  apply (holds_find _ I'). rewrite K. exact E.
Qed.

Example C02_example :
  let s := fst (exec (confX HOff) None 0 envX evsX) in
  exists o, holds s o /\ l_key o = (farX, TName) /\ l_seq o = 6%N /\
    install (confX HOff) T0 (nlsaX 6 []) s = (s, []).
Proof. vm_compute. eexists. split; [right; left; reflexivity|]. repeat split. Qed.

(** ** C03 *)

(** A subscriber that only sees the notifications knows, for every router and every prefix, whether
    the stored Name LSA of that router advertises the prefix. *)
Theorem C03_notifications c f now e0 evs r p :
  let (s, outs) := exec c f now e0 evs in
  told r p outs = true <->
  exists l, holds s l /\ l_origin l = r /\ l_type l = TName /\ In p (keys (body_names (l_body l))).
Proof.
  pose proof (told_exec c f now e0 evs r p) as H. pose proof (invS_exec c f now e0 evs) as I.
  destruct (exec c f now e0 evs) as [s outs]. cbn [fst snd] in *. rewrite H. unfold knows. split.
  - intros (l & E & Hp). exists l. pose proof (find_key I E) as K. rewrite (holds_find l I), K.
    injection K as -> ->. auto.
  - intros (l & Hl & <- & <- & Hp). exists l. split; [|exact Hp]. apply (holds_find l I). exact Hl.
Qed.

Example C03_example :
  let outs := snd (exec (confX HOff) None 0 envX evsX) in
  told farX p2X outs = true /\ told farX pX outs = true /\ told selfX p2X outs = false.
Proof. vm_compute. repeat split. Qed.

(** ** C04: the claim, its refutation, and what holds instead *)

(** [C04_claim]: after a newer Name LSA was accepted the database reports the costs it carries. *)
Definition C04_claim : Prop := forall c s sys o l, reachable c s -> holds s o -> l_key l = l_key o ->
  l_type l = TName -> (l_seq o < l_seq l)%N ->
  forall l', holds (fst (install c sys l s)) l' -> l_key l' = l_key l ->
  forall p, get p (body_names (l_body l')) = get p (body_names (l_body l)).

(** Refuted: a cost change of a prefix that was already advertised is neither stored nor notified. *)
Theorem C04_refuted : ~ C04_claim /\
  let (s, outs) := exec (confX HOff) None 0 envX evsX in
  holds s (Lsa farX 6 (T0 + 3600 * SEC) (BName [(pX, 7); (p2X, 1)])) /\
  forall l adds rems, In (ONotify KUpdated l adds rems) outs -> adds = [(p2X, 1)] /\ rems = [].
Proof.
  split.
  - intros H.
    pose (s := fst (exec (confX HOff) None 0 envX (firstn 2 evsX))).
    specialize (H (confX HOff) s T0 (nlsaX 5 [(pX, 7)]) (nlsaX 6 [(pX, 9)])).
    assert (R : reachable (confX HOff) s) by (exists None, 0, envX, (firstn 2 evsX); reflexivity).
    specialize (H R). vm_compute in H.
    specialize (H (or_intror (or_introl eq_refl)) eq_refl eq_refl eq_refl _ (or_intror (or_introl eq_refl)) eq_refl pX).
    vm_compute in H. discriminate.
  - vm_compute. split; [right; left; reflexivity|].
    intros l adds rems H. repeat (destruct H as [H|H]; [try discriminate H; injection H as <- <- <-; split; reflexivity|]).
    destruct H.
Qed.

(** What does hold: after the update the stored names are exactly those of the newer LSA; a prefix
    that was not advertised before has the new cost, one that was keeps its old cost. *)
Theorem C04_names_partial c s sys o l : reachable c s -> holds s o -> l_key l = l_key o ->
  l_type l = TName -> (l_seq o < l_seq l)%N ->
  forall l', holds (fst (install c sys l s)) l' -> l_key l' = l_key l ->
  forall p,
    (get p (body_names (l_body l)) = None -> get p (body_names (l_body l')) = None) /\
    (forall v, NoDup (keys (body_names (l_body l))) -> get p (body_names (l_body l)) = Some v ->
       get p (body_names (l_body l')) =
         match get p (body_names (l_body o)) with Some v' => Some v' | None => Some v end).
Proof.
  intros R H Hk Ht Hq l' H' Hk' p. pose proof (reachable_inv R) as I.
  assert (I' : invS None (fst (install c sys l s))) by (now apply invS_install with (ex := None)).
  apply (holds_find o I) in H. apply (holds_find l' I') in H'. rewrite Hk' in H'.
  pose proof (install_find c sys l (l_key l) I) as E. rewrite eqb_refl, Hk, H in E.
  apply N.ltb_lt in Hq. rewrite Hq in E. rewrite <- Hk in E. rewrite H' in E. injection E as ->.
  assert (To : body_type (l_body o) = TName).
  { assert (X : l_type l = l_type o) by (injection Hk; auto). unfold l_type in *. congruence. }
  unfold l_type in Ht. unfold merged. cbn [l_body].
  destruct (l_body o) as [| |no] eqn:Eo; try discriminate.
  destruct (l_body l) as [| |nl] eqn:El; try discriminate. cbn [update_body].
  pose proof (update_name_keys no nl p) as K.
  cbn [body_names]. unfold update_name in *. cbn [fst snd body_names] in *.
  set (l1 := fold_left (fun m p => set (fst p) (snd p) m) (names_diff nl no) no) in *.
  set (r := fold_left (fun m p => del (fst p) m) (names_diff no nl) l1) in *.
  split.
  - intros Hn. apply get_None_keys. apply get_None_keys in Hn. tauto.
  - intros v Hnd Hv.
    assert (G1 : get p l1 = match get p no with Some v' => Some v' | None => Some v end).
    { unfold l1.
      assert (G : forall (ad : npl) m, NoDup (keys ad) ->
        get p (fold_left (fun m p => set (fst p) (snd p) m) ad m) =
        match get p ad with Some v' => Some v' | None => get p m end).
      { clear. induction ad as [|[k w] ad IH]; intros m Hnd; cbn [fold_left]; [reflexivity|].
        inversion Hnd as [|? ? Hni Hnd']; subst. rewrite IH by exact Hnd'. cbn [get fst snd].
        eqb_case p k.
        - assert (get k ad = None) as -> by (now apply get_None_keys). apply get_set_eq.
        - destruct (get p ad); [reflexivity|]. now apply get_set_ne. }
      rewrite G.
      - assert (D : get p (names_diff nl no) = match get p no with Some _ => None | None => get p nl end).
        { clear. unfold names_diff. induction nl as [|[k w] nl IH]; [cbn; destruct (get p no); reflexivity|].
          cbn [filter fst]. destruct (get k no) eqn:Ek.
          - rewrite IH. cbn [get]. eqb_case p k; [now rewrite Ek|reflexivity].
          - cbn [get]. eqb_case p k; [now rewrite Ek|exact IH]. }
        rewrite D. destruct (get p no); [reflexivity|]. now rewrite Hv.
      - clear - Hnd. unfold names_diff, keys in *. induction nl as [|[k w] nl IH]; [constructor|].
        inversion Hnd as [|? ? Hni Hnd']; subst. cbn [filter fst]. destruct (get k no); [auto|].
        cbn [map fst]. constructor; [|auto]. intros Hin. apply Hni. apply in_map_iff in Hin.
        destruct Hin as (x & <- & Hx). apply filter_In in Hx. apply in_map. tauto. }
    rewrite <- G1. unfold r.
    assert (Hr : ~ In p (keys (names_diff no nl))).
    { rewrite keys_names_diff. intros [_ Hx]. apply Hx. apply get_Some_keys. eauto. }
    revert Hr. clear. generalize l1. induction (names_diff no nl) as [|[k w] d IH]; intros m Hr; [reflexivity|].
    cbn [fold_left fst]. rewrite IH by (simpl in Hr; tauto). apply get_del_ne. simpl in Hr. intuition congruence.
Qed.

(** ** C05 *)

(** The lifetime timer of one of this router's LSAs: the LSA stays, with the next number; that number
    is written to the state file and then announced; a new timer is armed. *)
Theorem C05_own_refreshed c s e l tid due : reachable c s -> s_dead s = false ->
  lifetime s l tid due -> due <= s_now s -> l_origin l = c_self c ->
  let l' := Lsa (l_origin l) (l_seq l + 1) (e_sys e + c_deadint c * SEC) (l_body l) in
  let (s', outs) := step c s (e, EFire tid) in
  holds s' l' /\ same_but (l_key l) s s' /\
  outs = [OTmp (seq_set (l_type l) (l_seq l + 1) (s_seqs s)); ORename; OPublish (l_type l) (l_seq l + 1)] /\
  exists tid', lifetime s' l' tid' (s_now s + (c_refresh c + 10) * SEC).
Proof.
  intros R Hd [Hh (oid & o & Ht & Hk & Ho & <-)] Hdue Hor l'.
  pose proof (reachable_inv R) as I. pose proof (reachable_inv (reachable_step (e, EFire tid) R)) as I'.
  rewrite (@fire_expire c s e tid due oid Hd Ht Hdue) in *.
  set (s1 := w_timers (del tid (s_timers s)) (s_ntid s) s) in *.
  assert (I1 : invS (Some oid) s1).
  { apply invS_del_timer; [now apply invS_weaken|]. intros oid' tm' E Ea'. rewrite Ht in E. injection E as <-. cbn [t_act] in Ea'. congruence. }
  assert (Ho1 : get oid (s_heap s1) = Some o) by exact Ho.
  pose proof (fun k => @expire_find c (e_sys e) oid o s1 k _ I1 Ho1) as Ef.
  pose proof (@expire_outs c (e_sys e) oid o s1 _ I1 Ho1) as Eo.
  destruct (@refresh_timer c (e_sys e) oid o s1 I1 Ho1 Hk Hor) as (tid' & Hl').
  assert (Hf : find_lsa (l_key (o_lsa o)) s1 = Some (o_lsa o)).
  { unfold find_lsa, find_oid. cbn [s_store w_timers s1]. rewrite Hk. rewrite Ho1. reflexivity. }
  rewrite Hf, N.eqb_refl, Hor, eqb_refl in Eo.
  destruct (expire_or_refresh c (e_sys e) oid s1) as [s' outs]. cbn [fst snd] in *.
  assert (Er : l' = refreshed c (e_sys e) (o_lsa o)) by reflexivity.
  split; [|split; [|split]].
  - rewrite Er. exact (proj1 Hl').
  - apply same_but_find; [exact I|exact I'|]. intros k' Hne. rewrite Ef, Hf.
    eqb_case k' (l_key (o_lsa o)); [congruence|]. reflexivity.
  - exact Eo.
  - exists tid'. rewrite Er. exact Hl'.
Qed.

(** The lifetime timer of another router's LSA: the LSA is removed and its removal is notified. *)
Theorem C05_foreign_removed c s e l tid due : reachable c s -> s_dead s = false ->
  lifetime s l tid due -> due <= s_now s -> l_origin l <> c_self c ->
  let (s', outs) := step c s (e, EFire tid) in
  (forall l', holds s' l' -> l_key l' <> l_key l) /\ same_but (l_key l) s s' /\
  outs = [ONotify KRemoved l [] []].
Proof.
  intros R Hd [Hh (oid & o & Ht & Hk & Ho & <-)] Hdue Hor.
  pose proof (reachable_inv R) as I. pose proof (reachable_inv (reachable_step (e, EFire tid) R)) as I'.
  rewrite (@fire_expire c s e tid due oid Hd Ht Hdue) in *.
  set (s1 := w_timers (del tid (s_timers s)) (s_ntid s) s) in *.
  assert (I1 : invS (Some oid) s1).
  { apply invS_del_timer; [now apply invS_weaken|]. intros oid' tm' E Ea'. rewrite Ht in E. injection E as <-. cbn [t_act] in Ea'. congruence. }
  assert (Ho1 : get oid (s_heap s1) = Some o) by exact Ho.
  pose proof (fun k => @expire_find c (e_sys e) oid o s1 k _ I1 Ho1) as Ef.
  pose proof (@expire_outs c (e_sys e) oid o s1 _ I1 Ho1) as Eo.
  assert (Hf : find_lsa (l_key (o_lsa o)) s1 = Some (o_lsa o)).
  { unfold find_lsa, find_oid. cbn [s_store w_timers s1]. rewrite Hk. rewrite Ho1. reflexivity. }
  assert (Hor' : eqb (l_origin (o_lsa o)) (c_self c) = false) by (apply eqb_neq; exact Hor).
  rewrite Hf, N.eqb_refl, Hor' in Eo.
  destruct (expire_or_refresh c (e_sys e) oid s1) as [s' outs]. cbn [fst snd] in *.
  split; [|split].
  - intros l' Hl' Kl. apply (holds_find l' I') in Hl'. rewrite Kl, Ef, Hf, eqb_refl, N.eqb_refl, Hor' in Hl'. discriminate.
  - apply same_but_find; [exact I|exact I'|]. intros k' Hne. rewrite Ef, Hf.
    eqb_case k' (l_key (o_lsa o)); [congruence|]. reflexivity.
  - exact Eo.
Qed.

(** Own LSAs only ever leave the database through an Adjacency LSA build that found no ACTIVE
    neighbour; no lifetime timer removes one. *)
Theorem C05_own_kept c s x l : reachable c s -> holds s l -> l_origin l = c_self c ->
  (exists l', holds (fst (step c s x)) l' /\ l_key l' = l_key l) \/
  (l_type l = TAdj /\ num_active (e_adl (fst x)) = 0%nat /\
   exists tid due, snd x = EFire tid /\ get tid (s_timers s) = Some (Timer due ABuild)).
Proof.
  intros R H Hor. pose proof (reachable_inv R) as I.
  pose proof (reachable_inv (reachable_step x R)) as I'. apply (holds_find l I) in H.
  assert (G : (exists l', find_lsa (l_key l) (fst (step c s x)) = Some l') ->
              exists l', holds (fst (step c s x)) l' /\ l_key l' = l_key l).
  { intros [l' Hl']. exists l'. pose proof (find_key I' Hl') as K. split; [|exact K].
    apply (holds_find l' I'). now rewrite K. }
  assert (O : forall y, offered s y (fst (step c s x)) -> exists l', find_lsa (l_key l) (fst (step c s x)) = Some l').
  { intros y Hy. eapply offered_present; eauto. }
  pose proof (step_eff c x I) as E. remember (fst (step c s x)) as s' eqn:Es.
  destruct E as [Hf|? ? ? ? ? ? ? ? ? ? ? ? ? ? ? ? ? ? Ho|? ? ? ? ? ? ? ? ? Ho|y tid ? Hl ? Hf|y tid ? Hl Hn Hf|y tid Hx Hl Hn Hf].
  - left. apply G. rewrite Hf. eauto.
  - left. apply G. eauto.
  - left. apply G. eauto.
  - left. apply G. rewrite Hf. destruct (eqb _ _); eauto.
  - left. apply G. rewrite Hf. eqb_case (l_key l) (l_key y); [|eauto].
    exfalso. apply Hn. rewrite E in H. rewrite Hl in H. injection H as ->. exact Hor.
  - eqb_case (l_key l) (c_self c, TAdj).
    + right. split; [injection E; auto|]. split; [exact Hn|].
      destruct x as [e v]. cbn [snd] in Hx. subst v. exists tid.
      assert (X : find_lsa (c_self c, TAdj) s' = None) by (rewrite Hf, eqb_refl; reflexivity).
      subst s'. unfold step in X. destruct (s_dead s); [cbn [fst] in X; congruence|].
      cbn [step_live] in X. unfold fire in X. destruct (get tid (s_timers s)) as [[due a]|] eqn:Et;
        [|cbn [fst] in X; congruence].
      cbn [t_due t_act] in X. destruct (due <=? s_now s); [|cbn [fst] in X; congruence].
      destruct a as [oid| |i n d|i|i]; [| | | |].
      * exfalso. pose proof (proj2 (iS_timer I _ Et) oid eq_refl) as (o & Ho & _).
        set (s1 := w_timers (del tid (s_timers s)) (s_ntid s) s) in *.
        assert (I1 : invS (Some oid) s1).
        { apply invS_del_timer; [now apply invS_weaken|]. intros oid' tm' Eo' Ea'. rewrite Et in Eo'. injection Eo' as <-. cbn [t_act] in Ea'. congruence. }
        rewrite (@expire_find c (e_sys e) oid o s1 _ _ I1 Ho) in X.
        change (find_lsa (c_self c, TAdj) s1) with (find_lsa (c_self c, TAdj) s) in X.
        change (find_lsa (l_key (o_lsa o)) s1) with (find_lsa (l_key (o_lsa o)) s) in X.
        destruct (find_lsa (l_key (o_lsa o)) s) as [z|] eqn:Ez; [|congruence].
        eqb_case (c_self c, TAdj) (l_key (o_lsa o)); [|cbn [andb] in X; congruence].
        destruct (_ =? _)%N; cbn [andb] in X; [|congruence].
        eqb_case (l_origin z) (c_self c); [discriminate|]. apply E1.
        rewrite <- E0 in Ez. pose proof (find_key I Ez) as K. injection K; auto.
      * eauto.
      * exfalso. rewrite (find_same _ (keeps_express _ _ _ _ _)) in X.
        change (find_lsa (c_self c, TAdj) s = None) in X. congruence.
      * exfalso. change (find_lsa (c_self c, TAdj) s = None) in X. congruence.
      * exfalso. change (find_lsa (c_self c, TAdj) s = None) in X. congruence.
    + left. apply G. rewrite Hf. eqb_case (l_key l) (c_self c, TAdj); [congruence|]. eauto.
Qed.

Example C05_example :
  let s := fst (exec (confX HOff) None 0 envX (firstn 2 evsX ++ [(envX, ETick (3700 * SEC))])) in
  s_dead s = false /\
  (exists l, lifetime s l 0 (1810 * SEC) /\ l_origin l = selfX /\ 1810 * SEC <= s_now s) /\
  (exists l, lifetime s l 1 (3610 * SEC) /\ l_origin l = farX /\ 3610 * SEC <= s_now s).
Proof.
  vm_compute. split; [reflexivity|]. split.
  - eexists. split; [split; [left; reflexivity|do 2 eexists; repeat split]|]. split; [reflexivity|discriminate].
  - eexists. split; [split; [right; left; reflexivity|do 2 eexists; repeat split]|]. split; [reflexivity|discriminate].
Qed.

(** ** C06 *)

(** In every reachable state every stored LSA has a pending lifetime timer that will examine it. *)
Theorem C06_timer_pending c s l : reachable c s -> holds s l -> exists tid due, lifetime s l tid due.
Proof. intros R. apply lifetime_exists. exact (reachable_inv R). Qed.

Example C06_example :
  exists tid due, lifetime (fst (exec (confX HOff) None 0 envX evsX)) (Lsa farX 6 (T0 + 3600 * SEC) (BName [(pX, 7); (p2X, 1)])) tid due.
Proof.
  eapply C06_timer_pending with (c := confX HOff); [exists None, 0, envX, evsX; reflexivity|].
  vm_compute. right. left. reflexivity.
Qed.

(** ** C07 *)

(** Whenever an event puts an LSA of another router into the database (as a new one or as a newer
    version) before that LSA's expiration time, a timer is pending that fires at most the remaining
    lifetime plus the grace period of 10 s later; when it fires the LSA is removed
    ([C05_foreign_removed]). *)
Theorem C07_lifetime_bounded c s x l : reachable c s ->
  ~ holds s l -> holds (fst (step c s x)) l -> l_origin l <> c_self c -> e_sys (fst x) < l_exp l ->
  exists tid due, lifetime (fst (step c s x)) l tid due /\ due - s_now (fst (step c s x)) <= (l_exp l - e_sys (fst x)) + 10 * SEC.
Proof.
  intros R Hn Hl Hor Hexp. pose proof (reachable_inv R) as I.
  pose proof (reachable_inv (reachable_step x R)) as I'.
  rewrite (holds_find l I) in Hn. apply (holds_find l I') in Hl.
  assert (Ex : exists fid y, snd x = EFetchDone fid (Some y)).
  { pose proof (step_eff c x I) as E. remember (fst (step c s x)) as s' eqn:Es.
    destruct E as [Hf|fid ? ? ? ? ? ? y Hx ? ? ? ? ? ? ? ? ? Ho|t q0 b ? Hb ? ? ? ? Ho|y tid ? Hy Hyo Hf|y tid ? Hy Hyo Hf|y tid ? Hy ? Hf].
    - exfalso. apply Hn. now rewrite <- Hf.
    - eauto.
    - exfalso. rewrite (Ho (l_key l)) in Hl. eqb_case (l_key l) (l_key (own c t (q0 + 1) (e_sys (fst x)) b)).
      + apply Hor. injection E; auto.
      + auto.
    - exfalso. rewrite Hf in Hl. eqb_case (l_key l) (l_key y); [|auto].
      apply Hor. rewrite <- Hyo. injection E; auto.
    - exfalso. rewrite Hf in Hl. destruct (eqb _ _); [discriminate|auto].
    - exfalso. rewrite Hf in Hl. destruct (eqb _ _); [discriminate|auto]. }
  destruct Ex as (fid & y & Ex). destruct x as [e v]. cbn [fst snd] in *. subst v.
  unfold step in *. destruct (s_dead s); [cbn [fst] in Hl; tauto|]. cbn [step_live] in *.
  destruct (fetch_done_cases c e fid (Some y) s) as [Hsame|(z & s2 & Ez & S2 & N2 & S3 & N3)].
  { exfalso. apply Hn. now rewrite <- Hsame. }
  injection Ez as <-.
  assert (I2 : invS None s2) by (exact (invS_same S2 I)).
  set (s' := fst (fetch_done c (e_sys e) fid (Some y) s)) in *.
  set (s3 := fst (install c (e_sys e) y s2)) in *.
  assert (Hl3 : find_lsa (l_key l) s3 = Some l) by (rewrite <- (find_same _ S3); exact Hl).
  pose proof (install_find c (e_sys e) y (l_key l) I2) as Ef. fold s3 in Ef. rewrite Hl3 in Ef.
  rewrite <- (find_same (l_key l) S2) in Hn.
  eqb_case (l_key l) (l_key y); [|congruence].
  assert (Hnew : (forall o, find_lsa (l_key y) s2 = Some o -> (l_seq o < l_seq y)%N) /\ l_exp l = l_exp y).
  { destruct (find_lsa (l_key y) s2) as [o|] eqn:Eo.
    - destruct (N.ltb_spec (l_seq o) (l_seq y)) as [L|L].
      + split; [intros o' Eo'; now injection Eo' as <-|]. now injection Ef as ->.
      + injection Ef as ->. rewrite E, Eo in Hn. congruence.
    - split; [discriminate|]. now injection Ef as ->. }
  destruct Hnew as [Hnew Eexp].
  destruct (install_timer c (e_sys e) y I2 Hnew) as [Hnow Ht]. fold s3 in Hnow, Ht. rewrite E in Hl3.
  destruct (Ht l Hl3) as (tid & [_ (oid & o & T1 & T2 & T3 & T4)]).
  exists tid, (s_now s2 + (time_to_expire c (e_sys e) y + GRACE_PERIOD) * SEC). split.
  - destruct S3 as (A1 & A2 & A3 & A4 & A5).
    apply lifetime_intro with (oid := oid) (o := o); trivial; congruence.
  - rewrite N3, Hnow. unfold time_to_expire.
    assert (eqb (l_origin y) (c_self c) = false) as ->.
    { apply eqb_neq. intros Eo. apply Hor. rewrite <- Eo. injection E; auto. }
    rewrite Eexp in Hexp. assert ((0 <? l_exp y - e_sys e) = true) as -> by (apply Z.ltb_lt; lia).
    unfold GRACE_PERIOD. rewrite Z.mul_add_distr_r.
    pose proof (Z.mul_quot_le (l_exp y - e_sys e) SEC ltac:(lia) ltac:(discriminate)).
    rewrite Eexp. lia.
Qed.

Example C07_example :
  let s := fst (exec (confX HOff) None 0 envX (firstn 1 evsX)) in
  let x := (envX, EFetchDone 0 (Some (nlsaX 5 [(pX, 7)]))) in
  ~ holds s (nlsaX 5 [(pX, 7)]) /\ holds (fst (step (confX HOff) s x)) (nlsaX 5 [(pX, 7)]) /\
  l_origin (nlsaX 5 [(pX, 7)]) <> selfX /\ e_sys (fst x) < l_exp (nlsaX 5 [(pX, 7)]).
Proof.
  vm_compute. split; [intros [H|[]]; discriminate|]. split; [right; left; reflexivity|].
  split; [discriminate|reflexivity].
Qed.

(** Refuted for an LSA that is already past its expiration time when it is accepted: it is stored for
    the full refresh interval of this router. *)
Theorem C07_already_expired_refuted : exists c s x l,
  reachable c s /\ ~ holds s l /\ holds (fst (step c s x)) l /\ l_origin l <> c_self c /\
  l_exp l < e_sys (fst x) /\
  exists tid due, lifetime (fst (step c s x)) l tid due /\ due - s_now (fst (step c s x)) = (c_refresh c + 10) * SEC.
Proof.
  pose (l := Lsa farX 5 0 (BName [(pX, 7)])).
  exists (confX HOff), (fst (exec (confX HOff) None 0 envX (firstn 1 evsX))), (envX, EFetchDone 0 (Some l)), l.
  split; [exists None, 0, envX, (firstn 1 evsX); reflexivity|]. vm_compute.
  split; [intros [H|[]]; discriminate|]. split; [right; left; reflexivity|].
  split; [discriminate|]. split; [reflexivity|].
  exists 1%nat, 1810000000000. split; [split; [right; left; reflexivity|do 2 eexists; repeat split]|]. reflexivity.
Qed.

(** ** C08 *)

(** Within one run the numbers announced for each published type strictly increase.  For Name LSAs
    (and Coordinate LSAs, where published) this needs no assumption about the network; for Adjacency
    LSAs it needs [adj_trusted]. *)
Theorem C08_increasing c f now e0 evs t : publishes (c_hyp c) t = true ->
  (t = TAdj -> adj_trusted c [] f now e0 evs) ->
  increasing (announced t (snd (exec c f now e0 evs))).
Proof.
  intros Hp Ht. destruct (good_exec (o0 := []) Hp Ht) as ((_ & _ & O3) & _); [intros n []|exact I|].
  cbn [announced app] in O3. now rewrite announced_rel in O3.
Qed.

(** A number is in the state file before it is announced. *)
Theorem C08_persisted_first c f now e0 evs o1 o2 t q :
  snd (exec c f now e0 evs) = o1 ++ OPublish t q :: o2 ->
  exists sq, d_file (disk_after f o1) = Some sq /\ seq_get t sq = q.
Proof. apply persisted. Qed.

(** r1 announces an Adjacency LSA after a build, refreshes its Name LSA, and rebuilds. *)
Definition evsA : list (env * ev) :=
  [(envX, EScheduleBuild); (envX, ETick (10 * SEC)); (envX, EFire 1);
   (envX, ETick (1800 * SEC)); (envX, EFire 0); (envX, EBuildName);
   (envX, EScheduleBuild); (envX, ETick (10 * SEC)); (envX, EFire 5)].

Example C08_example :
  adj_trusted (confX HOff) [] None 0 envX evsA /\
  announced TName (snd (exec (confX HOff) None 0 envX evsA)) = [1; 2; 3]%N /\
  announced TAdj (snd (exec (confX HOff) None 0 envX evsA)) = [1; 2]%N.
Proof.
  split; [|vm_compute; split; reflexivity]. split.
  - intros e fid l H. repeat (destruct H as [H|H]; [discriminate|]). destruct H.
  - intros _ a x b E. assert (In x evsA) by (rewrite E; apply in_app_iff; simpl; auto).
    repeat (destruct H as [H|H]; [rewrite <- H; exact Logic.I|]). destruct H.
Qed.

(** The two assumptions in [adj_trusted] are needed.  A stale sync report about the own Adjacency
    LSA, arriving while none is stored, sets the number back. *)
Theorem C08_stale_sync_refuted : exists evs,
  no_forged_own (confX HOff) evs /\
  announced TAdj (snd (exec (confX HOff) (Some (Seqs 0 50 0)) 0 envX evs)) = [61; 4]%N.
Proof.
  exists [(envX, EScheduleBuild); (envX, ETick (10 * SEC)); (envX, EFire 1);
          (envI, EScheduleBuild); (envI, ETick (10 * SEC)); (envI, EFire 3);
          (envX, ESync (syncX "r1" TAdj) 3 300)].
  split; [|vm_compute; reflexivity].
  intros e fid l H. repeat (destruct H as [H|H]; [discriminate|]). destruct H.
Qed.

(** A signed LSA of r2 whose content claims to originate from this router is stored as an own LSA and
    later refreshed; sync reports are not involved. *)
Theorem C08_forged_own_refuted : exists evs,
  syncs_ok (confX HOff) [] (Some (Seqs 0 50 0)) 0 envX evs /\
  announced TAdj (snd (exec (confX HOff) (Some (Seqs 0 50 0)) 0 envX evs)) = [61; 4]%N.
Proof.
  pose (evs := [(envX, EScheduleBuild); (envX, ETick (10 * SEC)); (envX, EFire 1);
          (envI, EScheduleBuild); (envI, ETick (10 * SEC)); (envI, EFire 3);
          (envI, ESync (syncX "r2" TAdj) 5 300);
          (envI, EFetchDone 0 (Some (Lsa selfX 3 (T0 + 3600 * SEC) (BAdj []))));
          (envI, ETick (1810 * SEC)); (envI, EFire 4)]).
  exists evs. split; [|vm_compute; reflexivity].
  intros a x b E. assert (H : In x evs) by (rewrite E; apply in_app_iff; simpl; auto).
  repeat (destruct H as [H|H]; [rewrite <- H; try exact Logic.I|]); [|destruct H].
  cbn [snd sync_not_stale]. intros U. vm_compute in U. discriminate.
Qed.

(** ** C09 *)

(** Over any number of runs, each killed at an arbitrary point and restarted with whatever state file
    it left, the announced numbers strictly increase: in link-state and in hyperbolic mode for every
    published type, in dry-run mode for Name LSAs. *)
Theorem C09_across_crashes c f o f' t : publishes (c_hyp c) t = true ->
  (c_hyp c <> HDry \/ t = TName) -> history c f o f' -> increasing (announced t o).
Proof. intros Hp Hd H. exact (proj1 (history_ordered Hp Hd H)). Qed.

(** In dry-run mode a restart sets the Adjacency number to 0 and the Coordinate number to 10. *)
Definition evsD : list (env * ev) :=
  [(envX, EScheduleBuild); (envX, ETick (10 * SEC)); (envX, EFire 2);
   (envX, EScheduleBuild); (envX, ETick (10 * SEC)); (envX, EFire 4)].
Theorem C09_dry_run_refuted :
  (exists o f', history (confX HDry) None o f' /\ announced TAdj o = [1; 2; 1]%N) /\
  (exists o f', history (confX HDry) (Some (Seqs 0 0 40)) o f' /\ announced TCoord o = [11; 11]%N).
Proof.
  assert (Tr : forall o f evs, (evs = evsD \/ evs = firstn 3 evsD \/ evs = []) -> adj_trusted (confX HDry) o f 0 envX evs).
  { intros o f evs He. split; [|discriminate].
    intros e fid l H. assert (In (e, EFetchDone fid (Some l)) evsD) as H'.
    { destruct He as [-> |[-> | ->]]; [exact H|rewrite <- (firstn_skipn 3 evsD); apply in_app_iff; now left|destruct H]. }
    repeat (destruct H' as [H'|H']; [discriminate|]). destruct H'. }
  assert (P : forall A (l : list A), prefix l l) by (intros A l; exists []; symmetry; apply app_nil_r).
  split.
  - do 2 eexists. split.
    + eapply history_run with (evs := firstn 3 evsD); [|apply Tr; auto|apply P].
      eapply history_run with (evs := evsD); [apply history_nil|apply Tr; auto|apply P].
    + vm_compute. reflexivity.
  - do 2 eexists. split.
    + eapply history_run with (evs := []); [|apply Tr; auto|apply P].
      eapply history_run with (evs := []); [apply history_nil|apply Tr; auto|apply P].
    + vm_compute. reflexivity.
Qed.

(** The hypotheses are met by a history of two runs, the first killed between the write of the
    temporary file and the rename. *)
Example C09_example : exists o f', history (confX HOff) None o f' /\
  announced TName o = [1; 2; 13]%N /\ announced TAdj o = [1; 12]%N.
Proof.
  assert (Tr : forall o f evs, (evs = evsA \/ evs = firstn 3 evsA) -> adj_trusted (confX HOff) o f 0 envX evs).
  { intros o f evs He.
    assert (Sub : forall y, In y evs -> In y evsA).
    { intros y Hy. destruct He as [->| ->]; [exact Hy|rewrite <- (firstn_skipn 3 evsA); apply in_app_iff; now left]. }
    split.
    - intros e fid l H. apply Sub in H. repeat (destruct H as [H|H]; [discriminate|]). destruct H.
    - intros _ a x b E. assert (H : In x evsA) by (apply Sub; rewrite E; apply in_app_iff; simpl; auto).
      repeat (destruct H as [H|H]; [rewrite <- H; exact Logic.I|]). destruct H. }
  pose (r1 := snd (exec (confX HOff) None 0 envX evsA)).
  do 2 eexists. split.
  + eapply history_run with (evs := firstn 3 evsA) (p := snd (exec (confX HOff) (Some (Seqs 2 1 0)) 0 envX (firstn 3 evsA)));
      [|apply Tr; auto|].
    * eapply history_run with (evs := evsA) (p := firstn 12 r1); [apply history_nil|apply Tr; auto|].
      exists (skipn 12 r1). symmetry. apply firstn_skipn.
    * exists []. vm_compute. reflexivity.
  + vm_compute. split; reflexivity.
Qed.

(** ** C10 *)

(** Sync reports a number of one of this router's own LSAs that is newer than the stored one (the
    state was lost, or somebody replays a later life of this router).  The router adopts the number,
    announces the next one and stores its own current data under it; it fetches nothing. *)
Theorem C10_recovery c s e u q face t : reachable c s -> s_dead s = false ->
  update_origin u = Some (c_self c) -> back 1 u = Some (type_comp t) -> (q < 2 ^ 64)%N ->
  publishes (c_hyp c) t = true -> (c_hyp c <> HDry \/ t = TName) ->
  (forall l, holds s l -> l_key l = (c_self c, t) -> (l_seq l < q)%N) ->
  let (s', outs) := step c s (e, ESync u q face) in
  announced t outs = [q + 1]%N /\ existsb is_fetch outs = false /\
  exists l, holds s' l /\ l_key l = (c_self c, t) /\ l_seq l = (q + 1)%N /\
    (t = TName -> forall p, In p (keys (body_names (l_body l))) <-> In p (map fst (e_npl e))).
Proof.
  intros R Hd Hu Hb Hq Hp Hdry Hnew. pose proof (reachable_inv R) as I.
  pose proof (reachable_inv (reachable_step (e, ESync u q face) R)) as I'.
  assert (Hn : is_new (c_self c) (Some t) q s = true).
  { cbn [is_new]. destruct (find_lsa (c_self c, t) s) as [l|] eqn:El; [|reflexivity].
    apply N.ltb_lt. pose proof (find_key I El) as K. apply Hnew; [|exact K].
    apply (holds_find l I). now rewrite K. }
  set (s0 := w_seqs (seq_set t q (s_seqs s)) s).
  assert (Es : step c s (e, ESync u q face) = build c e t s0).
  { unfold step. rewrite Hd. cbn [step_live]. unfold on_sync. rewrite Hu. unfold process_update.
    rewrite Hb, (proj2 (comp_type_inv _ t) eq_refl), eqb_refl, N.mod_small by exact Hq. rewrite Hn.
    destruct t.
    - assert (c_hyp c = HOff) as -> by (clear - Hp Hdry; destruct (c_hyp c); [reflexivity|discriminate|destruct Hdry; congruence]).
      rewrite eqb_refl. unfold andthen, upd. rewrite build_adj_build. fold s0. now destruct (build c e TAdj s0).
    - assert (c_hyp c = HOn) as -> by (clear - Hp Hdry; destruct (c_hyp c); [discriminate|reflexivity|destruct Hdry; congruence]).
      rewrite eqb_refl. unfold andthen, upd. rewrite build_coord_build. fold s0. now destruct (build c e TCoord s0).
    - unfold andthen, upd. rewrite build_name_build. fold s0. now destruct (build c e TName s0). }
  assert (Eq : seq_get t (s_seqs s0) = q) by (unfold s0; cbn [s_seqs w_seqs]; apply seq_get_set).
  assert (I0 : invS None s0) by (apply (invS_same (s := s)); [repeat split|exact I]).
  rewrite Es in *. unfold build in *. rewrite Eq in *.
  set (l := own c t (q + 1) (e_sys e) (own_body c e t)) in *.
  pose proof (@build_outs c t (e_sys e) l (publishes (c_hyp c) t) s0 I0) as Bo.
  pose proof (fun k => @build_find c t (e_sys e) l (publishes (c_hyp c) t) s0 k I0) as Bf.
  rewrite Eq, Hp in Bo. rewrite Hp in Bf, I'. rewrite Hp.
  set (r := (bump t ;; _) s0) in *. destruct r as [s' outs]. cbn [fst snd] in *.
  assert (Kl : l_key l = (c_self c, t)) by apply own_key.
  assert (Ho : snd (s', outs) = [OTmp (seq_set t (q + 1) (s_seqs s0)); ORename] ++
     [OPublish t (q + 1)] ++ offer_outs (find_lsa (l_key l) s0) l) by (rewrite Bo; reflexivity).
  cbn [snd] in Ho. clear Bo. split; [|split].
  - rewrite Ho. rewrite !announced_app, announced_offer. cbn. now rewrite eqb_refl.
  - rewrite Ho. cbn [app existsb is_fetch orb]. unfold offer_outs.
    destruct (find_lsa _ s0) as [o|]; [|reflexivity]. destruct (_ <? _)%N; [|reflexivity].
    unfold upd_notify. destruct (update_body _ _) as [[[? ?] ?] ?]. now destruct b.
  - assert (G : exists l', find_lsa (c_self c, t) s' = Some l' /\ l_seq l' = (q + 1)%N /\
       (t = TName -> forall p, In p (keys (body_names (l_body l'))) <-> In p (keys (npl_of_list (e_npl e))))).
    { rewrite Bf, Kl, eqb_refl. change (find_lsa (c_self c, t) s0) with (find_lsa (c_self c, t) s).
      destruct (find_lsa (c_self c, t) s) as [o|] eqn:Eo.
      - pose proof (find_key I Eo) as K.
        assert ((l_seq o < q)%N) by (apply Hnew; [apply (holds_find o I); now rewrite K|exact K]).
        assert ((l_seq o <? l_seq l)%N = true) as -> by (apply N.ltb_lt; cbn; lia).
        eexists. split; [reflexivity|]. split; [reflexivity|]. intros -> p.
        rewrite merged_names; [reflexivity| |reflexivity]. injection K; auto.
      - eexists. split; [reflexivity|]. split; [reflexivity|]. intros ->. reflexivity. }
    destruct G as (l' & G1 & G2 & G3). exists l'. pose proof (find_key I' G1) as K.
    split; [apply (holds_find l' I'); now rewrite K|]. split; [exact K|]. split; [exact G2|].
    intros Et p. rewrite (G3 Et). unfold npl_of_list. rewrite keys_fold_set. simpl. tauto.
Qed.

Example C10_example :
  let s := fst (exec (confX HOff) None 0 envX []) in
  reachable (confX HOff) s /\ update_origin (syncX "r1" TName) = Some selfX /\
  back 1 (syncX "r1" TName) = Some (type_comp TName) /\
  (forall l, holds s l -> l_key l = (selfX, TName) -> (l_seq l < 77)%N).
Proof.
  cbv zeta. split; [exists None, 0, envX, []; reflexivity|]. split; [reflexivity|]. split; [reflexivity|].
  intros l Hl _. vm_compute in Hl. destruct Hl as [<-|[]]. reflexivity.
Qed.

(** In dry-run mode a newer number of the own Adjacency LSA is ignored: the router keeps using numbers
    that the rest of the network regards as old. *)
Theorem C10_dry_run_refuted :
  let (s, _) := exec (confX HDry) None 0 envX evsD in
  update_origin (syncX "r1" TAdj) = Some selfX /\
  (forall l, holds s l -> l_key l = (selfX, TAdj) -> (l_seq l < 77)%N) /\
  step (confX HDry) s (envX, ESync (syncX "r1" TAdj) 77 300) = (s, []).
Proof.
  vm_compute. split; [reflexivity|]. split; [|reflexivity].
  intros l Hl K. repeat (destruct Hl as [<-|Hl]; [try discriminate K; reflexivity|]). destruct Hl.
Qed.

Print Assumptions C01_unique.
Print Assumptions C02_stale_ignored.
Print Assumptions C02_step_monotone.
Print Assumptions C02_monotone.
Print Assumptions C02_newer_accepted.
Print Assumptions C03_notifications.
Print Assumptions C04_refuted.
Print Assumptions C04_names_partial.
Print Assumptions C05_own_refreshed.
Print Assumptions C05_foreign_removed.
Print Assumptions C05_own_kept.
Print Assumptions C06_timer_pending.
Print Assumptions C07_lifetime_bounded.
Print Assumptions C07_already_expired_refuted.
Print Assumptions C08_increasing.
Print Assumptions C08_persisted_first.
Print Assumptions C08_stale_sync_refuted.
Print Assumptions C08_forged_own_refuted.
Print Assumptions C09_across_crashes.
Print Assumptions C09_dry_run_refuted.
Print Assumptions C10_recovery.
Print Assumptions C10_dry_run_refuted.
