(** Lifetime timers. *)
From Verif Require Import Base M_Nexthop M_Tlv M_Adj M_Lsa M_Lsdb L_Lsdb S_Lsdb L_Lsdb2 L_Lsdb3.
Open Scope Z_scope.
Set Implicit Arguments.

Lemma holds_find ex s l : invS ex s -> (holds s l <-> find_lsa (l_key l) s = Some l).
Proof. apply In_contents. Qed.

Lemma same_but_find s s' k : invS None s -> invS None s' ->
  (forall k', k' <> k -> find_lsa k' s' = find_lsa k' s) -> same_but k s s'.
Proof.
  intros I I' H l Hl. rewrite (holds_find l I), (holds_find l I'), H by exact Hl. reflexivity.
Qed.

Lemma schedule_expiration_get s oid secs o : get oid (s_heap s) = Some o -> o_tid o <> Some (s_ntid s) ->
  let s' := schedule_expiration oid secs s in
  get (s_ntid s) (s_timers s') = Some (Timer (s_now s + (secs + GRACE_PERIOD) * SEC) (AExpire oid)) /\
  get oid (s_heap s') = Some (Obj (o_lsa o) (Some (s_ntid s))) /\
  s_store s' = s_store s /\ s_now s' = s_now s.
Proof.
  intros Ho Hn. unfold schedule_expiration, schedule. cbn [s_heap w_timers]. rewrite Ho.
  unfold cancel. destruct (o_tid o) as [i|]; cbn [s_heap s_timers s_store s_now w_heap w_timers].
  - rewrite get_del_ne by congruence. rewrite !get_set_eq. auto.
  - rewrite !get_set_eq. auto.
Qed.

Lemma lifetime_intro s l oid o tid due : invS None s ->
  get tid (s_timers s) = Some (Timer due (AExpire oid)) ->
  get (l_key l) (s_store s) = Some oid -> get oid (s_heap s) = Some o -> o_lsa o = l ->
  lifetime s l tid due.
Proof.
  intros I H1 H2 H3 H4. split; [|eauto 8]. apply (holds_find l I).
  unfold find_lsa, find_oid. rewrite H2, H3. simpl. congruence.
Qed.

(** Every stored LSA has a timer. *)
Lemma lifetime_exists s l : invS None s -> holds s l -> exists tid due, lifetime s l tid due.
Proof.
  intros I H. pose proof (proj1 (holds_find l I) H) as Hf.
  unfold find_lsa, find_oid in Hf. destruct (get (l_key l) (s_store s)) as [oid|] eqn:Ek; [|discriminate].
  destruct (iS_store I _ Ek) as (o & Ho & Hk & Ht). rewrite Ho in Hf. injection Hf as Hf.
  destruct (Ht ltac:(discriminate)) as (t & tm & Et & Htm).
  pose proof (proj2 (proj2 (iS_heap I _ Ho) _ Et) _ Htm) as Ha.
  destruct tm as [due a]. simpl in Ha. subst a.
  exists t, due. eapply lifetime_intro; eassumption.
Qed.

Lemma install_timer c sys l s : invS None s ->
  (forall o, find_lsa (l_key l) s = Some o -> (l_seq o < l_seq l)%N) ->
  let s' := fst (install c sys l s) in
  s_now s' = s_now s /\
  forall l', find_lsa (l_key l) s' = Some l' ->
  exists tid, lifetime s' l' tid (s_now s + (time_to_expire c sys l + GRACE_PERIOD) * SEC).
Proof.
  intros I Hlt s'. assert (I' : invS None s') by (now apply invS_install with (ex := None)).
  pose proof (install_find c sys l (l_key l) I) as Hfd. rewrite eqb_refl in Hfd. fold s' in Hfd.
  unfold s', install in *. clear s'.
  destruct (find_oid (l_key l) s) as [oid|] eqn:Ek.
  - destruct (iS_store I _ Ek) as (o & Ho & Hk & _).
    assert (Ef : find_lsa (l_key l) s = Some (o_lsa o)) by (unfold find_lsa; now rewrite Ek, Ho).
    pose proof (Hlt _ Ef) as Hl. rewrite Ef in Hfd. apply N.ltb_lt in Hl.
    rewrite Ho, Hl in *.
    destruct (update_body (l_body (o_lsa o)) (l_body l)) as [[[u b] ad] rm] eqn:Eu. cbn [fst] in *.
    set (o1 := Obj (Lsa (l_origin (o_lsa o)) (l_seq l) (l_exp l) b) (o_tid o)) in *.
    set (s1 := w_heap (set oid o1 (s_heap s)) (s_noid s) s) in *.
    assert (G1 : get oid (s_heap s1) = Some o1) by (unfold s1; cbn [s_heap w_heap]; apply get_set_eq).
    assert (G2 : o_tid o1 <> Some (s_ntid s1)).
    { intros E. cbn in E. pose proof (proj1 (proj2 (iS_heap I _ Ho) _ E)). lia. }
    destruct (@schedule_expiration_get s1 oid (time_to_expire c sys l) _ G1 G2) as (A1 & A2 & A3 & A4).
    split; [exact A4|]. intros l' Hl'. exists (s_ntid s1).
    assert (l_key l' = l_key l) as Kl by (apply (find_key I' Hl')).
    apply lifetime_intro with (oid := oid) (o := Obj (o_lsa o1) (Some (s_ntid s1))); trivial.
    + rewrite Kl, A3. exact Ek.
    + cbn [o_lsa]. unfold find_lsa, find_oid in Hl'. rewrite A3 in Hl'.
      change (s_store s1) with (s_store s) in Hl'. unfold find_oid in Ek. rewrite Ek, A2 in Hl'.
      injection Hl'; auto.
  - cbn [fst] in *. set (oid := s_noid s) in *.
    set (s1 := w_store _ _) in *.
    assert (G1 : get oid (s_heap s1) = Some (Obj l None)) by (unfold s1; cbn [s_heap w_heap w_store]; apply get_set_eq).
    destruct (@schedule_expiration_get s1 oid (time_to_expire c sys l) _ G1 ltac:(discriminate)) as (A1 & A2 & A3 & A4).
    split; [exact A4|]. intros l' Hl'. exists (s_ntid s1).
    assert (l_key l' = l_key l) as Kl by (apply (find_key I' Hl')).
    assert (G3 : get (l_key l) (s_store s1) = Some oid) by (unfold s1; cbn [s_store w_store]; apply get_set_eq).
    apply lifetime_intro with (oid := oid) (o := Obj l (Some (s_ntid s1))); trivial.
    + rewrite Kl, A3. exact G3.
    + cbn [o_lsa]. unfold find_lsa, find_oid in Hl'. rewrite A3, G3, A2 in Hl'. injection Hl'; auto.
Qed.

(** The refresh of an own LSA arms a new timer. *)
Lemma refresh_timer c sys oid o s : invS (Some oid) s -> get oid (s_heap s) = Some o ->
  get (l_key (o_lsa o)) (s_store s) = Some oid -> l_origin (o_lsa o) = c_self c ->
  let s' := fst (expire_or_refresh c sys oid s) in
  exists tid, lifetime s' (refreshed c sys (o_lsa o)) tid (s_now s + (c_refresh c + GRACE_PERIOD) * SEC).
Proof.
  intros I Ho Hk Hor s'.
  assert (I' : invS None s').
  { destruct (invS_expire c sys I) as [A|A]; [exact A|congruence]. }
  unfold s', expire_or_refresh in *. clear s'. rewrite Ho in *. unfold find_oid in *. rewrite Hk in *.
  rewrite Ho in *. rewrite N.eqb_refl in *. rewrite Hor in *. rewrite eqb_refl in *.
  rewrite andthen_fst in *. cbn [write_seqs publish fst] in *.
  set (o1 := Obj _ (o_tid o)) in *. set (s1 := w_seqs _ _) in *.
  assert (G1 : get oid (s_heap s1) = Some o1) by (unfold s1; cbn [s_heap w_heap w_seqs]; apply get_set_eq).
  assert (G2 : o_tid o1 <> Some (s_ntid s1)).
  { intros E. cbn in E. pose proof (proj1 (proj2 (iS_heap I _ Ho) _ E)). lia. }
  destruct (@schedule_expiration_get s1 oid (c_refresh c) _ G1 G2) as (A1 & A2 & A3 & A4).
  exists (s_ntid s1). apply lifetime_intro with (oid := oid) (o := Obj (o_lsa o1) (Some (s_ntid s1))); trivial.
  - rewrite A3. exact Hk.
  - cbn [o_lsa o1]. unfold refreshed. now rewrite Hor.
Qed.

Lemma fire_expire c s e tid due oid : s_dead s = false ->
  get tid (s_timers s) = Some (Timer due (AExpire oid)) -> due <= s_now s ->
  step c s (e, EFire tid) =
  expire_or_refresh c (e_sys e) oid (w_timers (del tid (s_timers s)) (s_ntid s) s).
Proof.
  intros Hd Ht Hdue. unfold step. rewrite Hd. cbn [step_live]. unfold fire. rewrite Ht. cbn [t_due t_act].
  apply Z.leb_le in Hdue. now rewrite Hdue.
Qed.

(** [after_fetch] either leaves the database alone or is one [install]. *)
Lemma fetch_done_cases c e fid cont s : 
  (forall k, find_lsa k (fst (fetch_done c (e_sys e) fid cont s)) = find_lsa k s) \/
  exists l s2, cont = Some l /\ sameS s s2 /\ s_now s2 = s_now s /\
    sameS (fst (install c (e_sys e) l s2)) (fst (fetch_done c (e_sys e) fid cont s)) /\
    s_now (fst (fetch_done c (e_sys e) fid cont s)) = s_now (fst (install c (e_sys e) l s2)).
Proof.
  unfold fetch_done. destruct (get fid (s_fetch s)) as [f|]; [|now left]. cbv zeta.
  rewrite !andthen_fst. cbn [upd fst].
  set (s1 := w_sto _ s). assert (S1 : sameS s s1) by repeat split.
  assert (N1 : s_now s1 = s_now s) by reflexivity. clearbody s1.
  assert (L : forall s', sameS s s' -> (forall k, find_lsa k (w_fetch (del fid (s_fetch s')) (s_nfid s') s') = find_lsa k s)).
  { intros s' Hs k. change (find_lsa k s' = find_lsa k s). now apply find_same. }
  unfold after_fetch. destruct (back 1 (f_iname f)); [|left; apply L; exact S1].
  destruct (to_number c0); [|left; apply L; exact S1].
  destruct (note_high _ n s1) as [s2|] eqn:En; [|left; apply L; exact S1].
  assert (S2 : sameS s s2) by (eapply sameS_trans; [exact S1|exact (note_high_same _ _ _ En)]).
  assert (N2 : s_now s2 = s_now s).
  { rewrite <- N1. clear - En. unfold note_high in En. destruct (get _ _) as [h|].
    - destruct (h <? n)%N; [now injection En as <-|]. destruct (n <? h)%N; [discriminate|]. now injection En as <-.
    - now injection En as <-. }
  rewrite andthen_fst. cbn [emit fst].
  destruct (name_origin c (f_iname f)); [|left; apply L; exact S2].
  destruct (back 2 (f_iname f)); [|left; apply L; exact S2].
  destruct (comp_type c1) as [ty|]; [|left; apply L; exact S2].
  rewrite andthen_fst. cbn [emit fst]. destruct (is_new _ _ _ _); [|left; apply L; exact S2].
  destruct cont as [l|]; [|left; apply L; exact S2].
  destruct (eqb _ _); [|left; apply L; exact S2].
  right. exists l, s2. repeat split; try apply S2; trivial.
Qed.
