(** Invariants of the LSDB machine. *)
From Verif Require Import Base M_Nexthop M_Tlv M_Adj M_Lsa M_Lsdb.
Open Scope Z_scope.
Set Implicit Arguments.

(** ** Acts *)

Lemma andthen_fst f g s : fst (andthen f g s) = fst (g (fst (f s))).
Proof. unfold andthen. destruct (f s) as [s1 o1]. destruct (g s1) as [s2 o2] eqn:E. simpl.
  now rewrite E. Qed.

Lemma andthen_snd f g s : snd (andthen f g s) = snd (f s) ++ snd (g (fst (f s))).
Proof. unfold andthen. destruct (f s) as [s1 o1]. destruct (g s1) as [s2 o2] eqn:E. simpl.
  now rewrite E. Qed.

Definition pres (P : st -> Prop) (a : act) : Prop := forall s, P s -> P (fst (a s)).

Lemma pres_andthen P f g : pres P f -> pres P g -> pres P (andthen f g).
Proof. intros Hf Hg s Hs. rewrite andthen_fst. apply Hg, Hf, Hs. Qed.

Lemma pres_ret P : pres P ret.
Proof. intros s Hs. exact Hs. Qed.
Lemma pres_emit P o : pres P (emit o).
Proof. intros s Hs. exact Hs. Qed.

Lemma update_body_type b b' : body_type (snd (fst (fst (update_body b b')))) = body_type b.
Proof.
  destruct b, b'; simpl; try reflexivity.
  - destruct (adl_eqb l l0); reflexivity.
  - destruct (diff_eps _ _ && angles_eqb _ _); reflexivity.
Qed.

(** ** The store, its objects and their timers

    [ex] exempts at most one object from having a pending timer: the object whose timer is being
    fired or replaced. *)
Record invS (ex : option nat) (s : st) : Prop := InvS
  { iS_nodup : NoDup (keys (s_store s));
    iS_store : forall k oid, get k (s_store s) = Some oid ->
      exists o, get oid (s_heap s) = Some o /\ l_key (o_lsa o) = k /\
        (ex <> Some oid -> exists t tm, o_tid o = Some t /\ get t (s_timers s) = Some tm);
    iS_heap : forall oid o, get oid (s_heap s) = Some o -> (oid < s_noid s)%nat /\
        forall t, o_tid o = Some t -> (t < s_ntid s)%nat /\
          forall tm, get t (s_timers s) = Some tm -> t_act tm = AExpire oid;
    iS_timer : forall t tm, get t (s_timers s) = Some tm -> (t < s_ntid s)%nat /\
        forall oid, t_act tm = AExpire oid ->
          exists o, get oid (s_heap s) = Some o /\ o_tid o = Some t;
    iS_btid : forall t, s_btid s = Some t -> (t < s_ntid s)%nat /\
        forall tm, get t (s_timers s) = Some tm -> t_act tm = ABuild }.

(** States that agree on everything [invS] reads. *)
Definition sameS (s s' : st) : Prop :=
  s_store s = s_store s' /\ s_heap s = s_heap s' /\ s_noid s = s_noid s' /\
  s_timers s = s_timers s' /\ s_ntid s = s_ntid s' /\ s_btid s = s_btid s'.

Lemma invS_same ex s s' : sameS s s' -> invS ex s -> invS ex s'.
Proof.
  intros (E1 & E2 & E3 & E4 & E5 & E6) [H1 H2 H3 H4 H5].
  constructor; rewrite <- ?E1, <- ?E2, <- ?E3, <- ?E4, <- ?E5, <- ?E6; assumption.
Qed.

Lemma invS_weaken ex s : invS None s -> invS ex s.
Proof.
  intros [H1 H2 H3 H4 H5]. constructor; try assumption.
  intros k oid Hk. destruct (H2 k oid Hk) as (o & Ho & Hkey & Ht).
  exists o. repeat split; trivial. intros _. apply Ht. discriminate.
Qed.

Lemma invS_unex oid s : invS (Some oid) s ->
  (forall k, get k (s_store s) <> Some oid) -> invS None s.
Proof.
  intros [H1 H2 H3 H4 H5] Hn. constructor; try assumption.
  intros k oid' Hk. destruct (H2 k oid' Hk) as (o & Ho & Hkey & Ht).
  exists o. repeat split; trivial. intros _. apply Ht. intros E. injection E as ->.
  now apply (Hn k).
Qed.

(** Each object is stored under at most one key: its own. *)
Lemma invS_key ex s k oid o : invS ex s -> get k (s_store s) = Some oid ->
  get oid (s_heap s) = Some o -> k = l_key (o_lsa o).
Proof.
  intros H Hk Ho. destruct (iS_store H _ Hk) as (o' & Ho' & Hkey & _). congruence.
Qed.

Arguments invS_key {ex s k oid o} _ _ _.

(** Scheduling an action that is not an LSA expiration and not a build. *)
Lemma invS_schedule ex s d a : invS ex s ->
  (forall oid, a <> AExpire oid) -> invS ex (fst (schedule d a s)).
Proof.
  intros [H1 H2 H3 H4 H5] Hna. constructor; simpl; try assumption.
  - intros k oid Hk. destruct (H2 k oid Hk) as (o & Ho & Hkey & Ht).
    exists o. repeat split; trivial. intros Hex. destruct (Ht Hex) as (t & tm & Et & Htm).
    exists t, tm. split; [exact Et|]. rewrite get_set_ne; [exact Htm|].
    pose proof (proj1 (H4 _ _ Htm)). lia.
  - intros oid o Ho. destruct (H3 oid o Ho) as [Hlt Ht]. split; [exact Hlt|].
    intros t Et. destruct (Ht t Et) as [Htl Htm]. split; [lia|].
    intros tm. rewrite get_set_ne by lia. apply Htm.
  - intros t tm. rewrite get_set. eqb_case t (s_ntid s).
    + intros E. injection E as <-. split; [lia|]. intros oid E. simpl in E. now apply Hna in E.
    + intros Htm. destruct (H4 t tm Htm) as [Hlt Ho]. split; [lia|exact Ho].
  - intros t Et. destruct (H5 t Et) as [Hlt Ha]. split; [lia|].
    intros tm. rewrite get_set_ne by lia. apply Ha.
Qed.

(** Cancelling or firing a timer that no LSA relies on. *)
Lemma invS_del_timer ex s t : invS ex s ->
  (forall oid tm, get t (s_timers s) = Some tm -> t_act tm = AExpire oid -> ex = Some oid) ->
  invS ex (w_timers (del t (s_timers s)) (s_ntid s) s).
Proof.
  intros [H1 H2 H3 H4 H5] Hd. constructor; simpl; try assumption.
  - intros k oid Hk. destruct (H2 k oid Hk) as (o & Ho & Hkey & Ht).
    exists o. repeat split; trivial. intros Hex. destruct (Ht Hex) as (t' & tm & Et & Htm).
    exists t', tm. split; [exact Et|]. rewrite get_del. eqb_case t' t; [|exact Htm].
    exfalso. apply Hex. apply (Hd oid tm Htm).
    destruct (H3 _ _ Ho) as [_ Ha]. destruct (Ha _ Et) as [_ Ha']. exact (Ha' _ Htm).
  - intros oid o Ho. destruct (H3 oid o Ho) as [Hlt Ht]. split; [exact Hlt|].
    intros t' Et. destruct (Ht t' Et) as [Htl Htm]. split; [exact Htl|].
    intros tm. rewrite get_del. eqb_case t' t; [discriminate|apply Htm].
  - intros t' tm. rewrite get_del. eqb_case t' t; [discriminate|apply H4].
  - intros t' Et. destruct (H5 t' Et) as [Hlt Ha]. split; [exact Hlt|].
    intros tm. rewrite get_del. eqb_case t' t; [discriminate|apply Ha].
Qed.

(** Arming the expiration timer of an object. *)
Lemma invS_schedule_expiration ex s oid secs o :
  invS ex s -> (ex = None \/ ex = Some oid) -> get oid (s_heap s) = Some o ->
  invS None (schedule_expiration oid secs s).
Proof.
  intros [H1 H2 H3 H4 H5] Hex Ho.
  unfold schedule_expiration, schedule. cbn [s_heap w_timers]. rewrite Ho.
  set (nt := s_ntid s).
  set (tms := set nt (Timer (s_now s + (secs + GRACE_PERIOD) * SEC) (AExpire oid)) (s_timers s)).
  (* timers after cancelling the old one *)
  set (tms' := match o_tid o with Some i => del i tms | None => tms end).
  assert (Hs2 : cancel (o_tid o) (w_timers tms (S nt) s) = w_timers tms' (S nt) s)
    by (unfold cancel, tms'; destruct (o_tid o); reflexivity).
  rewrite Hs2. clear Hs2.
  assert (Hold : forall i, o_tid o = Some i -> (i < nt)%nat)
    by (intros i Ei; exact (proj1 (proj2 (H3 _ _ Ho) i Ei))).
  assert (Hnew : get nt tms' = Some (Timer (s_now s + (secs + GRACE_PERIOD) * SEC) (AExpire oid))).
  { unfold tms', tms. destruct (o_tid o) as [i|] eqn:Ei; [|apply get_set_eq].
    rewrite get_del_ne; [apply get_set_eq|]. specialize (Hold i eq_refl). lia. }
  assert (Hoth : forall t, t <> nt -> get t tms' = if eqb (o_tid o) (Some t) then None else get t (s_timers s)).
  { intros t Hne. unfold tms'. eqb_case (o_tid o) (Some t).
    - rewrite E. apply get_del_eq.
    - destruct (o_tid o) as [i|].
      + rewrite get_del_ne by congruence. unfold tms. now apply get_set_ne.
      + unfold tms. now apply get_set_ne. }
  constructor; cbn [s_store s_heap s_noid s_timers s_ntid s_btid w_heap w_timers].
  - exact H1.
  - intros k oid' Hk. destruct (H2 k oid' Hk) as (o' & Ho' & Hkey & Ht).
    rewrite get_set. eqb_case oid' oid.
    + assert (o' = o) by congruence. subst o'. eexists. split; [reflexivity|]. split; [exact Hkey|].
      intros _. do 2 eexists. split; [reflexivity|exact Hnew].
    + exists o'. split; [exact Ho'|]. split; [exact Hkey|]. intros _.
      destruct Ht as (t & tm & Et & Htm); [destruct Hex; congruence|].
      exists t, tm. split; [exact Et|].
      assert (t < nt)%nat by (exact (proj1 (H4 _ _ Htm))).
      rewrite Hoth by lia. eqb_case (o_tid o) (Some t); [|exact Htm].
      exfalso. pose proof (proj2 (proj2 (H3 _ _ Ho) _ E0) _ Htm) as A1.
      pose proof (proj2 (proj2 (H3 _ _ Ho') _ Et) _ Htm) as A2. congruence.
  - intros oid' o'. rewrite get_set. eqb_case oid' oid.
    + intros E. injection E as <-. split; [exact (proj1 (H3 _ _ Ho))|]. cbn [o_tid].
      intros t E. injection E as <-. split; [lia|]. intros tm E. rewrite Hnew in E. injection E as <-.
      reflexivity.
    + intros Ho'. destruct (H3 _ _ Ho') as [Hl Ht]. split; [exact Hl|]. intros t Et.
      destruct (Ht t Et) as [Htl Htm]. split; [lia|]. intros tm Em. rewrite Hoth in Em by lia.
      destruct (eqb (o_tid o) (Some t)); [discriminate|]. now apply Htm.
  - intros t tm Htm. destruct (eq_dec t nt) as [->|Hne].
    + split; [lia|]. intros oid' Ea. rewrite Hnew in Htm. injection Htm as <-. injection Ea as <-.
      eexists. split; [apply get_set_eq|reflexivity].
    + rewrite Hoth in Htm by exact Hne. eqb_case (o_tid o) (Some t); [discriminate|].
      destruct (H4 t tm Htm) as [Hlt Ho']. split; [lia|]. intros oid' Ea.
      destruct (Ho' oid' Ea) as (o' & Go' & Eo'). exists o'. split; [|exact Eo'].
      rewrite get_set_ne; [exact Go'|]. intros ->. congruence.
  - intros t Et. destruct (H5 t Et) as [Hlt Ha]. split; [lia|]. intros tm Em.
    rewrite Hoth in Em by lia. destruct (eqb (o_tid o) (Some t)); [discriminate|]. now apply Ha.
Qed.

(** Changing the content of a stored object, its key unchanged. *)
Lemma invS_set_obj ex s oid o o' : invS ex s -> get oid (s_heap s) = Some o ->
  l_key (o_lsa o') = l_key (o_lsa o) -> o_tid o' = o_tid o ->
  invS ex (w_heap (set oid o' (s_heap s)) (s_noid s) s).
Proof.
  intros [H1 H2 H3 H4 H5] Ho Hk Ht. constructor; simpl; try assumption.
  - intros k oid' Hk'. destruct (H2 k oid' Hk') as (o1 & Ho1 & Hkey & Ht1).
    rewrite get_set. eqb_case oid' oid.
    + assert (o1 = o) by congruence. subst o1. exists o'. split; [reflexivity|].
      split; [congruence|]. rewrite Ht. exact Ht1.
    + exists o1. auto.
  - intros oid' o1. rewrite get_set. eqb_case oid' oid.
    + intros E. injection E as <-. rewrite Ht. apply (H3 _ _ Ho).
    + apply H3.
  - intros t tm Htm. destruct (H4 t tm Htm) as [Hlt Hx]. split; [exact Hlt|].
    intros oid' Ea. destruct (Hx oid' Ea) as (o1 & Ho1 & Et1). rewrite get_set. eqb_case oid' oid.
    + exists o'. split; [reflexivity|]. congruence.
    + exists o1. auto.
Qed.

Lemma invS_install c sys l ex s : (ex = None) -> invS ex s -> invS None (fst (install c sys l s)).
Proof.
  intros -> H. unfold install, find_oid.
  destruct (get (l_key l) (s_store s)) as [oid|] eqn:Ek.
  - destruct (iS_store H _ Ek) as (o & Ho & Hkey & _). rewrite Ho.
    destruct (N.ltb_spec (l_seq (o_lsa o)) (l_seq l)); [|exact H].
    destruct (update_body (l_body (o_lsa o)) (l_body l)) as [[[u b] ad] rm] eqn:Eu. simpl fst.
    set (o1 := Obj _ _).
    eapply invS_schedule_expiration with (ex := None) (o := o1); [|now left|simpl; apply get_set_eq].
    eapply invS_set_obj; [exact H|exact Ho| |reflexivity].
    unfold o1, l_key, l_type. simpl. f_equal.
    pose proof (update_body_type (l_body (o_lsa o)) (l_body l)) as E. rewrite Eu in E. exact E.
  - simpl fst. set (oid := s_noid s).
    eapply invS_schedule_expiration with (ex := Some oid) (o := Obj l None);
      [|now right|simpl; apply get_set_eq].
    destruct H as [H1 H2 H3 H4 H5].
    assert (Hfresh : get oid (s_heap s) = None).
    { destruct (get oid (s_heap s)) eqn:E; [|reflexivity]. apply H3 in E. unfold oid in E. lia. }
    constructor; simpl.
    + now apply NoDup_set.
    + intros k oid'. rewrite get_set. eqb_case k (l_key l).
      * intros E. injection E as <-. exists (Obj l None). rewrite get_set_eq. repeat split; trivial.
        congruence.
      * intros Hk. destruct (H2 k oid' Hk) as (o & Ho & Hkey & Ht). exists o.
        assert (oid' <> oid) by congruence. rewrite get_set_ne by assumption.
        repeat split; trivial. intros _. apply Ht. discriminate.
    + intros oid' o. rewrite get_set. eqb_case oid' oid.
      * intros E. injection E as <-. split; [subst; lia|]. simpl. discriminate.
      * intros Ho. destruct (H3 _ _ Ho) as [Hl Hr]. split; [lia|exact Hr].
    + intros t tm Htm. destruct (H4 t tm Htm) as [Hlt Hx]. split; [exact Hlt|].
      intros oid' Ea. destruct (Hx oid' Ea) as (o1 & Ho1 & Et1). exists o1. split; [|exact Et1].
      rewrite get_set_ne by congruence. exact Ho1.
    + exact H5.
Qed.

Lemma invS_remove ex s k : invS ex s -> invS ex (fst (remove k s)).
Proof.
  intros [H1 H2 H3 H4 H5]. unfold remove. destruct (find_lsa k s); [|constructor; assumption].
  constructor; simpl; try assumption.
  - now apply NoDup_del.
  - intros k' oid. rewrite get_del. eqb_case k' k; [discriminate|apply H2].
Qed.

(** Removing the exempted object's key. *)
Lemma invS_remove_ex s k oid o : invS (Some oid) s -> get oid (s_heap s) = Some o ->
  k = l_key (o_lsa o) -> invS None (fst (remove k s)).
Proof.
  intros H Ho ->. unfold remove. unfold find_lsa, find_oid.
  destruct (get (l_key (o_lsa o)) (s_store s)) as [oid'|] eqn:Ek.
  - destruct (iS_store H _ Ek) as (o' & Ho' & _). rewrite Ho'. simpl option_map. cbv iota.
    simpl fst. apply invS_unex with oid.
    + pose proof (invS_remove (l_key (o_lsa o)) H) as R. unfold remove, find_lsa, find_oid in R.
      rewrite Ek, Ho' in R. exact R.
    + intros k'. simpl. rewrite get_del. eqb_case k' (l_key (o_lsa o)); [discriminate|].
      intros Hk'. apply E. exact (invS_key H Hk' Ho).
  - apply invS_unex with oid; [exact H|]. intros k Hk.
    rewrite (invS_key H Hk Ho) in Hk. simpl in Hk. congruence.
Qed.

(** ** The whole machine *)

Lemma sameS_refl s : sameS s s.
Proof. repeat split. Qed.

Definition keeps (a : act) : Prop := forall s, sameS s (fst (a s)).

Lemma keeps_pres a ex : keeps a -> pres (invS ex) a.
Proof. intros H s Hs. exact (invS_same (H s) Hs). Qed.

Ltac keeps_tac := intros ?s; repeat split.

Lemma keeps_bump t : keeps (bump t). Proof. keeps_tac. Qed.
Lemma keeps_write : keeps write_seqs. Proof. keeps_tac. Qed.
Lemma keeps_publish t : keeps (publish t). Proof. keeps_tac. Qed.
Lemma keeps_setseq t q : keeps (upd (fun s => w_seqs (seq_set t q (s_seqs s)) s)).
Proof. keeps_tac. Qed.
Lemma keeps_throw : keeps throw. Proof. keeps_tac. Qed.
Lemma keeps_ub : keeps ub. Proof. keeps_tac. Qed.
Lemma keeps_ret : keeps ret. Proof. keeps_tac. Qed.
Lemma keeps_emit o : keeps (emit o). Proof. keeps_tac. Qed.
Lemma keeps_stat f t : keeps (stat_type f t).
Proof. destruct t; keeps_tac. Qed.

#[export] Hint Resolve keeps_bump keeps_write keeps_publish keeps_setseq keeps_throw keeps_ub keeps_ret
  keeps_emit keeps_stat : keeps.

Lemma sameS_trans a b c : sameS a b -> sameS b c -> sameS a c.
Proof. unfold sameS. intuition congruence. Qed.

Lemma keeps_andthen f g : keeps f -> keeps g -> keeps (andthen f g).
Proof. intros Hf Hg s. rewrite andthen_fst. eapply sameS_trans; [apply Hf|apply Hg]. Qed.

Lemma pres_install c sys l : pres (invS None) (install c sys l).
Proof. intros s Hs. now apply invS_install with None. Qed.

Lemma pres_own (P : st -> Prop) (a b d : act) l c sys s :
  keeps a -> keeps b -> keeps d -> (forall s s', sameS s s' -> P s -> P s') ->
  pres P (install c sys l) -> P s -> P (fst ((a ;; b ;; d ;; install c sys l) s)).
Proof.
  intros Ha Hb Hd HP Hi Hs. rewrite !andthen_fst. apply Hi.
  apply (HP _ _ (Hd _)), (HP _ _ (Hb _)), (HP _ _ (Ha _)), Hs.
Qed.

Lemma pres_build_name c e : pres (invS None) (build_name c e).
Proof.
  intros s Hs. unfold build_name. apply pres_own; auto with keeps.
  - intros s1 s2. apply invS_same.
  - apply pres_install.
Qed.

Lemma pres_build_coord c e : pres (invS None) (build_coord c e).
Proof.
  intros s Hs. unfold build_coord. apply pres_own; auto with keeps.
  - destruct (eqb _ _); auto with keeps.
  - intros s1 s2. apply invS_same.
  - apply pres_install.
Qed.

Lemma pres_build_own_adj c e : pres (invS None) (build_own_adj c e).
Proof.
  intros s Hs. unfold build_own_adj. apply pres_own; auto with keeps.
  - destruct (eqb _ _); auto with keeps.
  - intros s1 s2. apply invS_same.
  - apply pres_install.
Qed.

(** Cancelling the old build timer and recording the new one. *)
Lemma invS_schedule_build ex s d : invS ex s -> invS ex (schedule_build d s).
Proof.
  intros H. unfold schedule_build.
  pose proof (invS_schedule d (a := ABuild) H) as H1. specialize (H1 ltac:(discriminate)).
  unfold schedule in *. cbn [fst] in H1. set (s1 := w_timers _ _ s) in *.
  cbn [s_btid]. change (s_btid s1) with (s_btid s).
  assert (H2 : invS ex (cancel (s_btid s) s1)).
  { unfold cancel. destruct (s_btid s) as [i|] eqn:Ei; [|exact H1].
    apply invS_del_timer; [exact H1|]. intros oid tm Htm Ea.
    destruct (iS_btid H1 Ei) as [_ Hb]. rewrite (Hb _ Htm) in Ea. discriminate. }
  destruct H2 as [A1 A2 A3 A4 A5].
  assert (Hnt : s_ntid (cancel (s_btid s) s1) = S (s_ntid s)) by (destruct (s_btid s); reflexivity).
  constructor; try assumption.
  cbn [s_btid w_build s_ntid s_timers]. intros t E. injection E as <-. split; [rewrite Hnt; lia|].
  intros tm Htm.
  assert (Hg : get (s_ntid s) (s_timers s1) = Some (Timer (s_now s + d) ABuild))
    by (simpl; apply get_set_eq).
  destruct (s_btid s) as [i|] eqn:Ei.
  - cbn [cancel s_timers w_timers] in Htm. rewrite get_del in Htm.
    destruct (eqb (s_ntid s) i); [discriminate|]. rewrite Hg in Htm. injection Htm as <-. reflexivity.
  - cbn [cancel] in Htm. rewrite Hg in Htm. injection Htm as <-. reflexivity.
Qed.

Lemma pres_schedule_adj_build c ex : pres (invS ex) (schedule_adj_build c).
Proof.
  intros s Hs. unfold schedule_adj_build. destruct (eqb (c_hyp c) HOn).
  - apply (invS_same (s := s)); [repeat split|exact Hs].
  - apply invS_schedule_build. apply (invS_same (s := s)); [repeat split|exact Hs].
Qed.

Lemma pres_build_adj c e : pres (invS None) (build_adj c e).
Proof.
  intros s Hs. unfold build_adj.
  assert (H0 : invS None (w_build false (s_count s) (s_btid s) s))
    by (apply (invS_same (s := s)); [repeat split|exact Hs]).
  destruct (is_buildable _ _).
  - destruct (0 <? _); [|exact H0]. apply pres_andthen; [| |exact H0].
    + destruct (Nat.ltb _ _); [apply pres_build_own_adj|]. intros s' Hs'. now apply invS_remove.
    + intros s' Hs'. apply (invS_same (s := s')); [repeat split|exact Hs'].
  - now apply invS_schedule_build.
Qed.

Lemma invS_expire c sys oid s : invS (Some oid) s -> invS None (fst (expire_or_refresh c sys oid s)) \/
  get oid (s_heap s) = None.
Proof.
  intros H. unfold expire_or_refresh. destruct (get oid (s_heap s)) as [o|] eqn:Ho; [left|now right].
  unfold find_oid. destruct (get (l_key (o_lsa o)) (s_store s)) as [oid'|] eqn:Ek.
  - destruct (iS_store H _ Ek) as (o' & Ho' & Hkey & Ht). rewrite Ho'.
    destruct (N.eqb_spec (l_seq (o_lsa o')) (l_seq (o_lsa o))) as [Eq|Nq].
    + destruct (eqb (l_origin (o_lsa o')) (c_self c)).
      * rewrite andthen_fst. cbn [write_seqs publish fst].
        set (o1 := Obj _ _). set (s2 := w_seqs _ _).
        assert (Hex : invS (if eqb oid oid' then Some oid else None) s).
        { eqb_case oid oid'; [exact H|]. apply invS_unex with oid; [exact H|].
          intros k Hk. pose proof (invS_key H Hk Ho). congruence. }
        apply invS_schedule_expiration with (ex := if eqb oid oid' then Some oid else None) (o := o1).
        -- apply (invS_same (s := w_heap (set oid' o1 (s_heap s)) (s_noid s) s)); [repeat split|].
           apply invS_set_obj with o'; trivial.
        -- eqb_case oid oid'; auto.
        -- simpl. apply get_set_eq.
      * now apply invS_remove_ex with oid o.
    + cbn [fst]. apply invS_unex with oid; [exact H|]. intros k Hk.
      pose proof (invS_key H Hk Ho). congruence.
  - cbn [fst]. apply invS_unex with oid; [exact H|]. intros k Hk.
    pose proof (invS_key H Hk Ho). congruence.
Qed.

Lemma note_high_same n q s s1 : note_high n q s = Some s1 -> sameS s s1.
Proof.
  unfold note_high. destruct (get n (s_high s)) as [h|].
  - destruct (h <? q)%N; [intros E; injection E as <-; repeat split|].
    destruct (q <? h)%N; [discriminate|]. intros E; injection E as <-; repeat split.
  - intros E; injection E as <-; repeat split.
Qed.

Lemma keeps_express i n f d : keeps (express i n f d).
Proof.
  intros s. unfold express. destruct (back 1 i); [|apply keeps_ub].
  destruct (to_number c).
  - destruct (note_high _ _ s) eqn:E; [|apply sameS_refl].
    eapply sameS_trans; [exact (note_high_same _ _ _ E)|].
    repeat (apply keeps_andthen; [solve [auto with keeps|keeps_tac]|]).
    destruct (back 2 i); auto with keeps.
  - apply keeps_andthen; auto with keeps.
Qed.

Lemma pres_after_fetch c sys i l : pres (invS None) (after_fetch c sys i l).
Proof.
  intros s Hs. unfold after_fetch. destruct (back 1 i); [|exact (invS_same (keeps_ub s) Hs)].
  destruct (to_number c0).
  - destruct (note_high _ _ s) eqn:E; [|exact Hs].
    apply (invS_same (note_high_same _ _ _ E)) in Hs. revert Hs.
    apply pres_andthen; [apply pres_emit|].
    destruct (name_origin c i).
    + destruct (back 2 i); [|apply keeps_pres; auto with keeps].
      destruct (comp_type c1); [|apply pres_ret].
      apply pres_andthen; [apply pres_emit|]. intros s' Hs'.
      destruct (is_new _ _ _ _); [|exact Hs']. destruct l as [l|]; [|exact Hs'].
      destruct (eqb _ _); [|exact Hs']. now apply pres_install.
    + apply pres_ret.
  - revert Hs. apply pres_andthen; [apply pres_emit|apply keeps_pres; auto with keeps].
Qed.

Lemma pres_fetch_done c sys f l : pres (invS None) (fetch_done c sys f l).
Proof.
  intros s Hs. unfold fetch_done. destruct (get f (s_fetch s)); [|exact Hs].
  revert Hs. apply pres_andthen; [apply keeps_pres; keeps_tac|].
  apply pres_andthen; [apply pres_after_fetch|apply keeps_pres; keeps_tac].
Qed.

Lemma pres_fetch_err c f t ex : pres (invS ex) (fetch_err c f t).
Proof.
  intros s Hs. unfold fetch_err. destruct (get f (s_fetch s)) as [x|]; [|exact Hs].
  revert s Hs. intros s Hs. revert Hs. apply pres_andthen; [|apply keeps_pres; keeps_tac].
  clear s. intros s Hs. unfold on_error.
  destruct (back 1 (f_iname x)); [|exact (invS_same (keeps_ub s) Hs)].
  destruct (to_number c0); [|exact (invS_same (keeps_throw s) Hs)].
  destruct (_ && _); [|exact Hs]. cbn [fst]. apply invS_schedule; [exact Hs|discriminate].
Qed.

Lemma pres_segment f n d ex : pres (invS ex) (segment_validated f n d).
Proof.
  intros s Hs. unfold segment_validated. destruct (get f (s_fetch s)); [|exact Hs].
  revert Hs. apply pres_andthen; [apply pres_emit|]. clear s. intros s Hs.
  cbn [upd fst]. apply invS_schedule; [|discriminate].
  apply (invS_same (s := s)); [repeat split|exact Hs].
Qed.

Lemma pres_process_update c e u q o f : pres (invS None) (process_update c e u q o f).
Proof.
  intros s Hs. unfold process_update. destruct (back 1 u); [|exact (invS_same (keeps_ub s) Hs)].
  destruct (eqb o (c_self c)).
  - destruct (is_new _ _ _ _); [|exact Hs]. destruct (comp_type c0) as [[]|]; [| | |exact Hs].
    + destruct (eqb _ _); [|exact Hs]. revert Hs.
      apply pres_andthen; [apply keeps_pres; auto with keeps|apply pres_build_own_adj].
    + destruct (eqb _ _); [|exact Hs]. revert Hs.
      apply pres_andthen; [apply keeps_pres; auto with keeps|apply pres_build_coord].
    + revert Hs. apply pres_andthen; [apply keeps_pres; auto with keeps|apply pres_build_name].
  - destruct (is_new _ _ _ _); [|exact Hs].
    destruct (_ && _); [exact Hs|]. destruct (_ && _); [exact Hs|].
    revert Hs. apply pres_andthen; apply keeps_pres; [auto with keeps|apply keeps_express].
Qed.

Lemma pres_fifo_insert c e ex s : invS ex s -> invS ex (fifo_insert c e s).
Proof.
  intros Hs. unfold fifo_insert. apply invS_schedule; [|discriminate].
  apply (invS_same (s := s)); [repeat split|exact Hs].
Qed.

Lemma pres_process_interest c i p k v ex : pres (invS ex) (process_interest c i p k v).
Proof.
  intros s Hs. unfold process_interest. destruct (back 2 i) as [cv|]; [|exact (invS_same (keeps_ub s) Hs)].
  destruct (if is_version cv then _ else None) as [[n [l k']]|]; [exact Hs|].
  revert Hs. apply pres_andthen; [apply pres_emit|].
  assert (Hst : forall n p, pres (invS ex) (serve_stored n p)).
  { intros n b s' Hs'. unfold serve_stored. destruct (find _ _) as [[? ?]|]; exact Hs'. }
  destruct (name_origin _ _); [|apply Hst]. destruct (eqb _ _); [|apply Hst].
  match goal with |- context [back 1 ?x] => destruct (back 1 x), (back 2 x) end;
    try (apply keeps_pres; solve [auto with keeps]).
  destruct (to_number c0); [|apply keeps_pres; auto with keeps].
  destruct (comp_type c1); [|apply pres_ret].
  apply pres_andthen; [apply pres_emit|]. clear s. intros s Hs. unfold interest_for_lsa.
  destruct (find_lsa _ _); [|exact Hs]. destruct (N.eqb _ _); [|exact Hs].
  revert Hs. apply pres_andthen; [|].
  - intros s' Hs'. cbn [upd fst].
    set (segs := segments _ _ _ _). clearbody segs. revert s' Hs'.
    induction segs as [|x segs IH]; intros s' Hs'; [exact Hs'|].
    cbn [fold_left]. apply IH. now apply pres_fifo_insert.
  - apply pres_andthen; [destruct (nth_error _ _) as [[? [? ?]]|]; [apply pres_emit|apply pres_ret]|].
    apply pres_andthen; apply pres_emit.
Qed.

Lemma pres_fire c e t : pres (invS None) (fire c e t).
Proof.
  intros s Hs. unfold fire. destruct (get t (s_timers s)) as [tm|] eqn:Et; [|exact Hs].
  destruct (t_due tm <=? s_now s); [|exact Hs].
  set (s1 := w_timers _ _ s).
  destruct (t_act tm) as [oid| | | |] eqn:Ea.
  - assert (H1 : invS (Some oid) s1).
    { apply invS_del_timer; [now apply invS_weaken|]. intros oid' tm' E Ea'. congruence. }
    destruct (invS_expire c (e_sys e) H1) as [H2|H2]; [exact H2|].
    exfalso. destruct (iS_timer Hs _ Et) as [_ Hx]. destruct (Hx _ Ea) as (o & Ho & _).
    simpl in H2. congruence.
  - assert (H1 : invS None s1) by (apply invS_del_timer; [exact Hs|intros; congruence]).
    now apply pres_build_adj.
  - assert (H1 : invS None s1) by (apply invS_del_timer; [exact Hs|intros; congruence]).
    exact (invS_same (keeps_express _ _ _ _ s1) H1).
  - assert (H1 : invS None s1) by (apply invS_del_timer; [exact Hs|intros; congruence]).
    apply (invS_same (s := s1)); [repeat split|exact H1].
  - assert (H1 : invS None s1) by (apply invS_del_timer; [exact Hs|intros; congruence]).
    apply (invS_same (s := s1)); [repeat split|exact H1].
Qed.

Lemma invS_step c s x : invS None s -> invS None (fst (step c s x)).
Proof.
  intros Hs. unfold step. destruct (s_dead s); [exact Hs|].
  destruct x as [e v]. unfold step_live. destruct v.
  - apply (invS_same (s := s)); [repeat split|exact Hs].
  - unfold on_sync. destruct (update_origin u); [|exact Hs]. now apply pres_process_update.
  - now apply pres_fire.
  - now apply pres_fetch_done.
  - now apply pres_fetch_err.
  - now apply pres_segment.
  - destruct (is_prefix _ _); [|exact Hs]. now apply pres_process_interest.
  - now apply pres_build_name.
  - now apply pres_schedule_adj_build.
Qed.

Definition blank (q : seqs) (now : Z) : st :=
  St q [] [] 0 [] 0 false 0 None [] [] 0 [] [] now false.

Lemma invS_blank q now : invS None (blank q now).
Proof. constructor; simpl; try discriminate. constructor. Qed.

Lemma invS_init c f now e : invS None (fst (init c f now e)).
Proof.
  unfold init. change (St (seqs_from_file c f) [] [] 0 [] 0 false 0 None [] [] 0 [] [] now false)
    with (blank (seqs_from_file c f) now).
  generalize (invS_blank (seqs_from_file c f) now). apply pres_andthen; [apply pres_build_name|].
  destruct (eqb _ _); [apply pres_ret|apply pres_build_coord].
Qed.

Lemma exec_fst c f now e0 evs :
  fst (exec c f now e0 evs) = fst (run (step c) (fst (init c f now e0)) evs).
Proof. unfold exec. destruct (init c f now e0) as [s o]. simpl. destruct (run (step c) s evs). reflexivity. Qed.

Lemma exec_snd c f now e0 evs :
  snd (exec c f now e0 evs) =
  snd (init c f now e0) ++ snd (run (step c) (fst (init c f now e0)) evs).
Proof. unfold exec. destruct (init c f now e0) as [s o]. simpl. destruct (run (step c) s evs). reflexivity. Qed.

Lemma invS_exec c f now e0 evs : invS None (fst (exec c f now e0 evs)).
Proof.
  rewrite exec_fst. apply run_inv; [apply invS_init|]. intros s x. apply invS_step.
Qed.

(** Induction over runs with the outputs produced so far. *)
Lemma exec_ind c f now e0 (P : st -> list out -> Prop) :
  P (fst (init c f now e0)) (snd (init c f now e0)) ->
  (forall s o x, P s o -> P (fst (step c s x)) (o ++ snd (step c s x))) ->
  forall evs, P (fst (exec c f now e0 evs)) (snd (exec c f now e0 evs)).
Proof.
  intros H0 Hs evs. rewrite exec_fst, exec_snd.
  induction evs as [|x evs IH] using rev_ind.
  - simpl. now rewrite app_nil_r.
  - rewrite run_snoc. destruct (run (step c) (fst (init c f now e0)) evs) as [s1 o1] eqn:E.
    cbn [fst snd] in IH. specialize (Hs _ _ x IH).
    destruct (step c s1 x) as [s2 o2] eqn:E2. cbn [fst snd] in *. now rewrite app_assoc.
Qed.
