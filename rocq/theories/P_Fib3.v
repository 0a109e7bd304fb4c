(** FIB properties C37 (neighbour prefixes), C38 (retries), C39 (refresh), C65 (routes do not lapse). *)
From Coq Require Import Sorting.Permutation Sorting.Sorted.
From Verif Require Import Base M_Nexthop L_Nexthop M_Adj M_Fib S_Fib L_Fib L_Fib2 P_Fib.
Open Scope Z_scope.

(** ** C37 *)


Lemma about_anon o n : about (anon o) n <-> about o n.
Proof. destruct o; simpl; tauto. Qed.


Lemma driven_about c names s e o n : base_inv names s -> driven e -> In n names ->
  In o (snd (fstep c s e)) -> ~ about o n.
Proof. intros (Hok & Hnm & Hnb) He Hn Ho Ha. apply in_anon in Ho. apply about_anon in Ha.
  assert (Hnn : not_neighbor n s = false).
  { unfold not_neighbor. apply negb_false_iff, is_neighbor_spec. unfold neighbour. now rewrite Hnm. }
  assert (R : forall m, In (anon o) (map anon (snd (fib_remove m s))) -> False).
  { intros m Hi. destruct (remove_spec m s) as (_ & _ & _ & _ & R1 & R2). destruct (not_neighbor m s) eqn:Em.
    - destruct (R1 eq_refl) as [_ E]. rewrite E, unregs_anon in Hi. apply in_unregs_iff in Hi as (u & _ & _ & E').
      rewrite E' in Ha. simpl in Ha. congruence.
    - destruct (R2 eq_refl) as [_ E]. rewrite E in Hi. destruct Hi. }
  destruct e; try contradiction; cbn [fstep] in Ho.
  - pose proof (@fib_update_spec c n0 hops flags s Hok) as (_ & _ & _ & U4 & U5).
    destruct (hops_to_add c hops) as [|x new] eqn:En.
    + specialize (U5 eq_refl). apply (f_equal snd) in U5. cbn [snd] in U5. rewrite U5 in Ho. eauto.
    + destruct (U4 ltac:(discriminate)) as (e' & _ & _ & _ & _ & E). rewrite E in Ho.
      destruct (not_neighbor n0 s) eqn:Em; [|contradiction]. apply in_app_or in Ho as [Ho|Ho].
      * apply in_regs_iff in Ho as (h & _ & _ & E'). rewrite E' in Ha. simpl in Ha. congruence.
      * destruct (get n0 (f_tab s)); [|contradiction]. apply in_unregs_iff in Ho as (u & _ & _ & E').
        rewrite E' in Ha. simpl in Ha. congruence.
  - eauto.
  - destruct (refresh_spec c n0 s) as (_ & _ & _ & [(_ & B2 & _)|(e & due & flags & B1 & B2 & _ & _ & B5)]).
    + rewrite B2 in Ho. destruct Ho.
    + rewrite B5 in Ho. apply in_regs_iff in Ho as (h & _ & _ & E'). rewrite E' in Ha. simpl in Ha. subst n0.
      apply (Hnb n e B1) in Hn. congruence. Qed.

(** No FIB update, removal or refresh ever registers or unregisters a prefix that is the name of a
    configured neighbour. *)
Theorem C37_driven c l t0 evs e n o :
  Forall (keeps_names (map a_name l)) evs -> neighbour l n -> driven e -> In o (fsent c l t0 evs e) -> ~ about o n.
Proof. intros Hk Hn He Ho. exact (@driven_about c _ _ e o n (@base_inv_fstate c l t0 evs Hk) He Hn Ho). Qed.

(** Over a whole history: a neighbour's prefix is never unregistered, and it is registered only if a
    direct registration of it was requested (start-up, new face). *)
Theorem C37_history c l t0 evs n :
  Forall (keeps_names (map a_name l)) evs -> neighbour l n ->
  (forall f, ~ In (FUnreg n f) (fouts c l t0 evs)) /\
  ((forall u cost ttl flags, ~ In (FvRegister n u cost ttl flags) evs) ->
   forall o, In o (fouts c l t0 evs) -> ~ about o n).
Proof. intros Hk Hn.
  assert (G : (forall f, ~ In (FUnreg n f) (fouts c l t0 evs)) /\
   ((forall u cost ttl flags, ~ In (FvRegister n u cost ttl flags) evs) ->
    (forall o, In o (fouts c l t0 evs) -> ~ about o n) /\
    forall id r, get id (f_cmds (fstate c l t0 evs)) = Some r -> rc_name r <> n)).
  2:{ destruct G as [G1 G2]. split; [exact G1|]. intros H. exact (proj1 (G2 H)). }
  induction evs as [|e evs IH] using rev_ind.
  { split; [intros f []|]. intros _. split; [intros o []|]. intros id r. discriminate. }
  apply Forall_app in Hk as [H1 H2]. destruct (IH H1) as [I1 I2]. clear IH.
  assert (D : driven e -> forall o, In o (fsent c l t0 evs e) -> ~ about o n).
  { intros He o Ho. exact (@C37_driven c l t0 evs e n o H1 Hn He Ho). }
  split.
  - intros f Hi. rewrite fouts_snoc in Hi. apply in_app_or in Hi as [Hi|Hi]; [now apply (I1 f)|].
    destruct e; try (apply (D I _ Hi); reflexivity); unfold fsent in Hi; cbn [fstep] in Hi.
    + unfold register in Hi. destruct (0 <? _)%N; [|contradiction]. destruct Hi as [Hi|[]]. discriminate.
    + destruct Hi as [Hi|[]]. discriminate.
    + unfold on_reg_ok in Hi. destruct (get id _); [|contradiction]. destruct Hi as [Hi|[]]. discriminate.
    + unfold on_reg_fail in Hi. destruct (get id _); [|contradiction]. destruct (_ <? 3)%N; [|contradiction].
      unfold register in Hi. destruct (0 <? _)%N; [|contradiction]. destruct Hi as [Hi|[]]. discriminate.
    + contradiction.
    + unfold on_strat_fail in Hi. destruct (get id _); [|contradiction]. destruct (_ <? 3)%N; [|contradiction].
      destruct Hi as [Hi|[]]. discriminate.
    + contradiction.
    + contradiction.
  - intros Hr. destruct I2 as [I2 I3].
    { intros u cost ttl flags Hi. apply (Hr u cost ttl flags). apply in_or_app. now left. }
    assert (S : forall o, In o (fsent c l t0 evs e) -> ~ about o n).
    { intros o Ho Ha. destruct e; try (apply (D I o Ho Ha)); unfold fsent in Ho; cbn [fstep] in Ho.
      - unfold register in Ho. destruct (0 <? _)%N; [|contradiction]. destruct Ho as [<-|[]]. simpl in Ha. subst n0.
        apply (Hr u cost ttl flags). apply in_or_app. right. now left.
      - destruct Ho as [<-|[]]. exact Ha.
      - unfold on_reg_ok in Ho. destruct (get id _); [|contradiction]. destruct Ho as [<-|[]]. exact Ha.
      - unfold on_reg_fail in Ho. destruct (get id _) as [r|] eqn:E; [|contradiction]. destruct (_ <? 3)%N; [|contradiction].
        unfold register in Ho. destruct (0 <? _)%N; [|contradiction]. destruct Ho as [<-|[]]. simpl in Ha.
        now apply (I3 id r E).
      - contradiction.
      - unfold on_strat_fail in Ho. destruct (get id _); [|contradiction]. destruct (_ <? 3)%N; [|contradiction].
        destruct Ho as [<-|[]]. exact Ha.
      - contradiction.
      - contradiction. }
    split.
    + intros o Ho. rewrite fouts_snoc in Ho. apply in_app_or in Ho as [Ho|Ho]; auto.
    + intros id r Hg. rewrite fstate_snoc in Hg.
      pose proof (@fstep_grow c _ e (fstate_wfid c l t0 evs)) as (G1 & G2 & G3 & G4 & G5).
      rewrite answered_next in *.
      destruct (Nat.lt_ge_cases id (f_next (fstate c l t0 evs))) as [L|L].
      * destruct (G2 id L) as [E _]. rewrite E in Hg. apply answered_get in Hg. exact (I3 id r Hg).
      * destruct (Nat.lt_ge_cases id (f_next (fst (fstep c (fstate c l t0 evs) e)))) as [L'|L'].
        -- destruct (G3 id L L') as [(r' & A & _ & C & _)|(r' & _ & B & _)].
           ++ rewrite A in Hg. injection Hg as <-. intros En. apply (S _ C). exact En.
           ++ congruence.
        -- destruct (G4 id L') as [E _]. congruence. Qed.

Example C37_ex :
  Forall (keeps_names (map a_name adlX)) [FvUpdate aX hopsX 1; FvUpdate pX hopsX 1; FvRemove aX; FvRemove pX] /\
  neighbour adlX aX /\
  fouts fcX adlX 0 [FvUpdate aX hopsX 1; FvUpdate pX hopsX 1; FvRemove aX; FvRemove pX]
  = [FReg 0 pX 7 5 3610000 1; FReg 1 pX 8 3 3610000 1; FUnreg pX 7; FUnreg pX 8].
Proof. split; [|split].
  - repeat constructor.
  - now left.
  - vm_compute. reflexivity. Qed.

(** ** C38 *)

(** No command is sent more than four times in a row of failures. *)
Theorem C38_bound c l t0 evs id k : get id (attempts c l t0 evs) = Some k -> (1 <= k <= 4)%nat.
Proof. intros H. apply (att_all c l t0 evs) in H. tauto. Qed.

(** Every command has an attempt number. *)
Theorem C38_numbered c l t0 evs :
  (forall id n f cost ttl flags, In (FReg id n f cost ttl flags) (fouts c l t0 evs) -> get id (attempts c l t0 evs) <> None) /\
  (forall id n st, In (FStrategy id n st) (fouts c l t0 evs) -> get id (attempts c l t0 evs) <> None).
Proof. assert (G : forall x id, In x (fouts c l t0 evs) -> cmd_id x = Some id -> get id (attempts c l t0 evs) <> None).
  { induction evs as [|e evs IH] using rev_ind; [intros x id []|]. intros x id Hx Ex. rewrite fouts_snoc in Hx.
    rewrite attempts_snoc. unfold attempts1. cbn [fst snd].
    match goal with |- context [fold_left _ _ _] => idtac end.
    assert (A : forall k o a, get id (fold_left (att1 k) o a) =
       if in_dec (fun x y => eq_dec x y) (Some id) (map cmd_id o) then Some k else get id a) by (intros; apply att_fold).
    unfold att1 in A. rewrite A. destruct (in_dec _ _ _) as [Hi|Hi]; [discriminate|].
    apply in_app_or in Hx as [Hx|Hx]; [eauto|]. exfalso. apply Hi. rewrite <- Ex. now apply in_map. }
  split; intros; eapply G; eauto; reflexivity. Qed.

(** What happens when the failure of a registration is reported: after the fourth attempt nothing is
    sent; before, the same registration is sent again (to the face the URI has then), or nothing if
    the face is gone. *)
Theorem C38_retry c l t0 evs id n f cost ttl flags :
  Forall (fun e => ~ answers id e) evs ->
  In (FReg id n f cost ttl flags) (fouts c l t0 evs) ->
  exists k, get id (attempts c l t0 evs) = Some k /\
    (k = 4%nat -> fsent c l t0 evs (FvRegFail id) = []) /\
    ((k < 4)%nat ->
       fsent c l t0 evs (FvRegFail id) = [] \/
       exists id' f', fsent c l t0 evs (FvRegFail id) = [FReg id' n f' cost ttl flags] /\ (0 < f')%N).
Proof. intros Ha Hi. destruct (@awaited c l t0 evs id Ha) as [A _]. destruct (A _ _ _ _ _ Hi) as (u & k & E).
  destruct (att_all c l t0 evs) as (I1 & _ & I3). pose proof (I1 id _ E) as Ek. cbn [rc_times] in Ek.
  exists (S (N.to_nat k)). split; [exact Ek|]. unfold fsent. cbn [fstep]. unfold on_reg_fail. rewrite E. cbn [rc_times rc_name rc_uri rc_cost rc_ttl rc_flags].
  apply I3 in Ek as [Ek _]. split.
  - intros E4. destruct (N.ltb_spec k 3); [lia|reflexivity].
  - intros Hk. destruct (N.ltb_spec k 3); [|lia]. unfold register. destruct (0 <? _)%N eqn:Ef; [|now left].
    right. eexists _, _. split; [reflexivity|]. now apply N.ltb_lt in Ef. Qed.

(** When the faces do not change, a failed registration that was attempted less than four times is
    sent again to the same face with the same parameters. *)

Lemma no_adl_inv c l t0 evs : Forall no_adl evs ->
  f_adl (fstate c l t0 evs) = l /\ cmds_ok l (fstate c l t0 evs).
Proof. induction evs as [|e evs IH] using rev_ind; intros H; [split; [reflexivity|intros id r; discriminate]|].
  apply Forall_app in H as [H1 H2]. inversion H2 as [|? ? He _]; subst. destruct (IH H1) as [I1 I2]. rewrite fstate_snoc.
  destruct e; try contradiction; try (apply calm_adl; [exact I|exact I1|exact I2]); cbn [fstep].
  - split; [now rewrite register_adl|]. now apply register_cmds_ok.
  - unfold on_reg_fail. destruct (get id _) as [r|] eqn:E; [|auto].
    assert (D : cmds_ok l (wf_cmds (del id (f_cmds (fstate c l t0 evs))) (f_next (fstate c l t0 evs)) (fstate c l t0 evs))).
    { intros i r'. cbn [f_cmds wf_cmds]. rewrite get_del. destruct (eqb i id); [discriminate|]. apply I2. }
    destruct (_ <? 3)%N; [|cbn [fst f_adl wf_cmds]; auto].
    split; [now rewrite register_adl|]. now apply register_cmds_ok.
  - unfold on_strat_fail. destruct (get id _); [|auto]. destruct (_ <? 3)%N; auto. Qed.

Lemma reg_face_pos c l t0 evs id r : get id (f_cmds (fstate c l t0 evs)) = Some r -> (0 < rc_face r)%N.
Proof. revert id r. induction evs as [|e evs IH] using rev_ind; [discriminate|]. intros id r. rewrite fstate_snoc.
  pose proof (@fstep_grow c _ e (fstate_wfid c l t0 evs)) as (G1 & G2 & G3 & G4 & G5). rewrite answered_next in *.
  intros Hg. destruct (Nat.lt_ge_cases id (f_next (fstate c l t0 evs))) as [L|L].
  { destruct (G2 id L) as [E _]. rewrite E in Hg. apply answered_get in Hg. eauto. }
  destruct (Nat.lt_ge_cases id (f_next (fst (fstep c (fstate c l t0 evs) e)))) as [L'|L'].
  2:{ destruct (G4 id L') as [E _]. congruence. }
  destruct (G3 id L L') as [(r' & A & _ & C & _)|(r' & _ & B & _)]; [|congruence].
  rewrite A in Hg. injection Hg as <-. clear - C.
  assert (P : forall x, In x (snd (fstep c (fstate c l t0 evs) e)) -> match x with FReg _ _ f _ _ _ => (0 < f)%N | _ => True end).
  { intros x Hx. pose proof (fstate_tab_ok c l t0 evs) as Hok. set (s := fstate c l t0 evs) in *.
    assert (Rg : forall n u cost ttl fl k s x, In x (snd (register n u cost ttl fl k s)) ->
       match x with FReg _ _ f _ _ _ => (0 < f)%N | _ => True end).
    { clear. intros n u cost ttl fl k s x. unfold register. destruct (0 <? _)%N eqn:E; [|intros []].
      intros [<-|[]]. now apply N.ltb_lt in E. }
    assert (An : match anon x with FReg _ _ f _ _ _ => (0 < f)%N | _ => True end ->
                 match x with FReg _ _ f _ _ _ => (0 < f)%N | _ => True end) by (destruct x; auto).
    destruct e; cbn [fstep] in Hx.
    - apply An. apply in_anon in Hx. pose proof (@fib_update_spec c n hops flags s Hok) as (_ & _ & _ & U4 & U5).
      destruct (hops_to_add c hops) as [|y new] eqn:En.
      + specialize (U5 eq_refl). apply (f_equal snd) in U5. cbn [snd] in U5. rewrite U5 in Hx.
        unfold fib_remove in Hx. destruct (get n (f_tab s)); [|destruct Hx]. destruct (not_neighbor n s); [|destruct Hx].
        cbn [snd] in Hx. rewrite unregisters, unregs_anon in Hx. apply in_unregs_iff in Hx as (u & _ & _ & E). now rewrite E.
      + destruct (U4 ltac:(discriminate)) as (e' & _ & _ & _ & _ & E). rewrite E in Hx.
        destruct (not_neighbor n s); [|destruct Hx]. apply in_app_or in Hx as [Hx|Hx].
        * apply in_regs_iff in Hx as (h & _ & Hf & E'). now rewrite E'.
        * destruct (get n (f_tab s)); [|destruct Hx]. apply in_unregs_iff in Hx as (u & _ & _ & E'). now rewrite E'.
    - unfold fib_remove in Hx. destruct (get n (f_tab s)); [|destruct Hx]. destruct (not_neighbor n s); [|destruct Hx].
      cbn [snd] in Hx. rewrite unregisters in Hx. apply in_unregs_iff in Hx as (u & _ & _ & E). now rewrite E.
    - eapply Rg; eauto.
    - destruct Hx as [<-|[]]. exact I.
    - apply An. apply in_anon in Hx.
      destruct (refresh_spec c n s) as (_ & _ & _ & [(_ & B2 & _)|(e & due & flags & B1 & B2 & _ & _ & B5)]).
      + rewrite B2 in Hx. destruct Hx.
      + rewrite B5 in Hx. apply in_regs_iff in Hx as (h & _ & Hf & E'). now rewrite E'.
    - unfold on_reg_ok in Hx. destruct (get id0 (f_cmds s)); [|destruct Hx]. destruct Hx as [<-|[]]. exact I.
    - unfold on_reg_fail in Hx. destruct (get id0 (f_cmds s)); [|destruct Hx]. destruct (_ <? 3)%N; [|destruct Hx].
      eapply Rg; eauto.
    - destruct Hx.
    - unfold on_strat_fail in Hx. destruct (get id0 (f_scmds s)); [|destruct Hx]. destruct (_ <? 3)%N; [|destruct Hx].
      destruct Hx as [<-|[]]. exact I.
    - destruct Hx.
    - destruct Hx. }
  exact (P _ C). Qed.

Theorem C38_same c l t0 evs id n f cost ttl flags k :
  Forall no_adl evs -> Forall (fun e => ~ answers id e) evs ->
  In (FReg id n f cost ttl flags) (fouts c l t0 evs) -> get id (attempts c l t0 evs) = Some k -> (k < 4)%nat ->
  exists id', fsent c l t0 evs (FvRegFail id) = [FReg id' n f cost ttl flags].
Proof. intros Hl Ha Hi Hk K. destruct (@awaited c l t0 evs id Ha) as [A _]. destruct (A _ _ _ _ _ Hi) as (u & j & E).
  destruct (att_all c l t0 evs) as (I1 & _ & _). pose proof (I1 id _ E) as Ek. cbn [rc_times] in Ek.
  destruct (@no_adl_inv c l t0 evs Hl) as [L1 L2]. pose proof (L2 id _ E) as Ef. cbn [rc_uri rc_face] in Ef.
  pose proof (@reg_face_pos c l t0 evs id _ E) as Ep. cbn [rc_face] in Ep.
  unfold fsent. cbn [fstep]. unfold on_reg_fail. rewrite E. cbn [rc_times rc_name rc_uri rc_cost rc_ttl rc_flags].
  destruct (N.ltb_spec j 3); [|rewrite Hk in Ek; injection Ek; lia].
  unfold register. cbn [f_adl wf_cmds]. rewrite L1, Ef. destruct (N.ltb_spec 0 f); [|lia]. eexists. reflexivity. Qed.

(** The same for the strategy commands. *)
Theorem C38_strategy c l t0 evs id n st :
  Forall (fun e => ~ answers id e) evs -> In (FStrategy id n st) (fouts c l t0 evs) ->
  exists k, get id (attempts c l t0 evs) = Some k /\
    (k = 4%nat -> fsent c l t0 evs (FvStratFail id) = []) /\
    ((k < 4)%nat -> exists id', fsent c l t0 evs (FvStratFail id) = [FStrategy id' n st]).
Proof. intros Ha Hi. destruct (@awaited c l t0 evs id Ha) as [_ A]. destruct (A _ _ Hi) as (k & E).
  destruct (att_all c l t0 evs) as (_ & I1 & I3). pose proof (I1 id _ E) as Ek. cbn [sc_count] in Ek.
  exists (S (N.to_nat k)). split; [exact Ek|]. unfold fsent. cbn [fstep]. unfold on_strat_fail. rewrite E. cbn [sc_count sc_name sc_strategy].
  apply I3 in Ek as [Ek _]. split.
  - intros E4. destruct (N.ltb_spec k 3); [lia|reflexivity].
  - intros Hk. destruct (N.ltb_spec k 3); [|lia]. eexists. reflexivity. Qed.

Example C38_ex :
  let evs := [FvUpdate pX [hX "udp4://2" 3] 1; FvRegFail 0; FvRegFail 1; FvRegFail 2]%string in
  Forall no_adl evs /\ Forall (fun e => ~ answers 3 e) evs /\
  fouts fcX adlX 0 evs = [FReg 0 pX 8 3 3610000 1; FReg 1 pX 8 3 3610000 1; FReg 2 pX 8 3 3610000 1; FReg 3 pX 8 3 3610000 1] /\
  map snd (attempts fcX adlX 0 evs) = [1; 2; 3; 4]%nat /\ fsent fcX adlX 0 evs (FvRegFail 3) = [].
Proof. cbv zeta. split; [repeat constructor|]. split; [repeat constructor; simpl; intuition discriminate|].
  split; [vm_compute; reflexivity|]. split; vm_compute; reflexivity. Qed.

Print Assumptions C37_driven.
Print Assumptions C37_history.
Print Assumptions C38_bound.
Print Assumptions C38_numbered.
Print Assumptions C38_retry.
Print Assumptions C38_same.
Print Assumptions C38_strategy.
