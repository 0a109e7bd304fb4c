(** The routing table of the router and its database: what holds in every state of every run. *)
From Coq Require Import Sorting.Permutation.
From Verif Require Import Base M_Nexthop M_Tlv M_Adj M_Lsa M_Lsdb L_Lsdb S_Lsdb L_Lsdb2 L_Lsdb3 L_Lsdb6 M_LinkState M_Hyperbolic M_RoutingTable
  M_Npt S_Npt L_Npt4 M_Fib S_Pipe M_Prefix M_Hello S_Hello L_Hello M_Router S_Router L_Router L_Router2 L_Router3 L_Router4.
Open Scope Z_scope.
Set Implicit Arguments.

Section L.
Variables (c : gconf) (uri_of : name -> string) (ang : list Z -> list Z -> Z) (dst : Z -> Z -> Z -> Z).
Notation self := (c_self (gc c)).
Notation hy := (c_hyp (gc c)).

(** *** Which modules a call reaches *)

Definition all (P : glog -> Prop) (f : gact) : Prop := forall g x, In x (snd (f g)) -> P x.
Lemma all_ret P : all P gret. Proof. intros g x []. Qed.
Lemma all_dead P : all P (fun g => (gw_dead g, [])). Proof. intros g x []. Qed.
Lemma seq_all (P : glog -> Prop) (f h : gact) g : (forall x, In x (snd (f g)) -> P x) -> all P h -> forall x, In x (snd (gseq f h g)) -> P x.
Proof.
  intros F H x. unfold gseq. destruct (f g) as [g1 o1]. specialize (H g1). destruct (h g1) as [g2 o2]. cbn [snd] in *.
  intros X. apply in_app_or in X as [X|X]; auto.
Qed.
Lemma all_seq P f h : all P f -> all P h -> all P (gseq f h).
Proof. intros F H g. exact (@seq_all P f h g (F g) H). Qed.
Lemma all_each A P (f : A -> gact) l : (forall x, all P (f x)) -> all P (geach f l).
Proof. intros F. induction l; [apply all_ret|]. now apply all_seq. Qed.
Lemma all_live (P : glog -> Prop) (f : gact) : (forall g, g_dead g = false -> forall x, In x (snd (f g)) -> P x) -> all P (live f).
Proof. intros F g. unfold live. destruct (g_dead g) eqn:E; [intros x []|now apply F]. Qed.
Lemma in_cons_map A (f : A -> glog) (P : glog -> Prop) y (l : list A) : P y -> (forall a, P (f a)) -> forall x, In x (y :: map f l) -> P x.
Proof. intros H1 H2 x [<-|H]; [exact H1|]. apply in_map_iff in H as (a & <- & _). apply H2. Qed.

Definition fibP (x : glog) : Prop := match x with CNpt _ | XNpt _ | CFib _ | XFib _ | XUb => True | _ => False end.
Definition calcP (x : glog) : Prop := match x with CRt e => is_calc e = false | _ => True end.

Lemma fib_fibP e : all fibP (call_fib c e).
Proof. apply all_live. intros g _. destruct fstep. apply in_cons_map; cbn; auto. Qed.
Lemma npt_fibP e : all fibP (call_npt c e).
Proof.
  apply all_live. intros g _. destruct nstep as [[n o]| |]; try (intros x [<-|[]]; exact I).
  apply seq_all; [apply in_cons_map; cbn; auto|]. apply all_each. intros []; apply fib_fibP.
Qed.
Lemma weaken (P Q : glog -> Prop) f : (forall x, P x -> Q x) -> all P f -> all Q f.
Proof. intros H F g x X. apply H. eapply F; eauto. Qed.
Lemma fib_calc x : fibP x -> calcP x. Proof. destruct x; cbn; auto; contradiction. Qed.

Lemma rt_calcP i e : is_calc e = false -> all calcP (call_rt c ang dst i e).
Proof.
  intros C. apply all_live. intros g _. destruct rt_step as [[n o]| |]; try (intros x [<-|[]]; exact I).
  apply seq_all; [apply in_cons_map; cbn; auto|]. apply all_each. intros []. eapply weaken; [apply fib_calc|apply npt_fibP].
Qed.
Lemma strategy_calcP o : all calcP (register_strategy c o).
Proof.
  apply all_live. intros g _. destruct existsb; [intros x []|]. eapply weaken; [apply fib_calc|]. 
  apply all_each. intros. apply fib_fibP.
Qed.
Lemma pre_calcP i x : all calcP (call_pre c uri_of ang dst i x).
Proof.
  apply all_live. intros g _. destruct pstep as [p o]. apply seq_all; [apply in_cons_map; cbn; auto|].
  apply all_each. intros [[]|]; cbn [pre_out]; try apply all_ret; try apply all_dead; try apply strategy_calcP.
  apply all_live. intros g1 _. apply seq_all; [now apply rt_calcP|]. eapply weaken; [apply fib_calc|apply npt_fibP].
Qed.
Lemma hello_calcP i x : all calcP (call_hello c uri_of ang dst i x).
Proof.
  apply all_live. intros g _. destruct hstep as [p o]. apply seq_all; [apply in_cons_map; cbn; auto|].
  apply all_seq; [eapply weaken; [apply fib_calc|apply fib_fibP]|].
  apply all_each. intros []; cbn [hello_out]; try apply all_ret; try apply all_dead.
  - apply all_live. intros g1 _. apply pre_calcP.
  - apply all_live. intros g1 _. now apply rt_calcP.
  - eapply weaken; [apply fib_calc|apply fib_fibP].
Qed.

(** A step either runs a due calculation or runs none. *)
Lemma step_cases g x : g_dead g = false ->
  (forall y, In y (snd (gstep c uri_of ang dst g x)) -> calcP y) \/
  (exists k due, snd x = GvCalc k /\ nth_error (rt_pend (g_rt g)) k = Some due /\ due <= g_now g /\
     gstep c uri_of ang dst g x = call_rt c ang dst (fst x) (RvCalc k (g_now g) (calc_view (fst x) g)) g).
Proof.
  intros D. destruct x as [i v]. unfold gstep, live. rewrite D. cbn [fst snd].
  destruct v as [d|x|m w|x|x|k]; cbn [gstep_live]; try (left; intros y; fail).
  - left. apply seq_all; [apply pre_calcP|]. intros g1. eapply weaken; [apply fib_calc|apply fib_fibP].
  - left. destruct x; try (intros y []); apply pre_calcP.
  - left. apply pre_calcP.
  - left. destruct x; try (intros y []); apply hello_calcP.
  - left. destruct x; try (intros y []); try (eapply weaken; [apply fib_calc|apply fib_fibP]).
    destruct get; [|intros y []]. apply seq_all; [eapply weaken; [apply fib_calc|apply fib_fibP]|].
    apply all_seq; apply hello_calcP.
  - destruct nth_error as [due|] eqn:N; [|left; intros y []]. destruct (Z.leb_spec due (g_now g)) as [L|L]; [|left; intros y []].
    right. exists k, due. auto.
Qed.

Lemma calc_log t : (forall y, In y t -> calcP y) -> existsb is_calc (rtevs t) = false.
Proof.
  intros H. destruct (existsb is_calc (rtevs t)) eqn:E; [|reflexivity]. apply existsb_exists in E as (e & He & C).
  unfold rtevs in He. apply in_flat_map in He as (x & Hx & He). specialize (H x Hx). destruct x; try destruct He.
  - subst. cbn in H. congruence.
  - contradiction.
Qed.

(** *** The adjacency list keeps its neighbours and faces *)

Lemma hrun_inv s xs : hinv (hconf_of c) s -> hinv (hconf_of c) (fst (run (hstep (hconf_of c)) s xs)) /\
  map stat (h_adl (fst (run (hstep (hconf_of c)) s xs))) = map stat (h_adl s).
Proof.
  revert s. induction xs as [|x xs IH]; intros s I; [auto|]. cbn [run].
  destruct (hstep_inv x I) as [E I1]. destruct (hstep (hconf_of c) s x) as [s1 o1]. cbn [fst] in *.
  specialize (IH s1 I1). destruct (run _ s1 xs) as [s2 o2]. cbn [fst] in *. destruct IH. split; congruence || assumption.
Qed.
Lemma stat_faces l l' : map stat l = map stat l' -> adl_faces l = adl_faces l'.
Proof.
  intros E. unfold adl_faces.
  assert (X : forall l : adl, map (fun a => (a_name a, a_uri a)) l = map (fun y => fst y) (map stat l)).
  { intros m. rewrite map_map. reflexivity. }
  now rewrite !X, E.
Qed.

(** *** Pieces of a trace *)

Lemma calm_true t b : (forall y, In y t -> calcP y) -> fold_left (calm1 self) t b = true ->
  b = true /\ forall l, In (KRemoved, l) (map two (out_notes (db_outs t))) -> l_type l = TAdj -> l_origin l = self.
Proof.
  revert b. induction t as [|x t IH]; intros b Hc H; [split; [exact H|intros l []]|].
  cbn [fold_left] in H. apply IH in H as [H1 H2]; [|intros y Hy; apply Hc; now right].
  specialize (Hc x (or_introl eq_refl)).
  assert (Skip : calm1 self b x = b -> out_notes (db_outs [x]) = [] -> 
    b = true /\ forall l, In (KRemoved, l) (map two (out_notes (db_outs (x :: t)))) -> l_type l = TAdj -> l_origin l = self).
  { intros E1 E2. rewrite E1 in H1. split; [exact H1|]. intros l Hl. apply H2. 
    change (x :: t) with ([x] ++ t) in Hl. unfold db_outs, pouts, out_notes in *. rewrite !flat_map_app in Hl. rewrite E2 in Hl. exact Hl. }
  destruct x as [| |e| | |o| | | | |]; try (apply Skip; reflexivity).
  - destruct e; try (apply Skip; reflexivity). discriminate.
  - destruct o as [o|]; [|apply Skip; reflexivity]. destruct o; try (apply Skip; reflexivity).
    destruct k; cbn [calm1] in H1.
    + split; [exact H1|]. intros l' [Hl|Hl]; [discriminate|]. now apply H2.
    + split; [exact H1|]. intros l' [Hl|Hl]; [discriminate|]. now apply H2.
    + apply Bool.andb_true_iff in H1 as [H1 H3]. split; [exact H1|]. intros l' [Hl|Hl]; [|now apply H2].
      cbn in Hl. injection Hl as <-. intros T. destruct (eqb (l_type l) TAdj) eqn:E1.
      * cbn in H3. destruct (eqb (l_origin l) self) eqn:E2; [apply eqb_eq in E2; exact E2|discriminate].
      * rewrite T in E1. discriminate.
Qed.

Lemma fib_quiet t : (forall y, In y t -> fibP y) ->
  pres t = [] /\ pouts t = [] /\ hellos t = [] /\ rtevs t = [] /\ rtouts t = [] /\ forall b, fold_left (calm1 self) t b = b.
Proof.
  induction t as [|x t IH]; intros H; [repeat split; reflexivity|].
  destruct IH as (A1 & A2 & A3 & A4 & A5 & A6); [intros y Hy; apply H; now right|].
  specialize (H x (or_introl eq_refl)).
  unfold pres, pouts, hellos, rtevs, rtouts in *. cbn [flat_map]. rewrite A1, A2, A3, A4, A5.
  destruct x; try destruct H; repeat split; intros b; cbn [fold_left calm1]; apply A6.
Qed.

Lemma seq_trace (f h : gact) g : snd (gseq f h g) = snd (f g) ++ snd (h (fst (f g))).
Proof. unfold gseq. destruct (f g) as [g1 o1]. cbn. destruct (h g1). reflexivity. Qed.

(** The trace of a calculation. *)
Lemma calc_trace i k now v g : g_dead g = false -> g_dead (fst (call_rt c ang dst i (RvCalc k now v) g)) = false ->
  let t := snd (call_rt c ang dst i (RvCalc k now v) g) in
  pres t = [] /\ pouts t = [] /\ hellos t = [] /\ rtevs t = [RvCalc k now v] /\
  forall b, fold_left (calm1 self) t b = negb (v_build v).
Proof.
  intros D D' t. unfold t in *. clear t. unfold call_rt, live in *. rewrite D in *.
  destruct (rt_step _ _ _ _ _ _ _ _) as [[r o]| |]; try discriminate.
  set (h := geach (rt_out c i) o). rewrite seq_trace. cbn [fst snd].
  assert (F : forall y, In y (snd (h (gw_rt r g))) -> fibP y).
  { apply (all_each (P := fibP)). intros []. apply npt_fibP. }
  destruct (fib_quiet _ F) as (A1 & A2 & A3 & A4 & A5 & A6).
  unfold pres, pouts, hellos, rtevs, rtouts in *. rewrite !flat_map_app, A1, A2, A3, A4, !app_nil_r. cbn [flat_map app].
  repeat (erewrite map_flat; [|intros; reflexivity]). rewrite !flat_none. repeat split. intros b.
  cbn [fold_left calm1]. rewrite fold_left_app, A6. generalize (negb (v_build v)). clear.
  induction o as [|x o IH]; intros b; [reflexivity|]. cbn [map fold_left calm1]. apply IH.
Qed.

(** *** The invariant *)

Record J (nbs : adl) (g : router) (t : list glog) : Prop :=
  { j_db : invS None (g_db g);
    j_h : hinv (hconf_of c) (g_h g);
    j_adl : map stat (h_adl (g_h g)) = map stat nbs;
    j_rt : rt_ok (g_rt g);
    j_own : rt_own (g_rt g) = present (gc c) (g_db g);
    j_off : hy <> HOn -> rt_own (g_rt g) = false -> rt_tab (g_rt g) = [];
    j_tab : hy <> HOn -> calm self t = true -> rt_pend (g_rt g) = [] -> rt_own (g_rt g) = true ->
      exists L, Permutation L (adj_view (adj_lsas (g_db g))) /\
        calc_link_state self (gc_max c) (adl_faces nbs) L = Ok (rt_tab (g_rt g)) }.

Lemma dbo_db t : db_outs t = dbo (pouts t).
Proof. reflexivity. Qed.

Lemma asks_note e es : In e es -> asks (gc c) e = true -> existsb (asks (gc c)) es = true.
Proof. intros H A. apply existsb_exists. eauto. Qed.

Lemma note_asks x es : In x (rt_notes es) -> wants (gc c) x = true -> existsb (asks (gc c)) es = true.
Proof.
  unfold rt_notes. rewrite in_flat_map. intros (e & He & Hx) W. apply existsb_exists. exists e. split; [exact He|].
  destruct e; try destruct Hx. - subst. exact W. - contradiction.
Qed.

Lemma J_step nbs g t x : J nbs g t -> g_dead (fst (gstep c uri_of ang dst g x)) = false ->
  J nbs (fst (gstep c uri_of ang dst g x)) (t ++ snd (gstep c uri_of ang dst g x)).
Proof.
  intros I D'. assert (D : g_dead g = false).
  { destruct (g_dead g) eqn:E; [|reflexivity]. now rewrite (t_dead (good_step c uri_of ang dst x g) E) in D'. }
  pose proof (good_step c uri_of ang dst x g) as T.
  assert (F : fifo qnil qnil (snd (gstep c uri_of ang dst g x))).
  { pose proof (@conn_run c uri_of ang dst [x] g) as F. cbn [run] in F. 
    destruct (gstep c uri_of ang dst g x) as [g' t']. cbn in *. rewrite app_nil_r in F. now apply F. }
  destruct (@step_cases g x D) as [C|(k & due & _ & N & Hd & E)].
  - destruct (gstep c uri_of ang dst g x) as [g' u]. cbn [fst snd] in *.
    destruct (prun_steps (gc c) uri_of (pres u) (g_pre g)) as (ys & Ry & _).
    rewrite (t_pre T) in Ry. cbn [fst snd] in Ry. rewrite <- (dbo_db u) in Ry.
    pose proof (@db_run (gc c) ys (g_db g) (j_db I)) as Db. change (p_db (g_pre g)) with (g_db g) in Ry. rewrite Ry in Db. cbn [fst snd] in Db.
    destruct Db as (Db1 & Db2 & Db3).
    destruct (@run_nocalc (gc c) (gc_max c) (gc_calc c) ang dst _ _ _ _ (t_rt T) (calc_log _ C) (j_rt I)) as (A1 & A2 & A3 & A4 & A5 & A6).
    pose proof (y_r F) as Y. cbn [qnil q_r app] in Y. rewrite app_nil_r in Y.
    destruct (hrun_inv (hellos u) (j_h I)) as [H1 H2]. rewrite (t_h T) in H1, H2. cbn [fst] in H1, H2.
    split; auto.
    + rewrite H2. apply (j_adl I).
    + rewrite A5, <- Y, (j_own I). symmetry. exact Db2.
    + intros Hy. rewrite A5, A6, <- Y. intros W. destruct (existsb (drops (gc c)) (map two (out_notes (db_outs u)))) eqn:X; [reflexivity|].
      apply (j_off I Hy). revert W X. generalize (rt_own (g_rt g)). generalize (map two (out_notes (db_outs u))). clear.
      induction l as [|y l IH]; intros b W X; [exact W|]. cbn [fold_left existsb] in *. apply Bool.orb_false_iff in X as [X1 X2].
      apply IH in W; [|exact X2]. unfold own_after in W. unfold drops in X1. destruct (eqb (l_key (snd y)) _); [|exact W].
      destruct (fst y); congruence.
    + intros Hy Cm P W. unfold calm in Cm. rewrite fold_left_app in Cm. apply calm_true in Cm as [Cm1 Cm2]; [|exact C].
      assert (As : existsb (asks (gc c)) (rtevs u) = false).
      { destruct (existsb (asks (gc c)) (rtevs u)) eqn:X; [|reflexivity]. exfalso. now apply A3. }
      rewrite (A4 As) in P.
      assert (Nn : forall y, In y (map two (out_notes (db_outs u))) -> l_type (snd y) = TAdj -> drops (gc c) y = true).
      { intros [kd l] Hl Tl. cbn [snd] in Tl. assert (Wt : wants (gc c) (kd, l) = false).
        { destruct (wants (gc c) (kd, l)) eqn:X; [|reflexivity]. rewrite (@note_asks (kd, l) (rtevs u)) in As; [discriminate| |exact X]. now rewrite <- Y. }
        unfold wants in Wt. cbn [fst snd] in Wt. rewrite Tl, eqb_refl in Wt.
        assert (Z : negb (eqb hy HOn) = true). { destruct (eqb hy HOn) eqn:X; [apply eqb_eq in X; contradiction|reflexivity]. }
        rewrite Z in Wt. destruct kd; try discriminate. unfold drops. cbn [fst snd]. unfold l_key. rewrite (Cm2 l Hl Tl), Tl. apply eqb_refl. }
      assert (No : existsb (drops (gc c)) (map two (out_notes (db_outs u))) = false).
      { destruct (existsb (drops (gc c)) (map two (out_notes (db_outs u)))) eqn:X; [|reflexivity]. exfalso. rewrite A5, <- Y in W. revert W X Nn. clear.
        generalize (rt_own (g_rt g)). generalize (map two (out_notes (db_outs u))). clear.
        assert (K : forall l b, fold_left (own_after (gc c)) l b = true -> (forall y, In y l -> l_type (snd y) = TAdj -> drops (gc c) y = true) ->
           b = true /\ existsb (drops (gc c)) l = false).
        { induction l as [|y l IH]; intros b W Nn; [auto|]. cbn [fold_left existsb] in *.
          apply IH in W as [W1 W2]; [|intros z Hz; apply Nn; now right]. rewrite W2, Bool.orb_false_r.
          unfold own_after in W1. destruct (eqb (l_key (snd y)) (self, TAdj)) eqn:Ek.
          - assert (Dy : drops (gc c) y = true).
            { apply Nn; [now left|]. apply eqb_eq in Ek. unfold l_key in Ek. congruence. }
            unfold drops in Dy. destruct (fst y); congruence.
          - split; [exact W1|]. unfold drops. rewrite Ek. now destruct (fst y). }
        intros l b W X Nn. apply (K l b W) in Nn as [_ ?]. congruence. }
      rewrite A5, <- Y in W. assert (W0 : rt_own (g_rt g) = true).
      { revert W No. generalize (rt_own (g_rt g)). generalize Nn. generalize (map two (out_notes (db_outs u))). clear.
        induction l as [|y l IH]; intros Nn b W No; [exact W|]. cbn [fold_left existsb] in *. apply Bool.orb_false_iff in No as [N1 N2].
        apply IH in W; [|intros z Hz; apply Nn; now right|exact N2]. unfold own_after in W.
        destruct (eqb (l_key (snd y)) (self, TAdj)) eqn:Ek; [|exact W].
        rewrite Nn in N1; [discriminate|now left|]. apply eqb_eq in Ek. unfold l_key in Ek. congruence. }
      destruct (j_tab I Hy Cm1 P W0) as (L & PL & EL). exists L.
      rewrite A6, <- Y, No. split; [|exact EL]. etransitivity; [exact PL|].
      apply adj_same with (s := g_db g) (s' := g_db g').
      * exact (j_db I).
      * exact Db1.
      * apply Db3. intros y Hy' Ty. assert (X : existsb (drops (gc c)) (map two (out_notes (db_outs u))) = true).
        { apply existsb_exists. exists y. auto. } congruence.
      * intros l. apply In_adj_lsas.
      * exact (NoDup_adj_lsas (j_db I)).
      * intros l. apply In_adj_lsas.
      * exact (NoDup_adj_lsas Db1).
  - rewrite E in *. clear E F. destruct (@calc_trace (fst x) k (g_now g) (calc_view (fst x) g) g D D') as (B1 & B2 & B3 & B4 & B5).
    destruct (call_rt c ang dst (fst x) _ g) as [g' u]. cbn [fst snd] in *.
    destruct T as [T1 T2 T3 T4 T5 _]. rewrite B1, B2 in T1. rewrite B3 in T2. cbn [run] in T1, T2. injection T1 as T1.
    assert (T2' : g_h g' = g_h g) by congruence. clear T2. rewrite B4 in T3. cbn [rt_run] in T3.
    destruct (rt_step _ _ _ _ _ _ _ (g_rt g)) as [[r' o']| |] eqn:Es; try discriminate. cbn in T3. injection T3 as -> T3.
    destruct (@step_calc (gc c) (gc_max c) (gc_calc c) ang dst _ _ _ _ _ _ _ Es N Hd (j_rt I)) as (A1 & A2 & A3 & A4 & A5 & A6).
    assert (Ed : g_db g' = g_db g) by (unfold g_db; now rewrite T1).
    split; rewrite ?Ed, ?T2'; try apply I; auto.
    + rewrite A3. apply (j_own I).
    + intros Hy. rewrite A3. intros W. destruct (A4 Hy (or_intror W)) as [-> _]. now apply (j_off I).
    + intros Hy Cm _. rewrite A3. intros W. unfold calm in Cm. rewrite fold_left_app, B5 in Cm.
      assert (Vb : v_build (calc_view (fst x) g) = false) by (destruct (v_build _); [discriminate|reflexivity]).
      destruct (A5 Hy Vb W) as [Ec _]. cbn [calc_view v_adl v_adj] in Ec.
      rewrite (stat_faces _ _ (j_adl I)) in Ec. eexists. split; [|exact Ec].
      apply adj_same with (s := g_db g) (s' := g_db g); try exact (j_db I); auto.
      * intros l. apply In_lsas_of. exact (j_db I).
      * apply NoDup_lsas_of. exact (j_db I).
      * intros l. apply In_adj_lsas.
      * exact (NoDup_adj_lsas (j_db I)).
Qed.
End L.
