(** The routing table over a run of the router. *)
From Coq Require Import Sorting.Permutation.
From Verif Require Import Base M_Nexthop M_Tlv M_Adj M_Lsa M_Lsdb L_Lsdb S_Lsdb L_Lsdb2 L_Lsdb3 L_Lsdb6 M_LinkState M_Hyperbolic M_RoutingTable
  M_Npt S_Npt L_Npt4 M_Fib S_Pipe M_Prefix M_Hello M_Router S_Router L_Router L_Router2 L_Router3.
Open Scope Z_scope.
Set Implicit Arguments.

Section R.
Variables (c : conf) (maxf : N) (interval : Z).
Variable ang : list Z -> list Z -> Z.
Variable dst : Z -> Z -> Z -> Z.
Notation self := (c_self c).
Notation hy := (c_hyp c).
Notation rstep := (rt_step self maxf hy interval ang dst).
Notation rrun := (rt_run self maxf hy interval ang dst).

Definition rt_ok (s : rts) : Prop :=
  rt_busy s = false /\ (length (rt_pend s) <= 1)%nat /\ (rt_sched s = true <-> rt_pend s <> []).
Definition is_calc (e : rtev) : bool := match e with RvCalc _ _ _ => true | _ => false end.
Definition wants (x : kind * lsa) : bool :=
  match fst x with
  | KRemoved => false
  | _ => (eqb (l_type (snd x)) TAdj && negb (eqb hy HOn)) || (eqb (l_type (snd x)) TCoord && negb (eqb hy HOff))
  end.
Definition asks (e : rtev) : bool :=
  match e with RvNotify k l _ => wants (k, l) | RvSchedule _ => true | RvCalc _ _ _ => false end.
Definition drops (x : kind * lsa) : bool :=
  match fst x with KRemoved => eqb (l_key (snd x)) (self, TAdj) | _ => false end.

Lemma own_key l : eqb (l_origin l) self && eqb (l_type l) TAdj = eqb (l_key l) (self, TAdj).
Proof.
  unfold l_key. destruct (eq_dec (l_origin l, l_type l) (self, TAdj)) as [E|E].
  - rewrite E. injection E as -> ->. now rewrite !eqb_refl.
  - destruct (eq_dec (l_origin l) self) as [E1|E1], (eq_dec (l_type l) TAdj) as [E2|E2].
    + exfalso. apply E. congruence.
    + transitivity false; [|symmetry; destruct (eqb _ _) eqn:X; [apply eqb_eq in X; contradiction|reflexivity]].
      destruct (eqb (l_type l) TAdj) eqn:X; [apply eqb_eq in X; contradiction|apply Bool.andb_false_r].
    + transitivity false; [|symmetry; destruct (eqb _ _) eqn:X; [apply eqb_eq in X; contradiction|reflexivity]].
      destruct (eqb (l_origin l) self) eqn:X; [apply eqb_eq in X; contradiction|reflexivity].
    + transitivity false; [|symmetry; destruct (eqb _ _) eqn:X; [apply eqb_eq in X; contradiction|reflexivity]].
      destruct (eqb (l_origin l) self) eqn:X; [apply eqb_eq in X; contradiction|reflexivity].
Qed.

Lemma schedule_ok now s : rt_ok s -> rt_ok (rt_schedule interval now s) /\ rt_pend (rt_schedule interval now s) <> [] /\
  rt_tab (rt_schedule interval now s) = rt_tab s /\ rt_own (rt_schedule interval now s) = rt_own s /\
  (rt_pend s <> [] -> rt_pend (rt_schedule interval now s) = rt_pend s).
Proof.
  intros Ok0. pose proof Ok0 as (B & L & S). unfold rt_schedule. destruct (rt_sched s) eqn:E.
  - split; [exact Ok0|]. split; [now apply S|auto].
  - assert (P : rt_pend s = []) by (destruct (rt_pend s); [reflexivity|]; assert (false = true) by (apply S; discriminate); discriminate).
    rewrite P. cbn. split.
    { split; [exact B|]. cbn. split; [lia|]. split; [discriminate|reflexivity]. }
    split; [discriminate|]. split; [reflexivity|]. split; [reflexivity|]. intros H. contradiction.
Qed.

Lemma step_nocalc e s s' o : rstep e s = Ok (s', o) -> is_calc e = false -> rt_ok s ->
  rt_ok s' /\ (rt_pend s <> [] -> rt_pend s' = rt_pend s) /\ (asks e = true -> rt_pend s' <> []) /\
  (asks e = false -> rt_pend s' = rt_pend s) /\
  rt_own s' = fold_left (own_after c) (rt_notes [e]) (rt_own s) /\
  rt_tab s' = (if existsb drops (rt_notes [e]) then [] else rt_tab s) /\
  tables o = (if existsb drops (rt_notes [e]) then [[]] else []).
Proof.
  intros E C Ok0. destruct e as [k l now|now|i now v]; [| |discriminate]; cbn [rt_step rt_notes flat_map app fold_left existsb asks] in *.
  - injection E as E. unfold rt_notify in E. rewrite own_key in E. unfold own_after, drops. cbn [fst snd].
    set (s1o := match k with
         | KInstalled => _ | KUpdated => _ | KRemoved => _ end) in E.
    assert (X : rt_ok (fst s1o) /\ rt_pend (fst s1o) = rt_pend s /\
      rt_own (fst s1o) = (if eqb (l_key l) (self, TAdj) then match k with KInstalled => true | KUpdated => rt_own s | KRemoved => false end else rt_own s) /\
      rt_tab (fst s1o) = (if match k with KRemoved => eqb (l_key l) (self, TAdj) | _ => false end || false then [] else rt_tab s) /\
      tables (snd s1o) = (if match k with KRemoved => eqb (l_key l) (self, TAdj) | _ => false end || false then [[]] else [])).
    { unfold s1o. destruct k; destruct (eqb (l_key l) (self, TAdj)); cbn; auto. }
    destruct s1o as [s1 o1]. cbn [fst snd] in X. destruct X as (X1 & X2 & X3 & X4 & X5).
    fold (wants (k, l)) in E. assert (W : wants (k, l) = match k with
              | KRemoved => false
              | _ => (eqb (l_type l) TAdj && negb (eqb hy HOn)) || (eqb (l_type l) TCoord && negb (eqb hy HOff))
              end) by reflexivity.
    rewrite <- W in E. destruct (schedule_ok now X1) as (Y1 & Y2 & Y3 & Y4 & Y5).
    destruct (wants (k, l)); injection E as <- <-; rewrite <- ?X2, <- ?X3, <- ?X4, <- ?X5, ?Y3, ?Y4.
    + split; [exact Y1|]. split; [exact Y5|]. split; [auto|]. split; [discriminate|auto].
    + split; [exact X1|]. split; [auto|]. split; [discriminate|auto].
  - injection E as <- <-. destruct (schedule_ok now Ok0) as (Y1 & Y2 & Y3 & Y4 & Y5).
    rewrite Y3, Y4. split; [exact Y1|]. split; [exact Y5|]. split; [auto|]. split; [discriminate|auto].
Qed.

Lemma rt_notes_cons e es : rt_notes (e :: es) = rt_notes [e] ++ rt_notes es.
Proof. unfold rt_notes. cbn [flat_map]. now rewrite app_nil_r. Qed.
Lemma tables_app a b : tables (a ++ b) = tables a ++ tables b.
Proof. apply map_app. Qed.

Lemma run_nocalc es s s' o : rrun es s = Ok (s', o) -> existsb is_calc es = false -> rt_ok s ->
  rt_ok s' /\ (rt_pend s <> [] -> rt_pend s' = rt_pend s) /\ (existsb asks es = true -> rt_pend s' <> []) /\
  (existsb asks es = false -> rt_pend s' = rt_pend s) /\
  rt_own s' = fold_left (own_after c) (rt_notes es) (rt_own s) /\
  rt_tab s' = (if existsb drops (rt_notes es) then [] else rt_tab s).
Proof.
  revert s o. induction es as [|e es IH]; intros s o E C O.
  - injection E as <- <-. split; [exact O|]. split; [auto|]. split; [discriminate|auto].
  - cbn [rt_run] in E. destruct (rstep e s) as [[s1 o1]| |] eqn:E1; try discriminate. cbn [rbind] in E.
    destruct (rrun es s1) as [[s2 o2]| |] eqn:E2; try discriminate. injection E as <- <-.
    cbn [existsb] in C. apply Bool.orb_false_iff in C as [C1 C2].
    destruct (@step_nocalc _ _ _ _ E1 C1 O) as (A1 & A2 & A3 & A4 & A5 & A6 & _).
    destruct (IH s1 o2 E2 C2 A1) as (B1 & B2 & B3 & B4 & B5 & B6).
    split; [exact B1|]. split; [|split; [|split; [|split]]].
    + intros H. rewrite B2; [now apply A2|]. now rewrite A2.
    + cbn [existsb]. intros H. apply Bool.orb_true_iff in H as [H|H]; [|now apply B3].
      rewrite B2; now apply A3.
    + cbn [existsb]. intros H. apply Bool.orb_false_iff in H as [H1 H2]. rewrite B4, A4; auto.
    + rewrite B5, A5, (rt_notes_cons e es), fold_left_app. reflexivity.
    + rewrite B6, A6, (rt_notes_cons e es), existsb_app.
      destruct (existsb drops (rt_notes es)); [now rewrite Bool.orb_true_r|]. now rewrite Bool.orb_false_r.
Qed.

Lemma step_calc i now v s s' o due : rstep (RvCalc i now v) s = Ok (s', o) ->
  nth_error (rt_pend s) i = Some due -> due <= now -> rt_ok s ->
  rt_ok s' /\ rt_pend s' = [] /\ rt_own s' = rt_own s /\
  (hy <> HOn -> v_build v = true \/ rt_own s = false -> rt_tab s' = rt_tab s /\ o = []) /\
  (hy <> HOn -> v_build v = false -> rt_own s = true ->
     calc_link_state self maxf (adl_faces (v_adl v)) (adj_view (v_adj v)) = Ok (rt_tab s') /\ o = [RAnnounce (rt_tab s')]) /\
  (hy = HOn -> calc_hyperbolic ang dst self (v_adl v) (coord_view (v_coord v)) = Ok (rt_tab s') /\ o = [RAnnounce (rt_tab s')]).
Proof.
  intros E N D (B & L & S). cbn [rt_step] in E. rewrite N in E. destruct (Z.leb_spec due now) as [_|X]; [|lia].
  assert (P : drop_nth i (rt_pend s) = []).
  { destruct (rt_pend s) as [|d [|d' p]]; cbn in L; [destruct i; discriminate| |lia].
    destruct i as [|i]; [reflexivity|]. cbn in N. destruct i; discriminate. }
  rewrite P in E. unfold rt_calculate in E. cbn [rt_busy rt_tab rt_dry rt_sched rt_own rt_pend] in E. rewrite B in E.
  assert (Okf : forall t d w, rt_ok (Rts t d false w false [])).
  { intros. split; [reflexivity|]. cbn. split; [lia|]. split; [discriminate|intros H; contradiction]. }
  assert (LS : forall (k : rts -> outcome (rts * list rtout)),
     (forall s1, match k s1 with Ok (s2, o2) => rt_tab s2 = rt_tab s1 /\ rt_own s2 = rt_own s1 /\ rt_pend s2 = rt_pend s1 /\ o2 = [] | _ => True end) ->
     rbind (rbind (rt_calc_ls self maxf v (Rts (rt_tab s) (rt_dry s) (rt_sched s) (rt_own s) true [])) k)
       (fun s2 => Ok (Rts (rt_tab s2) (rt_dry s2) false (rt_own s2) false (rt_pend s2), [])) = Ok (s', o) ->
     rt_ok s' /\ rt_pend s' = [] /\ rt_own s' = rt_own s /\
     (v_build v = true \/ rt_own s = false -> rt_tab s' = rt_tab s /\ o = []) /\
     (v_build v = false -> rt_own s = true ->
       calc_link_state self maxf (adl_faces (v_adl v)) (adj_view (v_adj v)) = Ok (rt_tab s') /\ o = [RAnnounce (rt_tab s')])).
  { intros k Hk. unfold rt_calc_ls. cbn [rt_own rt_tab rt_dry rt_sched rt_busy rt_pend].
    destruct (v_build v) eqn:V.
    - cbn [rbind]. specialize (Hk (Rts (rt_tab s) (rt_dry s) (rt_sched s) (rt_own s) true [])).
      destruct (k _) as [[s2 o2]| |]; try discriminate. cbn [rbind app]. intros X. injection X as <- <-. cbn in *.
      destruct Hk as (H1 & H2 & H3 & ->). rewrite H3, H1, H2. split; [apply Okf|]. split; [reflexivity|].
      split; [reflexivity|]. split; [auto|discriminate].
    - destruct (rt_own s) eqn:W; cbn [negb].
      + destruct calc_link_state as [t| |]; cbn [rbind]; try discriminate.
        specialize (Hk (Rts t (rt_dry s) (rt_sched s) true true [])).
        destruct (k _) as [[s2 o2]| |]; try discriminate. cbn [rbind app]. intros X. injection X as <- <-. cbn in *.
        destruct Hk as (H1 & H2 & H3 & ->). rewrite H3, H1, H2. split; [apply Okf|]. split; [reflexivity|].
        split; [reflexivity|]. split; [intros [?|?]; discriminate|auto].
      + cbn [rbind]. specialize (Hk (Rts (rt_tab s) (rt_dry s) (rt_sched s) false true [])).
        destruct (k _) as [[s2 o2]| |]; try discriminate. cbn [rbind app]. intros X. injection X as <- <-. cbn in *.
        destruct Hk as (H1 & H2 & H3 & ->). rewrite H3, H1, H2. split; [apply Okf|]. split; [reflexivity|].
        split; [reflexivity|]. split; [auto|discriminate]. }
  assert (Rid : forall r, rbind r (fun s => Ok (s, [])) = r).
  { intros [[s1 o1]| |]; cbn; rewrite ?app_nil_r; reflexivity. }
  destruct hy eqn:Hhy.
  - rewrite <- (Rid (rt_calc_ls _ _ _ _)) in E. apply LS in E; [|intros s1; auto].
    destruct E as (E1 & E2 & E3 & E4 & E5). repeat (split; auto); try discriminate.
  - unfold rt_calc_hyp in E. cbn [rt_own rt_tab rt_dry rt_sched rt_busy rt_pend] in E.
    destruct calc_hyperbolic as [t| |]; cbn [rbind app] in E; try discriminate. injection E as <- <-.
    cbn. split; [apply Okf|]. split; [reflexivity|]. split; [reflexivity|].
    split; [congruence|]. split; [congruence|auto].
  - apply LS in E.
    + destruct E as (E1 & E2 & E3 & E4 & E5). split; [exact E1|]. split; [exact E2|]. split; [exact E3|]. split; [auto|]. split; [auto|discriminate].
    + intros s1. unfold rt_calc_hyp. destruct calc_hyperbolic; cbn; auto.
Qed.

(** The table in use is the one announced last. *)
Definition last_table (ts : list rtable) (t : rtable) : rtable := fold_left (fun _ x => x) ts t.

Lemma step_table e s s' o : rt_ok s -> rstep e s = Ok (s', o) -> rt_ok s' /\ rt_tab s' = last_table (tables o) (rt_tab s).
Proof.
  intros O E. destruct (is_calc e) eqn:C.
  - destruct e as [| |i now v]; try discriminate.
    destruct (nth_error (rt_pend s) i) as [due|] eqn:N; [destruct (Z.leb_spec due now) as [L|L]|].
    + destruct (@step_calc _ _ _ _ _ _ _ E N L O) as (A1 & _ & _ & A4 & A5 & A6). split; [exact A1|].
      destruct (eq_dec hy HOn) as [H|H]; [destruct (A6 H) as [_ ->]; reflexivity|].
      destruct (v_build v) eqn:V; [destruct (A4 H (or_introl eq_refl)) as [-> ->]; reflexivity|].
      destruct (rt_own s) eqn:W; [|destruct (A4 H (or_intror eq_refl)) as [-> ->]; reflexivity].
      destruct (A5 H eq_refl eq_refl) as [_ ->]. reflexivity.
    + cbn [rt_step] in E. rewrite N in E. destruct (Z.leb_spec due now); [lia|]. now injection E as <- <-.
    + cbn [rt_step] in E. rewrite N in E. now injection E as <- <-.
  - destruct (@step_nocalc _ _ _ _ E C O) as (A1 & _ & _ & _ & _ & A6 & A7). split; [exact A1|]. rewrite A6, A7.
    now destruct existsb.
Qed.
Lemma run_table es s s' o : rt_ok s -> rrun es s = Ok (s', o) -> rt_ok s' /\ rt_tab s' = last_table (tables o) (rt_tab s).
Proof.
  revert s o. induction es as [|e es IH]; intros s o O E; [injection E as <- <-; auto|]. cbn [rt_run] in E.
  destruct (rstep e s) as [[s1 o1]| |] eqn:E1; try discriminate. cbn [rbind] in E.
  destruct (rrun es s1) as [[s2 o2]| |] eqn:E2; try discriminate. injection E as <- <-.
  destruct (@step_table _ _ _ _ O E1) as [O1 T1]. destruct (IH _ _ O1 E2) as [O2 T2]. split; [exact O2|].
  rewrite T2, T1, tables_app. unfold last_table. now rewrite fold_left_app.
Qed.
End R.
