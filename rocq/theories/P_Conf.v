(** C49, C50, C67, C68: what an accepted configuration file guarantees. *)
From Verif Require Import Base M_Nexthop M_Tlv M_Adj M_Lsa M_Lsdb M_Prefix M_Sync M_Codec M_Hello M_Conf L_Hello.
Open Scope Z_scope.

(** The ranges of nlsr.conf (hello-retries: of the program; nlsr.conf:38-39 says 1-10). *)
Definition in_ranges (c : cparam) : Prop :=
  let g := cp_gen c in let n := cp_nb c in let f := cp_fib c in
  240 <= gc_refresh g <= 7200 /\ gc_refresh g < gc_dead g /\ 1 <= gc_life g <= 60 /\ 1000 <= gc_slife g <= 120000 /\
  1 <= nc_retry n <= 15 /\ 1 <= nc_resend n <= 15 /\ 30 <= nc_info n <= 90 /\ 5 <= nc_build n <= 30 /\
  (forall v, nc_tries n = Some v -> 1 <= v <= 10) /\ 1800 <= nc_fetch n <= 5400 /\
  0 <= fc_maxf f <= 60 /\ 0 <= fc_calc f <= 15.

(** The file has a section of this name. *)
Definition has (k : string) (t : ptree) : Prop := exists u, In (k, u) (pt_children t).
(** The sections of this name, in order. *)
Definition sections (k : string) (t : ptree) : list ptree :=
  flat_map (fun e => if eqb (fst e) k then [snd e] else []) (pt_children t).

Section Conf.
Variables (to_u32 to_int to_u64 to_dbl : string -> option Z).
Variable to_angles : string -> list Z.
Variable to_name : string -> option name.
Variable to_uri : string -> option uri.
Variable dir_ok : string -> bool.
Variable have : string -> bool.
Variable rules_ok : ptree -> bool.
Variable cert_ok : string -> bool.
Variable ver : comp.
Notation process := (process_conf to_u32 to_int to_u64 to_dbl to_angles to_name to_uri dir_ok have rules_ok cert_ok ver).
Notation load := (conf_load to_u32 to_int to_u64 to_dbl to_angles to_name to_uri dir_ok have rules_ok cert_ok ver).
Notation section := (conf_section to_u32 to_int to_u64 to_dbl to_angles to_name to_uri dir_ok have rules_ok cert_ok ver).
Notation general := (conf_general to_u32 to_int to_name dir_ok have ver).
Notation nb := (conf_nb to_u32 to_int to_dbl to_name to_uri).

Lemma load_inv (P : list (string * ptree) -> cparam -> Prop) ch c c' :
  (forall done k t c c', P done c -> section k t c = Some c' -> P (done ++ [(k, t)]) c') ->
  P [] c -> load ch c = Some c' -> P ch c'.
Proof using.
  intros St. enough (forall done, P done c -> load ch c = Some c' -> P (done ++ ch) c') by (intros; now apply (H [])).
  revert c. induction ch as [|[k t] ch IH]; intros c done H E; cbn [conf_load] in E.
  - injection E as <-. now rewrite app_nil_r.
  - destruct (section k t c) as [c1|] eqn:Es; [|discriminate].
    replace (done ++ (k, t) :: ch) with ((done ++ [(k, t)]) ++ ch) by (now rewrite <- app_assoc).
    eapply IH; [|exact E]. eapply St; eassumption.
Qed.

(** What a section changes. *)
Lemma section_cases k t c c' : section k t c = Some c' ->
  (k = "general"%string /\ exists g, general t (cp_gen c) = Some g /\ c' = CParam g (cp_nb c) (cp_hyp c) (cp_fib c) (cp_npl c) (cp_certs c)) \/
  (k = "neighbors"%string /\ exists n, nb t (cp_nb c) = Some n /\ c' = CParam (cp_gen c) n (cp_hyp c) (cp_fib c) (cp_npl c) (cp_certs c)) \/
  (k = "hyperbolic"%string /\ exists y, conf_hyp to_dbl to_angles t (cp_hyp c) = Some y /\ c' = CParam (cp_gen c) (cp_nb c) y (cp_fib c) (cp_npl c) (cp_certs c)) \/
  (k = "fib"%string /\ exists f, conf_fib to_u32 to_int t = Some f /\ c' = CParam (cp_gen c) (cp_nb c) (cp_hyp c) f (cp_npl c) (cp_certs c)) \/
  (k = "advertising"%string /\ exists m, conf_adv to_u64 to_name (pt_children t) (cp_npl c) = Some m /\ c' = CParam (cp_gen c) (cp_nb c) (cp_hyp c) (cp_fib c) m (cp_certs c)) \/
  (k <> "general" /\ k <> "neighbors" /\ k <> "hyperbolic" /\ k <> "fib" /\ k <> "advertising")%string /\
    exists l, c' = CParam (cp_gen c) (cp_nb c) (cp_hyp c) (cp_fib c) (cp_npl c) l.
Proof using.
  unfold conf_section. intros E.
  destruct (eqb k "general"%string) eqn:E1; [apply eqb_eq in E1|apply eqb_neq in E1].
  { left. destruct (general _ _) eqn:G; [|discriminate]. injection E as <-. eauto. }
  destruct (eqb k "neighbors"%string) eqn:E2; [apply eqb_eq in E2|apply eqb_neq in E2].
  { right. left. destruct (nb _ _) eqn:G; [|discriminate]. injection E as <-. eauto. }
  destruct (eqb k "hyperbolic"%string) eqn:E3; [apply eqb_eq in E3|apply eqb_neq in E3].
  { do 2 right. left. destruct (conf_hyp _ _ _ _) eqn:G; [|discriminate]. injection E as <-. eauto. }
  destruct (eqb k "fib"%string) eqn:E4; [apply eqb_eq in E4|apply eqb_neq in E4].
  { do 3 right. left. destruct (conf_fib _ _ _) eqn:G; [|discriminate]. injection E as <-. eauto. }
  destruct (eqb k "advertising"%string) eqn:E5; [apply eqb_eq in E5|apply eqb_neq in E5].
  { do 4 right. left. destruct (conf_adv _ _ _ _) eqn:G; [|discriminate]. injection E as <-. eauto. }
  do 5 right. split; [auto|]. destruct (eqb k "security"%string).
  - destruct (conf_sec _ _ _ _); [|discriminate]. injection E as <-. eauto.
  - injection E as <-. exists (cp_certs c). now destruct c.
Qed.

Lemma between_spec lo hi v : between lo hi v = true -> lo <= v <= hi.
Proof using. unfold between. rewrite Bool.andb_true_iff, !Z.leb_le. auto. Qed.
Lemma cvar_spec k lo hi d t v : cvar to_u32 k lo hi d t = Some v -> lo <= d <= hi -> lo <= v <= hi.
Proof using.
  unfold cvar. destruct (get_opt _ _ _) as [w|]; [|intros E; injection E as <-; auto].
  destruct (between lo hi w) eqn:B; [|discriminate]. intros E _. injection E as <-. now apply between_spec.
Qed.

Lemma general_spec t g g' : general t g = Some g' ->
  gc_network g' <> [] /\ gc_site g' <> [] /\ gc_router g' <> [] /\
  gc_lsap g' = gc_lsap g ++ lsa_prefix (gc_network g') /\
  240 <= gc_refresh g' <= 7200 /\ gc_refresh g' < gc_dead g' /\ 1 <= gc_life g' <= 60 /\ 1000 <= gc_slife g' <= 120000.
Proof using.
  unfold conf_general. intros E.
  repeat (match type of E with
          | (if ?b then _ else _) = _ => let B := fresh "B" in destruct b eqn:B; [|discriminate]
          | match ?m with Some _ => _ | None => _ end = _ => let B := fresh "A" in destruct m eqn:B; [|discriminate]
          | (let x := ?v in _) = _ => cbv zeta in E
          end).
  injection E as <-. cbn [gc_network gc_site gc_router gc_lsap gc_refresh gc_dead gc_life gc_slife].
  repeat match goal with H : between _ _ _ = true |- _ => apply between_spec in H end.
  repeat match goal with H : negb (eqb ?x []) = true |- _ => apply Bool.negb_true_iff in H; apply eqb_neq in H end.
  match goal with H : (_ <? _) = true |- _ => apply Z.ltb_lt in H end. auto 10.
Qed.

Lemma nb_spec t n n' : nb t n = Some n' ->
  1 <= nc_retry n' <= 15 /\ 1 <= nc_resend n' <= 15 /\ 30 <= nc_info n' <= 90 /\ 5 <= nc_build n' <= 30 /\
  (exists v, nc_tries n' = Some v /\ 1 <= v <= 10) /\ 1800 <= nc_fetch n' <= 5400 /\
  conf_neighbors to_dbl to_name to_uri (pt_children t) (nc_adl n) = Some (nc_adl n').
Proof using.
  unfold conf_nb. intros E.
  repeat (match type of E with
          | (if ?b then _ else _) = _ => let B := fresh "B" in destruct b eqn:B; [|discriminate]
          | match ?m with Some _ => _ | None => _ end = _ => let B := fresh "A" in destruct m eqn:B; [|discriminate]
          | (let x := ?v in _) = _ => cbv zeta in E
          end).
  injection E as <-. cbn [nc_retry nc_resend nc_info nc_build nc_tries nc_fetch nc_adl].
  repeat match goal with H : between _ _ _ = true |- _ => apply between_spec in H end.
  repeat match goal with H : cvar _ _ _ _ _ _ = Some _ |- _ => apply cvar_spec in H; [|lia] end. eauto 12.
Qed.

Lemma fib_spec t f : conf_fib to_u32 to_int t = Some f -> 0 <= fc_maxf f <= 60 /\ 0 <= fc_calc f <= 15.
Proof using.
  unfold conf_fib. cbv zeta. destruct (between _ _ _) eqn:B; [|discriminate]. apply between_spec in B.
  destruct (cvar _ _ _ _ _ _) eqn:V; [|discriminate]. apply cvar_spec in V; [|lia].
  intros E. injection E as <-. auto.
Qed.

(** ** C49 *)

(** Every numeric parameter of an accepted configuration is inside its range. *)
Theorem C49_ranges t c : process t = Some c -> in_ranges c.
Proof using.
  apply (load_inv (fun _ => in_ranges)); [|unfold in_ranges; cbn; repeat split; try lia; discriminate].
  clear. intros _ k t c c' R E. unfold in_ranges in *. apply section_cases in E.
  destruct E as [[-> (g & E & ->)]|[[-> (n & E & ->)]|[[-> (y & E & ->)]|[[-> (f & E & ->)]|[[-> (m & E & ->)]|[_ (l & ->)]]]]]];
    cbn [cp_gen cp_nb cp_hyp cp_fib]; try exact R.
  - apply general_spec in E. intuition.
  - apply nb_spec in E. destruct E as (E1 & E2 & E3 & E4 & (v & Ev & Lv) & E5 & _).
    destruct R as (R1 & R2 & R3 & R4 & _ & _ & _ & _ & _ & _ & R5).
    assert (X : forall w, nc_tries n = Some w -> 1 <= w <= 10) by (rewrite Ev; intros w X; injection X as <-; exact Lv).
    tauto.
  - apply fib_spec in E. intuition.
Qed.

(** If the file has a "general" section, the names are not empty; if it has a "neighbors" section, the
    number of attempts to fetch the face dataset is set. *)
Theorem C49_names_partial t c : process t = Some c ->
  (has "general" t -> gc_network (cp_gen c) <> [] /\ gc_site (cp_gen c) <> [] /\ gc_router (cp_gen c) <> []) /\
  (has "neighbors" t -> exists v, nc_tries (cp_nb c) = Some v /\ 1 <= v <= 10).
Proof using.
  unfold has. apply (load_inv (fun done c =>
    ((exists u, In ("general"%string, u) done) -> gc_network (cp_gen c) <> [] /\ gc_site (cp_gen c) <> [] /\ gc_router (cp_gen c) <> []) /\
    ((exists u, In ("neighbors"%string, u) done) -> exists v, nc_tries (cp_nb c) = Some v /\ 1 <= v <= 10))).
  2: { split; intros [u []]. }
  clear. intros done k t c c' [R1 R2] E. apply section_cases in E.
  assert (Old : forall x, k <> x -> (exists u, In (x, u) (done ++ [(k, t)])) -> exists u, In (x, u) done).
  { intros x N [u H]. apply in_app_iff in H. destruct H as [H|[H|[]]]; [eauto|]. now injection H. }
  destruct E as [[-> (g & E & ->)]|[[-> (n & E & ->)]|[[-> (y & E & ->)]|[[-> (f & E & ->)]|[[-> (m & E & ->)]|[N (l & ->)]]]]]];
    cbn [cp_gen cp_nb cp_hyp cp_fib]; split; intros H;
    try (apply R1; apply Old; [discriminate|exact H]); try (apply R2; apply Old; [discriminate|exact H]).
  - apply general_spec in E. intuition.
  - apply nb_spec in E. intuition.
  - apply R1. apply Old; [apply N|exact H].
  - apply R2. apply Old; [apply N|exact H].
Qed.

(** The empty file is accepted: all names are empty, and the number of attempts is indeterminate. *)
Theorem C49_names_refuted : exists t c, process t = Some c /\
  gc_network (cp_gen c) = [] /\ gc_site (cp_gen c) = [] /\ gc_router (cp_gen c) = [] /\ nc_tries (cp_nb c) = None.
Proof using. exists (PT "" []). eexists. cbn. repeat split; reflexivity. Qed.

(** Eleven hello retries are accepted, although the documented maximum is 10. *)
Theorem C49_retries_refuted : to_int "11"%string = Some 11 -> exists t c, process t = Some c /\ nc_retry (cp_nb c) = 11.
Proof using.
  intros H. exists (PT "" [("neighbors"%string, PT "" [("hello-retries"%string, PT "11" [])])]).
  unfold process_conf. cbn. unfold conf_nb, get_def, get_opt, cvar. cbn. rewrite H. cbn. eexists. split; reflexivity.
Qed.

(** ** C50 *)

(** The file gives both coordinates. *)
Definition coordinates (h : ptree) : Prop :=
  (exists r, get_opt to_dbl "radius" h = Some r) /\ exists a, get_str "angle" h = Some a.

(** A file whose hyperbolic section says "on" or "dry-run" in lower case and does not give both
    coordinates is rejected. *)
Theorem C50_partial t h : In ("hyperbolic"%string, h) (pt_children t) ->
  get_str "state" h = Some "on"%string \/ get_str "state" h = Some "dry-run"%string ->
  ~ coordinates h -> process t = None.
Proof using.
  intros Hin Hs Hc. unfold process_conf. generalize cp_init as c. revert Hin.
  induction (pt_children t) as [|[k u] ch IH]; intros Hin c; [destruct Hin|]. cbn [conf_load].
  destruct Hin as [E|Hin]; [|destruct (section k u c); auto].
  injection E as -> ->. cbn [conf_section eqb]. unfold conf_section. cbn [eqb].
  assert (conf_hyp to_dbl to_angles h (cp_hyp c) = None) as E.
  { unfold conf_hyp. assert (N : get_opt to_dbl "radius" h = None \/ get_str "angle" h = None).
    { destruct (get_opt to_dbl "radius" h) eqn:E1; [|auto]. destruct (get_str "angle" h) eqn:E2; [|auto].
      exfalso. apply Hc. split; eauto. }
    destruct Hs as [-> | ->]; cbn; destruct (get_opt _ _ _), (get_str "angle" h); try reflexivity; destruct N; discriminate. }
  change (eqb "hyperbolic"%string "general"%string) with false. change (eqb "hyperbolic"%string "neighbors"%string) with false.
  change (eqb "hyperbolic"%string "hyperbolic"%string) with true. cbv iota. now rewrite E.
Qed.

(** Conversely: after an accepted file whose only hyperbolic section says "on" or "dry-run", the
    coordinates are the ones it gives, and the radius is not negative. *)
Theorem C50_coordinates t h c : process t = Some c -> sections "hyperbolic" t = [h] ->
  get_str "state" h = Some "on"%string \/ get_str "state" h = Some "dry-run"%string ->
  get_opt to_dbl "radius" h = Some (yc_radius (cp_hyp c)) /\ 0 <= yc_radius (cp_hyp c) /\
  (exists a, get_str "angle" h = Some a /\ yc_angles (cp_hyp c) = to_angles a) /\ yc_state (cp_hyp c) <> HOff.
Proof using.
  intros E Hs St. revert Hs. unfold sections.
  enough (flat_map (fun e => if eqb (fst e) "hyperbolic"%string then [snd e] else []) (pt_children t) = [] \/
    forall h0 l, flat_map (fun e => if eqb (fst e) "hyperbolic"%string then [snd e] else []) (pt_children t) = l ++ [h0] ->
      get_str "state" h0 = Some "on"%string \/ get_str "state" h0 = Some "dry-run"%string ->
      get_opt to_dbl "radius" h0 = Some (yc_radius (cp_hyp c)) /\ 0 <= yc_radius (cp_hyp c) /\
      (exists a, get_str "angle" h0 = Some a /\ yc_angles (cp_hyp c) = to_angles a) /\ yc_state (cp_hyp c) <> HOff) as [H|H].
  { rewrite H. discriminate. }
  { intros F. apply (H h []); [exact F|exact St]. }
  revert E. clear. unfold process_conf.
  apply (load_inv (fun done c => flat_map (fun e => if eqb (fst e) "hyperbolic"%string then [snd e] else []) done = [] \/
    forall h0 l, flat_map (fun e => if eqb (fst e) "hyperbolic"%string then [snd e] else []) done = l ++ [h0] ->
      get_str "state" h0 = Some "on"%string \/ get_str "state" h0 = Some "dry-run"%string ->
      get_opt to_dbl "radius" h0 = Some (yc_radius (cp_hyp c)) /\ 0 <= yc_radius (cp_hyp c) /\
      (exists a, get_str "angle" h0 = Some a /\ yc_angles (cp_hyp c) = to_angles a) /\ yc_state (cp_hyp c) <> HOff)); [|now left].
  clear. intros done k t c c' R E. rewrite flat_map_app. cbn [flat_map fst snd app].
  destruct (eq_dec k "hyperbolic"%string) as [->|Nk].
  - right. intros h0 l F. rewrite eqb_refl in F. cbn [app] in F. apply app_inj_tail in F as [_ F]. subst h0.
    apply section_cases in E.
    destruct E as [[X _]|[[X _]|[[_ (y & E & ->)]|[[X _]|[[X _]|[N _]]]]]]; try discriminate; [|now destruct N as (_ & _ & N & _)].
    cbn [cp_hyp]. unfold conf_hyp in E. intros Hs.
    destruct Hs as [Hs|Hs]; rewrite Hs in E; cbn in E; destruct (get_opt to_dbl "radius" t) as [r|]; try discriminate;
      destruct (get_str "angle" t) as [a|]; try discriminate; destruct (Z.leb_spec 0 r); try discriminate;
      injection E as <-; cbn [yc_radius yc_angles yc_state]; repeat split; try assumption; try discriminate; eauto.
  - pose proof (proj2 (eqb_neq _ _) Nk) as Nk'. rewrite Nk', !app_nil_r.
    assert (Y : cp_hyp c' = cp_hyp c).
    { apply section_cases in E.
      destruct E as [[_ (g & E & ->)]|[[_ (n & E & ->)]|[[X _]|[[_ (f & E & ->)]|[[_ (m & E & ->)]|[_ (l & ->)]]]]]]; try reflexivity.
      contradiction. }
    rewrite Y. exact R.
Qed.

(** "ON" without coordinates is accepted and switches hyperbolic routing on. *)
Theorem C50_spelling_refuted : exists t c, process t = Some c /\ yc_state (cp_hyp c) = HOn /\ yc_angles (cp_hyp c) = [] /\
  exists h, In ("hyperbolic"%string, h) (pt_children t) /\ ~ coordinates h.
Proof using.
  exists (PT "" [("hyperbolic"%string, PT "" [("state"%string, PT "ON" [])])]). eexists. split; [cbn; reflexivity|].
  cbn. split; [reflexivity|]. split; [reflexivity|]. eexists. split; [left; reflexivity|].
  intros [[r H] _]. discriminate.
Qed.

(** A text that contains no number is accepted for the angles. *)
Theorem C50_angles_refuted : to_dbl "1"%string = Some (of_int 1) -> to_angles "none"%string = [] ->
  exists t c, process t = Some c /\ yc_state (cp_hyp c) = HOn /\ yc_angles (cp_hyp c) = [].
Proof using.
  intros H1 H2.
  exists (PT "" [("hyperbolic"%string, PT "" [("state"%string, PT "on" []); ("radius"%string, PT "1" []); ("angle"%string, PT "none" [])])]).
  unfold process_conf. cbn [pt_children conf_load]. unfold conf_section.
  change (eqb "hyperbolic"%string "general"%string) with false. change (eqb "hyperbolic"%string "neighbors"%string) with false.
  change (eqb "hyperbolic"%string "hyperbolic"%string) with true. cbv iota. unfold conf_hyp, get_opt, get_str, child.
  cbn [pt_children find fst snd option_map pt_data].
  change (eqb "state"%string "state"%string) with true. change (eqb "radius"%string "state"%string) with false.
  change (eqb "radius"%string "radius"%string) with true. change (eqb "angle"%string "state"%string) with false.
  change (eqb "angle"%string "radius"%string) with false. change (eqb "angle"%string "angle"%string) with true. cbv iota.
  cbn [option_map pt_data]. rewrite H1.
  assert (P : (0 <=? of_int 1) = true) by (vm_compute; reflexivity). rewrite P, H2.
  eexists. split; [reflexivity|]. split; reflexivity.
Qed.

(** ** C67 *)

(** The "neighbor" entries of the file, in order. *)
Definition entries (t : ptree) : list ptree := flat_map (sections "neighbor") (sections "neighbors" t).
(** An entry declares this name, this face URI and this cost (10 if it gives none). *)
Definition declares (u : ptree) (x : name * uri * Z) : Prop :=
  (exists s, get_str "name" u = Some s /\ to_name s = Some (fst (fst x))) /\
  get_opt to_uri "face-uri" u = Some (snd (fst x)) /\
  snd x = match get_opt to_dbl "link-cost" u with Some v => v | None => of_int 10 end.

Definition good (l : list (name * uri * Z)) : Prop :=
  forall x, In x l -> fst (fst x) <> [] -> 0 <= snd x \/ snd x = of_int (-12345).

Lemma conf_adl_snoc l x : conf_adl (l ++ [x]) =
  if eqb (fst (fst x)) [] then conf_adl l
  else snd (adl_insert (Adj (fst (fst x)) (snd (fst x)) (snd x) SInactive 0 0) (conf_adl l)).
Proof using. unfold conf_adl. now rewrite fold_left_app. Qed.

Lemma neighbors_spec ch : forall l0 l a, conf_neighbors to_dbl to_name to_uri ch (conf_adl l0) = Some a ->
  good l0 -> Forall2 declares l l0 ->
  exists l1, a = conf_adl l1 /\ good l1 /\
    Forall2 declares (l ++ flat_map (fun e => if eqb (fst e) "neighbor"%string then [snd e] else []) ch) l1.
Proof using.
  induction ch as [|[k t] ch IH]; intros l0 l a E G F; cbn [conf_neighbors flat_map fst snd] in *.
  { injection E as <-. rewrite app_nil_r. eauto. }
  destruct (eqb k "neighbor"%string); [|cbn [app]; eauto].
  destruct (conf_neighbor to_dbl to_name to_uri t (conf_adl l0)) as [l'|] eqn:N; [|discriminate].
  unfold conf_neighbor in N. destruct (get_str "name" t) as [n|] eqn:En; [|discriminate].
  destruct (get_opt to_uri "face-uri" t) as [u|] eqn:Eu; [|discriminate].
  destruct (to_name n) as [nm|] eqn:Em; [|discriminate].
  set (cost := get_def to_dbl "link-cost" DEFAULT_LINK_COST t) in *.
  assert (D : declares t (nm, u, cost)).
  { split; [eauto|]. split; [exact Eu|]. cbn [snd]. unfold cost, get_def. reflexivity. }
  destruct (IH (l0 ++ [(nm, u, cost)]) (l ++ [t]) a) as (l1 & E1 & G1 & F1).
  - rewrite conf_adl_snoc. cbn [fst snd]. destruct (eqb nm []) eqn:Ez.
    { injection N as <-. exact E. }
    unfold set_link_cost in N. destruct ((cost <? 0) && negb (cost =? NON_ADJACENT_COST)); [discriminate|].
    injection N as <-. exact E.
  - intros x Hx Nx. apply in_app_iff in Hx. destruct Hx as [Hx|[<-|[]]]; [now apply G|]. cbn [fst snd] in *.
    destruct (eqb nm []) eqn:Ez; [now apply eqb_eq in Ez|]. unfold set_link_cost in N.
    destruct ((cost <? 0) && negb (cost =? NON_ADJACENT_COST)) eqn:Ec; [discriminate|].
    apply Bool.andb_false_iff in Ec. destruct Ec as [Ec|Ec]; [left; now apply Z.ltb_ge in Ec|right].
    apply Bool.negb_false_iff, Z.eqb_eq in Ec. exact Ec.
  - apply Forall2_app; [exact F|]. constructor; [exact D|constructor].
  - exists l1. rewrite <- app_assoc in F1. auto.
Qed.

Lemma find_snoc a l n : adl_find n (snd (adl_insert a l)) =
  match adl_find n l with Some b => Some b | None => if eqb (a_name a) n then Some a else None end.
Proof using.
  assert (Snoc : forall m, adl_find n (m ++ [a]) = match adl_find n m with Some b => Some b | None => if eqb (a_name a) n then Some a else None end).
  { induction m as [|b m IH]; cbn; [reflexivity|]. now destruct (eqb (a_name b) n). }
  unfold adl_insert. destruct (adl_find (a_name a) l) eqn:F; cbn [snd]; [|apply Snoc].
  destruct (adl_find n l) eqn:G; [reflexivity|]. destruct (eqb (a_name a) n) eqn:Q; [|reflexivity].
  apply eqb_eq in Q. subst n. congruence.
Qed.

Lemma lfind_snoc A (f : A -> bool) m x : find f (m ++ [x]) = match find f m with Some b => Some b | None => if f x then Some x else None end.
Proof using. induction m as [|b m IH]; cbn [app find]; [reflexivity|]. destruct (f b); [reflexivity|exact IH]. Qed.
(** The first entry for a name decides. *)
Lemma conf_adl_first l (n : name) : n <> [] -> adl_find n (conf_adl l) =
  match find (fun x => eqb (fst (fst x)) n) l with Some x => Some (Adj n (snd (fst x)) (snd x) SInactive 0 0) | None => None end.
Proof using.
  intros Hn. induction l as [|x l IH] using rev_ind; [reflexivity|].
  rewrite conf_adl_snoc.
  rewrite lfind_snoc. destruct (eqb (fst (fst x)) []) eqn:Z.
  - apply eqb_eq in Z. rewrite IH. destruct (find _ l); [reflexivity|].
    destruct (eqb (fst (fst x)) n) eqn:Q; [apply eqb_eq in Q; congruence|reflexivity].
  - rewrite find_snoc, IH. destruct (find _ l); [reflexivity|]. cbn [a_name].
    destruct (eqb (fst (fst x)) n) eqn:Q; [|reflexivity]. apply eqb_eq in Q. now rewrite Q.
Qed.

(** The neighbours of an accepted configuration are exactly the declared ones with a non-empty name, the
    first declaration of a name deciding, each INACTIVE and without a face, with a cost that is not
    negative (or the one special value -12345). *)
Theorem C67_neighbours t c : process t = Some c ->
  exists l, Forall2 declares (entries t) l /\ nc_adl (cp_nb c) = conf_adl l /\
    (forall n : name, n <> [] -> adl_find n (nc_adl (cp_nb c)) =
       match find (fun x => eqb (fst (fst x)) n) l with
       | Some x => Some (Adj n (snd (fst x)) (snd x) SInactive 0 0) | None => None end) /\
    NoDup (map a_name (nc_adl (cp_nb c))) /\ ~ In [] (map a_name (nc_adl (cp_nb c))) /\
    forall a, In a (nc_adl (cp_nb c)) -> 0 <= a_cost a \/ a_cost a = of_int (-12345).
Proof using.
  intros E.
  assert (H : exists l, Forall2 declares (entries t) l /\ nc_adl (cp_nb c) = conf_adl l /\ good l).
  { revert E. unfold process_conf, entries, sections.
    apply (load_inv (fun done c => exists l, Forall2 declares (flat_map
      (fun t => flat_map (fun e => if eqb (fst e) "neighbor"%string then [snd e] else []) (pt_children t))
      (flat_map (fun e => if eqb (fst e) "neighbors"%string then [snd e] else []) done)) l /\
      nc_adl (cp_nb c) = conf_adl l /\ good l)).
    2: { exists []. split; [constructor|]. split; [reflexivity|]. intros x []. }
    clear. intros done k t c c' (l & F & A & G) E. rewrite flat_map_app. cbn [flat_map fst snd app].
    destruct (eq_dec k "neighbors"%string) as [->|Nk].
    - rewrite eqb_refl. cbn [app]. rewrite flat_map_app. cbn [flat_map]. rewrite app_nil_r. apply section_cases in E.
      destruct E as [[X _]|[[_ (n & E & ->)]|[[X _]|[[X _]|[[X _]|[N _]]]]]]; try discriminate; [|now destruct N as (_ & N & _)].
      cbn [cp_nb]. apply nb_spec in E. destruct E as (_ & _ & _ & _ & _ & _ & E). rewrite A in E.
      destruct (neighbors_spec _ _ _ _ E G F) as (l1 & E1 & G1 & F1). eauto.
    - pose proof (proj2 (eqb_neq _ _) Nk) as Nk'. rewrite Nk', !app_nil_r. exists l.
      assert (Y : cp_nb c' = cp_nb c); [|rewrite Y; auto]. apply section_cases in E.
      destruct E as [[_ (g & E & ->)]|[[X _]|[[_ (n & E & ->)]|[[_ (f & E & ->)]|[[_ (m & E & ->)]|[_ (l' & ->)]]]]]]; try reflexivity.
      contradiction. }
  destruct H as (l & F & A & G). exists l. split; [exact F|]. split; [exact A|]. rewrite A.
  destruct (conf_adl_spec l) as (ND & NE & _).
  split; [intros n Hn; exact (conf_adl_first l n Hn)|]. split; [exact ND|]. split; [exact NE|].
  intros a Ha. assert (Hn : a_name a <> []) by (intros X; apply NE; rewrite <- X; now apply in_map).
  assert (F0 : adl_find (a_name a) (conf_adl l) = Some a).
  { revert ND Ha. generalize (conf_adl l). clear. induction a0 as [|b m IH]; cbn; [easy|].
    intros ND Ha. apply NoDup_cons_iff in ND as [N1 N2]. destruct (eqb (a_name b) (a_name a)) eqn:Q.
    - apply eqb_eq in Q. destruct Ha as [->|Ha]; [reflexivity|]. destruct N1. rewrite Q. now apply in_map.
    - destruct Ha as [->|Ha]; [now rewrite eqb_refl in Q|auto]. }
  rewrite (conf_adl_first l _ Hn) in F0. destruct (find _ l) as [x|] eqn:Fx; [|discriminate].
  apply find_some in Fx as [Hx Q]. apply eqb_eq in Q. injection F0 as F0. rewrite <- F0. cbn [a_cost].
  apply G; [exact Hx|]. now rewrite Q.
Qed.

(** A negative cost is accepted. *)
Theorem C67_cost_refuted : to_name "/n"%string = Some [gen "n"] -> to_uri "udp"%string = Some "udp"%string ->
  to_dbl "-12345"%string = Some (of_int (-12345)) ->
  exists t c a, process t = Some c /\ In a (nc_adl (cp_nb c)) /\ a_cost a < 0.
Proof using.
  intros Hn Hu Hd.
  exists (PT "" [("neighbors"%string, PT "" [("neighbor"%string, PT "" [("name"%string, PT "/n" []); ("face-uri"%string, PT "udp" []); ("link-cost"%string, PT "-12345" [])])])]).
  exists (CParam (cp_gen cp_init) (NbC 3 1 60 10 (Some 3) 3600 [Adj [gen "n"] "udp"%string NON_ADJACENT_COST SInactive 0 0]) (cp_hyp cp_init)
            (cp_fib cp_init) (cp_npl cp_init) (cp_certs cp_init)).
  exists (Adj [gen "n"] "udp"%string NON_ADJACENT_COST SInactive 0 0).
  split; [|split; [left; reflexivity|vm_compute; reflexivity]].
  unfold process_conf. cbn [pt_children conf_load]. unfold conf_section.
  change (eqb "neighbors"%string "general"%string) with false. change (eqb "neighbors"%string "neighbors"%string) with true. cbv iota.
  unfold conf_nb.
  match goal with |- context [conf_neighbors ?a ?b ?d ?e ?f] => assert (X : conf_neighbors a b d e f = Some [Adj [gen "n"] "udp"%string NON_ADJACENT_COST SInactive 0 0]) end.
  { cbn [conf_neighbors pt_children]. change (eqb "neighbor"%string "neighbor"%string) with true. cbv iota.
    unfold conf_neighbor.
    match goal with |- context [get_str "name" ?t] => change (get_str "name" t) with (Some "/n"%string);
      change (get_opt to_uri "face-uri" t) with (to_uri "udp"%string);
      change (get_def to_dbl "link-cost" DEFAULT_LINK_COST t) with (match to_dbl "-12345"%string with Some v => v | None => DEFAULT_LINK_COST end) end.
    cbv iota. rewrite Hu, Hd, Hn. change (eqb [gen "n"] (@nil comp)) with false. cbv iota.
    assert (Y : set_link_cost (of_int (-12345)) (Adj [gen "n"] "udp"%string 0 SInactive 0 0) = Some (Adj [gen "n"] "udp"%string NON_ADJACENT_COST SInactive 0 0)) by (vm_compute; reflexivity).
    rewrite Y. reflexivity. }
  rewrite X. reflexivity.
Qed.

(** The prefixes of the file, in order. *)
Definition prefixes (t : ptree) : list (string * ptree) := flat_map pt_children (sections "advertising" t).

(** The advertised prefixes of an accepted configuration are exactly the listed ones; the last cost listed
    for a prefix counts. *)
Theorem C67_prefixes t c : process t = Some c ->
  exists l, Forall2 (fun e x => to_name (fst e) = Some (fst x) /\ to_u64 (pt_data (snd e)) = Some (snd x)) (prefixes t) l /\
    (forall x, In x l -> fst x <> []) /\
    forall n : name, get n (cp_npl c) =
      match find (fun x => eqb (fst x) n) (rev l) with Some x => Some (of_int (snd x), [""%string]) | None => None end.
Proof using.
  unfold process_conf, prefixes, sections.
  apply (load_inv (fun done c => exists l : list (name * Z), Forall2 (fun e x => to_name (fst e) = Some (fst x) /\ to_u64 (pt_data (snd e)) = Some (snd x))
      (flat_map pt_children (flat_map (fun e => if eqb (fst e) "advertising"%string then [snd e] else []) done)) l /\
    (forall x, In x l -> fst x <> []) /\
    forall n : name, get n (cp_npl c) =
      match find (fun x => eqb (fst x) n) (rev l) with Some x => Some (of_int (snd x), [""%string]) | None => None end)).
  2: { exists []. split; [constructor|]. split; [intros x []|reflexivity]. }
  clear. intros done k t c c' (l & F & G & A) E. rewrite flat_map_app. cbn [flat_map fst snd app].
  destruct (eq_dec k "advertising"%string) as [->|Nk].
  - rewrite eqb_refl. cbn [app]. rewrite flat_map_app. cbn [flat_map]. rewrite app_nil_r. apply section_cases in E.
    destruct E as [[X _]|[[X _]|[[X _]|[[X _]|[[_ (m & E & ->)]|[N _]]]]]]; try discriminate; [|now destruct N as (_ & _ & _ & _ & N)].
    cbn [cp_npl]. revert E F G A. generalize (flat_map pt_children (flat_map (fun e => if eqb (fst e) "advertising"%string then [snd e] else []) done)).
    generalize (cp_npl c). revert l. induction (pt_children t) as [|[k u] ch IH]; intros l p es E F G A; cbn [conf_adv] in E.
    { injection E as <-. rewrite app_nil_r. eauto. }
    destruct (to_name k) as [n|] eqn:En; [|discriminate]. destruct (negb (eqb n [])) eqn:Ez; [|discriminate].
    apply Bool.negb_true_iff, eqb_neq in Ez. destruct (to_u64 (pt_data u)) as [v|] eqn:Ev; [|discriminate].
    replace (es ++ (k, u) :: ch) with ((es ++ [(k, u)]) ++ ch) by (now rewrite <- app_assoc).
    apply (IH (l ++ [(n, v)]) _ _ E).
    + apply Forall2_app; [exact F|]. constructor; [auto|constructor].
    + intros x Hx. apply in_app_iff in Hx. destruct Hx as [Hx|[<-|[]]]; auto.
    + intros n'. rewrite rev_app_distr. cbn [rev app find fst snd].
      assert (S : snd (pl_insert n "" (of_int v) p) = set n (of_int v, [""%string]) p).
      { unfold pl_insert. rewrite A. destruct (find _ (rev l)); reflexivity. }
      rewrite S. destruct (eqb n n') eqn:Q.
      * apply eqb_eq in Q. subst n'. apply get_set_eq.
      * rewrite get_set_ne; [apply A|]. apply eqb_neq in Q. congruence.
  - pose proof (proj2 (eqb_neq _ _) Nk) as Nk'. rewrite Nk', !app_nil_r. exists l.
    assert (Y : cp_npl c' = cp_npl c); [|rewrite Y; auto]. apply section_cases in E.
    destruct E as [[_ (g & E & ->)]|[[_ (n & E & ->)]|[[_ (y & E & ->)]|[[_ (f & E & ->)]|[[X _]|[_ (l' & ->)]]]]]]; try reflexivity.
    contradiction.
Qed.

(** ** C68 *)

(** With one "general" section, the LSA prefix is /localhop/<network>/nlsr/LSA, and the sync prefix
    /localhop/<network>/nlsr/sync/<version>, without /localhop for State Vector Sync. *)
Theorem C68_partial t g c : process t = Some c -> sections "general" t = [g] ->
  exists net site router, get_opt to_name "network" g = Some net /\ get_opt to_name "site" g = Some site /\
    get_opt to_name "router" g = Some router /\ cp_self c = net ++ site ++ router /\
    gc_network (cp_gen c) = net /\ gc_lsap (cp_gen c) = [gen "localhop"] ++ net ++ [gen "nlsr"; gen "LSA"] /\
    gc_syncp (cp_gen c) = (if eqb (get_str "sync-protocol" g) (Some "svs"%string) then [] else [gen "localhop"]) ++ net ++ [gen "nlsr"; gen "sync"; ver].
Proof using.
  intros E S.
  assert (H : forall done c', load done cp_init = Some c' ->
     (flat_map (fun e => if eqb (fst e) "general"%string then [snd e] else []) done = [] -> cp_gen c' = cp_gen cp_init) /\
     (forall g, flat_map (fun e => if eqb (fst e) "general"%string then [snd e] else []) done = [g] -> general g (cp_gen cp_init) = Some (cp_gen c'))).
  { clear. intros done c'. apply (load_inv (fun done c' =>
      (flat_map (fun e => if eqb (fst e) "general"%string then [snd e] else []) done = [] -> cp_gen c' = cp_gen cp_init) /\
      (forall g, flat_map (fun e => if eqb (fst e) "general"%string then [snd e] else []) done = [g] -> general g (cp_gen cp_init) = Some (cp_gen c')))).
    2: { split; [reflexivity|discriminate]. }
    clear. intros done k t c c' [R1 R2] E. rewrite flat_map_app. cbn [flat_map fst snd app].
    destruct (eq_dec k "general"%string) as [->|Nk].
    - rewrite eqb_refl. cbn [app]. split; [intros X; now apply app_eq_nil in X as [_ X]|].
      intros g X. change [g] with ([] ++ [g]) in X. apply app_inj_tail in X as [X ->]. apply section_cases in E.
      destruct E as [[_ (g' & E & ->)]|[[X' _]|[[X' _]|[[X' _]|[[X' _]|[N _]]]]]]; try discriminate; [|now destruct N].
      cbn [cp_gen]. now rewrite (R1 X) in E.
    - pose proof (proj2 (eqb_neq _ _) Nk) as Nk'. rewrite Nk', !app_nil_r.
      assert (Y : cp_gen c' = cp_gen c); [|rewrite Y; auto]. apply section_cases in E.
      destruct E as [[X _]|[[_ (n & E & ->)]|[[_ (y & E & ->)]|[[_ (f & E & ->)]|[[_ (m & E & ->)]|[_ (l' & ->)]]]]]]; try reflexivity.
      contradiction. }
  destruct (H _ _ E) as [_ H2]. specialize (H2 g S). clear - H2. unfold conf_general in H2.
  repeat (match type of H2 with
          | (if ?b then _ else _) = _ => let B := fresh "B" in destruct b eqn:B; [|discriminate]
          | match ?m with Some _ => _ | None => _ end = _ => let B := fresh "A" in destruct m eqn:B; [|discriminate]
          | (let x := ?v in _) = _ => cbv zeta in H2
          end).
  injection H2 as H2. unfold cp_self, router_prefix. rewrite <- H2. cbn [gc_network gc_site gc_router gc_lsap gc_syncp cp_gen cp_init app].
  do 3 eexists. do 6 (split; [reflexivity|]).
  unfold sync_prefix. f_equal.
  enough (X : eqb (get_str "sync-protocol" g) (Some "svs"%string) =
              match get_str "sync-protocol" g with Some sp => eqb sp "svs"%string | None => false end)
    by (rewrite X; destruct (get_str "sync-protocol" g); reflexivity).
  clear. destruct (get_str "sync-protocol" g) as [sp|]; [|reflexivity].
  destruct (eqb sp "svs"%string) eqn:Q; [apply eqb_eq in Q; subst; reflexivity|].
  apply eqb_neq. apply eqb_neq in Q. intros X. injection X. exact Q.
Qed.

(** A second "general" section for the same network is accepted, and the LSA prefix is then another one. *)
Theorem C68_refuted : to_name "/n"%string = Some [gen "n"] -> have "psync"%string = true -> dir_ok "/d"%string = true ->
  exists g t c, process (PT "" [("general"%string, g)]) = Some c /\ gc_lsap (cp_gen c) = nm ["localhop"; "n"; "nlsr"; "LSA"]%string /\
  exists c', process t = Some c' /\ sections "general" t = [g; g] /\ gc_network (cp_gen c') = [gen "n"] /\
    gc_lsap (cp_gen c') <> nm ["localhop"; "n"; "nlsr"; "LSA"]%string.
Proof using.
  intros Hn Hh Hd.
  set (g := PT "" [("network"%string, PT "/n" []); ("site"%string, PT "/n" []); ("router"%string, PT "/n" []); ("state-dir"%string, PT "/d" [])]).
  exists g, (PT "" [("general"%string, g); ("general"%string, g)]).
  assert (G : forall g0, general g g0 = Some (GenC [gen "n"] [gen "n"] [gen "n"] (gc_syncp g0 ++ sync_prefix false [gen "n"] ver)
             (gc_lsap g0 ++ nm ["localhop"; "n"; "nlsr"; "LSA"]%string) 1800 3600 4 60000 "/d" "psync")).
  { intros g0. unfold conf_general.
    change (get_opt to_name "network" g) with (to_name "/n"%string). change (get_opt to_name "site" g) with (to_name "/n"%string).
    change (get_opt to_name "router" g) with (to_name "/n"%string). change (get_str "state-dir" g) with (Some "/d"%string).
    cbv zeta iota. change (get_str "sync-protocol" g) with (@None string). cbv iota. rewrite Hh, Hn, Hd. reflexivity. }
  unfold process_conf. cbn [pt_children conf_load]. unfold conf_section. change (eqb "general"%string "general"%string) with true. cbv iota.
  rewrite G. eexists. split; [reflexivity|]. split; [reflexivity|].
  cbn [cp_gen cp_nb cp_hyp cp_fib cp_npl cp_certs]. rewrite G. eexists. split; [reflexivity|]. split; [reflexivity|]. split; [reflexivity|].
  cbn. discriminate.
Qed.
End Conf.

(** ** Concrete cases: a converter that knows some literals *)
Definition z_of (s : string) : option Z :=
  if eqb s "300"%string then Some 300 else if eqb s "1000"%string then Some 1000 else if eqb s "2"%string then Some 2
  else if eqb s "7"%string then Some 7 else None.
Definition d_of (s : string) : option Z := match z_of s with Some v => Some (of_int v) | None => None end.
Definition n_of (s : string) : option name := Some (if eqb s "/"%string then [] else [gen s]).
Definition proc := process_conf z_of z_of z_of d_of (fun s => match d_of s with Some v => [v] | None => [] end) n_of Some
  (fun _ => true) (fun _ => true) (fun _ => true) (fun _ => true) (gen "v").

Definition lf (k v : string) : string * ptree := (k, PT v []).
Definition hyp_sec : ptree := PT "" [lf "state" "on"; lf "radius" "2"; lf "angle" "7"].
Definition gen_sec : ptree := PT "" [lf "network" "net"; lf "site" "s"; lf "router" "r"; lf "lsa-refresh-time" "300"; lf "state-dir" "/d"; lf "sync-protocol" "svs"].
Definition file (g h : ptree) : ptree := PT "" [
  ("general"%string, g);
  ("neighbors"%string, PT "" [lf "hello-timeout" "2";
    ("neighbor"%string, PT "" [lf "name" "a"; lf "face-uri" "udp://a"; lf "link-cost" "7"]);
    ("neighbor"%string, PT "" [lf "name" "/"; lf "face-uri" "udp://x"]);
    ("neighbor"%string, PT "" [lf "name" "b"; lf "face-uri" "udp://b"]);
    ("neighbor"%string, PT "" [lf "name" "a"; lf "face-uri" "udp://other"])]);
  ("hyperbolic"%string, h);
  ("fib"%string, PT "" [lf "max-faces-per-prefix" "2"]);
  ("advertising"%string, PT "" [lf "p" "2"; lf "q" "7"; lf "p" "300"]);
  ("security"%string, PT "" [("validator"%string, PT "" []); ("prefix-update-validator"%string, PT "" []); lf "cert-to-publish" "c"])].

Example C49_ex : exists c, proc (file gen_sec hyp_sec) = Some c /\ in_ranges c /\
  gc_refresh (cp_gen c) = 300 /\ gc_dead (cp_gen c) = 600 /\ nc_resend (cp_nb c) = 2 /\ nc_tries (cp_nb c) = Some 3 /\ cp_certs c = ["c"%string].
Proof.
  destruct (proc (file gen_sec hyp_sec)) as [c|] eqn:E; [|vm_compute in E; discriminate].
  exists c. split; [reflexivity|]. split; [exact (C49_ranges _ _ _ _ _ _ _ _ _ _ _ _ _ _ E)|].
  vm_compute in E. injection E as <-. repeat split.
Qed.
(** Out of range: rejected. *)
Example C49_rejects : proc (file (PT "" [lf "network" "net"; lf "site" "s"; lf "router" "r"; lf "lsa-refresh-time" "2"; lf "state-dir" "/d"]) hyp_sec) = None.
Proof. vm_compute. reflexivity. Qed.
(** A number that cannot be converted is not reported: the default is used. *)
Example C49_silent : option_map (fun c => gc_refresh (cp_gen c))
  (proc (file (PT "" [lf "network" "net"; lf "site" "s"; lf "router" "r"; lf "lsa-refresh-time" "half an hour"; lf "state-dir" "/d"]) hyp_sec)) = Some 1800.
Proof. vm_compute. reflexivity. Qed.

Example C50_ex : option_map (fun c => (yc_state (cp_hyp c), eqb (yc_radius (cp_hyp c)) (of_int 2), eqb (yc_angles (cp_hyp c)) [of_int 7])) (proc (file gen_sec hyp_sec))
  = Some (HOn, true, true) /\
  proc (file gen_sec (PT "" [lf "state" "on"; lf "radius" "2"])) = None /\
  proc (file gen_sec (PT "" [lf "state" "dry-run"; lf "angle" "2"])) = None /\
  option_map (fun c => yc_state (cp_hyp c)) (proc (file gen_sec (PT "" [lf "state" "Dry-Run"]))) = Some HDry.
Proof. split; [|split; [|split]]; vm_compute; reflexivity. Qed.

Example C67_ex : option_map (fun c => (map (fun a => (a_name a, a_uri a, eqb (a_cost a) (of_int 7), eqb (a_cost a) (of_int 10))) (nc_adl (cp_nb c)),
                                       map (fun x => (fst x, eqb (fst (snd x)) (of_int 300), eqb (fst (snd x)) (of_int 7))) (cp_npl c)))
    (proc (file gen_sec hyp_sec))
  = Some ([([gen "a"], "udp://a", true, false); ([gen "b"], "udp://b", false, true)], [([gen "p"], true, false); ([gen "q"], false, true)])%string.
Proof. vm_compute. reflexivity. Qed.

Example C68_ex : exists c, proc (file gen_sec hyp_sec) = Some c /\ gc_lsap (cp_gen c) = nm ["localhop"; "net"; "nlsr"; "LSA"]%string /\
  gc_syncp (cp_gen c) = nm ["net"; "nlsr"; "sync"; "v"]%string /\ cp_self c = nm ["net"; "s"; "r"]%string.
Proof.
  destruct (proc (file gen_sec hyp_sec)) as [c|] eqn:E; [|vm_compute in E; discriminate].
  exists c. split; [reflexivity|].
  destruct (C68_partial _ _ _ _ _ _ _ _ _ _ _ _ _ gen_sec _ E eq_refl) as (net & site & router & N & N2 & N3 & H3 & _ & H1 & H2).
  injection N as <-. injection N2 as <-. injection N3 as <-. split; [exact H1|]. split; [exact H2|exact H3].
Qed.

Print Assumptions C49_ranges.
Print Assumptions C49_names_partial.
Print Assumptions C49_names_refuted.
Print Assumptions C49_retries_refuted.
Print Assumptions C50_partial.
Print Assumptions C50_coordinates.
Print Assumptions C50_spelling_refuted.
Print Assumptions C50_angles_refuted.
Print Assumptions C67_neighbours.
Print Assumptions C67_cost_refuted.
Print Assumptions C67_prefixes.
Print Assumptions C68_partial.
Print Assumptions C68_refuted.
