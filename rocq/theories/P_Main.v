(** C84: the daemon runs with the values of its configuration file. *)
From Verif Require Import Base M_Nexthop M_Tlv M_Adj M_Lsa M_Lsdb S_Lsdb L_Lsdb M_Prefix S_Prefix L_Prefix M_Sync M_Codec M_LinkState M_Hyperbolic M_RoutingTable M_Npt M_Fib S_Pipe
  M_Hello M_Router S_Router L_Hello L_Router L_Router2 L_Router3 L_Router5 L_Router6 L_Router8 M_Conf M_Main P_Prefix P_Conf P_Conf2 P_Router P_Router2 P_Router3 X_Lsdb X_Router.
Open Scope Z_scope.

(** ** The specification *)

(** The configuration file that the arguments name: the one of the last -f, or nlsr.conf. *)
Definition files_given (args : list mopt) : list string := flat_map (fun a => match a with MFile f => [f] | _ => [] end) args.
Definition conf_path (args : list mopt) : string := last (files_given args) "nlsr.conf"%string.
Definition only_files (args : list mopt) : Prop := forall a, In a args -> exists f, a = MFile f.

Lemma find_named n m b : adl_find n m = Some b -> In b m /\ a_name b = n.
Proof.
  induction m as [|a m IH]; [discriminate|]. cbn [adl_find]. destruct (eqb (a_name a) n) eqn:E.
  - intros H. injection H as <-. apply (proj1 (eqb_eq _ _)) in E. split; [now left|exact E].
  - intros H. destruct (IH H). split; [now right|assumption].
Qed.
Lemma conf_adl_again m : (forall a, In a m -> a_status a = SInactive /\ a_touts a = 0%N /\ a_face a = 0%N) ->
  NoDup (map a_name m) -> ~ In [] (map a_name m) -> conf_adl (map (fun a => (a_name a, a_uri a, a_cost a)) m) = m.
Proof.
  induction m as [|a m IH] using rev_ind; intros H N Z; [reflexivity|].
  rewrite map_app in *. cbn [map] in *. rewrite conf_adl_snoc. cbn [fst snd].
  rewrite in_app_iff in Z. rewrite IH; [|intros b B; apply H, in_or_app; now left|apply NoDup_remove_1 in N; now rewrite app_nil_r in N|tauto].
  destruct (eqb (a_name a) []) eqn:E; [apply (proj1 (eqb_eq _ _)) in E; exfalso; apply Z; right; left; exact E|].
  unfold adl_insert. cbn [a_name]. assert (F : adl_find (a_name a) m = None).
  { clear - N. apply NoDup_remove_2 in N. rewrite app_nil_r in N. destruct (adl_find (a_name a) m) as [b|] eqn:F; [|reflexivity].
    apply find_named in F as [F1 F2]. destruct N. rewrite <- F2. now apply in_map. }
  rewrite F. cbn [snd]. destruct (H a) as (H1 & H2 & H3); [apply in_or_app; right; now left|]. destruct a; cbn in *. now subst.
Qed.
Lemma conf_adl_fresh l a : In a (conf_adl l) -> a_status a = SInactive /\ a_touts a = 0%N /\ a_face a = 0%N.
Proof.
  induction l as [|x l IH] using rev_ind; [intros []|]. rewrite conf_adl_snoc. destruct (eqb (fst (fst x)) []); [exact IH|].
  unfold adl_insert. destruct (adl_find _ _); cbn [snd]; [exact IH|]. intros H. apply in_app_or in H as [H|[<-|[]]]; [now apply IH|repeat split].
Qed.

Section Main.
Variables (to_u32 to_int to_u64 to_dbl : string -> option Z).
Variable to_angles : string -> list Z.
Variable to_name : string -> option name.
Variable to_uri : string -> option uri.
Variable have : string -> bool.
Variable rules_ok : ptree -> bool.
Variable cert_ok : string -> bool.
Variable ver : comp.
Variable canon : string -> string.
Variable may_write : string -> bool.
Notation main := (M_Main.main to_u32 to_int to_u64 to_dbl to_angles to_name to_uri have rules_ok cert_ok ver canon may_write).
Notation load_fs := (M_Main.load_fs to_u32 to_int to_u64 to_dbl to_angles to_name to_uri have rules_ok cert_ok ver canon may_write).
Notation any := (fun _ : string => true).
Notation process := (process_conf to_u32 to_int to_u64 to_dbl to_angles to_name to_uri any have rules_ok cert_ok ver).
Notation load := (conf_load to_u32 to_int to_u64 to_dbl to_angles to_name to_uri any have rules_ok cert_ok ver).

(** The tree of the file that is read. *)
Definition reads (args : list mopt) (fs : fsys) (t : ptree) : Prop :=
  only_files args /\ exists ls, file_at canon (conf_path args) fs = Some (ls, Some t).

(** ** Starting *)

Lemma load_fs_load conf ch c fs c' fs' : load_fs conf ch c fs = (Some c', fs') -> load ch c = Some c'.
Proof using.
  revert c fs. induction ch as [|[k t] ch IH]; intros c fs; cbn [M_Main.load_fs conf_load]; [intros E; now injection E as <- _|].
  unfold section_fs. destruct (conf_section _ _ _ _ _ _ _ _ _ _ _ _ k t c) as [c1|]; [|intros E; discriminate E].
  destruct (eqb k "general"%string); [destruct prepare as [[|] fs1]|]; [apply IH|intros E; discriminate E|apply IH].
Qed.
Lemma args_files args conf : only_files args -> read_args args conf = inr (last (files_given args) conf).
Proof using.
  revert conf. induction args as [|a args IH]; intros conf H; [reflexivity|].
  destruct (H a (or_introl eq_refl)) as [f ->]. cbn [read_args files_given flat_map app].
  rewrite IH by (intros b B; apply H; now right). fold (files_given args). f_equal.
  destruct (files_given args) as [|g l] eqn:E; [reflexivity|]. cbn [last]. clear. revert g. induction l as [|h l IH]; intros g; [reflexivity|]. cbn [last]. apply IH.
Qed.
Lemma args_other args conf : ~ only_files args -> exists k, read_args args conf = inl k /\ (k = 0%N \/ k = 2%N).
Proof using.
  revert conf. induction args as [|a args IH]; intros conf N; [destruct N; intros a []|].
  destruct a; cbn [read_args]; eauto. apply IH. intros F. apply N. intros b [<-|B]; eauto.
Qed.

(** C84: the daemon runs only with options -f, and only if the file named last is accepted; a daemon that
    does not run ends with code 0 (help, version) or 2, and touches no file unless it was reading a
    configuration. *)
Theorem C84_start args fs :
  (forall c fs', main args fs = (XRuns c, fs') -> exists t, reads args fs t /\ process t = Some c) /\
  (forall t, reads args fs t -> process t = None -> fst (main args fs) = XRefused) /\
  (~ only_files args -> exists k, main args fs = (XExit k, fs) /\ (k = 0%N \/ k = 2%N)) /\
  (only_files args -> (forall t, ~ reads args fs t) -> main args fs = (XRefused, fs)).
Proof using.
  unfold M_Main.main, reads.
  assert (D : only_files args \/ ~ only_files args).
  { clear. induction args as [|a args IH]; [left; intros a []|]. destruct a; try (right; intros H; destruct (H _ (or_introl eq_refl)) as [? E]; discriminate E).
    destruct IH as [H|H]; [left|right].
    - intros b [<-|B]; eauto.
    - intros F. apply H. intros b B. apply F. now right. }
  split; [|split; [|split]].
  - intros c fs' E. destruct D as [D|D].
    + rewrite (args_files _ _ D) in E. fold (conf_path args) in E. unfold process_file in E.
      destruct (file_at canon (conf_path args) fs) as [[ls [t|]]|]; try discriminate E.
      destruct (load_fs _ _ _ _) as [[c'|] fs1] eqn:L; [|discriminate E]. injection E as <- <-. exists t.
      split; [split; [exact D|now exists ls]|]. exact (load_fs_load _ _ _ _ _ _ L).
    + destruct (args_other _ "nlsr.conf"%string D) as (k & K & _). rewrite K in E. discriminate E.
  - intros t [F (ls & R)] P. rewrite (args_files _ _ F). fold (conf_path args). unfold process_file. rewrite R.
    destruct (load_fs _ _ _ _) as [[c'|] fs1] eqn:L; [|reflexivity]. apply load_fs_load in L. unfold process_conf in P. congruence.
  - intros N. destruct (args_other _ "nlsr.conf"%string N) as (k & -> & K). eauto.
  - intros F N. rewrite (args_files _ _ F). fold (conf_path args). unfold process_file.
    destruct (file_at canon (conf_path args) fs) as [[ls [t|]]|] eqn:R; try reflexivity. destruct (N t). eauto.
Qed.

(** ** The parameters of the router that runs *)

Section Run.
Variables (args : list mopt) (fs fs' : fsys) (t : ptree) (c : cparam) (junk : N).
Hypothesis Runs : main args fs = (XRuns c, fs').
Hypothesis Reads : reads args fs t.
Notation k := (gconf_of junk c).

Lemma accepted : process t = Some c.
Proof using Runs Reads.
  destruct (C84_start args fs) as [H _]. destruct (H _ _ Runs) as (t' & [_ (ls' & R')] & P). destruct Reads as [_ (ls & R)].
  rewrite R in R'. now injection R' as _ <-.
Qed.

(** C84: section general. *)
Theorem C84_general g : sections "general" t = [g] ->
  exists net site router, name_is to_name "network" g net /\ name_is to_name "site" g site /\ name_is to_name "router" g router /\
    c_network (gc k) = net /\ c_self (gc k) = net ++ site ++ router /\
    c_lsaprefix (gc k) = gen "localhop" :: net ++ [gen "nlsr"; gen "LSA"] /\
    gc_sync k = (if eqb (get_str "sync-protocol" g) (Some "svs"%string) then [] else [gen "localhop"]) ++ net ++ [gen "nlsr"; gen "sync"; ver] /\
    option_is to_u32 "lsa-refresh-time" 1800 g (c_refresh (gc k)) /\
    option_is to_u32 "router-dead-interval" (2 * c_refresh (gc k)) g (c_deadint (gc k)) /\
    option_is to_int "lsa-interest-lifetime" 4 g (c_lifetime (gc k)) /\
    240 <= c_refresh (gc k) < c_deadint (gc k).
Proof using Runs Reads.
  intros S. pose proof accepted as A.
  destruct (C75_general _ _ _ _ _ _ _ _ _ _ _ _ _ _ _ A S) as (G1 & G2 & G3 & G4 & G5 & G6 & _).
  destruct (C68_partial _ _ _ _ _ _ _ _ _ _ _ _ _ _ _ A S) as (net & _ & _ & N1 & _ & _ & _ & N2 & N3 & N4).
  destruct (C49_ranges _ _ _ _ _ _ _ _ _ _ _ _ _ _ A) as (R1 & R2 & _).
  exists (gc_network (cp_gen c)), (gc_site (cp_gen c)), (gc_router (cp_gen c)).
  split; [exact G1|]. split; [exact G2|]. split; [exact G3|]. split; [reflexivity|]. split; [reflexivity|].
  split; [cbn [gconf_of gc cp_conf c_lsaprefix]; rewrite N3, N2; reflexivity|].
  split; [cbn [gconf_of gc_sync]; rewrite N4, N2; reflexivity|].
  split; [exact G4|]. split; [exact G5|]. split; [exact G6|]. cbn [gconf_of gc cp_conf c_refresh c_deadint]. lia.
Qed.

(** C84: section neighbors (the neighbours: C84_neighbours). *)
Theorem C84_neighbors n : sections "neighbors" t = [n] ->
  option_is to_int "hello-retries" 3 n (Z.of_N (c_retry (gc k))) /\
  option_is to_u32 "hello-timeout" 1 n (c_resend (gc k)) /\
  option_is to_u32 "adj-lsa-build-interval" 10 n (c_build (gc k)) /\
  option_is to_u32 "face-dataset-fetch-tries" 3 n (Z.of_N (gc_tries k)) /\
  1 <= Z.of_N (c_retry (gc k)) <= 15 /\ 1 <= Z.of_N (gc_tries k) <= 10.
Proof using Runs Reads.
  intros S. pose proof accepted as A.
  destruct (C75_neighbors _ _ _ _ _ _ _ _ _ _ _ _ _ _ _ A S) as (G1 & G2 & _ & G4 & (v & G5 & G6) & _).
  pose proof (C49_ranges _ _ _ _ _ _ _ _ _ _ _ _ _ _ A) as R. unfold in_ranges in R. rewrite G5 in R.
  assert (V : 1 <= v <= 10) by (apply R; reflexivity). assert (W : 1 <= nc_retry (cp_nb c) <= 15) by apply R.
  cbn [gconf_of gc cp_conf c_retry c_resend c_build gc_tries]. rewrite G5, !Z2N.id by lia. auto 9.
Qed.

(** C84: section fib. *)
Theorem C84_fib f : sections "fib" t = [f] ->
  option_is to_int "max-faces-per-prefix" 0 f (Z.of_N (gc_max k)) /\
  option_is to_u32 "routing-calc-interval" 15 f (gc_calc k) /\
  Z.of_N (gc_max k) <= 60 /\ 0 <= gc_calc k <= 15.
Proof using Runs Reads.
  intros S. pose proof accepted as A.
  destruct (C75_fib _ _ _ _ _ _ _ _ _ _ _ _ _ _ _ A S) as (G1 & G2).
  pose proof (C49_ranges _ _ _ _ _ _ _ _ _ _ _ _ _ _ A) as R. unfold in_ranges in R.
  assert (V : 0 <= fc_maxf (cp_fib c) <= 60) by apply R. assert (W : 0 <= fc_calc (cp_fib c) <= 15) by apply R.
  cbn [gconf_of gc_max gc_calc]. rewrite Z2N.id by lia. split; [exact G1|]. split; [exact G2|]. lia.
Qed.

(** C84: section hyperbolic. *)
Theorem C84_hyperbolic h : sections "hyperbolic" t = [h] ->
  hyperbolic_says to_dbl to_angles h (HypC (c_hyp (gc k)) (c_radius (gc k)) (c_angles (gc k))).
Proof using Runs Reads.
  intros S. pose proof (C75_hyperbolic _ _ _ _ _ _ _ _ _ _ _ _ _ _ _ accepted S) as H.
  cbn [gconf_of gc cp_conf c_hyp c_radius c_angles]. now destruct (cp_hyp c).
Qed.

(** C84: what is not said has its documented value. *)
Theorem C84_missing :
  (sections "neighbors" t = [] -> c_retry (gc k) = 3%N /\ c_resend (gc k) = 1 /\ c_build (gc k) = 10) /\
  (sections "fib" t = [] -> gc_max k = 0%N /\ gc_calc k = 15) /\
  (sections "hyperbolic" t = [] -> c_hyp (gc k) = HOff).
Proof using Runs Reads.
  destruct (C75_missing _ _ _ _ _ _ _ _ _ _ _ _ _ _ accepted) as (M1 & M2 & M3 & _).
  cbn [gconf_of gc cp_conf c_retry c_resend c_build gc_max gc_calc c_hyp]. split; [|split].
  - intros S. destruct (M1 S) as (E1 & E2 & _ & E4 & _). rewrite E1, E2, E4. auto.
  - intros S. destruct (M2 S) as [-> ->]. auto.
  - exact M3.
Qed.

(** The prefixes of the file, as the model of the prefix commands takes them. *)
Lemma conf_prefixes : (forall s v, to_u64 s = Some v -> 0 <= v) ->
  exists cfg, Forall2 (fun e x => to_name (fst e) = Some (fst x) /\ to_u64 (pt_data (snd e)) = Some (Z.of_N (snd x))) (prefixes t) cfg /\
    cp_npl c = configured cfg.
Proof using Runs Reads.
  intros Pos. pose proof accepted as A. revert A. clear - Pos. unfold process_conf, prefixes, sections.
  apply (load_inv to_u32 to_int to_u64 to_dbl to_angles to_name to_uri any have rules_ok cert_ok ver (fun done c => exists cfg : list (name * N),
      Forall2 (fun e x => to_name (fst e) = Some (fst x) /\ to_u64 (pt_data (snd e)) = Some (Z.of_N (snd x)))
      (flat_map pt_children (flat_map (fun e => if eqb (fst e) "advertising"%string then [snd e] else []) done)) cfg /\ cp_npl c = configured cfg)).
  2: { exists []. split; [constructor|reflexivity]. }
  clear - Pos. intros done k t c c' (l & F & A) E. rewrite flat_map_app. cbn [flat_map fst snd app].
  destruct (eq_dec k "advertising"%string) as [->|Nk].
  - rewrite eqb_refl. cbn [app]. rewrite flat_map_app. cbn [flat_map]. rewrite app_nil_r. apply section_cases in E.
    destruct E as [[X _]|[[X _]|[[X _]|[[X _]|[[_ (m & E & ->)]|[N _]]]]]]; try discriminate; [|now destruct N as (_ & _ & _ & _ & N)].
    cbn [cp_npl]. revert E F A. generalize (flat_map pt_children (flat_map (fun e => if eqb (fst e) "advertising"%string then [snd e] else []) done)).
    generalize (cp_npl c). revert l. induction (pt_children t) as [|[k u] ch IH]; intros l p es E F A; cbn [conf_adv] in E.
    { injection E as <-. rewrite app_nil_r. eauto. }
    destruct (to_name k) as [n|] eqn:En; [|discriminate]. destruct (negb (eqb n [])); [|discriminate].
    destruct (to_u64 (pt_data u)) as [v|] eqn:Ev; [|discriminate].
    replace (es ++ (k, u) :: ch) with ((es ++ [(k, u)]) ++ ch) by (now rewrite <- app_assoc).
    apply (IH (l ++ [(n, Z.to_N v)]) _ _ E).
    + apply Forall2_app; [exact F|]. constructor; [|constructor]. cbn [fst snd]. rewrite Z2N.id by exact (Pos _ _ Ev). auto.
    + rewrite A. unfold configured. rewrite map_app. cbn [map fst snd]. rewrite after_snoc, Z2N.id by exact (Pos _ _ Ev). reflexivity.
  - pose proof (proj2 (eqb_neq _ _) Nk) as Nk'. rewrite Nk', !app_nil_r. exists l. split; [exact F|]. rewrite <- A.
    apply section_cases in E.
    destruct E as [[_ (g & E & ->)]|[[_ (n & E & ->)]|[[_ (y & E & ->)]|[[_ (f & E & ->)]|[[X _]|[_ (l' & ->)]]]]]]; try reflexivity.
    contradiction.
Qed.

(** ** Its neighbours and prefixes *)

Variables (uri_of : name -> string) (ang : list Z -> list Z -> Z) (dst : Z -> Z -> Z -> Z).
Variables (q : option seqs) (now sys : Z) (evs : list (inp * gev)).
Notation r := (drun canon c fs' q now sys evs).
Notation gstate := (S_Router.gstate k uri_of ang dst r).
Notation gtrace := (S_Router.gtrace k uri_of ang dst r).

(** C84: at every moment of every run, the neighbours are the declared ones, with the declared face URI and
    cost (0 with hyperbolic routing); the first declaration of a name counts. *)
Theorem C84_neighbours : g_dead gstate = false ->
  exists l, Forall2 (declares to_dbl to_name to_uri) (entries t) l /\
    NoDup (map a_name (h_adl (g_h gstate))) /\
    forall n u x, In (n, u, x) (map (fun a => (a_name a, a_uri a, a_cost a)) (h_adl (g_h gstate))) <->
      n <> [] /\ exists y, find (fun e => eqb (fst (fst e)) n) l = Some (n, u, y) /\ x = (if eqb (c_hyp (gc k)) HOn then 0 else y).
Proof using Runs Reads.
  intros U. destruct (C67_neighbours _ _ _ _ _ _ _ _ _ _ _ _ _ _ accepted) as (l & F & El & Hl & N & Z & _).
  exists l. split; [exact F|].
  pose proof (j_adl (J_exec k uri_of ang dst r U)) as A. cbn [drun u_nbs hinit fst h_adl] in A.
  unfold nbs_of in A. rewrite conf_adl_again in A by (try assumption; rewrite El; apply conf_adl_fresh).
  change (map (fun a => (a_name a, a_uri a, a_cost a)) (h_adl (g_h gstate))) with (map stat (h_adl (g_h gstate))).
  set (m := nc_adl (cp_nb c)) in *.
  assert (Fd : forall n u y, find (fun e => eqb (fst (fst e)) n) l = Some (n, u, y) /\ n <> [] <-> In (n, u, y) (map stat m)).
  { intros n u y. split.
    - intros [E Nn]. specialize (Hl n Nn). rewrite E in Hl. cbn [fst snd] in Hl. apply find_named in Hl as [Hl _].
      apply in_map_iff. eexists. split; [|exact Hl]. reflexivity.
    - intros H. apply in_map_iff in H as (a & E & H). unfold stat in E. injection E as E1 E2 E3.
      assert (Nn : n <> []) by (intros X; apply Z; rewrite <- X, <- E1; now apply in_map). split; [|exact Nn].
      specialize (Hl n Nn). assert (Fa : adl_find n m = Some a).
      { clear - H N E1. induction m as [|b m IH]; [destruct H|]. cbn [adl_find]. destruct (eqb (a_name b) n) eqn:Q.
        - destruct H as [->|H]; [reflexivity|]. apply (proj1 (eqb_eq _ _)) in Q. cbn in N. inversion N as [|? ? N1 N2]; subst.
          exfalso. apply N1. rewrite Q. now apply in_map.
        - destruct H as [->|H]; [apply eqb_neq in Q; contradiction|]. apply IH; [now inversion N|exact H]. }
      rewrite Fa in Hl. destruct (find _ l) as [[[n' u'] y']|] eqn:Q; [|discriminate Hl]. apply find_some in Q as [_ Q]. apply (proj1 (eqb_eq _ _)) in Q. cbn [fst snd] in *.
      subst n'. injection Hl as Hl. subst a. cbn in *. now subst. }
  rewrite A. split.
  - rewrite (names_of_stat _ _ A). unfold nlsr_adl. destruct (eqb (hc_hyp _) HOn); [rewrite map_map|]; exact N.
  - intros n u x. unfold nlsr_adl. change (hc_hyp (hconf_of k)) with (c_hyp (gc k)). destruct (eqb (c_hyp (gc k)) HOn).
    + split.
      * intros H. rewrite map_map in H. apply in_map_iff in H as (a & E & H). unfold stat in E. cbn in E. injection E as E1 E2 E3.
        assert (X : In (n, u, a_cost a) (map stat m)) by (apply in_map_iff; exists a; unfold stat; now rewrite E1, E2).
        apply Fd in X as [X Nn]. eauto.
      * intros (Nn & y & E & ->). assert (X : In (n, u, y) (map stat m)) by (apply Fd; auto). apply in_map_iff in X as (a & Ea & Ha). unfold stat in Ea. injection Ea as E1 E2 E3.
        rewrite map_map. apply in_map_iff. exists a. unfold stat. cbn. now rewrite E1, E2.
    + split.
      * intros H. apply Fd in H as [H Nn]. eauto.
      * intros (Nn & y & E & ->). apply Fd. auto.
Qed.

(** C84: at every moment of every run in which no fetched LSA claims to be this router's, the router
    stores exactly one Name LSA of its own; a prefix is in it exactly if it is advertised: the last command
    about it is an advertise command or, if there was none, the file lists it (the last cost listed
    counts). *)
Theorem C84_advertised : (forall s v, to_u64 s = Some v -> 0 <= v) ->
  g_dead gstate = false -> (forall l, fetched r l -> l_origin l <> c_self (gc k)) ->
  exists cfg, Forall2 (fun e x => to_name (fst e) = Some (fst x) /\ to_u64 (pt_data (snd e)) = Some (Z.of_N (snd x))) (prefixes t) cfg /\
  exists y, own_name_lsa (gc k) (g_pre gstate) y /\ (forall y', own_name_lsa (gc k) (g_pre gstate) y' -> y' = y) /\
    (forall p, get p (body_names (l_body y)) = first_cost (cfg_cost cfg p) (S_Router.pres gtrace) p) /\
    (forall p, In p (keys (body_names (l_body y))) <-> S_Prefix.advertised (existsb (fun e => eqb p (fst e)) cfg) (S_Router.pres gtrace) p = true).
Proof using Runs Reads.
  intros Pos U NF. destruct (conf_prefixes Pos) as (cfg & F & E). exists cfg. split; [exact F|].
  assert (P : S_Router.pres gtrace = S_Router.pres (snd (start k (g0 k r)) ++ later k uri_of ang dst r)) by (unfold S_Router.pres; now apply proj_start).
  set (tr := snd (start k (g0 k r)) ++ later k uri_of ang dst r) in *.
  pose proof (t_pre (tracks_exec k uri_of ang dst r)) as T. fold tr in T. rewrite P.
  assert (X : g_pre gstate = fst (pexec uri_of (gc k) q now sys (conf_adl (nbs_of c)) (configured cfg) (dyn_file canon c fs') (S_Router.pres tr))).
  { unfold pexec, pinit. rewrite <- E. unfold g0 in T. cbn [g_pre drun u_seqs u_now u_sys u_nbs u_list u_file] in T.
    destruct (init (gc k) q now _) as [d o]. cbn [fst] in T. rewrite T. reflexivity. }
  assert (N : pno_forged (gc k) (S_Router.pres tr)).
  { intros sy a fid y H. unfold S_Router.pres in H. apply in_flat_map in H as (g & Hg & H). destruct g; cbn in H; try contradiction. destruct H as [->|[]].
    apply NF. unfold tr in Hg. apply in_app_or in Hg as [Hg|Hg]; [apply start_fibP in Hg; destruct Hg|].
    apply run_fetch in Hg as (i & Hi). now exists i, fid. }
  assert (D : s_dead (p_db (g_pre gstate)) = false) by exact (db_up k uri_of ang dst r U).
  rewrite X in D. pose proof (C47_names_partial _ _ _ _ _ _ _ N D) as (y & Y1 & Y2 & Y3 & Y4). rewrite <- X in *.
  exists y. split; [exact Y1|]. split; [exact Y2|]. split; [exact Y4|]. intros p. rewrite Y3, X. apply C44_program. rewrite <- X. exact D.
Qed.
End Run.
End Main.

(** ** A start *)

Definition mainX := main z_of z_of z_of d_of (fun s => match d_of s with Some v => [v] | None => [] end) n_of Some
  (fun _ => true) (fun _ => true) (fun _ => true) (gen "v") (fun p => p) (fun _ => true).
Definition off_sec : ptree := PT "" [lf "state" "off"].
Definition treeX : ptree := file gen_sec off_sec.
Definition fsX : fsys := Fsys ["/d"%string] [("/etc/nlsr.conf"%string, (pt_lines 0 treeX, Some treeX))].
Definition argsX : list mopt := [MFile "other"; MFile "/etc/nlsr.conf"]%string.
Notation startX := (mainX argsX fsX).
Definition paramX : cparam := match proc treeX with Some c => c | None => cp_init end.
Definition evsX : list (inp * gev) := map at_ [GvHello (HvDataset [(300, "udp://a"%string)])%N; GvTick (10 * SEC); GvDb (EFire 2)].
Notation runX := (drun (fun p => p) paramX (snd startX) None 0 T0 evsX).
Notation confXX := (gconf_of 3 paramX).
Lemma startX_runs : startX = (XRuns paramX, snd startX) /\ g_dead (S_Router.gstate confXX uriR angR dstR runX) = false.
Proof. split; vm_compute; reflexivity. Qed.

Example C84_example : mainX argsX fsX = (XRuns paramX, snd startX) /\ reads (fun p => p) argsX fsX treeX /\
  sections "general" treeX = [gen_sec] /\ length (sections "neighbors" treeX) = 1%nat /\ length (sections "fib" treeX) = 1%nat /\
  sections "hyperbolic" treeX = [off_sec] /\ (forall s v, z_of s = Some v -> 0 <= v) /\
  g_dead (S_Router.gstate confXX uriR angR dstR runX) = false /\ (forall l, fetched runX l -> l_origin l <> c_self (gc confXX)) /\
  c_self (gc confXX) = nm ["net"; "s"; "r"]%string /\ c_refresh (gc confXX) = 300 /\ c_deadint (gc confXX) = 600 /\ c_resend (gc confXX) = 2 /\
  gc_max confXX = 2%N /\ c_retry (gc confXX) = 3%N /\
  map (fun a => (a_name a, a_uri a)) (h_adl (g_h (S_Router.gstate confXX uriR angR dstR runX))) =
    [(nm ["a"], "udp://a"); (nm ["b"], "udp://b")]%string.
Proof.
  split; [apply startX_runs|]. split.
  { split; [intros a [<-|[<-|[]]]; eauto|]. exists (pt_lines 0 treeX). reflexivity. }
  split; [reflexivity|]. split; [reflexivity|]. split; [reflexivity|]. split; [reflexivity|]. split.
  { intros s v. unfold z_of. repeat match goal with |- context [if ?b then _ else _] => destruct b end; intros E; try discriminate E; injection E as <-; lia. }
  split; [apply startX_runs|]. split; [intros l (i & fid & H); repeat (destruct H as [H|H]; [discriminate H|]); destruct H|].
  repeat match goal with |- _ /\ _ => split end; vm_compute; reflexivity.
Qed.
(** Refused: a file that is not there, one with a range error, the help option. *)
Example C84_refuses : mainX [] fsX = (XRefused, fsX) /\ mainX [MFile "/etc/nlsr.conf"%string; MHelp] fsX = (XExit 0, fsX) /\
  mainX [MBad; MHelp] fsX = (XExit 2, fsX).
Proof. vm_compute. repeat split; reflexivity. Qed.

Print Assumptions C84_start.
Print Assumptions C84_general.
Print Assumptions C84_neighbors.
Print Assumptions C84_fib.
Print Assumptions C84_hyperbolic.
Print Assumptions C84_missing.
Print Assumptions C84_neighbours.
Print Assumptions C84_advertised.
