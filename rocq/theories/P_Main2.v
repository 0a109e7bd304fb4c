(** C85: the files a start touches.  C86: starting again from the saved configuration. *)
From Coq Require Import DecimalString DecimalPos DecimalN.
From Verif Require Import Base M_Nexthop M_Tlv M_Adj M_Lsa M_Lsdb S_Lsdb L_Lsdb M_Prefix S_Prefix L_Prefix M_Sync M_Codec M_LinkState M_Hyperbolic M_RoutingTable M_Npt M_Fib S_Pipe
  M_Hello M_Router S_Router L_Hello L_Router L_Router2 L_Router3 L_Router5 L_Router6 L_Router8 M_Conf M_Main P_Prefix P_Prefix2 P_Conf P_Conf2 P_Router P_Router2 P_Router3 X_Lsdb X_Router P_Main.
Open Scope Z_scope.

(** ** Configuration trees *)

(** Everything but the advertising sections. *)
Definition others (t : ptree) : list (string * ptree) := filter (fun e => negb (eqb "advertising"%string (fst e))) (pt_children t).

Lemma others_upd f ch : filter (fun e : string * ptree => negb (eqb "advertising"%string (fst e))) (upd_child "advertising" f ch) =
  filter (fun e => negb (eqb "advertising"%string (fst e))) ch.
Proof.
  induction ch as [|[k u] ch IH]; [reflexivity|]. cbn [upd_child]. destruct (eqb "advertising"%string k) eqn:E; cbn [filter fst]; rewrite E; cbn [negb]; [reflexivity|].
  f_equal. exact IH.
Qed.
Lemma others_map f ch : filter (fun e : string * ptree => negb (eqb "advertising"%string (fst e))) (map_first "advertising" f ch) =
  filter (fun e => negb (eqb "advertising"%string (fst e))) ch.
Proof.
  induction ch as [|[k u] ch IH]; [reflexivity|]. cbn [map_first]. destruct (eqb "advertising"%string k) eqn:E; cbn [filter fst]; rewrite E; cbn [negb]; [reflexivity|].
  f_equal. exact IH.
Qed.
Lemma put_others u v t : others (ed_put ("advertising." ++ u) v t) = others t.
Proof. unfold others, ed_put. destruct (path_first u) as [r ->]. cbn [pt_put pt_children]. apply others_upd. Qed.
Lemma remove_others u t : dot_free u = true -> others (ed_remove ("advertising." ++ u) t) = others t.
Proof.
  intros D. unfold others, ed_remove. rewrite (split_section _ D). change (path_of "" "advertising") with ["advertising"%string].
  cbn [pt_at pt_children]. apply others_map.
Qed.

(** The listed costs and the listed prefixes are the same thing. *)
Lemma saved_prefixes t u : saved t u = map (fun e => pt_data (snd e)) (sel u (prefixes t)).
Proof.
  unfold saved, prefixes, sections, sel. induction (pt_children t) as [|[k s] ch IH]; [reflexivity|].
  cbn [filter flat_map fst snd]. rewrite (eqb_sym k). destruct (eqb "advertising"%string k); cbn [flat_map app snd]; [|exact IH].
  rewrite filter_app, map_app. now rewrite IH.
Qed.

Section Files.
Variables (to_u32 to_int to_u64 to_dbl : string -> option Z).
Variable to_angles : string -> list Z.
Variable to_name : string -> option name.
Variable to_uri : string -> option uri.
Variable have : string -> bool.
Variable rules_ok : ptree -> bool.
Variable cert_ok : string -> bool.
Variable ver : comp.
Variable canon : string -> string.
Variable may_write : string -> bool.
Notation main := (M_Main.main to_u32 to_int to_u64 to_dbl to_angles to_name to_uri have rules_ok cert_ok ver canon may_write).
Notation load_fs := (M_Main.load_fs to_u32 to_int to_u64 to_dbl to_angles to_name to_uri have rules_ok cert_ok ver canon may_write).
Notation any := (fun _ : string => true).
Notation process := (process_conf to_u32 to_int to_u64 to_dbl to_angles to_name to_uri any have rules_ok cert_ok ver).
Notation load := (conf_load to_u32 to_int to_u64 to_dbl to_angles to_name to_uri any have rules_ok cert_ok ver).
Notation section := (conf_section to_u32 to_int to_u64 to_dbl to_angles to_name to_uri any have rules_ok cert_ok ver).

(** ** The files a start touches *)

(** A state directory that the file names. *)
Definition names_dir (t : ptree) (d : string) : Prop := exists g, In g (sections "general" t) /\ get_str "state-dir" g = Some d.

Lemma prepare_files conf d fs p : let r := prepare canon may_write conf d fs in
  fs_dirs (snd r) = fs_dirs fs /\
  (p <> canon (join d "nlsr.conf") -> p <> canon (join d "test.seq") -> get p (fs_files (snd r)) = get p (fs_files fs)) /\
  (fst r = true -> canon (join d "test.seq") <> canon (join d "nlsr.conf") ->
     file_at canon (join d "nlsr.conf") (snd r) = file_at canon conf fs /\ file_at canon (join d "test.seq") (snd r) = None) /\
  (canon conf <> canon (join d "test.seq") -> file_at canon conf (snd r) = file_at canon conf fs).
Proof using.
  unfold prepare, file_at. cbv zeta. set (dyn := join d "nlsr.conf"). set (tst := join d "test.seq").
  assert (T : forall b, b = false -> let r := (b, fs) in fs_dirs (snd r) = fs_dirs fs /\
    (p <> canon dyn -> p <> canon tst -> get p (fs_files (snd r)) = get p (fs_files fs)) /\
    (fst r = true -> canon tst <> canon dyn -> get (canon dyn) (fs_files (snd r)) = get (canon conf) (fs_files fs) /\ get (canon tst) (fs_files (snd r)) = None) /\
    (canon conf <> canon tst -> get (canon conf) (fs_files (snd r)) = get (canon conf) (fs_files fs))).
  { intros b ->. cbn [fst snd]. split; [reflexivity|]. split; [reflexivity|]. split; [intros X; discriminate X|reflexivity]. }
  destruct (_ || _); [now apply T|]. destruct (eqb conf dyn); [now apply T|].
  destruct (get (canon conf) (fs_files fs)) as [x|] eqn:X; [|now apply T].
  destruct (eqb (canon conf) (canon dyn)) eqn:E; cbn [orb]; [now apply T|]. apply eqb_neq in E.
  destruct (is_dir canon dyn fs || negb (may_write (canon dyn))); [now apply T|]. clear T.
  destruct (_ || _); cbn [fst snd fs_dirs fs_files].
  - split; [reflexivity|]. split; [intros N _; now rewrite get_set_ne|]. split; [intros Y; discriminate Y|intros _; now rewrite get_set_ne].
  - split; [reflexivity|]. split; [|split].
    + intros N1 N2. now rewrite get_del_ne, get_set_ne.
    + intros _ N. rewrite get_del_eq, get_del_ne, get_set_eq by congruence. auto.
    + intros N. now rewrite get_del_ne, get_set_ne by congruence.
Qed.

Lemma section_dir k u c c' : section k u c = Some c' -> k = "general"%string -> get_str "state-dir" u = Some (gc_dir (cp_gen c')).
Proof using.
  intros E ->. apply section_cases in E. destruct E as [[_ (g & E & ->)]|[[X _]|[[X _]|[[X _]|[[X _]|[N _]]]]]]; try discriminate X; [|destruct N; congruence].
  cbn [cp_gen]. revert E. unfold conf_general.
  repeat match goal with
  | |- (if ?b then _ else None) = _ -> _ => destruct b; [|intros X; discriminate X]
  | |- (let x := ?e in _) = _ -> _ => cbv zeta
  | |- match ?e with Some _ => _ | None => None end = _ -> _ => destruct e eqn:?; [|intros X; discriminate X]
  end. intros X. injection X as <-. reflexivity.
Qed.

(** Files that stay. *)
Lemma load_files conf ch c fs p :
  let r := load_fs conf ch c fs in
  fs_dirs (snd r) = fs_dirs fs /\
  ((forall g d, In ("general"%string, g) ch -> get_str "state-dir" g = Some d -> p <> canon (join d "nlsr.conf") /\ p <> canon (join d "test.seq")) ->
     get p (fs_files (snd r)) = get p (fs_files fs)) /\
  ((forall g d, In ("general"%string, g) ch -> get_str "state-dir" g = Some d -> canon conf <> canon (join d "test.seq")) ->
     file_at canon conf (snd r) = file_at canon conf fs).
Proof using.
  revert c fs. induction ch as [|[k u] ch IH]; intros c fs; cbn [M_Main.load_fs]; [now repeat split|].
  unfold section_fs. destruct (section k u c) as [c1|] eqn:E; [|now repeat split].
  assert (W : forall fs1, (load_fs conf ch c1 fs1 = load_fs conf ch c1 fs1) ->
     fs_dirs (snd (load_fs conf ch c1 fs1)) = fs_dirs fs1 /\
     ((forall g d, In ("general"%string, g) ((k, u) :: ch) -> get_str "state-dir" g = Some d -> p <> canon (join d "nlsr.conf") /\ p <> canon (join d "test.seq")) ->
       get p (fs_files (snd (load_fs conf ch c1 fs1))) = get p (fs_files fs1)) /\
     ((forall g d, In ("general"%string, g) ((k, u) :: ch) -> get_str "state-dir" g = Some d -> canon conf <> canon (join d "test.seq")) ->
       file_at canon conf (snd (load_fs conf ch c1 fs1)) = file_at canon conf fs1)).
  { intros fs1 _. destruct (IH c1 fs1) as (I1 & I2 & I3). split; [exact I1|]. split; intros H; [apply I2|apply I3]; intros g d Hg; apply H; now right. }
  destruct (eqb k "general"%string) eqn:K; [|now apply W].
  apply (proj1 (eqb_eq _ _)) in K. pose proof (section_dir _ _ _ _ E K) as D. subst k.
  destruct (prepare_files conf (gc_dir (cp_gen c1)) fs p) as (P1 & P2 & _ & P4).
  destruct (prepare canon may_write conf (gc_dir (cp_gen c1)) fs) as [ok fs1]; cbn [fst snd] in *.
  assert (Q2 : (forall g d, In ("general"%string, g) (("general"%string, u) :: ch) -> get_str "state-dir" g = Some d -> p <> canon (join d "nlsr.conf") /\ p <> canon (join d "test.seq")) ->
     get p (fs_files fs1) = get p (fs_files fs)) by (intros H; destruct (H u _ (or_introl eq_refl) D); now apply P2).
  assert (Q3 : (forall g d, In ("general"%string, g) (("general"%string, u) :: ch) -> get_str "state-dir" g = Some d -> canon conf <> canon (join d "test.seq")) ->
     file_at canon conf fs1 = file_at canon conf fs) by (intros H; apply P4, (H u _ (or_introl eq_refl) D)).
  destruct ok; [|cbn [snd]; auto].
  destruct (W fs1 eq_refl) as (W1 & W2 & W3). split; [now rewrite W1|]. split; intros H.
  - now rewrite (W2 H), (Q2 H).
  - now rewrite (W3 H), (Q3 H).
Qed.

Lemma in_general t g : In ("general"%string, g) (pt_children t) <-> In g (sections "general" t).
Proof using.
  unfold sections. rewrite in_flat_map. split.
  - intros H. exists ("general"%string, g). split; [exact H|]. cbn. now left.
  - intros ([k u] & H & X). cbn [fst snd] in X. destruct (eqb k "general"%string) eqn:E; [|destruct X]. destruct X as [->|[]].
    apply (proj1 (eqb_eq _ _)) in E. now subst.
Qed.

Lemma main_reads args fs t : reads canon args fs t ->
  main args fs = (match fst (load_fs (conf_path args) (pt_children t) cp_init fs) with Some c => XRuns c | None => XRefused end,
                  snd (load_fs (conf_path args) (pt_children t) cp_init fs)).
Proof using.
  intros [F (ls & R)]. unfold M_Main.main. rewrite (args_files _ _ F). fold (conf_path args). unfold process_file. rewrite R.
  now destruct (load_fs _ _ _ _).
Qed.

(** C85: whatever the start, no directory changes, and no file other than nlsr.conf and test.seq in a state
    directory that the configuration names. *)
Theorem C85_only args fs p :
  (forall t d, reads canon args fs t -> names_dir t d -> p <> canon (join d "nlsr.conf") /\ p <> canon (join d "test.seq")) ->
  fs_dirs (snd (main args fs)) = fs_dirs fs /\ get p (fs_files (snd (main args fs))) = get p (fs_files fs).
Proof using.
  intros H. unfold M_Main.main. destruct (read_args args "nlsr.conf") as [code|conf] eqn:A; [now split|]. unfold process_file.
  destruct (file_at canon conf fs) as [[ls [t|]]|] eqn:R; [|now split|now split].
  assert (X : only_files args /\ conf = conf_path args).
  { clear - A. unfold conf_path. revert conf A. generalize "nlsr.conf"%string. induction args as [|a args IH]; intros f conf A; cbn [read_args] in A.
    - injection A as <-. split; [intros a []|reflexivity].
    - destruct a as [|g| |]; try discriminate A. destruct (IH _ _ A) as [I1 ->]. split; [intros b [<-|B]; eauto|].
      cbn [files_given flat_map app]. fold (files_given args). destruct (files_given args) as [|h l]; [reflexivity|]. cbn [last].
      clear. revert h. induction l as [|x l IH]; intros h; [reflexivity|]. cbn [last]. apply IH. }
  destruct X as [X1 X2]. subst conf.
  destruct (load_files (conf_path args) (pt_children t) cp_init fs p) as (L1 & L2 & _).
  destruct (load_fs _ _ _ _) as [r fs']. cbn [snd] in *. split; [exact L1|]. apply L2. intros g d Hg D. apply (H t).
  - split; [exact X1|now exists ls].
  - exists g. split; [now apply in_general|exact D].
Qed.

(** C85: the configuration file is as before, unless it is called test.seq and lies in the state directory. *)
Theorem C85_config args fs t : reads canon args fs t ->
  (forall d, names_dir t d -> canon (conf_path args) <> canon (join d "test.seq")) ->
  file_at canon (conf_path args) (snd (main args fs)) = file_at canon (conf_path args) fs.
Proof using.
  intros R H. rewrite (main_reads _ _ _ R). cbn [snd]. apply load_files; [exact ""%string|]. intros g d Hg D. apply H. exists g. split; [now apply in_general|exact D].
Qed.

Lemma load_once conf ch c fs c' fs' : load_fs conf ch c fs = (Some c', fs') ->
  forall g, flat_map (fun e : string * ptree => if eqb (fst e) "general"%string then [snd e] else []) ch = [g] ->
  get_str "state-dir" g = Some (gc_dir (cp_gen c')) /\ prepare canon may_write conf (gc_dir (cp_gen c')) fs = (true, fs').
Proof using.
  assert (None_ : forall ch c fs c' fs', load_fs conf ch c fs = (Some c', fs') ->
    flat_map (fun e : string * ptree => if eqb (fst e) "general"%string then [snd e] else []) ch = [] -> cp_gen c' = cp_gen c /\ fs' = fs).
  { clear. induction ch as [|[k u] ch IH]; intros c fs c' fs' E N; cbn [M_Main.load_fs] in E; [injection E as <- <-; auto|].
    cbn [flat_map fst snd] in N. unfold section_fs in E. destruct (section k u c) as [c1|] eqn:S; [|discriminate E].
    destruct (eqb k "general"%string) eqn:K; [discriminate N|]. destruct (IH _ _ _ _ E N) as [I1 ->]. split; [|reflexivity]. rewrite I1.
    apply eqb_neq in K. apply section_cases in S.
    destruct S as [[X _]|[[_ (? & _ & ->)]|[[_ (? & _ & ->)]|[[_ (? & _ & ->)]|[[_ (? & _ & ->)]|[_ (? & ->)]]]]]]; try reflexivity. congruence. }
  revert c fs. induction ch as [|[k u] ch IH]; intros c fs E g G; [discriminate G|]. cbn [M_Main.load_fs] in E. cbn [flat_map fst snd] in G.
  unfold section_fs in E. destruct (section k u c) as [c1|] eqn:S; [|discriminate E].
  destruct (eqb k "general"%string) eqn:K.
  - injection G as <- G. apply (proj1 (eqb_eq _ _)) in K. pose proof (section_dir _ _ _ _ S K) as D.
    destruct (prepare canon may_write conf (gc_dir (cp_gen c1)) fs) as [[|] fs1] eqn:P; [|discriminate E].
    destruct (None_ _ _ _ _ _ E G) as [-> ->]. auto.
  - now apply (IH c1 fs).
Qed.

(** C85: when the daemon runs, nlsr.conf in the state directory is a copy of the configuration file, and
    this is the file that commands edit. *)
Theorem C85_copied args fs fs' t c g d : main args fs = (XRuns c, fs') -> reads canon args fs t ->
  sections "general" t = [g] -> get_str "state-dir" g = Some d -> canon (join d "test.seq") <> canon (join d "nlsr.conf") ->
  dyn_file canon c fs' = file_at canon (conf_path args) fs /\ file_at canon (join d "nlsr.conf") fs' = file_at canon (conf_path args) fs /\
  file_at canon (join d "test.seq") fs' = None.
Proof using.
  intros E R G D N. rewrite (main_reads _ _ _ R) in E. destruct (load_fs _ _ _ _) as [[c1|] fs1] eqn:L; [|discriminate E]. cbn [fst snd] in E. injection E as <- <-.
  destruct (load_once _ _ _ _ _ _ L g G) as [D' P]. rewrite D in D'. injection D' as ->.
  destruct (prepare_files (conf_path args) (gc_dir (cp_gen c1)) fs ""%string) as (_ & _ & P3 & _). rewrite P in P3. cbn [fst snd] in P3.
  destruct (P3 eq_refl N) as [P4 P5]. split; [|auto]. unfold dyn_file. destruct (eqb (gc_dir (cp_gen c1)) ""%string) eqn:Q; [|exact P4].
  exfalso. unfold prepare in P. rewrite Q in P. discriminate P.
Qed.

(** C85: a start refused because of its general section (there is no other reason before it is looked at)
    changes nothing; for one refused later see [C85_refused_refuted]. *)
Theorem C85_refused_partial args fs t : reads canon args fs t ->
  (forall g g0, In g (sections "general" t) -> conf_general to_u32 to_int to_name any have ver g g0 = None) ->
  snd (main args fs) = fs.
Proof using.
  intros R H. rewrite (main_reads _ _ _ R). cbn [snd].
  assert (X : forall g g0, In ("general"%string, g) (pt_children t) -> conf_general to_u32 to_int to_name any have ver g g0 = None)
    by (intros g g0 Hg; apply H, in_general, Hg).
  clear - X. generalize cp_init. induction (pt_children t) as [|[k u] ch IH]; intros c; [reflexivity|]. cbn [M_Main.load_fs]. unfold section_fs.
  destruct (eq_dec k "general"%string) as [->|N].
  - unfold conf_section. change (eqb "general"%string "general"%string) with true. cbv iota. rewrite (X u _ (or_introl eq_refl)). reflexivity.
  - destruct (section k u c) as [c1|]; [|reflexivity]. apply (proj2 (eqb_neq _ _)) in N. rewrite N. apply IH. intros g g0 Hg. apply X. now right.
Qed.

(** ** Starting again from the saved configuration *)

Definition with_npl (m : plist) (c : cparam) : cparam := CParam (cp_gen c) (cp_nb c) (cp_hyp c) (cp_fib c) m (cp_certs c).

Lemma section_npl k u c m : k <> "advertising"%string -> section k u (with_npl m c) = option_map (with_npl m) (section k u c).
Proof using.
  intros N. apply (proj2 (eqb_neq _ _)) in N. unfold conf_section. rewrite N. cbn [with_npl cp_gen cp_nb cp_hyp cp_fib cp_npl cp_certs].
  destruct (eqb k "general"%string); [now destruct (conf_general _ _ _ _ _ _ _ _)|].
  destruct (eqb k "neighbors"%string); [now destruct (conf_nb _ _ _ _ _ _ _)|].
  destruct (eqb k "hyperbolic"%string); [now destruct (conf_hyp _ _ _ _)|].
  destruct (eqb k "fib"%string); [now destruct (conf_fib _ _ _)|].
  destruct (eqb k "security"%string); [now destruct (conf_sec _ _ _ _)|reflexivity].
Qed.
Lemma adv_app a b m : conf_adv to_u64 to_name (a ++ b) m =
  match conf_adv to_u64 to_name a m with Some m1 => conf_adv to_u64 to_name b m1 | None => None end.
Proof using.
  revert m. induction a as [|[k u] a IH]; intros m; [reflexivity|]. cbn [app conf_adv].
  destruct (to_name k) as [n|]; [|reflexivity]. destruct (negb (eqb n [])); [|reflexivity]. destruct (to_u64 (pt_data u)); [apply IH|reflexivity].
Qed.
(** The advertising sections and the others are read independently. *)
Lemma load_split ch c m : load ch (with_npl m c) =
  match load (filter (fun e => negb (eqb "advertising"%string (fst e))) ch) c,
        conf_adv to_u64 to_name (flat_map pt_children (flat_map (fun e => if eqb (fst e) "advertising"%string then [snd e] else []) ch)) m with
  | Some c1, Some m1 => Some (with_npl m1 c1) | _, _ => None end.
Proof using.
  revert c m. induction ch as [|[k u] ch IH]; intros c m; [reflexivity|]. cbn [filter flat_map fst snd]. rewrite (eqb_sym k).
  destruct (eqb "advertising"%string k) eqn:K; cbn [negb conf_load app flat_map].
  - apply (proj1 (eqb_eq _ _)) in K. subst k. rewrite adv_app. unfold conf_section at 1.
    change (eqb "advertising"%string "general"%string) with false. change (eqb "advertising"%string "neighbors"%string) with false.
    change (eqb "advertising"%string "hyperbolic"%string) with false. change (eqb "advertising"%string "fib"%string) with false.
    change (eqb "advertising"%string "advertising"%string) with true. cbv iota. cbn [with_npl cp_npl].
    destruct (conf_adv to_u64 to_name (pt_children u) m) as [m1|]; [|now destruct (load _ c)].
    exact (IH c m1).
  - rewrite section_npl by (intros ->; rewrite eqb_refl in K; discriminate K). destruct (section k u c) as [c1|]; cbn [option_map]; [apply IH|reflexivity].
Qed.
Lemma process_split t : process t =
  match load (others t) cp_init, conf_adv to_u64 to_name (prefixes t) [] with Some c1, Some m1 => Some (with_npl m1 c1) | _, _ => None end.
Proof using. unfold process_conf. change cp_init with (with_npl [] cp_init) at 1. apply load_split. Qed.

(** An entry of an advertising section is in order. *)
Definition entry_ok (e : string * ptree) : Prop :=
  exists n v, to_name (fst e) = Some n /\ n <> [] /\ to_u64 (pt_data (snd e)) = Some v.
Lemma adv_ok es m : (exists m', conf_adv to_u64 to_name es m = Some m') <-> (forall e, In e es -> entry_ok e).
Proof using.
  revert m. induction es as [|[k u] es IH]; intros m; cbn [conf_adv].
  - split; [intros _ e []|eauto].
  - split.
    + intros (m' & H). destruct (to_name k) as [n|] eqn:En; [|discriminate H]. destruct (eqb n []) eqn:Ez; cbn [negb] in H; [discriminate H|].
      destruct (to_u64 (pt_data u)) as [v|] eqn:Ev; [|discriminate H]. apply eqb_neq in Ez. intros e [<-|He]; [now exists n, v|].
      now apply (proj1 (IH _) (ex_intro _ _ H)).
    + intros H. destruct (H (k, u) (or_introl eq_refl)) as (n & v & E1 & E2 & E3). cbn [fst snd] in *. rewrite E1, E3.
      apply (proj2 (eqb_neq _ _)) in E2. rewrite E2. cbn [negb]. apply IH. intros e He. apply H. now right.
Qed.

Section Restart.
Variable uri_of : name -> string.
(** ndn-cxx: a name is read back from its URI, which is not empty; a 64-bit number is read back from its decimals. *)
Hypothesis name_back : forall n, to_name (uri_of n) = Some n.
Hypothesis uri_not_empty : forall n, uri_of n <> ""%string.
Hypothesis number_back : forall k, (k < 2 ^ 64)%N -> to_u64 (dec k) = Some (Z.of_N k).

(** The prefixes of the file are written as their URI, each once. *)
Definition plain (t : ptree) : Prop := tidy t /\ forall e n, In e (prefixes t) -> to_name (fst e) = Some n -> fst e = uri_of n.

(** The commands that save: their prefix is not "/", has no dot in its URI, and writing the file works. *)
Definition saving_ok (evs : list pev) : Prop := forall sys l m w, In (PvCmd sys l m w) evs -> m_proto m = Nlsr -> m_flags m = Some 1%N ->
  m_name m <> [] /\ dot_free (uri_of (m_name m)) = true /\ (forall k, m_cost m = Some k -> (k < 2 ^ 64)%N) /\ w = WOk.

Lemma saved_In t u s : In s (saved t u) <-> exists e, In e (prefixes t) /\ fst e = u /\ pt_data (snd e) = s.
Proof using.
  rewrite saved_prefixes. unfold sel. rewrite in_map_iff. split.
  - intros (e & E & H). apply filter_In in H as [H1 H2]. apply (proj1 (eqb_eq _ _)) in H2. eauto.
  - intros (e & H & <- & <-). exists e. split; [reflexivity|]. apply filter_In. split; [exact H|apply eqb_refl].
Qed.
(** What is accepted and plain, in terms of the listed costs. *)
Lemma entries_ok t : (forall e, In e (prefixes t) -> entry_ok e) /\ (forall e n, In e (prefixes t) -> to_name (fst e) = Some n -> fst e = uri_of n) <->
  forall u s, In s (saved t u) -> exists n v, u = uri_of n /\ n <> [] /\ to_u64 s = Some v.
Proof using name_back.
  split.
  - intros [H1 H2] u s H. apply saved_In in H as (e & He & <- & <-). destruct (H1 e He) as (n & v & E1 & E2 & E3). exists n, v. auto.
  - intros H. split.
    + intros e He. destruct (H (fst e) (pt_data (snd e))) as (n & v & E1 & E2 & E3); [apply saved_In; eauto|]. exists n, v. rewrite E1. auto.
    + intros e n He En. destruct (H (fst e) (pt_data (snd e))) as (n' & v & E1 & E2 & E3); [apply saved_In; eauto|].
      rewrite E1, name_back in En. injection En as <-. exact E1.
Qed.

(** The prefixes that a start from such a tree advertises. *)
Lemma start_prefixes t c : plain t -> process t = Some c ->
  forall n, get n (cp_npl c) = match saved t (uri_of n) with [] => None | s :: _ => option_map (fun v => (of_int v, [""%string])) (to_u64 s) end.
Proof using name_back.
  intros [[T1 T2] K] P n. destruct (C67_prefixes _ _ _ _ _ _ _ _ _ _ _ _ _ _ P) as (l & F & _ & A). rewrite A.
  specialize (T2 (uri_of n)). rewrite saved_prefixes in *. unfold sel in *. clear A P T1.
  assert (C : forall x e, In (e : string * ptree) (prefixes t) -> to_name (fst e) = Some x -> eqb (uri_of n) (fst e) = eqb x n).
  { intros x e He Ex. destruct (eqb x n) eqn:Q.
    - apply (proj1 (eqb_eq _ _)) in Q. subst x. rewrite (K _ _ He Ex). apply eqb_refl.
    - apply eqb_neq in Q. apply eqb_neq. intros Y. rewrite <- Y, name_back in Ex. congruence. }
  revert T2 C. generalize dependent l. induction (prefixes t) as [|e es IH]; intros l F T2 C; inversion F as [|? x ? l' [F1 F2] F3]; subst; [reflexivity|].
  cbn [rev filter] in *. rewrite (C _ e (or_introl eq_refl) F1) in *.
  assert (IH' := fun T => IH (fun e' n' H => K e' n' (or_intror H)) l' F3 T (fun x' e' H => C x' e' (or_intror H))).
  assert (Fa : forall (f : name * Z -> bool) a b, find f (a ++ [b]) = match find f a with Some y => Some y | None => if f b then Some b else None end).
  { clear. intros f a b. induction a as [|y a IH]; cbn; [now destruct (f b)|]. now destruct (f y). }
  rewrite Fa. destruct (eqb (fst x) n) eqn:Q; cbn [map] in *.
  - destruct (filter _ es) as [|? ?] eqn:Fe; [|cbn in T2; lia]. specialize (IH' (le_S _ _ (le_n _))). cbn [map] in IH'.
    destruct (find _ (rev l')) as [y|]; [discriminate IH'|]. rewrite F2. reflexivity.
  - specialize (IH' T2). destruct (find _ (rev l')) as [y|]; exact IH'.
Qed.

(** The file stays as it was but for its advertising section, which stays in order. *)
Definition keeps (t0 : ptree) (f : cfile) : Prop := exists ls t, f = Some (ls, Some t) /\ others t = others t0 /\ tidy t /\
  forall u s, In s (saved t u) -> exists n v, u = uri_of n /\ n <> [] /\ to_u64 s = Some v.

Lemma keeps_exec kc q now sys l p f t0 evs : keeps t0 f -> saving_ok evs -> keeps t0 (p_file (fst (pexec uri_of kc q now sys l p f evs))).
Proof using uri_not_empty number_back.
  intros Hf. induction evs as [|x evs IH] using rev_ind; intros Hw.
  - rewrite pexec_fst. cbn [run fst]. unfold pinit. destruct (init _ _ _ _). exact Hf.
  - rewrite pexec_snoc. set (s := fst (pexec uri_of kc q now sys l p f evs)) in *.
    assert (T : keeps t0 (p_file s)) by (apply IH; intros sys0 l0 m0 w0 Hin; apply (Hw sys0 l0), in_app_iff; now left).
    destruct x as [sys' l' v|sys' l' m w].
    { rewrite C46_untouched; [exact T|]. intros ? ? ? ? X. discriminate X. }
    destruct (m_proto m) eqn:Ep.
    2: { rewrite C46_untouched; [exact T|]. intros ? ? ? ? X P. injection X as <- <- <- <-. congruence. }
    destruct (eq_dec (m_flags m) (Some 1%N)) as [Hfl|Hfl].
    2: { rewrite C46_untouched; [exact T|]. intros ? ? ? ? X _. injection X as <- <- <- <-. exact Hfl. }
    destruct (Hw sys' l' m w) as (N1 & N2 & N3 & ->); [apply in_app_iff; right; now left|exact Ep|exact Hfl|].
    unfold pstep. destruct (s_dead (p_db s)); [exact T|]. cbn [pstep_live]. rewrite do_cmd_file. destruct (saves m); [|exact T].
    destruct T as (ls & t & E & T1 & T2 & T3). unfold after_cmd. rewrite Ep.
    assert (Old : keeps t0 (Some (ls, Some t))) by (exists ls, t; auto).
    rewrite E. destruct (m_add m); unfold add_or_delete.
    + destruct (in_file _ _); [exact Old|]. cbn [ed_save snd]. set (k := match m_cost m with Some k => k | None => 0%N end).
      destruct (@put_saved t (uri_of (m_name m)) (dec k) T2 N2 (uri_not_empty _)) as (Q1 & Q2 & Q3).
      do 2 eexists. split; [reflexivity|]. split; [rewrite put_others; exact T1|]. split; [exact Q1|].
      intros u s0 H. destruct (eq_dec u (uri_of (m_name m))) as [->|Nu]; [|rewrite Q3 in H by exact Nu; now apply T3].
      rewrite Q2 in H. destruct H as [<-|[]]. exists (m_name m), (Z.of_N k). split; [reflexivity|]. split; [exact N1|]. apply number_back.
      unfold k. destruct (m_cost m); [now apply N3|reflexivity].
    + destruct (negb _); [exact Old|]. cbn [ed_save snd].
      destruct (@remove_saved t (uri_of (m_name m)) T2 N2) as (Q1 & Q2 & Q3).
      do 2 eexists. split; [reflexivity|]. split; [rewrite remove_others by exact N2; exact T1|]. split; [exact Q1|].
      intros u s0 H. destruct (eq_dec u (uri_of (m_name m))) as [->|Nu]; [rewrite Q2 in H; destruct H|rewrite Q3 in H by exact Nu; now apply T3].
Qed.

Lemma keeps_start t c : plain t -> process t = Some c -> forall ls, keeps t (Some (ls, Some t)).
Proof using name_back.
  intros [T K] P ls. exists ls, t. split; [reflexivity|]. split; [reflexivity|]. split; [exact T|]. apply entries_ok. split; [|exact K].
  rewrite process_split in P. destruct (load (others t) cp_init); [|discriminate P]. destruct (conf_adv _ _ (prefixes t) []) as [m|] eqn:A; [|discriminate P].
  apply (proj1 (adv_ok _ []) (ex_intro _ _ A)).
Qed.
Lemma keeps_process t0 c0 f : process t0 = Some c0 -> keeps t0 f ->
  exists ls t c, f = Some (ls, Some t) /\ plain t /\ process t = Some c /\ with_npl [] c = with_npl [] c0 /\ others t = others t0.
Proof using name_back.
  intros P (ls & t & E & O & T & S). apply entries_ok in S as [S1 S2]. exists ls, t. rewrite process_split in *. rewrite O.
  destruct (load (others t0) cp_init) as [c1|]; [|discriminate P]. destruct (conf_adv _ _ (prefixes t0) []) as [m0|]; [|discriminate P]. injection P as <-.
  destruct (proj2 (adv_ok _ []) S1) as (m & ->). exists (with_npl m c1). split; [exact E|]. split; [split; assumption|]. auto.
Qed.

(** A start with state directory [d] succeeds as far as the files are concerned. *)
Definition usable (conf d : string) (fs : fsys) : Prop := d <> ""%string /\ is_dir canon d fs = true /\
  canon conf <> canon (join d "nlsr.conf") /\ is_dir canon (join d "nlsr.conf") fs = false /\ is_dir canon (join d "test.seq") fs = false /\
  may_write (canon (join d "nlsr.conf")) = true /\ may_write (canon (join d "test.seq")) = true.

Lemma prepare_usable conf d fs : usable conf d fs -> file_at canon conf fs <> None -> exists fs', prepare canon may_write conf d fs = (true, fs').
Proof using.
  intros (U1 & U2 & U3 & U4 & U5 & U6 & U7) F. unfold prepare. rewrite (proj2 (eqb_neq _ _) U1), U2. cbn [negb orb].
  assert (X : eqb conf (join d "nlsr.conf") = false) by (apply eqb_neq; intros ->; now apply U3). rewrite X.
  destruct (file_at canon conf fs) as [x|]; [|congruence]. rewrite (proj2 (eqb_neq _ _) U3), U4, U5, U6, U7. cbn [orb negb]. eauto.
Qed.
Lemma load_fs_runs conf ch c fs c' : load ch c = Some c' -> file_at canon conf fs <> None ->
  forall g d, flat_map (fun e : string * ptree => if eqb (fst e) "general"%string then [snd e] else []) ch = [g] -> get_str "state-dir" g = Some d -> usable conf d fs ->
  exists fs', load_fs conf ch c fs = (Some c', fs').
Proof using.
  intros L F g d G D U.
  assert (None_ : forall ch c c' fs, load ch c = Some c' ->
    flat_map (fun e : string * ptree => if eqb (fst e) "general"%string then [snd e] else []) ch = [] -> load_fs conf ch c fs = (Some c', fs)).
  { clear. induction ch as [|[k u] ch IH]; intros c c' fs E N; cbn [conf_load M_Main.load_fs] in *; [now injection E as <-|].
    cbn [flat_map fst snd] in N. unfold section_fs. destruct (section k u c) as [c1|]; [|discriminate E].
    destruct (eqb k "general"%string); [discriminate N|]. now apply IH. }
  revert c L G. induction ch as [|[k u] ch IH]; intros c L G; [discriminate G|]. cbn [conf_load M_Main.load_fs] in *. cbn [flat_map fst snd] in G.
  unfold section_fs. destruct (section k u c) as [c1|] eqn:S; [|discriminate L].
  destruct (eqb k "general"%string) eqn:K; [|now apply IH].
  injection G as -> G. apply (proj1 (eqb_eq _ _)) in K. pose proof (section_dir _ _ _ _ S K) as D'. rewrite D in D'. injection D' as <-.
  destruct (prepare_usable _ _ _ U F) as (fs1 & ->). exists fs1. now apply None_.
Qed.
Lemma general_others t t' : others t = others t' -> sections "general" t = sections "general" t'.
Proof using.
  assert (X : forall t, sections "general" t = flat_map (fun e => if eqb (fst e) "general"%string then [snd e] else []) (others t)).
  { clear. intros t. unfold sections, others. induction (pt_children t) as [|[k u] ch IH]; [reflexivity|]. cbn [flat_map filter fst snd].
    destruct (eqb "advertising"%string k) eqn:E; cbn [negb].
    - apply (proj1 (eqb_eq _ _)) in E. subst k. exact IH.
    - cbn [flat_map fst snd]. now rewrite IH. }
  intros E. now rewrite !X, E.
Qed.

(** The start that the file [f] gives. *)
Definition restarts (f : cfile) (d : string) (c : cparam) : Prop := forall args fs, only_files args ->
  file_at canon (conf_path args) fs = f -> usable (conf_path args) d fs -> exists fs', main args fs = (XRuns c, fs').

Lemma process_restarts ls t c g d : process t = Some c -> sections "general" t = [g] -> get_str "state-dir" g = Some d -> restarts (Some (ls, Some t)) d c.
Proof using.
  intros P G D args fs A F U. assert (R : reads canon args fs t) by (split; [exact A|now exists ls]). rewrite (main_reads _ _ _ R).
  destruct (load_fs_runs (conf_path args) (pt_children t) cp_init fs c P) with (g := g) (d := d) as (fs' & L); trivial; [now rewrite F|].
  rewrite L. now exists fs'.
Qed.

(** C86: a daemon was started from a plain file, and commands have saved prefixes (without a dot in their
    URI, and not "/").  A start from a copy of the saved file then succeeds with the same parameters; it
    advertises exactly the prefixes that the saved file lists, at the listed costs. *)
Theorem C86_restart_partial args fs fs' t c g d kc q now sys l p evs :
  main args fs = (XRuns c, fs') -> reads canon args fs t -> plain t ->
  sections "general" t = [g] -> get_str "state-dir" g = Some d -> canon (join d "test.seq") <> canon (join d "nlsr.conf") ->
  saving_ok evs ->
  let f := p_file (fst (pexec uri_of kc q now sys l p (dyn_file canon c fs') evs)) in
  exists c', restarts f d c' /\
    cp_gen c' = cp_gen c /\ cp_nb c' = cp_nb c /\ cp_hyp c' = cp_hyp c /\ cp_fib c' = cp_fib c /\ cp_certs c' = cp_certs c /\
    forall n, exists x, saved_in f (uri_of n) = Some x /\
      match x with [] => get n (cp_npl c') = None
                 | _ => exists s v, x = [s] /\ to_u64 s = Some v /\ get n (cp_npl c') = Some (of_int v, [""%string]) end.
Proof using name_back uri_not_empty number_back.
  intros M R Pl G D N Sv f.
  destruct (C85_copied _ _ _ _ _ _ _ M R G D N) as (Dy & _ & _).
  assert (P : process t = Some c) by exact (accepted _ _ _ _ _ _ _ _ _ _ _ _ _ _ _ _ _ _ M R).
  destruct R as [_ (ls & R)]. rewrite R in Dy.
  assert (K : keeps t f) by (unfold f; rewrite Dy; apply keeps_exec; [now apply (keeps_start t c)|exact Sv]).
  destruct (keeps_process t c f P K) as (ls' & t' & c' & E & Pl' & P' & W & O).
  destruct K as (ls2 & t2 & E2 & _ & _ & S). rewrite E in E2. injection E2 as <- <-.
  exists c'. split; [rewrite E; apply (process_restarts _ _ _ g); trivial; now rewrite <- G; apply general_others|].
  unfold with_npl in W. injection W as W1 W2 W3 W4 W5. do 5 (split; [assumption|]).
  intros n. rewrite E. cbn [saved_in]. exists (saved t' (uri_of n)). split; [reflexivity|].
  pose proof (start_prefixes t' c' Pl' P' n) as A. destruct Pl' as [[_ T] _]. specialize (T (uri_of n)).
  destruct (saved t' (uri_of n)) as [|s [|? ?]] eqn:Q; [exact A| |cbn in T; lia].
  destruct (S (uri_of n) s) as (_ & v & _ & _ & V); [rewrite Q; now left|]. exists s, v. rewrite V in A. auto.
Qed.

(** C86: in particular after a command with the save flag that was answered 205: an advertised prefix
    is advertised again at its cost, a withdrawn one is not, and nothing else changes. *)
Theorem C86_command_partial args fs fs' t c g d kc q now sys l p evs sys' l' m face :
  main args fs = (XRuns c, fs') -> reads canon args fs t -> plain t ->
  sections "general" t = [g] -> get_str "state-dir" g = Some d -> canon (join d "test.seq") <> canon (join d "nlsr.conf") ->
  saving_ok (evs ++ [PvCmd sys' l' m WOk]) -> m_proto m = Nlsr -> m_flags m = Some 1%N ->
  let s := fst (pexec uri_of kc q now sys l p (dyn_file canon c fs') evs) in
  let r := pstep uri_of kc s (PvCmd sys' l' m WOk) in
  In (205%N, face) (replies (snd r)) ->
  exists c0 c1, restarts (p_file s) d c0 /\ restarts (p_file (fst r)) d c1 /\
    get (m_name m) (cp_npl c1) = (if m_add m then Some (cmd_cost m, [""%string]) else None) /\
    forall n, n <> m_name m -> get n (cp_npl c1) = get n (cp_npl c0).
Proof using name_back uri_not_empty number_back.
  intros M R Pl G D N Sv Pr Fl s r Rp.
  assert (Sv0 : saving_ok evs) by (intros sy l0 m0 w0 H; apply (Sv sy l0), in_app_iff; now left).
  destruct (Sv sys' l' m WOk) as (N1 & N2 & N3 & _); [apply in_app_iff; right; now left|exact Pr|exact Fl|].
  destruct (C86_restart_partial _ _ _ _ _ _ _ kc q now sys l p _ M R Pl G D N Sv0) as (c0 & A0 & _ & _ & _ & _ & _ & B0).
  destruct (C86_restart_partial _ _ _ _ _ _ _ kc q now sys l p _ M R Pl G D N Sv) as (c1 & A1 & _ & _ & _ & _ & _ & B1).
  rewrite pexec_snoc in A1, B1. fold s in A0, B0, A1, B1. fold r in A1, B1. exists c0, c1. split; [exact A0|]. split; [exact A1|].
  assert (T : tidy_file (p_file s)).
  { destruct (C85_copied _ _ _ _ _ _ _ M R G D N) as (Dy & _ & _).
    assert (P : process t = Some c) by exact (accepted _ _ _ _ _ _ _ _ _ _ _ _ _ _ _ _ _ _ M R).
    destruct R as [_ (ls & R)]. rewrite R in Dy.
    assert (K : keeps t (p_file s)) by (unfold s; rewrite Dy; apply keeps_exec; [now apply (keeps_start t c)|exact Sv0]).
    destruct K as (ls' & t' & -> & _ & T & _). exact T. }
  destruct (@saved_step uri_of kc s sys' l' m WOk face T Pr Fl N2 (uri_not_empty _) Rp) as [S1 S2]. fold r in S1, S2. split.
  - destruct (B1 (m_name m)) as (x & X & Y). rewrite S1 in X. injection X as <-. destruct (m_add m); [|exact Y].
    destruct Y as (s0 & v & E & V & ->). injection E as <-. rewrite number_back in V by (destruct (m_cost m); [now apply N3|reflexivity]).
    injection V as <-. reflexivity.
  - intros n Nn. assert (Nu : uri_of n <> uri_of (m_name m)) by (intros E; apply Nn; pose proof (name_back n) as X; rewrite E, name_back in X; congruence).
    destruct (B0 n) as (x & X & Y). destruct (B1 n) as (x' & X' & Y'). rewrite (S2 _ Nu), X in X'. injection X' as <-.
    destruct x; [congruence|]. destruct Y as (s1 & v1 & E1 & V1 & ->), Y' as (s2 & v2 & E2 & V2 & ->). rewrite E1 in E2. injection E2 as <-. congruence.
Qed.
End Restart.
End Files.

(** ** A concrete text form of names and numbers *)

(** "/", then for each component as many # as its type, =, its octets (/ and % escaped by %), and /. *)
Fixpoint hashes (k : nat) (r : string) : string := match k with O => r | S k' => String "#" (hashes k' r) end.
Fixpoint escape (v r : string) : string :=
  match v with
  | EmptyString => r
  | String c v' => if Ascii.eqb c "/" || Ascii.eqb c "%" then String "%" (String c (escape v' r)) else String c (escape v' r)
  end.
Definition text_of (n : name) : string :=
  String "/" (fold_right (fun x r => hashes (N.to_nat (ctype x)) (String "=" (escape (cval x) (String "/" r)))) ""%string n).
Fixpoint name_in (st : nat + nat * string) (s : string) : option name :=
  match st, s with
  | inl O, EmptyString => Some []
  | inl k, String "#" s' => name_in (inl (S k)) s'
  | inl k, String "=" s' => name_in (inr (k, ""%string)) s'
  | inr (k, v), String "%" (String c s') => name_in (inr (k, v ++ String c "")%string) s'
  | inr (k, v), String "/" s' => option_map (cons (Comp (N.of_nat k) v)) (name_in (inl O) s')
  | inr (k, v), String c s' => name_in (inr (k, v ++ String c "")%string) s'
  | _, _ => None
  end.
Definition name_of (s : string) : option name := match s with String "/" s' => name_in (inl O) s' | _ => Some [gen s] end.
Definition num_of (s : string) : option Z :=
  if eqb s ""%string then None else option_map (fun d => Z.of_N (N.of_uint d)) (NilEmpty.uint_of_string s).

Lemma read_hashes k j r : name_in (inl j) (hashes k (String "=" r)) = name_in (inr (j + k, ""%string)%nat) r.
Proof.
  revert j. induction k as [|k IH]; intros j; cbn [hashes].
  - rewrite Nat.add_0_r. destruct j; reflexivity.
  - transitivity (name_in (inl (S j)) (hashes k (String "=" r))); [now destruct j|]. rewrite IH. now rewrite <- plus_n_Sm.
Qed.
Lemma read_escape v k acc r : name_in (inr (k, acc)) (escape v (String "/" r)) = option_map (cons (Comp (N.of_nat k) (acc ++ v))) (name_in (inl O) r).
Proof.
  revert acc. induction v as [|c v IH]; intros acc; cbn [escape].
  - rewrite append_nil. reflexivity.
  - assert (A : (acc ++ String c v = (acc ++ String c "") ++ v)%string) by (now rewrite append_assoc).
    rewrite A, <- IH. destruct (Ascii.eqb c "/" || Ascii.eqb c "%") eqn:E; [reflexivity|].
    destruct c as [[] [] [] [] [] [] [] []]; try reflexivity; discriminate E.
Qed.
Lemma name_text n : name_of (text_of n) = Some n.
Proof.
  unfold name_of, text_of. induction n as [|x n IH]; [reflexivity|]. cbn [fold_right]. rewrite read_hashes, read_escape, IH.
  cbn [option_map Nat.add append]. rewrite N2Nat.id. now destruct x.
Qed.
Lemma num_text k : num_of (dec k) = Some (Z.of_N k).
Proof.
  unfold num_of, dec. destruct (eqb _ ""%string) eqn:E.
  - exfalso. apply (proj1 (eqb_eq _ _)) in E. assert (X : N.to_uint k = Decimal.Nil).
    { pose proof (NilEmpty.usu (N.to_uint k)) as U. rewrite E in U. cbn in U. congruence. }
    destruct k; [discriminate X|]. exact (DecimalPos.Unsigned.to_uint_nonnil _ X).
  - rewrite NilEmpty.usu. cbn [option_map]. now rewrite DecimalN.Unsigned.of_to.
Qed.

(** ** Cases *)

Definition mainS := main num_of num_of num_of (fun s => option_map of_int (num_of s)) (fun _ => []) name_of Some
  (fun _ => true) (fun _ => true) (fun _ => true) (gen "v") (fun p => p) (fun _ => true).
Definition pvS : name := nm ["ndn"; "video"]%string.
Definition pmS : name := nm ["ndn"; "mail"]%string.
Definition treeS (fibv : string) : ptree := PT "" [
  ("general"%string, PT "" [lf "network" "net"; lf "site" "s"; lf "router" "r"; lf "state-dir" "/d"]);
  ("advertising"%string, PT "" [(text_of pvS, PT "5" [])]);
  ("fib"%string, PT "" [lf "max-faces-per-prefix" fibv])].
Definition fileS (t : ptree) : content := (pt_lines 0 t, Some t).
Definition fsS (p : string) (t : ptree) : fsys := Fsys ["/d"%string] [(p, fileS t)].
Definition at_etc : list mopt := [MFile "/etc/nlsr.conf"%string].
Definition paramS (t : ptree) : cparam := match fst (mainS at_etc (fsS "/etc/nlsr.conf" t)) with XRuns c => c | _ => cp_init end.
Definition dynS (t : ptree) : cfile := dyn_file (fun p => p) (paramS t) (snd (mainS at_etc (fsS "/etc/nlsr.conf" t))).
Definition execS (evs : list pev) : pst := fst (pexec text_of (gc (gconf_of 3 (paramS (treeS "2")))) None 0 T0 [] (cp_npl (paramS (treeS "2"))) (dynS (treeS "2")) evs).
Definition saveS (add : bool) (n : name) (k : N) : pev := PvCmd T0 [] (Cmd Nlsr add n (Some k) (Some 1%N) None) WOk.
(** A start from a copy of what the file holds then. *)
Definition againS (evs : list pev) : started :=
  match p_file (execS evs) with Some x => fst (mainS at_etc (Fsys ["/d"%string] [("/etc/nlsr.conf"%string, x)])) | None => XRefused end.

(** The hypotheses of C86 hold for a start, a saved prefix at cost 7 and one withdrawn; the start from the
    saved file advertises the prefix at cost 7. *)
Example C86_example :
  (forall n, name_of (text_of n) = Some n) /\ (forall n, text_of n <> ""%string) /\ (forall k, (k < 2 ^ 64)%N -> num_of (dec k) = Some (Z.of_N k)) /\
  fst (mainS at_etc (fsS "/etc/nlsr.conf" (treeS "2"))) = XRuns (paramS (treeS "2")) /\
  reads (fun p => p) at_etc (fsS "/etc/nlsr.conf" (treeS "2")) (treeS "2") /\ plain name_of text_of (treeS "2") /\
  saving_ok text_of [saveS true pmS 7] /\
  replies (snd (pstep text_of (gc (gconf_of 3 (paramS (treeS "2")))) (execS []) (saveS true pmS 7))) = [(205, 1)]%N /\
  match againS [saveS true pmS 7] with
  | XRuns c => get pmS (cp_npl c) = Some (of_int 7, [""%string]) /\ get pvS (cp_npl c) = Some (of_int 5, [""%string]) /\ fc_maxf (cp_fib c) = 2
  | _ => False
  end.
Proof.
  split; [exact name_text|]. split; [intros n E; discriminate E|]. split; [intros k _; apply num_text|]. split; [vm_compute; reflexivity|].
  split; [split; [intros a [<-|[]]; eauto|]; now exists (pt_lines 0 (treeS "2"))|]. split.
  { split; [split; [cbn; lia|intros u; rewrite saved_prefixes; change (sel u (prefixes (treeS "2"))) with (if eqb u (text_of pvS) then [(text_of pvS, PT "5" [])] else []);
      destruct (eqb u (text_of pvS)); cbn [map length]; lia]|].
    intros e n [<-|[]] E. cbn [fst] in *. rewrite name_text in E. now injection E as <-. }
  split; [|split; [vm_compute; reflexivity|vm_compute; repeat split; reflexivity]].
  intros sys l m w [E|[]] _ _. injection E as _ _ <- <-. split; [discriminate|]. split; [reflexivity|]. split; [|reflexivity].
  intros k E. injection E as <-. reflexivity.
Qed.

(** A prefix whose URI has a dot, and the prefix "/", are saved with answer 205; the saved file is then
    refused at the next start. *)
Theorem C86_dot_refuted : let n := nm ["v1.0"]%string in
  replies (snd (pstep text_of (gc (gconf_of 3 (paramS (treeS "2")))) (execS []) (saveS true n 0))) = [(205, 1)]%N /\
  againS [saveS true n 0] = XRefused /\ exists c, againS [] = XRuns c.
Proof. split; [vm_compute; reflexivity|]. split; [vm_compute; reflexivity|]. eexists. vm_compute. reflexivity. Qed.
Theorem C86_root_refuted :
  replies (snd (pstep text_of (gc (gconf_of 3 (paramS (treeS "2")))) (execS []) (saveS true [] 0))) = [(205, 1)]%N /\
  againS [saveS true [] 0] = XRefused.
Proof. split; vm_compute; reflexivity. Qed.

(** The hypotheses of C85 hold for this start: only the two files in the state directory change. *)
Example C85_example : let r := mainS at_etc (fsS "/etc/nlsr.conf" (treeS "2")) in
  fst r = XRuns (paramS (treeS "2")) /\ names_dir (treeS "2") "/d" /\
  fs_files (snd r) = [("/etc/nlsr.conf"%string, fileS (treeS "2")); ("/d/nlsr.conf"%string, fileS (treeS "2"))] /\
  fst (mainS at_etc (fsS "/etc/nlsr.conf" (PT "" [("general"%string, PT "" [])]))) = XRefused.
Proof.
  split; [vm_compute; reflexivity|]. split; [|split; vm_compute; reflexivity]. eexists. split; [left; reflexivity|reflexivity].
Qed.

(** A configuration file called test.seq in the state directory is deleted by the start that reads it. *)
Theorem C85_test_refuted : let r := mainS [MFile "/d/test.seq"%string] (fsS "/d/test.seq" (treeS "2")) in
  fst r = XRuns (paramS (treeS "2")) /\ file_at (fun p => p) "/d/test.seq" (snd r) = None.
Proof. split; vm_compute; reflexivity. Qed.

(** A start that is refused (here: too many faces per prefix) has already replaced the saved prefixes in the
    state directory. *)
Theorem C85_refused_refuted :
  let saved_file := match p_file (execS [saveS true pmS 7]) with Some x => x | None => fileS (treeS "2") end in
  let fs := Fsys ["/d"%string] [("/etc/nlsr.conf"%string, fileS (treeS "61")); ("/d/nlsr.conf"%string, saved_file)] in
  let r := mainS at_etc fs in
  fst r = XRefused /\ saved_in (file_at (fun p => p) "/d/nlsr.conf" fs) (text_of pmS) = Some ["7"%string] /\
  saved_in (file_at (fun p => p) "/d/nlsr.conf" (snd r)) (text_of pmS) = Some [].
Proof. split; [vm_compute; reflexivity|]. split; vm_compute; reflexivity. Qed.

Print Assumptions C85_only.
Print Assumptions C85_config.
Print Assumptions C85_copied.
Print Assumptions C85_refused_partial.
Print Assumptions C85_test_refuted.
Print Assumptions C85_refused_refuted.
Print Assumptions C86_restart_partial.
Print Assumptions C86_command_partial.
Print Assumptions C86_dot_refuted.
Print Assumptions C86_root_refuted.
