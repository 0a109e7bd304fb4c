(** C75, C76: an accepted configuration file means what it says: every option has the value given, or its
    documented default; every certificate listed is published. *)
From Verif Require Import Base M_Nexthop M_Tlv M_Adj M_Lsa M_Lsdb M_Prefix M_Sync M_Codec M_Hello M_Conf L_Hello P_Conf.
Open Scope Z_scope.

(** ** The specification *)

(** The value [v] of an option of the file: the number its text stands for; the default [d] if the option
    is missing (or, what nlsr.conf does not say, if its text does not stand for a number). *)
Definition option_is (parse : string -> option Z) (k : string) (d : Z) (t : ptree) (v : Z) : Prop :=
  match get_str k t with
  | None => v = d
  | Some s => match parse s with Some w => v = w | None => v = d end
  end.
Definition name_is (parse : string -> option name) (k : string) (t : ptree) (n : name) : Prop :=
  exists s, get_str k t = Some s /\ parse s = Some n.

Section Conf.
Variables (to_u32 to_int to_u64 to_dbl : string -> option Z).
Variable to_angles : string -> list Z.
Variable to_name : string -> option name.
Variable to_uri : string -> option uri.
Variable dir_ok : string -> bool.
Variable have : string -> bool.
Variable rules_ok : ptree -> bool.
Variable cert_ok : string -> bool.
Variable ver : comp.
Notation process := (process_conf to_u32 to_int to_u64 to_dbl to_angles to_name to_uri dir_ok have rules_ok cert_ok ver).
Notation load := (conf_load to_u32 to_int to_u64 to_dbl to_angles to_name to_uri dir_ok have rules_ok cert_ok ver).
Notation section := (conf_section to_u32 to_int to_u64 to_dbl to_angles to_name to_uri dir_ok have rules_ok cert_ok ver).
Notation general := (conf_general to_u32 to_int to_name dir_ok have ver).
Notation nb := (conf_nb to_u32 to_int to_dbl to_name to_uri).

(** nlsr.conf, section general. *)
Definition general_says (t : ptree) (g : gen_c) : Prop :=
  name_is to_name "network" t (gc_network g) /\ name_is to_name "site" t (gc_site g) /\ name_is to_name "router" t (gc_router g) /\
  option_is to_u32 "lsa-refresh-time" 1800 t (gc_refresh g) /\
  option_is to_u32 "router-dead-interval" (2 * gc_refresh g) t (gc_dead g) /\
  option_is to_int "lsa-interest-lifetime" 4 t (gc_life g) /\
  option_is to_u32 "sync-interest-lifetime" 60000 t (gc_slife g) /\
  get_str "state-dir" t = Some (gc_dir g) /\ dir_ok (gc_dir g) = true /\
  gc_proto g = match get_str "sync-protocol" t with Some s => s | None => "psync"%string end /\
  have (gc_proto g) = true /\ In (gc_proto g) ["chronosync"; "psync"; "svs"]%string.

(** Section neighbors (the neighbours themselves: C67). *)
Definition neighbors_say (t : ptree) (n : nb_c) : Prop :=
  option_is to_int "hello-retries" 3 t (nc_retry n) /\
  option_is to_u32 "hello-timeout" 1 t (nc_resend n) /\
  option_is to_u32 "hello-interval" 60 t (nc_info n) /\
  option_is to_u32 "adj-lsa-build-interval" 10 t (nc_build n) /\
  (exists v, nc_tries n = Some v /\ option_is to_u32 "face-dataset-fetch-tries" 3 t v) /\
  option_is to_u32 "face-dataset-fetch-interval" 3600 t (nc_fetch n).

(** Section fib. *)
Definition fib_says (t : ptree) (f : fib_c) : Prop :=
  option_is to_int "max-faces-per-prefix" 0 t (fc_maxf f) /\
  option_is to_u32 "routing-calc-interval" 15 t (fc_calc f).

(** Section hyperbolic: the state, in any mix of cases. *)
Definition hyp_word (h : hyp) : string := match h with HOff => "off" | HOn => "on" | HDry => "dry-run" end.
Definition hyperbolic_says (t : ptree) (y : hyp_c) : Prop :=
  match get_str "state" t with Some s => lower_str s = hyp_word (yc_state y) | None => yc_state y = HOff end /\
  (forall r a, get_opt to_dbl "radius" t = Some r -> get_str "angle" t = Some a -> yc_radius y = r /\ yc_angles y = to_angles a).

(** The certificates that the security sections list after both validators. *)
Definition listed (t : ptree) : list string :=
  match pt_children t with
  | _ :: (k, _) :: ch => if eqb k "prefix-update-validator"%string then map (fun e => pt_data (snd e)) ch else []
  | _ => []
  end.
Definition security_says (t : ptree) : Prop :=
  exists r ch, pt_children t = ("validator"%string, r) :: ch /\ rules_ok r = true.

(** ** The proofs *)

Lemma get_def_is parse k d t : option_is parse k d t (get_def parse k d t).
Proof using. unfold option_is, get_def, get_opt. destruct (get_str k t) as [s|]; [destruct (parse s)|]; reflexivity. Qed.
Lemma cvar_is k lo hi d t v : cvar to_u32 k lo hi d t = Some v -> option_is to_u32 k d t v.
Proof using.
  unfold cvar, option_is, get_opt. destruct (get_str k t) as [s|]; [destruct (to_u32 s) as [w|]|].
  - destruct (between lo hi w); [|discriminate]. intros E. now injection E.
  - intros E. now injection E.
  - intros E. now injection E.
Qed.
Lemma get_opt_is k t n : get_opt to_name k t = Some n -> name_is to_name k t n.
Proof using. unfold get_opt, name_is. destruct (get_str k t) as [s|]; [eauto|discriminate]. Qed.

Ltac run_conf E := repeat (match type of E with
          | (if ?b then _ else _) = _ => let B := fresh "B" in destruct b eqn:B; [|discriminate]
          | match ?m with Some _ => _ | None => _ end = _ => let B := fresh "A" in destruct m eqn:B; [|discriminate]
          | (let x := ?v in _) = _ => cbv zeta in E
          end); injection E as <-.

Lemma general_says_ok t g g' : general t g = Some g' -> general_says t g'.
Proof using.
  unfold conf_general. intros E. run_conf E. unfold general_says.
  cbn [gc_network gc_site gc_router gc_refresh gc_dead gc_life gc_slife gc_dir gc_proto].
  match goal with B : _ && have _ = true |- _ => apply andb_true_iff in B; destruct B as [Bp Bh] end.
  repeat match goal with |- _ /\ _ => split end; try (now apply get_opt_is); try apply get_def_is; trivial.
  apply orb_true_iff in Bp. destruct Bp as [Bp|Bp]; [apply orb_true_iff in Bp; destruct Bp as [Bp|Bp]|];
    apply (proj1 (eqb_eq _ _)) in Bp; rewrite Bp; cbn; auto.
Qed.

Lemma neighbors_say_ok t n n' : nb t n = Some n' -> neighbors_say t n'.
Proof using.
  unfold conf_nb. intros E. run_conf E. unfold neighbors_say.
  cbn [nc_retry nc_resend nc_info nc_build nc_tries nc_fetch].
  repeat match goal with H : cvar _ _ _ _ _ _ = Some _ |- _ => apply cvar_is in H end.
  repeat match goal with |- _ /\ _ => split end; try apply get_def_is; trivial. eauto.
Qed.

Lemma fib_says_ok t f : conf_fib to_u32 to_int t = Some f -> fib_says t f.
Proof using.
  unfold conf_fib. intros E. run_conf E. match goal with H : cvar _ _ _ _ _ _ = Some _ |- _ => apply cvar_is in H end.
  split; [apply get_def_is|assumption].
Qed.

Lemma hyperbolic_says_ok t y y' : conf_hyp to_dbl to_angles t y = Some y' -> hyperbolic_says t y'.
Proof using.
  unfold conf_hyp. intros E.
  set (st := match get_str "state" t with Some s => s | None => "off"%string end) in *.
  match type of E with match ?m with _ => _ end = _ => destruct m as [h|] eqn:Eh; [|discriminate] end.
  assert (H : lower_str st = hyp_word h).
  { unfold iequals in Eh.
    destruct (eqb (lower_str st) "off"%string) eqn:E1; [injection Eh as <-; now apply (proj1 (eqb_eq _ _)) in E1|].
    destruct (eqb (lower_str st) "on"%string) eqn:E2; [injection Eh as <-; now apply (proj1 (eqb_eq _ _)) in E2|].
    destruct (eqb (lower_str st) "dry-run"%string) eqn:E3; [injection Eh as <-; now apply (proj1 (eqb_eq _ _)) in E3|discriminate]. }
  assert (X : yc_state y' = h /\ forall r a, get_opt to_dbl "radius" t = Some r -> get_str "angle" t = Some a ->
             yc_radius y' = r /\ yc_angles y' = to_angles a).
  { destruct (get_opt to_dbl "radius" t) as [r|], (get_str "angle" t) as [a|].
    - destruct (0 <=? r); [|discriminate]. injection E as <-. split; [reflexivity|]. intros r' a' X Y. injection X as <-. injection Y as <-. auto.
    - destruct (_ || _); [discriminate|]. injection E as <-. split; [reflexivity|]. intros r' a' X Y. discriminate Y.
    - destruct (_ || _); [discriminate|]. injection E as <-. split; [reflexivity|]. intros r' a' X Y. discriminate X.
    - destruct (_ || _); [discriminate|]. injection E as <-. split; [reflexivity|]. intros r' a' X Y. discriminate X. }
  destruct X as [X1 X2]. split; [|exact X2]. rewrite X1. unfold st in H. destruct (get_str "state" t); [exact H|].
  destruct h; [reflexivity|discriminate H|discriminate H].
Qed.

(** The last section of a kind decides. *)
Lemma load_last A (proj : cparam -> A) k (Q : ptree -> A -> Prop) t c :
  (forall t c c', section k t c = Some c' -> Q t (proj c')) ->
  (forall k' t c c', k' <> k -> section k' t c = Some c' -> proj c' = proj c) ->
  process t = Some c ->
  (sections k t = [] /\ proj c = proj cp_init) \/ exists l u, sections k t = l ++ [u] /\ Q u (proj c).
Proof using.
  intros H1 H2. unfold process_conf, sections.
  apply (load_inv to_u32 to_int to_u64 to_dbl to_angles to_name to_uri dir_ok have rules_ok cert_ok ver (fun done c =>
    (flat_map (fun e => if eqb (fst e) k then [snd e] else []) done = [] /\ proj c = proj cp_init) \/
    exists l u, flat_map (fun e => if eqb (fst e) k then [snd e] else []) done = l ++ [u] /\ Q u (proj c))); [|now left].
  intros done k' u c0 c1 R E. rewrite flat_map_app. cbn [flat_map fst snd app]. rewrite app_nil_r.
  destruct (eqb k' k) eqn:Ek.
  - apply (proj1 (eqb_eq _ _)) in Ek. subst k'. right. exists (flat_map (fun e => if eqb (fst e) k then [snd e] else []) done), u.
    split; [reflexivity|]. exact (H1 _ _ _ E).
  - rewrite app_nil_r. apply (proj1 (eqb_neq _ _)) in Ek. rewrite (H2 _ _ _ _ Ek E). exact R.
Qed.

Ltac others E := apply section_cases in E;
  destruct E as [[? (? & ? & ->)]|[[? (? & ? & ->)]|[[? (? & ? & ->)]|[[? (? & ? & ->)]|[[? (? & ? & ->)]|[? (? & ->)]]]]]];
  first [reflexivity|contradiction].

(** C75: with one section of the kind, every option has the value given or its default. *)
Theorem C75_general t g c : process t = Some c -> sections "general" t = [g] -> general_says g (cp_gen c).
Proof using.
  intros E S. assert (X : (sections "general" t = [] /\ cp_gen c = cp_gen cp_init) \/ exists l u, sections "general" t = l ++ [u] /\ general_says u (cp_gen c)).
  { revert E. apply load_last.
    - clear. intros t c c' E. unfold conf_section in E. change (eqb "general"%string "general"%string) with true in E. cbv iota in E.
      destruct (general t (cp_gen c)) eqn:G; [|discriminate]. injection E as <-. exact (general_says_ok _ _ _ G).
    - clear. intros k' t c c' N E. others E. }
  rewrite S in X. destruct X as [[X _]|(l & u & X & Q)]; [discriminate X|]. change [g] with ([] ++ [g]) in X.
  apply app_inj_tail in X. destruct X as [_ ->]. exact Q.
Qed.

Theorem C75_neighbors t n c : process t = Some c -> sections "neighbors" t = [n] -> neighbors_say n (cp_nb c).
Proof using.
  intros E S. assert (X : (sections "neighbors" t = [] /\ cp_nb c = cp_nb cp_init) \/ exists l u, sections "neighbors" t = l ++ [u] /\ neighbors_say u (cp_nb c)).
  { revert E. apply load_last.
    - clear. intros t c c' E. unfold conf_section in E. change (eqb "neighbors"%string "general"%string) with false in E.
      change (eqb "neighbors"%string "neighbors"%string) with true in E. cbv iota in E.
      destruct (nb t (cp_nb c)) eqn:G; [|discriminate]. injection E as <-. exact (neighbors_say_ok _ _ _ G).
    - clear. intros k' t c c' N E. others E. }
  rewrite S in X. destruct X as [[X _]|(l & u & X & Q)]; [discriminate X|]. change [n] with ([] ++ [n]) in X.
  apply app_inj_tail in X. destruct X as [_ ->]. exact Q.
Qed.

Theorem C75_fib t f c : process t = Some c -> sections "fib" t = [f] -> fib_says f (cp_fib c).
Proof using.
  intros E S. assert (X : (sections "fib" t = [] /\ cp_fib c = cp_fib cp_init) \/ exists l u, sections "fib" t = l ++ [u] /\ fib_says u (cp_fib c)).
  { revert E. apply load_last.
    - clear. intros t c c' E. unfold conf_section in E. change (eqb "fib"%string "general"%string) with false in E.
      change (eqb "fib"%string "neighbors"%string) with false in E. change (eqb "fib"%string "hyperbolic"%string) with false in E.
      change (eqb "fib"%string "fib"%string) with true in E. cbv iota in E.
      destruct (conf_fib to_u32 to_int t) eqn:G; [|discriminate]. injection E as <-. exact (fib_says_ok _ _ G).
    - clear. intros k' t c c' N E. others E. }
  rewrite S in X. destruct X as [[X _]|(l & u & X & Q)]; [discriminate X|]. change [f] with ([] ++ [f]) in X.
  apply app_inj_tail in X. destruct X as [_ ->]. exact Q.
Qed.

Theorem C75_hyperbolic t h c : process t = Some c -> sections "hyperbolic" t = [h] -> hyperbolic_says h (cp_hyp c).
Proof using.
  intros E S. assert (X : (sections "hyperbolic" t = [] /\ cp_hyp c = cp_hyp cp_init) \/ exists l u, sections "hyperbolic" t = l ++ [u] /\ hyperbolic_says u (cp_hyp c)).
  { revert E. apply load_last.
    - clear. intros t c c' E. unfold conf_section in E. change (eqb "hyperbolic"%string "general"%string) with false in E.
      change (eqb "hyperbolic"%string "neighbors"%string) with false in E. change (eqb "hyperbolic"%string "hyperbolic"%string) with true in E. cbv iota in E.
      destruct (conf_hyp to_dbl to_angles t (cp_hyp c)) eqn:G; [|discriminate]. injection E as <-. exact (hyperbolic_says_ok _ _ _ G).
    - clear. intros k' t c c' N E. others E. }
  rewrite S in X. destruct X as [[X _]|(l & u & X & Q)]; [discriminate X|]. change [h] with ([] ++ [h]) in X.
  apply app_inj_tail in X. destruct X as [_ ->]. exact Q.
Qed.

(** Without a section of the kind, everything has its default. *)
Theorem C75_missing t c : process t = Some c ->
  (sections "neighbors" t = [] -> let n := cp_nb c in
     nc_retry n = 3 /\ nc_resend n = 1 /\ nc_info n = 60 /\ nc_build n = 10 /\ nc_fetch n = 3600 /\ nc_adl n = []) /\
  (sections "fib" t = [] -> fc_maxf (cp_fib c) = 0 /\ fc_calc (cp_fib c) = 15) /\
  (sections "hyperbolic" t = [] -> yc_state (cp_hyp c) = HOff) /\
  (sections "advertising" t = [] -> cp_npl c = []) /\
  (sections "security" t = [] -> cp_certs c = []).
Proof using.
  intros E.
  assert (G : forall A (proj : cparam -> A) k, (forall k' t c c', k' <> k -> section k' t c = Some c' -> proj c' = proj c) ->
            sections k t = [] -> proj c = proj cp_init).
  { intros A proj k H S. pose proof (load_last A proj k (fun _ _ => True) t c (fun _ _ _ _ => I) H E) as X.
    rewrite S in X. destruct X as [[_ X]|(l & u & X & _)]; [exact X|]. now destruct l. }
  split; [|split; [|split; [|split]]].
  - intros S n. unfold n. rewrite (G _ cp_nb "neighbors"%string); [repeat split| |exact S].
    clear. intros k' t c c' N E. others E.
  - intros S. rewrite (G _ cp_fib "fib"%string); [repeat split| |exact S].
    clear. intros k' t c c' N E. others E.
  - intros S. rewrite (G _ cp_hyp "hyperbolic"%string); [repeat split| |exact S].
    clear. intros k' t c c' N E. others E.
  - intros S. rewrite (G _ cp_npl "advertising"%string); [repeat split| |exact S].
    clear. intros k' t c c' N E. others E.
  - intros S. rewrite (G _ cp_certs "security"%string); [repeat split| |exact S].
    clear. intros k' t c c' N E. unfold conf_section in E.
    apply (proj2 (eqb_neq _ _)) in N. rewrite N in E.
    repeat match type of E with
    | (if ?b then _ else _) = _ => destruct b
    | match ?m with _ => _ end = _ => destruct m; [|discriminate E]
    end; now injection E as <-.
Qed.

(** C76: an accepted file has a usable validator in every security section, and the certificates to
    publish are exactly the ones its security sections list after both validators, each of them loadable. *)
Lemma certs_ok ch : forall l l', conf_certs cert_ok ch l = Some l' ->
  l' = l ++ map (fun e => pt_data (snd e)) ch /\ forall k u, In (k, u) ch -> k = "cert-to-publish"%string /\ cert_ok (pt_data u) = true.
Proof using.
  induction ch as [|[k u] ch IH]; intros l l' E; cbn [conf_certs map] in *.
  - injection E as <-. rewrite app_nil_r. split; [reflexivity|]. intros k u [].
  - destruct (eqb k _ && cert_ok (pt_data u)) eqn:B; [|discriminate]. apply andb_true_iff in B. destruct B as [B1 B2].
    apply (proj1 (eqb_eq _ _)) in B1. destruct (IH _ _ E) as [-> H]. rewrite <- app_assoc. split; [reflexivity|].
    intros k0 u0 [X|X]; [injection X as <- <-; auto|now apply (H k0)].
Qed.
Lemma sec_ok t l l' : conf_sec rules_ok cert_ok t l = Some l' ->
  l' = l ++ listed t /\ security_says t /\ forall p, In p (listed t) -> cert_ok p = true.
Proof using.
  unfold conf_sec, listed, security_says. destruct (pt_children t) as [|[k r] ch]; [discriminate|].
  destruct (eqb k _ && rules_ok r) eqn:B; [|discriminate]. apply andb_true_iff in B. destruct B as [B1 B2].
  apply (proj1 (eqb_eq _ _)) in B1. subst k. intros E. assert (S : exists r0 ch0, ("validator"%string, r) :: ch = ("validator"%string, r0) :: ch0 /\ rules_ok r0 = true) by eauto.
  destruct ch as [|[k2 r2] ch]; [injection E as <-; rewrite app_nil_r; repeat split; trivial; intros p []|].
  destruct (eqb k2 _); [|injection E as <-; rewrite app_nil_r; repeat split; trivial; intros p []].
  destruct (rules_ok r2); [|discriminate]. destruct (certs_ok _ _ _ E) as [-> H]. repeat split; trivial.
  intros p Hp. apply in_map_iff in Hp. destruct Hp as ([k u] & <- & Hp). now apply (H k).
Qed.
Theorem C76_certificates t c : process t = Some c ->
  cp_certs c = flat_map listed (sections "security" t) /\
  (forall p, In p (cp_certs c) -> cert_ok p = true) /\
  (forall u, In u (sections "security" t) -> security_says u).
Proof using.
  unfold process_conf, sections.
  apply (load_inv to_u32 to_int to_u64 to_dbl to_angles to_name to_uri dir_ok have rules_ok cert_ok ver (fun done c =>
    cp_certs c = flat_map listed (flat_map (fun e => if eqb (fst e) "security"%string then [snd e] else []) done) /\
    (forall p, In p (cp_certs c) -> cert_ok p = true) /\
    (forall u, In u (flat_map (fun e => if eqb (fst e) "security"%string then [snd e] else []) done) -> security_says u))).
  2: { split; [reflexivity|]. split; intros ? []. }
  clear. intros done k t c c' (R1 & R2 & R3) E. rewrite flat_map_app. cbn [flat_map fst snd app]. rewrite app_nil_r.
  destruct (eqb k "security"%string) eqn:Ek.
  - apply (proj1 (eqb_eq _ _)) in Ek. subst k. unfold conf_section in E.
    change (eqb "security"%string "general"%string) with false in E. change (eqb "security"%string "neighbors"%string) with false in E.
    change (eqb "security"%string "hyperbolic"%string) with false in E. change (eqb "security"%string "fib"%string) with false in E.
    change (eqb "security"%string "advertising"%string) with false in E. change (eqb "security"%string "security"%string) with true in E. cbv iota in E.
    destruct (conf_sec rules_ok cert_ok t (cp_certs c)) as [l|] eqn:S; [|discriminate]. injection E as <-. cbn [cp_certs].
    destruct (sec_ok _ _ _ S) as (-> & S1 & S2). rewrite flat_map_app. cbn [flat_map]. rewrite app_nil_r, R1. split; [reflexivity|]. split.
    + intros p Hp. apply in_app_iff in Hp. destruct Hp as [Hp|Hp]; [apply R2; now rewrite R1|now apply S2].
    + intros u Hu. apply in_app_iff in Hu. destruct Hu as [Hu|[<-|[]]]; [now apply R3|exact S1].
  - rewrite !app_nil_r.
    assert (Y : cp_certs c' = cp_certs c); [|rewrite Y; auto]. unfold conf_section in E. rewrite Ek in E.
    repeat match type of E with
    | (if ?b then _ else _) = _ => destruct b
    | match ?m with _ => _ end = _ => destruct m; [|discriminate E]
    end; now injection E as <-.
Qed.

(** The claim a user would make, every cert-to-publish of a security section is published, is false: without
    a prefix-update-validator the list is ignored, silently. *)
Definition C76_claim : Prop := forall t c u p, process t = Some c -> In u (sections "security" t) ->
  In p (map pt_data (sections "cert-to-publish" u)) -> In p (cp_certs c).
Theorem C76_refuted : (forall r, rules_ok r = true) -> ~ C76_claim.
Proof using.
  intros R H.
  pose (u := PT "" [("validator"%string, PT "" []); ("cert-to-publish"%string, PT "router.cert" [])]).
  pose (t := PT "" [("security"%string, u)]).
  assert (E : process t = Some cp_init).
  { unfold t, process_conf. cbn [pt_children conf_load]. unfold conf_section.
    change (eqb "security"%string "general"%string) with false. change (eqb "security"%string "neighbors"%string) with false.
    change (eqb "security"%string "hyperbolic"%string) with false. change (eqb "security"%string "fib"%string) with false.
    change (eqb "security"%string "advertising"%string) with false. change (eqb "security"%string "security"%string) with true. cbv iota.
    unfold u, conf_sec. cbn [pt_children]. rewrite R.
    change (eqb "validator"%string "validator"%string) with true. change (eqb "cert-to-publish"%string "prefix-update-validator"%string) with false.
    cbn [andb]. reflexivity. }
  apply (H t cp_init u "router.cert"%string E); [now left|vm_compute; auto].
Qed.
End Conf.

(** A file with every section; two options given, the others at their defaults. *)
Example C75_ex : exists c, proc (file gen_sec hyp_sec) = Some c /\
  sections "general" (file gen_sec hyp_sec) = [gen_sec] /\ sections "hyperbolic" (file gen_sec hyp_sec) = [hyp_sec] /\
  gc_refresh (cp_gen c) = 300 /\ gc_dead (cp_gen c) = 600 /\ gc_life (cp_gen c) = 4 /\ gc_proto (cp_gen c) = "svs"%string /\
  nc_resend (cp_nb c) = 2 /\ nc_info (cp_nb c) = 60 /\ fc_maxf (cp_fib c) = 2 /\ fc_calc (cp_fib c) = 15 /\
  cp_certs c = ["c"%string] /\ sections "security" (file gen_sec hyp_sec) <> [].
Proof.
  destruct (proc (file gen_sec hyp_sec)) as [c|] eqn:E; [|vm_compute in E; discriminate].
  exists c. split; [reflexivity|]. vm_compute in E. injection E as <-. repeat split. discriminate.
Qed.

Print Assumptions C75_general.
Print Assumptions C75_neighbors.
Print Assumptions C75_fib.
Print Assumptions C75_hyperbolic.
Print Assumptions C75_missing.
Print Assumptions C76_certificates.
Print Assumptions C76_refuted.
