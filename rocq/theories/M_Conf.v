(** Model of conf-file-processor.cpp and of the members of conf-parameter.{hpp,cpp} it sets.

    The text of the file is read by boost (external); the model starts from the property tree.  Converting
    the text of a value to a number, a name or a URI, canonizing a URI (which asks a resolver), the file
    system, the compiled-in sync protocols and the loading of validator rules and certificates are
    external and given as functions. *)
From Verif Require Import Base M_Nexthop M_Tlv M_Adj M_Lsa M_Lsdb M_Prefix M_Sync.
Open Scope Z_scope.

(** conf-parameter.hpp:494-533.  [nc_tries] is [None] while it is indeterminate: the constructor
    (conf-parameter.cpp:37-59) does not initialise m_faceDatasetFetchTries. *)
Record gen_c := GenC
  { gc_network : name; gc_site : name; gc_router : name; gc_syncp : name; gc_lsap : name;
    gc_refresh : Z; gc_dead : Z; gc_life : Z; gc_slife : Z; gc_dir : string; gc_proto : string }.
Record nb_c := NbC
  { nc_retry : Z; nc_resend : Z; nc_info : Z; nc_build : Z; nc_tries : option Z; nc_fetch : Z; nc_adl : adl }.
Record hyp_c := HypC { yc_state : hyp; yc_radius : Z; yc_angles : list Z }.
Record fib_c := FibC { fc_maxf : Z; fc_calc : Z }.
Record cparam := CParam
  { cp_gen : gen_c; cp_nb : nb_c; cp_hyp : hyp_c; cp_fib : fib_c; cp_npl : plist; cp_certs : list string }.

(** conf-parameter.cpp:37-59 *)
Definition cp_init : cparam :=
  CParam (GenC [] [] [] [] [] 1800 3600 4 60000 "" "psync") (NbC 3 1 60 10 None 3600 [])
         (HypC HOff 0 []) (FibC 0 15) [] [].

(** ptree::get_child_optional(key): the first child of that name (the keys used contain no dot) *)
Definition child (k : string) (t : ptree) : option ptree :=
  match find (fun e => eqb k (fst e)) (pt_children t) with Some (_, u) => Some u | None => None end.
(** ptree::get<std::string>(key) *)
Definition get_str (k : string) (t : ptree) : option string := option_map pt_data (child k t).
(** ptree::get_optional<T>(key): [None] when the key is missing or its text does not convert *)
Definition get_opt {A} (parse : string -> option A) (k : string) (t : ptree) : option A :=
  match get_str k t with Some s => parse s | None => None end.
(** ptree::get<T>(key, default): the default also replaces a text that does not convert *)
Definition get_def {A} (parse : string -> option A) (k : string) (d : A) (t : ptree) : A :=
  match get_opt parse k t with Some v => v | None => d end.

Definition between (lo hi v : Z) : bool := (lo <=? v) && (v <=? hi).
Notation "'ask' x <- m ; k" := (match m with Some x => k | None => None end)
  (at level 200, x pattern, m at level 100, k at level 200).
Notation "'check' b ; k" := (if b then k else None) (at level 200, b at level 100, k at level 200).

(** boost::iequals with a lower-case ASCII word *)
Definition lower (c : ascii) : ascii :=
  let n := N_of_ascii c in if (65 <=? n)%N && (n <=? 90)%N then ascii_of_N (n + 32) else c.
Fixpoint lower_str (s : string) : string :=
  match s with EmptyString => EmptyString | String c s' => String (lower c) (lower_str s') end.
Definition iequals (s w : string) : bool := eqb (lower_str s) w.

Section Conf.
Variables (to_u32 to_int to_u64 to_dbl : string -> option Z).   (* istream extraction; u32, u64: not negative *)
Variable to_angles : string -> list Z.         (* conf-file-processor.cpp:547-558 *)
Variable to_name : string -> option name.      (* ndn::Name(string), [None]: exception *)
Variable to_uri : string -> option uri.        (* FaceUri::parse and canonize *)
Variable dir_ok : string -> bool.              (* lines 343-385: state-dir is a usable directory *)
Variable have : string -> bool.                (* HAVE_CHRONOSYNC, HAVE_PSYNC, HAVE_SVS *)
Variable rules_ok : ptree -> bool.             (* ValidatorConfig::load *)
Variable cert_ok : string -> bool.             (* lines 659-668 *)
Variable ver : comp.                           (* the version component of SYNC_VERSION *)

(** conf-file-processor.cpp:40-139 ConfigurationVariable: an optional number with a range *)
Definition cvar (k : string) (lo hi d : Z) (t : ptree) : option Z :=
  match get_opt to_u32 k t with
  | Some v => if between lo hi v then Some v else None
  | None => Some d
  end.

(** conf-file-processor.cpp:214-389 processConfSectionGeneral; [None] is a rejection.  setNetwork
    appends to the sync and LSA prefixes (conf-parameter.cpp:94-111). *)
Definition conf_general (t : ptree) (g : gen_c) : option gen_c :=
  let proto := match get_str "sync-protocol" t with Some s => s | None => "psync"%string end in
  check (eqb proto "chronosync" || eqb proto "psync" || eqb proto "svs")%string && have proto;
  ask net <- get_opt to_name "network" t;
  ask _ <- get_str "site" t;
  ask _ <- get_str "router" t;
  check negb (eqb net []);
  ask site <- get_opt to_name "site" t;
  check negb (eqb site []);
  ask router <- get_opt to_name "router" t;
  check negb (eqb router []);
  let refresh := get_def to_u32 "lsa-refresh-time" 1800 t in
  check between 240 7200 refresh;
  let dead := get_def to_u32 "router-dead-interval" (2 * refresh) t in
  check refresh <? dead;
  let life := get_def to_int "lsa-interest-lifetime" 4 t in
  check between 1 60 life;
  let slife := get_def to_u32 "sync-interest-lifetime" 60000 t in
  check between 1000 120000 slife;
  ask dir <- get_str "state-dir" t;
  check dir_ok dir;
  Some (GenC net site router (gc_syncp g ++ sync_prefix (eqb proto "svs"%string) net ver)
             (gc_lsap g ++ lsa_prefix net) refresh dead life slife dir proto).

(** conf-file-processor.cpp:466-513: one neighbor; an empty name is skipped, a bad cost is an exception
    (adjacent.cpp:55-77) *)
Definition conf_neighbor (t : ptree) (l : adl) : option adl :=
  ask n <- get_str "name" t;
  ask u <- get_opt to_uri "face-uri" t;
  let cost := get_def to_dbl "link-cost" DEFAULT_LINK_COST t in
  ask nm <- to_name n;
  if eqb nm [] then Some l
  else ask a <- set_link_cost cost (Adj nm u 0 SInactive 0 0); Some (snd (adl_insert a l)).
Fixpoint conf_neighbors (ch : list (string * ptree)) (l : adl) : option adl :=
  match ch with
  | [] => Some l
  | (k, t) :: ch' =>
      if eqb k "neighbor"%string then ask l' <- conf_neighbor t l; conf_neighbors ch' l'
      else conf_neighbors ch' l
  end.
(** conf-file-processor.cpp:391-516 processConfSectionNeighbors *)
Definition conf_nb (t : ptree) (n : nb_c) : option nb_c :=
  let retry := get_def to_int "hello-retries" 3 t in
  check between 1 15 retry;
  let resend := get_def to_u32 "hello-timeout" 1 t in
  check between 1 15 resend;
  let info := get_def to_u32 "hello-interval" 60 t in
  check between 30 90 info;
  ask build <- cvar "adj-lsa-build-interval" 5 30 10 t;
  ask tries <- cvar "face-dataset-fetch-tries" 1 10 3 t;
  ask fetch <- cvar "face-dataset-fetch-interval" 1800 5400 3600 t;
  ask l <- conf_neighbors (pt_children t) (nc_adl n);
  Some (NbC retry resend info build (Some tries) fetch l).

(** conf-file-processor.cpp:518-572 processConfSectionHyperbolic: line 565 compares the spelling of the
    state exactly.  setCorR: conf-parameter.hpp:354-362. *)
Definition conf_hyp (t : ptree) (y : hyp_c) : option hyp_c :=
  let state := match get_str "state" t with Some s => s | None => "off"%string end in
  ask h <- (if iequals state "off" then Some HOff else if iequals state "on" then Some HOn
            else if iequals state "dry-run" then Some HDry else None);
  match get_opt to_dbl "radius" t, get_str "angle" t with
  | Some r, Some a => if 0 <=? r then Some (HypC h r (to_angles a)) else None
  | _, _ => if (eqb state "on" || eqb state "dry-run")%string then None
            else Some (HypC h (yc_radius y) (yc_angles y))
  end.

(** conf-file-processor.cpp:574-603 processConfSectionFib *)
Definition conf_fib (t : ptree) : option fib_c :=
  let m := get_def to_int "max-faces-per-prefix" 0 t in
  check between 0 60 m;
  ask calc <- cvar "routing-calc-interval" 0 15 15 t;
  Some (FibC m calc).

(** conf-file-processor.cpp:605-631 processConfSectionAdvertising *)
Fixpoint conf_adv (ch : list (string * ptree)) (m : plist) : option plist :=
  match ch with
  | [] => Some m
  | (k, t) :: ch' =>
      ask n <- to_name k;
      check negb (eqb n []);
      ask v <- to_u64 (pt_data t);
      conf_adv ch' (snd (pl_insert n "" (of_int v) m))
  end.

(** conf-file-processor.cpp:633-674 processConfSectionSecurity *)
Fixpoint conf_certs (ch : list (string * ptree)) (l : list string) : option (list string) :=
  match ch with
  | [] => Some l
  | (k, t) :: ch' =>
      check eqb k "cert-to-publish"%string && cert_ok (pt_data t);
      conf_certs ch' (l ++ [pt_data t])
  end.
Definition conf_sec (t : ptree) (l : list string) : option (list string) :=
  match pt_children t with
  | (k, r) :: ch =>
      check eqb k "validator"%string && rules_ok r;
      match ch with
      | (k2, r2) :: ch2 =>
          if eqb k2 "prefix-update-validator"%string then check rules_ok r2; conf_certs ch2 l else Some l
      | [] => Some l
      end
  | [] => None
  end.

(** conf-file-processor.cpp:186-212 processSection: an unknown section is only reported *)
Definition conf_section (k : string) (t : ptree) (c : cparam) : option cparam :=
  if eqb k "general"%string then
    ask g <- conf_general t (cp_gen c); Some (CParam g (cp_nb c) (cp_hyp c) (cp_fib c) (cp_npl c) (cp_certs c))
  else if eqb k "neighbors"%string then
    ask n <- conf_nb t (cp_nb c); Some (CParam (cp_gen c) n (cp_hyp c) (cp_fib c) (cp_npl c) (cp_certs c))
  else if eqb k "hyperbolic"%string then
    ask y <- conf_hyp t (cp_hyp c); Some (CParam (cp_gen c) (cp_nb c) y (cp_fib c) (cp_npl c) (cp_certs c))
  else if eqb k "fib"%string then
    ask f <- conf_fib t; Some (CParam (cp_gen c) (cp_nb c) (cp_hyp c) f (cp_npl c) (cp_certs c))
  else if eqb k "advertising"%string then
    ask m <- conf_adv (pt_children t) (cp_npl c); Some (CParam (cp_gen c) (cp_nb c) (cp_hyp c) (cp_fib c) m (cp_certs c))
  else if eqb k "security"%string then
    ask l <- conf_sec t (cp_certs c); Some (CParam (cp_gen c) (cp_nb c) (cp_hyp c) (cp_fib c) (cp_npl c) l)
  else Some c.

(** conf-file-processor.cpp:147-184 processConfFile, load *)
Fixpoint conf_load (ch : list (string * ptree)) (c : cparam) : option cparam :=
  match ch with
  | [] => Some c
  | (k, t) :: ch' => ask c' <- conf_section k t c; conf_load ch' c'
  end.
Definition process_conf (t : ptree) : option cparam := conf_load (pt_children t) cp_init.
End Conf.

(** conf-parameter.hpp:174-184, called at conf-file-processor.cpp:160 *)
Definition cp_self (c : cparam) : name :=
  router_prefix (gc_network (cp_gen c)) (gc_site (cp_gen c)) (gc_router (cp_gen c)).
(** What the database is constructed from (lsdb.cpp:34-56). *)
Definition cp_conf (c : cparam) : conf :=
  Conf (gc_network (cp_gen c)) (cp_self c) (gc_lsap (cp_gen c)) (gc_refresh (cp_gen c)) (gc_dead (cp_gen c))
       (Z.to_N (nc_retry (cp_nb c))) (nc_resend (cp_nb c)) (nc_build (cp_nb c)) (yc_state (cp_hyp c))
       (yc_radius (cp_hyp c)) (yc_angles (cp_hyp c)) (gc_life (cp_gen c)).
