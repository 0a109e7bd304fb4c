(** What advertising prefixes means, in terms of the history of requests only. *)
From Verif Require Import Base M_Nexthop M_Adj M_Lsa M_Lsdb S_Lsdb M_Prefix.
Open Scope Z_scope.

(** ** Requests per source *)

(** A source asks to advertise a prefix at a cost, or to stop advertising it. *)
Inductive req := RAdv (n : name) (src : string) (cost : Z) | RWd (n : name) (src : string).

(** The source [src] has advertised [n] and has not withdrawn it since; requests oldest first. *)
Fixpoint wants_from (b : bool) (h : list req) (n : name) (src : string) : bool :=
  match h with
  | [] => b
  | RAdv n' src' _ :: h' => wants_from (if eqb n n' && eqb src src' then true else b) h' n src
  | RWd n' src' :: h' => wants_from (if eqb n n' && eqb src src' then false else b) h' n src
  end.
Definition wants := wants_from false.

(** The cost of the latest request to advertise [n], whoever made it. *)
Fixpoint last_cost (k : option Z) (h : list req) (n : name) : option Z :=
  match h with
  | [] => k
  | RAdv n' _ cost :: h' => last_cost (if eqb n n' then Some cost else k) h' n
  | RWd _ _ :: h' => last_cost k h' n
  end.

(** The list after the requests, and what the last one returned. *)
Definition do_req (m : plist) (r : req) : bool * plist :=
  match r with
  | RAdv n src cost => pl_insert n src cost m
  | RWd n src => pl_erase n src m
  end.
Definition after (h : list req) : plist := fold_left (fun m r => snd (do_req m r)) h [].

(** ** Commands *)

(** The prefixes of the configuration file, in file order (conf-file-processor.cpp:605-631). *)
Definition configured (cfg : list (name * N)) : plist :=
  after (map (fun e => RAdv (fst e) "" (of_int (Z.of_N (snd e)))) cfg).

Definition cmd_cost (m : cmd) : Z := of_int (Z.of_N (match m_cost m with Some k => k | None => 0%N end)).

(** The prefix is advertised: the last command about it is an advertise command or, if there is none,
    it is configured. *)
Fixpoint advertised (b : bool) (evs : list pev) (n : name) : bool :=
  match evs with
  | [] => b
  | PvCmd _ _ m _ :: evs' => advertised (if eqb n (m_name m) then m_add m else b) evs' n
  | PvDb _ _ _ :: evs' => advertised b evs' n
  end.

(** The cost the prefix had when it was last newly advertised: a later advertise command for a prefix
    that is advertised already does not count. *)
Fixpoint first_cost (k : option Z) (evs : list pev) (n : name) : option Z :=
  match evs with
  | [] => k
  | PvCmd _ _ m _ :: evs' =>
      first_cost (if eqb n (m_name m)
                  then if m_add m then match k with Some _ => k | None => Some (cmd_cost m) end
                       else None
                  else k) evs' n
  | PvDb _ _ _ :: evs' => first_cost k evs' n
  end.

(** The cost of the latest advertise command since the prefix was last not advertised. *)
Fixpoint current_cost (k : option Z) (evs : list pev) (n : name) : option Z :=
  match evs with
  | [] => k
  | PvCmd _ _ m _ :: evs' =>
      current_cost (if eqb n (m_name m) then if m_add m then Some (cmd_cost m) else None else k) evs' n
  | PvDb _ _ _ :: evs' => current_cost k evs' n
  end.

(** The cost in the configuration file: the last line about the prefix counts. *)
Fixpoint cfg_cost (cfg : list (name * N)) (n : name) : option Z :=
  match cfg with
  | [] => None
  | (n', k) :: cfg' =>
      match cfg_cost cfg' n with
      | Some x => Some x
      | None => if eqb n n' then Some (of_int (Z.of_N k)) else None
      end
  end.

(** The names and costs in this router's own Name LSA, if it stores one. *)
Definition own_name_lsa (c : conf) (s : pst) (l : lsa) : Prop :=
  In l (contents (p_db s)) /\ l_origin l = c_self c /\ l_type l = TName.

(** No fetched content claims to originate from this router. *)
Definition pno_forged (c : conf) (evs : list pev) : Prop :=
  forall sys l fid y, In (PvDb sys l (EFetchDone fid (Some y))) evs -> l_origin y <> c_self c.

(** The set of advertised prefixes differs between two states. *)
Definition list_changed (s s' : pst) : Prop :=
  exists n, ~ (In n (pl_names (p_list s)) <-> In n (pl_names (p_list s'))).

(** The face id a reply names: the given one unless it is missing or 0; then 1. *)
Definition face_of (m : cmd) : N :=
  match m_face m with Some x => if (x =? 0)%N then 1%N else x | None => 1%N end.

(** Numbers of the Name LSAs announced, oldest first. *)
Definition announced_names (o : list pout) : list N :=
  flat_map (fun x => match x with PDb (OPublish TName q) => [q] | _ => [] end) o.

(** The replies sent. *)
Definition replies (o : list pout) : list (N * N) :=
  flat_map (fun x => match x with PReply code face => [(code, face)] | _ => [] end) o.

(** ** The saved configuration *)

(** The nodes called [k] among some children. *)
Definition sel (k : string) (ch : list (string * ptree)) : list (string * ptree) :=
  filter (fun e => eqb k (fst e)) ch.

(** The costs under which the configuration lists the prefix with URI [u]: one for each occurrence in
    an advertising section. *)
Definition saved (t : ptree) (u : string) : list string :=
  flat_map (fun sec => map (fun e => pt_data (snd e)) (sel u (pt_children (snd sec))))
           (sel "advertising" (pt_children t)).
Definition saved_in (f : cfile) (u : string) : option (list string) :=
  match f with Some (_, Some t) => Some (saved t u) | _ => None end.

(** A configuration with at most one advertising section that lists every prefix at most once. *)
Definition tidy (t : ptree) : Prop :=
  (length (sel "advertising" (pt_children t)) <= 1)%nat /\
  forall u, (length (saved t u) <= 1)%nat.
Definition tidy_file (f : cfile) : Prop :=
  match f with Some (_, Some t) => tidy t | _ => True end.

Fixpoint dot_free (s : string) : bool :=
  match s with EmptyString => true | String c s' => negb (Ascii.eqb c "."%char) && dot_free s' end.

(** A failed write leaves a file that is still tidy. *)
Definition tidy_writes (evs : list pev) : Prop :=
  forall sys l m f, In (PvCmd sys l m (WFail f)) evs -> tidy_file f.
