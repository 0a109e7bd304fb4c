(** Model of name-prefix-list.{hpp,cpp}, update/command-processor.cpp,
    update/prefix-update-processor.cpp, update/nfd-rib-command-processor.cpp and
    utility/boost-info-editor.cpp: the advertised prefixes, the management commands that change
    them and the configuration file the commands save to. *)
From Coq Require Import DecimalString.
From Verif Require Import Base M_Nexthop M_Tlv M_Adj M_Lsa M_Lsdb.
Open Scope Z_scope.

(** ** The list of advertised prefixes *)

(** name-prefix-list.hpp:139-145 m_namesSources: a cost and a set of sources for every name.  The set
    is a list without duplicates; the order of the map is not modelled. *)
Definition plist := @amap name (Z * list string).

(** name-prefix-list.cpp:37-43 insert(name, source, cost) *)
Definition pl_insert (n : name) (src : string) (cost : Z) (m : plist) : bool * plist :=
  let srcs := match get n m with Some (_, ss) => ss | None => [] end in
  if existsb (eqb src) srcs then (false, set n (cost, srcs) m)
  else (true, set n (cost, srcs ++ [src]) m).

(** name-prefix-list.cpp:53-66 erase(name, source) *)
Definition pl_erase (n : name) (src : string) (m : plist) : bool * plist :=
  match get n m with
  | None => (false, m)
  | Some (cost, ss) =>
      let removed := existsb (eqb src) ss in
      let ss' := filter (fun x => negb (eqb src x)) ss in
      (removed, if eqb ss' [] then del n m else set n (cost, ss') m)
  end.

(** name-prefix-list.cpp:76-84 getNames *)
Definition pl_names (m : plist) : list name := keys m.

(** name-prefix-list.cpp:86-94 getPrefixInfo *)
Definition pl_info (m : plist) : list (name * Z) := map (fun e => (fst e, fst (snd e))) m.

(** ** The configuration file as a property tree *)

(** boost::property_tree::ptree: data and an ordered list of named children. *)
Inductive ptree := PT (data : string) (children : list (string * ptree)).
Definition pt_data (t : ptree) : string := match t with PT d _ => d end.
Definition pt_children (t : ptree) : list (string * ptree) := match t with PT _ ch => ch end.

(** boost string_path with separator '.': the components of a path.  A trailing separator ends the
    path (string_path::empty compares iterators), so it adds no component. *)
Definition DOT : ascii := "."%char.
Fixpoint path_of (acc : string) (s : string) : list string :=
  match s with
  | EmptyString => match acc with EmptyString => [] | _ => [acc] end
  | String c s' =>
      if Ascii.eqb c DOT then acc :: path_of EmptyString s'
      else path_of (acc ++ String c EmptyString)%string s'
  end.

(** First child called [k] replaced by [f] of it, or a new child appended (ptree find, push_back). *)
Fixpoint upd_child (k : string) (f : ptree -> ptree) (ch : list (string * ptree)) : list (string * ptree) :=
  match ch with
  | [] => [(k, f (PT "" []))]
  | (k', t) :: ch' => if eqb k k' then (k', f t) :: ch' else (k', t) :: upd_child k f ch'
  end.

(** ptree::put(path, value): walks or creates the first child of each name and sets its data.  The
    existing children of the last node stay. *)
Fixpoint pt_put (path : list string) (v : string) (t : ptree) : ptree :=
  match path with
  | [] => PT v (pt_children t)
  | k :: path' => PT (pt_data t) (upd_child k (pt_put path' v) (pt_children t))
  end.

(** [f] applied to the node at the path of first children, if there is one (get_child_optional). *)
Fixpoint map_first (k : string) (f : ptree -> ptree) (ch : list (string * ptree)) : list (string * ptree) :=
  match ch with
  | [] => []
  | (k', t) :: ch' => if eqb k k' then (k', f t) :: ch' else (k', t) :: map_first k f ch'
  end.
Fixpoint pt_at (path : list string) (f : ptree -> ptree) (t : ptree) : ptree :=
  match path with
  | [] => f t
  | k :: path' => PT (pt_data t) (map_first k (pt_at path' f) (pt_children t))
  end.

(** ptree::erase(key): every child of that name. *)
Definition pt_erase (k : string) (t : ptree) : ptree :=
  PT (pt_data t) (filter (fun e => negb (eqb k (fst e))) (pt_children t)).

(** Split at the last dot: boost-info-editor.cpp:75-86 find_last_of, substr. *)
Fixpoint split_last (s : string) : option (string * string) :=
  match s with
  | EmptyString => None
  | String c s' =>
      match split_last s' with
      | Some (a, b) => Some (String c a, b)
      | None => if Ascii.eqb c DOT then Some (EmptyString, s') else None
      end
  end.

(** boost-info-editor.cpp:54-67 put, on the tree that was read *)
Definition ed_put (section value : string) (t : ptree) : ptree := pt_put (path_of "" section) value t.

(** boost-info-editor.cpp:69-89 remove, on the tree that was read *)
Definition ed_remove (section : string) (t : ptree) : ptree :=
  match split_last section with
  | None => pt_erase section t
  | Some (a, b) => pt_at (path_of "" a) (pt_erase b) t
  end.

(** boost info_parser write_info: the lines of a tree.  Escape sequences inside quoted strings are not
    modelled. *)
Definition special (c : ascii) : bool :=
  existsb (Ascii.eqb c)
    [" "; "009"; "{"; "}"; ";"; "010"; """"]%char.
Fixpoint has_special (s : string) : bool :=
  match s with EmptyString => false | String c s' => special c || has_special s' end.
Definition quote (s : string) : string := (String """" s ++ String """" "")%string.
Definition out_key (k : string) : string := if eqb k ""%string || has_special k then quote k else k.
Definition out_data (d : string) (leaf : bool) : string :=
  if eqb d ""%string then if leaf then (" " ++ quote "")%string else ""%string
  else (" " ++ if has_special d then quote d else d)%string.
Fixpoint indent (n : nat) : string :=
  match n with O => ""%string | S n' => ("    " ++ indent n')%string end.
Fixpoint pt_lines (lvl : nat) (t : ptree) : list string :=
  match t with PT _ ch =>
  flat_map (fun e : string * ptree =>
    let (k, u) := e in
    (indent lvl ++ out_key k ++ out_data (pt_data u) (match pt_children u with [] => true | _ => false end))%string ::
    match pt_children u with
    | [] => []
    | _ => ((indent lvl ++ "{")%string :: pt_lines (S lvl) u) ++ [(indent lvl ++ "}")%string]
    end) ch
  end.

(** What opening the file gives: nothing, or its lines and, if they parse, their tree.  Parsing
    (read_info) is external: a file just written by [pt_lines] parses to the tree it was written from. *)
Definition cfile := option (list string * option ptree).

(** What the file holds after [save]: the new tree, or, if writing fails, anything at all. *)
Inductive wres := WOk | WFail (f : cfile).

(** boost-info-editor.cpp:40-52 save *)
Definition ed_save (w : wres) (t : ptree) : bool * cfile :=
  match w with
  | WOk => (true, Some (pt_lines 0 t, Some t))
  | WFail f => (false, f)
  end.

(** std::to_string(uint64_t) *)
Definition dec (n : N) : string := NilEmpty.string_of_uint (N.to_uint n).

Section Commands.
(** ndn::Name::toUri: external. *)
Variable uri_of : name -> string.

(** prefix-update-processor.cpp:99-115 checkForPrefixInFile *)
Definition in_file (line : string) (f : cfile) : bool :=
  match f with None => true | Some (ls, _) => existsb (eqb line) ls end.

(** prefix-update-processor.cpp:117-152 addOrDeletePrefix.  The file is opened up to three times; the
    model assumes nobody else changes it in between. *)
Definition add_or_delete (n : name) (cost : N) (add : bool) (w : wres) (f : cfile) : bool * cfile :=
  let section := ("advertising." ++ uri_of n)%string in
  let value := ("    " ++ uri_of n ++ " " ++ dec cost)%string in
  match f with
  | None => (false, f)
  | Some (_, pt) =>
      if add then
        if in_file value f then (false, f)
        else match pt with
             | None => (false, f)
             | Some t => ed_save w (ed_put section (dec cost) t)
             end
      else
        if negb (in_file value f) then (false, f)
        else match pt with
             | None => (false, f)
             | Some t => ed_save w (ed_remove section t)
             end
  end.

(** ** Commands *)

(** The command prefix: nlsr prefix-update commands, or NFD RIB (readvertise) commands. *)
Inductive proto := Nlsr | Rib.

(** Validated control parameters (prefix-update-commands.cpp:25-51): name, optional cost, flags and
    face id.  Costs are exact (a uint64 above 2^53 would be rounded by the conversion to double). *)
Record cmd := Cmd
  { m_proto : proto; m_add : bool; m_name : name;
    m_cost : option N; m_flags : option N; m_face : option N }.

(** command-processor.hpp:36 PREFIX_FLAG and 94 m_defaultResponseFaceId *)
Definition PREFIX_FLAG : N := 1.
Definition DEFAULT_FACE : N := 1.

(** The state of the modules a command reaches: database, prefix list, configuration file. *)
Record pst := Pst { p_db : st; p_list : plist; p_file : cfile }.

Inductive pout :=
| PDb (o : out)
| PReply (code : N) (face : N).

(** command-processor.hpp:68-86 (default: true) and prefix-update-processor.cpp:154-164: what
    afterAdvertise and afterWithdraw do to the file; withdrawing passes cost 0. *)
Definition after_cmd (m : cmd) (w : wres) (f : cfile) : bool * cfile :=
  match m_proto m with
  | Rib => (true, f)
  | Nlsr =>
      if m_add m
      then add_or_delete (m_name m) (match m_cost m with Some k => k | None => 0%N end) true w f
      else add_or_delete (m_name m) 0 false w f
  end.

Definition saves (m : cmd) : bool :=
  match m_flags m with Some x => (x =? PREFIX_FLAG)%N | None => false end.

(** command-processor.cpp:48-51, 94-97 *)
Definition reply_face (m : cmd) : N :=
  match m_face m with Some x => if (0 <? x)%N then x else DEFAULT_FACE | None => DEFAULT_FACE end.

(** command-processor.cpp:53-54 and 99: the list after the command, and whether it reports a change.
    Every command uses the source [""]. *)
Definition list_cmd (m : cmd) (p : plist) : bool * plist :=
  if m_add m
  then pl_insert (m_name m) "" (of_int (Z.of_N (match m_cost m with Some k => k | None => 0%N end))) p
  else pl_erase (m_name m) "" p.

Variable c : conf.

(** command-processor.cpp:42-86 advertiseAndInsertPrefix and 88-130 withdrawAndRemovePrefix *)
Definition do_cmd (sys : Z) (l : adl) (m : cmd) (w : wres) (s : pst) : pst * list pout :=
  let (changed, p') := list_cmd m (p_list s) in
  let (d', o) := if changed then build_name c (Env sys (pl_info p') l) (p_db s)
                 else (p_db s, []) in
  if saves m then
    let (ok, f') := after_cmd m w (p_file s) in
    (Pst d' p' f', map PDb o ++ [PReply (if ok then 205 else 500) (reply_face m)])
  else
    (Pst d' p' (p_file s), map PDb o ++ [PReply (if changed then 200 else 204) (reply_face m)]).

(** ** Events *)

Inductive pev :=
| PvDb (sys : Z) (l : adl) (v : ev)             (* anything the database handles *)
| PvCmd (sys : Z) (l : adl) (m : cmd) (w : wres). (* a validated command *)

(** Own Name LSAs are built by commands, not by an event of their own; the database reads the current
    prefix list. *)
Definition pstep_live (s : pst) (x : pev) : pst * list pout :=
  match x with
  | PvDb _ _ EBuildName => (s, [])
  | PvDb sys l v =>
      let (d, o) := step c (p_db s) (Env sys (pl_info (p_list s)) l, v) in
      (Pst d (p_list s) (p_file s), map PDb o)
  | PvCmd sys l m w => do_cmd sys l m w s
  end.

Definition pstep (s : pst) (x : pev) : pst * list pout :=
  if s_dead (p_db s) then (s, []) else pstep_live s x.

(** conf-file-processor.cpp:605-631: the prefix list read from the configuration, then lsdb.cpp:34-78 *)
Definition pinit (q : option seqs) (now sys : Z) (l : adl) (p : plist) (f : cfile) : pst * list pout :=
  let (d, o) := init c q now (Env sys (pl_info p) l) in (Pst d p f, map PDb o).

Definition pexec q now sys l p f (evs : list pev) : pst * list pout :=
  let (s, o) := pinit q now sys l p f in
  let (s', o') := run pstep s evs in (s', o ++ o').

End Commands.
