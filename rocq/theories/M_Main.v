(** Model of main.cpp, of the handling of files in conf-file-processor.cpp:147-184 and 334-386, and of
    what the constructor of Nlsr takes from the configuration (nlsr.cpp:38-49, lsdb.cpp:34-56).

    Files are known by the file their path stands for ([canon], external: relative paths and links).
    A file holds what [M_Prefix] says of the configuration file: its lines, and the tree that boost
    reads from them, if any.  Not modelled: the key chain (initializeKey, main.cpp:70), the socket to
    NFD, and the texts that are printed. *)
From Verif Require Import Base M_Nexthop M_Tlv M_Adj M_Lsa M_Lsdb M_Prefix M_Sync M_Fib M_Hello M_Router M_Conf S_Router.
Open Scope Z_scope.

Definition content : Type := list string * option ptree.
(** The directories and the files. *)
Record fsys := Fsys { fs_dirs : list string; fs_files : list (string * content) }.
(** std::filesystem::path, operator/ (with a relative second operand) *)
Fixpoint ends_slash (s : string) : bool :=
  match s with EmptyString => true | String a EmptyString => Ascii.eqb a "/"%char | String _ s' => ends_slash s' end.
Definition join (d f : string) : string := if ends_slash d then (d ++ f)%string else (d ++ "/" ++ f)%string.

Section Files.
Variable canon : string -> string.        (* the file or directory a path stands for *)
Variable may_write : string -> bool.      (* it may be created or overwritten *)

Definition file_at (p : string) (fs : fsys) : option content := get (canon p) (fs_files fs).
Definition is_dir (p : string) (fs : fsys) : bool := existsb (eqb (canon p)) (fs_dirs fs).

(** conf-file-processor.cpp:334-386: the state directory must exist; the configuration file is copied
    into it (copy_file refuses to copy a file to itself, or over a directory); then a test file is
    written and removed. *)
Definition prepare (conf dir : string) (fs : fsys) : bool * fsys :=
  let dyn := join dir "nlsr.conf" in
  let test := join dir "test.seq" in
  if eqb dir ""%string || negb (is_dir dir fs) then (false, fs)     (* the empty path names nothing *)
  else if eqb conf dyn then (false, fs)
  else match file_at conf fs with
       | None => (false, fs)
       | Some x =>
           if eqb (canon conf) (canon dyn) || is_dir dyn fs || negb (may_write (canon dyn)) then (false, fs)
           else let fs1 := Fsys (fs_dirs fs) (set (canon dyn) x (fs_files fs)) in
                if is_dir test fs || negb (may_write (canon test)) then (false, fs1)
                else (true, Fsys (fs_dirs fs) (del (canon test) (fs_files fs1)))
       end.
End Files.

Section Main.
Variables (to_u32 to_int to_u64 to_dbl : string -> option Z).
Variable to_angles : string -> list Z.
Variable to_name : string -> option name.
Variable to_uri : string -> option uri.
Variable have : string -> bool.
Variable rules_ok : ptree -> bool.
Variable cert_ok : string -> bool.
Variable ver : comp.
Variable canon : string -> string.
Variable may_write : string -> bool.

(** conf-file-processor.cpp:186-212, with the files: the directory is looked at when everything else in
    the general section has been accepted. *)
Definition section_fs (conf k : string) (t : ptree) (c : cparam) (fs : fsys) : option cparam * fsys :=
  match conf_section to_u32 to_int to_u64 to_dbl to_angles to_name to_uri (fun _ => true) have rules_ok cert_ok ver k t c with
  | None => (None, fs)
  | Some c' =>
      if eqb k "general"%string then
        let (ok, fs') := prepare canon may_write conf (gc_dir (cp_gen c')) fs in (if ok then Some c' else None, fs')
      else (Some c', fs)
  end.
(** conf-file-processor.cpp:165-184 load *)
Fixpoint load_fs (conf : string) (ch : list (string * ptree)) (c : cparam) (fs : fsys) : option cparam * fsys :=
  match ch with
  | [] => (Some c, fs)
  | (k, t) :: ch' =>
      match section_fs conf k t c fs with
      | (Some c', fs') => load_fs conf ch' c' fs'
      | (None, fs') => (None, fs')
      end
  end.
(** conf-file-processor.cpp:147-163 processConfFile *)
Definition process_file (conf : string) (fs : fsys) : option cparam * fsys :=
  match file_at canon conf fs with
  | Some (_, Some t) => load_fs conf (pt_children t) cp_init fs
  | _ => (None, fs)
  end.

(** main.cpp:43-66.  What getopt returns: [MBad] is an unknown option or a missing argument. *)
Inductive mopt := MHelp | MFile (f : string) | MVersion | MBad.
(** [XExit k]: the program ends with this code; [XRefused]: the configuration is refused (code 2; a text
    that is no name or URI may end the program by an exception instead); [XRuns c]: it runs. *)
Inductive started := XExit (code : N) | XRefused | XRuns (c : cparam).
Fixpoint read_args (args : list mopt) (conf : string) : N + string :=
  match args with
  | [] => inr conf
  | MHelp :: _ | MVersion :: _ => inl 0%N
  | MBad :: _ => inl 2%N
  | MFile f :: args' => read_args args' f
  end.
Definition main (args : list mopt) (fs : fsys) : started * fsys :=
  match read_args args "nlsr.conf" with
  | inl code => (XExit code, fs)
  | inr conf => let (r, fs') := process_file conf fs in (match r with Some c => XRuns c | None => XRefused end, fs')
  end.

(** ** The router that runs *)

(** nlsr.cpp:42-49, hello-protocol.cpp:35-45, fib.cpp:37-50, routing-table.cpp:31-43: what the modules
    take from the parameters.  [junk]: what memory holds where m_faceDatasetFetchTries was not set. *)
Definition gconf_of (junk : N) (c : cparam) : gconf :=
  GConf (cp_conf c) (gc_syncp (cp_gen c)) (match nc_tries (cp_nb c) with Some v => Z.to_N v | None => junk end)
        (Z.to_N (fc_maxf (cp_fib c))) (fc_calc (cp_fib c)).
(** The neighbours, as declared. *)
Definition nbs_of (c : cparam) : list (name * uri * Z) := map (fun a => (a_name a, a_uri a, a_cost a)) (nc_adl (cp_nb c)).
(** nlsr.cpp:73-77: prefix commands edit the copy in the state directory; without a general section its
    path is empty and opening it fails. *)
Definition dyn_file (c : cparam) (fs : fsys) : cfile :=
  if eqb (gc_dir (cp_gen c)) ""%string then None else file_at canon (join (gc_dir (cp_gen c)) "nlsr.conf") fs.
(** A run of the daemon after [main]: [q] are the saved sequence numbers. *)
Definition drun (c : cparam) (fs : fsys) (q : option seqs) (now sys : Z) (evs : list (inp * gev)) : grun :=
  GRun q now sys (nbs_of c) (cp_npl c) (dyn_file c fs) evs.
End Main.
