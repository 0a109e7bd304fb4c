(** Model of tools/nlsrc.cpp: the command line tool that asks a running router to advertise or
    withdraw a prefix and that shows its database and routing table.

    The tool sends one request at a time and exits when nothing is pending, so a run is determined by
    the command line and by the answers. *)
From Verif Require Import Base M_Nexthop M_Tlv M_Adj M_Lsa M_Lsdb M_Prefix M_Codec.
Set Implicit Arguments.
Open Scope Z_scope.

(** ** std::stoi (used at nlsrc.cpp:191) *)

(** isspace in the "C" locale *)
Definition is_space (c : ascii) : bool :=
  existsb (Ascii.eqb c) [" "; "009"; "010"; "011"; "012"; "013"]%char.
Definition digit (c : ascii) : option Z :=
  let n := Z.of_N (N_of_ascii c) in if (48 <=? n) && (n <=? 57) then Some (n - 48) else None.
(** The number in front of the text, and whether there was a digit; the rest is ignored. *)
Fixpoint digits (seen : bool) (acc : Z) (s : string) : option Z :=
  match s with
  | EmptyString => if seen then Some acc else None
  | String c s' => match digit c with
                   | Some d => digits true (acc * 10 + d) s'
                   | None => if seen then Some acc else None
                   end
  end.
Fixpoint skip_space (s : string) : string :=
  match s with
  | String c s' => if is_space c then skip_space s' else s
  | EmptyString => EmptyString
  end.
(** [None] is std::invalid_argument or std::out_of_range (int has 32 bits). *)
Definition stoi (s : string) : option Z :=
  let r := match skip_space s with
           | String c s' => if Ascii.eqb c "-" then option_map Z.opp (digits false 0 s')
                            else if Ascii.eqb c "+" then digits false 0 s'
                            else digits false 0 (String c s')
           | EmptyString => None
           end in
  match r with
  | Some z => if (- 2 ^ 31 <=? z) && (z <? 2 ^ 31) then Some z else None
  | None => None
  end.
(** uint64_t costValue = int *)
Definition to_u64 (z : Z) : N := Z.to_N (z mod 2 ^ 64).

(** ** State *)

(** nlsrc.cpp:140-161 the steps of a status command *)
Inductive fstep := FLsa (t : ltype) | FRt | PLsdb | PRt | PAll.

(** nlsrc.hpp:163-170: what was received about a router and the routing table.  The strings are the
    printed form of the LSAs; the model keeps the LSAs (printing is external). *)
Record shown := Shown { sh_adj : option lsa; sh_coord : option lsa; sh_name : option lsa }.
Definition routers := @amap name shown.
Definition rtabs := (list rte * list rte)%type.

(** What the tool waits for (the reply to a command, a dataset), or the status it exits with;
    [TAbort] is an uncaught exception. *)
Inductive tpc := TCmd | TFetch (what : fstep) | TExit (code : N) | TAbort.
Record tool := Tool
  { t_router : name; t_steps : list fstep; t_db : routers; t_rt : option rtabs; t_pc : tpc }.

(** What the tool does: requests to the router with the given prefix, and what it prints. *)
Inductive tout :=
| TCommand (router : name) (m : cmd)              (* a signed command Interest *)
| TFetchLsas (router : name) (t : ltype)
| TFetchTable (router : name)
| TUsage | TVersion | TError
| TApplied                                       (* "Applied Name prefix update successfully" *)
| TShowLsdb (d : routers)
| TShowTable (t : option rtabs).

(** The answers: the content type and code of the reply to a command ([None]: the content is not a
    control response), Nack or timeout; the content of a dataset, or an error. *)
Inductive creply := CData (nack : bool) (code : option N) | CLost.
Inductive tev :=
| TReply (r : creply)
| TFetched (r : option string).

Section Tool.
(** ndn::Name(uri): external; [None] is an exception. *)
Variable to_name : string -> option name.
(** nlsrc.cpp:110-138 enableValidator: whether the file exists, parses and holds a valid policy. *)
Variable validator_ok : string -> bool.
Variable time_parse : string -> option Z.
Variable uri_parse : string -> option uri.

(** nlsrc.cpp:232-243 runNextStep, with the printing steps 438-480; printing ends the run because
    nothing is pending then. *)
Definition next (s : tool) : tool * list tout :=
  match t_steps s with
  | [] => (Tool (t_router s) [] (t_db s) (t_rt s) (TExit 0), [])
  | FLsa t :: r => (Tool (t_router s) r (t_db s) (t_rt s) (TFetch (FLsa t)), [TFetchLsas (t_router s) t])
  | FRt :: r => (Tool (t_router s) r (t_db s) (t_rt s) (TFetch FRt), [TFetchTable (t_router s)])
  | PLsdb :: r => (Tool (t_router s) r (t_db s) (t_rt s) (TExit 0), [TShowLsdb (t_db s)])
  | PRt :: r => (Tool (t_router s) r (t_db s) (t_rt s) (TExit 0), [TShowTable (t_rt s)])
  | PAll :: r => (Tool (t_router s) r (t_db s) (t_rt s) (TExit 0), [TShowLsdb (t_db s); TShowTable (t_rt s)])
  end.

(** nlsrc.cpp:261-293 sendNamePrefixUpdate: cost 0 is not sent, nor is the cost of a withdrawal *)
Definition update_cmd (add : bool) (n : name) (flag : bool) (cost : N) : cmd :=
  Cmd Nlsr add n (if add && (0 <? cost)%N then Some cost else None) (if flag then Some 1%N else None) None.

(** The result of dispatch: not valid, an exception, or a state and outputs. *)
Inductive disp := DUsage | DThrow | DRun (s : tool) (o : list tout).

Definition send_update (router : name) (add : bool) (uri : string) (flag : bool) (cost : N) : disp :=
  match to_name uri with
  | None => DThrow
  | Some n => DRun (Tool router [] [] None TCmd) [TCommand router (update_cmd add n flag cost)]
  end.

(** nlsrc.cpp:140-161 getStatus *)
Definition get_status (router : name) (l : list fstep) : disp :=
  let (s, o) := next (Tool router l [] None (TExit 0)) in DRun s o.

(** nlsrc.cpp:163-230 dispatch *)
Definition dispatch (router : name) (a : list string) : disp :=
  match a with
  | [] => DUsage
  | verb :: args =>
      if eqb verb "advertise"%string then
        match args with
        | [uri] => send_update router true uri false 0
        | [uri; w] => if negb (eqb w "save"%string) then DUsage else send_update router true uri true 0
        | [uri; k; v] =>
            if negb (eqb k "cost"%string) then DUsage
            else match stoi v with
                 | None => DUsage
                 | Some z => send_update router true uri false (to_u64 z)
                 end
        | [uri; k; v; w] =>
            if negb (eqb w "save"%string) then DUsage
            else if negb (eqb k "cost"%string) then DUsage
            else match stoi v with
                 | None => DUsage
                 | Some z => send_update router true uri true (to_u64 z)
                 end
        | _ => DUsage
        end
      else if eqb verb "withdraw"%string then
        match args with
        | [uri] => send_update router false uri false 0
        | [uri; w] => if negb (eqb w "delete"%string) then DUsage else send_update router false uri true 0
        | _ => DUsage
        end
      else if eqb verb "lsdb"%string then
        match args with [] => get_status router [FLsa TAdj; FLsa TCoord; FLsa TName; PLsdb] | _ => DUsage end
      else if eqb verb "routing"%string then
        match args with [] => get_status router [FRt; PRt] | _ => DUsage end
      else if eqb verb "status"%string then
        match args with [] => get_status router [FLsa TAdj; FLsa TCoord; FLsa TName; FRt; PAll] | _ => DUsage end
      else DUsage
  end.

(** ** Options (nlsrc.cpp:487-550 main) *)

(** What getopt returns, in order. *)
Inductive topt := OHelp | OVersion | ORouter (uri : string) | OConf (file : string) | ONoCheck | OBad.

Definition LOCALHOST : name := nm ["localhost"]%string.
(** nlsr.conf's default path (DEFAULT_CONFIG_FILE) *)
Definition DEFAULT_CONF : string := "/usr/local/etc/ndn/nlsr.conf".

Definition stop (router : name) (pc : tpc) (o : list tout) : tool * list tout := (Tool router [] [] None pc, o).

(** nlsrc.cpp:497-527 the option loop.  setRouterPrefix converts the text to a name outside the try
    block: an exception there is not caught. *)
Fixpoint options (router : name) (file : string) (nocheck : bool) (l : list topt) (a : list string) : tool * list tout :=
  match l with
  | OHelp :: _ => stop router (TExit 0) [TUsage]
  | OVersion :: _ => stop router (TExit 0) [TVersion]
  | ORouter u :: l' => match to_name u with
                       | None => stop router TAbort []
                       | Some n => options n file nocheck l' a
                       end
  | OConf f :: l' => options router f nocheck l' a
  | ONoCheck :: l' => options router file true l' a
  | OBad :: _ => stop router (TExit 2) [TUsage]
  | [] =>
      match a with
      | [] => stop router (TExit 2) [TUsage]
      | _ =>
          if negb (eqb router LOCALHOST) && negb nocheck && negb (validator_ok file)
          then stop router (TExit 1) [TError]
          else match dispatch router a with
               | DUsage => stop router (TExit 2) [TUsage]
               | DThrow => stop router (TExit 1) [TError]
               | DRun s o => (s, o)
               end
      end
  end.
Definition start (l : list topt) (a : list string) : tool * list tout :=
  options LOCALHOST DEFAULT_CONF false l a.

(** ** Answers *)

Definition fin (s : tool) (code : N) (o : list tout) : tool * list tout :=
  (Tool (t_router s) (t_steps s) (t_db s) (t_rt s) (TExit code), o).

(** nlsrc.cpp:295-325 onControlResponse and 422-428 onTimeout *)
Definition on_reply (s : tool) (r : creply) : tool * list tout :=
  match r with
  | CLost => fin s 1 [TError]
  | CData true _ => fin s 0 [TError]
  | CData false None => fin s 1 [TError]
  | CData false (Some code) =>
      if negb (code =? 200)%N && negb (code =? 205)%N
      then fin s (if (code =? 204)%N then 0 else 1)%N [TError]
      else fin s 0 [TApplied]
  end.

(** nlsrc.cpp:369-385 recordLsa *)
Definition record_lsa (l : lsa) (d : routers) : routers :=
  let r := match get (l_origin l) d with Some r => r | None => Shown None None None end in
  set (l_origin l)
      (match l_type l with
       | TAdj => Shown (Some l) (sh_coord r) (sh_name r)
       | TCoord => Shown (sh_adj r) (Some l) (sh_name r)
       | TName => Shown (sh_adj r) (sh_coord r) (Some l)
       end) d.

(** nlsrc.cpp:399-420 onFetchSuccess: a broken element ends the loop and the run goes on; an element
    that is not what was asked for throws ([None]).  [fuel]: every element takes at least one octet. *)
Section Read.
Variable A : Type.
Variable dec1 : elt -> option A.
Variable record : A -> tool -> tool.
Fixpoint read_all (fuel : nat) (b : string) (s : tool) (o : list tout) : option (tool * list tout) :=
  match b, fuel with
  | EmptyString, _ => Some (s, o)
  | _, O => Some (s, o)
  | _, S f => match read_elt b with
              | None => Some (s, o ++ [TError])
              | Some (e, r) => match dec1 e with
                               | None => None
                               | Some x => read_all f r (record x s) o
                               end
              end
  end.
End Read.

Definition with_lsa (l : lsa) (s : tool) : tool :=
  Tool (t_router s) (t_steps s) (record_lsa l (t_db s)) (t_rt s) (t_pc s).
Definition with_rt (t : rtabs) (s : tool) : tool :=
  Tool (t_router s) (t_steps s) (t_db s) (Some t) (t_pc s).
(** route/routing-table.cpp:282-312 on one element *)
Definition dec_rt_elt (e : elt) : option rtabs :=
  if (fst e =? T_RoutingTable)%N then
    obind (dec_elts (snd e)) (fun es =>
    obind (dec_list T_RoutingTableEntry (dec_rte uri_parse) es) (fun l => Some (split_tables [] l)))
  else None.

(** [what]: the dataset that was asked for *)
Definition on_fetched (what : fstep) (s : tool) (r : option string) : tool * list tout :=
  match r with
  | None => fin s 1 [TError]
  | Some b =>
      let rd := match what with
                | FLsa t => read_all (dec_lsa_elt time_parse uri_parse t) with_lsa (String.length b) b s []
                | _ => read_all dec_rt_elt with_rt (String.length b) b s []
                end in
      match rd with
      | None => fin s 1 [TError]
      | Some (s', o) => let (s'', o') := next s' in (s'', o ++ o')
      end
  end.

(** face.processEvents: the answer to the pending request; other Data does not reach the tool. *)
Definition tstep (s : tool) (x : tev) : tool * list tout :=
  match t_pc s, x with
  | TCmd, TReply r => on_reply s r
  | TFetch what, TFetched r => on_fetched what s r
  | _, _ => (s, [])
  end.

(** A run of the tool: options, arguments and the answers it gets. *)
Definition trun (l : list topt) (a : list string) (xs : list tev) : tool * list tout :=
  let (s, o) := start l a in
  let (s', o') := run tstep s xs in (s', o ++ o').

End Tool.
