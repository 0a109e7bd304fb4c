(** What a user of the command line tool asks for, in terms of the documented command lines only. *)
From Verif Require Import Base M_Lsa M_Prefix M_Nlsrc.
Set Implicit Arguments.
Open Scope Z_scope.

(** The documented forms (printUsage): the prefix, the cost (0 if none is given) and whether the
    configuration file is to be changed as well. *)
Inductive asks : list string -> bool -> string -> N -> bool -> Prop :=
| asks_adv u : asks ["advertise"; u]%string true u 0 false
| asks_adv_cost u k : (k < 2 ^ 31)%N -> asks ["advertise"; u; "cost"; dec k]%string true u k false
| asks_save u : asks ["advertise"; u; "save"]%string true u 0 true
| asks_save_cost u k : (k < 2 ^ 31)%N -> asks ["advertise"; u; "cost"; dec k; "save"]%string true u k true
| asks_wd u : asks ["withdraw"; u]%string false u 0 false
| asks_delete u : asks ["withdraw"; u; "delete"]%string false u 0 true.

(** Options that only choose the router and how its answers are verified. *)
Definition plain_opts (to_name : string -> option name) (l : list topt) : Prop :=
  forall o, In o l -> o = ONoCheck \/ (exists f, o = OConf f) \/ (exists u n, o = ORouter u /\ to_name u = Some n).
(** The router: the last -R, /localhost without one; the file: the last -c, or the default. *)
Definition target (to_name : string -> option name) (l : list topt) : name :=
  fold_left (fun r o => match o with ORouter u => match to_name u with Some n => n | None => r end | _ => r end)
    l (nm ["localhost"]%string).
Definition conf_of (l : list topt) : string :=
  fold_left (fun r o => match o with OConf f => f | _ => r end) l DEFAULT_CONF.
(** Answers of a remote router are verified with the policy of the file unless -k is given. *)
Definition verifiable (to_name : string -> option name) (validator_ok : string -> bool) (l : list topt) : Prop :=
  target to_name l = nm ["localhost"]%string \/ In ONoCheck l \/ validator_ok (conf_of l) = true.

(** The commands among the outputs, with the router they go to. *)
Definition commands (o : list tout) : list (name * cmd) :=
  flat_map (fun x => match x with TCommand r m => [(r, m)] | _ => [] end) o.
(** The databases shown. *)
Definition databases (o : list tout) : list routers :=
  flat_map (fun x => match x with TShowLsdb d => [d] | _ => [] end) o.
Definition tables (o : list tout) : list (option rtabs) :=
  flat_map (fun x => match x with TShowTable t => [t] | _ => [] end) o.

(** The LSA shown for a router. *)
Definition shows (d : routers) (o : name) (t : ltype) : option lsa :=
  match get o d with
  | Some r => match t with TAdj => sh_adj r | TCoord => sh_coord r | TName => sh_name r end
  | None => None
  end.
