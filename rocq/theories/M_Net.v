(** A network of routers: any number of LSDBs exchanging sync announcements and LSAs. *)
From Verif Require Import Base M_Nexthop M_Tlv M_Adj M_Lsa M_Lsdb M_Codec M_Sync S_Lsdb.
Open Scope Z_scope.
Set Implicit Arguments.

(** A process running NLSR: its configuration, its name below the network (<site>/<router>), and how it was started (the
    state file, the clock, the configured neighbours and prefixes).  Two processes may carry the same router
    name: one is then a later life of the other. *)
Record node := Node { n_conf : conf; n_site : name; n_file : option seqs; n_now : Z; n_env : env }.
Definition net := list node.

(** A schedule: which process handles which event, oldest first. *)
Definition sched := list (nat * (env * ev)).
Definition hist (i : nat) (s : sched) : list (env * ev) := map snd (filter (fun x => Nat.eqb (fst x) i) s).
Definition nrun (n : node) (i : nat) (s : sched) : st * list out :=
  exec (n_conf n) (n_file n) (n_now n) (n_env n) (hist i s).
Definition nstate n i s := fst (nrun n i s).
Definition nouts n i s := snd (nrun n i s).

(** conf-parameter.hpp:174-184, sync-logic-handler.hpp:45-49: the name under which the process announces its LSAs *)
Definition user (n : node) (t : ltype) : name := lsa_user_prefix (c_lsaprefix (n_conf n) ++ n_site n) t.
(** lsdb.cpp:582-600: the LSA type is read from the name *)
Definition asked_type (i : name) : option ltype := match back 2 i with Some ct => comp_type ct | None => None end.

Section Net.
Variables (time_str : Z -> string) (time_parse : string -> option Z) (uri_parse : string -> option uri).
Variable w : net.

(** What can happen next.  Announcements and Data packets sent in the past can be delivered at any
    time, any number of times, in any order, or never:
    - the sync protocol reports numbers that another process announced (lsdb.cpp:89-97);
    - a retrieval (lsdb.cpp:486-526) ends with the LSA carried by Data packets that some process sent under the retrieved name followed
      by a version and a segment number, decoded as the type in the name (lsdb.cpp:582-608), or with an LSA that does not decode.
      Simplification: one Data packet stands for all segments of the LSA; the segment fetcher and the
      validator (external) pass on nothing that no router sent;
    - everything else (timers, errors, Interests, local changes) can happen at any time. *)
Definition allowed (past : sched) (x : nat * (env * ev)) : Prop :=
  exists n, nth_error w (fst x) = Some n /\
  match snd (snd x) with
  | ESync u q _ => exists j m t, nth_error w j = Some m /\ j <> fst x /\ u = user m t /\ In (OPublish t q) (nouts m j past)
  | EFetchDone fid content =>
      content = None \/
      exists j m f a b l k, nth_error w j = Some m /\ get fid (s_fetch (nstate n (fst x) past)) = Some f /\
        In (OData (f_iname f ++ [a; b]) l k) (nouts m j past) /\
        content = match asked_type (f_iname f) with
                  | Some t => dec_lsa time_parse uri_parse t (enc_lsa time_str l)
                  | None => None
                  end
  | EInterest i _ _ _ => sane i
  | _ => True
  end.

Inductive possible : sched -> Prop :=
| possible_nil : possible []
| possible_snoc s x : possible s -> allowed s x -> possible (s ++ [x]).

End Net.
