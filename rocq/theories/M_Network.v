(** A network of whole routers: any number of daemons that exchange sync announcements, LSAs and hellos. *)
From Verif Require Import Base M_Nexthop M_Tlv M_Adj M_Lsa M_Lsdb M_Codec M_Sync S_Lsdb M_Net M_Prefix M_Hello M_Router S_Router.
Open Scope Z_scope.
Set Implicit Arguments.

(** A daemon: its configuration, its name below the network (<site>/<router>), and how it was started (the
    events of [b_start] are not looked at). *)
Record box := Box { b_conf : gconf; b_site : name; b_start : grun }.

(** A schedule: which daemon handles which event, oldest first. *)
Definition gsched := list (nat * (inp * gev)).
Definition ghist (i : nat) (s : gsched) : list (inp * gev) := map snd (filter (fun x => Nat.eqb (fst x) i) s).
Definition brun (b : box) (i : nat) (s : gsched) : grun :=
  let r := b_start b in GRun (u_seqs r) (u_now r) (u_sys r) (u_nbs r) (u_list r) (u_file r) (ghist i s).

(** conf-parameter.hpp:174-184, sync-logic-handler.hpp:45-49: the name under which the daemon announces its LSAs *)
Definition buser (b : box) (t : ltype) : name := lsa_user_prefix (c_lsaprefix (gc (b_conf b)) ++ b_site b) t.

Section Network.
Variables (uri_of : name -> string) (ang : list Z -> list Z -> Z) (dst : Z -> Z -> Z -> Z).
Variables (time_str : Z -> string) (time_parse : string -> option Z) (uri_parse : string -> option uri).
Variable w : list box.

Definition bstate (b : box) (i : nat) (s : gsched) : router := gstate (b_conf b) uri_of ang dst (brun b i s).
Definition btrace (b : box) (i : nat) (s : gsched) : list glog := gtrace (b_conf b) uri_of ang dst (brun b i s).

(** What can happen next (compare M_Net.v, which models the databases alone):
    - the sync protocol reports numbers that another daemon announced (lsdb.cpp:89-97);
    - a retrieval (lsdb.cpp:486-526) ends with an LSA that some daemon sent under the retrieved name followed by a
      version and a segment number, decoded as the type in the name (lsdb.cpp:582-608), or with an LSA that
      does not decode.  Simplification: one Data packet stands for all segments of the LSA; the segment fetcher and
      the validator (external) pass on nothing that no daemon sent;
    - everything else (hellos, timers, face events, answers of the forwarder, commands, Interests,
      losses) can happen at any time. *)
Definition gallowed (past : gsched) (x : nat * (inp * gev)) : Prop :=
  exists b, nth_error w (fst x) = Some b /\
  match snd (snd x) with
  | GvDb (ESync u q _) => exists j m t, nth_error w j = Some m /\ j <> fst x /\ u = buser m t /\
      In (OPublish t q) (db_outs (btrace m j past))
  | GvDb (EFetchDone fid content) =>
      content = None \/
      exists j m f a z l k, nth_error w j = Some m /\ get fid (s_fetch (g_db (bstate b (fst x) past))) = Some f /\
        In (OData (f_iname f ++ [a; z]) l k) (db_outs (btrace m j past)) /\
        content = match asked_type (f_iname f) with
                  | Some t => dec_lsa time_parse uri_parse t (enc_lsa time_str l)
                  | None => None
                  end
  | GvDb (EInterest i _ _ _) => sane i
  | _ => True
  end.

Inductive gpossible : gsched -> Prop :=
| gpossible_nil : gpossible []
| gpossible_snoc s x : gpossible s -> gallowed s x -> gpossible (s ++ [x]).
End Network.
