(** Vocabulary for C95: when the databases of a network agree with what the routers say of themselves. *)
From Verif Require Import Base M_Nexthop M_Tlv M_Adj M_Lsa M_Lsdb M_Codec M_Sync S_Lsdb S_Codec M_Net S_Net P_Sync.
Open Scope Z_scope.
Set Implicit Arguments.

(** The event is part of the exchange of LSAs: an announcement arrives, an Interest arrives, a retrieval ends.  In
    particular no timer fires, and no router changes what it says of itself. *)
Definition exchange (x : nat * (env * ev)) : Prop :=
  match snd (snd x) with ESync _ _ _ | EInterest _ _ _ _ | EFetchDone _ _ => True | _ => False end.

Section Conv.
Variables (time_str : Z -> string) (time_parse : string -> option Z) (uri_parse : string -> option uri).
Variable w : net.

(** Every LSA that a router had of itself can be encoded (C41). *)
Definition codable (s : sched) : Prop := forall j m l, produced w s j m l ->
  encodable time_str time_parse uri_parse l /\ fits (enc_lsa time_str l).
(** Every process runs. *)
Definition all_run (s : sched) : Prop := forall i n, nth_error w i = Some n -> s_dead (nstate n i s) = false.
(** No two processes have the same router name. *)
Definition distinct : Prop := forall j m, nth_error w j = Some m -> only w j m.
(** [l] is what process [j] now says of itself, and tells the others. *)
Definition says (s : sched) (j : nat) (m : node) (l : lsa) : Prop :=
  nth_error w j = Some m /\ holds (nstate m j s) l /\ l_origin l = c_self (n_conf m) /\ publishes (c_hyp (n_conf m)) (l_type l) = true.
(** Process [i] stores it. *)
Definition knows_of (s : sched) (i : nat) (n : node) (l : lsa) : Prop :=
  exists l1, holds (nstate n i s) l1 /\ l_key l1 = l_key l /\ copy l l1.
(** Every process stores what every process says of itself, for the types that it uses. *)
Definition converged (s : sched) : Prop := forall i n j m l, nth_error w i = Some n -> says s j m l ->
  used (c_hyp (n_conf n)) (l_type l) = true -> knows_of s i n l.
End Conv.
