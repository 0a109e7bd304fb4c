(** Vocabulary for properties that span the name prefix table and the FIB. *)
From Verif Require Import Base M_Nexthop M_Lsa M_Lsdb M_LinkState M_Npt S_Npt M_Fib S_Fib.
Open Scope Z_scope.
Set Implicit Arguments.

(** The FIB is called by the name prefix table: the updates and removals among its events. *)
Definition fib_calls (fevs : list fev) : list nout :=
  flat_map (fun e => match e with FvUpdate n h fl => [NUpdate n h fl] | FvRemove n => [NRemove n] | _ => [] end) fevs.

(** Lists of a link-state routing table. *)
Definition ls_table (t : rtable) : Prop := integral t /\ nonneg t /\ forall d l, In (d, l) t -> is_nhl l.

