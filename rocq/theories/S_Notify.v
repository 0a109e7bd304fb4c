(** Specification of the change notifications of the database (C73). *)
From Verif Require Import Base M_Nexthop M_Adj M_Lsa M_Lsdb S_Lsdb.

(** The stored LSA of a router and type. *)
Definition stored (s : st) (k : name * ltype) : option lsa := find (fun l => eqb (l_key l) k) (contents s).

(** The notifications about the LSA of a router and type. *)
Definition notes (k : name * ltype) (outs : list out) : list out :=
  filter (fun o => match o with ONotify _ l _ _ => eqb (l_key l) k | _ => false end) outs.

(** The prefixes an LSA advertises. *)
Definition advertises (l : lsa) (p : name) : Prop := In p (keys (body_names (l_body l))).

(** All link costs of an Adjacency LSA are whole numbers. *)
Definition whole (b : body) : Prop :=
  match b with BAdj a => forall x, In x a -> exists z, a_cost x = of_int z | _ => True end.

(** [reported before after outs]: [outs] is the right report of a change of the stored LSA of one router
    and type.  A report names the LSA that was offered to the database; for a Name LSA it lists the
    prefixes that were added and removed. *)
Inductive reported : option lsa -> option lsa -> list out -> Prop :=
| rep_absent : reported None None []
| rep_new l : reported None (Some l) [ONotify KInstalled l [] []]
| rep_gone l : reported (Some l) None [ONotify KRemoved l [] []]
| rep_same l l' : l_body l' = l_body l -> reported (Some l) (Some l') []
| rep_names l l' n adds rems :
    l_type l' = TName -> l_seq n = l_seq l' -> (l_seq l < l_seq l')%N ->
    (adds <> [] \/ rems <> []) ->
    (forall p, In p (keys adds) <-> advertises l' p /\ ~ advertises l p) ->
    (forall p, In p (keys rems) <-> advertises l p /\ ~ advertises l' p) ->
    reported (Some l) (Some l') [ONotify KUpdated n adds rems]
| rep_content l l' n :
    l_type l' <> TName -> l_seq n = l_seq l' -> (l_seq l < l_seq l')%N ->
    (whole (l_body l) -> l_body n <> l_body l) ->
    (* the content is that of the offered LSA, up to repetitions of a neighbour, of which the first counts *)
    l_body l' = match l_body n with BAdj a => BAdj (adl_of_list a) | b => b end ->
    reported (Some l) (Some l') [ONotify KUpdated n [] []].
