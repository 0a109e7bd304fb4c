(** What may be encoded, and what a receiver gets to see. *)
From Verif Require Import Base M_Nexthop M_Adj M_Lsa.
Set Implicit Arguments.
Open Scope Z_scope.

(** [z] (in units of 2^-1074) is a finite IEEE 754 binary64 number. *)
Definition is_double (z : Z) : Prop := exists m k : Z, z = m * 2 ^ k /\ Z.abs m < 2 ^ 53 /\ 0 <= k <= 2045.

(** The TLV types of the components are legal. *)
Definition legal_name (n : name) : Prop := forall c, In c n -> (1 <= ctype c < 2 ^ 32)%N.

(** The part of a neighbour entry that is advertised: its name, face URI and cost, not the local
    hello state. *)
Definition advertised_adj (a : adjacent) : adjacent := Adj (a_name a) (a_uri a) (a_cost a) SUnknown 0 0.
Definition advertised_body (b : body) : body :=
  match b with BAdj l => BAdj (map advertised_adj l) | _ => b end.
Definition advertised (l : lsa) : lsa := Lsa (l_origin l) (l_seq l) (l_exp l) (advertised_body (l_body l)).

(** An LSA that can be sent: legal names, 64-bit sequence number, an expiration time and URIs that
    survive their text form, costs and coordinates that are doubles, each neighbour and each prefix
    listed once. *)
Definition encodable (time_str : Z -> string) (time_parse : string -> option Z)
    (uri_parse : string -> option uri) (l : lsa) : Prop :=
  legal_name (l_origin l) /\ (l_seq l < 2 ^ 64)%N /\ time_parse (time_str (l_exp l)) = Some (l_exp l) /\
  match l_body l with
  | BAdj a => NoDup (map a_name a) /\
      forall x, In x a -> legal_name (a_name x) /\ uri_parse (a_uri x) = Some (a_uri x) /\ is_double (a_cost x)
  | BCoord r an => is_double r /\ forall a, In a an -> is_double a
  | BName p => NoDup (map fst p) /\ forall x, In x p -> legal_name (fst x) /\ is_double (snd x)
  end.

(** A wire of less than 2^64 octets. *)
Definition fits (s : string) : Prop := (N.of_nat (String.length s) < 2 ^ 64)%N.
