(** Vocabulary for C92 and C93: whose certificates may stand between a packet and a trust anchor. *)
From Verif Require Import Base M_Hello M_Router M_Trust.
Local Open Scope nat_scope.
Set Implicit Arguments.

(** The name a certificate or key belongs to: what stands before the first component KEY. *)
Fixpoint owner (n : name) : name :=
  match n with [] => [] | c :: n' => if eqb c KEY then [] else c :: owner n' end.

(** One of the names is a prefix of the other. *)
Definition related (a b : name) : Prop := (exists x, b = a ++ x) \/ (exists x, a = b ++ x).

(** The name has no such component. *)
Definition free (f : comp -> bool) (n : name) : Prop := forall c, In c n -> f c = false.

(** [j] may vouch for router [r]: it is the router's process, something it consists of, a name above it, or
    likewise for the operators of the site of the router (the site is what stands before the router mark). *)
Definition may_vouch (r j : name) : Prop :=
  related j (r ++ [NLSR]) \/
  exists site m rest o, r = site ++ m :: rest /\ free is_router site /\ is_router m = true /\ is_operator o = true /\
    related j (site ++ [o]).

(** Key locators that name a key of the router's process *)
Definition names_process_key (r kl : name) : Prop :=
  exists x, kl = r ++ [NLSR; KEY] ++ x /\ 1 <= length x <= 3.

(** The name of a packet of an LSA: router [net ++ rest], type, number, version, segment *)
Definition lsa_packet (net rest : name) (t q v s : comp) : name :=
  [gen "localhop"] ++ net ++ [NLSR; gen "LSA"] ++ rest ++ [t; q; v; s].
(** The name of the answer of [r] to a Hello: the neighbour that asks, and a version *)
Definition hello_packet (r : name) (a v : comp) : name := r ++ [NLSR; INFO; a; v].
(** The packets that stand for router [r]: those of its LSAs and its answers to Hellos *)
Definition packet_of (r n : name) : Prop :=
  (exists net rest t q v s, r = net ++ rest /\ free (lit "nlsr") net /\ free (lit "LSA") net /\ n = lsa_packet net rest t q v s) \/
  (exists a v, n = hello_packet r a v).

(** A certificate for [j] *)
Definition cert_of (j : name) (c : tcert) : Prop :=
  exists a b d, tc_name c = j ++ [KEY; a; b; d] /\ forall x, In x [a; b; d] -> x <> KEY /\ x <> NLSR.
(** The key locator is the name of the certificate, or of its key. *)
Definition points_to (kl : name) (c : tcert) : Prop :=
  exists y z, tc_name c = owner (tc_name c) ++ KEY :: y ++ z /\ kl = owner (tc_name c) ++ KEY :: y /\ y <> [].
Definition issued (c d : tcert) : Prop := tc_sig c = tc_key d /\ points_to (tc_kl c) d.

(** A prefix-update command, without the two components of its signature *)
Definition command_packet (verb a b c : comp) : name :=
  [gen "localhost"; NLSR; gen "prefix-update"; verb; a; b; c].
(** A name below the operator mark *)
Definition operator_name (j : name) : Prop := exists x o u, j = x ++ o :: u /\ is_operator o = true.
