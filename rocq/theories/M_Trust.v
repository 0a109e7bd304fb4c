(** Model of the trust schema: the security section of nlsr.conf (lines 132-335), and the trust anchors that
    conf-file-processor.cpp:635-676 and conf-parameter.cpp:114-166 give to the two validators.

    From ndn-cxx (external): how patterns over names match, how the rules of a validator decide, and how
    certificates are followed up to a trust anchor.  Not modelled: signature types (every rule asks for
    ecdsa-sha256), validity periods, the limit of 25 certificates, the retrieval of certificates (any
    certificate that exists can be obtained). *)
From Verif Require Import Base M_Lsa M_Lsdb M_Hello M_Router M_Cert.
Local Open Scope nat_scope.
Set Implicit Arguments.

(** ** Patterns

    One element of a pattern: between [i_min] and [i_max] components ([None]: no limit) that are all [i_ok];
    [i_grp]: it is in parentheses.  In nlsr.conf parentheses always enclose one such element. *)
Record item := Item { i_grp : bool; i_min : nat; i_max : option nat; i_ok : comp -> bool }.
Definition pattern := list item.

Definition fits (i : item) (k : nat) (n : name) : bool :=
  (i_min i <=? k) && (match i_max i with Some m => k <=? m | None => true end) && forallb (i_ok i) (firstn k n).

(** The result for the greatest number up to [k] for which there is one *)
Fixpoint longest {A} (f : nat -> option A) (k : nat) : option A :=
  match f k with
  | Some x => Some x
  | None => match k with O => None | S k' => longest f k' end
  end.

(** ndn-cxx RegexMatcher: every element takes as many components as possible, and fewer if the rest does not
    match otherwise.  The result is the list of the parts in parentheses. *)
Fixpoint rmatch (p : pattern) (n : name) : option (list name) :=
  match p with
  | [] => match n with [] => Some [] | _ => None end
  | i :: p' =>
      longest (fun k => if fits i k n
                        then match rmatch p' (skipn k n) with
                             | Some g => Some (if i_grp i then firstn k n :: g else g)
                             | None => None
                             end
                        else None) (length n)
  end.
Definition rmatches (p : pattern) (n : name) : bool := match rmatch p n with Some _ => true | None => false end.

(** <text>: ndn-cxx RegexComponentMatcher compares the URI of a component with the text as a regular expression.
    For a text of letters and hyphens only the generic component with this value fits. *)
Definition lit (s : string) (c : comp) : bool := eqb c (gen s).
(** Octets that the URI of a component shows unescaped *)
Definition plain_octet (x : ascii) : bool :=
  let k := N_of_ascii x in
  ((48 <=? k) && (k <=? 57) || (65 <=? k) && (k <=? 90) || (97 <=? k) && (k <=? 122) ||
   (k =? 45) || (k =? 46) || (k =? 95) || (k =? 126))%N.
(** <%C1.text>: octet 0xC1, then one character (the dot of a regular expression), then the text *)
Definition mark (s : string) (c : comp) : bool :=
  match c with
  | Comp t (String a (String x r)) => eqb t 8%N && eqb (N_of_ascii a) 193%N && plain_octet x && eqb r s
  | _ => false
  end.
Definition is_router : comp -> bool := mark "Router".
Definition is_operator : comp -> bool := mark "Operator".

Definition any : comp -> bool := fun _ => true.
Definition neither (f g : comp -> bool) : comp -> bool := fun c => negb (f c || g c).
Definition either (f g : comp -> bool) : comp -> bool := fun c => f c || g c.
Definition one (f : comp -> bool) : item := Item false 1 (Some 1) f.
Definition many (f : comp -> bool) : item := Item false 0 None f.
Definition grp (f : comp -> bool) : item := Item true 0 None f.
(** <>{1,3} *)
Definition one3 : item := Item false 1 (Some 3) any.

(** ** Rules *)

(** [Hyper k rel p]: a hyper-relation; k-expand and p-expand list all parts in parentheses in every rule of
    nlsr.conf.  [KeyName k]: a regex for the name of the key. *)
Inductive checker :=
| Hyper (k : pattern) (rel : name -> name -> bool) (p : pattern)
| KeyName (k : pattern).
Record rule := Rule { r_filter : pattern; r_check : checker }.

(** ndn-cxx HyperRelationChecker, RegexChecker *)
Definition check (c : checker) (n kl : name) : bool :=
  match c with
  | Hyper k rel p => match rmatch p n, rmatch k kl with
                     | Some gp, Some gk => rel (concat gk) (concat gp)
                     | _, _ => false
                     end
  | KeyName k => rmatches k kl
  end.

(** ndn-cxx ValidationPolicyConfig::checkPolicy: the first rule whose filter matches decides; without one the
    packet is rejected *)
Definition policy (rs : list rule) (n kl : name) : bool :=
  match find (fun r => rmatches (r_filter r) n) rs with
  | Some r => check (r_check r) n kl
  | None => false
  end.

Definition same (a b : name) : bool := eqb a b.

(** ndn-cxx: the checker "hierarchical" is a hyper-relation: the components before KEY in the name of the key (any
    components, then KEY, then one to three) must be a prefix of the packet's name. *)
Definition hierarchical : checker := Hyper [grp any; one (eqb KEY); one3] prefix_of [grp any].

(** nlsr.conf:136-162 NLSR Hello Rule *)
Definition hello_rule : rule :=
  Rule [many (neither (lit "nlsr") (lit "INFO")); one (lit "nlsr"); one (lit "INFO"); one any; one any]
       (Hyper [grp (neither (lit "KEY") (lit "nlsr")); one (lit "nlsr"); one (lit "KEY"); one3] same
              [grp (neither (lit "nlsr") (lit "INFO")); one (lit "nlsr"); one (lit "INFO"); one any; one any]).

(** nlsr.conf:164-191 NLSR LSA Rule *)
Definition lsa_rule : rule :=
  Rule [many (neither (lit "nlsr") (lit "LSA")); one (lit "nlsr"); one (lit "LSA"); many any]
       (Hyper [grp (neither (lit "KEY") (lit "nlsr")); one (lit "nlsr"); one (lit "KEY"); one3] same
              [one (lit "localhop"); grp (neither (lit "nlsr") (lit "LSA")); one (lit "nlsr"); one (lit "LSA"); grp any;
               one any; one any; one any; one any]).

(** nlsr.conf:193-219 NLSR datasets *)
Definition dataset_rule : rule :=
  Rule [many (neither (lit "nlsr") (lit "nlsr")); one (lit "nlsr"); one (either (lit "lsdb") (lit "routing-table")); many any]
       (Hyper [grp (neither (lit "KEY") (lit "KEY")); one (lit "KEY"); one3] same
              [grp (neither (lit "nlsr") (lit "nlsr")); one (lit "nlsr"); one (either (lit "lsdb") (lit "routing-table")); many any]).

(** nlsr.conf:221-247 NLSR Hierarchy Exception Rule *)
Definition router_rule : rule :=
  Rule [many (neither (lit "KEY") is_router); one is_router; many (neither (lit "KEY") (lit "nlsr")); one (lit "KEY");
        one any; one any; one any]
       (Hyper [grp (neither (lit "KEY") is_operator); one is_operator; many (neither (lit "KEY") (lit "KEY")); one (lit "KEY"); one3] same
              [grp (neither (lit "KEY") is_router); one is_router; many (neither (lit "KEY") (lit "KEY")); one (lit "KEY");
               one any; one any; one any]).

(** nlsr.conf:249-263 NLSR Hierarchical Rule; 297-311 NLSR Hierarchy Rule *)
Definition cert_rule : rule :=
  Rule [many (neither (lit "KEY") (lit "KEY")); one (lit "KEY"); one any; one any; one any] hierarchical.

(** nlsr.conf:274-295 NLSR ControlCommand Rule.  The last two components of the Interest, which carry the
    signature, are not part of the name that is compared. *)
Definition command_rule : rule :=
  Rule [one (lit "localhost"); one (lit "nlsr"); one (lit "prefix-update"); one (either (lit "advertise") (lit "withdraw"));
        one any; one any; one any]
       (KeyName [grp (neither (lit "KEY") is_operator); one is_operator; many (neither (lit "KEY") (lit "KEY")); one (lit "KEY"); one3]).

(** nlsr.conf:134-269 validator, all rules are for Data *)
Definition validator : list rule := [hello_rule; lsa_rule; dataset_rule; router_rule; cert_rule].
(** nlsr.conf:272-318 prefix-update-validator: rules for Interests, rules for Data *)
Definition update_interests : list rule := [command_rule].
Definition update_certs : list rule := [cert_rule].

(** ** Signatures and certificates *)

(** A certificate: its name, the key it certifies, the key locator, and the key that made its signature. *)
Record tcert := TC { tc_name : name; tc_key : N; tc_kl : name; tc_sig : N }.
(** A packet: its name, the key locator, and the key that made its signature. *)
Record packet := Pkt { p_name : name; p_kl : name; p_sig : N }.

(** ndn-cxx Validator, TrustAnchorContainer, CertificateStorage: a certificate is trusted if it is an anchor, or if
    the rules accept it and a trusted certificate that the key locator names verifies it. *)
Inductive trusted (rs : list rule) (anchors store : list tcert) : tcert -> Prop :=
| tr_anchor c : In c anchors -> trusted rs anchors store c
| tr_signed c d : In c store -> cert_named (tc_name c) = true -> policy rs (tc_name c) (tc_kl c) = true ->
    trusted rs anchors store d -> prefix_of (tc_kl c) (tc_name d) = true -> tc_sig c = tc_key d ->
    trusted rs anchors store c.

(** [rs]: the rules for the packet; [certs]: those for certificates *)
Definition accepted (rs certs : list rule) (anchors store : list tcert) (p : packet) : Prop :=
  policy rs (p_name p) (p_kl p) = true /\
  exists d, trusted certs anchors store d /\ prefix_of (p_kl p) (tc_name d) = true /\ p_sig p = tc_key d.

(** conf-file-processor.cpp:643,647,671 and conf-parameter.cpp:114-119,165: the anchors of a validator are those of
    its section ([conf]), all certificates listed to be published, and the router's own certificate if it
    could be made. *)
Definition all_anchors (conf published : list tcert) (own : option tcert) : list tcert :=
  conf ++ published ++ match own with Some c => [c] | None => [] end.

(** lsdb.cpp:496, hello-protocol.cpp:214 *)
Definition data_accepted (conf published : list tcert) (own : option tcert) (store : list tcert) (p : packet) : Prop :=
  accepted validator validator (all_anchors conf published own) store p.
(** update/prefix-update-processor.cpp:78 *)
Definition command_accepted (conf published : list tcert) (own : option tcert) (store : list tcert) (p : packet) : Prop :=
  accepted update_interests update_certs (all_anchors conf published own) store p.
