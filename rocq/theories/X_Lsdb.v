(** A concrete configuration and run, used to show that hypotheses are met and claims refuted. *)
From Verif Require Import Base M_Nexthop M_Tlv M_Adj M_Lsa M_Lsdb S_Lsdb.
Open Scope Z_scope.

Definition netX : name := nm ["ndn"]%string.
Definition selfX : name := nm ["ndn"; "site"; "r1"]%string.
Definition farX : name := nm ["ndn"; "site"; "r2"]%string.
Definition lsaX : name := nm ["localhop"; "ndn"; "nlsr"; "LSA"]%string.
Definition confX (h : hyp) : conf := Conf netX selfX lsaX 1800 3600 3 1 10 h 0 [0] 4.

(** Names reported by sync for router r2 and for this router. *)
Definition syncX (r : string) (t : ltype) : name := lsaX ++ nm ["site"; r]%string ++ [type_comp t].

Definition adjX (n : name) (st : status) (touts : N) : adjacent :=
  Adj n "udp4://10.0.0.2:6363"%string (of_int 10) st touts 1.
Definition pX : name := nm ["ndn"; "video"]%string.
Definition p2X : name := nm ["ndn"; "mail"]%string.
Definition T0 : Z := 1000000 * SEC.
Definition envX : env := Env T0 [(pX, 0)] [adjX farX SActive 0].
(** The same with no ACTIVE neighbour. *)
Definition envI : env := Env T0 [(pX, 0)] [adjX farX SInactive 3].

Definition nlsaX (q : N) (names : npl) : lsa := Lsa farX q (T0 + 3600 * SEC) (BName names).

(** r2's Name LSA with number 5 and one prefix of cost 7 is fetched, then number 6 with cost 9. *)
Definition evsX : list (env * ev) :=
  [(envX, ESync (syncX "r2" TName) 5 300);
   (envX, EFetchDone 0 (Some (nlsaX 5 [(pX, 7)])));
   (envX, ESync (syncX "r2" TName) 6 300);
   (envX, EFetchDone 1 (Some (nlsaX 6 [(pX, 9); (p2X, 1)])))].
