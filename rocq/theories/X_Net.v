(** Concrete networks, used to show that hypotheses are met and claims refuted. *)
From Verif Require Import Base M_Nexthop M_Tlv M_Adj M_Lsa M_Lsdb M_Codec M_Sync S_Lsdb S_Codec M_Net S_Net X_Lsdb P_Codec.
Open Scope Z_scope.

Definition siteN (r : string) : name := nm ["site"; r]%string.
Definition confN (h : hyp) (r : string) : conf := Conf netX (netX ++ siteN r) (lsa_prefix netX) 1800 3600 3 1 10 h 0 [0] 4.
Definition envN (adj : list name) (p : list (name * Z)) : env := Env T0 p (map (fun n => adjX n SActive 0) adj).
Definition r1N : name := nm ["ndn"; "site"; "r1"]%string.
Definition r2N : name := nm ["ndn"; "site"; "r2"]%string.
Definition r3N : name := nm ["ndn"; "site"; "r3"]%string.
Definition nodeN (h : hyp) (r : string) (f : option seqs) (e : env) : node := Node (confN h r) (siteN r) f 0 e.

(** Router r2, between r1 and r3. *)
Definition n1 : node := nodeN HDry "r1" None (envN [r2N] []).
Definition n2 : node := nodeN HDry "r2" None (envN [r1N; r3N] [(pX, of_int 7)]).
Definition n3 : node := nodeN HDry "r3" None (envN [r2N] []).
Definition wN : net := [n1; n2; n3].

(** Process [i] learns of, asks process [j] for, and gets, the LSA of type [t] and number [q] of router [m]; the LSA is [l]. *)
Definition getN (i j : nat) (m : node) (t : ltype) (q : N) (fid : nat) (l : lsa) : sched :=
  [(i, (envN [] [], ESync (user m t) q 300)); (j, (n_env m, EInterest (user m t ++ [number_comp q]) true 1 7));
   (i, (envN [] [], EFetchDone fid (dec_lsa tp8 Some t (enc_lsa ts8 l))))].
Definition buildN (j : nat) (tid : nat) (e : env) : sched := [(j, (e, EScheduleBuild)); (j, (e, ETick (10 * SEC))); (j, (e, EFire tid))].

Definition adjN (q : N) (adj : list name) : lsa := Lsa r2N q (T0 + 3600 * SEC) (BAdj (map (fun n => adjX n SActive 0) adj)).
Definition namN (q : N) (p : npl) : lsa := Lsa r2N q (T0 + 3600 * SEC) (BName p).

(** r2 builds its Adjacency LSA; r1 and r3 get it. *)
Definition sN : sched := buildN 1 2 (envN [r1N; r3N] [(pX, of_int 7)]) ++
  getN 0 1 n2 TAdj 1 0 (adjN 1 [r1N; r3N]) ++ getN 2 1 n2 TAdj 1 0 (adjN 1 [r1N; r3N]).

(** r1 gets the first Name LSA of r2, which then withdraws the prefix and advertises it again with another cost;
    r1 and r3 get the third one. *)
Definition sC : sched := getN 0 1 n2 TName 1 0 (namN 1 [(pX, of_int 7)]) ++
  [(1%nat, (envN [r1N; r3N] [], EBuildName)); (1%nat, (envN [r1N; r3N] [(pX, of_int 9)], EBuildName))] ++
  getN 0 1 n2 TName 3 1 (namN 3 [(pX, of_int 9)]) ++ getN 2 1 n2 TName 3 0 (namN 3 [(pX, of_int 9)]).

(** r2 stops and starts again, now with r3 as its only neighbour; its second life is process 3. *)
Definition s1L : sched := buildN 1 2 (envN [r1N; r3N] [(pX, of_int 7)]) ++ getN 0 1 n2 TAdj 1 0 (adjN 1 [r1N; r3N]).
Definition n2' : node := nodeN HDry "r2" (d_file (disk_after None (nouts n2 1 s1L))) (envN [r3N] [(pX, of_int 7)]).
Definition wL : net := [n1; n2; n3; n2'].
Definition sL : sched := s1L ++ buildN 3 2 (envN [r3N] [(pX, of_int 7)]) ++ getN 2 3 n2' TAdj 1 0 (adjN 1 [r3N]).
