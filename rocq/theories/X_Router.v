(** A concrete router and run: two neighbours come up, their Adjacency LSAs are fetched, routes are
    calculated. *)
From Verif Require Import Base M_Nexthop M_Tlv M_Adj M_Lsa M_Lsdb S_Lsdb M_LinkState M_Hyperbolic M_RoutingTable
  M_Npt S_Npt M_Fib S_Pipe M_Prefix M_Hello M_Router S_Router X_Lsdb.
Open Scope Z_scope.

Definition thirdX : name := nm ["ndn"; "site"; "r3"]%string.
Definition uri2 : uri := "udp4://10.0.0.2:6363"%string.
Definition uri3 : uri := "udp4://10.0.0.3:6363"%string.
Definition gcX (h : hyp) : gconf := GConf (confX h) (nm ["localhop"; "ndn"; "nlsr"; "sync"]%string) 3 2 15.
Definition uriR (n : name) : string := fold_right (fun x r => ("/" ++ cval x ++ r)%string) ""%string n.
Definition angR (a b : list Z) : Z := 0.
Definition dstR (a b d : Z) : Z := a + b.
Definition iX : inp := Inp T0 [] [] [] [].
Definition at_ (v : gev) : inp * gev := (iX, v).
Definition verR : comp := Comp 54 "1"%string.
Definition dataR (n : name) : name := hello_name (hconf_of (gcX HOff)) n ++ [verR].

Definition adjR (n : name) (k : Z) : adjacent := Adj n (if eqb n farX then uri2 else uri3) (of_int k) SActive 0 0.
Definition alsaR (o : name) (q : N) (l : list adjacent) : lsa := Lsa o q (T0 + 3600 * SEC) (BAdj l).

(** The faces appear, registrations succeed, hellos are answered. *)
Definition upR : list (inp * gev) :=
  map at_ [GvHello (HvDataset [(300, uri2); (301, uri3)])%N;
           GvFib (FvRegOk 2); GvFib (FvRegOk 4);
           GvHello (HvData 0 (dataR farX)); GvHello (HvData 2 (dataR thirdX))].
Definition runR (h : hyp) (evs : list (inp * gev)) : grun :=
  GRun None 0 T0 [(farX, uri2, of_int 10); (thirdX, uri3, of_int 25)] [] None evs.
Notation stR h evs := (gstate (gcX h) uriR angR dstR (runR h evs)).
Notation trR h evs := (gtrace (gcX h) uriR angR dstR (runR h evs)).

(** Then the own Adjacency LSA is built, r2's and r3's are fetched, and the calculation runs. *)
Definition linkedR : list (inp * gev) :=
  upR ++ map at_ [GvTick (10 * SEC); GvDb (EFire 2);
                  GvDb (ESync (syncX "r2" TAdj) 1 300); GvDb (EFetchDone 0 (Some (alsaR farX 1 [adjR selfX 10; adjR thirdX 5])));
                  GvDb (ESync (syncX "r3" TAdj) 1 301); GvDb (EFetchDone 1 (Some (alsaR thirdX 1 [adjR selfX 25; adjR farX 5])))].
Definition calcR : list (inp * gev) := linkedR ++ map at_ [GvTick (15 * SEC); GvCalc 0].

(** r2 announces other costs; before the calculation, r3's face is lost and comes back. *)
Definition flapR : list (inp * gev) :=
  calcR ++ map at_ [GvDb (ESync (syncX "r2" TAdj) 2 300); GvDb (EFetchDone 2 (Some (alsaR farX 2 [adjR selfX 10; adjR thirdX 40])));
                    GvTick (14 * SEC);
                    GvHello (HvDestroyed 301); GvHello (HvCreated 302 uri3); GvFib (FvRegOk 16);
                    GvHello (HvData 4 (dataR thirdX)); GvTick (1 * SEC); GvCalc 0; GvTick (10 * SEC)].
Definition lostR : list (inp * gev) := flapR ++ map at_ [GvDb (EFire 8)].
(** r2's Adjacency LSA expires. *)
Definition expireR : list (inp * gev) := calcR ++ map at_ [GvTick (1800 * SEC); GvDb (EFire 0); GvDb (EFire 3); GvTick (1800 * SEC); GvDb (EFire 4)].
