(** Vocabulary for C91: the routes that the forwarders have. *)
From Verif Require Import Base M_Nexthop M_Tlv M_Adj M_Lsa M_Lsdb M_Codec M_Sync S_Lsdb S_Codec M_Npt M_Fib S_Fib M_Prefix M_Hello M_Router S_Router S_Live
  M_Network S_Network.
Open Scope Z_scope.
Set Implicit Arguments.

Section R.
Variables (c : gconf) (uri_of : name -> string) (ang : list Z -> list Z -> Z) (dst : Z -> Z -> Z -> Z).
Notation gstate := (gstate c uri_of ang dst).
Notation gtrace := (gtrace c uri_of ang dst).

(** The forwarder has a route for the prefix over the face that has not ended. *)
Definition live_route (r : grun) (n : name) (f : N) : Prop :=
  exists e, route_end (u_now r) (gtrace r) n f = Some e /\ g_now (gstate r) < e.

(** For some time now, [f] has been the face of [u], and the forwarder has refused no registration.  At the
    beginning of that time the forwarder had no route for the prefix over [f] that the FIB did not want; if the FIB wanted
    one already, it was registered since. *)
Definition steady (r : grun) (n : name) (u : uri) (f : N) : Prop :=
  exists r0 b t, r = extend r0 b /\ gtrace r = gtrace r0 ++ t /\
    (forall b1 b2, b = b1 ++ b2 -> sole_face (h_adl (g_h (gstate (extend r0 b1)))) u f) /\
    (forall i id, ~ In (i, GvFib (FvRegFail id)) b) /\
    (route_end (u_now r0) (gtrace r0) n f <> None -> In u (fib_faces (g_fib (gstate r0)) n)) /\
    (In u (fib_faces (g_fib (gstate r0)) n) -> registered t n f).

(** No refresh of the prefix is overdue by ten seconds. *)
Definition timely (r : grun) (n : name) : Prop :=
  forall due, refresh_due (g_fib (gstate r)) n = Some due -> g_now (gstate r) < due + 10 * SEC.

(** The prefix is not one that the router registers for its own traffic. *)
Definition not_own (n : name) : Prop := n <> c_lsaprefix (gc c) /\ n <> gc_sync c.
(** A route's lifetime (twice the refresh time plus ten seconds) in milliseconds fits its field. *)
Definition fits_field : Prop := (2 * c_refresh (gc c) + 10) * 1000 <= MS_MAX.
End R.

Section N.
Variables (uri_of : name -> string) (ang : list Z -> list Z -> Z) (dst : Z -> Z -> Z -> Z).
Variable w : list box.

(** The forwarder of router [u] sends packets for the prefix to [v]: it has a live route over the face of [v]. *)
Definition relays (s : gsched) (p u v : name) : Prop :=
  exists i b, nth_error w i = Some b /\ bname b = u /\
    exists x k, In (v, x, k) (u_nbs (b_start b)) /\
      live_route (b_conf b) uri_of ang dst (brun b i s) p (get_face_id x (h_adl (g_h (bstate uri_of ang dst b i s)))).

(** All neighbours have had their faces for some time, and refreshes are in time. *)
Definition all_steady (s : gsched) (p : name) : Prop := forall i b, nth_error w i = Some b ->
  fits_field (b_conf b) /\ not_own (b_conf b) p /\ timely (b_conf b) uri_of ang dst (brun b i s) p /\
  forall v x k, In (v, x, k) (u_nbs (b_start b)) -> exists f, steady (b_conf b) uri_of ang dst (brun b i s) p x f.
End N.
