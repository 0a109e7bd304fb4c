(** Vocabulary for C87: when the routes at the forwarder end, read off the trace of a router. *)
From Verif Require Import Base M_Nexthop M_Adj M_Fib S_Fib M_Hello M_Router S_Router.
Open Scope Z_scope.

(** The forwarder executes each command when it is sent: a registration holds for its lifetime (in
    milliseconds) from now on, unless it is withdrawn or renewed.  The clock is told by the trace. *)
Definition ends1 (x : Z * lives) (y : glog) : Z * lives :=
  match y with
  | CFib (FvTime t) => (Z.max (fst x) t, snd x)
  | XFib o => (fst x, lives_do (fst x) (snd x) o)
  | _ => x
  end.
Definition ends (t0 : Z) (t : list glog) : Z * lives := fold_left ends1 t (t0, []).
(** When the route of a prefix over a face ends. *)
Definition route_end (t0 : Z) (t : list glog) (n : name) (f : N) : option Z := get (n, f) (snd (ends t0 t)).

(** The neighbour with URI [u] has face [f], and no other URI has it. *)
Definition sole_face (l : adl) (u : uri) (f : N) : Prop :=
  (0 < f)%N /\ get_face_id u l = f /\ forall v, get_face_id v l = f -> v = u.
(** A route of [n] over face [f] was registered. *)
Definition registered (t : list glog) (n : name) (f : N) : Prop :=
  exists id cost ttl flags, In (XFib (FReg id n f cost ttl flags)) t.
