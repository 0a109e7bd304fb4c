(** Specification for hyperbolic routing: what a next hop of a destination is. *)
From Verif Require Import Base M_Nexthop M_Adj M_Hyperbolic.
Open Scope Z_scope.

(** The last of a list of angles. *)
Definition last_angle (v : list Z) (a : Z) : Prop := exists w, v = w ++ [a].

(** The coordinates of a router, as the calculation accepts them for the neighbour's side: the last
    angle is in [0, 2 PI]. *)
Definition last_in_range (v : list Z) : Prop := forall a, last_angle v a -> 0 <= a <= 2 * M_PI.

(** All angles in the ranges of spherical coordinates: [0, PI], the last in [0, 2 PI]. *)
Definition in_range (v : list Z) : Prop :=
  exists w a, v = w ++ [a] /\ 0 <= a <= 2 * M_PI /\ forall b, In b w -> 0 <= b <= M_PI.

Section Spec.
Variable ang : list Z -> list Z -> Z.
Variable dst : Z -> Z -> Z -> Z.

(** [hdist cs n d k]: both routers announced coordinates with as many angles, with positive radii and a
    positive angle between them, and [k] is their hyperbolic distance. *)
Definition hdist (cs : coords) (n d : name) (k : Z) : Prop :=
  exists ri vi rj vj,
    get n cs = Some (ri, vi) /\ get d cs = Some (rj, vj) /\ length vi = length vj /\
    last_in_range vi /\ 0 < ri /\ 0 < rj /\ 0 < ang vi vj /\ k = dst ri rj (ang vi vj) /\ k <> of_int (-1).

(** [offer self l cs d h]: [h] goes to a neighbour that is not INACTIVE; it costs 0 if the neighbour is the
    destination, otherwise the neighbour's hyperbolic distance to the destination. *)
Definition offer (self : name) (l : adl) (cs : coords) (d : name) (h : nexthop) : Prop :=
  exists a, In a l /\ a_status a <> SInactive /\ a_name a <> self /\
    nh_uri h = a_uri a /\ nh_hyp h = true /\
    ((d = a_name a /\ nh_cost h = 0) \/
     (d <> a_name a /\ d <> self /\ In self (keys cs) /\ hdist cs (a_name a) d (nh_cost h))).
End Spec.
