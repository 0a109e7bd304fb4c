(** Model of route/nexthop.hpp and route/nexthop-list.hpp. *)
From Verif Require Import Base.
Open Scope Z_scope.

(** Route costs are C++ doubles.  Every finite double is an integral multiple of 2^-1074;
    a cost is represented by that integer.  Additions are exact in the model (the rounding of
    double addition is not modelled); NaN and infinities are not modelled. *)
Definition UNIT : Z := 2 ^ 1074.
Definition of_int (c : Z) : Z := c * UNIT.

(** The number of whole units of one in a cost, rounded down: [z / UNIT] (lemma [wholes_eq]), written as a
    shift because that form also evaluates quickly outside Coq's virtual machine. *)
Definition wholes (z : Z) : Z := Z.shiftr z 1074.

Lemma wholes_eq z : wholes z = z / UNIT.
Proof. unfold wholes, UNIT. apply Z.shiftr_div_pow2. lia. Qed.

(** The same, rounded towards zero. *)
Definition whole_part (z : Z) : Z := Z.sgn z * wholes (Z.abs z).

Lemma whole_part_eq z : whole_part z = Z.quot z UNIT.
Proof.
  unfold whole_part. rewrite wholes_eq. assert (U : 0 < UNIT) by (unfold UNIT; apply Z.pow_pos_nonneg; lia).
  rewrite Z.quot_div by lia. rewrite (Z.sgn_pos UNIT U), (Z.abs_eq UNIT) by lia. ring.
Qed.

(** route/nexthop.hpp:46-163 class NextHop: connecting face URI, route cost, hyperbolic flag
    (the wire cache [m_wire] is not represented). *)
Record nexthop := NH { nh_uri : uri; nh_cost : Z; nh_hyp : bool }.

(** route/nexthop.hpp:53-57 NextHop(cfu, rc): the flag defaults to false (line 147). *)
Definition mk_nh (u : uri) (c : Z) : nexthop := NH u c false.

(** route/nexthop.hpp:77-89 getRouteCostAsAdjustedInteger: [round(cost*1000)] (half away from
    zero) for hyperbolic hops, truncation otherwise.  The conversion to uint64_t is undefined for
    results outside [0, 2^64): see [adj_defined]. *)
Definition adj_int (h : nexthop) : Z :=
  if nh_hyp h
  then Z.quot (2 * 1000 * nh_cost h + Z.sgn (nh_cost h) * UNIT) (2 * UNIT)
  else whole_part (nh_cost h).

(** The static_cast<uint64_t> in nexthop.hpp:84,87 has defined behaviour. *)
Definition adj_defined (h : nexthop) : Prop := 0 <= adj_int h < 2 ^ 64.

(** Order of ndn::FaceUri (external): only that it is a strict total order matters;
    lexicographic order on octets is used. *)
Fixpoint uri_ltb (a b : uri) : bool :=
  match a, b with
  | _, EmptyString => false
  | EmptyString, String _ _ => true
  | String c a', String d b' =>
      if (N_of_ascii c <? N_of_ascii d)%N then true
      else if (N_of_ascii d <? N_of_ascii c)%N then false
      else uri_ltb a' b'
  end.

(** route/nexthop.hpp:130-135 operator== *)
Definition nh_eqb (a b : nexthop) : bool :=
  (adj_int a =? adj_int b) && eqb (nh_uri a) (nh_uri b).

(** route/nexthop.hpp:137-142 operator<: lexicographic on (adjusted integer cost, URI) *)
Definition nh_ltb (a b : nexthop) : bool :=
  (adj_int a <? adj_int b) ||
  ((adj_int a =? adj_int b) && uri_ltb (nh_uri a) (nh_uri b)).

(** route/nexthop-list.hpp:34-41 NextHopUriSortedComparator *)
Definition nh_uri_ltb (a b : nexthop) : bool := uri_ltb (nh_uri a) (nh_uri b).

(** std::set<NextHop, T>::insert on the in-order sequence of the set: an element equivalent to a
    present one is not inserted. *)
Fixpoint sset_insert (lt : nexthop -> nexthop -> bool) (x : nexthop) (l : list nexthop)
  : list nexthop :=
  match l with
  | [] => [x]
  | y :: l' => if lt x y then x :: l
               else if lt y x then y :: sset_insert lt x l'
               else l
  end.

(** std::find_if by URI, route/nexthop-list.hpp:59-62 *)
Fixpoint find_uri (u : uri) (l : list nexthop) : option nexthop :=
  match l with
  | [] => None
  | y :: l' => if eqb (nh_uri y) u then Some y else find_uri u l'
  end.

(** m_nexthopList.erase(it) where [it] is the first element with URI [u]. *)
Fixpoint erase_uri (u : uri) (l : list nexthop) : list nexthop :=
  match l with
  | [] => []
  | y :: l' => if eqb (nh_uri y) u then l' else y :: erase_uri u l'
  end.

(** route/nexthop-list.hpp:56-70 NexthopListT<T>::addNextHop *)
Definition nhl_add (lt : nexthop -> nexthop -> bool) (nh : nexthop) (l : list nexthop)
  : list nexthop :=
  match find_uri (nh_uri nh) l with
  | None => sset_insert lt nh l
  | Some it => if nh_cost nh <? nh_cost it
               then sset_insert lt nh (erase_uri (nh_uri nh) l)
               else l
  end.

(** route/nexthop-list.hpp:77-84 NexthopListT<T>::removeNextHop: std::find uses operator==. *)
Fixpoint nhl_remove (nh : nexthop) (l : list nexthop) : list nexthop :=
  match l with
  | [] => []
  | y :: l' => if nh_eqb y nh then l' else y :: nhl_remove nh l'
  end.

(** route/nexthop-list.hpp:149 NexthopList = NexthopListT<std::less<NextHop>>;
    route/fib.hpp NextHopsUriSortedSet = NexthopListT<NextHopUriSortedComparator>. *)
Definition nhl := list nexthop.
Definition nhl_addc : nexthop -> nhl -> nhl := nhl_add nh_ltb.
Definition nhl_addu : nexthop -> nhl -> nhl := nhl_add nh_uri_ltb.

(** route/nexthop-list.hpp:151-156 operator== on lists: std::set equality, element-wise
    with operator== of NextHop, same size. *)
Fixpoint nhl_eqb (a b : nhl) : bool :=
  match a, b with
  | [], [] => true
  | x :: a', y :: b' => nh_eqb x y && nhl_eqb a' b'
  | _, _ => false
  end.
