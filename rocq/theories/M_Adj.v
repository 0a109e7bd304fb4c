(** Model of adjacent.{hpp,cpp} and adjacency-list.{hpp,cpp}. *)
From Verif Require Import Base M_Nexthop.
Open Scope Z_scope.

(** adjacent.hpp:55-60 enum Status *)
Inductive status := SUnknown | SInactive | SActive.

#[global] Instance EqDec_status : EqDec status.
Proof. intros x y. destruct x, y; (left; reflexivity) || (right; discriminate). Defined.

(** adjacent.hpp:183-196, the data members of Adjacent (the wire cache [m_wire] is not represented:
    every setter that changes an encoded field resets it).  [a_cost] is the double [m_linkCost] in
    units of 2^-1074. *)
Record adjacent := Adj
  { a_name : name; a_uri : uri; a_cost : Z; a_status : status; a_touts : N; a_face : N }.

(** adjacent.hpp:179-180 *)
Definition DEFAULT_LINK_COST : Z := of_int 10.
Definition NON_ADJACENT_COST : Z := of_int (-12345).

(** adjacent.cpp:45-53 Adjacent(an) *)
Definition adj_named (n : name) : adjacent := Adj n EmptyString DEFAULT_LINK_COST SInactive 0 0.

(** adjacent.hpp:97-101 getLinkCost: ceil(m_linkCost), as an integer *)
Definition link_cost (a : adjacent) : Z := - wholes (- a_cost a).

Lemma link_cost_eq a : link_cost a = - ((- a_cost a) / UNIT).
Proof. unfold link_cost. now rewrite wholes_eq. Qed.

(** adjacent.cpp:66-77 setLinkCost: [None] is the exception *)
Definition set_link_cost (c : Z) (a : adjacent) : option adjacent :=
  if (c <? 0) && negb (c =? NON_ADJACENT_COST) then None
  else Some (Adj (a_name a) (a_uri a) c (a_status a) (a_touts a) (a_face a)).

(** utility/numeric.hpp:35-39 diffInEpsilon; epsilon is 2^-52, i.e. 2^1022 units *)
Definition EPS : Z := 2 ^ 1022.
Definition diff_eps (x y : Z) : bool := Z.abs (x - y) <? EPS.

(** adjacent.cpp:159-165 operator==: the left cost is compared with the right cost rounded up *)
Definition adj_eqb (x y : adjacent) : bool :=
  eqb (a_name x) (a_name y) && eqb (a_uri x) (a_uri y)
  && diff_eps (a_cost x) (of_int (link_cost y)).

(** adjacent.hpp:113-161 the setters used by NLSR *)
Definition set_status (v : status) (a : adjacent) :=
  Adj (a_name a) (a_uri a) (a_cost a) v (a_touts a) (a_face a).
Definition set_touts (v : N) (a : adjacent) :=
  Adj (a_name a) (a_uri a) (a_cost a) (a_status a) v (a_face a).
Definition set_face (v : N) (a : adjacent) :=
  Adj (a_name a) (a_uri a) (a_cost a) (a_status a) (a_touts a) v.

(** adjacency-list.hpp m_adjList: std::list<Adjacent> *)
Definition adl := list adjacent.

(** adjacency-list.cpp:162-181 find, findAdjacent(name) *)
Fixpoint adl_find (n : name) (l : adl) : option adjacent :=
  match l with
  | [] => None
  | a :: l' => if eqb (a_name a) n then Some a else adl_find n l'
  end.

(** adjacency-list.cpp:183-188 findAdjacent(faceId) *)
Fixpoint adl_find_face (f : N) (l : adl) : option adjacent :=
  match l with
  | [] => None
  | a :: l' => if eqb (a_face a) f then Some a else adl_find_face f l'
  end.

(** adjacency-list.cpp:190-195 findAdjacent(faceUri) *)
Fixpoint adl_find_uri (u : uri) (l : adl) : option adjacent :=
  match l with
  | [] => None
  | a :: l' => if eqb (a_uri a) u then Some a else adl_find_uri u l'
  end.

(** Writing through the iterator that [find]/[findAdjacent] returned: the first element that
    satisfies the search predicate is changed. *)
Fixpoint upd_first (p : adjacent -> bool) (f : adjacent -> adjacent) (l : adl) : adl :=
  match l with
  | [] => []
  | a :: l' => if p a then f a :: l' else a :: upd_first p f l'
  end.
Definition adl_upd (n : name) (f : adjacent -> adjacent) (l : adl) : adl :=
  upd_first (fun a => eqb (a_name a) n) f l.

(** adjacency-list.cpp:30-39 insert *)
Definition adl_insert (a : adjacent) (l : adl) : bool * adl :=
  match adl_find (a_name a) l with Some _ => (false, l) | None => (true, l ++ [a]) end.

(** adjacency-list.cpp:41-50 getAdjacent *)
Definition adl_get (n : name) (l : adl) : adjacent :=
  match adl_find n l with Some a => a | None => adj_named n end.

(** adjacency-list.cpp:66-70 isNeighbor *)
Definition is_neighbor (n : name) (l : adl) : bool :=
  match adl_find n l with Some _ => true | None => false end.

(** adjacency-list.cpp:72-79 incrementTimedOutInterestCount (uint32_t) *)
Definition incr_touts (n : name) (l : adl) : adl :=
  adl_upd n (fun a => set_touts ((a_touts a + 1) mod 2 ^ 32)%N a) l.

(** adjacency-list.cpp:81-88 setTimedOutInterestCount *)
Definition put_touts (n : name) (c : N) (l : adl) : adl := adl_upd n (set_touts c) l.

(** adjacency-list.cpp:90-98 getTimedOutInterestCount: uint32_t converted to int32_t, -1 if unknown *)
Definition to_int32 (x : N) : Z :=
  let z := Z.of_N x mod 2 ^ 32 in if z <? 2 ^ 31 then z else z - 2 ^ 32.
Definition get_touts (n : name) (l : adl) : Z :=
  match adl_find n l with Some a => to_int32 (a_touts a) | None => -1 end.

(** adjacency-list.cpp:100-110 getStatusOfNeighbor *)
Definition get_status (n : name) (l : adl) : status :=
  match adl_find n l with Some a => a_status a | None => SUnknown end.

(** adjacency-list.cpp:112-119 setStatusOfNeighbor *)
Definition put_status (n : name) (v : status) (l : adl) : adl := adl_upd n (set_status v) l.

(** adjacency-list.cpp:133-148 isAdjLsaBuildable: the loop, with the counter as accumulator *)
Fixpoint buildable_loop (retry : N) (cnt : nat) (l : adl) (size : nat) : bool :=
  match l with
  | [] => Nat.eqb cnt size
  | a :: l' =>
      if eqb (a_status a) SActive then true
      else if (retry <=? a_touts a)%N then buildable_loop retry (S cnt) l' size
      else buildable_loop retry cnt l' size
  end.
Definition is_buildable (retry : N) (l : adl) : bool := buildable_loop retry 0 l (length l).

(** adjacency-list.cpp:150-160 getNumOfActiveNeighbor *)
Definition num_active (l : adl) : nat :=
  length (filter (fun a => eqb (a_status a) SActive) l).

(** adjacency-list.cpp:197-203 getFaceId(faceUri) *)
Definition get_face_id (u : uri) (l : adl) : N :=
  match adl_find_uri u l with Some a => a_face a | None => 0%N end.

(** adjacency-list.cpp:52-64 operator==: same size, and the two std::set<Adjacent> are element-wise
    ==.  The sets are ordered by (name, cost); with distinct names (which [insert] guarantees) the
    cost is never consulted for the order, so the element-wise comparison pairs entries of equal
    name.  Simplification: modelled as that pairing. *)
Definition adl_eqb (x y : adl) : bool :=
  Nat.eqb (length x) (length y)
  && forallb (fun a => existsb (fun b => adj_eqb a b) y) x.
