(** Model of the orders on names and neighbours: ndn-cxx Name::compare (external) and
    adjacent.cpp operator<. *)
From Verif Require Import Base M_Nexthop M_Adj.
Set Implicit Arguments.
Open Scope Z_scope.

(** memcmp of two octet strings of the same length *)
Fixpoint octets_cmp (a b : string) : comparison :=
  match a, b with
  | EmptyString, EmptyString => Eq
  | EmptyString, String _ _ => Lt
  | String _ _, EmptyString => Gt
  | String c a', String d b' =>
      match (N_of_ascii c ?= N_of_ascii d)%N with Eq => octets_cmp a' b' | r => r end
  end.

(** ndn-cxx name::Component::compare: type, then length, then octets *)
Definition comp_cmp (x y : comp) : comparison :=
  match (ctype x ?= ctype y)%N with
  | Eq => match Nat.compare (String.length (cval x)) (String.length (cval y)) with
          | Eq => octets_cmp (cval x) (cval y)
          | r => r
          end
  | r => r
  end.

(** ndn-cxx Name::compare: component by component; a proper prefix comes first *)
Fixpoint name_cmp (x y : name) : comparison :=
  match x, y with
  | [], [] => Eq
  | [], _ :: _ => Lt
  | _ :: _, [] => Gt
  | a :: x', b :: y' => match comp_cmp a b with Eq => name_cmp x' y' | r => r end
  end.

(** adjacent.cpp:167-173 operator<: lexicographic on (name, cost), where the left cost is the double
    itself and the right cost is rounded up *)
Definition adj_ltb (x y : adjacent) : bool :=
  match name_cmp (a_name x) (a_name y) with
  | Lt => true
  | Gt => false
  | Eq => a_cost x <? of_int (link_cost y)
  end.
