(** Vocabulary: packets that are handed on until they reach one of several goals. *)
From Verif Require Import Base.
Open Scope Z_scope.
Set Implicit Arguments.

Section D.
  Variable V : Type.
  (** [fw u v]: [u] may hand packets on to [v]; [goal u]: packets stop at [u]. *)
  Variable fw : V -> V -> Prop.
  Variable goal : V -> Prop.

  (** Every way of handing packets on from a place ends at a goal. *)
  Inductive arrives : V -> Prop :=
  | arrives_here u : goal u -> arrives u
  | arrives_hop u : ~ goal u -> (exists v, fw u v) -> (forall v, fw u v -> arrives v) -> arrives u.

  (** Packets at [u] may visit the places [l] next. *)
  Inductive trail : V -> list V -> Prop :=
  | trail_nil u : trail u []
  | trail_cons u v l : ~ goal u -> fw u v -> trail v l -> trail u (v :: l).

  (** Packets at [u] may get to the goal [w] over links of total cost [c]. *)
  Inductive travels (link : V -> V -> Z -> Prop) : V -> V -> Z -> Prop :=
  | travels_end u : goal u -> travels link u u 0
  | travels_hop u v w k c : ~ goal u -> fw u v -> link u v k -> travels link v w c -> travels link u w (k + c).
End D.
