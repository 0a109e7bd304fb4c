(** Specification vocabulary: walks and shortest walks in a weighted graph. *)
From Verif Require Import Base.
Open Scope Z_scope.
Set Implicit Arguments.

Section Graph.
  Context {V : Type}.
  (** [link u v c]: there is a usable link from [u] to [v] of cost [c]. *)
  Variable link : V -> V -> Z -> Prop.

  (** [walk u v c]: a sequence of links leads from [u] to [v] with total cost [c]. *)
  Inductive walk : V -> V -> Z -> Prop :=
  | walk_nil u : walk u u 0
  | walk_cons u v w c d : link u v c -> walk v w d -> walk u w (c + d).

  (** [d] is the cost of a cheapest walk from [s] to [t]. *)
  Definition shortest (s t : V) (d : Z) : Prop :=
    walk s t d /\ forall d', walk s t d' -> d <= d'.
End Graph.

(** The graph with vertex [x] removed. *)
Definition avoiding {V} (x : V) (link : V -> V -> Z -> Prop) : V -> V -> Z -> Prop :=
  fun u v c => link u v c /\ u <> x /\ v <> x.

Lemma walk_snoc V (link : V -> V -> Z -> Prop) u v w c d :
  walk link u v c -> link v w d -> walk link u w (c + d).
Proof. intros Hw. revert d. induction Hw as [u|u v x c1 c2 Hl Hw IH]; intros d Hd.
  - replace (0 + d) with (d + 0) by lia. econstructor; [exact Hd|constructor].
  - replace (c1 + c2 + d) with (c1 + (c2 + d)) by lia. econstructor; [exact Hl|auto]. Qed.

Lemma walk_app V (link : V -> V -> Z -> Prop) u v w c d :
  walk link u v c -> walk link v w d -> walk link u w (c + d).
Proof. intros Hw. revert d. induction Hw as [u|u v x c1 c2 Hl Hw IH]; intros d Hd.
  - exact Hd.
  - replace (c1 + c2 + d) with (c1 + (c2 + d)) by lia. econstructor; [exact Hl|auto]. Qed.

Lemma walk_mono V (l1 l2 : V -> V -> Z -> Prop) :
  (forall u v c, l1 u v c -> l2 u v c) -> forall u v c, walk l1 u v c -> walk l2 u v c.
Proof. intros Hm u v c Hw. induction Hw; [constructor|]. econstructor; eauto. Qed.

Lemma walk_nonneg V (link : V -> V -> Z -> Prop) :
  (forall u v c, link u v c -> 0 <= c) -> forall u v c, walk link u v c -> 0 <= c.
Proof. intros Hn u v c Hw. induction Hw as [|? ? ? ? ? Hl Hw IH]; [lia|].
  apply Hn in Hl. lia. Qed.

Lemma shortest_unique V (link : V -> V -> Z -> Prop) s t d1 d2 :
  shortest link s t d1 -> shortest link s t d2 -> d1 = d2.
Proof. intros [W1 M1] [W2 M2]. apply M1 in W2. apply M2 in W1. lia. Qed.
