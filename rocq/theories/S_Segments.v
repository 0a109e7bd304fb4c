(** Vocabulary for the segments of LSAs that a router keeps and sends. *)
From Verif Require Import Base M_Nexthop M_Tlv M_Adj M_Lsa M_Lsdb S_Lsdb.
Open Scope Z_scope.
Set Implicit Arguments.

Section S.
Variables (c : conf) (f : option seqs) (now : Z) (e0 : env).
(** The state after the events [evs]. *)
Definition after (evs : list (env * ev)) : st := fst (exec c f now e0 evs).

(** After the events [a] of the run [evs] a retrieval in progress received and validated the segment [n] with content [d]. *)
Definition validated (evs a : list (env * ev)) (n : name) (d : string) : Prop :=
  exists e fid b, evs = a ++ (e, ESegment fid n d) :: b /\ s_dead (after a) = false /\ get fid (s_fetch (after a)) <> None.

(** Within the events [b], which follow [a], a retrieval of a number ends that is the number after one under which [n] lies. *)
Definition superseded (a b : list (env * ev)) (n : name) : Prop :=
  exists b1 e fid content b2 g (u : name) q, b = b1 ++ (e, EFetchDone fid content) :: b2 /\ get fid (s_fetch (after (a ++ b1))) = Some g /\
    (q < 2 ^ 64)%N /\ f_iname g = u ++ [number_comp ((q + 1) mod 2 ^ 64)%N] /\ exists r, n = (u ++ [number_comp q]) ++ r.
End S.

(** No scheduled callback is overdue. *)
Definition prompt (s : st) : Prop := forall tid tm, get tid (s_timers s) = Some tm -> s_now s <= t_due tm.

(** [cs] designates segment [j], in the current or in the old naming convention of NDN. *)
Definition segment_no (cs : comp) (j : N) : Prop :=
  cs = segment_comp j \/ cs = Comp 8 (String (Ascii.ascii_of_N 0) (nni_enc j)).
