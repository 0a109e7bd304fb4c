(** Model of statistics.{hpp,cpp} and stats-collector.{hpp,cpp}. *)
From Verif Require Import Base M_Lsa M_Lsdb M_Prefix M_Hello M_Router.
Open Scope Z_scope.

(** statistics.hpp:33-54 PacketType: the packets of the database and of the hello protocol *)
Inductive ptype := PtLsa (p : pkt) | PtHello (p : hpkt).
#[global] Instance EqDec_ptype : EqDec ptype.
Proof. intros x y. decide equality; [decide equality; apply eq_dec|decide equality]. Defined.

(** statistics.hpp:73 m_packetCounter: std::map<PacketType, int> *)
Definition stats := list (ptype * Z).
Definition INT_MAX : Z := 2 ^ 31 - 1.

(** statistics.cpp:28-38 get *)
Definition st_get (p : ptype) (m : stats) : Z := match get p m with Some v => v | None => 0 end.
(** statistics.cpp:40-44 increment; [None]: the int overflows (undefined behaviour) *)
Definition st_inc (p : ptype) (m : stats) : option stats :=
  if st_get p m =? INT_MAX then None else Some (set p (st_get p m + 1) m).
(** statistics.cpp:46-52 resetAll *)
Definition st_reset (m : stats) : stats := map (fun e => (fst e, 0)) m.

Inductive sop := SInc (p : ptype) | SReset.
Fixpoint st_run (ops : list sop) (m : stats) : option stats :=
  match ops with
  | [] => Some m
  | SInc p :: ops' => match st_inc p m with Some m' => st_run ops' m' | None => None end
  | SReset :: ops' => st_run ops' (st_reset m)
  end.

(** stats-collector.cpp:26-46: the collector is connected to lsaIncrementSignal and hpIncrementSignal.
    It is constructed after the database, whose constructor does not emit the signal. *)
Definition signals (t : list glog) : list sop :=
  flat_map (fun x => match x with
                     | XPre (PDb (OStat p)) => [SInc (PtLsa p)]
                     | XHello (HStat p) => [SInc (PtHello p)]
                     | _ => []
                     end) t.
