(** The cached encoding (member m_wire) of the LSAs in the LSDB. *)
From Verif Require Import Base M_Nexthop M_Tlv M_Adj M_Lsa M_Lsdb M_Codec.
Open Scope Z_scope.
Set Implicit Arguments.

#[global] Instance EqDec_adjacent : EqDec adjacent.
Proof. intros x y. decide equality; apply eq_dec. Defined.
#[global] Instance EqDec_body : EqDec body.
Proof. intros x y. decide equality; try apply eq_dec; apply (@list_eq_dec _ eq_dec). Defined.

Section Wire.
Variable time_str : Z -> string.

(** lsa/lsa.hpp:80-84 setSeqNo and 105-109 setExpirationTimePoint, lsa/adj-lsa.hpp:74-85 addAdjacent and
    resetAdl, lsa/name-lsa.hpp:76-90 addName and removeName: these reset m_wire.
    lsa/coordinate-lsa.cpp:132-145 CoordinateLsa::update does not.
    Simplification: a setter that writes the value already there is not seen, so the model may keep a
    wire where the code drops one and encodes the same LSA again. *)
Definition drops_wire (l l' : lsa) : bool :=
  negb (l_seq l =? l_seq l')%N || negb (l_exp l =? l_exp l') ||
  match l_body l' with BCoord _ _ => false | b => negb (eqb (l_body l) b) end.

(** The wires of the stored LSAs, by (origin, type): the store holds one object per such key
    (lsdb.hpp:366-384), and an object that has left it is not encoded again. *)
Definition wires := name * ltype -> option string.

(** lsdb.cpp:144-171 and 399-414: an LSA built here starts without a wire.  lsdb.cpp:586-608: an LSA
    fetched is made from the received block [b], which the constructor stores in m_wire
    (lsa/adj-lsa.cpp:84, coordinate-lsa.cpp:83, name-lsa.cpp:84).  lsdb.cpp:320-338 and 441-443: a
    stored object is changed in place, its wire is dropped by the setters above. *)
Definition wires_after (s : st) (x : env * ev) (b : string) (s' : st) (w : wires) : wires := fun k =>
  match find_lsa k s, find_lsa k s' with
  | _, None => None
  | None, Some _ => match snd x with EFetchDone _ _ => Some b | _ => None end
  | Some l, Some l' => if drops_wire l l' then None else w k
  end.

(** lsa/adj-lsa.cpp:65-80, coordinate-lsa.cpp:64-79, name-lsa.cpp:65-80: wireEncode() returns the stored
    wire, else encodes. *)
Definition wire_of (s : st) (w : wires) (k : name * ltype) : option string :=
  match find_lsa k s with
  | None => None
  | Some l => Some match w k with Some b => b | None => enc_lsa time_str l end
  end.

(** An event of the LSDB, with the octets received if it is a fetched LSA, or a call of wireEncode() on a
    stored LSA: lsdb.cpp:278 (answering an Interest for an LSA) and
    publisher/dataset-interest-handler.cpp:58-70 (LSDB datasets).  The model calls it at any time. *)
Inductive wev := WEv (x : env * ev) (b : string) | WEncode (k : name * ltype).

Definition wstep (c : conf) (sw : st * wires) (y : wev) : st * wires :=
  let (s, w) := sw in
  match y with
  | WEv x b => let s' := fst (step c s x) in (s', wires_after s x b s' w)
  | WEncode k =>
      (s, fun k' => if eqb k' k then wire_of s w k else w k')
  end.

(** The LSDB after its constructor, where nothing has been encoded, and a history. *)
Definition wexec (c : conf) (f : option seqs) (now : Z) (e0 : env) (ys : list wev) : st * wires :=
  fold_left (wstep c) ys (fst (init c f now e0), fun _ => None).

(** publisher/dataset-interest-handler.cpp:58-70 publishLsaStatus: the wires of the stored LSAs of one
    type, in the order [ks] the container gives the stored LSAs. *)
Definition dataset_wires (t : ltype) (sw : st * wires) (ks : list (name * ltype)) : string :=
  cat (map (fun k => match wire_of (fst sw) (snd sw) k with Some b => b | None => EmptyString end)
           (filter (fun k => eqb (snd k) t) ks)).
End Wire.
