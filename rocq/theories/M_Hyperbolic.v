(** Model of route/routing-calculator-hyperbolic.cpp. *)
From Verif Require Import Base M_Nexthop M_LinkState M_Adj.
Open Scope Z_scope.

(** The Coordinate LSAs in the database: for every origin its radius and angles (doubles in units of
    2^-1074). *)
Definition coords := list (name * (Z * list Z)).

(** routing-calculator-hyperbolic.cpp:69-70 *)
Definition UNKNOWN_DISTANCE : Z := of_int (-1).
Definition UNKNOWN_RADIUS : Z := of_int (-1).

(** The double M_PI, 884279719003555 / 2^48. *)
Definition M_PI : Z := 884279719003555 * 2 ^ 1026.

Section Hyperbolic.
(** Floating-point trigonometry is external.  [ang vi vj]: lines 200-236, std::acos of the inner product
    of the unit vectors with those angles; [dst ri rj d]: lines 256-258, std::acosh of the hyperbolic
    law of cosines.  NaN results are not modelled. *)
Variable ang : list Z -> list Z -> Z.
Variable dst : Z -> Z -> Z -> Z.

(** routing-calculator-hyperbolic.cpp:164-237 calculateAngularDistance.  Lines 177-186: the test is
    "above PI and below 0", of the first angles of either vector.  Lines 188-198 test the last angle
    of the first vector, twice; with empty vectors they index out of bounds. *)
Definition bad_angle (a : Z) : bool := (M_PI <? a) && (a <? 0).
Fixpoint firsts {A} (l : list A) : list A :=
  match l with [] => [] | [_] => [] | x :: l' => x :: firsts l' end.
Definition angular (vi vj : list Z) : outcome Z :=
  if negb (Nat.eqb (length vi) (length vj)) then Ok UNKNOWN_DISTANCE
  else if existsb (fun p => bad_angle (fst p) || bad_angle (snd p)) (combine (firsts vi) (firsts vj))
  then Ok UNKNOWN_DISTANCE
  else match nth_error vi (length vi - 1) with
       | None => Ub
       | Some a =>
           if (2 * M_PI <? a) || (a <? 0) then Ok UNKNOWN_DISTANCE
           else if (2 * M_PI <? a) || (a <? 0) then Ok UNKNOWN_DISTANCE
           else Ok (ang vi vj)
       end.

(** routing-calculator-hyperbolic.cpp:239-259 calculateHyperbolicDistance *)
Definition hdistance (ri rj d : Z) : Z :=
  if d =? UNKNOWN_DISTANCE then UNKNOWN_DISTANCE
  else if (d <=? 0) || (ri <=? 0) || (rj <=? 0) then UNKNOWN_DISTANCE
  else dst ri rj d.

(** routing-calculator-hyperbolic.cpp:128-162 getHyperbolicDistance *)
Definition distance (cs : coords) (src dest : name) : outcome Z :=
  match get src cs, get dest cs with
  | Some (ri, vi), Some (rj, vj) =>
      match angular vi vj with
      | Ok d =>
          if (ri =? UNKNOWN_RADIUS) || (rj =? UNKNOWN_RADIUS) || (d =? UNKNOWN_DISTANCE)
          then Ok UNKNOWN_DISTANCE
          else Ok (hdistance ri rj d)
      | x => x
      end
  | _, _ => Ok UNKNOWN_DISTANCE
  end.

(** routing-calculator-hyperbolic.cpp:261-276 addNextHop: the hop is marked hyperbolic *)
Definition hyp_nh (u : uri) (k : Z) : nexthop := NH u k true.

(** routing-calculator-hyperbolic.cpp:105-124, the loop over destinations, for one number *)
Definition hyp_dest (map : namemap) (cs : coords) (this : option nat) (a : adjacent) (src : nat)
           (o : outcome rtable) (dest : nat) : outcome rtable :=
  match o with
  | Ok t =>
      match this with
      | None => Ok t
      | Some th =>
          if negb (Nat.eqb dest th) && negb (Nat.eqb dest src) then
            match nm_name map dest with
            | None => Ok t
            | Some dn =>
                match distance cs (a_name a) dn with
                | Ok d => if d =? UNKNOWN_DISTANCE then Ok t else Ok (rt_add t dn (hyp_nh (a_uri a) d))
                | Diverge => Diverge
                | Ub => Ub
                end
            end
          else Ok t
      end
  | x => x
  end.

(** routing-calculator-hyperbolic.cpp:79-125, the loop over neighbours: only INACTIVE ones are
    skipped *)
Definition hyp_adj (self : name) (map : namemap) (cs : coords) (o : outcome rtable) (a : adjacent)
  : outcome rtable :=
  match o with
  | Ok t =>
      if eqb (a_status a) SInactive then Ok t
      else if eqb (a_name a) self then Ok t
      else
        let t1 := rt_add t (a_name a) (hyp_nh (a_uri a) 0) in
        match nm_num map (a_name a) with
        | None => Ok t1
        | Some src =>
            fold_left (hyp_dest map cs (nm_num map self) a src) (seq 0 (length map)) (Ok t1)
        end
  | x => x
  end.

(** routing-calculator-hyperbolic.cpp:72-126, 278-285 and routing-table.cpp:142-157, on a cleared table *)
Definition calc_hyperbolic (self : name) (l : adl) (cs : coords) : outcome rtable :=
  let map := nm_from_coord (keys cs) in
  fold_left (hyp_adj self map cs) l (Ok []).

End Hyperbolic.
