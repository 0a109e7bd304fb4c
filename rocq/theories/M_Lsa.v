(** Model of lsa/*.{hpp,cpp}: the data of LSAs and their update functions, and of the name
    manipulation that turns LSA names into origin, type and sequence number. *)
From Verif Require Import Base M_Nexthop M_Tlv M_Adj.
Open Scope Z_scope.

(** ** Names *)

(** ndn-cxx Name::operator[] with a negative index: [back 1] is the last component.  [None] is an
    out-of-range access (undefined behaviour). *)
Definition back (k : nat) (n : name) : option comp := nth_error (rev n) (k - 1).

(** ndn-cxx Name::getPrefix(-k) for names of at least [k] components *)
Definition drop_last (k : nat) (n : name) : name := firstn (length n - k) n.

(** ndn-cxx Name::getSubName(i, cnt); [cnt] is a size_t, given here before the conversion, so a
    negative number wraps around.  2^64-1 is npos. *)
Definition sub_name (n : name) (i : nat) (cnt : Z) : name :=
  let c := cnt mod 2 ^ 64 in
  let e := if c =? 2 ^ 64 - 1 then Z.of_nat (length n)
           else Z.min (Z.of_nat (length n)) ((Z.of_nat i + c) mod 2 ^ 64) in
  firstn (Z.to_nat e - i) (skipn i n).

(** utility/name-helper.hpp:37-48 getNameComponentPosition; -1 is [None] *)
Fixpoint comp_pos (c : comp) (n : name) : option nat :=
  match n with
  | [] => None
  | d :: n' => if eqb c d then Some O else option_map S (comp_pos c n')
  end.

(** name::Component::toNumber / Name::appendNumber *)
Definition to_number (c : comp) : option N := nni_dec (cval c).
Definition number_comp (n : N) : comp := gen (nni_enc n).

(** name::Component::isNumber, isVersion, isSegment, toSegment.  ndn-cxx decodes both the typed and
    the marker convention (Convention::EITHER). *)
Definition is_number_str (s : string) : bool :=
  match nni_dec s with Some _ => true | None => false end.
Definition is_conv (typ marker : N) (c : comp) : bool :=
  (eqb (ctype c) typ && is_number_str (cval c))
  || (eqb (ctype c) 8%N
      && match cval c with
         | String m r => eqb (N_of_ascii m) marker && is_number_str r
         | EmptyString => false
         end).
Definition is_version := is_conv 54 253.
Definition is_segment := is_conv 50 0.
Definition to_segment (c : comp) : option N :=
  if eqb (ctype c) 50%N then nni_dec (cval c)
  else match cval c with String _ r => nni_dec r | EmptyString => None end.
Definition version_comp (v : N) : comp := Comp 54 (nni_enc v).
Definition segment_comp (k : N) : comp := Comp 50 (nni_enc k).

(** ** LSA data *)

(** lsa/lsa.hpp:56-61 enum Type; BASE is [None] of [option ltype] *)
Inductive ltype := TAdj | TCoord | TName.

#[global] Instance EqDec_ltype : EqDec ltype.
Proof. intros x y. destruct x, y; (left; reflexivity) || (right; discriminate). Defined.

(** lsa/lsa.cpp:113-131 operator<< as a name component *)
Definition type_comp (t : ltype) : comp :=
  gen (match t with TAdj => "ADJACENCY" | TCoord => "COORDINATE" | TName => "NAME" end)%string.

(** lsa/lsa.cpp:133-151 operator>> applied to the URI of a component: only a generic component with
    exactly one of the three strings as value has that URI; everything else is BASE. *)
Definition comp_type (c : comp) : option ltype :=
  if eqb c (type_comp TAdj) then Some TAdj
  else if eqb c (type_comp TCoord) then Some TCoord
  else if eqb c (type_comp TName) then Some TName
  else None.

(** The three kinds of content.
    - lsa/adj-lsa.hpp m_adl;
    - lsa/coordinate-lsa.hpp m_hyperbolicRadius, m_hyperbolicAngles (doubles);
    - lsa/name-lsa.hpp m_npl: name to cost.  In an LSA every name has the single source "", so the
      map of name-prefix-list.hpp:160-166 is represented by name and cost.  std::map keeps the names
      sorted; here the order is that of insertion (simplification). *)
Definition npl := amap name Z.

Inductive body :=
| BAdj (l : adl)
| BCoord (radius : Z) (angles : list Z)
| BName (l : npl).

(** lsa/lsa.hpp:138-142 *)
Record lsa := Lsa { l_origin : name; l_seq : N; l_exp : Z; l_body : body }.

Definition body_type (b : body) : ltype :=
  match b with BAdj _ => TAdj | BCoord _ _ => TCoord | BName _ => TName end.
Definition l_type (l : lsa) : ltype := body_type (l_body l).
Definition l_key (l : lsa) : name * ltype := (l_origin l, l_type l).

(** Names advertised by an LSA: those of a Name LSA, none otherwise. *)
Definition body_names (b : body) : npl := match b with BName l => l | _ => [] end.

(** lsa/name-lsa.cpp:27-35 and lsa/name-lsa.cpp:102-113: adding the entries one by one;
    name-prefix-list.cpp:45-51 overwrites the cost of a known name. *)
Definition npl_of_list (l : list (name * Z)) : npl :=
  fold_left (fun m p => set (fst p) (snd p) m) l [].

(** lsa/adj-lsa.cpp:27-36 AdjLsa(origin, seq, time, adl): the ACTIVE neighbours, through
    AdjacencyList::insert *)
Definition adl_of_list (l : list adjacent) : adl :=
  fold_left (fun m a => snd (adl_insert a m)) l [].
Definition own_adl (l : adl) : adl :=
  adl_of_list (filter (fun a => eqb (a_status a) SActive) l).

(** std::set_difference of the sorted, duplicate-free name lists (lsa/name-lsa.cpp:142-144,155-156) *)
Definition names_diff (x y : npl) : npl :=
  filter (fun p => match get (fst p) y with Some _ => false | None => true end) x.

(** lsa/name-lsa.cpp:128-162 NameLsa::update *)
Definition update_name (old new : npl) : bool * npl * npl * npl :=
  let adds := names_diff new old in
  let l1 := fold_left (fun m p => set (fst p) (snd p) m) adds old in
  let rems := names_diff old new in
  let l2 := fold_left (fun m p => del (fst p) m) rems l1 in
  (negb (Nat.eqb (length adds) 0) || negb (Nat.eqb (length rems) 0), l2, adds, rems).

(** lsa/coordinate-lsa.hpp:122-128 operator== *)
Fixpoint angles_eqb (x y : list Z) : bool :=
  match x, y with
  | [], [] => true
  | a :: x', b :: y' => diff_eps a b && angles_eqb x' y'
  | _, _ => false
  end.

(** lsa/adj-lsa.cpp:129-141, lsa/coordinate-lsa.cpp:132-145, lsa/name-lsa.cpp:128-162: [update] of
    the content.  Results: updated flag, new content, names to add, names to remove.  The
    static_pointer_cast of the new LSA to the type of the old one is only reached for equal types
    (installLsa looks the LSA up by type); mismatches are mapped to "no change". *)
Definition update_body (old new : body) : bool * body * npl * npl :=
  match old, new with
  | BName o, BName n =>
      let '(u, r, a, d) := update_name o n in (u, BName r, a, d)
  | BAdj o, BAdj n =>
      if adl_eqb o n then (false, old, [], []) else (true, BAdj (adl_of_list n), [], [])
  | BCoord r an, BCoord r' an' =>
      if diff_eps r r' && angles_eqb an an' then (false, old, [], [])
      else (true, BCoord r' an', [], [])
  | _, _ => (false, old, [], [])
  end.
