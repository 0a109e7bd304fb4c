(** Model of the wire formats: lsa/*.cpp, adjacent.cpp, name-prefix-list.cpp (PrefixInfo),
    route/nexthop.cpp, route/routing-table-entry.cpp, route/routing-table.cpp (RoutingTableStatus),
    publisher/dataset-interest-handler.cpp.  Octets are [ascii], wires are [string]. *)
From Verif Require Import Base M_Nexthop M_Tlv M_Adj M_Lsa.
Set Implicit Arguments.
Open Scope N_scope.

(** ** ndn-cxx blocks (external, encoding/block.cpp) *)

(** A TLV element: type and value. *)
Definition elt := (N * string)%type.

Definition slen (s : string) : N := N.of_nat (String.length s).

(** EncodingBuffer: prepend value, length and type *)
Definition tlv (t : N) (v : string) : string := (var_enc t ++ var_enc (slen v) ++ v)%string.

(** tlv::readType accepts 1 .. 2^32-1; the length must not exceed the rest of the buffer. *)
Definition read_elt (s : string) : option (elt * string) :=
  match var_dec s with
  | Some (t, s1) =>
      if (1 <=? t) && (t <? 2 ^ 32) then
        match var_dec s1 with
        | Some (n, s2) =>
            if n <=? slen s2
            then match split (N.to_nat n) s2 with Some (v, r) => Some ((t, v), r) | None => None end
            else None
        | None => None
        end
      else None
  | None => None
  end.

(** Block::parse: elements up to the end of the value; [None] is the exception.  [fuel] is the number
    of octets, which is enough because every element takes at least two. *)
Fixpoint dec_elts_f (fuel : nat) (s : string) : option (list elt) :=
  match s with
  | EmptyString => Some []
  | _ => match fuel with
         | O => None
         | S f => match read_elt s with
                  | Some (e, r) => option_map (cons e) (dec_elts_f f r)
                  | None => None
                  end
         end
  end.
Definition dec_elts (s : string) : option (list elt) := dec_elts_f (String.length s) s.

(** Block(buffer): one element that takes the whole buffer *)
Definition dec_block (s : string) : option elt :=
  match read_elt s with Some (e, EmptyString) => Some e | _ => None end.

Fixpoint cat (l : list string) : string :=
  match l with [] => EmptyString | a :: l' => (a ++ cat l')%string end.

(** Name::wireEncode and wireDecode (component values are not inspected) *)
Definition T_Name : N := 7.
Definition enc_name (n : name) : string := tlv T_Name (cat (map (fun c => tlv (ctype c) (cval c)) n)).
Definition dec_name (v : string) : option name :=
  option_map (map (fun e => Comp (fst e) (snd e))) (dec_elts v).

(** The IEEE 754 binary64 word of a double given in units of 2^-1074, and back.  prependDoubleBlock
    and readDouble: 8 octets.  NaN and infinities (exponent 2047) are outside the model: [None]. *)
Definition enc64 (z : Z) : N :=
  let a := Z.to_N (Z.abs z) in
  let m := if a <? 2 ^ 52 then a
           else let k := N.log2 a - 52 in (k + 1) * 2 ^ 52 + (N.shiftr a k - 2 ^ 52) in
  if (z <? 0)%Z then 2 ^ 63 + m else m.
Definition dec64 (w : N) : option Z :=
  let e := (w / 2 ^ 52) mod 2 ^ 11 in
  let m := w mod 2 ^ 52 in
  if e =? 2047 then None
  else let a := if e =? 0 then m else (m + 2 ^ 52) * 2 ^ (e - 1) in
       Some (if w / 2 ^ 63 =? 0 then Z.of_N a else (- Z.of_N a)%Z).
Definition enc_dbl (z : Z) : string := be_enc 8 (enc64 z).
Definition dec_dbl (v : string) : option Z :=
  if Nat.eqb (String.length v) 8 then dec64 (be_dec v) else None.

(** Reading the next element, which must have the given type: the pattern
    [val != elements_end() && val->type() == t], otherwise an exception *)
Definition expect (t : N) (es : list elt) : option (string * list elt) :=
  match es with
  | (t', v) :: r => if t =? t' then Some (v, r) else None
  | [] => None
  end.

Definition obind {A B} (m : option A) (f : A -> option B) : option B :=
  match m with Some a => f a | None => None end.
Notation "'do' x <- m ; k" := (obind m (fun x => k)) (at level 200, x pattern, m at level 100, k at level 200).

(** The remaining elements must all have the given type, otherwise an exception. *)
Fixpoint dec_list {A} (t : N) (f : string -> option A) (es : list elt) : option (list A) :=
  match es with
  | [] => Some []
  | (t', v) :: r => if t =? t' then do x <- f v; do l <- dec_list t f r; Some (x :: l) else None
  end.

(** tlv-nlsr.hpp:32-50 *)
Definition T_Lsa : N := 128.
Definition T_SequenceNumber : N := 130.
Definition T_AdjacencyLsa : N := 131.
Definition T_Adjacency : N := 132.
Definition T_CoordinateLsa : N := 133.
Definition T_CostDouble : N := 134.
Definition T_HyperbolicRadius : N := 135.
Definition T_HyperbolicAngle : N := 136.
Definition T_NameLsa : N := 137.
Definition T_ExpirationTime : N := 139.
Definition T_Cost : N := 140.
Definition T_Uri : N := 141.
Definition T_NextHop : N := 143.
Definition T_RoutingTable : N := 144.
Definition T_RoutingTableEntry : N := 145.
Definition T_PrefixInfo : N := 146.

Section Codec.
(** External text formats: ndn::time::toString / fromString for expiration times and the parser of
    ndn::FaceUri, which yields the canonical text of the URI; [None] is an exception. *)
Variable time_str : Z -> string.
Variable time_parse : string -> option Z.
Variable uri_parse : string -> option uri.

(** ** LSAs *)

(** lsa/lsa.cpp:42-60 and 64-98 (elements after the third are ignored) *)
Definition enc_hdr (o : name) (q : N) (t : Z) : string :=
  tlv T_Lsa (enc_name o ++ tlv T_SequenceNumber (nni_enc q) ++ tlv T_ExpirationTime (time_str t)).
Definition dec_hdr (v : string) : option (name * N * Z) :=
  do es <- dec_elts v;
  do (vn, es) <- expect T_Name es;
  do o <- dec_name vn;
  do (vq, es) <- expect T_SequenceNumber es;
  do q <- nni_dec vq;
  do (vt, es) <- expect T_ExpirationTime es;
  do t <- time_parse vt;
  Some (o, q, t).

(** adjacent.cpp:79-97 and 117-157 (elements after the third are ignored; the members that are not
    encoded keep the initial values of adjacent.hpp:191-196) *)
Definition enc_adj (a : adjacent) : string :=
  tlv T_Adjacency (enc_name (a_name a) ++ tlv T_Uri (a_uri a) ++ tlv T_Cost (enc_dbl (a_cost a))).
Definition dec_adj (v : string) : option adjacent :=
  do es <- dec_elts v;
  do (vn, es) <- expect T_Name es;
  do n <- dec_name vn;
  do (vu, es) <- expect T_Uri es;
  do u <- uri_parse vu;
  do (vc, es) <- expect T_Cost es;
  do c <- dec_dbl vc;
  Some (Adj n u c SUnknown 0 0).

(** name-prefix-list.cpp:123-137 and 159-187 *)
Definition enc_prefix (p : name * Z) : string :=
  tlv T_PrefixInfo (enc_name (fst p) ++ tlv T_Cost (enc_dbl (snd p))).
Definition dec_prefix (v : string) : option (name * Z) :=
  do es <- dec_elts v;
  do (vn, es) <- expect T_Name es;
  do n <- dec_name vn;
  do (vc, es) <- expect T_Cost es;
  do c <- dec_dbl vc;
  Some (n, c).

Definition type_code (t : ltype) : N :=
  match t with TAdj => T_AdjacencyLsa | TCoord => T_CoordinateLsa | TName => T_NameLsa end.

(** lsa/adj-lsa.cpp:43-60, lsa/coordinate-lsa.cpp:41-59, lsa/name-lsa.cpp:42-60: the elements are
    prepended in reverse order.  (std::map sorts the prefixes; here they keep the order of the
    list, see [npl].) *)
Definition enc_body (b : body) : string :=
  match b with
  | BAdj l => cat (map enc_adj l)
  | BCoord r an => (tlv T_HyperbolicRadius (enc_dbl r) ++ cat (map (fun a => tlv T_HyperbolicAngle (enc_dbl a)) an))%string
  | BName l => cat (map enc_prefix l)
  end.
Definition enc_lsa (l : lsa) : string :=
  tlv (type_code (l_type l)) (enc_hdr (l_origin l) (l_seq l) (l_exp l) ++ enc_body (l_body l)).

(** lsa/adj-lsa.cpp:103-112, lsa/coordinate-lsa.cpp:102-119, lsa/name-lsa.cpp:103-113 *)
Definition dec_body (t : ltype) (es : list elt) : option body :=
  match t with
  | TAdj => option_map (fun l => BAdj (adl_of_list l)) (dec_list T_Adjacency dec_adj es)
  | TCoord => do (vr, es) <- expect T_HyperbolicRadius es;
              do r <- dec_dbl vr;
              do an <- dec_list T_HyperbolicAngle dec_dbl es;
              Some (BCoord r an)
  | TName => option_map (fun l => BName (npl_of_list l)) (dec_list T_PrefixInfo dec_prefix es)
  end.
(** lsa/adj-lsa.cpp:82-113, lsa/coordinate-lsa.cpp:81-120, lsa/name-lsa.cpp:82-114: wireDecode *)
Definition dec_lsa_elt (t : ltype) (e : elt) : option lsa :=
  if fst e =? type_code t then
    do es <- dec_elts (snd e);
    do (vh, es) <- expect T_Lsa es;
    do (o, q, x) <- dec_hdr vh;
    do b <- dec_body t es;
    Some (Lsa o q x b)
  else None.
(** lsdb.cpp:591-607: Block(buffer), then the constructor for the type in the name *)
Definition dec_lsa (t : ltype) (s : string) : option lsa :=
  do e <- dec_block s; dec_lsa_elt t e.

(** ** Routing table dataset *)

(** route/nexthop.cpp:28-41 and 63-99; the hyperbolic flag is not encoded *)
Definition enc_nh (h : nexthop) : string :=
  tlv T_NextHop (tlv T_Uri (nh_uri h) ++ tlv T_CostDouble (enc_dbl (nh_cost h))).
Definition dec_nh (v : string) : option nexthop :=
  do es <- dec_elts v;
  do (vu, es) <- expect T_Uri es;
  do u <- uri_parse vu;
  do (vc, es) <- expect T_CostDouble es;
  do c <- dec_dbl vc;
  Some (mk_nh u c).

(** A routing table entry: destination and next hops in the order of the std::set. *)
Definition rte := (name * nhl)%type.

(** route/routing-table-entry.cpp:27-43 and 65-95 *)
Definition enc_rte (r : rte) : string :=
  tlv T_RoutingTableEntry (enc_name (fst r) ++ cat (map enc_nh (snd r))).
Definition dec_rte (v : string) : option rte :=
  do es <- dec_elts v;
  do (vn, es) <- expect T_Name es;
  do n <- dec_name vn;
  do hs <- dec_list T_NextHop dec_nh es;
  Some (n, fold_left (fun l h => nhl_addc h l) hs []).

(** route/routing-table.cpp:242-260 *)
Definition enc_rt (rt dry : list rte) : string :=
  tlv T_RoutingTable (cat (map enc_rte rt) ++ cat (map enc_rte dry)).

(** route/routing-table.cpp:296-307: an entry whose destination was seen before goes to the dry-run
    table *)
Fixpoint split_tables (seen : list name) (l : list rte) : list rte * list rte :=
  match l with
  | [] => ([], [])
  | r :: l' =>
      if existsb (eqb (fst r)) seen
      then let (a, b) := split_tables seen l' in (a, r :: b)
      else let (a, b) := split_tables (fst r :: seen) l' in (r :: a, b)
  end.
(** route/routing-table.cpp:282-312 *)
Definition dec_rt (s : string) : option (list rte * list rte) :=
  do e <- dec_block s;
  if fst e =? T_RoutingTable then
    do es <- dec_elts (snd e);
    do l <- dec_list T_RoutingTableEntry dec_rte es;
    Some (split_tables [] l)
  else None.

(** ** LSDB datasets *)

(** publisher/dataset-interest-handler.cpp:58-70 publishLsaStatus<T>: the wires one after another *)
Definition enc_dataset (t : ltype) (ls : list lsa) : string :=
  cat (map enc_lsa (filter (fun l => eqb (l_type l) t) ls)).
(** tools/nlsrc.cpp:397-419 onFetchSuccess: the content is parsed element by element (a broken element
    ends the loop there; here it fails the whole dataset) *)
Definition dec_dataset (t : ltype) (s : string) : option (list lsa) :=
  do es <- dec_elts s; fold_right (fun e k => do l <- dec_lsa_elt t e; do r <- k; Some (l :: r)) (Some []) es.
End Codec.
