(** Model of security/certificate-store.{hpp,cpp}.

    From ndn-cxx: a certificate name is /<identity>/KEY/<key id>/<issuer>/<version>; Certificate objects
    with other names cannot be constructed.  The validator's cache of unverified certificates is ordered
    by name, and its lookup returns the first certificate whose name has the given prefix
    (CertificateCache::find; a prefix that ends with an implicit digest is not supported: not modelled,
    key locators do not end so). *)
From Verif Require Import Base M_Lsa M_Lsdb M_Router.

(** [ct_kl]: the name in the key locator; [None]: there is none, or it is not a name, and asking for it
    throws.  [ct_bits]: everything else. *)
Record cert := Cert { ct_name : name; ct_kl : option name; ct_bits : string }.

(** ndn::security::Certificate::isValidName *)
Definition cert_named (n : name) : bool := match back 4 n with Some x => eqb x KEY | None => false end.
(** Certificate::getKeyName, extractKeyNameFromCertName *)
Definition key_name (n : name) : name := drop_last 2 n.
Definition ct_key (x : cert) : name := key_name (ct_name x).

(** m_certificates *)
Definition cstore := list (name * cert).
(** certificate-store.cpp:62-67 insert *)
Definition cs_insert (x : cert) (m : cstore) : cstore := set (ct_key x) x m.
(** certificate-store.cpp:69-93 find, findByKeyName, findByCertName *)
Definition cs_find (n : name) (m : cstore) : option cert :=
  if cert_named n
  then match get (key_name n) m with
       | Some x => if eqb (ct_name x) n then Some x else None
       | None => None
       end
  else get n m.

(** ndn-cxx CertificateCache::find *)
Definition cache_find (n : name) (cache : list cert) : option cert := find (fun x => is_prefix n (ct_name x)) cache.

(** What happens, in order. *)
Inductive cout :=
| CStored (x : cert)     (* a certificate is inserted *)
| CFilter (n : name)     (* an Interest filter is set and a prefix is registered *)
| CReply (x : cert)      (* a certificate is sent *)
| CThrow                 (* an exception leaves the event handler: main.cpp:87-93 exits *)
| CHang.                 (* the recursion never ends *)

(** [c_off]: the process has exited or hangs. *)
Record cst := Cst { c_store : cstore; c_filters : list name; c_off : bool }.

(** certificate-store.cpp:167-188 publishCertFromCache.  The recursion visits a certificate of the cache
    in every round; [fuel] is the number of further rounds that are followed.  If as many rounds as there
    are certificates do not end it, it never ends (P_Cert.C52_hangs). *)
Fixpoint publish_rounds (fuel : nat) (cache : list cert) (k : name) (s : cst) : cst * list cout :=
  match cache_find k cache with
  | None => (s, [])
  | Some x =>
      let s1 := Cst (cs_insert x (c_store s)) (c_filters s ++ [ct_key x]) (c_off s) in
      let o := [CStored x; CFilter (ct_key x)] in
      match ct_kl x with
      | None => (Cst (c_store s1) (c_filters s1) true, o ++ [CThrow])
      | Some k' =>
          if eqb (ct_key x) k' then (s1, o)
          else match fuel with
               | O => (Cst (c_store s1) (c_filters s1) true, o ++ [CHang])
               | S fuel' => let (s2, o2) := publish_rounds fuel' cache k' s1 in (s2, o ++ o2)
               end
      end
  end.
Definition publish_cert (cache : list cert) (k : name) (s : cst) : cst * list cout :=
  publish_rounds (length cache) cache k s.

Inductive cev :=
| CvSegment (kl : option name) (cache : list cert)  (* a segment with this key locator was validated; the validator's cache *)
| CvInterest (n : name)
| CvRegFail (n : name).                             (* the registration of a prefix failed *)

(** certificate-store.cpp:46-59, 95-103, 140-165; an Interest is delivered once for each filter that
    matches *)
Definition cstep (s : cst) (e : cev) : cst * list cout :=
  if c_off s then (s, [])
  else match e with
  | CvSegment None _ => (s, [])
  | CvSegment (Some k) cache =>
      match cs_find k (c_store s) with Some _ => (s, []) | None => publish_cert cache k s end
  | CvInterest n =>
      (s, flat_map (fun p => if is_prefix p n
                             then match cs_find n (c_store s) with Some x => [CReply x] | None => [] end
                             else []) (c_filters s))
  | CvRegFail n => if existsb (eqb n) (c_filters s) then (Cst (c_store s) (c_filters s) true, [CThrow]) else (s, [])
  end.

(** certificate-store.cpp:105-138 registerKeyPrefixes *)
Definition key_prefixes (net site router : name) : list name :=
  [net ++ site ++ router ++ [gen "nlsr"%string; KEY]; net ++ site ++ router ++ [KEY];
   net ++ site ++ [C1_OPERATOR]; net ++ site ++ [KEY]].

(** certificate-store.cpp:35-44, the constructor; [own]: the configured certificates.  Simplification: a
    certificate file that cannot be read (an exception) is not modelled. *)
Definition cinit (net site router : name) (own : list cert) : cst * list cout :=
  (Cst (fold_left (fun m x => cs_insert x m) own []) (key_prefixes net site router) false,
   map CStored own ++ map CFilter (key_prefixes net site router)).
Definition cexec net site router own (evs : list cev) : cst * list cout :=
  let (s, o) := cinit net site router own in
  let (s', o') := run cstep s evs in (s', o ++ o').
