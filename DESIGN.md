# NLSR in Rocq: design

Subject: named-data/NLSR, C++ sources in /repo (read as text, never built).
Deliverable: `rocq/theories`, a Gallina model of the code and theorems about it.

## Layout

| file group | content |
|---|---|
| `Base.v` | octets, names, association maps, list facts |
| `M_*.v`  | the model: total Gallina functions, one per C++ function, each with a citation of file and lines |
| `S_*.v`  | small independent specifications used in theorem statements (paths in a graph, replay of notifications, ...) |
| `L_*.v`  | lemmas and invariants |
| `P_*.v`  | the property theorems, each closed by `exact`/a short script, with `Example`s showing that the hypotheses are met, and `Print Assumptions` |

Conventions

* C++ undefined behaviour (erasing `end()`, null dereference, out-of-bounds) is a distinct
  outcome (`UB`/`None`), never a default value.
* Loops become structural recursion or fuelled recursion; running out of fuel is an
  explicit error value which the theorems exclude.
* Stateful components are `step : state -> event -> state * list output`; properties quantify
  over all event lists.
* A property which the faithful model violates is stated as a refutation `..._refuted`
  (an explicit witness), next to the strongest positive theorem that does hold.
* Numbers: sequence numbers and costs are unbounded integers in the model except where the
  width matters (TLV codec: 64-bit). Doubles are exact: finite doubles are integral multiples of
  2^-1074, and are represented by that integer where fractions matter, by `Z` where the code has
  applied `ceil`; rounding of double additions, NaN and infinities are not modelled.
  The codec maps them to and from IEEE 754 binary64 words.
* Face URIs and time strings are opaque octet strings.

## Plan per property

Status and exact theorem names are in MANIFEST.json. "Refuted" means: the English claim is false of the
code; a `..._refuted` theorem gives the witness, and the remaining theorems prove what does hold.

| id | model | proof |
|---|---|---|
| C01 C02 C03 C05 C06 C11 C12 | `M_Lsdb`: LSDB container, timers (objects with identity), sequencing manager, sync and fetch events as a step function | invariants by induction over event lists; replay refinement for C03 |
| C04 | `M_Lsa` NameLsa::update | refuted for costs, positive theorem for names |
| C07 C08 C10 C13 | `M_Lsdb` | refuted in general (expired stamp; stale or forged own numbers; dry-run mode; content not compared with name), positive conditional theorems |
| C09 | `M_Lsdb`: the state file is written by a temporary file and a rename, both outputs; a crash is a prefix of the outputs, a restart reads the file | induction over runs; refuted for dry-run |
| C14 C15 C19 | `M_Adj`, `M_Hello`, `M_Lsdb` build counter | invariant; C15 refuted with positive weaker form |
| C16 C17 C18 C20 C57 C58 C63 C64 C74 | `M_Adj`, `M_Hello`: adjacency list, hello and face events | invariants with ghost counters computed from the trace; C20, C57, C63 partly refuted |
| C21 | `M_LinkState` name map | bijection invariant |
| C22 | `M_LinkState` matrix | loop invariant over all (row, col) pairs |
| C23 C24 C25 C26 | `M_LinkState`: queue sort, Dijkstra, parent walk; `S_Graph`: walks and their cost | Dijkstra invariant, then path arguments |
| C27 C30 | `M_RoutingTable`, and `M_Router` for the histories | invariants; part of C30 refuted |
| C28 | `M_Nexthop` | refinement to "minimum per URI", sortedness |
| C29 | `M_Hyperbolic` with the distance as an oracle for the transcendental part | structural; malformed angles refuted |
| C31 C32 C33 C36 C40 | `M_Npt` (entries, pool, weak references, UB outcomes) | invariants over notification histories; C31, C36, C40 partly refuted |
| C34 C35 C37 C38 C39 C65 | `M_Fib` and a replayed forwarder | invariants over timed histories; C34, C35, C39 partly refuted |
| C41 C42 C43 C62 | `M_Tlv`, `M_Codec` | round trip by induction on octets and lists; C43 refuted with conditional positive |
| C44 C45 C46 C47 | `M_Prefix`: name prefix list, commands, configuration file editor | refinement to a map from prefix to source set; parts refuted |
| C48 C66 | `M_Sync`, `M_Lsdb` | round trip when the network has no marker component, refuted otherwise |
| C49 C50 C67 C68 C75 C76 | `M_Conf`: the sections of the configuration, starting from the property tree | case analysis on the accepted configuration; parts refuted |
| C51 C52 C69 C77 | `M_Cert` | invariant; termination under acyclic key locators, refuted for cycles |
| C53 | `M_Stats` over the traces of `M_Router` | induction; parts refuted |
| C54 C55 | `M_Net`: n LSDBs, any number of lives per router, any loss, duplication, delay, reordering | invariant over schedules; dry-run restart and prefix costs refuted |
| C56 | `M_Adj`, `M_Order` comparisons | refuted for fractional costs, proved for integral costs |
| C59 C60 C61 | `M_Lsdb` | case analysis over events; each refuted in general with a positive theorem |
| C70 | `M_Router`: nlsr.cpp, all modules wired together | per event, by inversion of the wiring; invariants over histories |
| C71 C72 C73 | `M_Lsdb` | timer, retrieval and notification invariants over event lists |
| C78 C79 C80 | `M_Nlsrc`: the command line tool, against `M_Prefix` and `M_Codec` | case analysis on command lines and answers; parts refuted |
| C81 | `M_Wire`: the cached encodings of stored LSAs | invariant over histories of events and encodings |
| C82 | `M_Router`: the whole router from events to the FIB, link-state routing | the router's database, routing table, name prefix table and FIB are projected to their own histories (`L_Router*`), where C40, C39 and the link-state theorems apply |
| C83 | `M_Router`, `M_Fib`: strategy commands | the calls to the FIB are a function of the announcements in the trace (`L_Router9`); pending commands of the FIB were asked for |
| C84 | `M_Main`: main.cpp, the files touched at start, what the modules take from the parameters | C49, C67, C68, C75 for the file, carried through the start; the invariants of `L_Router*` for the runs |
| C85 C86 | `M_Main`, `M_Conf`, `M_Prefix`: files at start, start from the saved file | case analysis of the file operations; reading splits into advertising and other sections, commands keep the others |
| C87 | `M_Router`, `M_Fib`: refresh timers and registrations in the whole router (`S_Live`: when routes end, read off the trace) | one event of the router makes FIB calls of one of four shapes; invariant of the FIB with the ends of the routes (`L_Live`) |
| C88 | a list of routers, each with its configuration and its run (`M_Router`); `S_Delivery`: handing packets on along FIB faces | from `C82_nearest` at every router: each hop lowers the least cost to an advertising router by the cost of the link; induction on this cost; with more than one face per prefix refuted |
| C89 | `M_Network`: whole routers (`M_Router`), a schedule interleaves their events; routers receive only what routers sent | every schedule projects to a schedule of databases (`L_Network`), where the theorems of C54 and C55 say what is stored; then C88 |
| C90 | `M_Lsdb`: the segment stores and their timers | invariant: every kept segment has a timer, started when it was validated or built; kept unless that timer fires; two parts refuted |
| C91 | `M_Router`, `M_Network`, the forwarder's routes read off the commands and replies (`S_Live.route_end`) | invariant: a route over a face that stays is wanted by the FIB (`L_Live2`), with C87 for the other direction; then C89 |
| C92 C93 | `M_Trust`: the patterns and rules of the security section of nlsr.conf, the anchors given to the two validators, chains of certificates | what each pattern matches; invariant up a chain of any length: every owner may vouch for the router (`S_Trust.may_vouch`); three parts refuted |
| C94 | `M_Lsdb`, `M_Hello`, `M_Trust` together (`S_Auth`: retrievals whose packets the validator accepted, an attacker with any keys and certificates) | foreign LSAs in the database are contents of retrievals (by induction over events); names of sent packets from C11; unforgeability from C92; two parts refuted |
| C95 | `M_Net` (`S_Conv`: events that only exchange LSAs; what a router says of itself; converged) | the three events of C55 for each pair of routers and type, by induction over the pairs; the exchange changes no own LSA and overwrites no current copy, so what was reached stays. Not an inevitability: that the network delivers these messages is the schedule's choice |
| C96 | `M_Hello`: `register_adj`, `initial_data`, `face_created`, `match_faces`, `content_validated` | case analysis over every event in every reachable state: what is registered, over which face, at what cost, and when |
| C97 | `M_Router`: `M_Hello` and `M_Lsdb` sharing the adjacency list | induction over the events of the router: a step that changes a status schedules a build (C70), a step outside the Hello protocol shows the database the list as it is, and each database step that leaves no build scheduled keeps or makes the LSA equal to the list (`L_Own`); then C82 for the faces; in a network (`P_Network3`) the projection of C89 shows that a router is never given an LSA of its own, and C89_faces gives both ends of the link |
| C98 | `M_Router`, `M_Lsdb`: what builds, refreshes and removes own LSAs | the effect of every database step (`L_Lsdb3.eff`): none removes an own Name or Coordinate LSA, builds of Coordinate LSAs use the configured values, with hyperbolic routing no build timer exists; lifted through the run of the router |

No property of the list had to be left out as inexpressible. What cannot be expressed is the part of a
property that lives in external libraries; it appears as an oracle or a hypothesis, listed below.

## Trusted base

* The kernel of Coq 8.16.1. No axiom is added, no kernel check is switched off, nothing is admitted.
* `Print Assumptions` stands after every property theorem in the `P_*.v` files. For every theorem in
  MANIFEST.json it prints "Closed under the global context": no theorem uses an axiom.
* `coqchk`/vcheck list seven axioms `Coq.ssr.ssrunder.Under_rel.*`. They belong to the standard library
  file ssrunder.v, which is loaded because standard library files load it; no theorem depends on them.
* That the Gallina definitions say what the C++ says. Each definition cites file and lines; the
  simplifications below are made on purpose.

### Modelled, file by file

| source | model |
|---|---|
| adjacent.{hpp,cpp}, adjacency-list.{hpp,cpp} | `M_Adj`, `M_Order` |
| lsa/*.{hpp,cpp} | `M_Lsa` (data, update), `M_Codec` (wire), `M_Wire` (cached wire) |
| lsdb.{hpp,cpp}, sequencing-manager.{hpp,cpp} | `M_Lsdb` |
| communication/sync-logic-handler.{hpp,cpp}, sync-protocol-adapter.{hpp,cpp} | `M_Sync`, `M_Lsdb` |
| hello-protocol.{hpp,cpp}, face handling of nlsr.cpp | `M_Hello` |
| route/name-map, routing-calculator-link-state | `M_LinkState` |
| route/routing-calculator-hyperbolic | `M_Hyperbolic` |
| route/routing-table, routing-table-entry | `M_RoutingTable`, `M_LinkState`, `M_Codec` |
| route/nexthop, nexthop-list | `M_Nexthop` |
| route/name-prefix-table, name-prefix-table-entry, routing-table-pool-entry | `M_Npt` |
| route/fib, fib-entry | `M_Fib` |
| name-prefix-list, update/*, utility/boost-info-editor | `M_Prefix` |
| conf-file-processor.cpp, conf-parameter.{hpp,cpp} | `M_Conf` |
| security/certificate-store | `M_Cert` |
| statistics, stats-collector | `M_Stats` |
| publisher/dataset-interest-handler | `M_Codec`, `M_Wire` |
| nlsr.{hpp,cpp} | `M_Router` |
| tools/nlsrc.cpp | `M_Nlsrc` |
| main.cpp, file handling of conf-file-processor.cpp | `M_Main` |
| nlsr.conf security section, anchors of conf-parameter.cpp and conf-file-processor.cpp | `M_Trust` |
| several LSDBs, several routers | `M_Net`, `M_Network` |

Not modelled: the key chain and the socket opened by main.cpp, logging, printing (`operator<<`, `print`),
the sync protocols themselves (PSync, ChronoSync, SVS),
utility/name-helper.hpp beyond what `M_Lsa` uses, version handling, the unit tests.

### External parts, and what is assumed about them

* ndn-cxx scheduler: a due callback runs at some time not before it is due; any order among due ones.
  Cancelled callbacks do not run.
* Sync protocols: they report some numbers, at any time. In `M_Net` and `M_Network`: only numbers some process announced
  under that name; any loss, repetition and order.
* Segment fetcher and validator: a retrieval ends at any time with an error, with undecodable octets, or
  with an LSA. In `M_Net` and `M_Network`: only with what a process sent under that name, one Data packet standing for all
  segments. Signatures are not part of these models: authenticity in C54 says that only what some router sent is stored.
* Retrievals (C94): what a retrieval yields is made of packets the validator accepted, named after the Interest, a version
  and a segment number (ndn-cxx SegmentFetcher); which packets carry which LSA is a parameter of the theorems.
* Validators (`M_Trust`): a signature verifies with exactly the key that made it; patterns, rules and chains work as
  ndn-cxx documents them. Signature types, validity periods and the limit on the length of a chain are left out.
* Forwarder (NFD): every registration, strategy and dataset request may be accepted, refused or answered
  late, in any order. Theorems about what the forwarder holds say which answers they assume.
* Unordered containers: iteration orders are inputs of every event, so theorems hold for all of them.
* Doubles: exact integral multiples of 2^-1074. Rounding of sums, NaN and infinities are outside the
  model. Conversion of uint64 command costs to double is exact in the model (true up to 2^53).
* Hyperbolic distance: the angle sum and the distance formula are oracles (`ang`, `dst`).
* Clocks: steady time never goes back; the system clock is an arbitrary input of each event.
* Text forms of time points, URIs and names (toString, fromString, `Name(uri)`): oracles; theorems that
  need them to round-trip say so.
* INFO parser and lexical_cast of boost: the model starts from the property tree; number texts are
  converted by an oracle given per value.
* Files: a rename is atomic, data is durable when written (no fsync, no torn writes).
* File system at start: which paths stand for the same file (`canon`) and which files may be written
  (`may_write`) are oracles.
* Certificates: parsing, signing and the validator cache are given as data of the event.
* nlsrc: command encoding is modelled as the pair (router, command); printing is not modelled.
* Memory exhaustion and integer overflow of sizes are not modelled. 64-bit wrap of sequence numbers is
  modelled where the code computes modulo 2^64, otherwise numbers are unbounded.

## Findings

Behaviour of the code that a user would not expect, each met while proving. Names in brackets are the
theorems that show it.

1. A restart in dry-run mode resets the Adjacency LSA number to 0 [C09, C10, C54_restart_refuted, C55_restart_refuted].
2. `NameLsa::update` ignores changes of prefix costs [C04, C55_cost_refuted].
3. `Adjacent` comparison is inconsistent for fractional costs [C56, C73_fractional_refuted].
4. Removing one LSA type of a router removes its own name from the prefix table [C31].
5. Prefix table cost offsets go wrong with two advertising routers or a withdrawal [C36].
6. `adjustNexthopCosts` drops the hyperbolic flag [C40].
7. A FIB refresh keeps the lower old cost; 8. it uses the first flags [C39].
9. A new prefix table entry ignores the route flags of the LSA.
10. `Fib::remove` and empty updates do not erase entries named like a neighbour [C34].
11. A foreign LSA that has expired on arrival gets a full lifetime [C07_already_expired_refuted].
12. `afterFetchLsa` compares neither origin nor number of the content with the name [C13].
13. Without an own Adjacency LSA, a lower number from sync sets the own number back [C08_stale_sync_refuted].
14. An Adjacency LSA is built with one ACTIVE neighbour while others are undecided [C15].
15. A routing calculation is dropped while a build is scheduled; removal of a foreign Adjacency LSA, or of a Coordinate LSA with hyperbolic routing, never triggers one [C30].
16. The routing table dataset misplaces destinations known only to the dry run [C43]; 35. and reorders hyperbolic hops [C43].
17. Re-advertising at another cost changes the list but announces nothing [C45]; 45. the LSA keeps the old cost later too [C47].
18. Withdraw and delete of a prefix saved at nonzero cost fails; dots in a name confuse the file editor [C46].
19. Hyperbolic angle checks never fire for the last angle; an empty list is out of bounds [C29].
20. Every confirmed registration starts another hello loop [C20].
21. Negative costs from the wire are cast to uint64 (undefined behaviour in C++; outside the model).
22. Distances of at least the constant INF count as unreachable.
23. "ON" or "Dry-Run" in other spelling is accepted without coordinates [C50]; 56. so is an angle that is no number [C50].
24. A repeated general section accumulates prefixes [C68].
25. A cycle of certificate key locators never ends [C52].
26. nlsrc wraps negative costs; 66. takes "12abc" as 12 [C78_cost_refuted].
27. hello-retries up to 15 are accepted, 10 documented [C49].
28. Zero-cost links give forwarding loops [C26_zero_cost_loop_refuted].
29. An LSA Interest with a malformed number ends the process [C59]; 34. so does a malformed hello Interest [C63].
30. LSAs of more than 100 segments cannot be fetched [C60].
31. A sync report of an own number builds an Adjacency LSA even without ACTIVE neighbours.
32. A forged LSA under this router's name is installed [C08_forged_own_refuted].
33. A flapping neighbour postpones the Adjacency LSA for ever [C61].
36. Expiration times travel with the resolution of their text form (external).
37. Two neighbours with one face URI; 38. a stale dataset; 39. a late confirmation: dead face ids are kept [C57].
40. A registration retried after removal leaves a stale route; 41. a new face gets its routes only at the next refresh [C35].
42. A stale offset remains in a corner of the prefix table; 43. cost changes hidden by rounding are ignored.
44. All sources of advertised prefixes use the source "" [C44].
46. Saving the configuration is not atomic. 49. Answers to save requests depend on the file only [C45].
47. The notifications of the LSDB constructor are not seen by routing and prefix table (harmless: own LSAs).
48. Hyperbolic routes use neighbours of unknown status.
50. Costs above 2^53 are rounded (outside the model).
51. The router listens for its operator's certificate under the literal text %C1.Operator [C77_operator_refuted].
52. Network names containing "nlsr" or "LSA" break the parsing of sync names [C48].
53. Without a neighbors section a retry limit is uninitialised; 54. a file without general section is accepted [C49].
55. Optional numbers that do not parse become defaults [C75].
57. Link cost -12345 is accepted [C67].
58. A certificate that was not validated can be published [C69].
59. Key names with KEY fourth from the end are taken for certificate names [C51].
60. Several statistics count something else than documented [C53].
61. A router named like another's LSA could be confused by CanBePrefix (excluded in `M_Net`).
62. A stale timer of a removed own Adjacency LSA can refresh a later one early.
63. A hello reply that fails validation is neither counted nor retried.
64. cert-to-publish is ignored without a prefix-update-validator [C76].
65. nlsrc exits 0 on a Nack-type answer [C78]; 67. on a broken dataset [C79]; 69. a malformed -R name aborts it [C78].
68. nlsrc shows an empty table instead of "not calculated yet" [C80].
70. `CoordinateLsa::update` does not drop the cached encoding; `installLsa` does it before by `setSeqNo` [C81_coordinates].
71. The best-route strategy for operator certificates is set on the twelve characters "%C1.Operator", not on <0xC1>.Operator of the trust schema (nlsr.cpp:148) [C83_operator_refuted]; compare finding 51.
72. A refused start has already overwritten the saved configuration in the state directory: the copy is made in the general section, before later sections are checked (conf-file-processor.cpp:355-362) [C85_refused_refuted].
73. A configuration file that is state-dir/test.seq is truncated and deleted by the write test (conf-file-processor.cpp:364-375) [C85_test_refuted].
74. Saving a prefix whose URI has a dot, or the prefix "/", is answered 205 and makes the saved file unusable for the next start [C86_dot_refuted, C86_root_refuted].
75. When several routers advertise a prefix, the costs they give it take no part in the choice between them: `adjustNexthopCosts` adds the cost of the router touched last to the next hops of all of them (name-prefix-table.cpp:122-131, 183, 208, 277) [C82_prefix_cost_refuted, C40_many_partial].
76. With more than one face per prefix two neighbours may hold each other's face for a prefix: packets may come back to a router they visited [C88_multipath_refuted].
77. A segment of another router's LSA that is validated again is dropped half an hour after the first validation, not the last [C90_again_refuted].
78. An Interest for a segment of an own LSA that is no longer cached is answered under a longer name, and when it is repeated with segment 0 instead of the one asked for [C90_repeat_refuted].
79. A router whose name has a component INFO is never accepted as a neighbour: no rule of nlsr.conf matches its answers to Hellos [C92_info_refuted].
80. Certificates listed to be published become trust anchors for prefix-update commands too (conf-parameter.cpp:118). The router that publishes the root certificate accepts commands of the operators of every site [C93_published_refuted].
81. Anyone certified by the site can name a key below their own name as an operator and give prefix-update commands: the rule does not say where the operator mark stands [C93_minted_refuted].
82. Any router with a valid key can replace the LSAs of every other router: `afterFetchLsa` does not compare the origin in the content with the name the packets were validated under (lsdb.cpp:553-614), so the trust schema protects the LSAs of a router only while no router at all is compromised [C94_insider_refuted, C13_refuted].
83. The longer name of finding 78 is rejected by the validator of every router: the schema takes the type and the number for a part of the router's name [C94_doubled_refuted].

## Reading seeded/LOG.jsonl

Each line is one edit of the model in a scratch copy, rebuilt with failing proofs replaced by
`Admitted` so that the build goes on. `theorems_failed` lists the property theorems that then no
longer print "Closed under the global context": their own proof broke, or a lemma they use broke.

- This shows that a proof broke, not that the statement became false. An edit that changes no
  claim can still break a helper lemma and so list theorems; such edits have claim "none".
- A theorem listed only because a helper lemma broke is therefore weak evidence that its statement
  is tight. Lines with a `refuted` field are stronger: for those the negation of the named theorem
  was proved, without assumptions, against the edited model.
- Lines with `"invalid": true` are edits that did not typecheck. They are kept as attempts and
  count for nothing.
