{
 "claims": [
  {
   "property": "C01",
   "status": "proved",
   "theorems": [
    "C01_unique"
   ],
   "note": "Invariant over all reachable states of the LSDB event machine."
  },
  {
   "property": "C02",
   "status": "proved",
   "theorems": [
    "C02_stale_ignored",
    "C02_step_monotone",
    "C02_monotone",
    "C02_newer_accepted"
   ],
   "note": "Stale offers are no-ops; numbers never decrease over any run in which the LSA stays stored; newer ones are taken."
  },
  {
   "property": "C03",
   "status": "proved",
   "theorems": [
    "C03_notifications"
   ],
   "note": "Replaying the notifications yields exactly the advertised (router, prefix) pairs."
  },
  {
   "property": "C04",
   "status": "partial",
   "theorems": [
    "C04_names_partial",
    "C04_refuted"
   ],
   "note": "The full claim is false of the code (C04_refuted: NameLsa::update ignores cost changes). Proved: names and the costs of newly added names are right; missing: costs of names already known."
  },
  {
   "property": "C05",
   "status": "proved",
   "theorems": [
    "C05_own_refreshed",
    "C05_foreign_removed",
    "C05_own_kept"
   ],
   "note": "Own LSAs are refreshed, persisted, announced and re-armed; foreign ones removed and notified; no lifetime timer removes an own LSA."
  },
  {
   "property": "C06",
   "status": "proved",
   "theorems": [
    "C06_timer_pending"
   ],
   "note": ""
  },
  {
   "property": "C07",
   "status": "partial",
   "theorems": [
    "C07_lifetime_bounded",
    "C07_already_expired_refuted"
   ],
   "note": "Proved for LSAs accepted before their expiration time; refuted for LSAs already expired on acceptance (C07_already_expired_refuted)."
  },
  {
   "property": "C08",
   "status": "partial",
   "theorems": [
    "C08_increasing",
    "C08_persisted_first",
    "C08_stale_sync_refuted",
    "C08_forged_own_refuted"
   ],
   "note": "Persistence order proved without assumptions. Strict increase proved without assumptions for Name and Coordinate LSAs; for Adjacency LSAs under adj_trusted (no stale sync report of the own LSA, no forged own LSA), both shown necessary by the two refutations."
  },
  {
   "property": "C09",
   "status": "partial",
   "theorems": [
    "C09_across_crashes",
    "C09_dry_run_refuted"
   ],
   "note": "Proved for link-state and hyperbolic mode (all published types) and Name LSAs in dry-run; refuted for Adjacency and Coordinate LSAs in dry-run mode."
  },
  {
   "property": "C10",
   "status": "partial",
   "theorems": [
    "C10_recovery",
    "C10_dry_run_refuted"
   ],
   "note": "Proved for link-state and hyperbolic mode and Name LSAs in dry-run; refuted in dry-run."
  },
  {
   "property": "C11",
   "status": "proved",
   "theorems": [
    "C11_no_change",
    "C11_exact",
    "C11_history",
    "C11_answered"
   ],
   "note": "Under the name shape the configuration code produces (lsa_conf) and names without a second LSA marker (sane)."
  },
  {
   "property": "C12",
   "status": "proved",
   "theorems": [
    "C12_order",
    "C12_never_own",
    "C12_retry",
    "C12_stops",
    "C12_outdated_dropped"
   ],
   "note": "C12_never_own and C12_stops state the conditions on names."
  },
  {
   "property": "C13",
   "status": "partial",
   "theorems": [
    "C13_refuted",
    "C13_type_partial"
   ],
   "note": "Refuted: content is not compared with the fetched name. Positive: the installed LSA has the type of the name."
  },
  {
   "property": "C14",
   "status": "proved",
   "theorems": [
    "C14_requested",
    "C14_pending",
    "C14_completed"
   ],
   "note": "Every request leaves a build pending until a build has run; the completed build lists exactly the ACTIVE neighbours, with their face URIs and costs (up to the code's own cost comparison, exactly for whole costs)."
  },
  {
   "property": "C15",
   "status": "partial",
   "theorems": [
    "C15_refuted",
    "C15_known_partial"
   ],
   "note": "Refuted: one ACTIVE neighbour suffices. Positive: some neighbour is ACTIVE or all are known."
  },
  {
   "property": "C16",
   "status": "proved",
   "theorems": [
    "C16_list",
    "C16_running"
   ],
   "note": "Operation sequences on the list, and the running router."
  },
  {
   "property": "C17",
   "status": "proved",
   "theorems": [
    "C17_down",
    "C17_limit",
    "C17_up",
    "C17_local",
    "C17_router_limit",
    "C17_router_down"
   ],
   "note": "All interleavings; hello-retries between 1 and 2^32-1. C17_router_limit and C17_router_down: the same in every run of the whole router, with the configured number of retries."
  },
  {
   "property": "C18",
   "status": "proved",
   "theorems": [
    "C18_interest",
    "C18_reply",
    "C18_pending",
    "C18_registered",
    "C18_router_interest",
    "C18_router_reply"
   ],
   "note": "Interests, replies, losses and registrations. C18_router_interest and C18_router_reply: the same for runs of the whole router; the state of the router is unchanged and the packet is only counted."
  },
  {
   "property": "C19",
   "status": "proved",
   "theorems": [
    "C19_recompute"
   ],
   "note": "Both directions, exactly one scheduling per change."
  },
  {
   "property": "C20",
   "status": "partial",
   "theorems": [
    "C20_count",
    "C20_one_partial",
    "C20_refuted"
   ],
   "note": "False in general: every registration starts another loop (C20_refuted). Proved: number of loops = number of registrations; at most one if registered at most once."
  },
  {
   "property": "C21",
   "status": "proved",
   "theorems": [
    "C21_numbering_bijection",
    "C21_numbering_bijection_coordinates"
   ],
   "note": "For Adjacency and Coordinate LSDBs."
  },
  {
   "property": "C22",
   "status": "proved",
   "theorems": [
    "C22_matrix_symmetric_conservative"
   ],
   "note": "Usable = both ends advertise a non-negative cost; cost = max; symmetric."
  },
  {
   "property": "C23",
   "status": "proved",
   "theorems": [
    "C23_distances_are_shortest",
    "C23_route_costs"
   ],
   "note": "Matrix level for every matrix, and routing-table level. Distances at or above 2^31-1 are unreachable."
  },
  {
   "property": "C24",
   "status": "proved",
   "theorems": [
    "C24_next_hop_on_shortest_path",
    "C24_parent_walk_terminates"
   ],
   "note": "First hop lies on a shortest path; parent walk terminates."
  },
  {
   "property": "C25",
   "status": "proved",
   "theorems": [
    "C25_multipath_costs"
   ],
   "note": "Exact characterisation of recorded faces and costs in multi-path mode."
  },
  {
   "property": "C26",
   "status": "proved",
   "theorems": [
    "C26_no_forwarding_loops",
    "C26_zero_cost_loop_refuted"
   ],
   "note": "Positive link costs, any LSDB order per router. With zero-cost links the property fails (refuted with a computed network)."
  },
  {
   "property": "C27",
   "status": "proved",
   "theorems": [
    "C27_only_configured_faces"
   ],
   "note": "Both modes, given that the own Adjacency LSA lists only configured neighbours."
  },
  {
   "property": "C28",
   "status": "proved",
   "theorems": [
    "C28_next_hop_list"
   ],
   "note": "All sequences of additions."
  },
  {
   "property": "C29",
   "status": "partial",
   "theorems": [
    "C29_hyperbolic_routes",
    "C29_unknown_no_hop",
    "C29_out_of_range_refuted",
    "C29_no_angles_refuted"
   ],
   "note": "Proved for every adjacency list and coordinate store: the routes are exactly the neighbours with known distance, cost 0 to the destination itself, sorted and with the hyperbolic flag. The clause about malformed angles is refuted: the range check never fires for the last angle, and an empty angle list is an out-of-bounds access."
  },
  {
   "property": "C30",
   "status": "partial",
   "theorems": [
    "C30_one",
    "C30_scheduled",
    "C30_scheduled_hyperbolic",
    "C30_kept",
    "C30_reads",
    "C30_table_partial",
    "C30_skipped_refuted",
    "C30_removed_refuted",
    "C30_hyperbolic_partial",
    "C30_removed_hyperbolic_refuted"
   ],
   "note": "At most one scheduled, every new Adj/Coord content schedules one, kept until run, a run reads the current database; between calculations the routes are those of the database if the last calculation was not skipped and no foreign Adj LSA was removed. Both conditions are needed: refuted without them. C30_hyperbolic_partial: the same with hyperbolic routing, from the Coordinate LSAs and the neighbours that are up, if no Coordinate LSA was removed since the last calculation; C30_removed_hyperbolic_refuted shows that this is needed."
  },
  {
   "property": "C31",
   "status": "partial",
   "theorems": [
    "C31_mirror_partial",
    "C31_router_name",
    "C31_router_name_refuted"
   ],
   "note": "The mirror holds for every history of notifications for prefixes that are not router names, and for router names while any LSA of the router is held; the entry for a router's own name is removed when only one of its LSA types goes (C31_router_name_refuted), as src/route/name-prefix-table.cpp does."
  },
  {
   "property": "C32",
   "status": "proved",
   "theorems": [
    "C32_history",
    "C32_calls"
   ],
   "note": "For every history of notifications, and for every sequence of calls that satisfies the class's contract."
  },
  {
   "property": "C33",
   "status": "proved",
   "theorems": [
    "C33_defined"
   ],
   "note": "Every history of LSDB notifications and routing results is processed with a defined outcome (no missing pool entry is dereferenced)."
  },
  {
   "property": "C34",
   "status": "partial",
   "theorems": [
    "C34_cheapest",
    "C34_commands",
    "C34_neighbour_refuted"
   ],
   "note": "Proved for every prefix that is not the name of a neighbour (faces chosen and exact commands); refuted for neighbour names, whose entries are not removed by an empty update (finding 10)."
  },
  {
   "property": "C35",
   "status": "partial",
   "theorems": [
    "C35_agree",
    "C35_no_stale",
    "C35_new_face_refuted",
    "C35_retry_refuted"
   ],
   "note": "Full agreement when faces are fixed and the forwarder accepts commands; no stale route when faces come and go; the two converse cases (new face, refused registration retried after removal) are refuted by witnesses."
  },
  {
   "property": "C36",
   "status": "partial",
   "theorems": [
    "C36_offset_partial",
    "C36_zero_partial",
    "C36_sole_partial",
    "C36_two_routers_refuted",
    "C36_withdrawn_refuted"
   ],
   "note": "The offset is exact when one router advertises the prefix or the offsets are zero; with two routers, or after a withdrawal, the code uses the wrong offset (refuted with witnesses)."
  },
  {
   "property": "C37",
   "status": "proved",
   "theorems": [
    "C37_driven",
    "C37_history"
   ],
   "note": "Every event; over histories, direct registration requests are the only source of commands about a neighbour."
  },
  {
   "property": "C38",
   "status": "proved",
   "theorems": [
    "C38_bound",
    "C38_numbered",
    "C38_retry",
    "C38_same",
    "C38_strategy"
   ],
   "note": "Every pattern of responses; at most four attempts, same parameters."
  },
  {
   "property": "C39",
   "status": "partial",
   "theorems": [
    "C39_faces_partial",
    "C39_exact_partial",
    "C39_cost_refuted",
    "C39_flags_refuted"
   ],
   "note": "Faces exact for every history; costs and flags exact if no update raises a cost or changes flags; refuted otherwise (findings 7, 8)."
  },
  {
   "property": "C40",
   "status": "partial",
   "theorems": [
    "C40_linkstate_partial",
    "C40_many_partial",
    "C40_gone",
    "C40_hyperbolic_refuted"
   ],
   "note": "C40_linkstate_partial: link-state costs and a sole advertising router; C40_many_partial: any number of advertising routers, chosen by route cost alone; hyperbolic next hops lose their flag (refuted)."
  },
  {
   "property": "C41",
   "status": "proved",
   "theorems": [
    "C41_roundtrip",
    "C41_type"
   ],
   "note": "Relative to the external text formats of time points and URIs; doubles encoded as exact binary64."
  },
  {
   "property": "C42",
   "status": "proved",
   "theorems": [
    "C42_injective",
    "C42_truncated",
    "C42_trailing",
    "C42_faithful"
   ],
   "note": ""
  },
  {
   "property": "C43",
   "status": "partial",
   "theorems": [
    "C43_roundtrip_partial",
    "C43_dry_run_refuted",
    "C43_hyperbolic_refuted"
   ],
   "note": "Refuted for destinations known only to the dry run and for the order of hyperbolic hops; proved otherwise."
  },
  {
   "property": "C44",
   "status": "partial",
   "theorems": [
    "C44_sources",
    "C44_other_source",
    "C44_cost",
    "C44_return",
    "C44_program",
    "C44_shared_source_refuted"
   ],
   "note": "The list tracks sources exactly (membership, independence of sources, cost, return values). The program itself passes the source \"\" everywhere, so C44_program characterises it and C44_shared_source_refuted shows one source cancelling another."
  },
  {
   "property": "C45",
   "status": "partial",
   "theorems": [
    "C45_effect_partial",
    "C45_save_refuted",
    "C45_cost_refuted"
   ],
   "note": "One reply per command, announcement iff the set of prefixes changed, 200/204 iff changed/unchanged without the save flag. Refuted with the save flag (500 after a change, 205 without one) and for cost-only changes."
  },
  {
   "property": "C46",
   "status": "partial",
   "theorems": [
    "C46_saved_partial",
    "C46_untouched",
    "C46_delete_again",
    "C46_delete_cost_refuted",
    "C46_dot_refuted",
    "C46_untidy_refuted"
   ],
   "note": "Proved for URIs without dots on a configuration listing each prefix at most once. Refuted: deletion of a prefix saved at nonzero cost, URIs with dots, files listing a prefix twice. The INFO parser is external."
  },
  {
   "property": "C47",
   "status": "partial",
   "theorems": [
    "C47_names_partial",
    "C47_costs_partial",
    "C47_cost_refuted"
   ],
   "note": "Names exact at every reachable state; costs are those of the first advertisement since the prefix was last absent, exact when no listed prefix is re-advertised at another cost; refuted otherwise."
  },
  {
   "property": "C48",
   "status": "partial",
   "theorems": [
    "C48_update_partial",
    "C48_interest_partial",
    "C48_injective",
    "C48_nodes",
    "C48_registered",
    "C48_delivered",
    "C48_nlsr_refuted",
    "C48_lsa_refuted",
    "C48_published",
    "C48_published_only"
   ],
   "note": "C48_update_partial and C48_interest_partial: recovery for every site, router, type and number when the network name contains neither component nlsr nor LSA (site and router names may). C48_injective: different routers or types announce under different names. C48_nodes: the names registered with the sync protocol are exactly those of the LSA types in use. C48_registered: every announcement of a run is made under a registered name, if no fetched LSA claims to be this router's. C48_delivered: the adapter hands the name and number of an announcement over unchanged with every sync protocol. Missing: false for network names containing a marker, C48_nlsr_refuted and C48_lsa_refuted (finding 52). From the decision to announce a number to the update another database is given, router, type and number are kept (C48_published), and nothing else is announced (C48_published_only)."
  },
  {
   "property": "C49",
   "status": "partial",
   "theorems": [
    "C49_ranges",
    "C49_names_partial",
    "C49_names_refuted",
    "C49_retries_refuted"
   ],
   "note": "C49_ranges: every numeric parameter of an accepted configuration is in its range. Names and the dataset-fetch attempts are only checked if the file has a general (neighbors) section: the empty file is accepted with empty names (refuted). hello-retries up to 15 are accepted although nlsr.conf documents 1-10 (refuted)."
  },
  {
   "property": "C50",
   "status": "partial",
   "theorems": [
    "C50_partial",
    "C50_coordinates",
    "C50_spelling_refuted",
    "C50_angles_refuted"
   ],
   "note": "Proved for the lower-case spellings on and dry-run: without both coordinates the file is rejected, otherwise the coordinates are the given ones. Refuted for other spellings (ON) and for an angle text without a number."
  },
  {
   "property": "C51",
   "status": "partial",
   "theorems": [
    "C51_key_partial",
    "C51_cert",
    "C51_key_refuted",
    "C51_served"
   ],
   "note": "Lookups by certificate name proved in full; lookups by key name proved for names that do not have the component KEY fourth from the end (refuted otherwise). C51_served: where served certificates come from."
  },
  {
   "property": "C52",
   "status": "partial",
   "theorems": [
    "C52_partial",
    "C52_hangs",
    "C52_outcomes",
    "C52_refuted"
   ],
   "note": "Proved whenever following the key locators ends; C52_outcomes and C52_hangs: otherwise it throws or never ends. Refuted for cycles."
  },
  {
   "property": "C53",
   "status": "partial",
   "theorems": [
    "C53_counters",
    "C53_no_overflow",
    "C53_hello",
    "C53_lsa_partial",
    "C53_received",
    "C53_sent_refuted",
    "C53_fifo_refuted",
    "C53_segment_refuted"
   ],
   "note": "Counters are the increments since the last reset until an int overflows; the hello counters and the per-type counters of LSA Interests sent are exact, and so is the total of LSA Data received. Refuted for the rest: the total of LSA Interests sent counts suppressed ones, Interests answered from the segment FIFO are not counted, and SENT_LSA_DATA is counted when no segment is sent."
  },
  {
   "property": "C54",
   "status": "partial",
   "theorems": [
    "C54_authentic_partial",
    "C54_links",
    "C54_fresh_partial",
    "C54_restart_refuted"
   ],
   "note": "Any number of processes, any schedule of losses, duplicates, delays and reordering, any number of lives per router name. Every stored foreign LSA has the number, expiration time and content of one its origin held (C54_authentic_partial; content up to the prefix costs and cost comparison of C04/C56); with whole link costs the links are exactly equal (C54_links). Numbers are announced ones and not above the origin's current one when the origin has one life (C54_fresh_partial). Missing: after a restart with dry-run the stored number can be above the origin's (C54_restart_refuted), and prefix costs (C55_cost_refuted)."
  },
  {
   "property": "C55",
   "status": "partial",
   "theorems": [
    "C55_agree_partial",
    "C55_latest",
    "C55_converged_partial",
    "C55_reached",
    "C55_cost_refuted",
    "C55_restart_refuted"
   ],
   "note": "Routers that store the same number of an LSA store the same content (C55_agree_partial, C55_latest), so when every router stores every current number the databases agree (C55_converged_partial), and from any state three events bring a current LSA to any running router (C55_reached). Refuted: prefix costs may differ (C55_cost_refuted), and after a restart with dry-run the links may differ for ever (C55_restart_refuted)."
  },
  {
   "property": "C56",
   "status": "partial",
   "theorems": [
    "C56_integral_partial",
    "C56_distinct_partial",
    "C56_fraction_refuted"
   ],
   "note": "The order on adjacent entries is a strict weak order consistent with equality when all link costs are integers (every cost the configuration reader or an integral codec gives), and for entries that differ in name; refuted for fractional costs, where a<a can hold."
  },
  {
   "property": "C57",
   "status": "partial",
   "theorems": [
    "C57_faces",
    "C57_dataset",
    "C57_shared_uri_refuted",
    "C57_stale_dataset_refuted",
    "C57_late_registration_refuted"
   ],
   "note": "Proved for distinct neighbour URIs and truthful, non-stale reports; fails for two neighbours with one URI and for a dataset overtaken by a destroy notification. A registration confirmation processed after its face was destroyed also writes a dead id (refuted)."
  },
  {
   "property": "C58",
   "status": "proved",
   "theorems": [
    "C58_bounded",
    "C58_exact"
   ],
   "note": ""
  },
  {
   "property": "C59",
   "status": "partial",
   "theorems": [
    "C59_only_malformed",
    "C59_interest_kills_refuted"
   ],
   "note": "Refuted: an Interest naming this router with a malformed number component throws. Positive: nothing else does, and there is no undefined behaviour."
  },
  {
   "property": "C60",
   "status": "partial",
   "theorems": [
    "C60_segments",
    "C60_large_refuted"
   ],
   "note": "Proved up to the cache limit of 100 segments, refuted beyond."
  },
  {
   "property": "C61",
   "status": "partial",
   "theorems": [
    "C61_postponed_refuted",
    "C14_completed"
   ],
   "note": "Refuted: every request re-arms the timer, so repeated requests postpone the build for ever; without further requests C14_completed gives the bound."
  },
  {
   "property": "C62",
   "status": "proved",
   "theorems": [
    "C62_dataset"
   ],
   "note": ""
  },
  {
   "property": "C63",
   "status": "partial",
   "theorems": [
    "C63_only_malformed",
    "C63_refuted"
   ],
   "note": "False: /<router>/nlsr/INFO/<not a name> ends the process (C63_refuted). Proved: nothing else in this part does."
  },
  {
   "property": "C64",
   "status": "proved",
   "theorems": [
    "C64_handshake"
   ],
   "note": ""
  },
  {
   "property": "C65",
   "status": "proved",
   "theorems": [
    "C65_not_lapsing"
   ],
   "note": "For accepted commands and fixed faces, with the ten second grace."
  },
  {
   "property": "C66",
   "status": "proved",
   "theorems": [
    "C66_fetched",
    "C66_ignored",
    "C66_outdated"
   ],
   "note": "For every run, network name without the marker components, and numbers below 2^64: C66_fetched, C66_ignored, C66_outdated."
  },
  {
   "property": "C67",
   "status": "partial",
   "theorems": [
    "C67_neighbours",
    "C67_prefixes",
    "C67_cost_refuted"
   ],
   "note": "Proved in full except for one clause: the cost -12345 is accepted (refuted)."
  },
  {
   "property": "C68",
   "status": "partial",
   "theorems": [
    "C68_partial",
    "C68_refuted"
   ],
   "note": "Proved for files with one general section; a repeated general section appends to the prefixes (refuted)."
  },
  {
   "property": "C69",
   "status": "partial",
   "theorems": [
    "C69_partial",
    "C69_refuted"
   ],
   "note": "Proved if no key locator of the chain fits two certificates of the cache; refuted otherwise (another certificate for the same key that sorts first is published)."
  },
  {
   "property": "C70",
   "status": "proved",
   "theorems": [
    "C70_passed",
    "C70_status"
   ],
   "note": "Whole-router model M_Router. C70_passed: per event, all five hand-overs are exact; C70_status: a status change leaves a build (or calculation) scheduled. Found missing by the seeded edit of hello_out."
  },
  {
   "property": "C71",
   "status": "proved",
   "theorems": [
    "C71_one_timer",
    "C71_renewed",
    "C71_unchanged",
    "C71_stays"
   ],
   "note": "The lifetime of an LSA that has already expired on arrival is the refresh interval (finding of C06)."
  },
  {
   "property": "C72",
   "status": "proved",
   "theorems": [
    "C72_started",
    "C72_retried",
    "C72_resent",
    "C72_kept",
    "C72_until"
   ],
   "note": "The give-up rule itself (no attempt after the deadline or after a newer number) is C12."
  },
  {
   "property": "C73",
   "status": "proved",
   "theorems": [
    "C73_reported",
    "C73_start",
    "C73_fractional_refuted"
   ],
   "note": "The statement names the one exception: an Adjacency LSA whose link costs are not whole numbers is reported as updated even if repeated unchanged (C73_fractional_refuted, a consequence of finding 3)."
  },
  {
   "property": "C74",
   "status": "proved",
   "theorems": [
    "C74_outstanding",
    "C74_sent",
    "C74_resent",
    "C74_face_lost"
   ],
   "note": "face_lost assumes no second neighbour shares the face (finding 37 shows the other case)"
  },
  {
   "property": "C75",
   "status": "proved",
   "theorems": [
    "C75_general",
    "C75_neighbors",
    "C75_fib",
    "C75_hyperbolic",
    "C75_missing"
   ],
   "note": "An option whose text is not a number also takes the default, which the specification option_is says openly (finding 55)."
  },
  {
   "property": "C76",
   "status": "partial",
   "theorems": [
    "C76_certificates",
    "C76_refuted"
   ],
   "note": "Proved for certificates listed after both validators. Refuted otherwise: if the section has no prefix-update-validator, its cert-to-publish entries are silently ignored (finding 64)."
  },
  {
   "property": "C77",
   "status": "partial",
   "theorems": [
    "C77_own_partial",
    "C77_published",
    "C77_operator_refuted"
   ],
   "note": "Proved for certificates of the router, its NLSR process and its site and for all taken over from the validator. Refuted for the operator's certificate: the router listens under the literal text %C1.Operator (finding 51)."
  },
  {
   "property": "C78",
   "status": "partial",
   "theorems": [
    "C78_request",
    "C78_padded",
    "C78_only",
    "C78_rejected",
    "C78_status",
    "C78_effect_partial",
    "C78_saved_partial",
    "C78_disabled_refuted",
    "C78_cost_refuted"
   ],
   "note": "Proved: request, effect at the router, saved file, exit status. False: an answer of the Nack type ends with status 0 (C78_disabled_refuted, finding 65); costs that are not numbers are accepted, negative ones wrap (C78_cost_refuted, findings 26 and 66). The saved-file part inherits the conditions of C46."
  },
  {
   "property": "C79",
   "status": "proved",
   "theorems": [
    "C79_lsdb",
    "C79_failed",
    "C79_broken_refuted"
   ],
   "note": "C79_broken_refuted shows that a dataset cut inside an element, which no router serves, is shown with status 0 (finding 67)."
  },
  {
   "property": "C80",
   "status": "partial",
   "theorems": [
    "C80_routing_partial",
    "C80_status_partial",
    "C80_tables_refuted"
   ],
   "note": "Proved when every destination of the dry-run table is in the main table and hops are not hyperbolic (C43). False otherwise, and an empty table is shown where 'not calculated yet' is meant (C80_tables_refuted, finding 68)."
  },
  {
   "property": "C81",
   "status": "proved",
   "theorems": [
    "C81_current",
    "C81_dataset"
   ],
   "note": "Model M_Wire adds the m_wire cache to the LSDB model; cached and fresh encodings decode to the stored LSA, singly and in datasets. Hypotheses: the stored LSA is encodable and below 2^64 octets, received contents were decoded from the received octets, text forms of times and URIs are stable."
  },
  {
   "property": "C82",
   "status": "proved",
   "theorems": [
    "C82_single",
    "C82_multipath",
    "C82_gone",
    "C82_alone",
    "C82_nearest",
    "C82_nearest_multipath",
    "C82_prefix_cost_refuted"
   ],
   "note": "Over the composed router model. Hypotheses on received data: names in one Name LSA distinct (the decoder guarantees it), costs not negative, no neighbour listed twice in a stored Adjacency LSA (DESIGN findings cover the other cases). C82_nearest and C82_nearest_multipath: any number of advertising routers. That the costs given to the prefix choose between several routers is refuted (C82_prefix_cost_refuted)."
  },
  {
   "property": "C83",
   "status": "partial",
   "theorems": [
    "C83_sent",
    "C83_once",
    "C83_operator_refuted"
   ],
   "note": "C83_sent: exactly these strategy commands, in every run of a router that is up. C83_once: 2 + 4 commands per announced router when NFD refuses none. Missing: the operator's prefix is the literal %C1.Operator and not <0xC1>.Operator of the trust schema, C83_operator_refuted (finding 71)."
  },
  {
   "property": "C84",
   "status": "proved",
   "theorems": [
    "C84_start",
    "C84_general",
    "C84_neighbors",
    "C84_fib",
    "C84_hyperbolic",
    "C84_missing",
    "C84_neighbours",
    "C84_advertised"
   ],
   "note": "From command line and file to the running router, at every moment of every run. C84_advertised: no fetched LSA claims to be this router's (as C47). Tries of the face dataset are only known when there is a neighbors section (finding: m_faceDatasetFetchTries is not initialised)."
  },
  {
   "property": "C85",
   "status": "partial",
   "theorems": [
    "C85_only",
    "C85_config",
    "C85_copied",
    "C85_refused_partial",
    "C85_test_refuted",
    "C85_refused_refuted"
   ],
   "note": "Proved but for two cases that the code gets wrong: a configuration file that is itself state-dir/test.seq is deleted; a start refused by a section after general has already overwritten the saved file."
  },
  {
   "property": "C86",
   "status": "partial",
   "theorems": [
    "C86_restart_partial",
    "C86_command_partial",
    "C86_dot_refuted",
    "C86_root_refuted"
   ],
   "note": "Proved for files that list each prefix once, as its URI, and for saved prefixes whose URI has no dot and which are not '/'; for those two the saved file is refused at the next start. Reading back a URI and a decimal number are hypotheses, met by a concrete text form in the example."
  },
  {
   "property": "C87",
   "status": "proved",
   "theorems": [
    "C87_clock",
    "C87_pending",
    "C87_refresh",
    "C87_alive"
   ],
   "note": "The whole router. C87_alive: the neighbour keeps its face, no other neighbour has the same face, no registration fails; the route was registered while the face was there. The lifetime must fit the command's field (any configurable refresh time does)."
  },
  {
   "property": "C88",
   "status": "proved",
   "theorems": [
    "C88_faces",
    "C88_delivered",
    "C88_multipath_refuted"
   ],
   "note": "A network is a list of routers with their runs. Hypotheses: each router has calculated its routes from its LSAs, the routers hold the same Adjacency LSAs and agree on who advertises the prefix, link costs are positive, neighbours have different faces. C88_faces: every face of a FIB entry leads over a link. That it also holds with more than one face per prefix is refuted. C89 derives the agreement from the exchange of LSAs."
  },
  {
   "property": "C89",
   "status": "proved",
   "theorems": [
    "C89_topology",
    "C89_prefixes",
    "C89_faces",
    "C89_delivered"
   ],
   "note": "A network is a list of whole routers (M_Router); a schedule interleaves their events; a router receives only LSAs some router sent under that name, and sync reports only numbers some router announced. Hypotheses: every LSA sent can be encoded (C41) and lists no prefix at a negative cost; the prefix is not the name of a router or neighbour; costs of paths below the code's infinity. A concrete network of three routers and a schedule of about 70 events meet them."
  },
  {
   "property": "C90",
   "status": "partial",
   "theorems": [
    "C90_relayed",
    "C90_kept",
    "C90_answered",
    "C90_own_fresh",
    "C90_own_number",
    "C90_again_refuted",
    "C90_repeat_refuted"
   ],
   "note": "Proved but for the last two parts, which the code gets wrong: a repeated Interest for an uncached segment gets segment 0 (C90_repeat_refuted), and a segment validated again is dropped half an hour after the first time (C90_again_refuted). Ages hold when no callback is overdue."
  },
  {
   "property": "C91",
   "status": "proved",
   "theorems": [
    "C91_routes",
    "C91_live",
    "C91_relays",
    "C91_delivered"
   ],
   "note": "Routes of the forwarder computed from the registration commands the router sends and their replies. Ranges over prefixes that are not a neighbour's name, the sync prefix or the LSA prefix (those the hello protocol registers too). The forwarder's longest-prefix match and its strategy are not modelled: routes for exactly the prefix."
  },
  {
   "property": "C92",
   "status": "partial",
   "theorems": [
    "C92_lsa",
    "C92_hello",
    "C92_unforgeable",
    "C92_others",
    "C92_genuine",
    "C92_info_refuted",
    "C92_marks"
   ],
   "note": "Proved for router names that do not start with localhop and, for LSAs, networks without the components nlsr and LSA (as in C48). Missing: a router with a component INFO in its name is never accepted (C92_info_refuted, finding 79). What an accepted LSA says is a different matter: C13."
  },
  {
   "property": "C93",
   "status": "partial",
   "theorems": [
    "C93_command",
    "C93_below",
    "C93_unforgeable",
    "C93_genuine",
    "C93_published_refuted",
    "C93_minted_refuted"
   ],
   "note": "The last sentence is false of the code: a router that publishes the root certificate accepts operators of other sites (C93_published_refuted, finding 80), and anyone certified by the site can make a key below their own name an operator key (C93_minted_refuted, finding 81). The rest is proved."
  },
  {
   "property": "C94",
   "status": "partial",
   "theorems": [
    "C94_signed",
    "C94_answers",
    "C94_retrieved",
    "C94_stored",
    "C94_insider_refuted",
    "C94_doubled_refuted"
   ],
   "note": "Proved while no router is compromised. Refuted for a compromised router, which can replace the LSAs of all others, and for packets with version and segment repeated, which nobody accepts."
  },
  {
   "property": "C95",
   "status": "proved",
   "theorems": [
    "C95_converges",
    "C95_stays",
    "C95_stable"
   ],
   "note": "From every possible schedule of a network of distinct running routers an exchange of at most 9 n^2 events leads to agreement (C95_converges); a stored current LSA survives any exchange (C95_stays), so agreement does (C95_stable). Reachability of agreement, not its inevitability: delivery is up to the schedule."
  },
  {
   "property": "C96",
   "status": "proved",
   "theorems": [
    "C96_registered",
    "C96_created",
    "C96_dataset",
    "C96_up"
   ],
   "note": "Every registration is one of these, at the link's cost rounded up, and has one of these causes (C96_registered); each cause has its registrations: a new face (C96_created, if no other neighbour has the same URI), a dataset (C96_dataset), a neighbour that comes up (C96_up)."
  },
  {
   "property": "C97",
   "status": "proved",
   "theorems": [
    "C97_own",
    "C97_faces",
    "C97_network",
    "C97_hands"
   ],
   "note": "C97_own: in runs of the whole router, with no build scheduled, a neighbour is ACTIVE iff a stored own Adjacency LSA lists it; nothing is assumed about the schedule except that no LSA under the router's name is retrieved from others. C97_faces: with no build and no calculation pending and no Adjacency LSA removed since the last calculation (calm, as in C30) the FIB's faces for a prefix of other routers (however many advertise it) are faces of neighbours that are up. C97_network: in a network of whole routers (M_Network) the proviso about forged LSAs is discharged, and the links that the routers report are exactly those to neighbours they have as ACTIVE. C97_hands: once LSAs are exchanged and routes calculated (the hypotheses of C89), a router hands packets only to a neighbour that it has as ACTIVE and that has it as ACTIVE."
  },
  {
   "property": "C98",
   "status": "proved",
   "theorems": [
    "C98_name",
    "C98_coord",
    "C98_adj"
   ],
   "note": "In runs of the whole router: C98_name (a Name LSA, always, no condition), C98_coord (a Coordinate LSA with the configured values exactly in the two modes that use it), C98_adj (no Adjacency LSA with hyperbolic routing; with the other modes C97 says what it lists)."
  }
 ]
}
