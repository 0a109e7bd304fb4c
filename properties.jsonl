{"id": "C01", "title": "At most one LSA per (origin router, type)", "statement": "Whatever sequence of sync updates, fetched LSAs, own rebuilds, refreshes, expirations and interests the router processes, the LSDB never holds two LSAs with the same origin router and type; a lookup therefore has at most one answer.", "quantifier": "all histories of LSDB events of any length, all routers, types, sequence numbers and clock values", "why_tests_cant": "Tests replay a handful of fixed histories; the claim is an invariant of every interleaving of timers, fetches and local rebuilds.", "anchors": ["src/lsdb.hpp: LsaContainer, findLsa", "src/lsdb.cpp: Lsdb::installLsa, Lsdb::removeLsa, Lsdb::expireOrRefreshLsa"]}
{"id": "C02", "title": "Stale LSAs never overwrite fresh ones", "statement": "An LSA offered for installation whose sequence number is not larger than the stored one leaves the LSDB, its timers and its subscribers untouched; while an LSA of a given origin and type stays in the LSDB its sequence number never decreases.", "quantifier": "all LSDB states reachable by any event history, all offered LSAs", "why_tests_cant": "Needs every ordering of duplicated, delayed and reordered LSA deliveries.", "anchors": ["src/lsdb.cpp: Lsdb::installLsa", "src/lsdb.hpp: Lsdb::isLsaNew"]}
{"id": "C03", "title": "Change notifications reconstruct the advertised names", "statement": "A subscriber that starts from the empty table and applies every LSDB notification (INSTALLED adds the LSA's names, UPDATED adds namesToAdd and removes namesToRemove, REMOVED drops the LSA's names) always holds exactly the set of name prefixes that each router's stored Name LSA advertises.", "quantifier": "all event histories, all routers, all name prefixes", "why_tests_cant": "The Name Prefix Table only sees the notifications; divergence shows up only after particular long histories of updates.", "anchors": ["src/lsdb.cpp: Lsdb::installLsa, Lsdb::removeLsa", "src/lsa/name-lsa.cpp: NameLsa::update"]}
{"id": "C04", "title": "Name LSA updates propagate costs", "statement": "After a newer Name LSA of a router is installed, the LSDB reports for every prefix the cost carried by that newer LSA and subscribers are told about every prefix whose cost changed.", "quantifier": "all pairs of old and new Name LSAs", "why_tests_cant": "Only histories in which the name set is unchanged but a cost differs expose the difference.", "anchors": ["src/lsa/name-lsa.cpp: NameLsa::update", "src/lsdb.cpp: Lsdb::installLsa"]}
{"id": "C05", "title": "Own LSAs are refreshed, foreign LSAs expire", "statement": "When the lifetime timer of a stored LSA fires, an LSA of this router stays in the LSDB with a strictly larger sequence number which is persisted and announced through sync and a new timer is armed; an LSA of another router that has not been refreshed is removed and a removal notification is sent. No own LSA is ever removed because of a timer.", "quantifier": "all reachable LSDB states, all timers, all clock values", "why_tests_cant": "Requires every interleaving of refresh, re-install and expiry over unbounded time.", "anchors": ["src/lsdb.cpp: Lsdb::scheduleLsaExpiration, Lsdb::expireOrRefreshLsa, Lsdb::installLsa"]}
{"id": "C06", "title": "Every stored LSA has a pending lifetime timer", "statement": "In every reachable state each LSA stored in the LSDB has a pending lifetime timer that will examine that very LSA, so no foreign LSA can stay in the LSDB forever without being refreshed.", "quantifier": "all event histories", "why_tests_cant": "A leak appears only for particular interleavings of removal, re-install and refresh.", "anchors": ["src/lsdb.cpp: Lsdb::installLsa, Lsdb::scheduleLsaExpiration, Lsdb::expireOrRefreshLsa, Lsdb::buildAdjLsa", "src/lsa/lsa.hpp: setExpiringEventId"]}
{"id": "C07", "title": "A foreign LSA never outlives its own expiration time by more than the grace period", "statement": "When a foreign LSA is accepted, the timer that will delete it fires no later than its advertised expiration time plus the 10 s grace period.", "quantifier": "all LSAs, all clock values at reception", "why_tests_cant": "Depends on every relation between the sender's expiration stamp and the receiver's clock, including stamps already in the past.", "anchors": ["src/lsdb.cpp: Lsdb::installLsa, Lsdb::scheduleLsaExpiration", "src/lsdb.hpp: GRACE_PERIOD"]}
{"id": "C08", "title": "Announced sequence numbers of own LSAs strictly increase", "statement": "During one run, the sequence numbers that this router announces through sync for one of its LSA types form a strictly increasing sequence, and each announced number is persisted in the state file before it is announced.", "quantifier": "all event histories of one run, all LSA types", "why_tests_cant": "Needs all interleavings of rebuild, refresh timer and sync-driven recovery.", "anchors": ["src/lsdb.cpp: buildAndInstallOwnNameLsa, buildAndInstallOwnAdjLsa, buildAndInstallOwnCoordinateLsa, expireOrRefreshLsa, processUpdateFromSync", "src/sequencing-manager.cpp"]}
{"id": "C09", "title": "Sequence numbers survive a crash", "statement": "If the router crashes at any point (including between the steps of writing the state file) and restarts with the same configuration, every sequence number it announces afterwards for an LSA type it publishes is larger than every number it announced for that type before the crash.", "quantifier": "all histories, all crash points, every hyperbolic mode, every LSA type published in that mode", "why_tests_cant": "Crash points between file operations cannot be enumerated by tests; the state file is rewritten many times.", "anchors": ["src/sequencing-manager.cpp: SequencingManager::writeSeqNoToFile, SequencingManager::initiateSeqNoFromFile", "src/lsdb.cpp: Lsdb::Lsdb"]}
{"id": "C10", "title": "Recovery from a lost or corrupted sequence file", "statement": "When sync reports a larger sequence number for one of this router's own published LSAs than the one stored, the router re-publishes that LSA with a number strictly larger than the reported one and never tries to fetch its own LSA.", "quantifier": "all states, all reported sequence numbers, every hyperbolic mode", "why_tests_cant": "Depends on the mode, on the type and on the (arbitrary) number other routers remember.", "anchors": ["src/lsdb.cpp: Lsdb::processUpdateFromSync"]}
{"id": "C11", "title": "LSA Interests are answered only with the exact LSA requested", "statement": "The router answers an Interest for one of its LSAs from its LSDB only if the named type exists in its LSDB with exactly the requested sequence number; a request for any other number, type or router is not answered from the LSDB and no Interest changes the LSDB.", "quantifier": "all Interests, all LSDB states", "why_tests_cant": "Unbounded space of names and LSDB contents.", "anchors": ["src/lsdb.cpp: Lsdb::processInterest, Lsdb::processInterestForLsa"]}
{"id": "C12", "title": "LSA fetching never goes back and always stops", "statement": "For every LSA name the sequence numbers for which fetches are started never decrease; a failed fetch is retried only while its deadline has not passed and no newer number is known; the router never fetches its own LSAs; a fetched LSA older than the newest known number is dropped.", "quantifier": "all histories of sync updates, fetch completions, fetch errors and clock advances", "why_tests_cant": "Requires all orders of concurrently outstanding fetches and errors.", "anchors": ["src/lsdb.cpp: Lsdb::expressInterest, Lsdb::onFetchLsaError, Lsdb::afterFetchLsa, Lsdb::processUpdateFromSync"]}
{"id": "C13", "title": "An installed LSA matches the name it was fetched under", "statement": "An LSA installed as the result of a fetch has the origin router, type and sequence number that appear in the fetched name.", "quantifier": "all fetched names and all contents", "why_tests_cant": "The content is attacker- or bug-controlled; tests only use matching content.", "anchors": ["src/lsdb.cpp: Lsdb::afterFetchLsa, Lsdb::installLsa"]}
{"id": "C14", "title": "Adjacency LSA builds are not lost", "statement": "After any neighbour status change (with link-state routing enabled) a build of the Adjacency LSA is pending until one build completes; when the last pending build completes, the own Adjacency LSA in the LSDB lists exactly the neighbours that were ACTIVE at that moment, or is absent if there was none.", "quantifier": "all histories of neighbour events, build timers and retries", "why_tests_cant": "Interleavings of hello events with delayed and postponed builds are unbounded.", "anchors": ["src/lsdb.cpp: Lsdb::scheduleAdjLsaBuild, Lsdb::buildAdjLsa, Lsdb::buildAndInstallOwnAdjLsa", "src/adjacency-list.cpp: AdjacencyList::isAdjLsaBuildable", "src/lsa/adj-lsa.cpp: AdjLsa::AdjLsa"]}
{"id": "C15", "title": "An Adjacency LSA is only built when all neighbours' states are known", "statement": "The Adjacency LSA is built only when the status of every neighbour is known, i.e. each neighbour is ACTIVE or has used up its hello retries.", "quantifier": "all adjacency lists, all retry limits", "why_tests_cant": "All combinations of statuses and timeout counters.", "anchors": ["src/adjacency-list.cpp: AdjacencyList::isAdjLsaBuildable", "src/lsdb.hpp: Lsdb::buildAdjLsa documentation"]}
{"id": "C16", "title": "Adjacency list: one entry per neighbour, operations are local", "statement": "The adjacency list never holds two entries with the same neighbour name; every status, timeout-counter or face update changes exactly the entry of the named neighbour and nothing else, and is a no-op for unknown names.", "quantifier": "all sequences of list operations, all names", "why_tests_cant": "Invariant over arbitrary operation sequences.", "anchors": ["src/adjacency-list.cpp"]}
{"id": "C17", "title": "A neighbour goes down only after the configured number of consecutive losses", "statement": "A neighbour recorded ACTIVE becomes INACTIVE only if at least hello-retries hello timeouts for it were processed since its last validated hello reply, or its face was destroyed; a validated hello reply always makes it ACTIVE and clears its timeout count.", "quantifier": "all interleavings of hello timeouts, nacks, replies and face events of any length, all neighbours, all retry limits", "why_tests_cant": "Requires all event interleavings for several neighbours.", "anchors": ["src/hello-protocol.cpp: processInterestTimedOut, onContentValidated", "src/nlsr.cpp: Nlsr::onFaceEventNotification", "src/adjacency-list.cpp"]}
{"id": "C18", "title": "Packets from unknown routers have no effect", "statement": "A hello Interest, hello reply or timeout that names a router which is not a configured neighbour changes no neighbour's status or counter, schedules nothing and gets no reply.", "quantifier": "all states, all names that are not configured neighbours", "why_tests_cant": "Unbounded set of names and states.", "anchors": ["src/hello-protocol.cpp: processInterest, onContentValidated, processInterestTimedOut, sendHelloInterest"]}
{"id": "C19", "title": "Every neighbour status change triggers route recomputation", "statement": "Whenever an event changes a neighbour's status between ACTIVE and not ACTIVE, the router schedules an Adjacency LSA build (link-state, dry-run) or a routing table calculation (hyperbolic), and it does so only then.", "quantifier": "all hello and face events in all states", "why_tests_cant": "All transitions of the neighbour state machine in all modes.", "anchors": ["src/hello-protocol.cpp: processInterestTimedOut, onContentValidated", "src/nlsr.cpp: onFaceEventNotification"]}
{"id": "C20", "title": "One hello loop per neighbour", "statement": "At any time at most one periodic hello transmission is pending per neighbour.", "quantifier": "all histories of prefix registrations and hello timers", "why_tests_cant": "Needs long histories with repeated face creation and registration.", "anchors": ["src/hello-protocol.cpp: sendHelloInterest", "src/nlsr.cpp: registerAdjacencyPrefixes, processFaceDataset"]}
{"id": "C21", "title": "Router numbering is a bijection", "statement": "Every router that originates or is listed in an Adjacency LSA gets exactly one number, the numbers are exactly 0..n-1, and looking a number up and back returns the same router.", "quantifier": "all LSDB contents", "why_tests_cant": "All LSDB contents.", "anchors": ["src/route/name-map.cpp", "src/route/name-map.hpp: createFromAdjLsdb, createFromCoordinateLsdb"]}
{"id": "C22", "title": "The link matrix used for routing is symmetric and conservative", "statement": "The cost used for the link between two routers is the same in both directions; it is usable only if both routers advertise it with non-negative cost, and then it is the larger of the two advertised costs.", "quantifier": "all sets of Adjacency LSAs", "why_tests_cant": "All LSDB contents with one-sided, asymmetric and negative costs.", "anchors": ["src/route/routing-calculator-link-state.cpp: makeAdjMatrix"]}
{"id": "C23", "title": "Computed distances are shortest-path distances", "statement": "For every router the distance computed by the link-state calculation equals the minimum total cost over all paths in the link matrix from this router, whenever that minimum is below the implementation's infinity constant, and routers without such a path are treated as unreachable.", "quantifier": "all link matrices of any size with any non-negative costs, all source routers", "why_tests_cant": "Correctness of Dijkstra's algorithm over all graphs is an inductive fact.", "anchors": ["src/route/routing-calculator-link-state.cpp: calculateDijkstraPath, sortQueueByDistance, isNotExplored"]}
{"id": "C24", "title": "The chosen next hop starts a shortest path", "statement": "In single-path mode the next hop recorded for a destination is a direct neighbour of this router in the link matrix and lies on a path to the destination whose total cost is the recorded route cost, which is minimal; the walk over the parent table always terminates.", "quantifier": "all link matrices, sources and destinations", "why_tests_cant": "Termination and correctness of the parent walk over all graphs.", "anchors": ["src/route/routing-calculator-link-state.cpp: DijkstraResult::getNextHop, calculateDijkstraPath, addNextHopsToRoutingTable"]}
{"id": "C25", "title": "Multipath: each neighbour's route cost is the best path through that neighbour", "statement": "In multi-path mode, for every destination and every usable neighbour link the recorded route cost is the cost of the link plus the shortest path from that neighbour to the destination that does not come back through this router; a next hop is recorded exactly for the neighbours that can reach the destination that way.", "quantifier": "all link matrices, sources, neighbours and destinations", "why_tests_cant": "Requires all graphs.", "anchors": ["src/route/routing-calculator-link-state.cpp: gatherLinks, simulateOneNeighbor, calculateLinkStateRoutingPath"]}
{"id": "C26", "title": "No forwarding loops in a converged single-path network", "statement": "If all routers hold the same link matrix with positive costs and each computes its next hops independently, following the recorded next hops from any router towards any reachable destination reaches the destination and never visits a router twice.", "quantifier": "all link matrices with positive link costs, all pairs of routers, all tie-breaking orders", "why_tests_cant": "A property of n independent computations over all topologies.", "anchors": ["src/route/routing-calculator-link-state.cpp"]}
{"id": "C27", "title": "Routes only use configured faces of neighbours", "statement": "Every next hop put in the routing table by the link-state calculation uses the face URI of a configured neighbour of this router.", "quantifier": "all LSDB contents, all adjacency lists", "why_tests_cant": "LSDB contents and the adjacency list evolve independently.", "anchors": ["src/route/routing-calculator-link-state.cpp: addNextHopsToRoutingTable", "src/adjacency-list.cpp: getAdjacent"]}
{"id": "C28", "title": "Next hop lists: one hop per face, cheapest cost wins", "statement": "After any sequence of additions a next-hop list holds exactly one hop per face URI that was added, with the smallest cost added for that face, and iterates in order of increasing installed cost.", "quantifier": "all sequences of additions", "why_tests_cant": "All insertion orders and cost patterns.", "anchors": ["src/route/nexthop-list.hpp", "src/route/nexthop.hpp"]}
{"id": "C29", "title": "Hyperbolic routes", "statement": "With hyperbolic routing every next hop recorded for a destination belongs to an ACTIVE-or-configured neighbour different from the destination's own origin, and carries the hyperbolic distance between that neighbour and the destination (0 if the neighbour is the destination); routers with unknown or malformed coordinates get no next hop.", "quantifier": "all coordinate LSDBs, all adjacency lists", "why_tests_cant": "All LSDB contents.", "anchors": ["src/route/routing-calculator-hyperbolic.cpp"]}
{"id": "C30", "title": "At most one routing calculation is pending and none is lost", "statement": "At any time at most one routing-table calculation is scheduled, and every LSDB change that can alter routes is followed by a calculation that sees it.", "quantifier": "all histories of LSDB notifications and timer firings", "why_tests_cant": "All interleavings of notifications, timers and pending Adjacency LSA builds.", "anchors": ["src/route/routing-table.cpp: scheduleRoutingTableCalculation, calculate, calculateLsRoutingTable, constructor"]}
{"id": "C31", "title": "Name prefix table mirrors the LSDB", "statement": "After any history of LSDB notifications the name prefix table holds an entry for a prefix exactly when some router's stored LSAs advertise it, and the entry references exactly the routers that advertise it.", "quantifier": "all histories of LSDB notifications produced by an LSDB", "why_tests_cant": "Unbounded histories with several routers advertising the same prefix.", "anchors": ["src/route/name-prefix-table.cpp: updateFromLsdb, addEntry, removeEntry", "src/route/name-prefix-table-entry.cpp"]}
{"id": "C32", "title": "Route pool reference counts are exact", "statement": "The pool of shared per-router routes contains a router exactly when at least one table entry references it, its use count equals the number of such entries, and no entry refers to a deleted route.", "quantifier": "all histories of additions, removals and routing-table updates", "why_tests_cant": "Reference-count leaks and dangling references depend on long histories.", "anchors": ["src/route/name-prefix-table.cpp: addRtpeToPool, deleteRtpeFromPool, addEntry, removeEntry, updateWithNewRoute", "src/route/routing-table-pool-entry.hpp"]}
{"id": "C33", "title": "Name prefix table operations have no undefined behaviour", "statement": "No history of LSDB notifications and routing-table updates makes the name prefix table erase a past-the-end iterator or dereference a null or expired pointer.", "quantifier": "all histories of notifications and routing updates", "why_tests_cant": "UB depends on particular histories.", "anchors": ["src/route/name-prefix-table.cpp", "src/route/name-prefix-table-entry.cpp"]}
{"id": "C34", "title": "FIB holds the cheapest next hops up to the configured limit", "statement": "After a FIB update for a prefix the next hops kept for that prefix are the cheapest ones offered, at most max-faces-per-prefix many (all of them if the limit is 0).", "quantifier": "all next hop lists, all previous FIB entries, all limits", "why_tests_cant": "All combinations of old entry, new list and limit.", "anchors": ["src/route/fib.cpp: Fib::update, addNextHopsToFibEntryAndNfd, getNumberOfFacesForName"]}
{"id": "C35", "title": "FIB and forwarder agree", "statement": "Replaying the register and unregister commands sent to the forwarder yields, for every prefix, exactly the faces recorded in the router's FIB entry (for faces that exist), after any history of updates and removals.", "quantifier": "all histories of FIB updates and removals", "why_tests_cant": "Stale forwarder routes appear only after specific histories.", "anchors": ["src/route/fib.cpp: update, remove, registerPrefix, unregisterPrefix, addNextHopsToFibEntryAndNfd"]}
{"id": "C36", "title": "Installed route cost equals the best advertised cost", "statement": "The cost installed for a face and prefix is the minimum, over the routers advertising the prefix, of the route cost to that router through that face plus the router's advertised prefix cost.", "quantifier": "all sets of advertising routers, routes and prefix costs, all histories", "why_tests_cant": "Depends on the order in which routers advertise and withdraw.", "anchors": ["src/route/name-prefix-table.cpp: adjustNexthopCosts, addEntry, removeEntry, updateWithNewRoute", "src/route/name-prefix-table-entry.cpp: generateNhl"]}
{"id": "C37", "title": "Neighbour prefixes are never managed by the FIB", "statement": "FIB updates and removals never register or unregister a prefix that is the name of a configured neighbour.", "quantifier": "all histories, all prefixes", "why_tests_cant": "All histories.", "anchors": ["src/route/fib.cpp: isNotNeighbor, addNextHopsToFibEntryAndNfd, remove, update, refreshEntry"]}
{"id": "C38", "title": "Registration retries are bounded", "statement": "A failing prefix registration or strategy command is retried a bounded number of times and then given up, whatever the pattern of failures.", "quantifier": "all patterns of successes and failures", "why_tests_cant": "All failure patterns.", "anchors": ["src/route/fib.cpp: registerPrefix, onRegistrationFailure, setStrategy, onSetStrategyFailure"]}
{"id": "C39", "title": "FIB refresh keeps the forwarder's routes as last computed", "statement": "A periodic refresh of a FIB entry re-registers exactly the faces and costs of the entry's latest update, with the latest route flags.", "quantifier": "all histories of updates and refresh timers", "why_tests_cant": "Histories in which the cost of a kept face increases.", "anchors": ["src/route/fib.cpp: scheduleEntryRefresh, scheduleLoop, refreshEntry, update"]}
{"id": "C40", "title": "Routing table to FIB pipeline", "statement": "For a prefix advertised by one router only, after the routing table changes the FIB entry for the prefix holds the max-faces cheapest next hops of that router's routing table entry; if the router became unreachable the prefix is removed from the FIB.", "quantifier": "all routing tables, all prior states", "why_tests_cant": "All states of table, pool and FIB.", "anchors": ["src/route/name-prefix-table.cpp: updateWithNewRoute", "src/route/fib.cpp: update, remove"]}
{"id": "C41", "title": "LSA encoding round-trips", "statement": "Encoding any Name, Adjacency or Coordinate LSA to TLV and decoding it gives back the same origin, sequence number, expiration time and content.", "quantifier": "all LSAs (any number of prefixes, neighbours, angles; any 64-bit sequence number)", "why_tests_cant": "Unbounded sizes cross every TLV length-form boundary.", "anchors": ["src/lsa/lsa.cpp", "src/lsa/name-lsa.cpp", "src/lsa/adj-lsa.cpp", "src/lsa/coordinate-lsa.cpp", "src/adjacent.cpp", "src/name-prefix-list.cpp"]}
{"id": "C42", "title": "LSA decoding is total and faithful", "statement": "Decoding an arbitrary byte string either reports an error or yields an LSA; two different LSAs never have the same encoding.", "quantifier": "all byte strings, all pairs of LSAs", "why_tests_cant": "All byte strings.", "anchors": ["src/lsa/*.cpp: wireDecode"]}
{"id": "C43", "title": "Routing table dataset round-trips", "statement": "Decoding the routing-table dataset published by the router gives back the same main table and dry-run table.", "quantifier": "all pairs of routing tables", "why_tests_cant": "Only tables with entries that exist in one of the two tables show the difference.", "anchors": ["src/route/routing-table.cpp: RoutingTableStatus::wireEncode, wireDecode", "src/route/routing-table-entry.cpp", "src/route/nexthop.cpp"]}
{"id": "C44", "title": "Advertised prefixes are tracked per source", "statement": "A prefix is advertised exactly while at least one source (configuration, command, read-advertise of a face) has advertised it and not withdrawn it; withdrawing for one source never cancels another source's advertisement.", "quantifier": "all sequences of advertise and withdraw operations over all sources and prefixes", "why_tests_cant": "All operation interleavings.", "anchors": ["src/name-prefix-list.cpp: insert, erase"]}
{"id": "C45", "title": "Prefix commands: response and effect agree", "statement": "An advertise or withdraw command answers success exactly when it changed the prefix list, and exactly then a new own Name LSA listing the current prefixes is announced.", "quantifier": "all commands, all prior states", "why_tests_cant": "All states and command sequences.", "anchors": ["src/update/command-processor.cpp: advertiseAndInsertPrefix, withdrawAndRemovePrefix"]}
{"id": "C46", "title": "Saved prefixes persist and can be deleted", "statement": "After a successful advertise with save the prefix is present in the saved configuration exactly once; after a successful withdraw with delete it is absent.", "quantifier": "all sequences of save and delete commands, all prefixes and costs", "why_tests_cant": "All command sequences.", "anchors": ["src/update/prefix-update-processor.cpp: addOrDeletePrefix, checkForPrefixInFile, afterAdvertise, afterWithdraw"]}
{"id": "C47", "title": "The announced Name LSA lists exactly the advertised prefixes", "statement": "Each own Name LSA lists exactly the prefixes (with their costs) advertised at the moment it was built.", "quantifier": "all prefix lists", "why_tests_cant": "All operation sequences.", "anchors": ["src/name-prefix-list.cpp: getPrefixInfo", "src/lsa/name-lsa.cpp", "src/lsdb.cpp: buildAndInstallOwnNameLsa"]}
{"id": "C48", "title": "Sync names identify the LSA", "statement": "The router and LSA type recovered from a sync update name are those of the announcing router and LSA, for every network, site and router name; so is the router recovered from an LSA Interest name.", "quantifier": "all network, site and router names", "why_tests_cant": "Names may contain the marker components themselves.", "anchors": ["src/communication/sync-logic-handler.cpp: processUpdate", "src/communication/sync-logic-handler.hpp: makeLsaUserPrefix", "src/utility/name-helper.hpp", "src/lsdb.cpp: processInterest, afterFetchLsa"]}
{"id": "C49", "title": "Accepted configurations respect the documented ranges", "statement": "If a configuration file is accepted, every numeric parameter is inside its documented range, the router-dead interval exceeds the refresh interval, and network, site and router names are non-empty.", "quantifier": "all configuration files", "why_tests_cant": "All combinations of present, absent and out-of-range values.", "anchors": ["src/conf-file-processor.cpp", "src/conf-parameter.hpp"]}
{"id": "C50", "title": "Hyperbolic configuration requires coordinates", "statement": "A configuration that turns hyperbolic routing on or to dry-run without giving radius and angles is rejected.", "quantifier": "all configuration files, all spellings accepted for the state", "why_tests_cant": "All spellings of the state keyword.", "anchors": ["src/conf-file-processor.cpp: processConfSectionHyperbolic"]}
{"id": "C51", "title": "Certificate store lookups", "statement": "A lookup by key name returns the last certificate inserted for that key; a lookup by certificate name returns a certificate only if it has exactly that name.", "quantifier": "all insertion histories and lookups", "why_tests_cant": "All histories.", "anchors": ["src/security/certificate-store.cpp: insert, find, findByKeyName, findByCertName"]}
{"id": "C52", "title": "Certificate chain publication terminates and publishes the chain", "statement": "Publishing a certificate from the validator's cache stores every certificate reached by following key locators through the cache and terminates.", "quantifier": "all cache contents", "why_tests_cant": "Key-locator graphs of any shape, including cycles.", "anchors": ["src/security/certificate-store.cpp: publishCertFromCache"]}
{"id": "C53", "title": "Packet statistics count events", "statement": "Each statistics counter equals the number of corresponding events since the last reset.", "quantifier": "all event sequences", "why_tests_cant": "All sequences.", "anchors": ["src/statistics.cpp", "src/stats-collector.cpp"]}
{"id": "C54", "title": "Network-wide LSA authenticity and freshness", "statement": "In a network of routers that exchange LSAs over channels that lose, duplicate, delay and reorder messages, every LSA a router stores for another origin was produced by that origin with that sequence number and content, and is never newer than the origin's latest.", "quantifier": "any number of routers, all message schedules", "why_tests_cant": "All distributed schedules.", "anchors": ["src/lsdb.cpp", "src/communication/sync-logic-handler.cpp"]}
{"id": "C55", "title": "LSDBs converge", "statement": "If origins stop producing LSAs and every router has eventually fetched each origin's latest LSA, all routers' LSDBs agree on content, whatever the order of earlier messages.", "quantifier": "any number of routers, all message schedules", "why_tests_cant": "All distributed schedules.", "anchors": ["src/lsdb.cpp"]}
{"id": "C56", "title": "Adjacent comparison is a consistent ordering", "statement": "The comparison operators used to keep neighbour lists sorted and comparable are a strict weak ordering and an equivalence, as sorted containers and list comparison require.", "quantifier": "all pairs and triples of neighbours with any costs", "why_tests_cant": "All cost values including non-integral ones.", "anchors": ["src/adjacent.cpp: operator==, operator<", "src/adjacent.hpp: getLinkCost"]}
{"id": "C57", "title": "Face events keep neighbour faces in step with the forwarder", "statement": "After any history of face-created, face-destroyed and dataset events, a neighbour's face id is the id of the latest live face with its URI, or none if that face was destroyed; face events for other URIs or ids change nothing.", "quantifier": "all histories of face events", "why_tests_cant": "All event interleavings.", "anchors": ["src/nlsr.cpp: onFaceEventNotification, processFaceDataset, registerAdjacencyPrefixes"]}
{"id": "C58", "title": "Face dataset fetch retries are bounded", "statement": "Fetching the face dataset is retried at most the configured number of times.", "quantifier": "all failure patterns", "why_tests_cant": "All failure patterns.", "anchors": ["src/nlsr.cpp: onFaceDatasetFetchTimeout"]}
{"id": "C59", "title": "No received packet terminates the router", "statement": "Whatever Interests, sync reports, fetched contents and fetch failures arrive in whatever order, the LSDB never throws out of the event loop and never performs undefined behaviour.", "quantifier": "all reachable LSDB states and all next events", "why_tests_cant": "One malformed packet in one state out of unboundedly many is enough to stop the daemon.", "anchors": ["src/lsdb.cpp: processInterest, processInterestForLsa, processUpdateFromSync, afterFetchLsa", "src/main.cpp"]}
{"id": "C60", "title": "Multi-segment LSAs can be fetched segment by segment", "statement": "After the router answered an Interest for one of its LSAs, an Interest for each segment of that answer is answered with exactly that segment under exactly the requested name.", "quantifier": "all LSAs, segment counts and segment numbers", "why_tests_cant": "Depends on the segment count against the cache limit and on all earlier contents of the cache.", "anchors": ["src/lsdb.cpp: processInterest, processInterestForLsa, m_segmentFifo"]}
{"id": "C61", "title": "A neighbour change is advertised within bounded time", "statement": "Some bounded time after a change of the neighbour list was reported, the router's Adjacency LSA has been rebuilt, whatever else happens in between.", "quantifier": "all histories of build requests and clock ticks", "why_tests_cant": "Unbounded histories of further requests.", "anchors": ["src/lsdb.cpp: scheduleAdjLsaBuild, buildAdjLsa"]}
{"id": "C62", "title": "Status datasets report the LSDB", "statement": "A client that decodes the LSDB status dataset of one LSA type gets exactly the LSAs of that type in the LSDB, each once.", "quantifier": "all LSDB contents", "why_tests_cant": "Contents are unbounded lists of arbitrary LSAs.", "anchors": ["src/publisher/dataset-interest-handler.cpp: publishLsaStatus", "tools/nlsrc.cpp: onFetchSuccess"]}
{"id": "C63", "title": "No received hello packet terminates the router", "statement": "Whatever hello Interests, replies, Nacks and face notifications arrive, the router keeps running.", "quantifier": "all histories of hello and face events, all packet contents", "why_tests_cant": "Every octet string in the last name component must be considered.", "anchors": ["src/hello-protocol.cpp: processInterest", "src/main.cpp"]}
{"id": "C64", "title": "The hello handshake identifies both ends", "statement": "The hello Interest a router sends to a neighbour is answered by that neighbour exactly if the sender is one of its own configured neighbours, and the answer marks exactly that neighbour ACTIVE at the sender.", "quantifier": "all router names, all states of the two routers", "why_tests_cant": "All pairs of names (including names containing each other) and states.", "anchors": ["src/hello-protocol.cpp: sendHelloInterest, processInterest, onContentValidated"]}
{"id": "C65", "title": "Installed routes do not lapse", "statement": "While commands are accepted and faces stay, every route of the FIB expires at the forwarder no earlier than ten seconds after the refresh that renews it is due, and such a refresh is always pending.", "quantifier": "all histories of updates, removals, refreshes and clock advances", "why_tests_cant": "The interplay of update times, refresh timers and route lifetimes over unbounded histories.", "anchors": ["src/route/fib.cpp: update, scheduleEntryRefresh, refreshEntry, registerPrefix", "src/route/fib.hpp: GRACE_PERIOD"]}
{"id": "C66", "title": "Sync updates are acted on exactly when news", "statement": "When sync reports that another router announced number q > 0 for an LSA of a type the routing mode uses, and the database holds no LSA of that router and type with number q or higher, and no higher number was ever asked for, then exactly one Interest for exactly that LSA is sent. When the type is not in use, or the database already holds that number or a higher one, the report has no effect. When a higher number was asked for before, nothing is fetched.", "quantifier": "all configurations, histories, names and numbers", "why_tests_cant": "An omission shows only for the type, mode and history in which the update arrives.", "anchors": ["src/lsdb.cpp: processUpdateFromSync, isLsaNew, expressInterest", "src/communication/sync-logic-handler.cpp: processUpdate"]}
{"id": "C67", "title": "Configured neighbours and prefixes are taken over exactly", "statement": "After a configuration file is accepted, the router's neighbours are exactly the declared ones with a non-empty name (the first declaration of a name counts), each with the declared face URI and the declared or default cost, initially INACTIVE and without a face, and no cost is negative; the advertised prefixes are exactly the listed ones with the last listed cost.", "quantifier": "every configuration file, every text-to-value conversion", "why_tests_cant": "the number, order and repetition of entries are unbounded", "anchors": ["src/conf-file-processor.cpp processConfSectionNeighbors", "src/conf-file-processor.cpp processConfSectionAdvertising", "src/adjacent.cpp setLinkCost", "src/adjacency-list.cpp insert"]}
{"id": "C68", "title": "The configured network determines the prefixes routers share", "statement": "After a configuration file is accepted, the prefix under which LSAs are named and the sync prefix are determined by the configured network name (and the sync protocol), so all routers configured for one network agree on them.", "quantifier": "every configuration file", "why_tests_cant": "the file's sections may be repeated in any order", "anchors": ["src/conf-file-processor.cpp processConfSectionGeneral", "src/conf-parameter.cpp setNetwork"]}
{"id": "C69", "title": "Only validated certificates are published for others", "statement": "When a segment has been validated, the certificates that the router stores and serves on its behalf are exactly those of the chain the validator used.", "quantifier": "every content of the validator's cache, every chain", "why_tests_cant": "certificates for one key may be present in any number and order", "anchors": ["src/security/certificate-store.cpp publishCertFromCache", "src/security/certificate-store.cpp CertificateStore"]}
{"id": "C70", "title": "Modules act on each other's results", "statement": "While the process is up, every notification of the LSDB reaches the routing table and the name prefix table once and in order, every announced routing table reaches the name prefix table, every call of the name prefix table reaches the FIB, and every build, recalculation or registration requested by the hello protocol is carried out in the same event. In particular, after any event that changes whether a neighbour is ACTIVE, a build of the own Adjacency LSA is scheduled, or a routing table calculation when hyperbolic routing is on.", "quantifier": "every configuration, every history of events of a router, every next event", "why_tests_cant": "Tests check each signal connection once with one module faked; a lost or reordered hand-over after some particular history is not covered.", "anchors": ["src/nlsr.cpp: Nlsr::Nlsr, registerStrategyForCerts", "src/hello-protocol.cpp: onContentValidated, processInterestTimedOut", "src/route/name-prefix-table.cpp: NamePrefixTable", "src/route/routing-table.cpp: RoutingTable"]}
{"id": "C71", "title": "An LSA is kept exactly as long as its lifetime", "statement": "Whenever an LSA enters the database, as a new one or as a newer version of a stored one, its lifetime starts anew: an LSA of the router itself is refreshed after the refresh interval plus 10 s, an LSA of another router that has not yet expired is dropped after the whole seconds left until its expiration time plus 10 s. Each stored LSA has one such timer, nothing else moves it, and an LSA of another router stays until that timer fires or a newer version arrives.", "quantifier": "every configuration, every reachable state of the database, every event", "why_tests_cant": "A test sees the timer of one LSA in one scenario; that no update, refresh, fetch or other event leaves a second timer behind or moves one needs all histories.", "anchors": ["src/lsdb.cpp Lsdb::installLsa", "src/lsdb.cpp Lsdb::scheduleLsaExpiration", "src/lsdb.cpp Lsdb::expireOrRefreshLsa", "src/lsa/lsa.hpp Lsa::setExpiringEventId"]}
{"id": "C72", "title": "An LSA that sync announced is looked for until it is received, overtaken or given up after two hours", "statement": "When sync reports a newer number the LSA is fetched. If the fetch fails it is tried again, at once after a timeout and after the Interest lifetime after any other failure, for two hours, unless a newer number is asked for: until then a fetch is in progress or an attempt is scheduled at every moment.", "quantifier": "every configuration, every history of sync reports, failures, timers and other events", "why_tests_cant": "Tests fail a fetch once or twice; that no interleaving of failures, other fetches and timers loses the attempt needs all histories.", "anchors": ["src/lsdb.cpp Lsdb::expressInterest", "src/lsdb.cpp Lsdb::onFetchLsaError", "src/lsdb.hpp LSA_REFRESH_TIME_MAX"]}
{"id": "C73", "title": "Every change of the database is reported, and nothing else is", "statement": "Whenever the stored LSA of some router and type changes, subscribers get exactly one report about it: installed when there was none, removed when there is none any more, updated when its content changed, with exactly the prefixes that appeared and disappeared. A refresh or a newer version with the same content is not reported.", "quantifier": "every configuration, every reachable state, every event, every router and LSA type", "why_tests_cant": "A test compares one update; that no event reports a change that did not happen, or changes content silently, needs all histories.", "anchors": ["src/lsdb.cpp Lsdb::installLsa", "src/lsdb.cpp Lsdb::removeLsa", "src/lsa/name-lsa.cpp NameLsa::update", "src/lsa/adj-lsa.cpp AdjLsa::update", "src/lsdb.hpp onLsdbModified"]}
{"id": "C74", "title": "Hello Interests are sent, repeated and never forgotten; losing the face takes the neighbour down", "statement": "Whenever the scheduled hello to a neighbour runs, or the neighbour's prefix has been registered, and the neighbour's face is known, a hello Interest to it is sent. A hello Interest reported lost is sent again at once while the number of consecutive losses stays below the configured retries. Every hello Interest sent stays outstanding until it is answered, its answer is refused, or its loss is reported: no other event ends one and none is ended twice. When the forwarder reports that the face of an ACTIVE neighbour is gone, that neighbour is INACTIVE immediately, its face is forgotten, its retries count as used up, and a recomputation is requested.", "quantifier": "every configuration, every initial neighbour list and every history of hello-protocol events (answers, losses, nacks, timers, registrations, face events), every next event", "why_tests_cant": "Tests run one neighbour through a handful of events; the bookkeeping must balance after every interleaving of answers, losses, nacks and face events.", "anchors": ["src/hello-protocol.cpp HelloProtocol::sendHelloInterest, expressInterest, processInterestTimedOut, onContent", "src/nlsr.cpp Nlsr::onFaceEventNotification"]}
{"id": "C75", "title": "Options take the value given, or the documented default", "statement": "After a configuration file is accepted, every option of the general, neighbors, fib and hyperbolic sections has exactly the value the file gives; an option the file omits has the default documented in nlsr.conf (router-dead-interval: twice the refresh time), also when the whole section is missing.", "quantifier": "every property tree, every conversion of texts to numbers, names and URIs", "why_tests_cant": "There are dozens of options and every combination of given and omitted ones must work.", "anchors": ["src/conf-file-processor.cpp ConfFileProcessor::processConfSectionGeneral, processConfSectionNeighbors, processConfSectionFib, processConfSectionHyperbolic, ConfigurationVariable", "src/conf-parameter.cpp ConfParameter::ConfParameter", "nlsr.conf"]}
{"id": "C76", "title": "Every certificate listed in the configuration is published", "statement": "After a configuration file is accepted, the certificates the router publishes are exactly those listed as cert-to-publish in its security section, each of them could be loaded, and the validator rules were loaded.", "quantifier": "every property tree and every outcome of loading rules and certificates", "why_tests_cant": "The order and presence of the entries of the section decide; tests use the shipped file.", "anchors": ["src/conf-file-processor.cpp ConfFileProcessor::processConfSectionSecurity"]}
{"id": "C77", "title": "Published certificates are served", "statement": "While the router runs, an Interest for a certificate it publishes - one configured for the router, its NLSR process, its site or its operator, or one taken over from the validator - is answered with that certificate, by certificate name and by key name, as long as no other certificate for the same key replaced it.", "quantifier": "every network, site and router name, every list of configured certificates, every history of validated segments, Interests and registration failures", "why_tests_cant": "The filters set at start and the ones set while chains are published must cover every certificate in the store after any history.", "anchors": ["src/security/certificate-store.cpp CertificateStore::registerKeyPrefixes, setInterestFilter, onKeyInterest, publishCertFromCache"]}
{"id": "C78", "title": "nlsrc asks for what its command line says, and its exit status tells what happened", "statement": "A documented nlsrc command line (advertise <name> [cost <cost>] [save], withdraw <name> [delete], with -R, -c, -k) sends exactly one command to the chosen router, with that prefix, cost and save flag; no other command line sends a command, and it ends with a status other than 0 unless help or version was asked for. After the router has answered, the prefix is advertised at the given cost (or no longer advertised), every other prefix is as before, the router's Name LSA lists it (or does not), and the exit status is 0 exactly if the router applied the command (or had nothing to change) and, when asked to save, the file was changed.", "quantifier": "all option lists, argument lists, prefixes, costs below 2^31, router configurations and histories, file contents and write results, and all answers", "why_tests_cant": "the command lines, costs, router histories and answers are unbounded, and the claim joins the tool, the command processor, the prefix list, the Name LSA and the configuration file", "anchors": ["tools/nlsrc.cpp: Nlsrc::dispatch, sendNamePrefixUpdate, onControlResponse, onTimeout, main", "src/update/command-processor.cpp: advertiseAndInsertPrefix, withdrawAndRemovePrefix", "src/update/prefix-update-processor.cpp: addOrDeletePrefix"]}
{"id": "C79", "title": "nlsrc lsdb shows exactly the router's LSAs", "statement": "If the three datasets arrive, nlsrc lsdb exits with 0 and shows, for every router and LSA type, exactly the LSA the queried router stored when it served that dataset, with the content that LSA announces; every router appears once and none without an LSA. If any dataset does not arrive, the exit status is not 0 and nothing is shown.", "quantifier": "all option lists, all reachable states of the LSDB at the three moments, all failing fetches", "why_tests_cant": "the databases, names and encodings are unbounded and the claim composes the database invariant, the encoder, the decoder and the tool's bookkeeping", "anchors": ["tools/nlsrc.cpp: Nlsrc::getStatus, runNextStep, onFetchSuccess, recordLsa, printLsdb, onTimeout", "src/publisher/dataset-interest-handler.cpp: publishLsaStatus", "src/lsdb.cpp: Lsdb"]}
{"id": "C80", "title": "nlsrc routing and status show the router's routing tables", "statement": "nlsrc routing shows exactly the routing table and the dry-run table of the router, and says so if no table has been calculated; nlsrc status shows the tables and the database.", "quantifier": "all option lists, routing tables, dry-run tables and databases", "why_tests_cant": "tables of any size and content; the claim composes the encoder, the decoder and the tool", "anchors": ["tools/nlsrc.cpp: Nlsrc::fetchRtables, recordRtable, printRT, printAll", "src/route/routing-table.cpp: RoutingTableStatus::wireEncode, wireDecode", "src/publisher/dataset-interest-handler.cpp: publishRtStatus"]}
{"id": "C81", "title": "An LSA is always given out as it is stored now", "statement": "Whatever LSAs the router has received, built, refreshed or updated before, and whenever they were encoded, the octets it gives out for a stored LSA (as the answer to an Interest or in an LSDB dataset) decode to the LSA's current content: no answer carries an encoding kept from an earlier state of that LSA.", "quantifier": "every history of LSDB events interleaved with encodings, every stored LSA, every received encoding", "why_tests_cant": "A stale cached encoding appears only for particular orders of encoding and updating; tests cover a few orders", "anchors": ["src/lsa/lsa.hpp: setSeqNo, setExpirationTimePoint", "src/lsa/*-lsa.cpp: wireEncode, wireDecode, update", "src/lsdb.cpp: installLsa, processInterestForLsa", "src/publisher/dataset-interest-handler.cpp: publishLsaStatus"]}
{"id": "C82", "title": "End to end: the FIB of a running router sends each prefix along shortest paths", "statement": "Take any history of a running router with link-state routing (hellos, received sync updates and LSAs, timers, face notifications, commands) after which it has its own Adjacency LSA, no routing calculation is pending and the last one was neither skipped nor followed by the removal of an Adjacency LSA. For a prefix that exactly one other router advertises, the FIB holds: with one face per prefix, the face of a neighbour that begins a shortest path to that router in the stored Adjacency LSAs, or nothing if there is no path; with more, the cheapest faces up to the limit, each ranked by its cheapest path through a neighbour on that face. A prefix no other router advertises has no FIB entry, and a router without its own Adjacency LSA has no faces for it. For a prefix that several other routers advertise the same holds with the least path cost over these routers; the costs they give the prefix do not choose between them.", "quantifier": "every configuration with link-state routing, every history of events of the router, every prefix that is not a router name, every advertising router", "why_tests_cant": "The statement ties the last state of five interacting tables to all events before it; tests exercise each table alone on a few topologies", "anchors": ["src/lsdb.cpp: installLsa", "src/route/routing-table.cpp: calculate", "src/route/name-prefix-table.cpp: updateFromLsdb, updateWithNewRoute", "src/route/fib.cpp: update", "src/route/routing-calculator-link-state.cpp: calculateLinkStateRoutingPath"]}
{"id": "C83", "title": "Forwarding strategies follow the announced routers", "statement": "In every run, the router asks NFD for the multicast strategy on the LSA prefix and on the sync prefix, and for the best-route strategy on the key prefixes of every router that sync announced, of that router's NLSR process, of its site and of its site's operator; it asks for no other strategy, and asks once per router unless NFD refuses.", "quantifier": "all runs of a router, prefixes, strategies, sets of announced routers", "why_tests_cant": "The set of routers is not bounded and announcements, answers and refusals come in any order.", "anchors": ["src/nlsr.cpp: Nlsr, registerStrategyForCerts", "src/route/fib.cpp: setStrategy, onSetStrategyFailure", "src/lsdb.hpp: onNewLsa"]}
{"id": "C84", "title": "The daemon runs with the values of its configuration file", "statement": "nlsr runs only if it was given nothing but -f options and the file named last (or nlsr.conf) is accepted; help, version and bad options end it without touching a file. In every run of a daemon that starts, its router name, prefixes, timers, limits and hyperbolic coordinates are those written in the file, or the documented ones where the file says nothing; its neighbours are the declared ones with their face URI and cost at every moment; its Name LSA holds exactly the prefixes of the file as changed by the commands since.", "quantifier": "all command lines, file systems, configuration files, and all runs after the start", "why_tests_cant": "Configuration files and runs are unbounded, and a value that is read correctly may still be dropped or replaced on its way to the module that uses it.", "anchors": ["src/main.cpp: main", "src/conf-file-processor.cpp: processConfFile, load", "src/nlsr.cpp: Nlsr", "src/lsdb.cpp: Lsdb", "src/hello-protocol.cpp: HelloProtocol", "src/route/fib.cpp: Fib"]}
{"id": "C85", "title": "A start touches only its two files", "statement": "Starting nlsr changes no directory and no file other than nlsr.conf and test.seq in the state directory named by the configuration. It leaves the configuration file as it is. When the daemon runs, nlsr.conf in the state directory is a copy of the configuration file and is the file that commands edit. A start that is refused leaves the saved configuration alone.", "quantifier": "all command lines, file systems and configuration files", "why_tests_cant": "File systems, paths and configuration files are not bounded, and the order of sections decides what has been written when an error is found.", "anchors": ["src/conf-file-processor.cpp: processConfSectionGeneral, load", "src/main.cpp: main"]}
{"id": "C86", "title": "The saved configuration can be started again", "statement": "After any history of commands, a start from a copy of the saved configuration file succeeds with the same parameters, and advertises the saved prefixes at their saved costs: a prefix saved by a command that was answered 205 is advertised at its cost, one deleted by a command answered 205 is not, and no other prefix changes.", "quantifier": "all configuration files, all histories of commands and other events, all prefixes and costs, all file systems in which the copy is started", "why_tests_cant": "Histories of commands are not bounded, and saving and reading use different code for the same text.", "anchors": ["src/update/prefix-update-processor.cpp: addOrDeletePrefix", "src/utility/boost-info-editor.cpp: put, remove", "src/conf-file-processor.cpp: processConfSectionAdvertising, processConfFile"]}
{"id": "C87", "title": "A running router keeps its routes alive at the forwarder", "statement": "Every prefix in the FIB of a running router, other than the names of its neighbours, has a refresh pending that is due within twice the LSA refresh time. A due refresh registers the prefix again over exactly the faces of its FIB entry that exist, with a lifetime of twice the refresh time plus ten seconds, and the next one is due a period later; before it is due nothing is sent. While a neighbour keeps its face and the forwarder accepts registrations, a route registered over this face for a prefix that the FIB still wants there ends at least ten seconds after the next refresh is due.", "quantifier": "all configurations, all runs of the whole router (hellos, face events, LSAs, commands, calculations, expirations, answers of the forwarder), all prefixes and faces", "why_tests_cant": "Updates of the FIB, refresh timers, face events and answers of the forwarder interleave in unboundedly many ways over unbounded time.", "anchors": ["src/route/fib.cpp: update, scheduleLoop, refreshEntry, registerPrefix", "src/nlsr.cpp: Nlsr, registerAdjacencyPrefixes", "src/route/name-prefix-table.cpp: updateWithNewRoute"]}
{"id": "C88", "title": "Packets for a prefix reach an advertising router in a settled network", "statement": "Take any number of running routers with link-state routing and one face per prefix, each of which has calculated its routes from its LSAs. They hold the same Adjacency LSAs, with positive link costs, and agree on which routers advertise a prefix. A packet for the prefix that starts at a router from which some advertising router can be reached, and that every router hands on over a face of its FIB entry, gets to an advertising router, visits no router twice, and takes a path of least cost to the advertising routers.", "quantifier": "every number of routers, every topology, every configuration and history of each router, every prefix and starting router", "why_tests_cant": "Loop freedom is a property of the FIBs of all routers together; tests look at the tables of one router on a few small topologies", "anchors": ["src/route/routing-calculator-link-state.cpp: calculateLinkStateRoutingPath", "src/route/name-prefix-table.cpp: addEntry, updateWithNewRoute", "src/route/fib.cpp: update", "src/lsdb.cpp: installLsa"]}
{"id": "C89", "title": "Packets are delivered in a network of routers that have exchanged their LSAs", "statement": "Take a network of any number of whole routers that exchange their LSAs, where messages may be lost, repeated, delayed and reordered. Link costs are positive whole numbers, every neighbour has a face of its own, and routers run link-state routing with one face per prefix. Whenever every router stores the current number of every router's Name and Adjacency LSA and has calculated its routes, all routers store exactly the links and the prefixes that the routers themselves report. Every FIB face then leads over a link both ends report, and a packet for a prefix that starts at a router from which some advertising router can be reached gets to an advertising router, visits no router twice, and takes a path of least cost.", "quantifier": "every number of routers, every configuration, every schedule of events at the routers and of messages between them, every prefix and starting router", "why_tests_cant": "It relates the FIBs of all routers after any exchange of messages; tests run one router with made-up LSAs", "anchors": ["src/nlsr.cpp: Nlsr", "src/lsdb.cpp: processInterest, afterFetchLsa, installLsa", "src/route/routing-calculator-link-state.cpp: calculateLinkStateRoutingPath", "src/route/fib.cpp: update"]}
{"id": "C90", "title": "Kept segments of LSAs are genuine, recent and available", "statement": "A packet of another router's LSA that this router sends on is a segment it received and validated, unchanged, under the name asked for (or a longer one if the Interest allows that), at most half an hour after it was validated. Until then, and until a retrieval of the next number ends, an Interest for exactly this segment is answered with it. A packet of an own LSA carries an LSA the router held at most one refresh interval ago; an Interest for a segment that is not cached gets exactly the segment asked for, every time, and a segment validated again is kept for half an hour from then.", "quantifier": "every configuration, history of events, Interest and segment", "why_tests_cant": "Needs every interleaving of retrievals, timers and Interests", "anchors": ["src/lsdb.cpp: expressInterest (afterSegmentValidated, onComplete), processInterest, processInterestForLsa"]}
{"id": "C91", "title": "Forwarder routes and packet delivery over them", "statement": "While a neighbour keeps its face and the forwarder accepts registrations, the forwarder has a route for a prefix over that face exactly when the router's FIB entry for the prefix holds the neighbour; if refreshes are not more than ten seconds late, that route has not ended. So in a network of whole routers that exchanged their LSAs and calculated their routes, the forwarders themselves carry a packet for a prefix to a nearest router advertising it, by a shortest way and without visiting a router twice.", "quantifier": "every configuration, every history of events of one router (messages, timers, face events, replies of the forwarder), and every schedule of a network of any number of routers, with prefixes that no router uses for its own traffic", "why_tests_cant": "Whether a route that the forwarder holds is stale or missing depends on all registrations, withdrawals, retries and refreshes since the face appeared; a test sees only a few histories and no network.", "anchors": ["src/route/fib.cpp Fib::update, Fib::registerPrefix, Fib::unregisterPrefix, Fib::refreshEntry", "src/hello-protocol.cpp HelloProtocol::registerPrefixes", "src/route/name-prefix-table.cpp", "src/nlsr.cpp"]}
{"id": "C92", "title": "Only a router's own key authenticates its LSAs and Hello answers", "statement": "With the trust schema of nlsr.conf, a packet of an LSA or an answer to a Hello is accepted only if it is signed with a key of the NLSR process of the router it is named after. The certificates between that key and a trust anchor belong to the router's own name, a name above it, or the operators of its site. So someone with any other keys, for instance those of another router, cannot make a router accept a packet in this router's name, whatever certificates they make. A router whose certificates are issued as documented is accepted.", "quantifier": "all router, site and operator names, all packets, all sets of certificates (genuine and forged), chains of any length, all trust anchors and published certificates", "why_tests_cant": "An attacker chooses names and certificates freely; tests try a few chains.", "anchors": ["nlsr.conf security section", "src/conf-file-processor.cpp ConfFileProcessor::processConfSectionSecurity", "src/conf-parameter.cpp ConfParameter::loadCertToValidator, ConfParameter::initializeKey", "src/lsdb.cpp Lsdb::expressInterest", "src/hello-protocol.cpp HelloProtocol::onContent", "docs/SECURITY-CONFIG.rst"]}
{"id": "C93", "title": "Only operators of the site can change the advertised prefixes", "statement": "With the trust schema of nlsr.conf, a prefix-update command is accepted only if it is an advertise or withdraw command signed with a key of an operator whose name lies below that of a trust anchor of the router. Someone whose keys are not certified for the operator's name or a name above it cannot give commands in the operator's name. Commands of an operator certified by the site are accepted. Operators of other sites and people who are not operators are refused.", "quantifier": "all commands, names, sets of certificates (genuine and forged), chains of any length, all trust anchors and published certificates", "why_tests_cant": "An attacker chooses names and certificates freely; tests try a few chains.", "anchors": ["nlsr.conf prefix-update-validator", "src/update/prefix-update-processor.cpp PrefixUpdateProcessor::makeAuthorization", "src/conf-parameter.cpp ConfParameter::loadCertToValidator", "docs/SECURITY-CONFIG.rst"]}
{"id": "C94", "title": "Stored LSAs were made by their routers", "statement": "Every packet of an LSA that a router makes carries an LSA of its own and is named after itself, the type and the number (or is a packet nobody accepts), and its answers to Hellos are named after no other router. What is retrieved under the name of a router out of an attacker's reach is an LSA this router made, whatever keys the attacker has and whatever certificates they make. So if the attacker's keys vouch for none of the routers whose LSAs are retrieved, every LSA of another router in the database was made by that router.", "quantifier": "every configuration, run of the LSDB and of the Hello protocol, set of certificates of any size, attacker keys, forged certificates and packets", "why_tests_cant": "Tests use a few certificates and fetch genuine LSAs; the claim is about every forgery, every chain of certificates and every history of retrievals.", "anchors": ["nlsr.conf security", "src/lsdb.cpp Lsdb::afterFetchLsa, Lsdb::processInterest, Lsdb::processInterestForLsa", "src/hello-protocol.cpp HelloProtocol::processInterest"]}
{"id": "C95", "title": "A network of running routers can always reach agreement, and keeps it", "statement": "Whatever happened before (losses, reorderings, duplicates, failed retrievals, stale copies), as long as all routers run: there is a finite exchange of announcements, Interests and retrievals, of at most nine events for every two routers, after which every router stores the current LSA of every router for each type it uses; no router has to issue anything new for it. Once a router stores the current LSA of another, no further exchange of LSAs, in any order, with any duplicates, takes it away, and agreement persists until a timer fires or a router changes what it says.", "quantifier": "every network of distinct routers, every possible schedule, every continuation that consists of exchanges", "why_tests_cant": "it is a statement about all histories: that no reachable combination of databases, pending retrievals and remembered numbers is a dead end", "anchors": ["src/lsdb.cpp: Lsdb::processUpdateFromSync, expressInterest, processInterest, afterFetchLsa, installLsa", "src/lsdb.hpp", "src/communication/sync-logic-handler.cpp: processUpdate"]}
{"id": "C96", "title": "What is registered over a neighbour's face", "statement": "A router registers with the forwarder, over the faces of its neighbours, nothing but the neighbour's name, the LSA prefix and the sync prefix, always at the cost of the link to that neighbour rounded up to a whole number. The name and the LSA prefix are registered when the forwarder reports a face to the neighbour that the router did not know, and only then; the sync prefix when the neighbour answers a Hello after having been INACTIVE, and only then.", "quantifier": "every configuration, every history of Hello and face events", "why_tests_cant": "all event interleavings: faces that come and go, neighbours that go up and down", "anchors": ["src/nlsr.cpp: registerAdjacencyPrefixes, onFaceEventNotification, processFaceDataset, the onInitialHelloDataValidated handler", "src/hello-protocol.cpp: onContentValidated", "src/adjacent.hpp: getLinkCost"]}
{"id": "C97", "title": "The own Adjacency LSA lists exactly the neighbours that are up", "statement": "With link-state or dry-run routing, whenever no build of the router's own Adjacency LSA is scheduled, that LSA, as it is in the database, lists exactly the neighbours that are up (ACTIVE), provided that nobody else publishes LSAs under the router's name. So once the routing calculation has caught up as well, the faces that the router registers for a prefix of other routers are all faces of neighbours that are up: it forwards nothing towards a neighbour that is down. In a network whose routers have exchanged their LSAs and calculated their routes, a router hands packets only to a neighbour that it sees up and that sees it up.", "quantifier": "every configuration without hyperbolic routing, every run of the whole router: Hello and face events, sync updates (also about the router itself), retrievals, timers, commands, in any order", "why_tests_cant": "all interleavings of status changes, delayed builds, refreshes and rebuilds asked for by sync", "anchors": ["src/lsdb.cpp: scheduleAdjLsaBuild, buildAdjLsa, buildAndInstallOwnAdjLsa, installLsa, removeLsa, processUpdateFromSync", "src/hello-protocol.cpp: processInterestTimedOut, onContentValidated", "src/nlsr.cpp: onFaceEventNotification", "src/adjacency-list.cpp: isAdjLsaBuildable, getNumOfActiveNeighbor", "src/route/routing-calculator-link-state.cpp: calculateLinkStateRoutingPath"]}
{"id": "C98", "title": "Which LSAs of its own a router has", "statement": "From its start on, a router always has a Name LSA of its own in its database. With hyperbolic routing on or in dry run it always has a Coordinate LSA of its own, which says the configured radius and angles; without hyperbolic routing it never has one. With hyperbolic routing on it never has an Adjacency LSA of its own. (All provided that nobody else publishes LSAs under the router's name; the first sentence without this condition.)", "quantifier": "every configuration, every run of the whole router, including timers, sync updates about the router itself and status changes of neighbours", "why_tests_cant": "all interleavings of refreshes, rebuilds asked for by sync, delayed builds and removals", "anchors": ["src/lsdb.cpp: Lsdb::Lsdb, buildAndInstallOwnNameLsa, buildAndInstallOwnCoordinateLsa, scheduleAdjLsaBuild, buildAdjLsa, processUpdateFromSync, expireOrRefreshLsa, removeLsa", "src/lsa/coordinate-lsa.cpp: update"]}
