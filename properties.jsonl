{"id": "C01", "title": "Satellite addresses survive their wire format", "statement": "For every constellation id, plane and index, SatAddress(c,p,i) converted to a ns-3 Address and back yields an address whose getters return c, p and i and that compares equal to the original; the six bytes are the three fields in network byte order, CopyFrom after CopyTo is the identity, and two addresses with the same bytes are equal.", "quantifier": "all 2^48 field triples", "why_tests_cant": "the unit test checks one triple; a byte-order or shift slip that only affects other values passes it", "anchors": ["utils/sat-address.cc: ConvertTo, ConvertFrom, CopyTo, CopyFrom, getConstellationId, getOrbitalPlane, getPlaneIndex, operator=="]}
{"id": "C02", "title": "Decoding a generic address is strict and loses nothing", "statement": "SatAddress::ConvertFrom succeeds exactly on generic addresses that carry six bytes and either the satellite address type or the wildcard type 0; on every other address it stops with a failed assertion; when it succeeds, encoding the result again reproduces the same six bytes.", "quantifier": "all generic ns-3 addresses of any type, length and contents", "why_tests_cant": "the input space is every byte string of every length and type tag", "anchors": ["utils/sat-address.cc: ConvertFrom, ConvertTo"]}
{"id": "C03", "title": "Printing then reading a satellite address is the identity", "statement": "operator<< always emits exactly 14 characters, three 4-digit zero padded lower-case hexadecimal groups separated by colons; operator>> applied to a stream that starts with that text reads back the same address, succeeds, and leaves exactly the text that followed when that text does not itself start with a hexadecimal digit or the character x.", "quantifier": "all addresses and all following texts", "why_tests_cant": "one sample string is tested; padding and field-boundary mistakes depend on the digits", "anchors": ["utils/sat-address.cc: operator<<, operator>>"]}
{"id": "C04", "title": "Malformed address text is reported", "statement": "If operator>> is given text that is not three colon separated 16-bit hexadecimal numbers, the stream is left in a failed state and no indeterminate value is read.", "quantifier": "all character sequences", "why_tests_cant": "needs a statement about every malformed input", "anchors": ["utils/sat-address.cc: operator>>"]}
{"id": "C05", "title": "Packet metadata survives the device queue", "statement": "The destination, protocol number and transmission power stored with a packet when it enters a ground or satellite device queue are exactly the values read back when the packet leaves it, and the bytes written never exceed the size the tag declares.", "quantifier": "all destinations, protocol numbers and 64-bit power patterns", "why_tests_cant": "every bit pattern must survive", "anchors": ["model/ground-sta-net-device.cc: GroundSatTag", "model/sat2ground-net-device.cc: SatGroundTag"]}
{"id": "C06", "title": "A satellite can be found at the address it was given", "statement": "After any sequence of successful AddSatellite calls, GetSatellite on every address that was returned gives the very device that was added with it, and no two additions return the same address, as long as the constellation id and both dimensions fit in 16 bits.", "quantifier": "all constellation sizes and all histories of additions", "why_tests_cant": "a statement over unbounded histories and sizes", "anchors": ["model/constellation.cc: AddSatellite, GetSatellite"]}
{"id": "C07", "title": "Constellation size and device list agree with its contents", "statement": "GetSize always equals the number of satellites added so far, never exceeds planes times plane size, and CreateNetDeviceContainer lists every added satellite exactly once, ordered by plane and then by position in the plane.", "quantifier": "all constellation sizes and all histories of additions", "why_tests_cant": "a statement over unbounded histories", "anchors": ["model/constellation.cc: AddSatellite, GetSize, CreateNetDeviceContainer"]}
{"id": "C08", "title": "An orbital slot is never overwritten", "statement": "Adding to an occupied slot aborts; adding to a free slot inside the grid succeeds and changes no other slot, so a satellite once added is found in the same slot after any further history.", "quantifier": "all histories of additions, all slots", "why_tests_cant": "frame condition over unbounded histories", "anchors": ["model/constellation.cc: AddSatellite, GetSatellite"]}
{"id": "C09", "title": "Satellite lookup is bounds checked", "statement": "GetSatellite(plane, index) and GetSatellite(address) either return the content of an existing slot or stop with a failed assertion; they never read outside the grid.", "quantifier": "all constellations, planes and indexes", "why_tests_cant": "out-of-range reads may look fine in a test run", "anchors": ["model/constellation.cc: GetSatellite"]}
{"id": "C10", "title": "Satellites can be enumerated by flat index", "statement": "For every i below GetSize, Get(i) returns a satellite and not null, different indexes give different satellites, the enumeration agrees with CreateNetDeviceContainer, and Get(i) aborts for every i not below GetSize.", "quantifier": "all constellations, fill histories and indexes", "why_tests_cant": "depends on the fill order and the boundary index", "anchors": ["model/constellation.cc: Get, GetSize"]}
{"id": "C11", "title": "The closest satellite is really the closest", "statement": "GetClosest returns null exactly when the constellation is empty; otherwise it returns a satellite of the constellation such that no other satellite is nearer to the given point, and among equally near ones the last in plane order.", "quantifier": "all constellations, satellite positions and query points", "why_tests_cant": "optimality over every configuration of positions", "anchors": ["model/constellation.cc: GetClosest, getSqDistance"]}
{"id": "C12", "title": "Satellites are launched in Walker order with exact orbital elements", "statement": "For a helper with P planes of S satellites and phasing F, the k-th LaunchSatellite call (k < P*S) succeeds, returns address (constellation, k div S, k mod S) and launches with ascending node 360*(k div S)/P and phase 360*(k mod S)/S + (k div S)*360*F/(S*P) degrees; after P*S launches every slot is occupied.", "quantifier": "all P, S >= 1, all F, all k", "why_tests_cant": "an inductive statement over the launch sequence", "anchors": ["helper/constellation-helper.cc: ConstellationHelper, LaunchSatellite"]}
{"id": "C13", "title": "Launching more satellites than the constellation holds is rejected", "statement": "The launch following the P*S-th one aborts with the message that all satellites have already been created and never touches memory outside the constellation.", "quantifier": "all P, S >= 1", "why_tests_cant": "a boundary that depends on sizes, and undefined behaviour is not observable by a test", "anchors": ["helper/constellation-helper.cc: LaunchSatellite", "model/constellation.cc: AddSatellite"]}
{"id": "C14", "title": "The inter-satellite grid is exactly the torus", "statement": "On a complete P by S constellation the grid installer links two satellites exactly when they are ring neighbours in the same plane, or have the same position in ring-neighbouring planes; every such pair gets exactly one link, no satellite is linked to itself, and each link has one device on each of its two ends.", "quantifier": "all P, S >= 1 and all pairs of satellites", "why_tests_cant": "the tests check node degrees for seven sizes only, not which nodes are linked", "anchors": ["helper/isl-helper.cc: ISLHelper::Install"]}
{"id": "C15", "title": "Every satellite gets the right number of link devices", "statement": "After the grid installer every satellite has r(S)+r(P) inter-satellite devices with r(1)=0, r(2)=1 and r(n)=2 otherwise, and the container returned lists two devices per link.", "quantifier": "all P, S >= 1 and all satellites", "why_tests_cant": "tests sample seven sizes", "anchors": ["helper/isl-helper.cc: ISLHelper::Install, InstallPriv"]}
{"id": "C16", "title": "Installing links on an incomplete constellation is rejected", "statement": "If some slot of the constellation has no satellite, the grid installer stops with the message that a complete constellation is needed and never dereferences a missing satellite.", "quantifier": "all sizes and all fill patterns", "why_tests_cant": "null dereference is undefined and depends on the pattern", "anchors": ["helper/isl-helper.cc: ISLHelper::Install"]}
{"id": "C17", "title": "Geo-tagged Interests take a shortest ring direction", "statement": "For every current satellite and every tag inside the grid, the chosen direction is the ground exactly at the tagged satellite; otherwise it moves along planes while the planes differ and along the plane afterwards, to the neighbour that is one hop nearer on the ring; with an even ring a tie goes forward when the tag is numerically larger and backward otherwise.", "quantifier": "all P, S >= 1, all current and tagged positions", "why_tests_cant": "modular arithmetic with signed/unsigned mixes; four orders of magnitude of cases", "anchors": ["fw/geotag-strategy.cpp: getTarget, afterReceiveInterest"]}
{"id": "C18", "title": "A geo-tagged Interest reaches the tagged satellite in the fewest hops", "statement": "On the torus grid, when every satellite's forwarding table has all its inter-satellite faces and its ground face, forwarding hop by hop from any satellite reaches the tagged satellite after exactly ringdist(planes)+ringdist(indexes) hops, never returns to the face it came from, and is then sent to the ground face.", "quantifier": "all P, S >= 1, all sources and destinations, all next-hop orders", "why_tests_cant": "an inductive statement about paths of unbounded length", "anchors": ["fw/geotag-strategy.cpp: afterReceiveInterest, getTarget, getSatAddress, getRemoteNetDevice", "helper/isl-helper.cc: Install"]}
{"id": "C19", "title": "Forwarding an Interest causes exactly one reaction", "statement": "Each call of the strategy for a received Interest results in nothing (suppressed, or a retransmission with no eligible next hop), or in exactly one transmission on one eligible next hop of the forwarding table (the incoming face is eligible only if it is the shared ground face), or in exactly one no-route Nack to the incoming face together with the rejection of the pending Interest; never two of these. A geo-tagged Interest is Nacked exactly when no eligible next hop matches its direction.", "quantifier": "all forwarding tables, tags, suppression decisions and eligibility outcomes", "why_tests_cant": "combinatorial space of tables and states", "anchors": ["fw/geotag-strategy.cpp: afterReceiveInterest"]}
{"id": "C20", "title": "Interests without a tag follow best-route", "statement": "Without a geo tag, or when received from a face that has no satellite device, a new Interest goes to the first eligible next hop; a retransmission goes to the first eligible unused one and, if there is none, to the eligible one with the earliest previous use.", "quantifier": "all forwarding tables and usage histories", "why_tests_cant": "combinatorial space of tables and states", "anchors": ["fw/geotag-strategy.cpp: afterReceiveInterest"]}
{"id": "C21", "title": "The geo-tag strategy works with any forwarding table", "statement": "Handling a geo-tagged Interest never dereferences a null device, whatever faces are among the eligible next hops.", "quantifier": "all forwarding tables", "why_tests_cant": "undefined behaviour", "anchors": ["fw/geotag-strategy.cpp: getRemoteNetDevice, getSatAddress, getNetDevice"]}
{"id": "C22", "title": "A tag naming a satellite outside the grid does not circulate", "statement": "An Interest whose tag names a plane or position that does not exist is eventually rejected by the strategy instead of being forwarded for ever, and is never delivered to the ground.", "quantifier": "all tags outside the grid", "why_tests_cant": "divergence cannot be observed by a terminating test", "anchors": ["fw/geotag-strategy.cpp: getTarget, afterReceiveInterest"]}
{"id": "C23", "title": "The trivial MAC neither loses nor duplicates", "statement": "With no MAC protocol every frame handed down is transmitted immediately and exactly once and its completion is reported exactly once, after exactly its transmission time; every frame received is passed up exactly once after exactly its transmission time, whatever else is received.", "quantifier": "all schedules of frames", "why_tests_cant": "schedules are unbounded", "anchors": ["model/mac/none-mac-model.cc: Send, StartPacketRx"]}
{"id": "C24", "title": "Slotted Aloha transmits at the next slot boundary", "statement": "With a positive slot duration each transmission starts at the least multiple of the slot duration not before the request, hence waits less than one slot and not at all on a boundary; with slot duration zero it starts at the time of the request.", "quantifier": "all request times and slot durations", "why_tests_cant": "fixed-point fraction test must be exact for every pair of values", "anchors": ["model/mac/aloha-mac-model.cc: Send"]}
{"id": "C25", "title": "Aloha without capture receives exactly the frames that overlap no other", "statement": "When no capture effect is configured, a frame is passed up if and only if its reception interval overlaps that of no other frame at the same satellite.", "quantifier": "all schedules of receptions, including simultaneous events in either order", "why_tests_cant": "all interleavings and chains of partially overlapping frames", "anchors": ["model/mac/aloha-mac-model.cc: StartPacketRx, FinishReception"]}
{"id": "C26", "title": "Aloha forgets a finished busy period", "statement": "Whenever no reception is in progress the receiver state is the idle state, so what happened in earlier busy periods has no influence on later ones; while receptions are in progress the recorded busy-period end is the latest end among them.", "quantifier": "all schedules of receptions", "why_tests_cant": "state leakage needs particular interleavings", "anchors": ["model/mac/aloha-mac-model.cc: StartPacketRx, FinishReception"]}
{"id": "C27", "title": "Aloha capture compares each frame with everything received in its busy period", "statement": "In a busy period with a collision, each frame is judged at its end against the sum of the powers of all other frames that have started in the busy period so far; it is passed up exactly when that ratio is not below the threshold.", "quantifier": "all schedules and powers", "why_tests_cant": "accumulated state over arbitrary interleavings", "anchors": ["model/mac/aloha-mac-model.cc: StartPacketRx, FinishReception"]}
{"id": "C28", "title": "CRDSA sends each replica in its own slot of the next frame", "statement": "With R replicas and N slots per frame (R <= N), a packet is transmitted exactly R times, at R different slot starts of the frame that begins at the least multiple of the frame length not before the request, whatever the random choices.", "quantifier": "all request times, slot durations, N, R and random permutations", "why_tests_cant": "random choices", "anchors": ["model/mac/crdsa-mac-model.cc: Send, GetSelectedSlots, SetSlotsPerFrame"]}
{"id": "C29", "title": "CRDSA rejects more replicas than slots", "statement": "Asking for more replicas than there are slots in a frame is rejected and never reads outside the slot table.", "quantifier": "all N < R", "why_tests_cant": "undefined behaviour", "anchors": ["model/mac/crdsa-mac-model.cc: GetSelectedSlots, NumReplicasPerPacket"]}
{"id": "C30", "title": "The replica distribution is sampled by inversion", "statement": "For non-negative coefficients and a sample u, the number of replicas is the n >= 1 with positive coefficient for which u lies between the sum of the coefficients below n and the sum up to n; the call aborts exactly when u is not below the total.", "quantifier": "all coefficient vectors and samples", "why_tests_cant": "all real samples and vectors of any length", "anchors": ["model/mac/crdsa-mac-model.h: ReplicasDistroPolynomial::NumReplicasPerPacket"]}
{"id": "C31", "title": "CRDSA passes each packet up at most once", "statement": "However many replicas of a packet arrive, clean, captured or recovered by interference cancellation, the packet is passed up at most once, provided the busy periods with its replicas end no later than two frames after it was first passed up.", "quantifier": "all schedules of receptions", "why_tests_cant": "unbounded schedules", "anchors": ["model/mac/crdsa-mac-model.cc: StartPacketRx, FinishReception, MakeInterferenceCancellation, CleanActiveReceivedPackets"]}
{"id": "C32", "title": "Interference cancellation is sound and complete", "statement": "A packet is recovered by cancellation only from a stored collision whose other packets have all been passed up already; when the receiver has finished processing a busy period, no stored collision is left with exactly one packet not yet passed up; and the cancellation loop always terminates.", "quantifier": "all sets of stored collisions and received packets", "why_tests_cant": "fixpoint over arbitrary collision graphs", "anchors": ["model/mac/crdsa-mac-model.cc: FinishReception, MakeInterferenceCancellation", "model/mac/private/busy-period.h"]}
{"id": "C33", "title": "Interference cancellation never uses an invalid iterator", "statement": "Cancellation may resolve any number of stored collisions in one pass without undefined behaviour.", "quantifier": "all sets of stored collisions", "why_tests_cant": "undefined behaviour usually goes unnoticed in a run", "anchors": ["model/mac/crdsa-mac-model.cc: MakeInterferenceCancellation"]}
{"id": "C34", "title": "CRDSA keeps exactly two frames of history", "statement": "When a busy period ends, stored collisions that ended more than two frames ago (or exactly two) and reception records older than two frames are dropped, and nothing younger is dropped.", "quantifier": "all histories", "why_tests_cant": "the code removes a prefix, which is right only if the list is ordered in every history", "anchors": ["model/mac/crdsa-mac-model.cc: CleanActiveBusyPeriods, CleanActiveReceivedPackets, FinishReception"]}
{"id": "C35", "title": "Every collided CRDSA packet takes part in later cancellation", "statement": "If a frame is discarded because of a collision, its busy period is available to interference cancellation when it ends.", "quantifier": "all schedules and capture outcomes", "why_tests_cant": "needs particular capture outcomes", "anchors": ["model/mac/crdsa-mac-model.cc: FinishReception"]}
{"id": "C36", "title": "Ground station transmission is FIFO, lossless and one at a time", "statement": "Every packet for which Send returned true is handed to the MAC exactly once, in the order accepted; the device hands down a packet only when the MAC has reported the end of the previous one; whenever the MAC is idle the queue is empty; Send returns false exactly when the queue refuses the packet. This holds for MACs that report completion once per packet.", "quantifier": "all interleavings of sends, completions and queue limits", "why_tests_cant": "unbounded interleavings", "anchors": ["model/ground-sta-net-device.cc: Send, TransmitStart, TransmitComplete"]}
{"id": "C37", "title": "Ground station transmission stays one at a time with CRDSA replicas", "statement": "With the CRDSA MAC and any configured number of replicas, the device never has two packets in transmission at once, never transmits while it is already transmitting, and eventually sends every accepted packet.", "quantifier": "all replica counts and schedules", "why_tests_cant": "needs particular schedules and counts", "anchors": ["model/ground-sta-net-device.cc: TransmitStart, TransmitComplete", "model/mac/crdsa-mac-model.cc: Send, FinishTransmission"]}
{"id": "C38", "title": "A packet goes to the satellite tracked when it was sent", "statement": "The satellite, protocol number and power used on the air are those in force when Send was called, however the tracked satellite or the power changes while the packet waits.", "quantifier": "all interleavings of sends, retargetings and completions", "why_tests_cant": "unbounded interleavings", "anchors": ["model/ground-sta-net-device.cc: Send, TransmitStart, SetRemoteAddress"]}
{"id": "C39", "title": "A packet refused by a full queue can be sent again", "statement": "After Send returned false, calling Send again with the same packet is allowed and transmits it with the metadata of the second call.", "quantifier": "all histories", "why_tests_cant": "needs a particular history and tags are invisible", "anchors": ["model/ground-sta-net-device.cc: Send", "model/sat2ground-net-device.cc: Send"]}
{"id": "C40", "title": "Satellite downlink transmission is FIFO, lossless and one at a time", "statement": "Every accepted packet is broadcast exactly once in order, each transmission starts no earlier than the end of the previous one, the device is idle exactly when nothing is queued or on the air, and every accepted packet is transmitted within the sum of the transmission times before it.", "quantifier": "all schedules of sends and queue limits", "why_tests_cant": "unbounded interleavings", "anchors": ["model/sat2ground-net-device.cc: Send, TransmitStart, TransmitComplete"]}
{"id": "C41", "title": "Inter-satellite transmission is FIFO, lossless and one at a time", "statement": "Every accepted packet starts transmission exactly once, in order, never before the end of the previous one, and the device is idle exactly when nothing is queued or on the air.", "quantifier": "all schedules of sends and queue limits", "why_tests_cant": "unbounded interleavings", "anchors": ["model/sat-net-device.cc: Send, TransmitStart, TransmitComplete"]}
{"id": "C42", "title": "Inter-satellite frames keep their protocol number", "statement": "Each packet is delivered to the other satellite with the protocol number given to the Send call that accepted it.", "quantifier": "all schedules mixing protocols", "why_tests_cant": "only shows when packets of different protocols queue up", "anchors": ["model/sat-net-device.cc: Send, TransmitComplete"]}
{"id": "C43", "title": "A ground station only hears the satellite it tracks", "statement": "A frame broadcast by a satellite is passed up by a ground station if and only if that satellite was the tracked one when the first bit arrived; it is passed up exactly once, after its transmission time.", "quantifier": "all schedules of receptions and retargetings", "why_tests_cant": "unbounded interleavings", "anchors": ["model/ground-sta-net-device.cc: ReceiveFromSat, ReceiveFromSatFinish, SetRemoteAddress"]}
{"id": "C44", "title": "Retargeting is signalled exactly on change", "statement": "Every change of the tracked satellite is signalled exactly once with the old and the new address, setting the same address again signals nothing, and consecutive signals chain.", "quantifier": "all sequences of SetRemoteAddress calls", "why_tests_cant": "unbounded sequences", "anchors": ["model/ground-sta-net-device.cc: SetRemoteAddress"]}
{"id": "C45", "title": "The face URI names the tracked satellite", "statement": "At all times after face creation the remote URI of the ground station face is the text of the address of the satellite being tracked.", "quantifier": "all sequences of retargetings before and after face creation", "why_tests_cant": "depends on histories", "anchors": ["model/ndn/ground-sta-transport.cc: GroundStaTransport, updateRemoteUri", "helper/icarus-helper.cc: GroundStaNetDeviceCallback", "model/ground-sta-net-device.cc: SetRemoteAddress"]}
{"id": "C46", "title": "An uplink frame is delivered or dropped exactly once", "statement": "Each ground transmission lasts size/rate and has exactly one outcome: a single drop notification, or a single reception started at the addressed satellite after the propagation delay with the sender's rate, address, protocol and attenuated power; it is dropped when there is no constellation, when there is no satellite at the address, or when the visibility model refuses it.", "quantifier": "all addresses, fill patterns and visibility outcomes", "why_tests_cant": "null dereference is undefined behaviour; all addresses must be covered", "anchors": ["model/ground-sat-channel.cc: Transmit2Sat"]}
{"id": "C47", "title": "A downlink frame reaches or misses each ground station exactly once", "statement": "A satellite transmission yields, for every attached ground station independently and exactly once, a drop notification or a reception after that station's own propagation delay; no station is skipped or served twice.", "quantifier": "all sets of stations and visibility outcomes", "why_tests_cant": "any number of stations", "anchors": ["model/ground-sat-channel.cc: Transmit2Ground, AddGroundDevice"]}
{"id": "C48", "title": "An inter-satellite link delivers to the opposite end", "statement": "On a link with both ends attached, a frame sent by either end is delivered to the other end only, or dropped with one notification, and attaching a third device is refused.", "quantifier": "all attachment histories and visibility outcomes", "why_tests_cant": "histories", "anchors": ["model/sat2sat-channel.cc: AttachNewSat, TransmitStart, GetDevice"]}
{"id": "C49", "title": "Channel device enumeration is total", "statement": "Every index below GetNDevices of the ground-satellite channel yields a device, each satellite and each ground station exactly once, satellites first; other indexes abort.", "quantifier": "all constellations and station lists", "why_tests_cant": "depends on fill order", "anchors": ["model/ground-sat-channel.cc: GetNDevices, GetDevice", "model/constellation.cc: Get"]}
{"id": "C50", "title": "The periodic tracker follows the closest satellite", "statement": "With a positive interval, at initialisation and then every interval the tracked satellite is set to the one closest at that moment, so at any later time the tracked satellite is the one that was closest at some moment less than or equal to one interval ago; with interval zero tracking never changes.", "quantifier": "all motions of satellites, all intervals and random offsets", "why_tests_cant": "unbounded runs and random offset", "anchors": ["model/ground-node-sat-tracker-periodic.cc: DoInitialize, PeriodicUpdate, UpdateOnce"]}
{"id": "C51", "title": "The elevation tracker picks the longest visible satellite", "statement": "At each update the tracked satellite is above the minimum elevation and has the longest remaining visibility among those above it (the first one of equals), the next update is due exactly when that visibility ends, and the simulation aborts exactly when no satellite is usable.", "quantifier": "all constellations and visibility oracles", "why_tests_cant": "optimality over every configuration", "anchors": ["model/ground-node-sat-tracker-elevation.cc: getVisibleSats, Update"]}
{"id": "C52", "title": "Inter-satellite visibility is line of sight above 80 km", "statement": "For two satellites on circular orbits of the same radius, the link succeeds exactly when every point of the segment between them is at least 80 km above the mean Earth sphere.", "quantifier": "all orbit radii and all pairs of positions", "why_tests_cant": "continuum of positions", "anchors": ["model/sat2sat-success-model.cc: CalcMaxDistance, TramsmitSuccess", "model/sat2sat-channel.cc: AttachNewSat"]}
{"id": "C53", "title": "The slant range corresponds to the elevation", "statement": "A satellite on the orbit is seen at elevation e from a ground point exactly when its distance is getGroundDistanceAtElevation(e, radius of the ground point).", "quantifier": "all elevations, altitudes and ground radii", "why_tests_cant": "continuum; the tests use five points with one ground radius", "anchors": ["model/orbit/circular-orbit-impl.cc: getGroundDistanceAtElevation, getSatAltitude", "model/circular-orbit.cc: getSatElevation, getNextTimeAtElevation"]}
{"id": "C54", "title": "Satellites stay on their orbit", "statement": "At every time the satellite position has norm equal to the orbit radius, lies in the plane given by inclination and ascending node, has latitude bounded by the inclination, and repeats after the orbital period in the inertial frame.", "quantifier": "all times, radii, inclinations, nodes and phases", "why_tests_cant": "continuum", "anchors": ["model/orbit/circular-orbit-impl.cc: getCartesianPositionRightAscensionDeclination, getOrbitalPeriod, getN"]}
{"id": "C55", "title": "The Earth-fixed position is the inertial one rotated", "statement": "The position reported to the simulator is the inertial position rotated backwards about the polar axis by the Earth rotation angle; it preserves the distance to the Earth centre and the height over the equatorial plane, and the distance to a fixed ground point equals the inertial distance to the rotating ground point used by the pass predictor.", "quantifier": "all times, orbits and ground points", "why_tests_cant": "continuum", "anchors": ["model/circular-orbit.cc: DoGetPosition, getRawPosition", "model/orbit/search/distancesolver.cc: GroundObserver"]}
{"id": "C56", "title": "Elevation is well defined and right", "statement": "For a ground point off the origin and not coinciding with the satellite, the elevation is defined, between -90 and 90 degrees, is 90 exactly when the satellite is straight above, 0 exactly when it lies in the horizon plane, and is monotone: for a fixed ground point and an orbit radius no smaller than its distance to the centre, nearer satellites have larger elevation.", "quantifier": "all positions", "why_tests_cant": "continuum", "anchors": ["model/circular-orbit.cc: getSatElevation", "model/ground-sat-success-elevation.cc: TramsmitSuccess"]}
{"id": "C57", "title": "Visibility models are symmetric", "statement": "The distance and elevation based success models give the same answer for the uplink and the downlink between the same two nodes.", "quantifier": "all positions and thresholds", "why_tests_cant": "continuum and both role orders", "anchors": ["model/ground-sat-success-distance.cc: TramsmitSuccess", "model/ground-sat-success-elevation.cc: TramsmitSuccess"]}
{"id": "C58", "title": "Congestion marking sees the real queue capacity", "statement": "The face's queue capacity is the queue limit in bytes when the limit is in bytes and 1500 bytes per packet otherwise, and the reported queue length never exceeds the capacity while every packet fits the device MTU.", "quantifier": "all queue limits and histories", "why_tests_cant": "histories", "anchors": ["model/ndn/ground-sta-transport.cc: GroundStaTransport, getSendQueueLength", "model/ndn/sat2ground-transport.cc"]}
{"id": "C59", "title": "LoRa frame parameters are in range", "statement": "For every admissible spreading factor, coding rate, preamble and payload, the LoRa helper computes the standard number of symbols and a positive payload size no larger than 32 bits, and a bandwidth accepted by the helper is the bandwidth used.", "quantifier": "all admissible parameters", "why_tests_cant": "unsigned arithmetic wraps for particular parameter combinations", "anchors": ["helper/lora-helper.cc: LoraHelper, GetLoraLinkRate"]}
{"id": "C60", "title": "Poisson traffic has the configured mean rate", "statement": "The mean time between packets of the Poisson helper is exactly the time in which the configured rate carries one packet with its header.", "quantifier": "all rates and sizes", "why_tests_cant": "continuum of parameters; tests are statistical", "anchors": ["helper/poisson-helper.cc: PoissonHelper"]}
{"id": "C61", "title": "Installing devices classifies and numbers the nodes", "statement": "Installing on a list of nodes gives each node one device in order; the nodes without a position become satellites and receive consecutive launch addresses, which are the addresses their devices report; the others become ground stations with their own MAC instance and are attached to the channel in order.", "quantifier": "all node lists", "why_tests_cant": "lists of any length and mix", "anchors": ["helper/icarus-helper.cc: Install, InstallPriv, CreateDeviceForNode"]}
{"id": "C62", "title": "End to end, the uplink delivers only what was sent, with the right metadata", "statement": "In a network of any number of ground stations and one constellation, every packet a satellite device passes up was accepted by Send at some ground station earlier, carries that station's address and the protocol number given to Send, and arrives at the satellite tracked at the time of Send, no earlier than the transmission time plus propagation delay after it; each accepted packet is passed up at most once by MACs that send one copy.", "quantifier": "all numbers of stations, traffic schedules, retargetings, delays and visibility outcomes", "why_tests_cant": "whole-system executions of unbounded length", "anchors": ["model/ground-sta-net-device.cc", "model/mac/none-mac-model.cc", "model/mac/aloha-mac-model.cc", "model/ground-sat-channel.cc: Transmit2Sat", "model/sat2ground-net-device.cc: ReceiveFromGround"]}
{"id": "C63", "title": "Predicted pass times are crossings of the target distance", "statement": "When the pass predictor returns a time it lies within one orbital period of the start, the satellite is at the target distance there, and it is the first crossing after the start.", "quantifier": "all orbits, stations and start times, any behaviour of the root finder within its contract", "why_tests_cant": "the numeric root finder may return any bracketed root", "anchors": ["model/orbit/search/distancesolver.cc: findNextCross, DistanceSolver::solve"]}
{"id": "C64", "title": "Ground positions are converted to their geodetic coordinates", "statement": "For every point of the WGS84 ellipsoid off the poles and the date line, the iterative conversion to geographic coordinates ends, no assertion fails, and the result is the geodetic latitude and the longitude of the point.", "quantifier": "all points of the ellipsoid", "why_tests_cant": "continuum of positions", "anchors": ["model/circular-orbit.cc: CartesianToGeographicCoordinates"]}
{"id": "C65", "title": "The search for the next pass ends", "statement": "For every orbit, station and elevation above the horizon, the search for the next time the satellite is at the distance of that elevation ends, and its answer is not before the start.", "quantifier": "all orbits, stations, elevations and start times, any behaviour of the root finder within its contract", "why_tests_cant": "a search that never ends is not told from a slow one, and depends on the geometry", "anchors": ["model/orbit/circular-orbit-impl.cc: getNextTimeAtDistance", "model/circular-orbit.cc: getNextTimeAtElevation", "model/orbit/search/distancesolver.cc"]}
{"id": "C66", "title": "End to end, the downlink passes up exactly what reached a station that listened", "statement": "In a network of any number of satellites and ground stations, with packets given once: no assertion fails and the network comes to rest; every accepted packet is then transmitted exactly once with its own protocol number, and at each station of the channel has exactly one outcome: a drop trace, or the arrival of one frame after the propagation delay, which is passed up once, after the transmission time, exactly if the station tracked the sending satellite when the first bit came; nothing else is ever passed up.", "quantifier": "all numbers of satellites and stations, traffic schedules, retargetings, delays and visibility outcomes", "why_tests_cant": "whole-system executions of unbounded length", "anchors": ["model/sat2ground-net-device.cc: Send, TransmitStart, TransmitComplete", "model/ground-sat-channel.cc: Transmit2Ground", "model/ground-sta-net-device.cc: ReceiveFromSat, ReceiveFromSatFinish, SetRemoteAddress"]}
{"id": "C67", "title": "Inter-satellite links deliver in order what was accepted, without what was dropped", "statement": "For any number of linked pairs and any traffic, nothing fails and the links come to rest; each transmission causes exactly one drop trace or one frame passed up at the other end and nowhere else, after delay and transmission time; unless delays shrink so fast that frames can overtake, each end passes up exactly what its peer accepted and the success model let through, in that order.", "quantifier": "all numbers of links, traffic schedules, delays and success outcomes", "why_tests_cant": "whole-system executions of unbounded length", "anchors": ["model/sat-net-device.cc: Send, TransmitStart, TransmitComplete, Receive, ReceiveFinish", "model/sat2sat-channel.cc: TransmitStart"]}
{"id": "C68", "title": "Faces over the downlink hand up exactly the blocks given to them", "statement": "In a network of any number of satellites and ground stations whose faces are used by the forwarder: no assertion fails whatever the forwarder and others send; every block a station's face hands up was given to the face of the satellite it tracked when the first bit came; each block is handed up at most once by a station; with room in the queues, no losses, and a station that keeps to one satellite, once the network is at rest the blocks handed up are exactly those given to that satellite's face.", "quantifier": "all numbers of satellites and stations, traffic mixes, retargetings, delays and outcomes", "why_tests_cant": "whole-system executions of unbounded length, packets of other protocols in between", "anchors": ["model/ndn/sat2ground-transport.cc: doSend, receiveFromNetDevice", "model/ndn/ground-sta-transport.cc: doSend, receiveFromNetDevice", "model/sat2ground-net-device.cc", "model/ground-sta-net-device.cc"]}
{"id": "C69", "title": "Faces over the uplink hand up exactly the blocks given to them", "statement": "In a network of any number of ground stations and satellites with the trivial MAC or ALOHA: nothing fails; every block a satellite's face hands up was given to a station's face while that station was aimed at that satellite; each block given is handed up at most once; with the trivial MAC, no losses and room in the queues, once the network is at rest exactly the blocks given have been handed up.", "quantifier": "all numbers of stations and satellites, traffic mixes, retargetings, delays and outcomes", "why_tests_cant": "whole-system executions of unbounded length", "anchors": ["model/ndn/ground-sta-transport.cc: doSend", "model/ndn/sat2ground-transport.cc: receiveFromNetDevice", "model/ground-sta-net-device.cc", "model/mac/none-mac-model.cc", "model/mac/aloha-mac-model.cc", "model/sat2ground-net-device.cc: ReceiveFromGround"]}
{"id": "C70", "title": "Faces over inter-satellite links hand up only blocks of their peer, whatever else is sent", "statement": "In any network of linked satellites carrying NDN and other traffic: no face ever reads a packet that is not NDN; every block handed up was given to the face at the other end; at most once; with no losses, room and no overtaking, once at rest the blocks handed up are those given at the other end, in order.", "quantifier": "all numbers of links, traffic mixes, delays and outcomes", "why_tests_cant": "whole-system executions of unbounded length, packets of other protocols in between", "anchors": ["model/sat-net-device.cc: Send, ReceiveFinish", "model/sat2sat-channel.cc", "helper/isl-helper.cc: SatNetDeviceCallback"]}
{"id": "C71", "title": "A face that was closed is left alone", "statement": "Whatever the forwarder does with its faces on the devices of a node, making, closing and destroying them between frames and retargetings, nothing fails, a closed face gets no more blocks and sends none, and a destroyed face is not used any more; every other face on the device gets every NDN frame once.", "quantifier": "all sequences of face creation, closing, destruction, frames and retargetings", "why_tests_cant": "use of freed memory shows only under some schedules, if at all", "anchors": ["model/ndn/ground-sta-transport.cc: GroundStaTransport, ~GroundStaTransport, doClose, receiveFromNetDevice, updateRemoteUri", "model/ndn/sat2ground-transport.cc: Sat2GroundTransport, ~Sat2GroundTransport, doClose, receiveFromNetDevice", "model/ground-sta-net-device.cc: SetRemoteAddress"]}
{"id": "C72", "title": "The launched satellites move as a Walker constellation, alike across every plane boundary", "statement": "Every satellite launched is at all times on the circle of its plane, at the altitude asked for and at the phase of its slot, all at the one rate of Kepler's law; satellites of one plane keep their distances, so a link between them is always or never usable; and every link to the satellite in the same slot of the next plane, the last being followed by the first, has the same length at the same point of the orbit.", "quantifier": "all altitudes, inclinations, numbers of planes and slots, phasing factors, times and visibility", "why_tests_cant": "holds over all time and all constellation shapes", "anchors": ["helper/constellation-helper.cc: LaunchSatellite", "model/circular-orbit.cc: LaunchSat", "model/orbit/circular-orbit-impl.cc", "model/circular-orbit.cc: DoGetPosition", "model/sat2sat-success-model.cc: TramsmitSuccess, CalcMaxDistance"]}
{"id": "C73", "title": "Installing the links of a constellation joins exactly the neighbouring satellites, two devices to a channel", "statement": "After the links of a complete launched constellation are installed, every inter-satellite device has exactly one other device on its channel, which is on a satellite next to its own in the grid of planes and slots, and any two neighbouring satellites have such a pair of devices; so what is proved of networks of linked pairs holds of every constellation installed.", "quantifier": "all constellation sizes and orders of launching", "why_tests_cant": "all sizes; the wiring of a large grid cannot be looked at device by device", "anchors": ["helper/isl-helper.cc: Install, InstallPriv", "model/sat2sat-channel.cc: AttachNewSat", "helper/constellation-helper.cc: LaunchSatellite"]}
{"id": "C74", "title": "Interests tagged with a slot are passed from satellite to satellite to that slot, over real devices and channels", "statement": "On a complete launched constellation with its links installed and the geo-tag strategy on every satellite, whatever Interests come in from the ground, tagged with a slot that exists: nothing fails; an Interest is sent to the ground only by the satellite in the slot of its tag; each time it came in it is sent to the ground once, lost on a link, refused by a full queue, or still under way, and none is under way when the links are at rest; it makes no more hops than its satellite is away from the slot, exactly as many if it is not lost; the number of events is bounded beforehand and the links come to rest; no Interest arrives before its hops can have been made.", "quantifier": "all constellation sizes, schedules and mixes of Interests, delays, losses and queue limits", "why_tests_cant": "whole-system executions of unbounded length, with queueing, losses and interleaved Interests", "anchors": ["fw/geotag-strategy.cpp: afterReceiveInterest, getTarget", "helper/isl-helper.cc: SatNetDeviceCallback", "model/sat-net-device.cc", "model/sat2sat-channel.cc"]}
{"id": "C75", "title": "Interests travel from station to station: up, over the constellation and down again", "statement": "On a complete launched constellation in which uplink, inter-satellite links and downlink work together, with stations tracking launched satellites and being turned at any time: nothing fails in any of the networks; what a station gets was sent by a station while it tracked a launched satellite, and came in while the receiving station tracked the satellite in the slot of the Interest's tag, no sooner than its hops take; no station gets an Interest more often than it was sent; left alone everything comes to rest; and without losses a station that keeps tracking a satellite gets exactly the Interests tagged for that satellite's slot, each as often as sent.", "quantifier": "all constellation sizes, numbers of stations, schedules, retargetings, delays, losses and queue limits", "why_tests_cant": "whole-system executions of unbounded length over three networks at once", "anchors": ["model/ground-sta-net-device.cc", "model/ground-sat-channel.cc", "model/sat2ground-net-device.cc", "fw/geotag-strategy.cpp: afterReceiveInterest", "model/sat-net-device.cc", "model/sat2sat-channel.cc", "helper/icarus-helper.cc: Sat2GroundNetDeviceCallback", "helper/isl-helper.cc: SatNetDeviceCallback"]}
{"id": "C76", "title": "Which scenario scripts run through, and what they build", "statement": "For any sequence of helper calls, by node, by container or with a channel of its own, over any channels, constellations and tracker types: it runs through exactly if no null pointer is dereferenced, every station has a channel and gets no second tracker of a type, no constellation is launched beyond its size, and links are asked for on as many satellites, of one identifier, as a full constellation has; and then the devices, their addresses and channels, the stations of each channel, the trackers, the constellations and the links are exactly those the calls ask for, in order.", "quantifier": "all scripts, constellation sizes, nodes with or without positions", "why_tests_cant": "unbounded sequences of calls with several helpers sharing channels and nodes", "anchors": ["helper/icarus-helper.cc: Install, InstallPriv, CreateDeviceForNode, SetTrackerModel", "helper/isl-helper.cc: Install, InstallPriv", "helper/constellation-helper.cc: LaunchSatellite", "model/ground-sta-net-device.cc: Attach", "model/sat2ground-net-device.cc: Attach"]}
{"id": "C77", "title": "Stations and satellites installed on one channel reach each other, and only each other", "statement": "After any script, a frame a station sends to the address of a satellite gets to it exactly if the two are on the same channel, and what the satellite sends is offered to exactly the stations of its channel.", "quantifier": "all scripts, channels, constellations and addresses", "why_tests_cant": "needs several constellations and channels in one scenario, and orders of installation that no example uses", "anchors": ["helper/icarus-helper.cc: Install", "model/ground-sat-channel.cc: Transmit2Sat, Transmit2Ground, SetConstellation", "model/constellation.cc: GetSatellite"]}
{"id": "C78", "title": "A tracker steers the device installed with it and follows the constellation of its channel", "statement": "After any script, every tracker of a station steers the ground device that was installed together with it, and looks at the constellation the channel of that device has now.", "quantifier": "all scripts, nodes, tracker types, and times of first use", "why_tests_cant": "needs several devices on a node, or a channel told of another constellation after the first use", "anchors": ["model/ground-node-sat-tracker.cc: GetNetDevice, GetConstellation", "helper/icarus-helper.cc: CreateDeviceForNode"]}
{"id": "C79", "title": "Inter-satellite links are installed on the nodes asked for", "statement": "After any script that asks for links on nodes, the links join these nodes, as the torus of the constellation given.", "quantifier": "all scripts, constellation sizes and lists of nodes", "why_tests_cant": "needs the nodes of one constellation with the helper of another, or repeated nodes", "anchors": ["helper/isl-helper.cc: Install"]}
{"id": "C80", "title": "Satellites move without jumps and no faster than their orbit and the Earth's rotation together", "statement": "The position a satellite reports at two times differs by at most the time between them times its top speed: the radius at which the simulator places it times the sum of its mean motion and the rotation rate of the Earth; and no smaller speed bounds all orbits of that radius.", "quantifier": "all orbits, all pairs of times", "why_tests_cant": "continuum; the position is put together from arc functions with branch cuts, where a jump would show only at single moments", "anchors": ["model/circular-orbit.cc: DoGetPosition, getRawPosition", "model/orbit/circular-orbit-impl.cc: getCartesianPositionRightAscensionDeclination"]}
{"id": "C81", "title": "The satellite followed by the periodic tracker is nearly the closest at all times", "statement": "With the periodic tracker, at any time from the start the satellite followed is farther than any other by at most what the two can have moved since the last update, which is less than an interval ago; so a station whose links have a distance limit can reach the satellite it follows whenever there is one closer than that limit less what two satellites move in an interval.", "quantifier": "all constellations, orbits, stations, intervals, offsets and times", "why_tests_cant": "continuum of motions and unbounded runs", "anchors": ["model/ground-node-sat-tracker-periodic.cc", "model/constellation.cc: GetClosest", "model/circular-orbit.cc: DoGetPosition", "model/ground-sat-success-distance.cc: TramsmitSuccess"]}
{"id": "C82", "title": "The elevation tracker keeps a satellite in view as long as there is one, and gives up otherwise", "statement": "With predictions right to a tick, the satellite followed is above the minimum elevation at every moment, so the elevation test lets frames through in both directions; the tracker lasts until after a time exactly if some satellite can be seen at every moment up to it, and aborts exactly if at some moment none can.", "quantifier": "all complete constellations, visibility patterns, starting times", "why_tests_cant": "unbounded runs over every pattern of rising and setting", "anchors": ["model/ground-node-sat-tracker-elevation.cc: Update, getVisibleSats", "model/ground-sat-success-elevation.cc: TramsmitSuccess"]}
{"id": "C83", "title": "The elevation tracker makes the fewest handovers", "statement": "With exact predictions, no way of serving a station by visible satellites from the start until a time uses fewer satellites in a row than the elevation tracker.", "quantifier": "all complete constellations, visibility patterns, and alternative plans", "why_tests_cant": "optimality over all plans", "anchors": ["model/ground-node-sat-tracker-elevation.cc: Update"]}
{"id": "C84", "title": "A CRDSA receiver decodes exactly what peeling the collisions decodes", "statement": "When all power counts against a frame and the receiver remembers a whole frame: the packets passed up, each once, are the least set that contains each packet that is the only one missing from some collision; collisions are the busy periods of the schedule, or the slots when frames arrive in slots.", "quantifier": "all schedules of receptions and numbers of replicas in which the receiver does not fail", "why_tests_cant": "exactness needs every order in which chains of collisions resolve", "anchors": ["model/mac/crdsa-mac-model.cc: FinishReception, CleanActiveBusyPeriods, CleanActiveReceivedPackets, MakeInterferenceCancellation"]}
{"id": "C85", "title": "What stations transmit is what the satellite receives", "statement": "In any ground-to-satellite network, for every satellite: the frames whose reception has begun and those under way together are, as a multiset, the frames transmitted towards it that the channel did not lose, each at the time of transmission plus the delay, for as long as its transmission, with the power left after the loss; at rest nothing is under way.", "quantifier": "all networks, access schemes, traffic, retargetings, delays, losses", "why_tests_cant": "whole-system executions of unbounded length", "anchors": ["model/ground-sta-net-device.cc", "model/sat2ground-net-device.cc: ReceiveFromGround", "model/ground-sat-channel.cc: Transmit2Sat", "model/mac/mac-model.cc"]}
{"id": "C86", "title": "A CRDSA uplink delivers exactly what peeling the transmissions decodes", "statement": "In a whole network of CRDSA stations, satellites and channel, with delays to a satellite that differ by less than the guard time of a slot: at rest every satellite has passed up, each once, exactly the packets that peeling decodes from the sets of packets transmitted towards it at the same instants.", "quantifier": "all numbers of stations and satellites, slot orders, replicas, queues, traffic, delays, losses", "why_tests_cant": "whole-system executions of unbounded length, exactness over all collision patterns", "anchors": ["model/mac/crdsa-mac-model.cc", "model/ground-sta-net-device.cc", "model/sat2ground-net-device.cc", "model/ground-sat-channel.cc"]}
{"id": "C87", "title": "A CRDSA uplink never fails and comes to rest", "statement": "In a network of CRDSA stations aimed at satellites of the constellation with guarded slots, no assertion fails, no undefined behaviour is reached, and once the stations stop sending the simulation comes to rest.", "quantifier": "all numbers of stations and satellites, slot orders, replicas, traffic", "why_tests_cant": "the failing collision pattern needs three replicas meeting twice", "anchors": ["model/mac/crdsa-mac-model.cc: MakeInterferenceCancellation", "model/ground-sta-net-device.cc", "model/sat2ground-net-device.cc"]}
{"id": "C88", "title": "A slotted Aloha uplink delivers exactly the packets transmitted alone", "statement": "In a whole network of slotted Aloha stations, satellites and channel without capture, with delays to a satellite that differ by less than the guard time of a slot: at rest every satellite has passed up, each once, exactly the packets that were the only ones transmitted towards it, and not lost, at their instant.", "quantifier": "all numbers of stations and satellites, traffic, queues, delays, losses", "why_tests_cant": "whole-system executions of unbounded length; the shipped tests only compare a ratio with a formula", "anchors": ["model/mac/aloha-mac-model.cc", "model/ground-sta-net-device.cc", "model/sat2ground-net-device.cc", "model/ground-sat-channel.cc", "test/icarus-mac-model-test-suite.cc"]}
{"id": "C89", "title": "An Aloha uplink delivers exactly the frames that nothing overlaps", "statement": "In a whole network of Aloha stations, satellites and channel without capture: at rest every satellite has passed up exactly the packets whose frame, not lost, overlaps no other frame at that satellite; with capture, those that their busy period does not drown.", "quantifier": "all numbers of stations and satellites, traffic, queues, delays, losses", "why_tests_cant": "whole-system executions of unbounded length, frames that touch", "anchors": ["model/mac/aloha-mac-model.cc", "model/ground-sta-net-device.cc", "model/sat2ground-net-device.cc", "model/ground-sat-channel.cc"]}
{"id": "C90", "title": "The trace sources of a device tell exactly what it does", "statement": "Whatever is asked of a device of any of the three kinds: firing the sources changes nothing; every packet given to Send is seen at MacTx and then either at the queue's Enqueue or at its Drop and MacTxDrop, as Send answers; packets leave the queue in the order they came; the sniffer and PhyTxBegin fire for exactly the frames given to the channel, at that time; PhyTxEnd fires once per transmission, after its duration; at a ground station PhyRxEnd, the sniffer and MacRx fire for exactly the frames passed up.", "quantifier": "all sequences of operations, queues, durations, numbers of copies", "why_tests_cant": "unbounded interleavings; traces are what every measurement is made from", "anchors": ["model/ground-sta-net-device.cc: Send, TransmitStart, TransmitComplete, ReceiveFromSat, ReceiveFromSatFinish", "model/sat2ground-net-device.cc: Send, TransmitStart, TransmitComplete", "model/sat-net-device.cc: Send, TransmitStart, TransmitComplete", "model/icarus-net-device.cc: GetTypeId"]}
{"id": "C91", "title": "Trace files account for the packets of a device, captures hold what it transmits and receives", "statement": "In an ASCII trace of a device the lines + and - differ by the length of its queue and the lines + and d are together the packets given to Send; a capture, in normal or promiscuous mode, holds exactly the packets the device transmits and receives, with their times, in debug and optimised builds.", "quantifier": "all devices the helpers deal with, sequences of operations, both modes", "why_tests_cant": "the shipped tests enable no traces; the failure is silent in an optimised build", "anchors": ["helper/icarus-helper.cc: EnablePcapInternal, EnableAsciiInternal", "helper/isl-helper.cc: EnablePcapInternal, EnableAsciiInternal"]}
{"id": "C92", "title": "What the helpers make is what their settings ask for", "statement": "After any sequence of calls of the setters of a helper, every device, MAC, tracker, queue, channel and model it makes is of the type set last, with each attribute as given in that last call and its default otherwise, except for the attributes the helper fills in itself; the sequence runs, and devices can be made, exactly if the types are known and suitable, the attributes exist and can hold the values.", "quantifier": "all sequences of calls, types, attributes and values, any set of registered types", "why_tests_cant": "unbounded sequences of calls; the shipped tests set each part at most once", "anchors": ["helper/icarus-helper.cc: IcarusHelper, SetQueue, SetSuccessModel, SetPropagationDelayModel, SetPropagationLossModel, SetMacModel, SetTrackerModel, SetDeviceAttribute, SetChannelAttribute, Install, InstallPriv, CreateDeviceForNode", "helper/isl-helper.cc: ISLHelper, SetQueue, SetPropagationDelayModel, SetDeviceAttribute, SetChannelAttribute, Install, InstallPriv"]}
{"id": "C93", "title": "Every setting of a helper can be used", "statement": "A success model, queue or other part of a suitable type can be set, and every attribute of the devices and channels given before they are made is there when they are.", "quantifier": "all sequences of calls, types, attributes and values", "why_tests_cant": "the shipped tests and examples do not use the setters that fail", "anchors": ["helper/isl-helper.cc: SetSuccessModel", "helper/icarus-helper.cc: SetDeviceAttribute, SetChannelAttribute, SetQueue, Install", "model/ground-sta-net-device.cc: GetTypeId", "model/sat2ground-net-device.cc: GetTypeId", "model/icarus-net-device.cc: GetTypeId", "model/ground-sat-channel.cc: GetTypeId", "model/sat2sat-success-model.cc: GetTypeId"]}
{"id": "C94", "title": "LoRa frame sizes do not depend on rounding", "statement": "For all arguments, the LoRa constructor computes in double precision the number of symbols, the frame size and the link rate that exact arithmetic gives.", "quantifier": "all arguments of the constructor", "why_tests_cant": "the few argument combinations where rounding shows are not among those tried", "anchors": ["helper/lora-helper.cc: LoraHelper, GetLoraLinkRate"]}
{"id": "C95", "title": "Sampling the number of replicas never fails by rounding", "statement": "For coefficients that are the doubles nearest to a distribution with at most 2^15 entries and any sample of at most 1 - 2^-33, NumReplicasPerPacket, in double precision, returns a number whose coefficient is positive and whose part of the unit interval contains the sample up to 2^-36; it never aborts.", "quantifier": "all distributions, lengths up to 2^15, samples", "why_tests_cant": "an abort needs a sample in the gap that rounding leaves below one", "anchors": ["model/mac/crdsa-mac-model.h: ReplicasDistroPolynomial::NumReplicasPerPacket"]}
{"id": "C96", "title": "The closest satellite in double precision is the closest up to a hundredth of a millimetre", "statement": "For positions within a million kilometres, GetClosest in double precision returns null exactly when the constellation is empty, and otherwise a satellite at most 0.01 mm farther than any other.", "quantifier": "all constellations, positions", "why_tests_cant": "rounding errors over a continuum of positions", "anchors": ["model/constellation.cc: GetClosest, getSqDistance"]}
{"id": "C97", "title": "Links within reach in double precision", "statement": "For positions within a million kilometres, the success models by distance decide in double precision as with exact numbers unless the distance is within 0.01 mm of the limit; between satellites, unless the square of the distance is within 2^-46 of the squares of the radii from what geometry gives; so a satellite lower than 80 km by more than that never has a link.", "quantifier": "all positions, limits and altitudes", "why_tests_cant": "rounding errors over a continuum of positions, cancellation near the limit", "anchors": ["model/ground-sat-success-distance.cc: TramsmitSuccess", "model/sat2sat-success-model.cc: TramsmitSuccess, CalcMaxDistance"]}
{"id": "C98", "title": "Poisson traffic leaves one packet at each departure of the process", "statement": "An application made by the Poisson helper, for packets smaller than 2^29 bytes, sends exactly one packet at each partial sum of the off times drawn, to the nanosecond, in that order, and stops exactly when the limit on the bytes (none: never) leaves no room.", "quantifier": "all draws, sizes, limits, start times and numbers of events", "why_tests_cant": "a packet per on period depends on the order of simultaneous events and on the rounding of the on period", "anchors": ["helper/poisson-helper.cc: PoissonHelper", "ns-3 OnOffApplication"]}
{"id": "C99", "title": "LoRa traffic keeps the rate and the number of frames asked for", "statement": "An application made by the LoRa helper never aborts, sends exactly the frames asked for (0: without end) and then stops; the gap between frames is their bits at the rate given, less at most a nanosecond and more by at most two bits per interruption of 1000 s; with the header the link rate asked for is never passed.", "quantifier": "all rates up to 10^9 bit/s, sizes, numbers of frames and of events", "why_tests_cant": "rounding and residual bits over unboundedly many on periods", "anchors": ["helper/lora-helper.cc: LoraHelper", "ns-3 OnOffApplication"]}
{"id": "C100", "title": "The strategy uses the grid of the constellation it serves", "statement": "In every scenario with a station in service the geo-tag strategy can be chosen, and its instances take the numbers of planes and of satellites per plane from the constellation in service; only names with parameters or with a version other than 1 are refused.", "quantifier": "all scripts of installations, numbers of nodes and strategy names", "why_tests_cant": "the constructor looks at whichever node was made last, and every example makes a station last", "anchors": ["fw/geotag-strategy.cpp: GeoTagStrategy (constructor), getStrategyName"]}
{"id": "C101", "title": "Interests reach the satellite tagged in every scenario the helpers can build", "statement": "In a scenario built by any sequence of installations, with any number of constellations, channels and stations, an Interest coming from the ground to a satellite of a constellation with links and tagged for another of it goes by a shortest way over the links and is sent to the ground there.", "quantifier": "all scripts of installations, constellations, pairs of satellites, forwarding tables and PIT states", "why_tests_cant": "several constellations, links asked for twice and nodes in any order are beyond the scenarios that are run", "anchors": ["fw/geotag-strategy.cpp: GeoTagStrategy, afterReceiveInterest, getTarget, getSatAddress", "helper/icarus-helper.cc: Install", "helper/isl-helper.cc: Install"]}
{"id": "C102", "title": "Device settings read back as given", "statement": "After any sequence of calls on any devices, every setting of every device (rate, MTU, index, queue, node, channel, callbacks, power, address, tracked address) is what the last call about it on that device said, or its default; no call touches another device.", "quantifier": "all numbers of devices of the three classes and all sequences of calls", "why_tests_cant": "interference between calls and devices over unbounded sequences", "anchors": ["model/icarus-net-device.cc", "model/ground-sta-net-device.cc", "model/sat2ground-net-device.cc", "model/sat-net-device.cc"]}
{"id": "C103", "title": "Whenever a link goes up or down, that is signalled", "statement": "The callbacks for link changes of a device are called, all of them in order, whenever IsLinkUp changes.", "quantifier": "all sequences of calls on all devices", "why_tests_cant": "any setter may be called between any two others", "anchors": ["model/icarus-net-device.cc: IsLinkUp, AddLinkChangeCallback", "model/ground-sta-net-device.cc: Attach", "model/sat2ground-net-device.cc: Attach", "model/sat-net-device.cc: Attach, IsLinkUp"]}
{"id": "C104", "title": "A device is on a channel just when the channel has it", "statement": "A ground or inter-satellite device is in the list of a channel, once, just when that channel is its own; the two ends of a link hear each other and nobody else.", "quantifier": "all sequences of calls on all devices and channels", "why_tests_cant": "attaching again, elsewhere, or by attribute is never exercised", "anchors": ["model/ground-sta-net-device.cc: Attach", "model/sat-net-device.cc: Attach", "model/sat2sat-channel.cc: AttachNewSat, TransmitStart", "model/ground-sat-channel.cc: AddGroundDevice, Transmit2Ground"]}
{"id": "C105", "title": "A device made by a helper can send and receive", "statement": "A device on which a helper made its calls, and from which nothing was taken since, sends any packet not longer than its MTU that its queue takes, refuses longer ones, and passes up what it receives, without following a null pointer.", "quantifier": "all sequences of later calls, packet sizes and states of the queue", "why_tests_cant": "null pointers and the MTU are not exercised", "anchors": ["helper/icarus-helper.cc: InstallPriv, CreateDeviceForNode", "helper/isl-helper.cc: InstallPriv", "model/ground-sta-net-device.cc: Send", "model/sat2ground-net-device.cc: Send", "model/sat-net-device.cc: Send"]}
{"id": "C106", "title": "The same name is not asked for too often", "statement": "While somebody waits for a name at a node, the k-th Interest sent for it after the first leaves no sooner than 10 + 20 + 40 + 80 + 160 + 250 + 250 + ... ms (k terms) after it, whoever asks and however often.", "quantifier": "all networks, forwarding tables, faces, tags, lifetimes and sequences of Interests and Data", "why_tests_cant": "the interval is kept per name over unboundedly many Interests from several faces", "anchors": ["fw/geotag-strategy.cpp: RETX_SUPPRESSION_INITIAL, RETX_SUPPRESSION_MAX, afterReceiveInterest", "NFD RetxSuppressionExponential"]}
{"id": "C107", "title": "Every tagged Interest is steered by its own tag", "statement": "After any history of Interests, Data and Nacks for a name at a satellite, a tagged Interest for it leaves by the first next hop in the direction of its tag, or is refused just when there is none.", "quantifier": "all networks, histories, tags, faces and forwarding tables", "why_tests_cant": "several consumers with different tags for one name meet in one PIT entry", "anchors": ["fw/geotag-strategy.cpp: afterReceiveInterest, getTarget", "NFD PIT and RetxSuppressionExponential"]}
{"id": "C108", "title": "Data goes to exactly those who wait", "statement": "After any history, Data for a name is sent exactly once on every face that asked since the Data last came and neither gave up, was refused nor was dropped, except back over a link it came from.", "quantifier": "all histories of Interests, Data and Nacks on any faces", "why_tests_cant": "expiry, suppression, refusal and several consumers over unbounded histories", "anchors": ["fw/geotag-strategy.cpp: afterReceiveInterest, afterReceiveNack", "NFD PIT"]}
{"id": "C109", "title": "All downstreams are told when there is no way", "statement": "As documented: when an Interest finds no usable next hop, everyone waiting for the name gets a Nack with the reason NoRoute; when all upstreams have answered by Nacks, everyone waiting gets one, with the least severe of the reasons.", "quantifier": "all histories, faces, reasons and forwarding tables", "why_tests_cant": "needs several consumers of one name at the moment of the refusal", "anchors": ["fw/geotag-strategy.hpp: class comment", "fw/geotag-strategy.cpp: afterReceiveInterest, afterReceiveNack"]}
{"id": "C110", "title": "A scenario built by the helpers is ready to fly", "statement": "Take any script of IcarusHelper and ISLHelper calls that runs without an error, in which one constellation is linked once, its satellites are installed on one channel and that channel was told of it, and whose last node made is a station of it. Then the constellation, the addresses, the links and the instances of the geo-tag strategy that the script left behind fit together: every satellite stands at the place its launch gives it, with that address, on that channel; the channel lists exactly the stations the script asked for, each with an address of its own; and to every Interest each satellite reacts as the instance of the strategy on its node, with the links there are at that node.", "quantifier": "all scripts, all numbers of planes and satellites, all requests", "why_tests_cant": "Tests build one small scenario each and never compare what the strategy looks up with where the helper launched.", "anchors": ["helper/icarus-helper.cc:221-316", "helper/isl-helper.cc:126-233", "helper/constellation-helper.cc:80-109", "model/constellation.cc:68-86", "fw/geotag-strategy.cpp:59-245"]}
{"id": "C111", "title": "In a built scenario nothing fails and all comes to rest", "statement": "In a scenario as in the property before, with routes over all links and to the ground, whatever stations send and wherever they are turned within the constellation, with any MAC model that reports each packet at most once: no call fails, anything that is due can happen, after the last call everything comes to rest, and no station gets an Interest more often than it was sent.", "quantifier": "all scripts, all sequences of sends, turns and events", "why_tests_cant": "Executions are unbounded and the three networks interleave.", "anchors": ["helper/icarus-helper.cc:221-316", "helper/isl-helper.cc:126-233", "model/ground-sat-channel.cc:88-169", "model/sat2sat-channel.cc:110-141", "fw/geotag-strategy.cpp:94-245"]}
{"id": "C112", "title": "In a built scenario every Interest gets to the stations at its tag", "statement": "In a scenario as above, without losses in queues, channels or MAC, once all is at rest, a station of the script that stays pointed at the satellite launched to plane p, place i has got exactly the Interests tagged (p, i), each as often as it was sent.", "quantifier": "all scripts, all sequences of sends, turns and events", "why_tests_cant": "The examples look at one pair of stations and print what they see.", "anchors": ["examples/ground2groundping.cc:85-160", "helper/icarus-helper.cc:221-316", "helper/isl-helper.cc:126-233", "fw/geotag-strategy.cpp:94-245"]}
{"id": "C113", "title": "The example programs set up what they are for", "statement": "The calls of IcarusHelper and ISLHelper in every program under examples/ run through without an error, whatever the identifier of the constellation, the altitude and the inclination, and, where the sizes come from the command line, for all sizes whose planes and places fit 16 bits.  In those that put a constellation on the first nodes and stations on the next, the satellite in plane p, place i is node p S + i, the stations are the rest, and the strategy can be used.", "quantifier": "all sizes of constellations, all numbers of stations", "why_tests_cant": "The examples are not run by the tests; only a run of each would show, and that for one size.", "anchors": ["examples/ground2groundping.cc:93-125", "examples/isl-grid.cc:78-84", "examples/constellation-positions.cc:153-158", "examples/elevation-tracker.cc:62-86", "examples/sputping.cc:68-91", "examples/vostping.cc:58-79", "examples/isl-vostping.cc:52-65"]}
{"id": "C114", "title": "Pings get from station to station", "statement": "In ground2groundping, in a grid of any size and with any number of stations, every Interest that is tagged with the satellite at which the other station points when it is sent gets to that station, if nothing is lost on the way.", "quantifier": "all grids, all sequences of sends, turns and events", "why_tests_cant": "A run of the example shows only the moments at which it was run.", "anchors": ["examples/ground2groundping.cc:60-152", "fw/geotag-strategy.cpp:59-245"]}
{"id": "C115", "title": "The default threshold lets no collided frame through", "statement": "With the default SIR threshold (the greatest double), and powers added, subtracted and divided in double precision as in the code, a frame that has met another during its reception is never passed up by AlohaMacModel, and one that has met none always is.", "quantifier": "all schedules of receptions, all powers a double can have", "why_tests_cant": "Tests take powers that are close together; which sums absorb the weaker frame depends on the bits.", "anchors": ["model/mac/aloha-mac-model.cc:45-48", "model/mac/aloha-mac-model.cc:98-168"]}
{"id": "C116", "title": "Rounding of powers does not change which frames are captured", "statement": "With any threshold, if in a stretch of n frames none is more than 2^36/n^2 times as strong as another and no frame is within a thousandth of the threshold, AlohaMacModel passes up exactly the frames it would with exact powers, although the sum of the powers, its difference with the power of the frame and the ratio are all rounded.", "quantifier": "all schedules of receptions, all powers a double can have, all thresholds", "why_tests_cant": "The error of the sum grows with every frame of the stretch, in the order in which they come; no finite set of powers shows the worst one.", "anchors": ["model/mac/aloha-mac-model.cc:98-168"]}
{"id": "C117", "title": "Rounding of powers does not change what CRDSA recovers", "statement": "If no frame of a stretch is drowned in the rounding of the others and none is within a thousandth of the threshold (with the default threshold: if in a stretch of n frames the others together are more than n/2^50 as strong as each), CrdsaMacModel runs through a schedule exactly if it does with exact powers, and passes up and recovers the same packets at the end of the same frames.", "quantifier": "all schedules of receptions, all powers a double can have, all thresholds", "why_tests_cant": "One decision that rounding changes changes what is recovered from then on; no finite set of schedules shows that there is none.", "anchors": ["model/mac/crdsa-mac-model.cc:210-278", "model/mac/crdsa-mac-model.cc:319-425"]}
{"id": "C118", "title": "Data finds its way back to everybody who asked", "statement": "In a full constellation whose satellites run the GeoTag strategy, with Interests for one name from below any satellites, tagged with one target, and packets delivered by the links in any order: within a lifetime nothing ends the program, no Interest is refused or given up, Data goes down only where somebody waits; all that is on the way can always arrive; and once no Interest is on the way, one Data from below the target's satellite leaves nobody waiting when all has arrived, also those whose Interests were suppressed.", "quantifier": "all constellation sizes, all targets, all sequences of Interests and Data from below, all orders and times of delivery within a lifetime", "why_tests_cant": "Which Interest is suppressed where depends on the order of arrivals all over the constellation; no finite set of schedules covers them.", "anchors": ["fw/geotag-strategy.cpp:93-200", "model/sat2sat-channel.cc:92-140"]}
{"id": "C119", "title": "Stations at any height convert to their geodetic coordinates, and the pass predictor is off by at most 22 km", "statement": "For every point of geodetic latitude phi strictly between the poles, longitude lambda strictly between -180 and 180 degrees, and height h of at least -3000 km, the iterative conversion to geographic coordinates ends, fails no assertion, returns lambda exactly and phi up to a thirty-ninth of its tolerance. The predictor of passes takes this geodetic latitude for a geocentric one: the station it works with is at most 21.6 km (plus a hundred millionth of the distance from the centre) from the real one, so at all times the distance it compares with the target is that of the channel up to this bound plus the difference of the two Earth radii, and the time answered is one at which the channel has a satellite below the target, or within a second of one at the target, up to that error. The error does occur: more than 21 km for a station at 45 degrees. Asked for an elevation, it answers a time at which the sine of the elevation is at least the one asked for, or within a second of one at which it is that, up to a bound computed from the same error. A single search answers with a time the repeated one gives too, at most a revolution away, and the repeated search with the first answer of single ones half a revolution apart.", "quantifier": "all stations off the polar axis and the date line, all heights from -3000 km, all circular orbits, all times, all targets, all root finders meeting the contract", "why_tests_cant": "A test converts some points; that the loop contracts everywhere, and the worst offset over all latitudes, orbits and times, need a proof.", "anchors": ["model/circular-orbit.cc:68-140", "model/circular-orbit.cc:255-335", "model/orbit/search/distancesolver.cc:84-94"]}
{"id": "C120", "title": "Positions of stations convert to their coordinates in double precision", "statement": "With every operation rounded to a double, and functions of the C library that err by at most 10^-12, the conversion of any finite position to geographic coordinates ends, fails no assertion, and gives the coordinates of the point: the latitude up to a thirty-ninth of the tolerance of the loop, the longitude up to 2*10^-12.", "quantifier": "all finite positions, all libraries within the error", "why_tests_cant": "A test converts some positions; rounding could keep the loop from ending, or make a number that is none, for positions that are not among them.", "anchors": ["model/circular-orbit.cc:68-140"]}
{"id": "C121", "title": "Everybody who asks gets an answer", "statement": "In a full constellation whose satellites run the GeoTag strategy, with stations that ask for one name tagged with one satellite and a producer that answers every Interest it hears there: within a lifetime nothing fails and no Interest is refused; all that is under way can always come in; and once nothing is under way no station waits for Data, wherever stations stand, in whatever order and after whatever time frames come in, and whichever Interests were suppressed.", "quantifier": "all constellation sizes, all sets of stations, all sequences of Interests, all orders and times of delivery within a lifetime, all turns of stations", "why_tests_cant": "Interests of different stations meet and part in an order no test can exhaust; one that is suppressed at the wrong time would wait for ever.", "anchors": ["fw/geotag-strategy.cpp:93-200", "model/ground-sat-channel.cc:94-180", "model/ground-sta-net-device.cc:218-251"]}
{"id": "C122", "title": "Losses leave no trace after a quarter of a second", "statement": "With stations, a producer and a full constellation under the GeoTag strategy, whatever is asked, lost or delayed and wherever stations are turned: nothing fails, no Interest is refused, and what is under way can always come in. And once nothing has been under way for RETX_SUPPRESSION_MAX (250 ms), every Interest sent from then on is answered as if nothing had been lost before, provided nothing more is lost; no shorter silence is enough.", "quantifier": "all constellation sizes, all sets of stations, all sequences of Interests, losses, turns and deliveries at any times before the silence; all sequences within a lifetime after it", "why_tests_cant": "What earlier Interests leave in PIT entries (in-records, out-records, intervals grown by retransmissions) depends on every loss before; no test covers their combinations.", "anchors": ["fw/geotag-strategy.cpp:54-64", "fw/geotag-strategy.cpp:93-200", "model/ground-sat-channel.cc:94-180"]}
{"id": "C123", "title": "Answers come within a round trip", "statement": "If no frame is under way for longer than d (waiting, transmission and propagation together), a station that asks for what the producer at the tagged satellite has, hops inter-satellite links away, has its answer within (2 hops + 4) d, also if its Interest is aggregated with others or suppressed on the way, and also after losses followed by 250 ms of silence. No smaller number than 4 is right for all.", "quantifier": "all constellation sizes, tags, sets of stations, bounds d, and sequences of Interests, turns and deliveries within a lifetime", "why_tests_cant": "The Interest that is answered may be another station's that went before; the latest answer arises from one interleaving of many.", "anchors": ["fw/geotag-strategy.cpp:93-200", "model/ground-sat-channel.cc:94-180", "model/sat2sat-channel.cc:109-140"]}
{"id": "C124", "title": "A frame is under way no longer than a queue of transmissions and the propagation", "statement": "If every queue has room for n packets, no transmission takes longer than T and no propagation longer than D, a packet that the ground device or an inter-satellite device of a satellite accepts is over (passed up, lost, or heard by nobody) within (n + 1) T + D. No smaller number than 1 is right for all.", "quantifier": "all networks of devices, queue sizes, rates, delays, losses, sequences of packets at any times", "why_tests_cant": "The longest wait needs a queue that is full at the wrong moment at one device of many; the bound must hold for every pattern of traffic.", "anchors": ["model/sat2ground-net-device.cc:302-370", "model/sat-net-device.cc:147-174", "model/sat-net-device.cc:372-396", "model/ground-sat-channel.cc:139-180", "model/sat2sat-channel.cc:109-140"]}
{"id": "C125", "title": "A frame to a satellite is under way no longer than a queue of whole slots and the propagation", "statement": "If the queue of every station has room for n packets, no transmission takes longer than T and no propagation longer than D, a packet that a station accepts is over (passed up, lost) within (n + 1) T + D without a MAC; with ALOHA in slots of length S within S - 1 + n P + T + D, where P is T rounded up to whole slots; with CRDSA in frames of length F all its copies are over within F - 1 + n P + (F - S) + T + D, where P is F - S + T rounded up to whole frames. No bound can be lowered.", "quantifier": "all networks of stations and satellites, queue sizes, slots, rates, delays, losses, sequences of packets, turns and changes of power at any times", "why_tests_cant": "The longest wait needs a full queue just after the beginning of a slot; the bound must hold for every pattern of traffic.", "anchors": ["model/ground-sta-net-device.cc:361-431", "model/mac/none-mac-model.cc:40-77", "model/mac/aloha-mac-model.cc:57-96", "model/mac/crdsa-mac-model.cc:152-207", "model/ground-sat-channel.cc:94-137", "model/sat2ground-net-device.cc:193-240"]}
{"id": "C126", "title": "The URIs of faces tell apart the faces of a node", "statement": "After any script of helper calls, the face made for a device has a local and a remote URI that no other face of the same node has, and the local URI names the device: stations by their 48-bit address, satellites and ends of links likewise. The remote end found for a link is its other end: the same channel, another node.", "quantifier": "all scripts of helper calls, constellations, nodes, devices and first addresses", "why_tests_cant": "Unit tests make a few nodes; that addresses of all stations differ, and that pairs of ends are found for every grid, is about all scripts.", "anchors": ["helper/icarus-helper.cc:485-566", "helper/isl-helper.cc:398-457", "model/sat2sat-channel.cc:142-156", "model/ground-sta-net-device.cc:277-283", "model/sat2ground-net-device.cc:243-249", "model/sat-net-device.cc:270-277"]}
{"id": "C127", "title": "CRDSA passes packets up in the time in which all their copies arrive", "statement": "If frames of a CRDSA uplink keep to their slots and the receiver remembers one frame, a packet is passed up, by its own copy or because another that is decoded uncovers it, not before it was accepted and not later than F - 1 + n P + (F - S) + T + D after: frames of length F, slots of length S, queues of n packets, transmissions of at most T and propagation of at most D, P being F - S + T rounded up to whole frames. The bound cannot be lowered; without the slots it does not hold.", "quantifier": "all networks of stations and satellites, queue sizes, slots per frame, choices of slots, replicas, delays, losses, sequences of packets, turns and changes of power at any times", "why_tests_cant": "Cancellation may uncover a packet long after its own copies; which chains of collisions arise depends on every choice of slots.", "anchors": ["model/mac/crdsa-mac-model.cc:152-425", "model/ground-sta-net-device.cc:361-431", "model/ground-sat-channel.cc:94-137", "model/sat2ground-net-device.cc:193-240"]}
{"id": "C128", "title": "A device says of itself what its frames do", "statement": "For each class of devices: IsPointToPoint is true exactly if, after any calls on any devices, a frame never reaches more than one device; IsBroadcast exactly if, for every n, there are calls after which a frame reaches n different devices; a device that is a broadcast one gives the broadcast address; SupportsSendFrom is what SendFrom answers, and where it is false SendFrom changes nothing.", "quantifier": "all classes, programs of calls on any number of devices, frames, constellations and models of the channels", "why_tests_cant": "The claims are about all networks and any number of devices; the answers are constants that no test compares with the channels.", "anchors": ["model/ground-sta-net-device.cc:261-267,345-359,433-457", "model/sat2ground-net-device.cc:225-300,372-396", "model/sat-net-device.cc:313-370,398-454", "model/ground-sat-channel.cc:94-168", "model/sat2sat-channel.cc:109-160"]}
{"id": "C129", "title": "Any two nodes that move can be linked by hand, and their devices know each other", "statement": "After any calls of the helpers, single inter-satellite links can be installed between any two nodes with mobility models, in either order: each call makes a new channel with one end on each node, the new devices come last on their nodes, nothing else changes, every frame of an end goes to the other end of its channel, and the face of an end is made for the other end.", "quantifier": "all scenario scripts, all sequences of calls of ISLHelper::Install for single links, null pointers and containers of any size included", "why_tests_cant": "Links may be installed in any order and number on top of any scenario; which ends meet depends on all calls before.", "anchors": ["helper/isl-helper.cc:195-238,413-427", "model/sat2sat-channel.cc:82-156"]}
{"id": "C130", "title": "CRDSA chooses all sets of slots equally often, for each packet afresh", "statement": "Whatever is drawn, each packet gets as many different slots of the frame as it has replicas. If all draws are equally likely, so are all ordered choices of slots for a sequence of packets, although the list of slots stays as the packet before has shuffled it; the choices for different packets are independent, and a packet with r replicas uses each of n slots with probability r/n.", "quantifier": "all numbers of slots, all sequences of packets with any numbers of replicas up to it, all draws", "why_tests_cant": "A bias of the choice, or a memory of the choice before, shows only in the frequencies over all (n!)^m ways to draw.", "anchors": ["model/mac/crdsa-mac-model.cc:40-70,136-162"]}
{"id": "C131", "title": "Nodes given Poisson traffic by one helper have traffic of their own", "statement": "However many nodes a Poisson helper is installed on, every value drawn goes to exactly one application and is used once, in order; each application sends one packet at each partial sum of its values, to the nanosecond, and stops exactly when its byte limit leaves no room. What a node sends does not depend on the other nodes, and AssignStreams gives each application streams of its own.", "quantifier": "all numbers of applications, start times and byte limits, all values drawn, all interleavings of the events", "why_tests_cant": "With one node nothing is shared; with more, which application gets which value depends on the order of all events.", "anchors": ["helper/poisson-helper.cc:33-83", "helper/lora-helper.cc:47,76-80", "ns-3 OnOffApplication"]}
{"id": "C132", "title": "Elevations in double precision are right, and so is what is decided by them", "statement": "The elevation of a satellite over a station, as computed in double precision, is a number and within a micro-radian of the true one; a satellite more than that above the angle asked for is heard and considered for tracking, one more than that below is not.", "quantifier": "all positions of stations 1000 km to 100000 km from the centre of the Earth and of satellites, a km and more from them; all finite angles; all arc sines that err by at most 10^-12", "why_tests_cant": "The arc sine is infinitely steep where the satellite is overhead and undefined past 1, which rounding alone can cross for a few positions only.", "anchors": ["model/circular-orbit.cc:234-254", "model/ground-sat-success-elevation.cc:81-108", "model/ground-node-sat-tracker-elevation.cc:114-122"]}
{"id": "C133", "title": "Satellites keep to their orbits in double precision for a week", "statement": "Computed in double precision, the position of a satellite never fails its assertion and each coordinate is within a millimetre of uniform motion on its circle with the period of Kepler's law; the true anomaly comes back from one turn to the turn it was on.", "quantifier": "all orbits from the surface to 50000 km, all times up to a week, all mathematical functions that err by at most 10^-15", "why_tests_cant": "The detour by half angles and turns jumps by two turns at every other node, where rounding decides on which side of the jump it falls.", "anchors": ["model/orbit/circular-orbit-impl.cc:40-101", "model/orbit/satpos/planet.h:69"]}
{"id": "C134", "title": "Earth-fixed positions of satellites in double precision", "statement": "Computed in double precision, the position of a satellite over the turning Earth is always a number, and each coordinate is right to one part in ten million of the radius of the orbit; the sine of the latitude never comes out above one, at the poles included.", "quantifier": "all orbits from the surface to 50000 km, all times up to a week, all mathematical functions that err by at most 10^-15", "why_tests_cant": "One rounding up of z over the length would make the arc sine no number, straight over a pole only; and near a pole the latitude loses half its digits.", "anchors": ["model/circular-orbit.cc:173-205", "model/orbit/satpos/planet.h:69-70"]}
{"id": "C135", "title": "Satellites in sight, from their orbits, in double precision", "statement": "From the orbits alone, with all roundings on the way, the elevation of a satellite seen from the ground is right to a tenth of a minute of arc unless it is that near the vertical, decisions by elevation are right unless it is that near the bound, and the satellite found closest is closest up to four parts in ten million of the radius of the largest orbit.", "quantifier": "all orbits from the surface to 50000 km, all times up to a week, all stations on the ground 100 km and more from the satellite, all constellations", "why_tests_cant": "The errors of the orbit, of the turning Earth, of the conversion to coordinates and of the angle add up, and a direction depends on the position the more the nearer the satellite is.", "anchors": ["model/circular-orbit.cc:173-254", "model/constellation.cc:88-118", "model/ground-node-sat-tracker-elevation.cc:102-149", "model/ground-sat-success-elevation.cc:106-108"]}
{"id": "C136", "title": "Links between satellites, from their orbits, in double precision", "statement": "From the orbits alone, with all roundings on the way, whether two satellites are within reach of each other is decided right up to two parts in ten million of their radii; and between satellites on one orbit the decision is the same at all times of a week, up or down, unless their chord is that near the reach.", "quantifier": "all pairs of orbits from the surface to 50000 km, all times up to a week, all limits", "why_tests_cant": "A link along an orbit has a constant length in exact numbers, yet a different one in double precision at each instant; no sampling of times shows that none of them crosses the limit.", "anchors": ["model/sat2sat-success-model.cc:66-85", "model/ground-sat-success-distance.cc:60-76", "model/circular-orbit.cc:173-205"]}
{"id": "C137", "title": "Constellations launched in double precision", "statement": "With angles in double precision, summed up satellite by satellite and plane by plane as the helper does, no assertion fails, every satellite gets the slot and address it gets with exact angles, and its elements are right to a billionth of a degree for the ascending node and two parts in ten million for the phase.", "quantifier": "all constellations of up to a thousand planes of up to a thousand satellites with any phasing up to the number of planes, any number of launches", "why_tests_cant": "The errors add up over a thousand steps, and the assertions compare the sums with a whole turn, which they must never reach; only constellations of a few sizes are ever tried.", "anchors": ["helper/constellation-helper.cc:52-109"]}
{"id": "C138", "title": "Launched constellations fly as Walker constellations in double precision", "statement": "From the parameters given to the constellation helper, with all roundings from the summing of angles over the motion on the orbit to the Earth-fixed coordinates, every satellite is within twelve parts in a hundred million of the radius, in each coordinate, of its place in the exact Walker constellation, a metre for low orbits.", "quantifier": "all constellations of up to a thousand planes of up to a thousand satellites, altitudes from 1 m to 43000 km, all inclinations, all satellites whose phase is up to 8400 degrees, all times up to a week", "why_tests_cant": "A test looks at a few satellites at a few instants; errors of the launch grow with the number of satellites and those of the motion with the time.", "anchors": ["helper/constellation-helper.cc:52-109", "model/circular-orbit.cc:144-205", "model/orbit/circular-orbit-impl.cc:40-101"]}
{"id": "C139", "title": "Links between the satellites of launched constellations in double precision", "statement": "From the parameters given to the constellation helper, with all roundings on the way, whether two launched satellites are within reach of each other is what it is in the exact Walker constellation, up to half a millionth of the radius; within a plane it is the same at all times of a week, and it depends only on the chord between the two slots.", "quantifier": "all constellations of up to a thousand planes of up to a thousand satellites, altitudes from 1 m to 43000 km, all inclinations, all pairs of satellites whose phases are up to 8400 degrees, all times up to a week, all limits", "why_tests_cant": "Whether a plane is a closed ring of links for the whole of a simulation depends on every satellite and every instant; a test looks at a few of each.", "anchors": ["helper/constellation-helper.cc:52-109", "model/sat2sat-success-model.cc:66-85", "model/circular-orbit.cc:144-205"]}
{"id": "C140", "title": "The closest satellite of a launched constellation in double precision", "statement": "From the parameters given to the constellation helper, with all roundings on the way, the satellite found closest to a place is one that was launched, and no launched satellite is, in the exact Walker constellation, nearer than it by more than half a millionth of the radius; none is found only if none was launched.", "quantifier": "all constellations of up to a thousand planes of up to a thousand satellites, however many of them launched, with phases up to 8400 degrees, altitudes from 1 m to 43000 km, all inclinations, all times up to a week, all places within a million kilometres", "why_tests_cant": "A wrong choice shows only for places between two satellites, at some instants; a test samples a few of both and has no exact constellation to compare with.", "anchors": ["helper/constellation-helper.cc:52-109", "model/constellation.cc:88-118", "model/circular-orbit.cc:144-205"]}
{"id": "C141", "title": "The elevation of launched satellites in double precision", "statement": "From the parameters given to the constellation helper, with all roundings on the way, the elevation of a launched satellite over a station is that in the exact Walker constellation to eight seconds of arc, save straight above and below, and it is heard and considered for tracking by its exact elevation unless that is within eight seconds of arc of the least angle.", "quantifier": "all constellations of up to a thousand planes of up to a thousand satellites, altitudes from 1 m to 43000 km, all inclinations, all satellites with phases up to 8400 degrees, all times up to a week, all stations a hundred kilometres and more from the satellite, all least angles", "why_tests_cant": "Decisions go wrong only near the least angle, at instants that no test meets; the error grows with the place in the launch and with the time.", "anchors": ["helper/constellation-helper.cc:52-109", "model/ground-sat-success-elevation.cc:77-108", "model/ground-node-sat-tracker-elevation.cc:95-122", "model/circular-orbit.cc:144-205"]}
