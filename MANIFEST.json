{
 "claims": [
  {
   "property": "C01",
   "status": "proved",
   "theorems": [
    "address_wire_round_trip",
    "address_copy_round_trip",
    "address_bytes_injective",
    "address_equality_is_field_equality"
   ],
   "note": "Both byte orders of the host."
  },
  {
   "property": "C02",
   "status": "proved",
   "theorems": [
    "address_decoding_strict"
   ],
   "note": ""
  },
  {
   "property": "C03",
   "status": "proved",
   "theorems": [
    "address_text_shape",
    "address_text_round_trip",
    "address_text_injective"
   ],
   "note": ""
  },
  {
   "property": "C04",
   "status": "partial",
   "theorems": [
    "malformed_text_silently_accepted_refuted",
    "address_text_exact",
    "short_text_reads_indeterminate_refuted",
    "silent_indeterminate_refuted",
    "malformed_text_partial"
   ],
   "note": "The full claim is false of the code: malformed text is accepted and short text reads uninitialised fields. address_text_exact says what is read from any text whatever, and what the stream reports."
  },
  {
   "property": "C05",
   "status": "proved",
   "theorems": [
    "ground_tag_round_trip",
    "satellite_tag_round_trip"
   ],
   "note": ""
  },
  {
   "property": "C06",
   "status": "proved",
   "theorems": [
    "satellite_found_at_its_address",
    "history_succeeds_iff_admissible"
   ],
   "note": "addresses_collide_beyond_16_bits shows that the 16-bit bound is needed."
  },
  {
   "property": "C07",
   "status": "proved",
   "theorems": [
    "size_and_listing_agree"
   ],
   "note": ""
  },
  {
   "property": "C08",
   "status": "proved",
   "theorems": [
    "slot_never_overwritten"
   ],
   "note": ""
  },
  {
   "property": "C09",
   "status": "partial",
   "theorems": [
    "lookup_out_of_bounds_refuted",
    "lookup_bounds_partial",
    "lookup_by_address_partial"
   ],
   "note": "Full claim false: the checks use <= and admit one position past the end."
  },
  {
   "property": "C10",
   "status": "partial",
   "theorems": [
    "flat_index_misses_satellites_refuted",
    "flat_index_boundary_refuted",
    "flat_index_partial"
   ],
   "note": "Full claim false on partly filled constellations and at the boundary index."
  },
  {
   "property": "C11",
   "status": "proved",
   "theorems": [
    "closest_is_closest"
   ],
   "note": ""
  },
  {
   "property": "C12",
   "status": "proved",
   "theorems": [
    "launch_order_and_elements",
    "launch_fills_constellation"
   ],
   "note": ""
  },
  {
   "property": "C13",
   "status": "partial",
   "theorems": [
    "overlaunch_rejected_refuted",
    "overlaunch_partial",
    "overlaunch_debug_float_refuted"
   ],
   "note": "Full claim false: in a release build launch P*S is undefined behaviour, not a rejection; in a debug build with binary64 angles the assertion can also be missed (13 planes). With exact angles the debug assertion always fires (partial theorem)."
  },
  {
   "property": "C14",
   "status": "proved",
   "theorems": [
    "grid_is_torus"
   ],
   "note": ""
  },
  {
   "property": "C15",
   "status": "proved",
   "theorems": [
    "device_counts"
   ],
   "note": ""
  },
  {
   "property": "C16",
   "status": "partial",
   "theorems": [
    "incomplete_rejected_refuted",
    "incomplete_partial"
   ],
   "note": "Full claim false: with one node per launched satellite the guard passes and the installer dereferences a null satellite; the partial theorem says exactly what happens on every incomplete constellation."
  },
  {
   "property": "C17",
   "status": "proved",
   "theorems": [
    "direction_is_shortest"
   ],
   "note": ""
  },
  {
   "property": "C18",
   "status": "proved",
   "theorems": [
    "geotag_delivery",
    "route_unique"
   ],
   "note": ""
  },
  {
   "property": "C19",
   "status": "proved",
   "theorems": [
    "one_reaction",
    "steered_reaction"
   ],
   "note": ""
  },
  {
   "property": "C20",
   "status": "proved",
   "theorems": [
    "best_route"
   ],
   "note": ""
  },
  {
   "property": "C21",
   "status": "partial",
   "theorems": [
    "any_table_is_safe_refuted",
    "any_table_partial"
   ],
   "note": "Full claim false: a usable face without satellite device (application face) placed before the match is a null dereference. The partial theorem characterises exactly which tables are dangerous."
  },
  {
   "property": "C22",
   "status": "partial",
   "theorems": [
    "outside_tag_rejected_refuted",
    "outside_tag_partial"
   ],
   "note": "Full claim false: on a ring of three planes a tag naming plane 10 is forwarded for ever by the strategy (only the loop detection of NFD, outside this code, would stop it). Proved: with at least 2 planes of 2 satellites it is never delivered to the ground by a satellite the tag does not name."
  },
  {
   "property": "C23",
   "status": "proved",
   "theorems": [
    "none_sends_once",
    "none_passes_all"
   ],
   "note": ""
  },
  {
   "property": "C24",
   "status": "proved",
   "theorems": [
    "slotted_aloha",
    "unslotted_aloha"
   ],
   "note": "Assumes the integer part and first 64 fraction bits of now/slot are exact (ns-3 int64x64_t division); no int64 overflow of times."
  },
  {
   "property": "C25",
   "status": "partial",
   "theorems": [
    "aloha_alone_refuted",
    "aloha_collided_passed_refuted",
    "aloha_alone_partial",
    "aloha_any_schedule",
    "aloha_apart_received"
   ],
   "note": "False when a reception starts at the instant another ends and its event runs first: it inherits the old collision flag and power. Proved for all schedules in which ends run before starts at equal times; for every other schedule the exact outcome is proved too, and that a frame meeting no other is always received."
  },
  {
   "property": "C26",
   "status": "proved",
   "theorems": [
    "aloha_idle",
    "aloha_forgets"
   ],
   "note": "All schedules, ties included."
  },
  {
   "property": "C27",
   "status": "partial",
   "theorems": [
    "aloha_capture_refuted",
    "aloha_capture_partial",
    "aloha_any_schedule"
   ],
   "note": "Same tie as C25; the exact outcome with ties is proved too. Exact arithmetic on powers, any threshold; see C115 and C116 for what rounding leaves of it."
  },
  {
   "property": "C28",
   "status": "proved",
   "theorems": [
    "crdsa_slots"
   ],
   "note": "Any permutation the shuffle may leave; same arithmetic assumptions as C24."
  },
  {
   "property": "C29",
   "status": "partial",
   "theorems": [
    "too_many_replicas_refuted",
    "too_many_replicas_partial"
   ],
   "note": "Full claim false: nothing is checked and the slot table is read past its end. Proved: this happens exactly when R > N."
  },
  {
   "property": "C30",
   "status": "proved",
   "theorems": [
    "replicas_by_inversion"
   ],
   "note": "Exact arithmetic on coefficients; at most 65536 coefficients (the result is a uint16_t)."
  },
  {
   "property": "C31",
   "status": "partial",
   "theorems": [
    "crdsa_once_refuted",
    "crdsa_once_partial"
   ],
   "note": "False when replicas of one packet overlap at the receiver. Proved for all other schedules, any capture model, ties included."
  },
  {
   "property": "C32",
   "status": "proved",
   "theorems": [
    "cancellation",
    "cancellation_settled"
   ],
   "note": "Holds of every pass free of the undefined behaviour of C33."
  },
  {
   "property": "C33",
   "status": "partial",
   "theorems": [
    "cancellation_invalid_refuted",
    "cancellation_capture_refuted",
    "cancellation_pass_invalid",
    "cancellation_invalid_partial"
   ],
   "note": "Full claim false: two collisions that run empty in one pass invalidate an iterator; reachable with three replicas, or with two and capture. Proved: exactly which passes are undefined, and that two replicas without capture never get there."
  },
  {
   "property": "C34",
   "status": "partial",
   "theorems": [
    "history_refuted",
    "history_partial"
   ],
   "note": "False when replicas of one packet overlap at the receiver. Proved for all other schedules."
  },
  {
   "property": "C35",
   "status": "partial",
   "theorems": [
    "collided_available_refuted",
    "collided_available_partial",
    "collided_available_no_capture_partial"
   ],
   "note": "Full claim false: when the last frame of the busy period is captured the others are not stored. Proved when the last frame is discarded or alone, so always without capture (no ties)."
  },
  {
   "property": "C36",
   "status": "proved",
   "theorems": [
    "ground_fifo",
    "ground_send_verdict",
    "ground_drains"
   ],
   "note": "For MACs that report once per packet (None, Aloha), any queue policy."
  },
  {
   "property": "C38",
   "status": "proved",
   "theorems": [
    "destination_of_send"
   ],
   "note": "Any MAC, any number of copies, any interleaving."
  },
  {
   "property": "C39",
   "status": "partial",
   "theorems": [
    "refused_packet_resend_refuted",
    "refused_packet_resend_partial"
   ],
   "note": "Full claim false: the tag of the first call is still on the packet and ns-3 asserts on a second tag of the same type. The partial theorem says that this happens to every refused packet."
  },
  {
   "property": "C40",
   "status": "proved",
   "theorems": [
    "downlink_fifo",
    "downlink_runs",
    "downlink_wait"
   ],
   "note": ""
  },
  {
   "property": "C41",
   "status": "proved",
   "theorems": [
    "isl_fifo"
   ],
   "note": ""
  },
  {
   "property": "C42",
   "status": "partial",
   "theorems": [
    "isl_protocol_refuted",
    "isl_protocol_partial"
   ],
   "note": "Full claim false: a packet that had to wait goes out with the protocol number of the packet before it. Proved when all packets carry the same number."
  },
  {
   "property": "C43",
   "status": "proved",
   "theorems": [
    "hears_tracked_only"
   ],
   "note": ""
  },
  {
   "property": "C44",
   "status": "proved",
   "theorems": [
    "retarget_signals"
   ],
   "note": ""
  },
  {
   "property": "C45",
   "status": "partial",
   "theorems": [
    "face_uri_refuted",
    "face_uri_partial"
   ],
   "note": "Full claim false if the station already tracks another satellite when its face is created; the partial theorem says exactly when the URI is right."
  },
  {
   "property": "C46",
   "status": "partial",
   "theorems": [
    "uplink_missing_satellite_refuted",
    "uplink_one_outcome_partial"
   ],
   "note": "Full claim false: after noticing the drop for an empty place the code uses the null device. The partial theorem gives the result in every case (no constellation, satellite in orbit, empty place, foreign constellation)."
  },
  {
   "property": "C47",
   "status": "proved",
   "theorems": [
    "downlink_per_station"
   ],
   "note": ""
  },
  {
   "property": "C48",
   "status": "proved",
   "theorems": [
    "isl_attach",
    "isl_opposite_end",
    "isl_not_linked"
   ],
   "note": "The refusals are assertions, so only in debug builds; a second attachment without success model is a null dereference (stated in isl_attach)."
  },
  {
   "property": "C49",
   "status": "partial",
   "theorems": [
    "enumeration_refuted",
    "enumeration_partial"
   ],
   "note": "Full claim false: on a partly filled constellation the flat index misses satellites. Proved when the satellites present fill the first places; count, stations and refusal beyond the end in every case."
  },
  {
   "property": "C50",
   "status": "proved",
   "theorems": [
    "periodic_tracker",
    "periodic_disabled",
    "periodic_empty"
   ],
   "note": "Update times and choices for every run; with the interval at zero nothing runs; with an empty constellation the first update is undefined behaviour."
  },
  {
   "property": "C51",
   "status": "partial",
   "theorems": [
    "elevation_tracker_refuted",
    "elevation_tracker_partial",
    "elevation_tracker_incomplete_partial",
    "elevation_tracker_chain"
   ],
   "note": "As stated it fails for a constellation with an empty place (null dereference); proved for every complete constellation, with the elevation test and the pass predictor as parameters."
  },
  {
   "property": "C52",
   "status": "partial",
   "theorems": [
    "line_of_sight_refuted",
    "line_of_sight_partial"
   ],
   "note": "Proved when ns-3's sphere has this module's Earth radius (including orbits below 80 km, where the limit is NaN); with ns-3's own 6371 km the reported positions are 9 m low and a link that dips below 80 km is let through."
  },
  {
   "property": "C53",
   "status": "partial",
   "theorems": [
    "slant_range_partial",
    "slant_range_refuted",
    "elevation_is_range"
   ],
   "note": "Right for ground points at exactly the mean Earth radius; wrong for every other ground point, for every satellite position."
  },
  {
   "property": "C54",
   "status": "proved",
   "theorems": [
    "stays_on_orbit",
    "orbit_repeats",
    "walker_motion"
   ],
   "note": "Over exact reals; also uniform motion at the Keplerian rate, and no shorter period."
  },
  {
   "property": "C55",
   "status": "partial",
   "theorems": [
    "earth_fixed_partial",
    "earth_fixed_refuted",
    "position_offset_partial",
    "predictor_distance_partial",
    "predictor_distance_refuted",
    "predicted_station_north"
   ],
   "note": "The position is the rotated inertial one exactly when ns-3's sphere has this module's Earth radius, otherwise shifted radially; the predictor distance is right for geocentric coordinates but the code hands over geodetic ones, which puts the station too far from the equator."
  },
  {
   "property": "C56",
   "status": "proved",
   "theorems": [
    "elevation_defined",
    "elevation_monotone"
   ],
   "note": "Over exact reals."
  },
  {
   "property": "C57",
   "status": "proved",
   "theorems": [
    "visibility_symmetric",
    "visibility_answers",
    "elevation_between_satellites_refuted"
   ],
   "note": "Symmetric for every pair with a ground node; the refuted theorem is about two satellites, which the statement does not claim."
  },
  {
   "property": "C64",
   "status": "proved",
   "theorems": [
    "geodetic_on_ellipsoid"
   ],
   "note": "Over exact reals."
  },
  {
   "property": "C58",
   "status": "partial",
   "theorems": [
    "capacity_partial",
    "capacity_refuted",
    "capacity_mtu_refuted"
   ],
   "note": "False when packets times 1500 passes 32 bits and when the MTU is above 1500; proved otherwise."
  },
  {
   "property": "C59",
   "status": "partial",
   "theorems": [
    "lora_partial",
    "lora_wrap_refuted",
    "lora_header_refuted",
    "lora_bandwidth_refuted"
   ],
   "note": "With exact numbers; see C94 for double precision. Bandwidths above 255 are truncated to eight bits, an empty payload at spreading factor 12 wraps and headers larger than the frame convert a negative number; proved outside those cases."
  },
  {
   "property": "C60",
   "status": "partial",
   "theorems": [
    "poisson_partial",
    "poisson_refuted"
   ],
   "note": "False when packet and header together pass 32 bits; proved otherwise.  Exact rationals."
  },
  {
   "property": "C61",
   "status": "proved",
   "theorems": [
    "install_classifies"
   ],
   "note": "For lists of distinct nodes without trackers whose satellites fit the constellation."
  },
  {
   "property": "C63",
   "status": "partial",
   "theorems": [
    "pass_partial",
    "pass_rise_partial",
    "pass_always_near",
    "pass_crossing_refuted",
    "pass_first_refuted"
   ],
   "note": "False for a root finder within its contract: with both ends of the search on the same side the error is ignored, and an earlier pass may be skipped.  Proved: the window, a crossing within a second unless the satellite is nearer than the target at the answer, and a single rise is found."
  },
  {
   "property": "C65",
   "status": "partial",
   "theorems": [
    "search_never_ends",
    "search_refuted",
    "search_answer_partial"
   ],
   "note": "The search never ends for a satellite that never comes near enough; any answer comes from the first window that has one."
  },
  {
   "property": "C37",
   "status": "partial",
   "theorems": [
    "crdsa_one_at_a_time_refuted",
    "crdsa_transmission_partial"
   ],
   "note": "Refuted: with two replicas the end of each replica makes the device take another packet, so two packets are on the air at once (concrete whole-network run). Proved for any number of replicas and any schedule: nothing fails, FIFO without loss, each packet on the air at most as often as the MAC wants, and exactly that often once the MAC has worked on."
  },
  {
   "property": "C62",
   "status": "proved",
   "theorems": [
    "network_refines_parts",
    "uplink_provenance_none",
    "uplink_provenance_aloha",
    "uplink_provenance_crdsa",
    "crdsa_whole_frame_refuted",
    "uplink_at_most_once_none",
    "uplink_at_most_once_aloha",
    "uplink_safe_none",
    "uplink_safe_aloha",
    "uplink_exact_none"
   ],
   "note": "Any number of stations and satellites, any schedule of sends, retargetings and power changes, any delays, losses and success outcomes that depend on time. Beyond the claim: no failures, the network comes to rest, exact accounting for the trivial MAC, and provenance with CRDSA (where the packet may be passed up before its frame has ended; refutation of the stronger form)."
  },
  {
   "property": "C66",
   "status": "proved",
   "theorems": [
    "downlink_network_parts",
    "downlink_network_conserves",
    "downlink_provenance",
    "downlink_network_safe",
    "downlink_network_rests",
    "downlink_outcomes"
   ],
   "note": "Any number of satellites and stations, any schedule of sends and retargetings, any delays and success outcomes that depend on time, packet and pair. Packets are given to at most one satellite once (a packet tag still set is an assertion, C40); addresses are made by the constructor."
  },
  {
   "property": "C67",
   "status": "proved",
   "theorems": [
    "isl_network_safe",
    "isl_network_rests",
    "isl_network_conserves",
    "isl_in_order",
    "isl_delivers"
   ],
   "note": "Any number of linked pairs; no condition on the packets. Order under the stated condition on delays (true for constant delays, needed: isl_overtaking_case). The protocol number is that of C42."
  },
  {
   "property": "C68",
   "status": "proved",
   "theorems": [
    "downlink_faces",
    "downlink_faces_once",
    "downlink_faces_all"
   ],
   "note": "Any number of satellites, stations and schedules, NDN blocks mixed with packets of other protocols. Each face sends a fresh packet, as the code does."
  },
  {
   "property": "C69",
   "status": "proved",
   "theorems": [
    "uplink_faces_none",
    "uplink_faces_aloha",
    "uplink_faces_all"
   ],
   "note": "Any number of stations, satellites and schedules, mixed traffic."
  },
  {
   "property": "C70",
   "status": "partial",
   "theorems": [
    "isl_faces_refuted",
    "isl_faces_partial",
    "isl_faces_all"
   ],
   "note": "Refuted for mixed traffic: the inter-satellite device replaces the protocol number (C42), so the face reads a foreign packet as an NDN block. Proved when only NDN is sent: safe, only from the peer, at most once, and exactly and in order without losses and overtaking."
  },
  {
   "property": "C71",
   "status": "partial",
   "theorems": [
    "faces_end_refuted",
    "faces_end_partial"
   ],
   "note": "Refuted on every node: the protocol handler and the signal slot are never removed, so a closed face still gets blocks and a destroyed one is used. Proved: exactly when a run is undefined (an NDN frame or a change of satellite for a device one of whose faces was destroyed), and exactly what is seen otherwise."
  },
  {
   "property": "C72",
   "status": "partial",
   "theorems": [
    "walker_motion",
    "plane_keeps_shape",
    "links_across_planes_partial",
    "links_alike_partial",
    "links_alike_refuted"
   ],
   "note": "Motion and in-plane shape proved for every launch, with the exact condition for an in-plane link. Alike links: refuted, the satellites across the seam are F slots apart (three planes of two, phasing 1); proved for all links but the seam, for the seam to the satellite F slots on, and for all links when F is a multiple of the number of slots."
  },
  {
   "property": "C73",
   "status": "proved",
   "theorems": [
    "installed_is_linked",
    "installed_neighbours"
   ],
   "note": "Every size, every order of launching. The channel is built by the attaching function of C48."
  },
  {
   "property": "C74",
   "status": "proved",
   "theorems": [
    "relay_safe",
    "relay_accounts",
    "relay_ends",
    "relay_takes_time"
   ],
   "note": "Any size, schedule, delays, success outcomes and queue limits. Interests that come in more than once are counted each time, and none is a suppressed retransmission at any satellite (C18); forwarding tables list the faces of the node. NFD is taken as calling the strategy for each Interest; Nacks and Data are not carried."
  },
  {
   "property": "C75",
   "status": "proved",
   "theorems": [
    "journey_safe",
    "journey_provenance",
    "journey_once",
    "journey_rests",
    "journey_all",
    "journey_macs"
   ],
   "note": "Any size, number of stations, schedule, retargetings, delays and losses; the satellites' MAC models are the trivial one and ALOHA (journey_macs), stations may use any of the three. Exact delivery for the trivial model without losses. Same scope for NFD as C74: Interests only."
  },
  {
   "property": "C76",
   "status": "proved",
   "theorems": [
    "script_builds",
    "script_devices",
    "script_link_up",
    "script_channels",
    "script_constellations",
    "script_links"
   ],
   "note": "Any script over any number of channels, helpers and nodes, in both directions. Exact rational launch angles (as C12). Mobility models are set before the script; queues and MAC attributes are not kept."
  },
  {
   "property": "C77",
   "status": "partial",
   "theorems": [
    "channel_two_way_refuted",
    "uplink_reaches",
    "downlink_offers",
    "channel_two_way_partial"
   ],
   "note": "Refuted: installation on a single node never tells the channel of the constellation, so such stations reach nobody; a second constellation on a channel makes the first unreachable by assertion; satellites on other channels, or on none, are reached. Proved: a frame reaches a satellite exactly if the station's channel was last told of that satellite's constellation, and what happens otherwise; the downlink exactly; both ways when channel and constellation are kept together."
  },
  {
   "property": "C78",
   "status": "partial",
   "theorems": [
    "tracker_own_device_refuted",
    "tracker_follows_refuted",
    "tracker_finds_last",
    "tracker_sees_last_told",
    "tracker_own_device_partial"
   ],
   "note": "Refuted: with two trackers on a node both steer the last ground device; the constellation seen first is kept. Proved: exactly which device and constellation are found at first use, and the claim for nodes with one ground device."
  },
  {
   "property": "C79",
   "status": "partial",
   "theorems": [
    "links_on_nodes_refuted",
    "links_on_nodes_partial"
   ],
   "note": "Refuted: satellites of one constellation with the helper of another get no links, those of the other do. Proved for distinct satellites of the constellation passed."
  },
  {
   "property": "C80",
   "status": "proved",
   "theorems": [
    "motion_bounded",
    "motion_bound_best"
   ],
   "note": "Exact reals, any radius of ns-3's sphere."
  },
  {
   "property": "C81",
   "status": "proved",
   "theorems": [
    "station_follows",
    "station_reaches",
    "always_closest_refuted"
   ],
   "note": "Exact reals; the station stays where it is. That it follows the closest at all times is refuted (not claimed)."
  },
  {
   "property": "C82",
   "status": "partial",
   "theorems": [
    "elevation_watches",
    "elevation_station_reaches",
    "elevation_lasts_refuted",
    "elevation_lasts_partial",
    "elevation_stuck"
   ],
   "note": "Proved for predictions exact to the tick. Refuted for predictions whose part below a tick is cut off, as Seconds (double) does: when every visible satellite is lost within the tick the tracker wakes up at the same time for ever. Proved for those: what is followed can be seen, and it lasts while at each tick some satellite can be seen for one more tick. The predictor itself is C63 and C65."
  },
  {
   "property": "C83",
   "status": "proved",
   "theorems": [
    "elevation_fewest",
    "elevation_fewest_met"
   ],
   "note": "Predictions exact to the tick, as in C82."
  },
  {
   "property": "C84",
   "status": "proved",
   "theorems": [
    "busy_periods_decoded",
    "slots_decoded",
    "slots_decoded_memory_refuted",
    "slots_decoded_capture_refuted"
   ],
   "note": "For schedules that the receiver survives (C35, C87). Refuted without its conditions: when the receiver forgets part of a frame, or when a strong frame is captured."
  },
  {
   "property": "C85",
   "status": "proved",
   "theorems": [
    "frames_arrive",
    "frames_arrive_at_rest"
   ],
   "note": "Powers and times are integers."
  },
  {
   "property": "C86",
   "status": "proved",
   "theorems": [
    "crdsa_uplink",
    "crdsa_uplink_guard_refuted"
   ],
   "note": "For runs that do not fail (C87). Refuted without the guard time."
  },
  {
   "property": "C87",
   "status": "partial",
   "theorems": [
    "crdsa_uplink_safe_partial",
    "crdsa_uplink_safe_refuted"
   ],
   "note": "Proved for at most two replicas. Refuted for three: two collisions run empty in one pass of the cancellation and the loop continues over an erased entry."
  },
  {
   "property": "C88",
   "status": "proved",
   "theorems": [
    "slotted_aloha_uplink"
   ],
   "note": "That the network never fails and comes to rest is part of C62."
  },
  {
   "property": "C89",
   "status": "partial",
   "theorems": [
    "aloha_uplink_partial",
    "aloha_uplink_capture_partial",
    "aloha_uplink_refuted",
    "aloha_uplink_apart"
   ],
   "note": "Proved when no frame begins at the satellite at the very instant another ends there. Refuted otherwise: the arrival was scheduled before the end, runs first, and inherits the collision."
  },
  {
   "property": "C90",
   "status": "proved",
   "theorems": [
    "traces_ground_neutral",
    "traces_satellite_neutral",
    "downlink_traces",
    "isl_traces",
    "ground_traces",
    "ground_traces_once",
    "reception_traces"
   ],
   "note": "For a MAC that sends several copies the ends are counted, not matched one to one with the beginnings."
  },
  {
   "property": "C91",
   "status": "partial",
   "theorems": [
    "ascii_accounts",
    "capture_partial",
    "capture_promiscuous_refuted"
   ],
   "note": "Proved for ASCII traces and for captures in normal mode. Refuted in promiscuous mode: the helpers ask for a source no device declares, so a debug build stops and another writes an empty file."
  },
  {
   "property": "C92",
   "status": "partial",
   "theorems": [
    "icarus_settings_run",
    "isl_settings_run",
    "icarus_device_said",
    "icarus_device_runs",
    "icarus_channel_said",
    "isl_link_said",
    "isl_link_runs",
    "icarus_unset",
    "isl_unset",
    "settings_meant_partial",
    "settings_meant_refuted"
   ],
   "note": "Proved with the last value given in any call since the helper was made instead of in the last call: the factories keep what was set for a type that was replaced. That the last call alone decides is proved exactly when what was given only earlier are defaults, and refuted otherwise: CRDSA with three replicas, then Aloha, then CRDSA again has three replicas."
  },
  {
   "property": "C93",
   "status": "partial",
   "theorems": [
    "queue_names",
    "queue_size_given",
    "device_mtu_range",
    "device_attribute_partial",
    "device_attribute_refuted",
    "channel_attribute_refuted",
    "isl_success_never",
    "isl_success_refuted"
   ],
   "note": "Proved for queues and for the five device attributes both kinds of device have. Refuted for the success model of inter-satellite links (its name is completed as if it were a queue: after the call no link can be made), for device attributes that only one kind of device has, and for the success model given as an attribute of the channel (replaced on installation)."
  },
  {
   "property": "C94",
   "status": "partial",
   "theorems": [
    "lora_double_exact",
    "lora_double_partial",
    "lora_double_refuted"
   ],
   "note": "Symbols and link rate are exact. The frame size is exact except when it lies halfway between two: then it may be one byte less, as for spreading factor 8, coding rate 6, preamble 8 and payload 15."
  },
  {
   "property": "C95",
   "status": "proved",
   "theorems": [
    "replicas_double_right",
    "replicas_every_sample_refuted"
   ],
   "note": "The generator of ns-3 gives multiples of 1/(2^32 - 208) below one; for one giving every double below one the call could abort, which is proved too."
  },
  {
   "property": "C96",
   "status": "proved",
   "theorems": [
    "closest_double_near",
    "closest_double_refuted"
   ],
   "note": "Without the tolerance it is false, which is proved too."
  },
  {
   "property": "C97",
   "status": "proved",
   "theorems": [
    "within_double_near",
    "isl_within_double"
   ],
   "note": ""
  },
  {
   "property": "C98",
   "status": "proved",
   "theorems": [
    "poisson_traffic",
    "poisson_traffic_refuted"
   ],
   "note": "Times exact, not in double precision. Packets of 2^29 bytes and more are excluded: the size in bits passes 32 bits, and for 2^31 bytes packets leave without end, which is proved too."
  },
  {
   "property": "C99",
   "status": "partial",
   "theorems": [
    "lora_traffic",
    "lora_link_use",
    "lora_frames_refuted",
    "lora_rate_refuted"
   ],
   "note": "Proved when the bytes of all frames fit 64 bits and the application's rate is at least one bit per second; false otherwise, which is proved too."
  },
  {
   "property": "C100",
   "status": "partial",
   "theorems": [
    "instance_made",
    "instance_fails",
    "instance_made_refuted"
   ],
   "note": "Proved exactly when an instance can be made, and that its sizes are those of the constellation that the channel of the last node's first device was told of. That it always can is false: any node made after the last station prevents it."
  },
  {
   "property": "C101",
   "status": "partial",
   "theorems": [
    "instance_delivers_partial",
    "instance_delivers_refuted"
   ],
   "note": "Proved for the constellation that the last station serves, whatever else was installed; false for other constellations in the same scenario, whose satellites use its sizes."
  },
  {
   "property": "C102",
   "status": "proved",
   "theorems": [
    "device_settings"
   ],
   "note": "For addresses the bytes given are read back with the type of the class; inter-satellite devices always answer with the broadcast address."
  },
  {
   "property": "C103",
   "status": "partial",
   "theorems": [
    "device_notices",
    "device_retargets",
    "device_link_signalled_partial",
    "device_link_signalled_refuted"
   ],
   "note": "Proved for attaching, with exactly when each callback is called; false when the channel is set through the attribute of that name."
  },
  {
   "property": "C104",
   "status": "partial",
   "theorems": [
    "device_channels",
    "device_on_channel_partial",
    "device_on_channel_refuted"
   ],
   "note": "Proved exactly which devices a channel lists, and the claim where no device is attached twice and channels are only set by attaching; false otherwise."
  },
  {
   "property": "C105",
   "status": "partial",
   "theorems": [
    "device_serves_partial",
    "device_passes_up",
    "device_mtu_refuted"
   ],
   "note": "Proved for packets of every size, so also for longer ones than the MTU: that those are refused is false."
  },
  {
   "property": "C106",
   "status": "partial",
   "theorems": [
    "resend_rate_partial",
    "resend_rate_refuted"
   ],
   "note": "Proved for Interests that live 250 ms or more, with a case that meets the bound exactly; with shorter ones two Interests may leave 2 ms apart."
  },
  {
   "property": "C107",
   "status": "partial",
   "theorems": [
    "every_tag_steers_partial",
    "every_tag_steers_refuted"
   ],
   "note": "Proved when nothing was sent for the name in the last 250 ms; otherwise an Interest with another tag may be held back because of the first."
  },
  {
   "property": "C108",
   "status": "proved",
   "theorems": [
    "data_to_all_waiting"
   ],
   "note": "Who waits is told from what came and what left only."
  },
  {
   "property": "C109",
   "status": "partial",
   "theorems": [
    "nacks_to_all_links",
    "no_route_to_all_partial",
    "no_route_to_all_refuted"
   ],
   "note": "Nacks from all upstreams reach every waiting neighbour with the least severe reason, and nobody on the ground. Without a usable next hop only the last one to ask is told; the others are dropped and Data that comes is for nobody."
  },
  {
   "property": "C110",
   "status": "proved",
   "theorems": [
    "flight_prepared",
    "flight_addresses"
   ],
   "note": "cases voyage_fleet, voyage_in_order"
  },
  {
   "property": "C111",
   "status": "proved",
   "theorems": [
    "flight_safe"
   ],
   "note": "case voyage_aimed"
  },
  {
   "property": "C112",
   "status": "proved",
   "theorems": [
    "flight_all"
   ],
   "note": "case voyage_case: three planes of four, three stations; Interests are not answered"
  },
  {
   "property": "C113",
   "status": "partial",
   "theorems": [
    "examples_build_partial",
    "islping_builds_refuted",
    "fleet_builds",
    "grid_builds",
    "grid_fleet",
    "small_fleets"
   ],
   "note": "Proved for all programs that use the helpers but isl-vostping, for which it is false: that one follows a null pointer."
  },
  {
   "property": "C114",
   "status": "partial",
   "theorems": [
    "ping_all_partial",
    "ping_all_refuted"
   ],
   "note": "Proved if the other station stays pointed at the satellite; false if it is turned while an Interest is under way."
  },
  {
   "property": "C115",
   "status": "partial",
   "theorems": [
    "power_default_partial",
    "power_default_same",
    "power_default_refuted",
    "power_judged"
   ],
   "note": "Proved unless, in a stretch of n frames, the others together are less than n/2^50 as strong as the frame; two frames 160 dB apart refute the rest. log10 and the conversion from dBm are not modelled."
  },
  {
   "property": "C116",
   "status": "proved",
   "theorems": [
    "power_threshold"
   ],
   "note": "case power_threshold_case; the comparison of the logarithm is any predicate that is right but within a millionth of the threshold"
  },
  {
   "property": "C117",
   "status": "proved",
   "theorems": [
    "crdsa_power_threshold",
    "crdsa_power_default",
    "crdsa_power_refuted"
   ],
   "note": "case crdsa_power_case; crdsa_power_refuted shows that the condition is needed"
  },
  {
   "property": "C118",
   "status": "proved",
   "theorems": [
    "return_safe",
    "return_answered",
    "return_rests",
    "return_late_refuted"
   ],
   "note": "case return_case; return_late_refuted: beyond the lifetime of the first Interest a suppressed one can be left waiting, since suppression prolongs the record at one satellite only"
  },
  {
   "property": "C119",
   "status": "proved",
   "theorems": [
    "geodetic_height",
    "station_near",
    "predictor_off",
    "next_time_off",
    "next_elevation_off",
    "try_time_next",
    "try_elevation_next",
    "next_try",
    "predictor_far"
   ],
   "note": "cases next_time_case and next_elevation_case; predictor_far shows the error of predictor_off with a station at 45 degrees and a satellite at 500 km"
  },
  {
   "property": "C120",
   "status": "partial",
   "theorems": [
    "geodetic_double_partial",
    "polar_fails",
    "polar_refuted"
   ],
   "note": "cases library_case, double_case. The full claim is converts_all, refuted: on the polar axis zero is divided by zero, the latitude is not a number and an assertion fails, whatever the library. geodetic_double_partial: proved from 640 m off the axis and a billionth of a radian off the date line, heights -3000 to 100000 km; missing: the points nearer to the axis without being on it, the date line itself, and greater heights"
  },
  {
   "property": "C121",
   "status": "partial",
   "theorems": [
    "trip_safe",
    "trip_served",
    "trip_partial",
    "trip_turned_refuted",
    "trip_producer_refuted"
   ],
   "note": "Proved if a station is not turned while it waits (or asks again where it is turned to: trip_served) and the producer stays pointed at the tagged satellite; false if either is turned. Cases trip_case and trip_again. No frame is lost, no content store"
  },
  {
   "property": "C122",
   "status": "proved",
   "theorems": [
    "recover_safe",
    "recover_exact"
   ],
   "note": "The silence needed is exactly RETX_SUPPRESSION_MAX. Case recover_case"
  },
  {
   "property": "C123",
   "status": "proved",
   "theorems": [
    "round_exact"
   ],
   "note": "Exact: the claim holds for k times d on top of the hops if and only if k is at least 4. Case round_case"
  },
  {
   "property": "C124",
   "status": "proved",
   "theorems": [
    "down_delay",
    "isl_delay"
   ],
   "note": "Exact: the claim holds for (n + k) T + D if and only if k is at least 1. Case delay_case; it bounds the d of C123 for downlinks and inter-satellite links"
  },
  {
   "property": "C125",
   "status": "proved",
   "theorems": [
    "up_delay",
    "slot_delay",
    "crdsa_delay"
   ],
   "note": "All exact: (n + k) T + D if and only if k is at least 1; the bounds with slots and with frames plus k if and only if k is at least 0. Cases up_delay_case and crdsa_delay_case. When CRDSA passes packets up is C127"
  },
  {
   "property": "C126",
   "status": "partial",
   "theorems": [
    "face_uris_are",
    "remote_end",
    "same_local",
    "local_uris_partial",
    "node_faces_partial",
    "node_faces_refuted",
    "local_uris_refuted"
   ],
   "note": "False as a whole (node_faces_refuted, local_uris_refuted): all faces of links have the broadcast address as local and remote URI, and all faces of satellites to the ground have the local URI netdev://. Proved exactly: which URIs every device gets, when two local URIs are the same, and that on one node two faces have the same URIs just when both are of links, as long as the 48-bit addresses neither run out nor reach the broadcast address; the remote end is always the other end. Case uri_case"
  },
  {
   "property": "C127",
   "status": "proved",
   "theorems": [
    "crdsa_up_delay",
    "crdsa_up_anyway_refuted"
   ],
   "note": "Exact: the bound plus k holds if and only if k is at least 0. Hypothesis guarded: the delays of all stations to a satellite differ by less than the guard time of the slot and than a transmission; without it the claim is false (crdsa_up_anyway_refuted: a chain of collisions over stations at different distances). No capture: a collision is decoded only by cancellation. Case crdsa_up_case"
  },
  {
   "property": "C128",
   "status": "proved",
   "theorems": [
    "device_kinds"
   ],
   "note": "Both directions for IsPointToPoint and IsBroadcast. Hypothesis: some node has a mobility model, without which no station can be attached. Case device_kinds_case. The other constants (IsMulticast, IsBridge, NeedsArp) are only transcribed"
  },
  {
   "property": "C129",
   "status": "partial",
   "theorems": [
    "by_hand_links",
    "by_hand_frames",
    "by_hand_remote_partial",
    "by_hand_fails",
    "by_hand_order_refuted",
    "by_hand_remote_refuted"
   ],
   "note": "Proved exactly which calls succeed and how the others fail, what is then installed, where frames go, and for which ends the face is made for the other end. False: in either order (the second node must fly, else a null pointer is followed), and faces of a node linked with itself. Case by_hand_case"
  },
  {
   "property": "C130",
   "status": "proved",
   "theorems": [
    "rounds_listed",
    "slots_chosen",
    "slots_even",
    "slot_used"
   ],
   "note": "By counting: the ways to draw are listed once each, and equally many lead to each choice. std::shuffle is modelled as libstdc++ has it, with the draws as arguments; that the draws are equally likely is left to ns-3 and the standard library. Case shuffle_case"
  },
  {
   "property": "C131",
   "status": "partial",
   "theorems": [
    "poisson_shared_partial",
    "poisson_shared_refuted",
    "streams_own",
    "streams_given_partial",
    "streams_given_refuted"
   ],
   "note": "Proved for every interleaving: no failure, each value used once, each application sends at the partial sums of its own values. False: the helper hands the same variable to all applications, so what a node sends changes when another is added, and AssignStreams leaves all on the last stream while it claims two for each. LoRa applications do get their own. Cases shared_case, streams_case"
  },
  {
   "property": "C132",
   "status": "partial",
   "theorems": [
    "elevation_double_near",
    "elevation_decided_partial",
    "elevation_decided_refuted"
   ],
   "note": "Proved for elevations a micro-radian and more away from straight overhead, and that no satellite too low is ever heard. False overhead: the quotient given to asin may round to more than 1 (witness with coordinates in whole metres), the elevation is then not a number and the satellite is neither heard nor considered, whatever the angle. Cases some_library, elevation_double_case"
  },
  {
   "property": "C133",
   "status": "proved",
   "theorems": [
    "motion_double",
    "anomaly_double"
   ],
   "note": "The functions of the C library and the constants of boost are any within 10^-15; some_orbit_library shows there are such. Case motion_double_case"
  },
  {
   "property": "C134",
   "status": "proved",
   "theorems": [
    "latitude_double_defined",
    "position_double",
    "earth_motion_is"
   ],
   "note": "The functions of the C library are any within 10^-15, the factors between degrees and radians any within the last digits, and the radius of the sphere of ns-3 any between 6300 and 6400 km; some_fixed_library shows there are such. Case position_double_case"
  },
  {
   "property": "C135",
   "status": "proved",
   "theorems": [
    "elevation_from_orbit",
    "closest_from_orbits"
   ],
   "note": "Composes C96, C132 and C134. some_sight_library shows that there are libraries as asked for. Case sight_case"
  },
  {
   "property": "C136",
   "status": "proved",
   "theorems": [
    "link_from_orbits",
    "plane_link_steady"
   ],
   "note": "Composes C97 and C134. Case plane_link_case"
  },
  {
   "property": "C137",
   "status": "proved",
   "theorems": [
    "launch_double",
    "degrees_exact"
   ],
   "note": "Launching one more than fits is C13, where the assertion can be missed by rounding. Case launch_double_case"
  },
  {
   "property": "C138",
   "status": "proved",
   "theorems": [
    "walker_double"
   ],
   "note": "Composes C133, C134 and C137; the radius is the rounded sum of the altitude and that of the Earth. Phases above 8400 degrees, which need a phasing above twenty times the plane size, are left out as C133 is for phases up to 150 radians. Cases walker_double_case and walker_shell_case"
  },
  {
   "property": "C139",
   "status": "proved",
   "theorems": [
    "ring_links"
   ],
   "note": "Composes C97 and C138. Case ring_links_case"
  },
  {
   "property": "C140",
   "status": "proved",
   "theorems": [
    "launched_closest"
   ],
   "note": "Composes C96 and C138; launched_devices shows that the grid holds exactly the devices launched. Case launched_closest_case"
  },
  {
   "property": "C141",
   "status": "proved",
   "theorems": [
    "launched_heard"
   ],
   "note": "Composes C132 and C138. Straight above, where C132 refutes it, is left out. Case launched_heard_case"
  }
 ]
}