# Design of the formal model

Subject: the C++ sources in `/repo` (icarus-ndnsim, an ns-3 module for LEO constellations).
Prover: Rocq (Coq 8.16.1). Everything is under `rocq/theories`, logical name `Verif`.
The code was never built or run; every definition cites the file and lines it transcribes.

## 1. Trusted base

* Coq's kernel (and `coqchk`), the standard library.
* `Print Assumptions` is run on every theorem that `MANIFEST.json` names. All files that do not
  mention real numbers are closed under the global context: no axiom at all. The files `Orbit*`, `Pass*`,
  `Walker*`, `Tracking*` and those built on them use the standard library reals and list only axioms of that library:
  `ClassicalDedekindReals.sig_forall_dec`, `ClassicalDedekindReals.sig_not_dec`,
  `FunctionalExtensionality.functional_extensionality_dep`, `Classical_Prop.classic`.
  `ConformProps.v`, on which nothing else depends, computes with the `interval` tactic of the library
  Coq-Interval (installed with Coquelicot); its examples also list the standard library's axioms of 63-bit
  integers (`PrimInt63`, `Uint63`), and no axiom of Interval.
  No axiom of our own, no section-less `Variable`/`Hypothesis`, no functor or module type, no kernel
  check switched off.
* The transcription from C++ to Gallina, by reading. What is kept and what is simplified is said
  at each definition and summarised in section 3.
* The behaviour of what is outside `/repo` (ns-3, NFD, GSL, the C++ library), as described in 2.

## 2. Modelling conventions

* **Outcomes.** A C++ call that can stop has type `result A`:
  `Ok a | Assert | Abort | UB`. `Assert` is a failed `NS_ASSERT*` (active in the debug builds the
  project tests with), `Abort` is `NS_ABORT*`, `UB` is undefined behaviour: out-of-bounds access, null
  dereference, use of an invalidated iterator, reading an indeterminate value. `UB` is never assumed
  away: either it is proved unreachable under a stated precondition or a `_refuted` theorem exhibits it.
* **Integers.** Fixed width unsigned values that the code truncates are `N`/`Z` with explicit `mod 2^w`;
  where overflow is impossible or is part of the stated precondition they are `nat`/`N`/`Z`.
* **Time** is `Z` (ns-3 time steps). `int64x64` quotients of two times are modelled as
  integer part plus 64-bit fraction, `floor(r*2^64/d)`.
* **Simulator.** ns-3 executes events by (time, scheduling order). Two styles are used:
  an operation list, where the environment chooses any order ns-3 could choose (each op carries its time,
  completions may only fire when due, FIFO among completions due at the same time), and, for the whole
  uplink, a concrete event queue ordered by (time, uid) as in ns-3. The first over-approximates every
  environment, so theorems proved there hold for all schedules; refutations are given with concrete
  schedules.
* **Callbacks, random variables, numeric root finders, queues, NFD tables** are parameters
  (arguments or closed-section variables), so theorems quantify over them.
* **Reals.** The geometry is modelled over the exact reals `R`. Floating point rounding is not modelled,
  except in `Double` and for the launch angle sum; positions, angles and times are not computed in double precision there.
* **False claims.** Where the code does not do what a user relies on, the property keeps its full
  statement, a theorem `..._refuted` gives a concrete counterexample evaluated by the kernel, and a theorem
  `..._partial` states what does hold. Those properties have status `partial` in the manifest.

## 3. Per property: model and proof

File prefixes refer to `rocq/theories/<prefix>{Model,Spec,Proofs,Props}.v`. Model files hold only
definitions citing the code; Spec files hold the independent statements; Props files hold the
theorems, examples and `Print Assumptions`.

| Id | Modelled | Proof |
|----|----------|-------|
| C01, C02 | `SatAddr`: field ↔ byte functions, generic address record with type, length, bytes | arithmetic on bytes, case analysis |
| C03, C04 | `AddrText`: character streams, `getline`, C++ hexadecimal extraction (value, flags, indeterminate values) | induction on digits; refutation for malformed text |
| C05 | `SatAddr`: tag serialisation over a byte buffer of the declared size | round trip |
| C06–C11 | `Constellation`: vector of vectors of optional devices, checks as written | history induction; fold lemmas; refutations for the off-by-one checks and flat index |
| C12, C13 | `Launch`: helper state with rational angles on top of the constellation | induction on launches; refutation at launch P*S |
| C14–C16 | `Isl`: loops emitting link pairs, device lists per node | membership/NoDup of nested loops, degree counting; refutation for holes |
| C17–C22 | `GeoTag`, `GeoTagRoute`, `GeoTagNetProps`: C `int`/`size_t` arithmetic of `getTarget`, `find_if` over next hops, NFD eligibility, hops over the installed grid | modular arithmetic, induction on hops; refutations |
| C23–C27 | `Rx` (receptions under the simulator), `Aloha` (and trivial MAC): receiver state machine over all schedules | invariants relating the receiver state with the set of receptions in progress |
| C28–C35 | `Crdsa`, `CrdsaRun`, `CrdsaOnce`, `CrdsaSafe`: slot selection, busy periods, cancellation loop | permutation lemmas, invariants, well-founded measure; refutations |
| C36–C45 | `Device`, `DeviceCopies`: transmission state machines, tags, tracked address, URI | invariants over all operation lists; refutations |
| C46–C49 | `Channel`: per-transmission outcomes with visibility, delay, loss as parameters | case analysis, list lemmas; refutations |
| C50, C51 | `Tracker`: update processes over oracle positions/elevations | induction over runs, argmax lemma |
| C52–C57, C64 | `Orbit` over `R` | algebra/trigonometry; refutations where two Earth radii are mixed |
| C58–C61 | `Helpers`: transport capacity, LoRa integers, Poisson means, installation | arithmetic; refutations |
| C62 | `System`, `SystemMacs`: event-queue simulation of stations, MAC, channel, satellite devices | the network refines the single devices; invariant over all reachable states |
| C66 | `Link` (devices that send as soon as they can, a channel, receivers, one event queue), `Down`: satellites and ground stations | generic invariant over all reachable states, instantiated; termination by a lexicographic measure |
| C67 | `Link`, `IslNet`: linked satellites | the same invariant; a sorted prefix argument for the order |
| C68–C70 | `Face`: faces (`doSend`, `receiveFromNetDevice`) on any network that sends and passes up packets; instances for `Down`, `System`, `IslNet` | the network run is the run of its device calls; the theorems of C62, C66, C67 carried to blocks |
| C71 | `Life`: the transports of one node from constructor to destructor, handlers and signal slots | invariant told by the history, exact outcome; refutation |
| C72 | `Walker`: launched elements (`Launch`, rationals) put on orbits (`Orbit`, reals) | rotations, phase arithmetic modulo a turn; refutation |
| C73, C74 | `Relay` (and `IslCount`): the wiring that installing leaves; Interests handed from face to strategy to face on every satellite, over `IslNet` | invariant for any strategy that brings Interests nearer, counting by weighted sums; instance: geo-tag on a launched grid |
| C75 | `Journey`: `System`, `Relay` and `Down` under one clock; what a satellite's face to the ground gets goes to its strategy, what its strategy sends to the ground goes to its downlink device | each network sees a run of its own, so its theorems apply; books between them; termination by a lexicographic measure |
| C76–C79 | `Setup` (with `SetupRun`): any script of helper calls over several channels and constellations, with null pointers; the channels, devices, trackers and links it leaves | one invariant that reads the world off the calls, both directions of "runs through"; refutations by small scripts |
| C80–C83 | `Tracking`: the trackers of C50, C51 over the orbits of C54, C55 | chord bounds and the triangle inequality; induction over updates, exchange argument for the fewest handovers; refutations |
| C84 | `Peel`, `Slot`: the receiver of C28–C35 against the least set closed under peeling | both inclusions by invariants over busy periods; slots make busy periods; refutations |
| C85 | `Uplink`: `System` of C62 with any access scheme | one multiset invariant over all reachable states |
| C86, C87 | `CrdsaNet`: `System` with CRDSA stations and receivers | slots at the stations become slots at the satellite, then C84 and C85; the invariants of C62 and C35; refutations |
| C88, C89 | `AlohaNet`: `System` with Aloha stations and receivers | C85 turns C25 and C27 into statements about transmissions; slots as in C86; refutation |
| C90, C91 | `Trace`: the devices of C36–C43 with every trace source they fire, in program order; the files the helpers make from them | leaving the traces out gives back the devices; invariants over all runs; refutation |
| C92, C93 | `Config`: ns-3's type registry and object factories, the setters of both helpers and what installing makes, the types and attributes the module registers | a factory knows the last value given to each declaration, by induction over the calls, for any registry; refutations on the module's registry |
| C94–C97 | `Double`: LoRa sizes and rates, the sampling of replicas, squared distances, the closest satellite and the tests of distance in IEEE 754 double precision (Flocq's executable operations) | relative error of each rounding, added up; a quotient of small integers keeps away from the next integer by more than the error; refutations at ties by evaluation |
| C98–C99 | `Traffic`: ns-3's on/off application (events, residual bits, byte limit) with the attributes the Poisson and LoRa helpers set | invariant over the events of a cycle; for LoRa an invariant on bits kept over interruptions, with a measure for the next frame |
| C100–C101 | `Instance`: the constructor of the geo-tag strategy in a scenario built by `Setup`, and the network its instances then look at | characterisation by the script; hop-by-hop descent of the torus distance on any network that is a torus around the satellites concerned, instantiated with the invariant of `Setup` |
| C102–C105 | `NetDev`: members, attachments and answers of the three device classes | invariants over any sequence of calls; refutations |
| C106–C109 | `Pending`: one PIT entry of one node under the strategy: in- and out-records, suppression, expiry, Nacks, Data | invariants over any history; refutations |
| C110–C112 | `Flight` | from the world a script of helper calls leaves (C76–C80, C100–C101) to the mission of C75, and what follows for it |
| C113–C114 | `Examples` | the calls of the helpers in the programs under examples/, and what follows for them from C76 and C110–C112 |
| C115–C116 | `Power`: Aloha with powers in double precision | C23–C27 give the frames of every stretch; error bounds for sum, difference and ratio; refutation |
| C117 | `CrdsaPower`: CRDSA with powers in double precision | simulation: as long as Aloha decides alike with exact and with rounded powers, so does CRDSA; then C115–C116 |
| C118 | `Return`: one name in a whole constellation, from Interests below any satellites to the Data | invariant: every entry away from the target has, towards the target, an Interest on the way, a record, or Data coming back; Interests go to nearer and Data to farther satellites, so all comes to rest |
| C119 | `Geodetic`: stations at any height, and the error of the pass predictor | the loop is a contraction by 1/40 around the geodetic latitude; in the meridian plane the station is split along and across its vertical |
| C120 | `GeoDouble`: the conversion of positions in double precision (partial: fails on the polar axis) | error bounds for each operation; dividing by `v` is multiplying by the cosine; perturbed contraction |
| C121 | `Trip`: stations, producer and constellation together | every station that waits has an Interest on the way up, an in-record at its satellite or Data on the way down; an entry at the tagged satellite means an Interest or Data between it and the producer |
| C122 | `Recover`: `Trip` with losses | at any time: in-records lead to nodes farther away, intervals have their bound, out-records are not younger than now; after the silence an entry without new Interests forwards the next one, and one with new Interests is waited for as in `Trip` |
| C123 | `Round`: `Trip` with the times frames leave | budgets: what a satellite waits for is under way since a time bounded by that of its first Interest; induction on the distance to the tagged satellite |
| C124 | `Delay`: over `Link`, `Down`, `IslNet` | invariant: a queued packet waits for at most the transmissions ahead of it; a flight carries the time it left |
| C125 | `UpDelay`: over `System` | invariant: every event of a station bounds when it is free, and by that when each queued packet goes out; slots and frames by rounding up |
| C126 | `Uri`: the URIs of the faces for the devices of a `Setup` world | the two ends of a channel by induction on the pairs; text of addresses injective digit by digit; stations by their rank |
| C127 | `UpCrdsa`: over `UpDelay`, `CrdsaNet` and `Peel` | what is on the air is in a frame that begins in time; a packet is passed up when a reception in its own frame ends |
| C128 | `KindsProps`: over `NetDev` and the channels of `ChannelModel` | at most one outcome up and between satellites; n stations joined one after the other for the way down |
| C129 | `ByHand`: single links on top of any `Setup` script, null pointers included | induction over the calls; the channel of a device by halving its number; refutations for the order and for a node linked with itself |
| C130 | `Shuffle`: the swaps of `std::shuffle`, `GetSelectedSlots` packet after packet | each arrangement comes from exactly one list of draws (induction on the last place); counting of draws by bijection, product over the packets |
| C131 | `Shared`: any number of `Traffic` applications that draw from one variable, any interleaving; `AssignStreams` of ns-3 | invariant: the values drawn are shared out among the applications, each in a phase of C98 for its own; refutations in time order |
| C132 | `ElevationDouble`: `getSatElevation` operation by operation in Flocq's binary64, and the two comparisons it is for | forward error of dot product and lengths, `asin` is apart by at most twice the root; witness by computation |
| C133 | `OrbitDouble`: `getCartesianPositionRightAscensionDeclination` operation by operation in binary64 | relative errors for the mean motion, absolute ones for the rest; the half angle is known up to turns, which rounding to a whole number takes away |
| C134 | `FixedDouble`: `DoGetPosition` of the satellites operation by operation in binary64, with ns-3's conversion to Cartesian coordinates on the sphere | the rounded root of a rounded sum of squares is not below any of its terms; near the poles the arc sine is Hölder of order one half; against `OrbitModel.position` in exact numbers |
| C135 | `SightDouble`: C96, C132 and C134 put together, from the orbits to the satellites in sight | by the Gram determinant of three directions an elevation changes by no more than twice the way moved over the distance |
| C136 | `LinkDouble`: C97 and C134 put together, from the orbits to the links | the triangle inequality; in exact numbers the distance along an orbit is the chord |
| C137 | `LaunchDouble`: `Launch` with the doubles of Flocq for its angles | absolute errors per step, the constellation by the invariant of exact angles |
| C138 | `WalkerDouble`: C137 and C134 put together, with the conversion to radians and `LaunchSat` | positions move by at most the radius times the change of node and phase |
| C139 | `RingDouble`: C138 and the test of the distance of C97 put together | triangle inequality; the chord between slots of a plane does not depend on the time |
| C140 | `NearestDouble`: C138 and the search for the closest satellite of C96 put together | the devices in the grid are those launched; triangle inequality |
| C141 | `HeardDouble`: C138 and the elevations of C132 put together | elevations move by at most twice the change of place over the distance |
| C63, C65 | `Pass`: search procedure over an oracle root finder | contract reasoning, intermediate values; refutations |

### The unit tests of the repository, on the model

`ConformProps.v` evaluates on the model what `test/icarus-address-test-suite.cc` and
`test/icarus-test-suite.cc` check: bytes and text of an address, the number of devices of every satellite for
the seven grids, the five distances at an elevation, the position after 9384 s, and the next pass (its
lower bound for every root finder, and that the first crossing is where the test expects it). The tests of
the MAC models compare averages of random runs and are left out. This is evidence for the transcription, not
for the code.

### What is assumed of the surroundings

* ns-3: `Simulator` runs events by time and then in order of scheduling; the division of two `Time`
  values is exact in its integer part and first 64 fraction bits; `Packet::AddPacketTag` asserts that no tag
  of that type is there; `Queue` is FIFO with the verdict of the limit; `Address` keeps type, length, bytes;
  the sphere of `GeographicPositions` has a radius that is a parameter `rs` (6371000 m in the one
  refutation that needs a value; it is not in `/repo`, but the unit tests of `/repo` pass only for a value
  within a metre of it: `orbit_tests` in `ConformProps.v`).
* `std::shuffle` yields a permutation (the order is a parameter); for C130 it is modelled as in libstdc++ (place `i` swapped with a drawn place up to `i`), with the draws as arguments. `std::map`/`std::list` behave as lists.
* NFD: eligibility of next hops and retransmission suppression as in `algorithm.cpp`, written out in
  `GeoTagModel`.
* GSL: the root finder returns a bracket inside the interval that passed `gsl_root_test_interval`
  (`solver_contract`), or gives up. Nothing else is assumed.
* Powers are integers in some unit (sums are exact). The loss model returns the received power in the unit
  the MAC adds up. Propagation delay and loss models are set, as the helper does.
* In `System`, `report` takes the metadata of a packet resolved by cancellation from its first frame at that
  satellite; the provenance theorems show that every frame of a packet carries the same metadata.
* ns-3 `Node` hands a received packet to every promiscuous handler registered for its device and protocol;
  a face's packet is freshly made and holds one block header; `Packet::Copy` keeps the content;
  NFD `Transport::receive` hands the block up. Faces of inter-satellite devices are ndnSIM's
  `NetDeviceTransport`, which does the same. `Transport::send` does nothing unless the transport is up,
  `Transport::receive` does not look at the state; NFD destroys a face some time after it was closed.
* In `Relay`, NFD calls the strategy of a satellite for each Interest a face hands up, within the same event; tables list
  the face to the ground and those on the devices of the satellite.
* In `Journey`, the three networks do not share devices, one clock orders their events; a satellite's node number is the number of its
  device in each ground network; events due at the same time in different networks may come in any order.
* In `Setup`, a script holds pointers only to channels it made, mobility models are put on nodes before it runs, and no tracker type has
  another as its parent (ns-3 refuses to aggregate two objects of one type). Identifiers of constellations are not 0.
* In `Tracking`, simulation time counts nanoseconds; stations do not move.
* In `Config`, ns-3's `ObjectFactory` and `TypeId` are as in ns-3 3.3x: choosing a type keeps the values set, values belong to declarations,
  and a factory gives a null pointer for an object of another class. Which object a pointer is to is left out, only its classes are kept;
  what texts stand for is a parameter. Global defaults (`Config::SetDefault`) are the defaults of the registry.
* In `Traffic`, ns-3's `OnOffApplication` behaves as written there (its source is not in /repo); `Seconds` cuts or rounds to ns; the elapsed bits may be one too few; the socket takes every packet; the rate is not changed while it runs.
* In `Instance`, the strategy is chosen on all nodes at one time, after the script; the parameters and version are those NFD parses from the name; nodes are numbered in order of creation, as `NodeList` does.
* In `NetDev`, objects a device points to are numbers; attributes that go through a setter are calls of that setter; `Send` is only which pointers it follows and what it answers (its work is in `Device`). What the calls of `NetDevice` answer that do not depend on the state (IsBroadcast and the like) is transcribed without a claim.
* In `Pending`, the entry, its records and timer, `RetxSuppressionExponential`, `processNack` and the sending of Data and Nacks are NFD's, written out from its code; looping Interests (same nonce) are left out, a refused or satisfied entry goes at once, an entry is gone when its timer is due, Data comes from no cache, and the next hops of the name do not change.
* In `Flight`, satellites and stations go by the number of their device for the other side.  `built` reads the constellation, the
  addresses, the links, the list of stations and the sizes in the strategy off the world the script left; transmission times, delays,
  losses, queues, MAC models, Interests and where stations point at the start are free, as far as `in_order` says.  The routes are
  those of ndnSIM's `SetDefaultRoutes` (all faces of a node), of which the code is not in the repository.
* In `Examples`, of the programs under examples/ only the calls of the two helpers are modelled, and for ground2groundping the way it
  tags; single-bird-orbit and intermittent-communication use no helper.  Applications are not modelled: any Interests may be sent at
  any time.
* In `Power` and `CrdsaPower`, the power of a frame is given in mW as a double; the conversion from dBm (`pow`) is not modelled, and the comparison
  `10.0 * log10 (ratio) < m_sirThreshold` is a predicate on the rounded ratio: with the default threshold, the greatest double, it is
  true of zero and of positive finite ratios only, with others it is only assumed right if the ratio is not within a millionth of the threshold.
* In `Return`, the nodes are the satellites of the constellation with the PIT entry of `Pending` for one name each; links deliver in
  any order after any time and lose nothing.  Not modelled: the content store, detection of looping nonces, and what ground stations do.
* In `Geodetic`, arithmetic is real as in `Orbit` and `Pass`, the root finder is the contract of `Pass`, and times are not rounded to the
  resolution of the simulator.  Points on the polar axis and on the date line are left out.
* In `GeoDouble`, `sin`, `cos`, `atan2` and the factor from radians to degrees are any that err by at most the bounds of `library`
  (`GeoDoubleSpec`); conversions between units are one multiplication or division by that factor.
* In `ElevationDouble`, `asin` is any that errs by at most 10^-12 on [-1, 1] and gives no number elsewhere; positions are given as doubles.
* In `OrbitDouble`, `sin`, `cos`, `atan2`, `pow (x, 0.5)` and the constants `pi` and `two_pi` are any within 10^-15 of the true ones (`pow` in proportion); times are given as doubles.
* In `FixedDouble`, `asin` and `atan2` are any within 10^-15 on their domains, the factors between degrees and radians any within 10^-14 and 10^-17, and the radius of ns-3's sphere any between 6300 and 6400 km; the conversion is ns-3's with the eccentricity at zero.
* In `Trip`, the constellation is that of `Return`; a frame between ground and satellite comes in at one instant, after any time, and none is lost.
  Stations other than the producer ignore Interests; the PIT of stations, the content store and nonces are not modelled.
* In `Recover`, any frame may be lost, for whatever reason, in the first part of an execution; none in the second.
* In `Round`, one bound `d` is on the time from a frame being handed to a device to its arrival, whichever device; processing at nodes takes no time.
* In `Uri`, `Mac48Address::Allocate` counts up in 48 bits and `operator<<` writes six pairs of lower-case digits; faces are
  made after the script, in a scenario that nothing has changed since.
* In `Double`, the compiler rounds every operation to double precision (no extended precision, no fused operations) and `pow (2, n)` is exact.
* Except in `Setup`, a node has one tracker; a launched constellation is complete before anything is sent.

## 4. Not modelled

Floating point rounding (except in `Double` and the launch angle sum), logging, the ns-3 attribute system beyond `Config`, NDN packet
encoding, IPv4/IPv6 helpers, the bytes of pcap and ASCII files (only which packets they show), the text of messages, Python bindings,
performance.
