(** Types, attributes and the settings of the helpers. *)
From Coq Require Import ZArith QArith List Lia Bool Ascii String.
From Verif Require Import Base.
Import ListNotations.
Open Scope string_scope.

(** * ns-3's type registry and object factories *)

(** What an attribute holds.  Pointers are to objects of the class named. *)
Inductive attr_kind := KTime | KU16 | KU32 | KReal | KRate | KMac | KSat | KSize | KPtr (class : string).

(** Values.  A pointer is null or to an object, of which only its class and those above are kept (not which object it is); text is converted by
    the attribute that gets it. *)
Inductive value :=
| VTime (ns : Z) | VUint (n : Z) | VReal (x : Q) | VMaxReal | VRate (bps : Z) | VMac (a : Z) | VSat (a : Z * Z * Z)
| VSize (packets : Z) | VPtr (o : option (list string)) | VText (s : string).

(** An attribute as declared by some class.  Classes that inherit it share the declaration (and so its checker). *)
Record decl := mkDecl { d_owner : string; d_name : string; d_kind : attr_kind; d_default : value; d_construct : bool }.

Definition same_decl (a b : decl) : bool := String.eqb (d_owner a) (d_owner b) && String.eqb (d_name a) (d_name b).

(** [t_line]: the class itself and those above it.  [t_new]: it has a constructor.  [t_decls]: the attributes, in the order in which they
    are looked up: those of the class, then those of its parent, and so on. *)
Record type := mkType { t_line : list string; t_new : bool; t_decls : list decl }.

Section Factory.
(** The types registered; what text means for an attribute, if anything. *)
Variable types : string -> option type.
Variable parse : attr_kind -> string -> option value.

(** CreateValidValue: the value if the attribute can hold it, the value of a text, or nothing. *)
Definition accepts (k : attr_kind) (v : value) : option value :=
  match k, v with
  | _, VText s => parse k s
  | KTime, VTime _ | KReal, VReal _ | KReal, VMaxReal | KRate, VRate _ | KMac, VMac _ | KSat, VSat _ | KSize, VSize _ => Some v
  | KU16, VUint n => if (0 <=? n)%Z && (n <? 65536)%Z then Some v else None
  | KU32, VUint n => if (0 <=? n)%Z && (n <? 4294967296)%Z then Some v else None
  | KPtr _, VPtr None => Some v
  | KPtr c, VPtr (Some line) => if existsb (String.eqb c) line then Some v else None
  | _, _ => None
  end.

(** ns-3's ObjectFactory: a type, and the values set so far with the declaration each is for. *)
Record factory := mkF { f_type : string; f_set : list (decl * value) }.

(** SetTypeId: the name must be known.  What was set stays. *)
Definition f_choose (f : factory) (name : string) : result factory :=
  match types name with None => Assert | Some _ => Ok (mkF name (f_set f)) end.

Definition lookup_decl (ty : string) (name : string) : option decl :=
  match types ty with None => None | Some t => find (fun d => String.eqb (d_name d) name) (t_decls t) end.

(** Set: nothing if the name is empty; replaces what was set for the same declaration. *)
Definition f_option (f : factory) (o : string * value) : result factory :=
  let (name, v) := o in
  if String.eqb name "" then Ok f
  else match lookup_decl (f_type f) name with
       | None => Abort
       | Some d =>
           match accepts (d_kind d) v with
           | None => Abort
           | Some w => Ok (mkF (f_type f) (filter (fun e => negb (same_decl (fst e) d)) (f_set f) ++ [(d, w)]))
           end
       end.
Fixpoint f_options (f : factory) (l : list (string * value)) : result factory :=
  match l with [] => Ok f | o :: l' => do f1 <- f_option f o ; f_options f1 l' end.

(** An object: its type and the values of its attributes, in the order of the declarations. *)
Record object := mkObj { o_type : string; o_attrs : list (decl * value) }.

Definition f_value (f : factory) (d : decl) : value :=
  match find (fun e => same_decl (fst e) d) (f_set f) with Some e => snd e | None => d_default d end.
Definition f_has (f : factory) (d : decl) : bool := existsb (fun e => same_decl (fst e) d) (f_set f).

(** Create: the type must have a constructor; attributes that cannot be set when constructing must not have been. *)
Definition f_create (f : factory) : result object :=
  match types (f_type f) with
  | None => UB
  | Some t =>
      abort_unless (t_new t) ;;
      abort_unless (forallb (fun d => d_construct d || negb (f_has f d)) (t_decls t)) ;;
      Ok (mkObj (f_type f) (map (fun d => (d, f_value f d)) (t_decls t)))
  end.

(** GetObject: null if the object is not of the class. *)
Definition as_class (class : string) (o : object) : option object :=
  match types (o_type o) with Some t => if existsb (String.eqb class) (t_line t) then Some o else None | None => None end.
Definition f_create_as (class : string) (f : factory) : result (option object) := do o <- f_create f ; Ok (as_class class o).

(** ns-3's QueueBase::AppendItemTypeIfNotPresent *)
Fixpoint last_char (s : string) : option ascii :=
  match s with EmptyString => None | String c EmptyString => Some c | String _ r => last_char r end.
Definition with_item (t : string) : string :=
  match last_char t with Some ">"%char => t | _ => t ++ "<Packet>" end.

(** A setter of a helper: the type, then four options (icarus-helper.cc:70-84 and others). *)
Definition f_configure (f : factory) (name : string) (opts : list (string * value)) : result factory :=
  do f1 <- f_choose f name ; f_options f1 opts.

(** * IcarusHelper *)

(** The parts that have setters, and the factories. *)
Inductive part := PQueue | PSuccess | PDelay | PLoss | PMac | PTracker.
Inductive slot := SPart (p : part) | SChannel | SSat | SGround.
Definition slot_dec (a b : slot) : {a = b} + {a <> b}.
Proof. decide equality. decide equality. Defined.
Definition helper := slot -> factory.

(** icarus-helper.cc:55-68 *)
Definition icarus_type (s : slot) : string :=
  match s with
  | SPart PQueue => "ns3::DropTailQueue<Packet>"
  | SChannel => "ns3::icarus::GroundSatChannel"
  | SSat => "ns3::icarus::Sat2GroundNetDevice"
  | SGround => "ns3::icarus::GroundStaNetDevice"
  | SPart PSuccess => "ns3::icarus::GroundSatSuccessElevation"
  | SPart PMac => "ns3::icarus::NoneMacModel"
  | SPart PTracker => "ns3::icarus::GroundNodeSatTrackerPeriodic"
  | SPart PDelay => "ns3::ConstantSpeedPropagationDelayModel"
  | SPart PLoss => "ns3::FriisPropagationLossModel"
  end.
Definition new_helper (init : slot -> string) : helper := fun s => mkF (init s) [].
Definition put (h : helper) (s : slot) (f : factory) : helper := fun s' => if slot_dec s s' then f else h s'.

(** The calls.  [HSet]: SetQueue, SetSuccessModel, SetPropagationDelayModel, SetPropagationLossModel, SetMacModel and SetTrackerModel (70-161);
    [HDevice], [HChannel]: SetDeviceAttribute, SetChannelAttribute (163-179). *)
Inductive setting := HSet (p : part) (ty : string) (opts : list (string * value)) | HDevice (o : string * value) | HChannel (o : string * value).

Definition icarus_name (p : part) (ty : string) : string := match p with PQueue => with_item ty | _ => ty end.

Definition icarus_set (h : helper) (c : setting) : result helper :=
  match c with
  | HSet p ty opts => do f <- f_configure (h (SPart p)) (icarus_name p ty) opts ; Ok (put h (SPart p) f)
  | HDevice o => do f1 <- f_option (h SSat) o ; do f2 <- f_option (h SGround) o ; Ok (put (put h SSat f1) SGround f2)
  | HChannel o => do f <- f_option (h SChannel) o ; Ok (put h SChannel f)
  end.

(** Object::SetAttribute with a pointer to an object just made (or null). *)
Definition point_to (o : option object) : value :=
  VPtr (match o with Some x => match types (o_type x) with Some t => Some (t_line t) | None => None end | None => None end).
Definition o_put (o : object) (name : string) (v : value) : object :=
  mkObj (o_type o) (map (fun e => if String.eqb (d_name (fst e)) name then (fst e, v) else e) (o_attrs o)).

(** A device as configured: itself, its MAC, the tracker aggregated to its node and its queue. *)
Record made := mkMade { m_device : object; m_mac : option object; m_tracker : option object; m_queue : object }.

(** The channel a device is attached to: one made as the helpers make it. *)
Definition channel_line (class : string) : value := VPtr (Some [class; "ns3::Channel"; "ns3::Object"]).

(** InstallPriv and CreateDeviceForNode (275-322).  A null tracker cannot be aggregated, the traces of a null queue not connected.  The
    address of the device is given later. *)
Definition icarus_device (h : helper) (ground : bool) : result made :=
  do dev <- f_create (h (if ground then SGround else SSat)) ;
  do mac <- f_create_as "ns3::icarus::MacModel" (h (SPart PMac)) ;
  do tr <- (if ground then
              do t <- f_create_as "ns3::icarus::GroundNodeSatTracker" (h (SPart PTracker)) ;
              match t with None => UB | Some o => Ok (Some o) end
            else Ok None) ;
  do q <- f_create_as "ns3::Queue<Packet>" (h (SPart PQueue)) ;
  match q with
  | None => UB
  | Some o =>
      let d1 := o_put dev (if ground then "MacModelTx" else "MacModelRx") (point_to mac) in
      let d2 := o_put (o_put d1 "TxQueue" (point_to q)) "Channel" (channel_line "ns3::icarus::GroundSatChannel") in
      Ok (mkMade d2 mac tr o)
  end.

(** The channel made by Install for a container (226-241), with the three models put in. *)
Record air_made := mkAirMade { i_channel : object; i_success : option object; i_delay : option object; i_loss : option object }.
Definition icarus_channel (h : helper) : result air_made :=
  do ch <- f_create (h SChannel) ;
  do su <- f_create_as "ns3::icarus::GroundSatSuccessModel" (h (SPart PSuccess)) ;
  do de <- f_create_as "ns3::PropagationDelayModel" (h (SPart PDelay)) ;
  do lo <- f_create_as "ns3::PropagationLossModel" (h (SPart PLoss)) ;
  let ch1 := o_put (o_put (o_put ch "TxSuccess" (point_to su)) "PropDelayModel" (point_to de)) "PropLossModel" (point_to lo) in
  Ok (mkAirMade ch1 su de lo).

(** * ISLHelper *)

(** isl-helper.cc:49-58; the factory of the device is in [SSat].  It has nothing for a loss, a MAC or a tracker. *)
Definition isl_type (s : slot) : string :=
  match s with
  | SPart PQueue => "ns3::DropTailQueue<Packet>"
  | SChannel => "ns3::icarus::Sat2SatChannel"
  | SPart PSuccess => "ns3::icarus::Sat2SatSuccessModel"
  | SPart PDelay => "ns3::ConstantSpeedPropagationDelayModel"
  | SSat => "ns3::icarus::SatNetDevice"
  | _ => ""
  end.

(** SetQueue and SetSuccessModel both complete the name with the type of the items (60-91); SetPropagationDelayModel does not (93-108). *)
Definition isl_name (p : part) (ty : string) : string := match p with PQueue | PSuccess => with_item ty | _ => ty end.

(** 60-124.  There are no setters for the other parts: calling one is given as [UB] here. *)
Definition isl_has (p : part) : bool := match p with PQueue | PSuccess | PDelay => true | _ => false end.
Definition isl_set (h : helper) (c : setting) : result helper :=
  match c with
  | HSet p ty opts =>
      if isl_has p then do f <- f_configure (h (SPart p)) (isl_name p ty) opts ; Ok (put h (SPart p) f) else UB
  | HDevice o => do f <- f_option (h SSat) o ; Ok (put h SSat f)
  | HChannel o => do f <- f_option (h SChannel) o ; Ok (put h SChannel f)
  end.

(** InstallPriv (222-238) *)
Definition isl_device (h : helper) : result made :=
  do dev <- f_create (h SSat) ;
  do q <- f_create_as "ns3::Queue<Packet>" (h (SPart PQueue)) ;
  match q with
  | None => UB
  | Some o =>
      Ok (mkMade (o_put (o_put dev "TxQueue" (point_to q)) "Channel" (channel_line "ns3::icarus::Sat2SatChannel")) None None o)
  end.

(** Install of two nodes (204-220); attaching the second device calls the success model (sat2sat-channel.cc:99-106), before its queue
    traces are connected. *)
Definition isl_link (h : helper) : result (air_made * made * made) :=
  do ch <- f_create (h SChannel) ;
  do su <- f_create_as "ns3::icarus::Sat2SatSuccessModel" (h (SPart PSuccess)) ;
  do de <- f_create_as "ns3::PropagationDelayModel" (h (SPart PDelay)) ;
  do a <- isl_device h ;
  do b <- isl_device h ;
  match su with
  | None => UB
  | Some _ => Ok (mkAirMade (o_put (o_put ch "TxSuccess" (point_to su)) "PropDelayModel" (point_to de)) su de None, a, b)
  end.

Fixpoint configure (step : helper -> setting -> result helper) (h : helper) (cs : list setting) : result helper :=
  match cs with [] => Ok h | c :: l => do h1 <- step h c ; configure step h1 l end.
End Factory.

(** * The types of the module *)

Definition real (owner name : string) (x : Q) := mkDecl owner name KReal (VReal x) true.

(** Base classes of ns-3; [Id] of a channel cannot be set. *)
Definition channel_decls : list decl := [mkDecl "ns3::Channel" "Id" KU32 (VUint 0) false].

(** icarus-net-device.cc:41-61 *)
Definition icarus_decls : list decl :=
  let o := "ns3::icarus::IcarusNetDevice" in
  [mkDecl o "Channel" (KPtr "ns3::icarus::GroundSatChannel") (VPtr None) true;
   mkDecl o "DataRate" KRate (VRate 1000000000) true;
   mkDecl o "Mtu" KU16 (VUint 1500) true;
   mkDecl o "TxQueue" (KPtr "ns3::Queue<Packet>") (VPtr None) true].

Definition registry : list (string * type) :=
  [(* mac/mac-model.cc:32-38 *)
   ("ns3::icarus::MacModel", mkType ["ns3::icarus::MacModel"; "ns3::Object"] false []);
   (* mac/none-mac-model.cc:33-42 *)
   ("ns3::icarus::NoneMacModel", mkType ["ns3::icarus::NoneMacModel"; "ns3::icarus::MacModel"; "ns3::Object"] true []);
   (* mac/aloha-mac-model.cc:34-50 *)
   ("ns3::icarus::AlohaMacModel", mkType ["ns3::icarus::AlohaMacModel"; "ns3::icarus::MacModel"; "ns3::Object"] true
      [mkDecl "ns3::icarus::AlohaMacModel" "SlotDuration" KTime (VTime 0) true;
       mkDecl "ns3::icarus::AlohaMacModel" "SirThreshold" KReal VMaxReal true]);
   (* mac/crdsa-mac-model.cc:76-104 *)
   ("ns3::icarus::CrdsaMacModel", mkType ["ns3::icarus::CrdsaMacModel"; "ns3::icarus::MacModel"; "ns3::Object"] true
      [mkDecl "ns3::icarus::CrdsaMacModel" "SlotDuration" KTime (VTime 0) true;
       mkDecl "ns3::icarus::CrdsaMacModel" "SlotsPerFrame" KU16 (VUint 1) true;
       mkDecl "ns3::icarus::CrdsaMacModel" "ReplicasPerPacket" KU16 (VUint 1) true;
       mkDecl "ns3::icarus::CrdsaMacModel" "ReplicasDistribution" (KPtr "ns3::icarus::ReplicasDistroPolynomial") (VPtr None) true;
       mkDecl "ns3::icarus::CrdsaMacModel" "SirThreshold" KReal VMaxReal true]);
   (* ground-node-sat-tracker.cc:40-47; ground-node-sat-tracker-periodic.cc:39-55; ground-node-sat-tracker-elevation.cc:57-73 *)
   ("ns3::icarus::GroundNodeSatTracker", mkType ["ns3::icarus::GroundNodeSatTracker"; "ns3::Object"] false []);
   ("ns3::icarus::GroundNodeSatTrackerPeriodic",
      mkType ["ns3::icarus::GroundNodeSatTrackerPeriodic"; "ns3::icarus::GroundNodeSatTracker"; "ns3::Object"] true
        [mkDecl "ns3::icarus::GroundNodeSatTrackerPeriodic" "TrackingInterval" KTime (VTime 0) true]);
   ("ns3::icarus::GroundNodeSatTrackerElevation",
      mkType ["ns3::icarus::GroundNodeSatTrackerElevation"; "ns3::icarus::GroundNodeSatTracker"; "ns3::Object"] true
        [real "ns3::icarus::GroundNodeSatTrackerElevation" "MinElevation" 25]);
   (* ground-sat-success-model.cc:33-40; ground-sat-success-elevation.cc:48-66; ground-sat-success-distance.cc:38-53 *)
   ("ns3::icarus::GroundSatSuccessModel", mkType ["ns3::icarus::GroundSatSuccessModel"; "ns3::Object"] false []);
   ("ns3::icarus::GroundSatSuccessElevation",
      mkType ["ns3::icarus::GroundSatSuccessElevation"; "ns3::icarus::GroundSatSuccessModel"; "ns3::Object"] true
        [real "ns3::icarus::GroundSatSuccessElevation" "MinElevation" 25]);
   ("ns3::icarus::GroundSatSuccessDistance",
      mkType ["ns3::icarus::GroundSatSuccessDistance"; "ns3::icarus::GroundSatSuccessModel"; "ns3::Object"] true
        [real "ns3::icarus::GroundSatSuccessDistance" "MaxDistance" 1000000]);
   (* sat2sat-success-model.cc:48-57 *)
   ("ns3::icarus::Sat2SatSuccessModel", mkType ["ns3::icarus::Sat2SatSuccessModel"; "ns3::Object"] true []);
   (* ground-sat-channel.cc:45-71; sat2sat-channel.cc:47-70 *)
   ("ns3::icarus::GroundSatChannel", mkType ["ns3::icarus::GroundSatChannel"; "ns3::Channel"; "ns3::Object"] true
      ([mkDecl "ns3::icarus::GroundSatChannel" "TxSuccess" (KPtr "ns3::icarus::GroundSatSuccessModel") (VPtr None) true;
        mkDecl "ns3::icarus::GroundSatChannel" "PropDelayModel" (KPtr "ns3::PropagationDelayModel") (VPtr None) true;
        mkDecl "ns3::icarus::GroundSatChannel" "PropLossModel" (KPtr "ns3::PropagationLossModel") (VPtr None) true] ++ channel_decls));
   ("ns3::icarus::Sat2SatChannel", mkType ["ns3::icarus::Sat2SatChannel"; "ns3::Channel"; "ns3::Object"] true
      ([mkDecl "ns3::icarus::Sat2SatChannel" "TxSuccess" (KPtr "ns3::icarus::Sat2SatSuccessModel") (VPtr None) true;
        mkDecl "ns3::icarus::Sat2SatChannel" "PropDelayModel" (KPtr "ns3::PropagationDelayModel") (VPtr None) true] ++ channel_decls));
   (* icarus-net-device.cc:36-117; ground-sta-net-device.cc:177-203; sat2ground-net-device.cc:154-175; sat-net-device.cc:37-120 *)
   ("ns3::icarus::IcarusNetDevice", mkType ["ns3::icarus::IcarusNetDevice"; "ns3::NetDevice"; "ns3::Object"] false icarus_decls);
   ("ns3::icarus::GroundStaNetDevice",
      mkType ["ns3::icarus::GroundStaNetDevice"; "ns3::icarus::IcarusNetDevice"; "ns3::NetDevice"; "ns3::Object"] true
        (let o := "ns3::icarus::GroundStaNetDevice" in
         [mkDecl o "Address" KMac (VMac 0) true; mkDecl o "RemoteAddress" KSat (VSat (0, 0, 0)%Z) true;
          mkDecl o "MacModelTx" (KPtr "ns3::icarus::MacModel") (VPtr None) true; real o "TxPower" 0] ++ icarus_decls));
   ("ns3::icarus::Sat2GroundNetDevice",
      mkType ["ns3::icarus::Sat2GroundNetDevice"; "ns3::icarus::IcarusNetDevice"; "ns3::NetDevice"; "ns3::Object"] true
        (let o := "ns3::icarus::Sat2GroundNetDevice" in
         [mkDecl o "Address" KSat (VSat (0, 0, 0)%Z) true; mkDecl o "MacModelRx" (KPtr "ns3::icarus::MacModel") (VPtr None) true;
          real o "TxPower" 0] ++ icarus_decls));
   ("ns3::icarus::SatNetDevice", mkType ["ns3::icarus::SatNetDevice"; "ns3::NetDevice"; "ns3::Object"] true
      (let o := "ns3::icarus::SatNetDevice" in
       [mkDecl o "Channel" (KPtr "ns3::icarus::Sat2SatChannel") (VPtr None) true; mkDecl o "DataRate" KRate (VRate 1000000000) true;
        mkDecl o "Mtu" KU16 (VUint 1500) true; mkDecl o "TxQueue" (KPtr "ns3::Queue<Packet>") (VPtr None) true]));
   (* circular-orbit.cc:50-59 *)
   ("ns3::icarus::CircularOrbitMobilityModel",
      mkType ["ns3::icarus::CircularOrbitMobilityModel"; "ns3::MobilityModel"; "ns3::Object"] true []);
   (* Those of ns-3 that the helpers name. *)
   ("ns3::DropTailQueue<Packet>", mkType ["ns3::DropTailQueue<Packet>"; "ns3::Queue<Packet>"; "ns3::QueueBase"; "ns3::Object"] true
      [mkDecl "ns3::DropTailQueue<Packet>" "MaxSize" KSize (VSize 100) true]);
   ("ns3::ConstantSpeedPropagationDelayModel",
      mkType ["ns3::ConstantSpeedPropagationDelayModel"; "ns3::PropagationDelayModel"; "ns3::Object"] true
        [real "ns3::ConstantSpeedPropagationDelayModel" "Speed" 299792458]);
   ("ns3::FriisPropagationLossModel", mkType ["ns3::FriisPropagationLossModel"; "ns3::PropagationLossModel"; "ns3::Object"] true
      [real "ns3::FriisPropagationLossModel" "Frequency" 5150000000; real "ns3::FriisPropagationLossModel" "SystemLoss" 1;
       real "ns3::FriisPropagationLossModel" "MinLoss" 0])].
Definition types_of (l : list (string * type)) (name : string) : option type :=
  match find (fun e => String.eqb (fst e) name) l with Some e => Some (snd e) | None => None end.
