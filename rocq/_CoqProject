-Q theories Verif
theories/Base.v
theories/SatAddrModel.v
theories/SatAddrSpec.v
theories/SatAddrProofs.v
theories/SatAddrProps.v
theories/AddrTextModel.v
theories/AddrTextSpec.v
theories/AddrTextProofs.v
theories/AddrTextProps.v
theories/ConstellationModel.v
theories/ConstellationSpec.v
theories/ConstellationProofs.v
theories/ConstellationProps.v
theories/LaunchModel.v
theories/LaunchSpec.v
theories/LaunchProofs.v
theories/LaunchProps.v
theories/IslModel.v
theories/IslSpec.v
theories/IslProofs.v
theories/IslProps.v
theories/GeoTagModel.v
theories/GeoTagSpec.v
theories/GeoTagProofs.v
theories/GeoTagProps.v
theories/GeoTagRoute.v
theories/GeoTagNetProps.v
theories/RxModel.v
theories/RxSpec.v
theories/RxProofs.v
theories/AlohaModel.v
theories/AlohaSpec.v
theories/AlohaProofs.v
theories/AlohaProps.v
theories/CrdsaModel.v
theories/CrdsaSpec.v
theories/CrdsaProofs.v
theories/CrdsaRun.v
theories/CrdsaOnce.v
theories/CrdsaSafe.v
theories/CrdsaProps.v
theories/DeviceModel.v
theories/DeviceSpec.v
theories/DeviceProofs.v
theories/DeviceProps.v
theories/ChannelModel.v
theories/ChannelProps.v
theories/TrackerModel.v
theories/TrackerProps.v
theories/OrbitModel.v
theories/OrbitSpec.v
theories/OrbitProofs.v
theories/OrbitProps.v
theories/HelpersModel.v
theories/HelpersProps.v
theories/PassModel.v
theories/PassProps.v
theories/DeviceCopies.v
theories/SystemModel.v
theories/SystemSpec.v
theories/SystemProofs.v
theories/SystemMacs.v
theories/SystemProps.v
theories/LinkModel.v
theories/LinkSpec.v
theories/LinkProofs.v
theories/LinkDevices.v
theories/DownSpec.v
theories/DownProofs.v
theories/DownProps.v
theories/IslNetSpec.v
theories/IslNetProps.v
theories/FaceModel.v
theories/FaceSpec.v
theories/FaceProofs.v
theories/FaceNetSpec.v
theories/FaceDownProps.v
theories/FaceIslProps.v
theories/FaceUpProps.v
theories/LifeModel.v
theories/LifeSpec.v
theories/LifeProps.v
theories/WalkerModel.v
theories/WalkerSpec.v
theories/WalkerProps.v
theories/IslCount.v
theories/RelayModel.v
theories/RelaySpec.v
theories/RelayFaces.v
theories/RelayProofs.v
theories/RelayProps.v
theories/JourneyModel.v
theories/JourneySpec.v
theories/JourneyProofs.v
theories/JourneyProps.v
theories/SetupModel.v
theories/SetupSpec.v
theories/SetupProofs.v
theories/SetupRun.v
theories/SetupProps.v
theories/TrackingModel.v
theories/TrackingSpec.v
theories/TrackingProofs.v
theories/TrackingProps.v
theories/PeelSpec.v
theories/PeelProofs.v
theories/SlotSpec.v
theories/SlotProofs.v
theories/PeelProps.v
theories/UplinkSpec.v
theories/UplinkProofs.v
theories/CrdsaNetSpec.v
theories/CrdsaNetProofs.v
theories/CrdsaNetProps.v
theories/AlohaNetSpec.v
theories/AlohaNetProofs.v
theories/AlohaNetProps.v
theories/ConformProps.v
theories/TraceModel.v
theories/TraceSpec.v
theories/TraceProofs.v
theories/TraceProps.v
theories/ConfigModel.v
theories/ConfigSpec.v
theories/ConfigProofs.v
theories/ConfigProps.v
theories/DoubleModel.v
theories/DoubleSpec.v
theories/DoubleProofs.v
theories/DoubleReplicaProofs.v
theories/DoubleDistanceProofs.v
theories/DoubleProps.v
theories/TrafficModel.v
theories/TrafficSpec.v
theories/TrafficProofs.v
theories/TrafficProps.v
theories/InstanceModel.v
theories/InstanceSpec.v
theories/InstanceProofs.v
theories/InstanceProps.v
theories/NetDevModel.v
theories/NetDevSpec.v
theories/NetDevProofs.v
theories/NetDevProps.v
theories/PendingModel.v
theories/PendingSpec.v
theories/PendingProofs.v
theories/PendingProps.v
theories/FlightModel.v
theories/FlightSpec.v
theories/FlightProofs.v
theories/FlightProps.v
theories/ExamplesModel.v
theories/ExamplesProps.v
theories/PowerModel.v
theories/PowerSpec.v
theories/PowerProofs.v
theories/PowerProps.v
theories/CrdsaPowerModel.v
theories/CrdsaPowerProofs.v
theories/CrdsaPowerProps.v
theories/ReturnModel.v
theories/ReturnSpec.v
theories/ReturnProofs.v
theories/ReturnProps.v
theories/GeodeticModel.v
theories/GeodeticSpec.v
theories/GeodeticProofs.v
theories/GeodeticProps.v
theories/GeoDoubleModel.v
theories/GeoDoubleSpec.v
theories/GeoDoubleProofs.v
theories/GeoDoubleProps.v
theories/TripModel.v
theories/TripSpec.v
theories/TripProofs.v
theories/TripProps.v
theories/RecoverModel.v
theories/RecoverSpec.v
theories/RecoverProofs.v
theories/RecoverProps.v
theories/RoundModel.v
theories/RoundSpec.v
theories/RoundProofs.v
theories/RoundProps.v
theories/DelaySpec.v
theories/DelayProofs.v
theories/DelayProps.v
theories/UpDelaySpec.v
theories/UpDelayProofs.v
theories/UpDelayProps.v
theories/UriModel.v
theories/UriSpec.v
theories/UriProofs.v
theories/UriProps.v
theories/UpCrdsaProofs.v
theories/UpCrdsaProps.v
theories/KindsProps.v
theories/ByHandModel.v
theories/ByHandSpec.v
theories/ByHandProofs.v
theories/ByHandProps.v
theories/ShuffleModel.v
theories/ShuffleSpec.v
theories/ShuffleProofs.v
theories/ShuffleProps.v
theories/SharedModel.v
theories/SharedSpec.v
theories/SharedProofs.v
theories/SharedProps.v
theories/ElevationDoubleModel.v
theories/ElevationDoubleSpec.v
theories/ElevationDoubleProofs.v
theories/ElevationDoubleProps.v
theories/OrbitDoubleModel.v
theories/OrbitDoubleSpec.v
theories/OrbitDoubleProofs.v
theories/OrbitDoubleProps.v
theories/FixedDoubleModel.v
theories/FixedDoubleSpec.v
theories/FixedDoubleProofs.v
theories/FixedDoubleProps.v
theories/SightDoubleSpec.v
theories/SightDoubleProofs.v
theories/SightDoubleProps.v
theories/LinkDoubleSpec.v
theories/LinkDoubleProps.v
theories/LaunchDoubleModel.v
theories/LaunchDoubleSpec.v
theories/LaunchDoubleProofs.v
theories/LaunchDoubleProps.v
theories/WalkerDoubleModel.v
theories/WalkerDoubleSpec.v
theories/WalkerDoubleProps.v
theories/RingDoubleSpec.v
theories/RingDoubleProps.v
theories/NearestDoubleSpec.v
theories/NearestDoubleProps.v
theories/HeardDoubleSpec.v
theories/HeardDoubleProps.v
