-Q theories Verif
theories/Base.v
theories/TreeModel.v
theories/TreeSpec.v
theories/TreeProofs.v
theories/TreeProofs2.v
theories/TreeProofs3.v
theories/TreeProps.v
theories/UtilsModel.v
theories/UtilsProofs.v
theories/UtilsProofs2.v
theories/UtilsProps.v
theories/RBase.v
theories/NlpModel.v
theories/NlpSpec.v
theories/NlpProofs.v
theories/NlpProofs2.v
theories/NlpProps.v
theories/NlpProps2.v
theories/CollocModel.v
theories/CollocProofs.v
theories/CollocProofs2.v
theories/CollocProps.v
theories/MeshModel.v
theories/MeshProofs.v
theories/MeshProps.v
theories/OcpModel.v
theories/OcpProofs.v
theories/OcpProofs2.v
theories/OcpProofs3.v
theories/OcpSpec.v
theories/OcpProps.v
theories/BoundModel.v
theories/BoundSpec.v
theories/BoundProofs.v
theories/BoundProps.v
theories/ScaleModel.v
theories/ScaleSpec.v
theories/ScaleProofs.v
theories/ScaleProps.v
theories/CyclicModel.v
theories/CyclicSpec.v
theories/CyclicProps.v
theories/ObjModel.v
theories/ObjSpec.v
theories/ObjProofs.v
theories/ObjProps.v
theories/CompModel.v
theories/CompSpec.v
theories/CompProofs.v
theories/CompProps.v
theories/IoModel.v
theories/IoSpec.v
theories/IoProofs.v
theories/IoProps.v
theories/AlgModel.v
theories/AlgSpec.v
theories/AlgProofs.v
theories/AlgProps.v
theories/NumpyModel.v
theories/NumpySpec.v
theories/NumpyProps.v
theories/ConvModel.v
theories/ConvSpec.v
theories/ConvProps.v
theories/CfgModel.v
theories/CfgSpec.v
theories/CfgProps.v
theories/LogModel.v
theories/LogSpec.v
theories/LogProofs.v
theories/LogProps.v
theories/CasModel.v
theories/CasSpec.v
theories/CasProps.v
theories/CasProps2.v
theories/VehModel.v
theories/VehSpec.v
theories/VehProps.v
theories/CondModel.v
theories/CondSpec.v
theories/CondProofs.v
theories/CondProofs2.v
theories/CondProofs3.v
theories/CondProofs4.v
theories/CondProps.v
theories/CondProps2.v
theories/NlpProps3.v
theories/LogProps2.v
theories/CasProps3.v
theories/FdModel.v
theories/FdSpec.v
theories/FdProofs.v
theories/FdProps.v
theories/KinModel.v
theories/KinSpec.v
theories/KinProps.v
theories/TrackModel.v
theories/TrackSpec.v
theories/TrackProofs.v
theories/TrackProps.v
theories/TrackProps2.v
theories/TrackProps3.v
theories/TireModel.v
theories/TireProps.v
theories/TirModel.v
theories/TirProps.v
theories/DroneModel.v
theories/DroneProps.v
theories/AeroModel.v
theories/AeroProps.v
theories/SolverModel.v
theories/SolverSpec.v
theories/SolverProofs.v
theories/SolverProps.v
theories/UtilsProps2.v
theories/BuildModel.v
theories/BuildSpec.v
theories/BuildProofs.v
theories/BuildProofs2.v
theories/BuildProofs3.v
theories/BuildProofs4.v
theories/BuildProofs5.v
theories/BuildProofs6.v
theories/BuildProps.v
theories/BuildProps2.v
theories/BuildProps3.v
theories/BuildProps4.v
theories/TrackProps4.v
theories/LapModel.v
theories/LapSpec.v
theories/LapProofs.v
theories/LapProps.v
theories/LapProps2.v
theories/GuessProofs.v
theories/LapProps3.v
theories/LapProps4.v
theories/LapProps5.v
theories/FlightModel.v
theories/FlightSpec.v
theories/FlightProofs.v
theories/FlightProps.v
theories/FlightProps2.v
theories/FlightProps3.v
theories/FlightProps4.v
theories/RaceModel.v
theories/RaceSpec.v
theories/RaceProofs.v
theories/RaceProofs2.v
theories/RaceProofs3.v
theories/RaceProofs4.v
theories/RaceProofs5.v
theories/RaceProofs6.v
theories/RaceProps.v
theories/RaceProps2.v
theories/RaceProps3.v
theories/PacModel.v
theories/PacSpec.v
theories/PacProofs.v
theories/PacProps.v
theories/PacProps2.v
theories/PacProps3.v
theories/PacProps4.v
theories/PacProps5.v
theories/RaceProps4.v
theories/CBuildModel.v
theories/CBuildSpec.v
theories/CBuildProofs.v
theories/CBuildProofs2.v
theories/CBuildProofs3.v
theories/CBuildProofs4.v
theories/CBuildProofs5.v
theories/CBuildProofs6.v
theories/CBuildProofs7.v
theories/CBuildProps.v
theories/CBuildProps2.v
theories/CBuildProps3.v
theories/CBuildProps4.v
theories/CBuildProps5.v
theories/CBuildProps6.v
theories/LnpModel.v
theories/CasVehModel.v
theories/LnpSpec.v
theories/LnpProofs.v
theories/LnpProofs2.v
theories/LnpProps.v
theories/LnpProps2.v
theories/LnpProps3.v
theories/ArtModel.v
theories/ArtSpec.v
theories/ArtProofs.v
theories/ArtProofs2.v
theories/ArtProps.v
theories/ArtProps2.v
theories/BrachModel.v
theories/BrachSpec.v
theories/BrachProofs.v
theories/BrachProps.v
theories/BrachProps2.v
theories/BrachSpec2.v
theories/BrachProofs2.v
theories/BrachProps3.v
theories/BrachProps4.v
theories/JaxModel.v
theories/JaxSpec.v
theories/JaxProofs.v
theories/JaxProps.v
theories/JaxProps2.v
theories/ArtProps3.v
theories/OrderSpec.v
theories/OrderProofs.v
theories/OrderProofs2.v
theories/OrderProps.v
theories/OrderProps2.v
theories/OrderProps3.v
theories/ShareModel.v
theories/ShareSpec.v
theories/ShareProofs.v
theories/ShareProofs2.v
theories/ShareProofs3.v
theories/ShareProofs4.v
theories/ShareProps.v
theories/ShareProps2.v
theories/FloatModel.v
theories/FloatSpec.v
theories/FloatProofs.v
theories/FloatProofs2.v
theories/FloatProofs3.v
theories/FloatProofs4.v
theories/FloatProofs5.v
theories/FloatProps.v
theories/FloatProps2.v
theories/FsumModel.v
theories/FsumSpec.v
theories/FsumProofs.v
theories/FsumProofs2.v
theories/FsumProofs3.v
theories/FsumProps.v
theories/CpModel.v
theories/CpSpec.v
theories/CpProofs.v
theories/CpProofs2.v
theories/CpProps.v
theories/TraceModel.v
theories/TraceSpec.v
theories/TraceProofs.v
theories/TraceProps.v
theories/NfunModel.v
theories/NfunSpec.v
theories/NfunProofs.v
theories/NfunProps.v
theories/PlainModel.v
theories/PlainProps.v
theories/AliasModel.v
theories/AliasSpec.v
theories/AliasProofs.v
theories/AliasProofs2.v
theories/AliasProofs3.v
theories/AliasProofs4.v
theories/AliasProofs5.v
theories/AliasProofs6.v
theories/AliasProps.v
theories/DomModel.v
theories/DomSpec.v
theories/DomProofs.v
theories/DomProofs2.v
theories/DomProps.v
theories/LocSpec.v
theories/LocJaxSpec.v
theories/LocProofs.v
theories/LocProofs2.v
theories/LocProofs3.v
theories/LocProofs4.v
theories/LocProps.v
theories/LocProps2.v
theories/LocProps3.v
theories/LocCalc.v
theories/LocRaceSpec.v
theories/LocRaceProofs.v
theories/LocRaceProofs2.v
theories/LocRaceProofs3.v
theories/LocRaceProps.v
theories/LocRaceProps2.v
theories/TightProps.v
theories/RollModel.v
theories/RollSpec.v
theories/RollProofs.v
theories/RollProofs2.v
theories/RollProps.v
theories/LocRaceProps3.v
theories/TightProps2.v
theories/LocPacSpec.v
theories/LocPacProofs.v
theories/LocPacProps.v
theories/LocTireSpec.v
theories/LocTireProofs.v
theories/LocTireProofs2.v
theories/LocTireProps.v
theories/LocTireProps2.v
theories/LocPacProps2.v
