-Q theories Verif
theories/Base.v
theories/Base64Model.v
theories/Base64Spec.v
theories/Base64Proofs.v
theories/Base64Props.v
theories/WsModel.v
theories/WsSpec.v
theories/WsProofs.v
theories/WsProps.v
theories/EndpointModel.v
theories/EndpointSpec.v
theories/EndpointProofs.v
theories/EndpointProps.v
theories/TilesModel.v
theories/TilesSpec.v
theories/TilesProofs.v
theories/TilesProps.v
theories/DeltaModel.v
theories/DeltaSpec.v
theories/DeltaProofs.v
theories/DeltaProps.v
theories/StoreModel.v
theories/StoreSpec.v
theories/StoreProofs.v
theories/StoreProps.v
theories/PromiseModel.v
theories/PromiseSpec.v
theories/PromiseProofs.v
theories/PromiseProps.v
theories/RouteModel.v
theories/RouteSpec.v
theories/RouteProofs.v
theories/RouteProps.v
theories/HandshakeModel.v
theories/HandshakeSpec.v
theories/HandshakeProofs.v
theories/HandshakeProps.v
theories/ShaModel.v
theories/ShaSpec.v
theories/ShaProofs.v
theories/ShaProps.v
theories/MatchModel.v
theories/MatchSpec.v
theories/MatchProofs.v
theories/MatchProps.v
theories/HashModel.v
theories/HashProps.v
theories/JsonModel.v
theories/JsonSpec.v
theories/JsonProofs.v
theories/JsonProps.v
theories/ConcatModel.v
theories/ConcatProps.v
theories/SqlModel.v
theories/SqlSpec.v
theories/SqlProofs.v
theories/SqlProps.v
theories/DefModel.v
theories/DefSpec.v
theories/DefProofs.v
theories/DefProps.v
theories/FrameModel.v
theories/FrameSpec.v
theories/FrameProofs.v
theories/FrameProps.v
theories/ParamsModel.v
theories/ParamsProps.v
theories/AppModel.v
theories/AppSpec.v
theories/AppProofs.v
theories/AppProps.v
theories/UiModel.v
theories/UiSpec.v
theories/UiProofs.v
theories/UiProps.v
theories/RegModel.v
theories/RegSpec.v
theories/RegProofs.v
theories/RegProps.v
theories/EvModel.v
theories/EvSpec.v
theories/EvProofs.v
theories/EvProps.v
theories/NavModel.v
theories/NavSpec.v
theories/NavProofs.v
theories/NavProps.v
theories/TrModel.v
theories/TrSpec.v
theories/TrProofs.v
theories/TrProps.v
theories/LocModel.v
theories/LocProps.v
theories/DsModel.v
theories/DsSpec.v
theories/DsProofs.v
theories/DsProps.v
theories/FeModel.v
theories/FeSpec.v
theories/FeProofs.v
theories/FeProps.v
theories/JsbModel.v
theories/JsbSpec.v
theories/JsbProofs.v
theories/JsbProps.v
theories/SelModel.v
theories/SelSpec.v
theories/SelProofs.v
theories/SelProps.v
theories/BclModel.v
theories/BclSpec.v
theories/BclProofs.v
theories/BclxProofs.v
theories/BclProps.v
theories/BwsModel.v
theories/BwsSpec.v
theories/BwsProps.v
theories/SrvModel.v
theories/SrvSpec.v
theories/SrvProofs.v
theories/SrvProps.v
theories/AccModel.v
theories/AccSpec.v
theories/AccProofs.v
theories/AccProps.v
theories/PspModel.v
theories/PspSpec.v
theories/PspProofs.v
theories/PspProps.v
theories/DuoModel.v
theories/DuoSpec.v
theories/DuoProofs.v
theories/DuoProps.v
theories/NetModel.v
theories/NetSpec.v
theories/NetProofs.v
theories/NetProps.v
theories/SigModel.v
theories/SigSpec.v
theories/SigProofs.v
theories/SigProps.v
theories/CstModel.v
theories/CstSpec.v
theories/CstProofs.v
theories/CstProps.v
theories/PipModel.v
theories/PipSpec.v
theories/PipProofs.v
theories/PipProps.v
theories/HlModel.v
theories/HlSpec.v
theories/HlProofs.v
theories/HlProps.v
theories/UidModel.v
theories/UidSpec.v
theories/UidProofs.v
theories/UidProps.v
theories/OptModel.v
theories/OptSpec.v
theories/OptProofs.v
theories/OptProps.v
theories/LifeModel.v
theories/LifeSpec.v
theories/LifeProofs.v
theories/LifeProps.v
theories/AgrSpec.v
theories/AgrProofs.v
theories/AgrProps.v
theories/WireModel.v
theories/WireSpec.v
theories/WireProofs.v
theories/WirexProofs.v
theories/WireProps.v
theories/VwModel.v
theories/VwSpec.v
theories/VwProofs.v
theories/VwProps.v
theories/ApiModel.v
theories/ApiSpec.v
theories/ApiProofs.v
theories/ApiProps.v
theories/MacModel.v
theories/MacSpec.v
theories/MacProofs.v
theories/MacProps.v
theories/PrnModel.v
theories/PrnSpec.v
theories/PrnProps.v
theories/PagModel.v
theories/PagSpec.v
theories/PagProofs.v
theories/PagProps.v
theories/BrwModel.v
theories/BrwSpec.v
theories/BrwProofs.v
theories/BrwProps.v
theories/ExmModel.v
theories/ExmSpec.v
theories/ExmProofs.v
theories/ExmProps.v
theories/HvModel.v
theories/HvSpec.v
theories/HvProofs.v
theories/HvProps.v
theories/BstModel.v
theories/BstSpec.v
theories/BstProps.v
