-Q theories Verif

theories/Prelude.v
theories/OMap.v
theories/DatagramModel.v
theories/DatagramSpec.v
theories/DatagramHeap.v
theories/DatagramProofs.v
theories/DatagramEq.v
theories/DatagramStmt.v
theories/DatagramRefine.v
theories/DatagramRefine2.v
theories/DatagramInv.v
theories/DatagramIso.v
theories/DatagramFinite.v
theories/DatagramDiverge.v
theories/DatagramHist.v
theories/DatagramProps.v
theories/SerialModel.v
theories/PrintModel.v
theories/SerialSpec.v
theories/SerialProofs.v
theories/SerialProofs2.v
theories/SerialProps.v
theories/WireModel.v
theories/WireSpec.v
theories/WireProofs.v
theories/WireBuild.v
theories/WireProps.v
theories/MessageModel.v
theories/MessageProps.v
theories/RawBytesModel.v
theories/RawBytesProps.v
theories/BusModel.v
theories/BusProofs.v
theories/BusTree.v
theories/BusLocks.v
theories/BusLocks2.v
theories/BusLocks3.v
theories/BusSpec.v
theories/BusDist.v
theories/BusAccount.v
theories/BusOnce.v
theories/BusServe.v
theories/BusFlight.v
theories/BusDetach.v
theories/BusProgress.v
theories/BusDeliver.v
theories/BusStop.v
theories/BusDeliveryProps.v
theories/BusApiProps.v
theories/BusLockProps.v
theories/ActionSpec.v
theories/ActionProofs.v
theories/ActionProps.v
theories/RequestModel.v
theories/RequestProps.v
theories/UuidModel.v
theories/UuidProps.v
theories/FilesystemModel.v
theories/FilesystemProps.v
theories/PluginModel.v
theories/PluginSpec.v
theories/PluginProofs.v
theories/PluginProps.v
theories/LoadProps.v
theories/AppModel.v
theories/AppSpec.v
theories/AppProofs.v
theories/AppProps.v
theories/LifeModel.v
theories/LifeProps.v
theories/LogModel.v
theories/LogProps.v
theories/LinkModel.v
theories/LinkProps.v
theories/NodeModel.v
theories/NodeProps.v
theories/NetModel.v
theories/NetProps.v
theories/RouteProps.v
theories/ServiceModel.v
theories/ServiceProps.v
theories/OwnModel.v
theories/OwnProofs.v
theories/OwnProps.v
theories/SyncModel.v
theories/SyncSpec.v
theories/SyncProofs.v
theories/SyncProps.v
theories/RaceModel.v
theories/RaceSpec.v
theories/RaceProofs.v
theories/RaceProps.v
theories/ReplaceSpec.v
theories/ReplaceProps.v
theories/SysInfoModel.v
theories/SysInfoSpec.v
theories/SysInfoProofs.v
theories/SysInfoProps.v
theories/CodeModel.v
theories/CodeSpec.v
theories/CodeProofs.v
theories/CodeProps.v
theories/ProgModel.v
theories/ProgProps.v
theories/SigModel.v
theories/SigProps.v
theories/WorkerModel.v
theories/WorkerSpec.v
theories/WorkerProofs.v
theories/WorkerProps.v
theories/LinkLifeModel.v
theories/LinkLifeSpec.v
theories/LinkLifeProofs.v
theories/LinkLifeProps.v
theories/WinFsModel.v
theories/WinFsProps.v
theories/InstallModel.v
theories/InstallProps.v
theories/TransportModel.v
theories/TransportProps.v
theories/ClusterModel.v
theories/ClusterSpec.v
theories/ClusterProofs.v
theories/ClusterProps.v
theories/MainModel.v
theories/MainSpec.v
theories/MainProofs.v
theories/MainProps.v
theories/ShippedModel.v
theories/ShippedSpec.v
theories/ShippedProofs.v
theories/ShippedProps.v
theories/WideSpec.v
theories/WideProofs.v
theories/WideProps.v
theories/WiringModel.v
theories/WiringSpec.v
theories/WiringProofs.v
theories/WiringProps.v
theories/AskModel.v
theories/AskSpec.v
theories/AskProofs.v
theories/AskProps.v
theories/RemoteSpec.v
theories/RemoteProofs.v
theories/RemoteProps.v
theories/SayModel.v
theories/SaySpec.v
theories/SayProofs.v
theories/SayProps.v
theories/TellModel.v
theories/TellSpec.v
theories/TellProps.v
