-Q theories Verif
theories/Outcome.v
theories/Base64Model.v
theories/Base64Spec.v
theories/Base64Proofs.v
theories/Base64Props.v
theories/ListUtil.v
theories/MPIModel.v
theories/SortModel.v
theories/SortSpec.v
theories/SortProofs.v
theories/SortProps.v
theories/CommModel.v
theories/CommSpec.v
theories/MPIProofs.v
theories/CommProofs.v
theories/CommProps.v
theories/F64.v
theories/PointsModel.v
theories/PointsProofs.v
theories/PointsSpec.v
theories/PointsProps.v
theories/ParticleModel.v
theories/ParticleSpec.v
theories/ParticleProofs.v
theories/ExchangeProofs.v
theories/ParticleProps.v
theories/ExchangeProps.v
theories/DomainModel.v
theories/DomainSpec.v
theories/DomainProofs.v
theories/DomainFloat.v
theories/DomainProps.v
theories/IndexModel.v
theories/IndexSpec.v
theories/IndexProofs.v
theories/IndexProps.v
theories/Arith.v
theories/GeoModel.v
theories/GeoSpec.v
theories/GeoProofs.v
theories/GeoFloat.v
theories/GeoProps.v
theories/RngModel.v
theories/RngProofs.v
theories/RngProps.v
theories/ConModel.v
theories/ConSpec.v
theories/Overlay.v
theories/ConProofs.v
theories/ConProps.v
theories/QPModel.v
theories/QPSpec.v
theories/LinProofs.v
theories/QPProofs.v
theories/QPSolver.v
theories/QPReal.v
theories/QPTerm.v
theories/NewtonModel.v
theories/NewtonSpec.v
theories/NewtonProofs.v
theories/QPFloat.v
theories/QPProps.v
theories/VecModel.v
theories/VecSpec.v
theories/VecProofs.v
theories/SylModel.v
theories/SylSpec.v
theories/SylProofs.v
theories/MobProofs.v
theories/SylFloat.v
theories/SylProps.v
theories/BoundaryModel.v
theories/BoundarySpec.v
theories/QueueProofs.v
theories/BoundaryProofs.v
theories/BoundaryProps.v
theories/SegModel.v
theories/SegSpec.v
theories/SegProofs.v
theories/SegProps.v
theories/NearModel.v
theories/NearSpec.v
theories/NearProofs.v
theories/NearProps.v
theories/LinkModel.v
theories/LinkSpec.v
theories/LinkProofs.v
theories/LinkProps.v
theories/StepModel.v
theories/StepSpec.v
theories/StepProofs.v
theories/StepProps.v
theories/RunModel.v
theories/RunSpec.v
theories/RunProofs.v
theories/RunProps.v
theories/VtpModel.v
theories/VtpSpec.v
theories/VtpProofs.v
theories/VtpProps.v
theories/XmlModel.v
theories/XmlSpec.v
theories/XmlBytes.v
theories/XmlProofs.v
theories/XmlMain.v
theories/XmlFiles.v
theories/XmlProps.v
theories/YamlModel.v
theories/YamlSpec.v
theories/YamlProofs.v
theories/YamlProps.v
theories/BufModel.v
theories/BufSpec.v
theories/BufProofs.v
theories/BufProps.v
theories/CmdModel.v
theories/CmdSpec.v
theories/CmdProofs.v
theories/CmdProps.v
theories/MortonModel.v
theories/MortonSpec.v
theories/MortonProofs.v
theories/MortonProps.v
theories/MixModel.v
theories/MixSpec.v
theories/MixProofs.v
theories/MixProps.v
theories/StatModel.v
theories/StatSpec.v
theories/StatProofs.v
theories/StatProps.v
theories/LogModel.v
theories/LogSpec.v
theories/LogProofs.v
theories/LogProps.v
theories/ProbModel.v
theories/ProbSpec.v
theories/ProbProofs.v
theories/ProbProps.v
theories/BcheckModel.v
theories/BcheckSpec.v
theories/BcheckProofs.v
theories/BcheckProps.v
theories/BoxModel.v
theories/BoxSpec.v
theories/BoxProofs.v
theories/BoxProps.v
theories/InitModel.v
theories/InitSpec.v
theories/InitProofs.v
theories/InitProps.v
theories/DistModel.v
theories/DistSpec.v
theories/DistProofs.v
theories/DistProps.v
theories/RadixModel.v
theories/RadixSpec.v
theories/RadixProofs.v
theories/RadixProps.v
theories/TreeModel.v
theories/TreeSpec.v
theories/TreeProofs.v
theories/TreeLink.v
theories/TreeLevels.v
theories/TreeOct.v
theories/TreeMoment.v
theories/TreeLists.v
theories/TreeSearch.v
theories/TreeReal.v
theories/TreeFloat.v
theories/TreeContact.v
theories/TreeProps.v
theories/LetModel.v
theories/LetArrays.v
theories/LetTable.v
theories/LetSend.v
theories/LetWalk.v
theories/LetSpec.v
theories/LetImages.v
theories/LetFind.v
theories/LetProofs.v
theories/LetReal.v
theories/LetOpen.v
theories/LetSearch.v
theories/LetProps.v
theories/CallModel.v
theories/CallSpec.v
theories/CallRoot.v
theories/CallSort.v
theories/CallForce.v
theories/CallProofs.v
theories/CallContact.v
theories/CallProps.v
theories/CallOpenSpec.v
theories/CallOpenRoot.v
theories/CallOpenProofs.v
theories/CallOpenProps.v
theories/CallBallSpec.v
theories/CallBallReal.v
theories/CallBallProofs.v
theories/CallBallProps.v
theories/MixOpenSpec.v
theories/MixOpenProofs.v
theories/MixOpenProps.v
theories/MixRankModel.v
theories/MixRankSpec.v
theories/MixRankProofs.v
theories/MixRankProps.v
theories/PipeModel.v
theories/PipeSpec.v
theories/PipeProofs.v
theories/PipeCollect.v
theories/PipeProps.v
theories/WholeModel.v
theories/WholeSpec.v
theories/WholeProofs.v
theories/WholeSolve.v
theories/WholeStep.v
theories/WholeMain.v
theories/WholeProps.v
theories/FullSpec.v
theories/FullProofs.v
theories/FullMain.v
theories/FullProps.v
theories/SimModel.v
theories/SimSpec.v
theories/SimProofs.v
theories/SimMain.v
theories/SimProps.v
theories/PoolModel.v
theories/PoolSpec.v
theories/PoolProofs.v
theories/PoolAlloc.v
theories/PoolCalls.v
theories/PoolMain.v
theories/PoolProps.v
theories/AscModel.v
theories/AscSpec.v
theories/AscNum.v
theories/AscText.v
theories/AscProofs.v
theories/AscMore.v
theories/AscProps.v
theories/MtModel.v
theories/MtSpec.v
theories/MtProofs.v
theories/MtMain.v
theories/MtProps.v
theories/LcpRepModel.v
theories/LcpRepSpec.v
theories/LcpRepProofs.v
theories/LcpRepProps.v
theories/TreeCapModel.v
theories/TreeCapSpec.v
theories/TreeCapProofs.v
theories/TreeCapProps.v
theories/CmdMsgModel.v
theories/CmdMsgSpec.v
theories/CmdMsgProofs.v
theories/CmdMsgProps.v
theories/DirModel.v
theories/DirSpec.v
theories/DirProofs.v
theories/DirProps.v
theories/BoxFileModel.v
theories/BoxFileSpec.v
theories/BoxFileProofs.v
theories/BoxFileProps.v
theories/DumpModel.v
theories/DumpSpec.v
theories/DumpProofs.v
theories/DumpProps.v
theories/OrthoModel.v
theories/OrthoSpec.v
theories/OrthoProofs.v
theories/OrthoProps.v
theories/BinTextModel.v
theories/BinTextSpec.v
theories/BinTextProofs.v
theories/BinTextProps.v
