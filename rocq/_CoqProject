-Q theories Verif
theories/AggModel.v
theories/AggProofs.v
theories/AggProps.v
theories/AggSpec.v
theories/AtmosCases.v
theories/AtmosModel.v
theories/AtmosProofs.v
theories/AtmosProps.v
theories/AtmosSpec.v
theories/AtmosTop.v
theories/AuxProps.v
theories/AuxSpec.v
theories/AuxTop.v
theories/AxisModel.v
theories/AxisProofs.v
theories/AxisProps.v
theories/AxisSpec.v
theories/Base.v
theories/BcModel.v
theories/BcProofs.v
theories/BcProps.v
theories/BcSpec.v
theories/CkptModel.v
theories/CkptProofs.v
theories/CkptProps.v
theories/CkptPrtl.v
theories/CkptSpec.v
theories/DecompModel.v
theories/DecompProofs.v
theories/DecompProps.v
theories/DecompSpec.v
theories/DecompTop.v
theories/DepositBounds.v
theories/DepositModel.v
theories/DepositProofs.v
theories/DepositProps.v
theories/DepositSpec.v
theories/DepositTop.v
theories/DerivLemmas.v
theories/DirsModel.v
theories/DirsProofs.v
theories/DirsProps.v
theories/DirsSpec.v
theories/DivModel.v
theories/DivProofs.v
theories/DivProps.v
theories/DivSpec.v
theories/DoubleQuot.v
theories/EckModel.v
theories/EckProofs.v
theories/EckProps.v
theories/EckSpec.v
theories/EckTop.v
theories/EmitModel.v
theories/EmitProofs.v
theories/EmitProps.v
theories/EmitSpec.v
theories/EnergyProofs.v
theories/EnergySpec.v
theories/EnergyTop.v
theories/EnfModel.v
theories/EnfProofs.v
theories/EnfProps.v
theories/EnfSpec.v
theories/EnfTop.v
theories/EsirkProofs.v
theories/FieldGR.v
theories/FieldGRTop.v
theories/FieldModel.v
theories/FieldProofs.v
theories/FieldProps.v
theories/FieldSpec.v
theories/FieldTop.v
theories/FilterModel.v
theories/FilterProofs.v
theories/FilterProps.v
theories/FilterSpec.v
theories/FilterTop.v
theories/FixModel.v
theories/FixProofs.v
theories/FixProps.v
theories/FixSpec.v
theories/Fp32.v
theories/FwallProofs.v
theories/FwallProps.v
theories/FwallSpec.v
theories/GaussProofs.v
theories/GaussProps.v
theories/GaussSpec.v
theories/GaussTop.v
theories/GrPushLast.v
theories/GrPushModel.v
theories/GrPushProofs.v
theories/GrPushProps.v
theories/GrPushSpec.v
theories/GrPushTop.v
theories/GrStepModel.v
theories/GrStepProofs.v
theories/GrStepProps.v
theories/GrStepSpec.v
theories/GrStepTop.v
theories/HaloModel.v
theories/HaloProofs.v
theories/HaloProps.v
theories/HaloSpec.v
theories/HaloTop.v
theories/HorModel.v
theories/HorProofs.v
theories/HorProps.v
theories/HorSpec.v
theories/InjectCases.v
theories/InjectGlob.v
theories/InjectModel.v
theories/InjectProofs.v
theories/InjectProps.v
theories/InjectSpec.v
theories/InjectTop.v
theories/InjectWeights.v
theories/InterpModel.v
theories/InterpProofs.v
theories/InterpSpec.v
theories/KsDeriv.v
theories/KsDeriv2.v
theories/KsModel.v
theories/KsProofs.v
theories/KsProps.v
theories/KsSpec.v
theories/KsTop.v
theories/ListLemmas.v
theories/MatchModel.v
theories/MatchProofs.v
theories/MatchProps.v
theories/MatchSpec.v
theories/MatchTop.v
theories/MeshModel.v
theories/MeshProofs.v
theories/MeshProps.v
theories/MeshSpec.v
theories/MetModel.v
theories/MetProofs.v
theories/MetProps.v
theories/MetSpec.v
theories/MomentCases.v
theories/MomentModel.v
theories/MomentProofs.v
theories/MomentProps.v
theories/MomentSpec.v
theories/MomentSync.v
theories/MomentTop.v
theories/MomentVel.v
theories/MpiModel.v
theories/MpiProofs.v
theories/MwsModel.v
theories/MwsProofs.v
theories/MwsProps.v
theories/MwsSpec.v
theories/NmModel.v
theories/NmProofs.v
theories/NmProps.v
theories/NmRun.v
theories/NmSpec.v
theories/NmTop.v
theories/OpModel.v
theories/OpProofs.v
theories/OpProps.v
theories/OpSpec.v
theories/OpTop.v
theories/OutModel.v
theories/OutProofs.v
theories/OutProps.v
theories/OutSpec.v
theories/OutTop.v
theories/ParamModel.v
theories/ParamProofs.v
theories/ParamProps.v
theories/ParamSpec.v
theories/PhysModel.v
theories/PhysProofs.v
theories/PhysProps.v
theories/PhysSpec.v
theories/PolarProofs.v
theories/PoutModel.v
theories/PoutProofs.v
theories/PoutProps.v
theories/PoutSpec.v
theories/PrtlCommModel.v
theories/PrtlCommProofs.v
theories/PrtlCommProps.v
theories/PrtlCommSpec.v
theories/PrtlCommTop.v
theories/PrtlModel.v
theories/PrtlProofs.v
theories/PrtlProps.v
theories/PrtlSpec.v
theories/PrtlTop.v
theories/PushModel.v
theories/PushProofs.v
theories/PushProps.v
theories/PushSpec.v
theories/PushTop.v
theories/RdModel.v
theories/RdProofs.v
theories/RdProps.v
theories/RdSpec.v
theories/RdTop.v
theories/RepModel.v
theories/RepProofs.v
theories/RepProps.v
theories/RepSpec.v
theories/RunModel.v
theories/RunProofs.v
theories/RunProps.v
theories/RunSpec.v
theories/RunTop.v
theories/SetModel.v
theories/SetProofs.v
theories/SetProps.v
theories/SetSpec.v
theories/ShapeModel.v
theories/ShapePieces.v
theories/ShapeProofs.v
theories/ShapeProps.v
theories/ShapeSpec.v
theories/ShapeTop.v
theories/SmpBoost.v
theories/SmpModel.v
theories/SmpNormal.v
theories/SmpProofs.v
theories/SmpProps.v
theories/SmpSpec.v
theories/SmpTop.v
theories/SpcsModel.v
theories/SpcsProofs.v
theories/SpcsProps.v
theories/SpcsSpec.v
theories/SpcsTop.v
theories/SpctModel.v
theories/SpctProofs.v
theories/SpctProps.v
theories/SpctSpec.v
theories/SpctTop.v
theories/StatsModel.v
theories/StatsProofs.v
theories/StatsProps.v
theories/StatsSpec.v
theories/StatsTop.v
theories/StepModel.v
theories/StepProofs.v
theories/StepProps.v
theories/StepSpec.v
theories/StepTop.v
theories/StretchProofs.v
theories/SyncProofs.v
theories/TblModel.v
theories/TblProofs.v
theories/TblProps.v
theories/TblSpec.v
theories/TopoModel.v
theories/TopoProofs.v
theories/TopoProps.v
theories/TopoSpec.v
theories/TopoTop.v
theories/UnModel.v
theories/UnProofs.v
theories/UnProps.v
theories/UnSpec.v
theories/UnTop.v
theories/UniCases.v
theories/UniModel.v
theories/UniProofs.v
theories/UniProps.v
theories/UniSpec.v
theories/UniTop.v
theories/VelModel.v
theories/VelProofs.v
theories/VelProps.v
theories/VelRound.v
theories/VelSpec.v
theories/VelTop.v
theories/VpotModel.v
theories/VpotProofs.v
theories/VpotProps.v
theories/VpotSpec.v
theories/WallModel.v
theories/WallProofs.v
theories/WallProps.v
theories/WallSpec.v
theories/WallTop.v
theories/WindowFields.v
theories/WindowModel.v
theories/WindowProps.v
theories/WindowPrtl.v
theories/WindowSpec.v
theories/WindowTop.v
