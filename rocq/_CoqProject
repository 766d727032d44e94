-Q theories Verif
theories/Base.v
theories/GeomModel.v
theories/GeomSpec.v
theories/GeomProofs.v
theories/GeomProps.v
theories/GCellModel.v
theories/GCellSpec.v
theories/GCellProofs.v
theories/GCellProps.v
theories/Stl.v
theories/TechModel.v
theories/TechSpec.v
theories/TechProofs.v
theories/TechProps.v
theories/GridModel.v
theories/GridSpec.v
theories/GridProofs.v
theories/GridProofs2.v
theories/GridProps.v
theories/MazeModel.v
theories/MazeSpec.v
theories/MazeAbs.v
theories/MazeProofs.v
theories/MazeProps.v
theories/NetModel.v
theories/NetSpec.v
theories/NetProofs.v
theories/NetProofs2.v
theories/NetProofs3.v
theories/NetProofs4.v
theories/NetProofs5.v
theories/NetProps.v
theories/TreeModel.v
theories/TreeSpec.v
theories/TreeProofs.v
theories/ConnModel.v
theories/ConnSpec.v
theories/ConnProofs.v
theories/ConnProofs2.v
theories/ConnProofs3.v
theories/ConnProofs4.v
theories/ConnProofs5.v
theories/ConnProofs6.v
theories/ConnProps.v
theories/PaModel.v
theories/PaSpec.v
theories/PaProofs.v
theories/PaProofs2.v
theories/PaProofs3.v
theories/PaProofs4.v
theories/PaProofs5.v
theories/PaProps.v
theories/TaModel.v
theories/TaSpec.v
theories/TaProofs.v
theories/TaProofs2.v
theories/TaProofs3.v
theories/TaProps.v
theories/GcModel.v
theories/GcSpec.v
theories/GcProofs.v
theories/GcProofs2.v
theories/GcProofs3.v
theories/GcProps.v
theories/GraphModel.v
theories/GraphSpec.v
theories/GraphProofs.v
theories/GraphProofs2.v
theories/GraphProofs3.v
theories/GraphProofs4.v
theories/GraphProps.v
theories/BatchModel.v
theories/BatchSpec.v
theories/BatchProofs.v
theories/BatchProofs2.v
theories/BatchProps.v
theories/ClipModel.v
theories/ClipSpec.v
theories/ClipProofs.v
theories/ClipProofs2.v
theories/ClipProofs3.v
theories/ClipProofs4.v
theories/ClipProofs5.v
theories/ClipProofs6.v
theories/ClipProofs7.v
theories/ClipProofs8.v
theories/ClipProps.v
theories/TreeProofs2.v
theories/GuideModel.v
theories/GuideSpec.v
theories/GuideProofs1.v
theories/GuideProofs2.v
theories/GuideProofs3.v
theories/GuideProofs4.v
theories/GuideProofs5.v
theories/GuideProofs6.v
theories/GuideProofs7.v
theories/GuideProps.v
theories/SubnetModel.v
theories/SubnetSpec.v
theories/SubnetProofs1.v
theories/SubnetProofs2.v
theories/SubnetProofs3.v
theories/SubnetProps.v
theories/QueueModel.v
theories/QueueSpec.v
theories/QueueProofs.v
theories/QueueProps.v
theories/IoModel.v
theories/IoSpec.v
theories/IoProofs.v
theories/IoProofs2.v
theories/IoProps.v
theories/CostModel.v
theories/CostSpec.v
theories/CostProofs.v
theories/CostProofs2.v
theories/CostProofs3.v
theories/CostProofs4.v
theories/CostProps.v
theories/FareModel.v
theories/FareSpec.v
theories/FareAbs.v
theories/FareProofs.v
theories/FareProofs2.v
theories/FareProofs3.v
theories/FareProps.v
theories/RpModel.v
theories/RpSpec.v
theories/RpProofs.v
theories/RpProofs2.v
theories/RpProofs3.v
theories/RpProps.v
theories/CutModel.v
theories/CutSpec.v
theories/CutProofs.v
theories/CutProofs2.v
theories/CutProps.v
theories/CutProofs3.v
theories/CutCostProps.v
theories/EolModel.v
theories/EolSpec.v
theories/EolProofs.v
theories/EolProofs2.v
theories/EolProofs3.v
theories/EolProofs4.v
theories/EolProps.v
theories/EolCostProps.v
theories/StepModel.v
theories/StepSpec.v
theories/StepProofs.v
theories/StepProofs2.v
theories/StepProofs3.v
theories/StepProofs4.v
theories/StepProofs5.v
theories/StepProps.v
theories/CornModel.v
theories/CornSpec.v
theories/CornProofs.v
theories/CornProofs2.v
theories/CornProofs3.v
theories/CornProofs4.v
theories/CornProofs5.v
theories/CornProps.v
theories/PatchModel.v
theories/PatchSpec.v
theories/PatchProofs.v
theories/PatchProofs2.v
theories/PatchProofs3.v
theories/PatchProofs4.v
theories/PatchProofs5.v
theories/PatchProofs6.v
theories/PatchProofs7.v
theories/PatchProps.v
theories/ApModel.v
theories/ApSpec.v
theories/ApProofs.v
theories/ApProofs2.v
theories/ApProofs3.v
theories/ApProofs4.v
theories/ApProofs5.v
theories/ApProofs6.v
theories/ApProps.v
theories/UiModel.v
theories/UiSpec.v
theories/UiProofs.v
theories/UiProofs2.v
theories/UiProofs3.v
theories/UiProps.v
theories/BpModel.v
theories/BpSpec.v
theories/BpProofs.v
theories/BpProofs2.v
theories/BpProps.v
theories/KeepModel.v
theories/KeepSpec.v
theories/KeepProofs.v
theories/KeepProofs2.v
theories/KeepProofs3.v
theories/KeepProofs4.v
theories/KeepProps.v
theories/TwModel.v
theories/TwSpec.v
theories/TwProofs.v
theories/TwProofs2.v
theories/TwProofs3.v
theories/TwProofs4.v
theories/TwProps.v
theories/ViaModel.v
theories/ViaSpec.v
theories/ViaProofs.v
theories/ViaProofs2.v
theories/ViaProps.v
theories/GfModel.v
theories/GfSpec.v
theories/GfProofs.v
theories/GfProps.v
theories/RefModel.v
theories/RefSpec.v
theories/RefProps.v
theories/IrModel.v
theories/IrSpec.v
theories/IrProofs.v
theories/IrProps.v
theories/FixModel.v
theories/FixSpec.v
theories/FixProps.v
theories/HistModel.v
theories/HistSpec.v
theories/HistProofs.v
theories/HistProofs2.v
theories/HistProofs3.v
theories/HistProofs4.v
theories/HistProps.v
theories/SetupModel.v
theories/SetupSpec.v
theories/SetupProofs.v
theories/SetupProofs2.v
theories/SetupProofs3.v
theories/SetupProofs4.v
theories/SetupProofs5.v
theories/SetupProofs6.v
theories/SetupProps.v
theories/NcModel.v
theories/NcSpec.v
theories/NcProofs.v
theories/NcProofs2.v
theories/NcProofs3.v
theories/NcProofs4.v
theories/NcProofs5.v
theories/NcProofs6.v
theories/NcProofs7.v
theories/NcProofs8.v
theories/NcProps.v
theories/FmModel.v
theories/FmSpec.v
theories/FmProofs.v
theories/FmProofs2.v
theories/FmProps.v
theories/GiModel.v
theories/GiSpec.v
theories/GiProofs.v
theories/GiProofs2.v
theories/GiProofs3.v
theories/GiProps.v
theories/RqModel.v
theories/RqSpec.v
theories/RqProofs.v
theories/RqProofs2.v
theories/RqProps.v
theories/L58Model.v
theories/L58Spec.v
theories/L58Proofs.v
theories/L58Proofs2.v
theories/L58Proofs3.v
theories/L58Proofs4.v
theories/L58Props.v
theories/NlModel.v
theories/NlSpec.v
theories/NlProofs.v
theories/NlProps.v
theories/CliModel.v
theories/CliSpec.v
theories/CliProofs.v
theories/CliProps.v
theories/LvModel.v
theories/LvSpec.v
theories/LvProofs.v
theories/LvProps.v
theories/CspModel.v
theories/CspSpec.v
theories/CspProofs.v
theories/CspProofs2.v
theories/CspProps.v
theories/MciSpec.v
theories/MciProofs.v
theories/MciProps.v
theories/DhModel.v
theories/DhSpec.v
theories/DhProofs.v
theories/DhProps.v
theories/Cs8Model.v
theories/Cs8Spec.v
theories/Cs8Proofs.v
theories/Cs8Proofs2.v
theories/Cs8Props.v
theories/GwModel.v
theories/GwSpec.v
theories/GwProofs.v
theories/GwProps.v
theories/RptModel.v
theories/RptSpec.v
theories/RptProofs.v
theories/RptProps.v
theories/OrdModel.v
theories/OrdSpec.v
theories/OrdProofs.v
theories/OrdProps.v
theories/BaModel.v
theories/BaSpec.v
theories/BaProofs.v
theories/BaProps.v
theories/PiModel.v
theories/PiSpec.v
theories/PiProofs.v
theories/PiProofs2.v
theories/PiProps.v
theories/DwModel.v
theories/DwSpec.v
theories/DwProofs.v
theories/DwProofs2.v
theories/DwProofs3.v
theories/DwProps.v
theories/SnModel.v
theories/SnSpec.v
theories/SnProofs.v
theories/SnProofs2.v
theories/SnProps.v
theories/DpModel.v
theories/DpSpec.v
theories/DpProofs.v
theories/DpProps.v
theories/DvModel.v
theories/DvSpec.v
theories/DvProofs.v
theories/DvProps.v
theories/DnModel.v
theories/DnSpec.v
theories/DnProofs.v
theories/DnProps.v
theories/DgModel.v
theories/DgSpec.v
theories/DgProofs.v
theories/DgProps.v
theories/DdModel.v
theories/DdSpec.v
theories/DdProofs.v
theories/DdProps.v
