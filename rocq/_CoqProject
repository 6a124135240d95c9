-Q theories Verif
theories/Base.v
theories/SparseModel.v
theories/SparseSpec.v
theories/SparseProofs.v
theories/SparseProps.v
theories/AccumModel.v
theories/AccumSpec.v
theories/AccumProofs.v
theories/AccumProps.v
theories/HistModel.v
theories/HistSpec.v
theories/HistProofs.v
theories/HistProps.v
theories/TrapModel.v
theories/TrapSpec.v
theories/TrapProofs.v
theories/TrapProps.v
theories/VecModel.v
theories/VecSpec.v
theories/VecProofs.v
theories/VecProps.v
theories/PoissonModel.v
theories/PoissonSpec.v
theories/PoissonProofs.v
theories/PoissonProps.v
theories/EgridModel.v
theories/EgridProofs.v
theories/EgridProps.v
theories/DerivSpec.v
theories/NewtonModel.v
theories/NewtonProofs.v
theories/NewtonSpec.v
theories/NewtonFit.v
theories/NewtonProps.v
theories/SMap.v
theories/SrcModel.v
theories/SrcSpec.v
theories/SrcProofs.v
theories/SrcProps.v
theories/TiedModel.v
theories/TiedSpec.v
theories/TiedProofs.v
theories/TiedDerivs.v
theories/TiedProps.v
theories/SummedModel.v
theories/SummedSpec.v
theories/SummedProofs.v
theories/SummedProps.v
theories/CountsModel.v
theories/CountsSpec.v
theories/CountsProofs.v
theories/CountsProps.v
theories/SmapModel.v
theories/SmapSpec.v
theories/SmapProofs.v
theories/SmapNpred.v
theories/SmapFixed.v
theories/SmapLike.v
theories/SmapGrad.v
theories/SmapProps.v
theories/DrmModel.v
theories/DrmSpec.v
theories/DrmProofs.v
theories/DrmProps.v
theories/BinnedModel.v
theories/BinnedSpec.v
theories/BinnedProofs.v
theories/BinnedProps.v
theories/UnbinModel.v
theories/UnbinSpec.v
theories/UnbinProofs.v
theories/UnbinRuns.v
theories/UnbinHist.v
theories/UnbinCareful.v
theories/UnbinBest.v
theories/UnbinGrad.v
theories/UnbinProps.v
theories/EvtModel.v
theories/EvtSpec.v
theories/EvtProofs.v
theories/EvtFiles.v
theories/EvtProps.v
theories/SpecFn.v
theories/SpecDom.v
theories/SpecTac.v
theories/SpecPowModel.v
theories/SpecPow.v
theories/SpecExpModel.v
theories/SpecExp.v
theories/SpecBrkModel.v
theories/SpecBrk.v
theories/SpecBrk2.v
theories/SpecBrk3.v
theories/SpecRef.v
theories/SpecListModel.v
theories/SpecList.v
theories/SpecPPL.v
theories/SpecProps.v
theories/SpecIntModel.v
theories/SpecIntSpec.v
theories/SpecCont.v
theories/SpecInt.v
theories/SpecProps2.v
theories/PLCacheModel.v
theories/PLCacheSpec.v
theories/PLCacheProofs.v
theories/PLCacheFloat.v
theories/PLCacheProps.v
theories/PriorModel.v
theories/PriorSpec.v
theories/PriorProps.v
theories/MeanSpec.v
theories/MeanProps.v
theories/SmcModel.v
theories/SmcSpec.v
theories/SmcProofs.v
theories/SmcProps.v
theories/MlibModel.v
theories/MlibSpec.v
theories/MlibProofs.v
theories/MlibProps.v
theories/DecModel.v
theories/DecSpec.v
theories/DecProofs.v
theories/DecProps.v
theories/NpModel.v
theories/NpSpec.v
theories/NpProofs.v
theories/NpRange.v
theories/NpOsf.v
theories/NpProps.v
theories/LtModel.v
theories/LtSpec.v
theories/LtProofs.v
theories/LtLoad.v
theories/LtSc.v
theories/LtProps.v
theories/RoiModel.v
theories/RoiSpec.v
theories/RoiProps.v
theories/CmpModel.v
theories/CmpSpec.v
theories/CmpProofs.v
theories/CmpSet.v
theories/CmpMain.v
theories/CmpGrad.v
theories/CmpProps.v
theories/SnapModel.v
theories/SnapSpec.v
theories/SnapProofs.v
theories/SnapBits.v
theories/SnapProps.v
theories/FsmModel.v
theories/FsmSpec.v
theories/FsmProofs.v
theories/FsmData.v
theories/FsmProps.v
theories/FscModel.v
theories/FscSpec.v
theories/FscProofs.v
theories/FscUpdate.v
theories/FscProps.v
theories/MpsfModel.v
theories/MpsfSpec.v
theories/MpsfProofs.v
theories/MpsfInit.v
theories/MpsfUse.v
theories/MpsfProps.v
theories/BexpModel.v
theories/BexpSpec.v
theories/BexpProofs.v
theories/BexpProps.v
theories/WmapModel.v
theories/WmapSpec.v
theories/WmapProofs.v
theories/WmapProps.v
theories/WrebModel.v
theories/WrebSpec.v
theories/WrebProofs.v
theories/WrebProps.v
theories/ShapeModel.v
theories/ShapeSpec.v
theories/ShapeProofs.v
theories/ShapeProps.v
theories/DrgModel.v
theories/DrgSpec.v
theories/DrgProofs.v
theories/DrgProps.v
theories/PsfuModel.v
theories/PsfuSpec.v
theories/PsfuProofs.v
theories/PsfuEst.v
theories/PsfuMaps.v
theories/PsfuProps.v
theories/XmlText.v
theories/XmlModel.v
theories/XmlSpec.v
theories/XmlTextProofs.v
theories/XmlProofs.v
theories/XmlReread.v
theories/XmlProps.v
theories/XmlProps2.v
theories/VmapModel.v
theories/VmapSpec.v
theories/VmapProofs.v
theories/VmapProofs2.v
theories/VmapProps.v
theories/XmlProps3.v
theories/EmModel.v
theories/EmSpec.v
theories/EmProofs.v
theories/EmProofs2.v
theories/EmProofs3.v
theories/EmProps.v
theories/EmProps2.v
theories/DexpModel.v
theories/DexpSpec.v
theories/DexpProofs.v
theories/DexpProofs2.v
theories/DexpProps.v
theories/DexpProps2.v
theories/CmapModel.v
theories/CmapSpec.v
theories/CmapProofs.v
theories/CmapProofs2.v
theories/CmapProps.v
theories/CmapProps2.v
theories/CompoModel.v
theories/CompoSpec.v
theories/CompoProofs.v
theories/CompoProps.v
theories/CspModel.v
theories/CspSpec.v
theories/CspProofs.v
theories/CspProps.v
theories/NscModel.v
theories/NscSpec.v
theories/NscProofs.v
theories/NscProps.v
theories/HpmModel.v
theories/HpmSpec.v
theories/HpmProofs.v
theories/HpmProps.v
theories/FpsModel.v
theories/FpsSpec.v
theories/FpsProofs.v
theories/FpsProps.v
theories/FioModel.v
theories/FioSpec.v
theories/FioProofs.v
theories/FioProps.v
theories/CutModel.v
theories/CutSpec.v
theories/CutProofs.v
theories/CutProps.v
theories/LtpModel.v
theories/LtpSpec.v
theories/LtpProofs.v
theories/LtpProps.v
