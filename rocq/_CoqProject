-Q theories Verif
theories/Prelude.v
theories/PreludeFacts.v
theories/NumpyModel.v
theories/AvgModel.v
theories/AvgModel2.v
theories/AvgSpec2.v
theories/AvgSpec.v
theories/QcArith.v
theories/QcFacts.v
theories/SortFacts.v
theories/AvgProofs.v
theories/AvgProofs2.v
theories/AvgProofs3.v
theories/AvgProofs4.v
theories/AvgProps.v
theories/AvgProofs5.v
theories/AvgProofs6.v
theories/AvgProofs7.v
theories/AvgProps2.v
theories/UtilModel.v
theories/UtilSpec.v
theories/UtilProofs.v
theories/UtilProofs2.v
theories/UtilProofs3.v
theories/UtilProps.v
theories/CRing.v
theories/PredictModel.v
theories/PredictSpec.v
theories/PredictProofs.v
theories/PredictProofs2.v
theories/DaskPredictModel.v
theories/DaskPredictSpec.v
theories/DaskPredictProofs.v
theories/DaskPredictProofs2.v
theories/PredictProps.v
theories/CField.v
theories/CalModel.v
theories/CalSpec.v
theories/CalProofs.v
theories/CalProofs2.v
theories/CalProps.v
theories/KronModel.v
theories/KronSpec.v
theories/KronProofs.v
theories/KronProps.v
theories/GeomModel.v
theories/GeomSpec.v
theories/GeomProofs.v
theories/GeomProofs2.v
theories/GeomProofs3.v
theories/GeomProps.v
theories/CohModel.v
theories/CohSpec.v
theories/CohProofs.v
theories/CohProofs2.v
theories/CohProofs3.v
theories/CohProps.v
theories/LoopFacts.v
theories/CplxR.v
theories/RimeModel.v
theories/RimeSpec.v
theories/RimeProofs.v
theories/RimeProps.v
theories/DftModel.v
theories/DftSpec.v
theories/DftProofs.v
theories/DftProps.v
theories/SrcModel.v
theories/SrcSpec.v
theories/SrcProofs.v
theories/SrcProofs2.v
theories/SrcProofs3.v
theories/SrcProps.v
theories/CplxF.v
theories/Cal2Model.v
theories/Cal2Spec.v
theories/Cal2Proofs.v
theories/Cal2Proofs2.v
theories/Cal2Proofs3.v
theories/Cal2Props.v
theories/HogModel.v
theories/HogSpec.v
theories/HogProofs.v
theories/HogProps.v
theories/BeamModel.v
theories/BeamSpec.v
theories/BeamProofs.v
theories/BeamProofs2.v
theories/BeamProofs3.v
theories/BeamProps.v
theories/ZernModel.v
theories/ZernSpec.v
theories/ZernProofs.v
theories/ZernProofs2.v
theories/ZernProps.v
theories/CoordModel.v
theories/CoordSpec.v
theories/CoordProofs.v
theories/CoordProps.v
theories/LoadModel.v
theories/LoadSpec.v
theories/LoadProofs.v
theories/LoadProofs2.v
theories/LoadProofs3.v
theories/LoadProps.v
theories/SpiModel.v
theories/SpiSpec.v
theories/SpiProofs.v
theories/SpiProps.v
theories/StokesGridModel.v
theories/StokesGridSpec.v
theories/StokesGridProofs.v
theories/StokesGridProps.v
theories/FacetModel.v
theories/FacetSpec.v
theories/FacetProofs.v
theories/FacetProps.v
theories/KernModel.v
theories/KernSpec.v
theories/KernProofs.v
theories/KernProofs2.v
theories/KernProps.v
theories/GridModel.v
theories/GridSpec.v
theories/GridProofs.v
theories/GridProofs2.v
theories/GridProps.v
theories/GridProofs3.v
theories/GridProofs4.v
theories/GridProofs5.v
theories/GridProofs6.v
theories/GridProofs7.v
theories/GridProps2.v
theories/WgridModel.v
theories/WgridSpec.v
theories/WgridProofs.v
theories/WgridProofs2.v
theories/WgridProps.v
theories/NiftyModel.v
theories/NiftySpec.v
theories/NiftyProofs.v
theories/NiftyProofs2.v
theories/NiftyProps.v
theories/GpsModel.v
theories/GpsSpec.v
theories/GpsProofs.v
theories/GpsProps.v
theories/CmdModel.v
theories/CmdSpec.v
theories/CmdProofs.v
theories/CmdProofs2.v
theories/CmdProps.v
theories/AxesModel.v
theories/AxesSpec.v
theories/AxesProofs.v
theories/AxesProofs2.v
theories/AxesProofs3.v
theories/AxesProps.v
theories/DaskAvgModel.v
theories/DaskAvgSpec.v
theories/DaskAvgProofs.v
theories/DaskAvgProps.v
theories/SplineModel.v
theories/SplineSpec.v
theories/SplineProofs.v
theories/SplineProofs2.v
theories/SplineProofs3.v
theories/SplineProps.v
theories/BarModel.v
theories/BarSpec.v
theories/BarProofs.v
theories/BarProofs2.v
theories/BarProps.v
theories/DaskRimeModel.v
theories/DaskRimeSpec.v
theories/DaskRimeProofs.v
theories/DaskRimeProps.v
theories/DaskCohProofs.v
theories/DaskCohProps.v
theories/CudaPredictModel.v
theories/CudaPredictSpec.v
theories/CudaPredictProofs.v
theories/CudaPredictProofs2.v
theories/CudaPredictProofs3.v
theories/CudaPredictProofs4.v
theories/CudaPredictProps.v
theories/CudaModel.v
theories/CudaSpec.v
theories/CudaProofs.v
theories/CudaRimeModel.v
theories/CudaRimeSpec.v
theories/CudaRimeProofs.v
theories/CudaRimeProps.v
theories/CudaBeamModel.v
theories/CudaBeamSpec.v
theories/CudaBeamProofs.v
theories/CudaBeamProofs2.v
theories/CudaBeamProofs3.v
theories/CudaBeamProofs4.v
theories/CudaBeamProofs5.v
theories/CudaBeamProps.v
theories/CudaCohModel.v
theories/CudaCohSpec.v
theories/CudaCohProofs.v
theories/CudaCohProofs2.v
theories/CudaCohProofs3.v
theories/CudaCohProofs4.v
theories/CudaCohProps.v
theories/CudaMemoModel.v
theories/CudaMemoSpec.v
theories/CudaMemoProofs.v
theories/CudaMemoProofs2.v
theories/CudaMemoProps.v
theories/InstallModel.v
theories/InstallSpec.v
theories/InstallProofs.v
theories/InstallProofs2.v
theories/InstallProofs3.v
theories/InstallProps.v
theories/PipeModel.v
theories/PipeSpec.v
theories/PipeProofs.v
theories/PipeProofs2.v
theories/PipeProofs3.v
theories/PipeProofs4.v
theories/PipeProps.v
theories/CellModel.v
theories/CellSpec.v
theories/CellProofs.v
theories/CellProps.v
theories/BeamFactoryModel.v
theories/BeamFactorySpec.v
theories/BeamFactoryProofs.v
theories/BeamFactoryProps.v
theories/FitsPredictModel.v
theories/FitsPredictSpec.v
theories/FitsPredictProofs.v
theories/FitsPredictProps.v
theories/RouteSpec.v
theories/RouteProofs.v
theories/RouteProps.v
theories/RebaseModel.v
theories/RebaseSpec.v
theories/RebaseProofs.v
theories/RebaseProps.v
theories/ApplyGainsModel.v
theories/ApplyGainsSpec.v
theories/ApplyGainsProofs.v
theories/ApplyGainsProps.v
theories/ScreenModel.v
theories/ScreenSpec.v
theories/ScreenProofs.v
theories/ScreenProps.v
theories/FftFacts.v
theories/RestoreModel.v
theories/RestoreSpec.v
theories/RestoreProofs.v
theories/RestoreProofs2.v
theories/RestoreProofs3.v
theories/RestoreProofs4.v
theories/RestoreProps.v
theories/FitterModel.v
theories/FitterSpec.v
theories/FitterProofs.v
theories/FitterProofs2.v
theories/FitterProofs3.v
theories/FitterProofs4.v
theories/FitterProofs5.v
theories/FitterProps.v
theories/FitBeamModel.v
theories/FitBeamSpec.v
theories/FitBeamProofs.v
theories/FitBeamProofs2.v
theories/FitBeamProofs3.v
theories/FitBeamProofs4.v
theories/FitBeamProps.v
theories/GpGainsModel.v
theories/GpGainsSpec.v
theories/GpGainsProofs.v
theories/GpGainsProofs2.v
theories/GpGainsProofs3.v
theories/GpGainsProps.v
theories/NvccModel.v
theories/NvccSpec.v
theories/NvccProofs.v
theories/NvccProofs2.v
theories/NvccProofs3.v
theories/NvccProps.v
theories/DtypeModel.v
theories/DtypeSpec.v
theories/DtypeProofs.v
theories/DtypeProps.v
theories/HullModel.v
theories/HullSpec.v
theories/HullProofs.v
theories/HullProofs2.v
theories/HullProofs3.v
theories/HullProps.v
theories/RoundModel.v
theories/RoundSpec.v
theories/RoundProofs.v
theories/RoundProofs2.v
theories/RoundProofs3.v
theories/RoundProofs4.v
theories/RoundProps.v
theories/RavgModel.v
theories/RavgSpec.v
theories/RavgProofs.v
theories/RavgProofs2.v
theories/RavgProps.v
theories/RdftModel.v
theories/RdftSpec.v
theories/RdftProofs.v
theories/RdftProofs2.v
theories/RdftProofs3.v
theories/RdftProofs4.v
theories/RdftProps.v
theories/CleanSpec.v
theories/CleanProofs.v
theories/CleanProps.v
theories/StepsSpec.v
theories/StepsProofs.v
theories/StepsProofs2.v
theories/StepsProps.v
theories/ImgSpec.v
theories/ImgProofs.v
theories/ImgProps.v
theories/PhaseSpec.v
theories/PhaseProofs.v
theories/PhaseProofs2.v
theories/PhaseProofs3.v
theories/PhaseProps.v
theories/RcalSpec.v
theories/RcalProofs.v
theories/RcalProofs2.v
theories/RcalProofs3.v
theories/RcalProps.v
theories/IsoSpec.v
theories/IsoProofs.v
theories/IsoProofs2.v
theories/IsoProps.v
theories/RhogModel.v
theories/RhogSpec.v
theories/RhogProofs.v
theories/RhogProofs2.v
theories/RhogProofs3.v
theories/RhogProps.v
theories/SynSpec.v
theories/SynProofs.v
theories/SynProps.v
theories/RcohModel.v
theories/RcohSpec.v
theories/RcohProofs.v
theories/RcohProofs2.v
theories/RcohProps.v
theories/NoiseSpec.v
theories/NoiseProofs.v
theories/NoiseProofs2.v
theories/NoiseProps.v
theories/DocsModel.v
theories/DocsSpec.v
theories/DocsProofs.v
theories/DocsProps.v
theories/RgridModel.v
theories/RgridSpec.v
theories/RgridProofs.v
theories/RgridProofs2.v
theories/RgridProps.v
theories/RdegridModel.v
theories/RdegridSpec.v
theories/RdegridProofs.v
theories/RdegridProps.v
