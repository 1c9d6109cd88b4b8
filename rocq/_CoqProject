-Q theories Verif
theories/AccProps.v
theories/AnalysisModel.v
theories/AnalysisProofs.v
theories/AnalysisProps.v
theories/AnalysisProps2.v
theories/AnalysisProps3.v
theories/BremsModel.v
theories/BremsProps.v
theories/BremsProps2.v
theories/ConstructModel.v
theories/ConstructProps.v
theories/ConvPion.v
theories/ConvProofs.v
theories/ConvProps.v
theories/ConvProps2.v
theories/ConvProps3.v
theories/CoreModel.v
theories/CoreProps.v
theories/CoreProps2.v
theories/CoreProps3.v
theories/CurveModel.v
theories/CurveProps.v
theories/DataModel.v
theories/DataProofs.v
theories/DataProofs2.v
theories/DataProps.v
theories/DataProps2.v
theories/DataProps3.v
theories/DataProps4.v
theories/DataProps5.v
theories/DataSpec.v
theories/ElectronModel.v
theories/ElectronProofs.v
theories/ElectronProps.v
theories/ElectronProps2.v
theories/EndModel.v
theories/EndProps.v
theories/EneModel.v
theories/EneProps.v
theories/EnergyModel.v
theories/EnergyProofs.v
theories/ErrProofs.v
theories/ErrProps.v
theories/ErrProps2.v
theories/FitRadModel.v
theories/FitRadProps.v
theories/FitterModel.v
theories/FitterProps.v
theories/FitterProps2.v
theories/FloatModel.v
theories/FloatProofs.v
theories/FloatProps.v
theories/FloatProps2.v
theories/FloatTrapzModel.v
theories/FloatTrapzProofs.v
theories/FloatTrapzProps.v
theories/FlowModel.v
theories/FlowProps.v
theories/FluxModel.v
theories/FubiniProofs.v
theories/HeatProps.v
theories/ICFluxModel.v
theories/ICFluxProofs.v
theories/ICFluxProps.v
theories/ICFluxProps2.v
theories/InputModel.v
theories/InputProps.v
theories/IntervalProofs.v
theories/KnProps.v
theories/LumProps.v
theories/LumProps2.v
theories/LutModel.v
theories/LutProps.v
theories/MemoModel.v
theories/MemoProofs.v
theories/MemoProofs2.v
theories/MemoProps.v
theories/MemoSpec.v
theories/MetaModel.v
theories/MetaProps.v
theories/NanProps.v
theories/Outcome.v
theories/ParModel.v
theories/ParProps.v
theories/PionModel.v
theories/PionProofs.v
theories/PionProps.v
theories/PionProps2.v
theories/PlanckProofs.v
theories/PlanckProps.v
theories/PlotModel.v
theories/PlotModel2.v
theories/PlotProps.v
theories/PlotProps2.v
theories/PlotProps3.v
theories/PlotProps4.v
theories/PlotProps5.v
theories/PlotProps6.v
theories/PlotProps7.v
theories/PowerProofs.v
theories/PowerProps.v
theories/PubProps.v
theories/PubProps2.v
theories/PubProps3.v
theories/PubProps4.v
theories/PubProps5.v
theories/PubProps6.v
theories/PubSpec.v
theories/RadiativeProps.v
theories/RadiativeProps2.v
theories/RatioProps.v
theories/ReadModel.v
theories/ReadProps.v
theories/ReportModel.v
theories/ReportProps.v
theories/ReportProps2.v
theories/SeedModel.v
theories/SeedProps.v
theories/ShapeModel.v
theories/ShapeProps.v
theories/SherpaFluxModel.v
theories/SherpaFluxProps.v
theories/SherpaModel.v
theories/SherpaProps.v
theories/SherpaProps2.v
theories/SignProofs.v
theories/SignProps.v
theories/SimplexModel.v
theories/SimplexProofs.v
theories/SimplexProps.v
theories/SimplexProps2.v
theories/SlopeProps.v
theories/SpectralModel.v
theories/SpectralProofs.v
theories/SpectralProps.v
theories/SpectralProps2.v
theories/SpectralProps3.v
theories/StoreModel.v
theories/StoreProps.v
theories/SuperProofs.v
theories/SuperProps.v
theories/SuperProps2.v
theories/ThomProps.v
theories/ThomsonProofs.v
theories/ThomsonProps.v
theories/TrapzModel.v
theories/TrapzProofs.v
theories/TrapzProps.v
theories/TrapzSpec.v
theories/UnitFluxModel.v
theories/UnitFluxProps.v
theories/UnitsModel.v
theories/VecModel.v
theories/VecModel2.v
theories/VecProofs.v
theories/VecProps.v
theories/VecProps2.v
theories/VecProps3.v
theories/ViewModel.v
theories/ViewProps.v
theories/XBremsModel.v
theories/XBremsProps.v
