-Q theories Verif
theories/PyBase.v
theories/PolyModel.v
theories/PolySpec.v
theories/PolyProofs.v
theories/PolyProofs2.v
theories/PolyProofs3.v
theories/PolyTransfer.v
theories/PolyProofs4.v
theories/PolyAliasModel.v
theories/PolyAliasSpec.v
theories/PolyAliasProofs.v
theories/PolyProps.v
theories/LegendreModel.v
theories/LegendreSpec.v
theories/LegendreProofs.v
theories/LegendreProofs2.v
theories/LegendreProps.v
theories/BaryModel.v
theories/BarySpec.v
theories/BaryProofs.v
theories/BaryProps.v
theories/BBoxModel.v
theories/EdgeSpaceModel.v
theories/EdgeSpaceSpec.v
theories/EdgeSpaceProofs.v
theories/IntPolyModel.v
theories/IntPolyProofs.v
theories/EdgeSpaceProps.v
theories/FloatIdxModel.v
theories/FloatIdxProofs.v
theories/FloatIdxProps.v
theories/PolyProps2.v
theories/EdgeSpaceProps2.v
theories/QuadModel.v
theories/QuadSpec.v
theories/QuadProofs.v
theories/QuadProofs2.v
theories/QuadProofs3.v
theories/QuadProps.v
theories/CurveModel.v
theories/CurveSpec.v
theories/CurveProps.v
theories/VertModel.v
theories/VertProps.v
theories/EdgeModel.v
theories/EdgeSpec.v
theories/EdgeProofs.v
theories/EdgeProofs2.v
theories/EdgeProps.v
theories/EdgeProps2.v
theories/EdgeProps3.v
theories/SplitModel.v
theories/SplitProofs.v
theories/SplitProps.v
theories/EdgeProps4.v
theories/ContourModel.v
theories/CellModel.v
theories/CellSpec.v
theories/CellProofs.v
theories/CellProps.v
theories/ContourProofs.v
theories/ContourProofs2.v
theories/ContourProofs3.v
theories/InteriorProofs.v
theories/ContourProofs4.v
theories/ContourProps.v
theories/CellProofs2.v
theories/Annulus.v
theories/CellProps2.v
theories/CellProps3.v
theories/CellProps4.v
theories/CellProps5.v
theories/MaskProps.v
theories/MeshModel.v
theories/MeshSpec.v
theories/MeshProofs.v
theories/MeshProps.v
theories/PegSpec.v
theories/PegProofs.v
theories/PegProps.v
theories/Labels.v
theories/PegProps2.v
theories/GlobModel.v
theories/GlobSpec.v
theories/GlobProofs.v
theories/GlobProps.v
theories/SolverModel.v
theories/SolverSpec.v
theories/SolverProofs.v
theories/SolverProps.v
theories/SolverProps2.v
theories/SolverProps3.v
theories/TraceModel.v
theories/TraceSpec.v
theories/TraceProofs.v
theories/TraceProps.v
theories/TraceProps2.v
theories/LocalModel.v
theories/LocalSpec.v
theories/LocalProofs.v
theories/LocalProofs2.v
theories/LocalProofs3.v
theories/LocalProofs4.v
theories/DiscCell.v
theories/LocalProps.v
theories/LocalProps2.v
theories/LocalProofs5.v
theories/LocalProps3.v
theories/FftModel.v
theories/FftSpec.v
theories/FftProofs.v
theories/FftProofs2.v
theories/FftProofs3.v
theories/FftProps.v
theories/AntilapModel.v
theories/AntilapSpec.v
theories/AntilapProofs.v
theories/AntilapProofs2.v
theories/AntilapProofs3.v
theories/AntilapProps.v
theories/RingCell.v
theories/AntilapProofs4.v
theories/AntilapProps2.v
theories/NystromModel.v
theories/NystromSpec.v
theories/NystromProofs.v
theories/NystromProofs2.v
theories/NystromProofs3.v
theories/NystromProofs4.v
theories/NystromProofs5.v
theories/NystromProofs6.v
theories/NystromProofs7.v
theories/NystromProofs8.v
theories/NystromProps.v
theories/NystromProps2.v
theories/LocSpaceModel.v
theories/LocSpaceSpec.v
theories/LocSpaceProofs.v
theories/LocSpaceProofs2.v
theories/LocSpaceProofs3.v
theories/LocSpaceProofs4.v
theories/ShiftProofs.v
theories/LocSpaceProps.v
theories/LocSpaceProps2.v
theories/LocSpaceProps3.v
theories/LocSpaceProps4.v
theories/TriCell.v
theories/LocSpaceProps5.v
theories/PwpModel.v
theories/PwpProps.v
theories/LocFunModel.v
theories/LocFunProps.v
theories/AsmModel.v
theories/AsmSpec.v
theories/AsmProofs.v
theories/AsmProofs2.v
theories/AsmProofs3.v
theories/AsmProps.v
theories/AsmProps2.v
theories/AsmProps3.v
theories/PlotModel.v
theories/PlotSpec.v
theories/PlotProps.v
theories/PlotProps2.v
theories/LocPlotModel.v
theories/LocPlotSpec.v
theories/LocPlotProofs.v
theories/LocPlotProps.v
theories/LocPlotProps2.v
theories/TracePlotModel.v
theories/TracePlotSpec.v
theories/TracePlotProofs.v
theories/TracePlotProps.v
theories/TracePlotProps2.v
theories/LibModel.v
theories/LibSpec.v
theories/LibProofs.v
theories/LibProofs2.v
theories/LibProofs3.v
theories/LibProofs4.v
theories/LibProps.v
theories/PolyErr.v
theories/PolyErr2.v
theories/PolyErr3.v
theories/ErrProps.v
theories/LocalErrProps.v
theories/DeparamProps.v
theories/BaryProps2.v
theories/KindProps.v
theories/SpanSpec.v
theories/SpanProofs.v
theories/SpanProofs2.v
theories/SpanProps.v
theories/PrintModel.v
theories/PrintSpec.v
theories/PrintProps.v
theories/OpMatModel.v
theories/OpMatProps.v
theories/SampleProps.v
theories/StaleProofs.v
theories/StaleProps.v
theories/BcastProofs.v
theories/BcastProps.v
theories/FaultModel.v
theories/FaultProofs.v
theories/FaultProps.v
theories/NameProps.v
theories/DrawModel.v
theories/DrawSpec.v
theories/DrawProofs.v
theories/DrawProps.v
theories/GuardProps.v
theories/FloatPolyModel.v
theories/FloatErr.v
theories/FloatPolySpec.v
theories/FloatPolyProofs.v
theories/FloatPolyProps.v
theories/FloatQuadModel.v
theories/FloatQuadSpec.v
theories/FloatQuadProofs.v
theories/FloatQuadProps.v
theories/GuardProps2.v
theories/FloatBdryModel.v
theories/FloatBdryProofs.v
theories/FloatBdryProps.v
theories/SummaryModel.v
theories/SummarySpec.v
theories/SummaryProps.v
theories/FloatInnerModel.v
theories/FloatInnerProofs.v
theories/FloatInnerProps.v
theories/FloatInnerProps2.v
theories/GuardProps3.v
theories/ConvSpec.v
theories/ConvProofs.v
theories/ConvProofs2.v
theories/ConvProps.v
theories/ConvProps2.v
theories/ConvProofs3.v
theories/ConvProofs4.v
theories/ConvProps3.v
theories/ConvProps4.v
theories/ConvProofs5.v
theories/ConvProps5.v
theories/ConvProps6.v
theories/ConvProps7.v
theories/ConvProps8.v
theories/SetterModel.v
theories/SetterSpec.v
theories/SetterProofs.v
theories/SetterProps.v
theories/SetterProps2.v
theories/RateSpec.v
theories/RateProofs.v
theories/RateProofs2.v
theories/RateProofs3.v
theories/RateProofs4.v
theories/RateProofs5.v
theories/RateProps.v
theories/RateProps2.v
theories/GuardProps4.v
theories/BoardProofs.v
theories/BoardProofs2.v
theories/BoardProofs3.v
theories/BoardProps.v
theories/BoardProps2.v
theories/CellFaultModel.v
theories/CellFaultSpec.v
theories/CellFaultProofs.v
theories/CellFaultProps.v
theories/GuardProps5.v
theories/BoardSpec.v
theories/BoardProofs4.v
theories/BoardProps3.v
theories/CellFaultProps2.v
theories/AgainProofs.v
theories/AgainProofs2.v
theories/AgainProps.v
theories/FloatBdryProps2.v
theories/FlagProofs.v
theories/FlagProps.v
theories/ConstProofs.v
theories/ConstProps.v
theories/PrintProps2.v
theories/ConstProps2.v
theories/FloatEdgeModel.v
theories/FloatEdgeProofs.v
theories/FloatEdgeProps.v
