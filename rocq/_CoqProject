-Q theories Verif

theories/AkimaEval.v
theories/AkimaProofs.v
theories/AkimaSym.v
theories/AnalyticInt.v
theories/AnalyticProofs.v
theories/AxisFourier.v
theories/AxisJac.v
theories/AxisModel.v
theories/AxisProofs.v
theories/AxisProps.v
theories/AxisSearch.v
theories/AxisSpec.v
theories/AxisWit.v
theories/Base.v
theories/BaseLemmas.v
theories/BoundaryModel.v
theories/BoundaryProofs.v
theories/BoundaryProps.v
theories/BoundarySpec.v
theories/BsubFinal.v
theories/BsubModel.v
theories/BsubProofs.v
theories/BsubProps.v
theories/BsubSpec.v
theories/CliModel.v
theories/CliProofs.v
theories/CliProps.v
theories/ContDriver.v
theories/ContModel.v
theories/ContProofs.v
theories/ContProps.v
theories/ContReal.v
theories/ContSpec.v
theories/CubicEval.v
theories/CubicProofs.v
theories/CurrentProps.v
theories/CylModel.v
theories/CylProofs.v
theories/CylProps.v
theories/DetectModel.v
theories/DetectProofs.v
theories/DetectProps.v
theories/DetectSpec.v
theories/DftFinal.v
theories/DftFold.v
theories/DftForces.v
theories/DftGeo.v
theories/DftModel.v
theories/DftProofs.v
theories/DftProps.v
theories/DftSpec.v
theories/DftTables.v
theories/ExtFinal.v
theories/ExtModel.v
theories/ExtProofs.v
theories/ExtProps.v
theories/ExtSeg.v
theories/ExtSpec.v
theories/FftBall.v
theories/FftCheck.v
theories/FftCodProofs.v
theories/FftCodProps.v
theories/FftCodSpec.v
theories/FftCodelets.v
theories/FftLang.v
theories/FftModel.v
theories/FftNearFinal.v
theories/FftNearForces.v
theories/FftNearProofs.v
theories/FftNearProps.v
theories/FftNearSpec.v
theories/FftProofs.v
theories/FftProps.v
theories/FftSim.v
theories/FftSpec.v
theories/FiltCex.v
theories/FiltFinal.v
theories/FiltModel.v
theories/FiltProofs.v
theories/FiltProps.v
theories/FiltSpec.v
theories/FlagModel.v
theories/FlagProofs.v
theories/FlagProps.v
theories/FluxFinal.v
theories/FluxModel.v
theories/FluxProofs.v
theories/FluxProps.v
theories/FluxSpec.v
theories/FourierModel.v
theories/FourierProofs.v
theories/FourierProps.v
theories/FourierSpec.v
theories/FourierTables.v
theories/GatherFinal.v
theories/GatherModel.v
theories/GatherProofs.v
theories/GatherProps.v
theories/GatherSpec.v
theories/GeoCases.v
theories/GeoExt.v
theories/GeoFinal.v
theories/GeoMag.v
theories/GeoModel.v
theories/GeoProofs.v
theories/GeoProps.v
theories/GeoSpec.v
theories/GridLemmas.v
theories/HdfCase.v
theories/HdfData.v
theories/HdfModel.v
theories/HdfProofs.v
theories/HdfProps.v
theories/HdfSpec.v
theories/HotExport.v
theories/HotModel.v
theories/HotProofs.v
theories/HotProps.v
theories/HotRead.v
theories/HotRound.v
theories/HotSeries.v
theories/HotSpec.v
theories/IhdfCase.v
theories/IhdfModel.v
theories/IhdfProofs.v
theories/IhdfProps.v
theories/IhdfSpec.v
theories/IndataCases.v
theories/IndataCheck.v
theories/IndataModel.v
theories/IndataMore.v
theories/IndataProofs.v
theories/IndataProps.v
theories/IndataRound.v
theories/IndataSpec.v
theories/InitAxis.v
theories/InitFinal.v
theories/InitModel.v
theories/InitProofs.v
theories/InitProps.v
theories/InitSpec.v
theories/JacModel.v
theories/JacProofs.v
theories/JacProps.v
theories/JacSpec.v
theories/JxbCases.v
theories/JxbFinal.v
theories/JxbMain.v
theories/JxbModel.v
theories/JxbPerp.v
theories/JxbProofs.v
theories/JxbProps.v
theories/JxbSpec.v
theories/KernelFinal.v
theories/KernelModel.v
theories/KernelProofs.v
theories/KernelProps.v
theories/KernelSpec.v
theories/LamPreProofs.v
theories/LapCases.v
theories/LapEnd.v
theories/LapFinal.v
theories/LapMain.v
theories/LapModel.v
theories/LapProofs.v
theories/LapProps.v
theories/LapSpec.v
theories/LapThreads.v
theories/LineProofs.v
theories/LoopCases.v
theories/LoopConv.v
theories/LoopGeom.v
theories/LoopGeomProps.v
theories/LoopInt.v
theories/LoopIntProps.v
theories/LoopModel.v
theories/LoopMono.v
theories/LoopProofs.v
theories/LoopProps.v
theories/LoopRoll.v
theories/LoopRollProps.v
theories/LoopSpec.v
theories/LoopVac.v
theories/LoopVacProps.v
theories/MakegridFinal.v
theories/MakegridModel.v
theories/MakegridProofs.v
theories/MakegridProps.v
theories/MakegridReal.v
theories/MakegridSpec.v
theories/MakegridTable.v
theories/MercFinal.v
theories/MercModel.v
theories/MercProofs.v
theories/MercProps.v
theories/MercSpec.v
theories/MgModel.v
theories/MgProofs.v
theories/MgProps.v
theories/MgReal.v
theories/MgSpec.v
theories/MgridB64.v
theories/MgridFinal.v
theories/MgridModel.v
theories/MgridMore.v
theories/MgridProofs.v
theories/MgridProps.v
theories/MgridSpec.v
theories/ModbProofs.v
theories/ModbProps.v
theories/NamelistModel.v
theories/NamelistProofs.v
theories/NamelistProps.v
theories/NamelistSpec.v
theories/NesFinal.v
theories/NesModel.v
theories/NesProofs.v
theories/NesProps.v
theories/NesSpec.v
theories/Num.v
theories/NumB64.v
theories/NyqCases.v
theories/NyqFinal.v
theories/NyqKernel.v
theories/NyqModel.v
theories/NyqProofs.v
theories/NyqProps.v
theories/NyqSpec.v
theories/OmpDet.v
theories/OmpModel.v
theories/OmpProofs.v
theories/PartModel.v
theories/PartProofs.v
theories/PartProps.v
theories/PartSpec.v
theories/PolyProofs.v
theories/ProfileGridProofs.v
theories/ProfileModel.v
theories/ProfileProps.v
theories/ProfileSpec.v
theories/PyCoefModel.v
theories/PyCoefProofs.v
theories/PyCoefProps.v
theories/PyCoefSpec.v
theories/PyInputModel.v
theories/PyInputProofs.v
theories/PyInputProps.v
theories/PyInputSpec.v
theories/PyIterCases.v
theories/PyIterModel.v
theories/PyIterProofs.v
theories/PyIterProps.v
theories/PyIterSim.v
theories/PyIterSpec.v
theories/PyStyleProofs.v
theories/PyStyleProps.v
theories/PyStyleSpec.v
theories/PydModel.v
theories/PydProofs.v
theories/PydProps.v
theories/PydSpec.v
theories/ReduceModel.v
theories/ReduceProofs.v
theories/ReduceProps.v
theories/RegFinal.v
theories/RegMain.v
theories/RegModel.v
theories/RegProofs.v
theories/RegProps.v
theories/RegSpec.v
theories/RegionModel.v
theories/RegionProofs.v
theories/RegionProps.v
theories/RtabCase.v
theories/RtabModel.v
theories/RtabProofs.v
theories/RtabProps.v
theories/RtabSpec.v
theories/RunCases.v
theories/RunModel.v
theories/RunProofs.v
theories/RunProps.v
theories/RunSpec.v
theories/SaveModel.v
theories/SaveProofs.v
theories/SaveProps.v
theories/SaveSpec.v
theories/SetProfModel.v
theories/SetProfProofs.v
theories/SetProfProps.v
theories/ShafCase.v
theories/ShafModel.v
theories/ShafProofs.v
theories/ShafProps.v
theories/ShafSpec.v
theories/ShafUniform.v
theories/ShapeCases.v
theories/ShapeFinal.v
theories/ShapeMain.v
theories/ShapeModel.v
theories/ShapeProofs.v
theories/ShapeProps.v
theories/ShapeSpec.v
theories/SimsGridModel.v
theories/SimsGridProofs.v
theories/SimsModel.v
theories/SimsNames.v
theories/SimsProofs.v
theories/SimsProps.v
theories/SimsSpec.v
theories/SingCoef.v
theories/SingMain.v
theories/SingMiller.v
theories/SingModel.v
theories/SingProofs.v
theories/SingProps.v
theories/SingSpec.v
theories/SingSumFinal.v
theories/SingSumMain.v
theories/SingSumModel.v
theories/SingSumProofs.v
theories/SingSumProps.v
theories/SingSumSpec.v
theories/SizesModel.v
theories/StepModel.v
theories/StepProofs.v
theories/StepProps.v
theories/StepSpec.v
theories/StepTeam.v
theories/SumLemmas.v
theories/SurfFinal.v
theories/SurfMain.v
theories/SurfMirror.v
theories/SurfModel.v
theories/SurfProofs.v
theories/SurfProps.v
theories/SurfSpec.v
theories/TableMain.v
theories/TableModel.v
theories/TableProofs.v
theories/TableProps.v
theories/TableSpec.v
theories/TeamModel.v
theories/TeamProofs.v
theories/ThomasModel.v
theories/ThomasPar.v
theories/ThomasProofs.v
theories/ThomasProps.v
theories/TrigPoly.v
theories/TrigSums.v
theories/VacTables.v
theories/WncFinal.v
theories/WncModel.v
theories/WncProofs.v
theories/WncProps.v
theories/WncSpec.v
theories/WoutCurr.v
theories/WoutFinal.v
theories/WoutMain.v
theories/WoutModel.v
theories/WoutProofs.v
theories/WoutProps.v
theories/WoutSpec.v
theories/WprofModel.v
theories/WprofProofs.v
theories/WprofProps.v
theories/WprofSpec.v
