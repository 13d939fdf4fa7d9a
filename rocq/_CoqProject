-Q theories Verif
theories/Prelude.v
theories/PreludeFacts.v
theories/WeightsModel.v
theories/WeightsSpec.v
theories/WeightsInput.v
theories/WeightsNumbering.v
theories/WeightsOperators.v
theories/WeightsCSR.v
theories/WeightsRows.v
theories/WeightsTop.v
theories/WeightsModify.v
theories/WeightsModifyTop.v
theories/WeightsProps.v
theories/NamingModel.v
theories/NamingSpec.v
theories/NamingProofs.v
theories/NamingProps.v
theories/GridModel.v
theories/GridSpec.v
theories/GridProofs.v
theories/GridMetric.v
theories/GridProps.v
theories/MapsModel.v
theories/MapsSpec.v
theories/MapsTrace.v
theories/MapsJ.v
theories/MapsTop.v
theories/MapsMore.v
theories/MapsChunks.v
theories/MapsMain.v
theories/MapsExamples.v
theories/MapsProps.v
theories/MetricModel.v
theories/MetricSpec.v
theories/MetricProofs.v
theories/MetricProps.v
theories/WriterModel.v
theories/WriterSpec.v
theories/WriterProofs.v
theories/WriterMaps.v
theories/WriterFrame.v
theories/WriterLink.v
theories/WriterAttrs.v
theories/WriterDagp.v
theories/WriterParY.v
theories/WriterProps.v
theories/PolModel.v
theories/PolSpec.v
theories/PolProofs.v
theories/PolFind.v
theories/PolAnnulus.v
theories/PolNewton.v
theories/PolArea.v
theories/PolProps.v
theories/EllipticModel.v
theories/EllipticSpec.v
theories/EllipticProofs.v
theories/EllipticSmooth.v
theories/EllipticWitness.v
theories/EllipticProps.v
theories/RzModel.v
theories/RzSpec.v
theories/RzProofs.v
theories/RzGreedy.v
theories/RzTwoOpt.v
theories/RzPoly.v
theories/RzWitness.v
theories/RzProps.v
theories/SmoothModel.v
theories/SmoothSpec.v
theories/SmoothProofs.v
theories/SmoothReplace.v
theories/SmoothWitness.v
theories/SmoothProps.v
theories/TracerModel.v
theories/TracerSpec.v
theories/TracerProofs.v
theories/PoincareProofs.v
theories/CacheProofs.v
theories/RevModel.v
theories/RevSpec.v
theories/RevProofs.v
theories/RevFollow.v
theories/EmcModel.v
theories/EmcProofs.v
theories/TracerWitness.v
theories/WebProofs.v
theories/TracerProps.v
theories/BoundaryModel.v
theories/BoundarySpec.v
theories/BoundaryProofs.v
theories/BoundaryLoop.v
theories/BoundaryConvex.v
theories/BoundaryVertex.v
theories/BoundaryWitness.v
theories/BoundaryProps.v
theories/DiffModel.v
theories/DiffSpec.v
theories/DiffProofs.v
theories/DiffProps.v
theories/ProgressModel.v
theories/ProgressSpec.v
theories/ProgressProofs.v
theories/ProgressProps.v
theories/DagpModel.v
theories/DagpSpec.v
theories/DagpProofs.v
theories/DagpLinear.v
theories/DagpThms.v
theories/DagpVolume.v
theories/DagpRect.v
theories/DagpWitness.v
theories/DagpDoit.v
theories/DagpProps.v
theories/FieldModel.v
theories/FieldSpec.v
theories/FieldProofs.v
theories/FieldMore.v
theories/FieldProps.v
theories/FieldReal.v
theories/CoilSpec.v
theories/CoilProofs.v
theories/CoilThms.v
theories/VmecProofs.v
theories/CoilWitness.v
theories/CoilProps.v
theories/DomModel.v
theories/DomProofs.v
theories/DomRadial.v
theories/DomBoundary.v
theories/DomSpec.v
theories/DomField.v
theories/DomProps.v
theories/ShapeModel.v
theories/ShapeSpec.v
theories/ShapeProofs.v
theories/ShapeMore.v
theories/SpectralProofs.v
theories/SpectralFit.v
theories/ShapeProps.v
theories/LengthModel.v
theories/LengthProofs.v
theories/LengthWitness.v
theories/LengthProps.v
theories/FastModel.v
theories/FastSpec.v
theories/FastProofs.v
theories/FastStar.v
theories/FastConvex.v
theories/FastAll.v
theories/FastWitness.v
theories/FastProps.v
theories/UpscaleModel.v
theories/UpscaleProofs.v
theories/UpscaleProps.v
theories/SlabModel.v
theories/SlabSpec.v
theories/SlabProofs.v
theories/SlabProps.v
theories/IotaModel.v
theories/IotaProofs.v
theories/IotaProps.v
theories/CurvModel.v
theories/CurvProofs.v
theories/CurvProps.v
theories/SmoothMetricModel.v
theories/SmoothMetricProofs.v
theories/SmoothMetricProps.v
theories/EllipseModel.v
theories/EllipseProofs.v
theories/EllipseProps.v
theories/FitModel.v
theories/FitSpec.v
theories/FitProofs.v
theories/FitProps.v
theories/SearchModel.v
theories/SearchSpec.v
theories/SearchProofs.v
theories/SearchProps.v
theories/PipeModel.v
theories/PipeSpec.v
theories/PipeProofs.v
theories/PipeSlab.v
theories/PipeTop.v
theories/PipeProps.v
theories/VtkModel.v
theories/VtkProofs.v
theories/VtkProps.v
theories/PlotModel.v
theories/PlotSpec.v
theories/PlotProofs.v
theories/PlotLines.v
theories/PlotMaps.v
theories/PlotProps.v
theories/SurfModel.v
theories/SurfSpec.v
theories/SurfProofs.v
theories/SurfThms.v
theories/SurfProps.v
theories/DomHatModel.v
theories/DomHatSpec.v
theories/DomHat.v
theories/DomTame.v
theories/DomInv.v
theories/DomHatProps.v
theories/W7xModel.v
theories/W7xSpec.v
theories/W7xNames.v
theories/W7xHist.v
theories/W7xInterp.v
theories/W7xWitness.v
theories/W7xProps.v
theories/AxisModel.v
theories/AxisSpec.v
theories/AxisProofs.v
theories/BmagModel.v
theories/BmagSpec.v
theories/BmagProofs.v
theories/SmoothedModel.v
theories/SmoothedSpec.v
theories/SmoothedProofs.v
theories/RestProps.v
theories/GeqdskModel.v
theories/GeqdskSpec.v
theories/GeqdskProofs.v
theories/GeqdskWitness.v
theories/GeqdskProps.v
theories/DemandModel.v
theories/DemandSpec.v
theories/DemandProofs.v
theories/DemandProps.v
theories/WeightsLip.v
theories/FloatModel.v
theories/FloatSpec.v
theories/FloatRound.v
theories/FloatProofs.v
theories/FloatMore.v
theories/FloatLine.v
theories/FloatNear.v
theories/FloatProps.v
theories/KantorSpec.v
theories/PolKantor.v
theories/KantorProps.v
theories/SlicesModel.v
theories/SlicesProofs.v
theories/SlicesProps.v
theories/RevLipSpec.v
theories/RevLip.v
theories/RevAcc.v
theories/RevBack.v
theories/RevLipProps.v
theories/SmoothRowSpec.v
theories/WeightsSmooth.v
theories/WeightsSmoothProps.v
theories/PipeSmoothSpec.v
theories/PipeSmooth.v
theories/PipeSmoothEx.v
theories/PipeSmoothProps.v
theories/PerpSpec.v
theories/PerpProofs.v
theories/PerpRect.v
theories/PerpSmooth.v
theories/PerpWitness.v
theories/PerpProps.v
theories/DiffSmoothSpec.v
theories/DiffSmooth.v
theories/DiffSmoothProps.v
theories/LengthSmooth.v
theories/LengthSmoothProps.v
theories/CentModel.v
theories/CentProofs.v
theories/CentProps.v
