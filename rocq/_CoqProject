-Q theories Verif
theories/Num.v
theories/Py.v
theories/Arr.v
theories/NumR.v
theories/NumQ.v
theories/NumF.v
theories/Waveforms.v
theories/Utils.v
theories/Probes.v
theories/Dispersive.v
theories/Line.v
theories/Bundle.v
theories/Networks.v
theories/Mtln.v
theories/ArrFacts.v
theories/RFacts.v
theories/LineFacts.v
theories/SpecLine.v
theories/SpecR.v
theories/HistoryFacts.v
theories/LineEqFacts.v
theories/LinAlg.v
theories/GeometryFacts.v
theories/LapackR.v
theories/StepTotal.v
theories/PlainFacts.v
theories/NearestFacts.v
theories/TotalFacts.v
theories/NewTotal.v
theories/TermFacts.v
theories/ExampleLine.v
theories/RunEqFacts.v
theories/AttachFacts.v
theories/ProbeFacts.v
theories/LapackQ.v
theories/SplitFacts.v
theories/SpecProbe.v
theories/RecordFacts.v
theories/SimFacts.v
theories/ExampleQ.v
theories/ExampleF.v
theories/ExampleRun.v
theories/StepProps.v
theories/PropStep.v
theories/RunProps.v
theories/PropRun.v
theories/WaveProps.v
theories/WaveMore.v
theories/PropWave.v
theories/SpecGeom.v
theories/GeomProps.v
theories/GeomProps2.v
theories/GeomProps3.v
theories/GeomProps4.v
theories/GeomProps5.v
theories/PointFacts.v
theories/PropGeom.v
theories/SpecDyn.v
theories/ConeFacts.v
theories/ConeProps.v
theories/PropCone.v
theories/SuperFacts.v
theories/SuperProps.v
theories/PropSuper.v
theories/BounceFacts.v
theories/BounceProps.v
theories/PropBounce.v
theories/SpecEnergy.v
theories/EnergyFacts.v
theories/EnergyProps.v
theories/PropEnergy.v
theories/SpecSym.v
theories/SymFacts.v
theories/SymProps.v
theories/SymExample.v
theories/PropSym.v
theories/SpecBundle.v
theories/DispFacts.v
theories/BundleFacts.v
theories/DispProps.v
theories/MemFacts.v
theories/SpecDisp.v
theories/ConnFacts.v
theories/FitFacts.v
theories/BlockFacts.v
theories/DispR.v
theories/SpecConv.v
theories/ConvFacts.v
theories/SpecLoad.v
theories/DispTotal.v
theories/DispExample.v
theories/SpecCore.v
theories/CoreEq.v
theories/BundleR.v
theories/ExampleBundle.v
theories/DispMore.v
theories/PropDisp.v
theories/CoreUnique.v
theories/SpecAlone.v
theories/AloneFacts.v
theories/AloneRun.v
theories/SpecField.v
theories/FieldFacts.v
theories/BundleMore.v
theories/PropBundle.v
theories/SpecNet.v
theories/SpecRLC.v
theories/NetFacts.v
theories/NetBuild.v
theories/NetR.v
theories/NetStamp.v
theories/NetStamp2.v
theories/NetRLC.v
theories/NetPlace.v
theories/NetTotal.v
theories/NetMore.v
theories/ExampleNet.v
theories/SpecStates.v
theories/NetStates.v
theories/SeriesFacts.v
theories/PropNet.v
theories/SpecMtln.v
theories/MtlnFacts.v
theories/MtlnProps.v
theories/MtlnPerm.v
theories/SpecTele.v
theories/MtlnR.v
theories/MtlnTotal.v
theories/ExampleMtln.v
theories/PropMtln.v
theories/Fields.v
theories/SpecFields.v
theories/FieldsFacts.v
theories/FieldsProps.v
theories/ExampleFields.v
theories/Rotate.v
theories/RotateFacts.v
theories/SpecPlane.v
theories/PlaneFacts.v
theories/PropFields.v
theories/Extract.v
theories/SpecExtract.v
theories/ExtractFacts.v
theories/PropExtract.v
theories/Parser.v
theories/SpecParser.v
theories/ParserFacts.v
theories/ParserBuild.v
theories/ParserNets.v
theories/ParserMore.v
theories/ExampleParser.v
theories/PropParser.v
theories/SpecSuper.v
theories/SuperNet.v
theories/SuperNet2.v
theories/ExampleSuper.v
theories/PropSuperNet.v
theories/SpecSolo.v
theories/SoloNet.v
theories/SoloNet2.v
theories/SoloRun.v
theories/ExampleSolo.v
theories/PropSolo.v
theories/RunFields.v
theories/SpecRun.v
theories/Runs.v
theories/RunsField.v
theories/RunsR.v
theories/ExampleTwice.v
theories/PropParserRun.v
theories/Fitting.v
theories/SpecFitting.v
theories/FittingFacts.v
theories/PropFitting.v
theories/SpecNetEnergy.v
theories/NetEnergy.v
theories/NetEnergyRun.v
theories/NetEnergyBuild.v
theories/PropNetEnergy.v
theories/SpecDoc.v
theories/SpecDocR.v
theories/ParserLines.v
theories/ParserEnds.v
theories/ParserValues.v
theories/ExampleDoc.v
theories/ExampleDocR.v
theories/PropDoc.v
theories/SpecTelegraph.v
theories/ErrFacts.v
theories/TruncFacts.v
theories/TelegraphProps.v
theories/ExampleTelegraph.v
theories/PropTelegraph.v
theories/RecipFacts.v
theories/SpecRecip.v
theories/RecipProps.v
theories/ExampleRecip.v
theories/PropRecip.v
theories/SpecShift.v
theories/ShiftFacts.v
theories/ShiftProps.v
theories/ExampleShift.v
theories/PropShift.v
theories/SpecSettle.v
theories/SettleFacts.v
theories/SettleProps.v
theories/SettleMore.v
theories/DcFacts.v
theories/DcProps.v
theories/ExampleSettle.v
theories/PropSettle.v
theories/SpecModes.v
theories/ModesProps.v
theories/ModesMore.v
theories/ExampleModes.v
theories/PropModes.v
theories/SpecRegion.v
theories/BundleRegion.v
theories/RegionTotal.v
theories/PropRegion.v
theories/SpecShiftNet.v
theories/ShiftNet.v
theories/ExampleShiftNet.v
theories/PropShiftNet.v
theories/SpecStretch.v
theories/StretchFacts.v
theories/ExampleStretch.v
theories/PropStretch.v
theories/SpecFront.v
theories/FrontFacts.v
theories/PropFront.v
theories/SpecCompose.v
theories/NetCompose.v
theories/ComposeR.v
theories/ExampleCompose.v
theories/PropCompose.v
theories/SpecElement.v
theories/ElementFacts.v
theories/PropElement.v
theories/SpecCharge.v
theories/ChargeFacts.v
theories/PropCharge.v
theories/SpecFlux.v
theories/FluxFacts.v
theories/PropFlux.v
