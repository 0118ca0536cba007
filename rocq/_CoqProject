-Q theories Verif
theories/Prelude.v
theories/Dict.v
theories/Val.v
theories/ValFacts.v
theories/StateModel.v
theories/ResultModel.v
theories/RunnerModel.v
theories/JsonModel.v
theories/SpecState.v
theories/SpecResult.v
theories/SpecRunner.v
theories/StateFacts.v
theories/SpecEq.v
theories/StateEq.v
theories/ResultFacts.v
theories/StepBeyond.v
theories/SpecReload.v
theories/JsonFacts.v
theories/JsonReload.v
theories/FileModel.v
theories/SpecFile.v
theories/FileFacts.v
theories/RunnerFacts.v
theories/SyncFacts.v
theories/ParFacts.v
theories/ParRun.v
theories/RunnerMore.v
theories/RunnerShapes.v
theories/ParReload.v
theories/SpecCalls.v
theories/CallFacts.v
theories/Demo.v
theories/Arith.v
theories/LatticeModel.v
theories/StructModel.v
theories/NbModel.v
theories/RVec.v
theories/RealArith.v
theories/SpecGeom.v
theories/SpecWide.v
theories/LatticeFacts.v
theories/LatticeMore.v
theories/LatticeOblique.v
theories/StructFacts.v
theories/StructMore.v
theories/StructBuild.v
theories/SpecNb.v
theories/NbFacts.v
theories/NbMore.v
theories/Unknown.v
theories/NbBuilt.v
theories/NbDemo.v
theories/LatticeNear.v
theories/AnnImages.v
theories/StructDemo.v
theories/GridModel.v
theories/SpecGrid.v
theories/GridFacts.v
theories/GridMore.v
theories/GridNb.v
theories/NbShapes.v
theories/GridOpen.v
theories/SimModel.v
theories/SetupModel.v
theories/SpecSetup.v
theories/SetupFacts.v
theories/SetupMore.v
theories/GridPoints.v
theories/NucFacts.v
theories/NucMore.v
theories/NucSigned.v
theories/SpecPlant.v
theories/Planting.v
theories/RulesModel.v
theories/SpecRules.v
theories/GenRun.v
theories/RulesFacts.v
theories/RulesMore.v
theories/GenFair.v
theories/GrowTies.v
theories/LifeFacts.v
theories/AsyncGrow.v
theories/AsyncPath.v
theories/LifeSym.v
theories/LifeGen.v
theories/LifeAsync.v
theories/SpecMissing.v
theories/Missing.v
theories/GrowBall.v
theories/Locality.v
theories/AnalyzerModel.v
theories/HashFacts.v
theories/SpecAnalyze.v
theories/AnalyzerFacts.v
theories/AnalyzerMore.v
theories/GrowthInit.v
theories/FracAt.v
theories/StructExact.v
theories/AnalyzerDemo.v
theories/VizModel.v
theories/SpecViz.v
theories/VizFacts.v
theories/ArtFacts.v
theories/DrawFacts.v
theories/VoxFacts.v
theories/GifFacts.v
theories/MovieFacts.v
theories/VizBeyond.v
theories/VizDemo.v
theories/HeapModel.v
theories/SpecHeap.v
theories/HeapFacts.v
theories/HeapMore.v
theories/HeapRun.v
theories/HeapDemo.v
theories/HeapSim.v
theories/HeapSimDemo.v
theories/ExnModel.v
theories/SpecExn.v
theories/ExnFacts.v
theories/ExnDemo.v
theories/LoadCache.v
theories/PmgModel.v
theories/SpecPmg.v
theories/PmgFacts.v
theories/PmgDemo.v
theories/StateStruct.v
theories/SpecHoney.v
theories/HoneyFacts.v
theories/FloatArith.v
theories/SpecFloat64.v
theories/SpecNuc.v
theories/FloatFacts.v
theories/LatticeFrac.v
theories/FracRep.v
theories/FloatPer.v
theories/FloatPerAll.v
theories/FloatCoord.v
theories/FloatGrid.v
theories/FloatMore.v
theories/FloatNb.v
theories/FloatVec.v
theories/FloatAxis.v
theories/FloatBox.v
theories/FloatNorm.v
theories/FloatCut.v
theories/FloatOpen.v
theories/FloatMotif.v
theories/FloatState.v
theories/LifeFloat.v
theories/LifeFlAll.v
theories/LifePlane.v
theories/GrowFloat.v
theories/FloatTorus.v
theories/FloatNuc.v
theories/FloatSetup.v
theories/FloatJson.v
theories/FloatDraw.v
theories/LifeAsyncFl.v
theories/FloatFrac.v
theories/GrowAll.v
theories/SpecPlantFl.v
theories/PlantGrow.v
theories/Fair.v
theories/SpecHoneyFloat.v
theories/FloatNear.v
theories/FloatInv.v
theories/FloatHoney.v
theories/ReplayCore.v
theories/ReplayLattice.v
theories/ReplayStruct.v
theories/ReplayGrid.v
theories/SpecLife.v
theories/LifeNamed.v
theories/ReplayDocs.v
theories/PropState.v
theories/PropResult.v
theories/PropRunner.v
theories/MalformedLat.v
theories/PropLattice.v
theories/PropStruct.v
theories/PropNb.v
theories/PropGrid.v
theories/PropSetup.v
theories/PropRules.v
theories/PropAnalyze.v
theories/PropViz.v
theories/PropHeap.v
theories/CallDemo.v
theories/PropCalls.v
theories/PropExn.v
theories/PropPmg.v
theories/PropHoney.v
theories/PropFloat.v
theories/PropGrow.v
theories/PropPlant.v
theories/PropStart.v
theories/PropReload.v
theories/PropShow.v
theories/PropFrac.v
theories/PropLife.v
theories/QuotModel.v
theories/SpecQuot.v
theories/QuotFacts.v
theories/PropQuot.v
theories/SpecHexDist.v
theories/HoneyGrow.v
theories/PropHexGrow.v
theories/HoneyAll.v
theories/HoneySmall.v
theories/PropHexAll.v
theories/FloatHexReload.v
theories/PropHexReload.v
theories/HoneyAsync.v
theories/PropHexAsync.v
theories/HoneyMotif.v
theories/HoneyMotifFloat.v
theories/PropHexMotif.v
theories/GrowBetween.v
theories/PropGrowDrawn.v
theories/SpecDraw.v
theories/DrawFloat.v
theories/PropDrawFloat.v
theories/SpecVisit.v
theories/AsyncDrawn.v
theories/PropAsyncDrawn.v
theories/AsyncStall.v
theories/SyncDrawn.v
theories/PropPentagon.v
theories/SpecMalformed.v
theories/Malformed.v
theories/MalformedMerge.v
theories/MalformedCurr.v
theories/MalformedBatch.v
theories/SpecLoad.v
theories/MalformedLoad.v
theories/PropMalformed.v
theories/SpecSame.v
theories/SameRuns.v
theories/SpecHex.v
theories/ConstDraw.v
theories/PropSame.v
theories/VizRaise.v
theories/PropRaise.v
theories/RunRaise.v
theories/SetupRaise.v
theories/PropUnusable.v
theories/HexFloat.v
theories/PropHexFloat.v
theories/SpecVariant.v
theories/VariantFacts.v
theories/PropVariant.v
theories/ParRaise.v
theories/PropParRaise.v
theories/SetupRaiseFl.v
theories/PropSetupFloat.v
theories/LifePeriod.v
theories/LifePeriodFl.v
theories/PropPeriod.v
theories/RunSplit.v
theories/RunResume.v
theories/PropSplit.v
theories/GrowCount.v
theories/PropFractions.v
theories/GrowRest.v
theories/GrowChange.v
theories/PropRest.v
theories/SpecRival.v
theories/LifeRival.v
theories/PropRival.v
